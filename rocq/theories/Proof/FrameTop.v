(** Frames and assemblies: the statements for all histories. *)
From Coq Require Import Reals List Arith Bool Lia Lra.
From Verif.Base Require Import Py Num Vec.
From Verif.Model Require Import RayBundle Engine Assembly.
From Verif.Spec Require Import FrameSpec.
From Verif.Proof Require Import ListLemmas VecLemmas ProcessProof FrameProof FrameHistory PlaceProof PlaceTop.
Import ListNotations.

Lemma changes_sets w n f (g : mat4 -> mat4 -> Prop) w' : changes w n f w' -> (forall m, g m (f m)) -> sets w n g w'.
Proof.
  intros (I & _ & K & (m & M1 & M2) & O) G. split; [apply inv_sync; auto|]. split; auto. split; auto.
  exists m, (f m). auto.
Qed.

Lemma with_loc_moved v m : moved_to v m (with_loc m v).
Proof. split; [apply loc_with_loc|]. split; [apply rot_with_loc|]. reflexivity. Qed.
Lemma with_rot_turned s m : turned_to s m (with_rot m s).
Proof. split; [apply loc_with_rot|]. split; [apply rot_with_rot|]. reflexivity. Qed.

Section Reached.
Variables (limit : nat) (es : list event) (w : world).
Hypothesis H : history limit es w.
Let I : inv w := history_inv limit es w H.

Lemma reached_set_location n b v w' o : sole w n -> kind_of w n <> None -> b < w_next w -> w_arr w b = A3 v ->
  set_location limit n (Whole b) w = (w', o) -> sets w n (moved_to v) w'.
Proof.
  intros So K L E S. eapply changes_sets; [eapply set_location_changes; eauto|]. intros m; apply with_loc_moved.
Qed.
Lemma reached_set_rotation n b s w' o : sole w n -> kind_of w n <> None -> b < w_next w -> w_arr w b = A33 s ->
  set_rotation limit n (Whole b) w = (w', o) -> sets w n (turned_to s) w'.
Proof.
  intros So K L E S. eapply changes_sets; [eapply set_rotation_changes; eauto|]. intros m; apply with_rot_turned.
Qed.
Lemma reached_set_transform n r w' o : kind_of w n <> None -> usable_transform w n r ->
  set_transform limit n r w = (w', o) -> exists t, read w r = A44 t /\ sets w n (fun _ m' => m' = t) w'.
Proof.
  intros K O S. destruct (set_transform_changes limit n r w w' o I K O S) as (t & Rt & C & _). exists t. split; auto.
  eapply changes_sets; [eauto|]. auto.
Qed.

Lemma reached_children n t w' : transform_children limit n t w = (w', Ok tt) ->
  (forall l, (exists T, path w n l T) -> exists T, path w n l T /\ placed_by w' l (mm4 t T)) /\
  (forall l, ~ (exists T, path w n l T) -> placed_array w' l = placed_array w l) /\
  (forall k, same_node w w' k).
Proof. apply transform_children_top; auto. Qed.
Lemma reached_children_succeeds d n t : snd (transform_children d n t w) = Ok tt <-> built w d n.
Proof. apply transform_children_succeeds; auto. Qed.

Lemma reached_place_location n b v w' : sole w n -> composite w n -> b < w_next w -> w_arr w b = A3 v ->
  set_location limit n (Whole b) w = (w', Ok tt) -> well_placed w' n /\
  forall l, l <> n -> ~ (exists T, path w' n l T) -> apart w n l -> placed_array w' l = placed_array w l.
Proof. intros So C L E S. eapply set_location_top in S; eauto. tauto. Qed.
Lemma reached_place_rotation n b v w' : sole w n -> composite w n -> b < w_next w -> w_arr w b = A33 v ->
  set_rotation limit n (Whole b) w = (w', Ok tt) -> well_placed w' n /\
  forall l, l <> n -> ~ (exists T, path w' n l T) -> apart w n l -> placed_array w' l = placed_array w l.
Proof. intros So C L E S. eapply set_rotation_top in S; eauto. tauto. Qed.
Lemma reached_place_transform n r w' : composite w n -> usable_transform w n r ->
  set_transform limit n r w = (w', Ok tt) -> well_placed w' n /\
  forall l, ~ (exists T, path w' n l T) -> placed_array w' l = placed_array w l.
Proof. intros C O S. eapply set_transform_top in S; eauto. destruct S as (t & _ & _ & A & B). auto. Qed.

Lemma reached_succeed n : composite w n ->
  (forall b v, sole w n -> b < w_next w -> w_arr w b = A3 v -> (snd (set_location limit n (Whole b) w) = Ok tt <-> built w limit n)) /\
  (forall b s, sole w n -> b < w_next w -> w_arr w b = A33 s -> (snd (set_rotation limit n (Whole b) w) = Ok tt <-> built w limit n)) /\
  (forall r, usable_transform w n r -> (snd (set_transform limit n r w) = Ok tt <-> built w limit n)).
Proof.
  intros C. split; [|split]; intros.
  - eapply set_location_succeeds; eauto.
  - eapply set_rotation_succeeds; eauto.
  - eapply set_transform_succeeds; eauto.
Qed.

Lemma reached_add_object a o tr os ms w' : kind_of w a = Some (KAsm os ms) -> usable_opt w o tr ->
  add_object limit a o tr w = (w', Ok tt) ->
  exists t, given w tr t /\ child_added w a o (KAsm (os ++ [o]) ms) t w'.
Proof. apply add_object_top; auto. Qed.
Lemma reached_add_assembly a o tr os ms w' : kind_of w a = Some (KAsm os ms) -> usable_opt w o tr ->
  add_assembly limit a o tr w = (w', Ok tt) ->
  exists t, given w tr t /\ child_added w a o (KAsm os (ms ++ [o])) t w'.
Proof. apply add_assembly_top; auto. Qed.
Lemma reached_add_surface o s ss bs w' : kind_of w o = Some (KObj ss bs) ->
  add_surface limit o s w = (w', Ok tt) -> member_added w o (KObj (ss ++ [s]) bs) w'.
Proof. apply add_surface_top; auto. Qed.
Lemma reached_add_boundary o s ss bs w' : kind_of w o = Some (KObj ss bs) ->
  add_boundary limit o s w = (w', Ok tt) -> member_added w o (KObj ss (bs ++ [s])) w'.
Proof. apply add_boundary_top; auto. Qed.
End Reached.

(** When every path to a surface gives the same product, it is placed there. *)
Lemma well_placed_unique w n l T : well_placed w n -> path w n l T ->
  (forall T', path w n l T' -> T' = T) -> placed_by w l T.
Proof. intros W P U. destruct (W l) as (T' & P' & Pl); eauto. rewrite (U T' P') in Pl. auto. Qed.

(** ** The engine's ownership table *)

Lemma surfs_until_sss (objs : list obj) (sss : list (list nat)) : map o_nsurf objs = map (@length nat) sss ->
  forall k, surfs_until objs k = length (concat (firstn k sss)).
Proof.
  intros E k. unfold surfs_until. rewrite fold_add_right. simpl. revert sss E k.
  induction objs as [|o objs IH]; intros sss E k; destruct sss as [|s sss]; try discriminate.
  - rewrite !firstn_nil. reflexivity.
  - destruct k; simpl; auto. injection E as E1 E2. rewrite app_length, <- (IH sss E2 k). lia.
Qed.

Lemma nth_error_concat {A} (sss : list (list A)) : forall i s, nth_error (concat sss) i = Some s ->
  exists k ss, nth_error sss k = Some ss /\ length (concat (firstn k sss)) <= i /\
    nth_error ss (i - length (concat (firstn k sss))) = Some s.
Proof.
  induction sss as [|ss sss IH]; simpl; intros i s H; [destruct i; discriminate|].
  destruct (Nat.ltb_spec i (length ss)) as [L|L].
  - rewrite nth_error_app1 in H by auto. exists 0, ss. simpl. rewrite Nat.sub_0_r. auto with arith.
  - rewrite nth_error_app2 in H by auto. destruct (IH _ _ H) as (k & ss' & E & Hl & Hn).
    exists (S k), ss'. simpl. rewrite app_length. split; auto. split; [lia|].
    replace (i - (length ss + length (concat (firstn k sss)))) with (i - length ss - length (concat (firstn k sss))) by lia.
    auto.
Qed.

Lemma ownership_top (objs : list obj) (sss : list (list nat)) :
  map o_nsurf objs = map (@length nat) sss ->
  length (surf_ownership objs) = length (concat sss) /\
  forall i s, nth_error (concat sss) i = Some s ->
    exists k ss, nth_error (surf_ownership objs) i = Some k /\ nth_error sss k = Some ss /\
      surfs_until objs k <= i /\ nth_error ss (i - surfs_until objs k) = Some s.
Proof.
  intros E. assert (B : forall i s, nth_error (concat sss) i = Some s ->
    exists k ss, nth_error (surf_ownership objs) i = Some k /\ nth_error sss k = Some ss /\
      surfs_until objs k <= i /\ nth_error ss (i - surfs_until objs k) = Some s).
  { intros i s H. destruct (nth_error_concat _ _ _ H) as (k & ss & Es & Hl & Hn). exists k, ss.
    rewrite (surfs_until_sss objs sss E). split; auto. apply surf_ownership_nth.
    assert (Hk : nth_error (map o_nsurf objs) k = Some (length ss)) by (rewrite E, nth_error_map, Es; auto).
    rewrite nth_error_map in Hk. destruct (nth_error objs k) as [o|]; [|discriminate]. injection Hk as Hk.
    exists o. split; auto. rewrite (surfs_until_sss objs sss E).
    assert (i - length (concat (firstn k sss)) < length ss) by (apply nth_error_Some; congruence). lia. }
  split; auto. unfold surf_ownership. clear B. generalize 0 as j. revert sss E.
  induction objs as [|o objs IH]; intros sss E j; destruct sss as [|s sss]; try discriminate; auto.
  simpl. injection E as E1 E2. rewrite !app_length, repeat_length, (IH sss E2). lia.
Qed.

(** ** Constructors and repair *)

Lemma reached_new_frame limit es w : history limit es w ->
  forall k em loc rot w' o, plain_opt w loc -> plain_opt w rot ->
  init_frame limit k em loc rot w = (w', o) -> in_sync w' /\
  (forall j, j <> w_size w -> same_node w w' j) /\
  (forall n, o = Ok n -> n = w_size w /\ kind_of w' n = Some k /\
     exists v s, given_location w loc v /\ given_rotation w rot s /\ transform_of w' n = Some (mk4 s v)).
Proof.
  intros H k em loc rot w' o Pl Pr E. destruct (init_frame_inv limit k em loc rot w w' o) as (I & A & B); auto.
  { eapply history_inv; eauto. }
  split; auto. apply inv_sync; auto.
Qed.

Lemma reached_new_object limit es w : history limit es w ->
  forall ss bs tr w' o, usable_opt w (w_size w) tr ->
  new_object limit ss bs tr w = (w', o) -> in_sync w' /\
  (forall j, j <> w_size w -> same_node w w' j) /\
  (forall n, o = Ok n -> n = w_size w /\ kind_of w' n = Some (KObj ss bs) /\
     exists t, given w tr t /\ transform_of w' n = Some t).
Proof.
  intros H ss bs tr w' o O E. destruct (new_object_inv limit ss bs tr w w' o) as (I & A & B); auto.
  { eapply history_inv; eauto. }
  split; [apply inv_sync; auto|]. split; auto. intros n En. destruct (B n En) as (B1 & B2 & B3). split; auto. split; auto.
  destruct tr as [r|]; simpl in *; [|eauto]. destruct O as (b & m & -> & _ & Eb & _). simpl in *. rewrite Eb in B3. eauto.
Qed.

Lemma reached_repair limit es w : history limit es w ->
  forall top w', transform_children limit top id4 w = (w', Ok tt) -> well_placed w' top.
Proof. intros H top w' E. eapply children_placed in E; [apply E|eapply history_inv; eauto]. Qed.
