(** Constructors, as used in the properties. *)
From Coq Require Import Reals List Arith Bool Lia Lra.
From Verif.Base Require Import Py Num Vec.
From Verif.Model Require Import Spatial Assembly.
From Verif.Spec Require Import FrameSpec.
From Verif.Proof Require Import VecLemmas FrameProof FrameHistory PlaceProof PlaceTop ConstructProof FrameExample.
Import ListNotations.

Lemma size_free w : inv w -> kind_of w (w_size w) = None.
Proof.
  intros (A & _). unfold kind_of. destruct (w_node w (w_size w)) as [y|] eqn:E; auto. destruct (A _ y E). lia.
Qed.

Lemma made_leaf limit es w k em loc rot v s : history limit es w -> is_leaf k = true ->
  plain_opt w loc -> plain_opt w rot -> given_location w loc v -> given_rotation w rot s ->
  exists w' n, init_frame limit k em loc rot w = (w', Ok n) /\ created w n k (mk4 s v) w' /\ others_stay w n w' /\
    placed_array w' n = Some (match k with KSphere => A3 v | _ => A44 (mk4 s v) end).
Proof.
  intros H Lf Pl Pr Gl Gr. pose proof (history_inv _ _ _ H) as I.
  assert (Hk : plain_kind w limit k) by (destruct k; simpl in *; auto; discriminate).
  destruct (init_frame_placed limit k em loc rot w v s I Pl Pr Gl Gr Hk) as (w' & E & I' & _ & K & T & S & P & _ & O).
  exists w', (w_size w). split; auto. split; [|split; auto].
  - split; [apply size_free; auto|]. split; auto. split; auto. split; [apply inv_sync; auto|auto].
  - intros l Nl. destruct (O l Nl) as [(T' & (c & Hc & _) & _)|(_ & X)]; auto.
    exfalso. destruct k; simpl in Lf, Hc; try contradiction; discriminate.
Qed.

Lemma made_surface : forall limit es w, history limit es w -> forall em loc rot v s,
  plain_opt w loc -> plain_opt w rot -> given_location w loc v -> given_rotation w rot s ->
  exists w' n, new_surface limit em loc rot w = (w', Ok n) /\ created w n KSurf (mk4 s v) w' /\ others_stay w n w' /\
    global_frame w' n = Some (mk4 s v).
Proof.
  intros limit es w H em loc rot v s Pl Pr Gl Gr.
  destruct (made_leaf limit es w KSurf em loc rot v s H eq_refl Pl Pr Gl Gr) as (w' & n & E & C & O & P).
  exists w', n. unfold global_frame. rewrite P. auto.
Qed.
Lemma made_boundary : forall limit es w, history limit es w -> forall em loc rot v s,
  plain_opt w loc -> plain_opt w rot -> given_location w loc v -> given_rotation w rot s ->
  exists w' n, new_boundary limit em loc rot w = (w', Ok n) /\ created w n KBound (mk4 s v) w' /\ others_stay w n w' /\
    global_frame w' n = Some (mk4 s v).
Proof.
  intros limit es w H em loc rot v s Pl Pr Gl Gr.
  destruct (made_leaf limit es w KBound em loc rot v s H eq_refl Pl Pr Gl Gr) as (w' & n & E & C & O & P).
  exists w', n. unfold global_frame. rewrite P. auto.
Qed.
Lemma made_sphere : forall limit es w, history limit es w -> forall em loc v,
  plain_opt w loc -> given_location w loc v ->
  exists w' n, new_sphere limit em loc w = (w', Ok n) /\ created w n KSphere (mk4 id3 v) w' /\ others_stay w n w' /\
    global_centre w' n = Some v.
Proof.
  intros limit es w H em loc v Pl Gl.
  destruct (made_leaf limit es w KSphere em loc None v id3 H eq_refl Pl Logic.I Gl eq_refl) as (w' & n & E & C & O & P).
  exists w', n. unfold global_centre. rewrite P. auto.
Qed.

Lemma made_object : forall limit es w, history limit es w -> forall ss bs tr t,
  usable_opt w (w_size w) tr -> given w tr t -> Forall (fun l => kind_of w l <> None) (ss ++ bs) -> 0 < limit ->
  exists w' n, new_object limit ss bs tr w = (w', Ok n) /\ created w n (KObj ss bs) t w' /\ well_placed w' n /\
    forall l, l <> n -> ~ In l (ss ++ bs) -> placed_array w' l = placed_array w l.
Proof.
  intros limit es w H ss bs tr t U G F L. pose proof (history_inv _ _ _ H) as I.
  destruct (new_object_placed limit ss bs tr t w I U G F L) as (w' & E & I' & _ & K & T & S & P & A & B).
  exists w', (w_size w). split; auto. split; [|split].
  - split; [apply size_free; auto|]. split; auto. split; auto. split; [apply inv_sync; auto|auto].
  - intros l (T' & Pt). exists T'. split; auto. inversion Pt; subst; rewrite K in *; try discriminate.
    match goal with X : Some (KObj _ _) = Some (KObj _ _) |- _ => injection X as <- <- end.
    assert (T' = t) by congruence. subst. auto.
  - intros l N1 N2. auto.
Qed.

Lemma made_assembly : forall limit es w, history limit es w -> forall em os ms loc rot v s d,
  plain_opt w loc -> plain_opt w rot -> given_location w loc v -> given_rotation w rot s ->
  Forall (built w d) (os ++ ms) -> d < limit ->
  exists w' n, new_assembly limit em os ms loc rot w = (w', Ok n) /\ created w n (KAsm os ms) (mk4 s v) w' /\ well_placed w' n /\
    forall l, l <> n -> ~ (exists T, path w' n l T) -> placed_array w' l = placed_array w l.
Proof.
  intros limit es w H em os ms loc rot v s d Pl Pr Gl Gr F L. pose proof (history_inv _ _ _ H) as I.
  assert (Hk : plain_kind w limit (KAsm os ms)) by (simpl; eauto).
  destruct (init_frame_placed limit _ em loc rot w v s I Pl Pr Gl Gr Hk) as (w' & E & I' & _ & K & T & S & P & Pt & O).
  exists w', (w_size w). split; auto. split; [|split].
  - split; [apply size_free; auto|]. split; auto. split; auto. split; [apply inv_sync; auto|auto].
  - intros l (T1 & P1). apply Pt in P1. destruct P1 as (T2 & R & ->).
    assert (Nl : l <> w_size w) by (eapply reached_other; [exact Hk|apply size_free; auto|exact R]).
    destruct (O l Nl) as [(T3 & R3 & X)|(No & _)]; [|exfalso; eapply No; eauto].
    exists (mm4 (mk4 s v) T3). split; auto. apply Pt. eauto.
  - intros l Nl N. destruct (O l Nl) as [(T3 & R3 & X)|(_ & X)]; auto.
    exfalso. apply N. exists (mm4 (mk4 s v) T3). apply Pt. eauto.
Qed.


(** ** Moving a surface or boundary itself *)

Lemma leaf_node w n : leaf w n -> exists x, w_node w n = Some x /\ is_leaf (n_kind x) = true.
Proof.
  unfold leaf, kind_of. destruct (w_node w n) as [x|]; [|intros [|[|]]; discriminate].
  intros K. exists x. split; auto. destruct (n_kind x); auto; destruct K as [K|[K|K]]; discriminate K.
Qed.

Lemma leaf_set_transform : forall limit es w, history limit es w -> forall n r, leaf w n -> usable_transform w n r ->
  exists w' t, set_transform limit n r w = (w', Ok tt) /\ read w r = A44 t /\ transform_of w' n = Some t /\
    forall l, placed_array w' l = placed_array w l.
Proof.
  intros limit es w H n r Lf (b & m & -> & Lb & Eb & _). destruct (leaf_node w n Lf) as (x & E & L).
  unfold set_transform, then_children. erewrite mbind_ok by (unfold get_node; rewrite E; reflexivity). rewrite L.
  destruct (frame_set_transform_eq w n x b m E Eb) as (w' & H' & Ha & Hn & Hs & En & Ek).
  exists w', m. split; auto. split; [exact Eb|]. split; [unfold transform_of; rewrite En; simpl; rewrite Ha, Eb; auto|].
  assert (R : forall q, read w' q = read w q) by (intros []; simpl; rewrite Ha; auto).
  intros l. unfold placed_array. destruct (Nat.eq_dec l n) as [->|N].
  - rewrite En, E. cbn. destruct (f_temp (n_fr x)); auto. rewrite R; auto.
  - rewrite Ek by auto. destruct (w_node w l) as [y|]; auto. destruct (f_temp (n_fr y)); auto. rewrite R; auto.
Qed.

Lemma leaf_set_location : forall limit es w, history limit es w -> forall n b v, kind_of w n = Some KSurf -> sole w n ->
  b < w_next w -> w_arr w b = A3 v ->
  exists w' m, set_location limit n (Whole b) w = (w', Ok tt) /\ transform_of w n = Some m /\
    transform_of w' n = Some (with_loc m v) /\
    (traced_by_transform w n -> traced_by_transform w' n /\ global_frame w' n = Some (with_loc m v)) /\
    (apart w n n -> placed_array w' n = placed_array w n).
Proof.
  intros limit es w H n b v K So Lb Eb. pose proof (history_inv _ _ _ H) as I.
  destruct (leaf_node w n) as (x & E & L); [left; exact K|].
  destruct (inv_node w n x I E) as (a & m & Et & La & Ea & _ ).
  assert (Tm : transform_of w n = Some m) by (unfold transform_of; rewrite E, Et; simpl; rewrite Ea; auto).
  pose proof (frame_set_location_eq w n x a m (Whole b) v E Et Ea Eb) as F.
  rewrite (set_location_run limit n x _ w _ E F), L. eexists. exists m. split; [reflexivity|]. split; auto.
  set (w' := reframe _ _ _ _ _ _).
  assert (E' : w_node w' n = Some (mkN (n_kind x) (mkF (Whole a) (Whole b) (f_rot (n_fr x)) (f_temp (n_fr x))))) by (unfold w', reframe; cbn [w_node]; apply upd_same).
  assert (Ea' : w_arr w' a = A44 (with_loc m v)) by (unfold w', reframe; cbn [w_arr]; apply upd_same).
  split; [unfold transform_of; rewrite E'; simpl; rewrite upd_same; auto|]. split.
  - intros (y & Ey & Ty). rewrite E in Ey. injection Ey as <-. rewrite Et in Ty. split.
    + eexists. split; [exact E'|]. exact Ty.
    + unfold global_frame, placed_array. rewrite E'. cbn [n_fr f_temp]. rewrite Ty. simpl. rewrite upd_same. auto.
  - intros Ap. unfold placed_array. rewrite E', E. cbn [n_fr f_temp]. destruct (f_temp (n_fr x)) as [r|] eqn:Er; auto.
    specialize (Ap x x r E E Er). rewrite Et in Ap. f_equal. apply (read_near w w' a); auto.
    intros c Nc. unfold w', reframe. cbn [w_arr]. apply upd_other; auto.
Qed.

Lemma leaf_set_rotation : forall limit es w, history limit es w -> forall n b v, kind_of w n = Some KSurf -> sole w n ->
  b < w_next w -> w_arr w b = A33 v ->
  exists w' m, set_rotation limit n (Whole b) w = (w', Ok tt) /\ transform_of w n = Some m /\
    transform_of w' n = Some (with_rot m v) /\
    (traced_by_transform w n -> traced_by_transform w' n /\ global_frame w' n = Some (with_rot m v)) /\
    (apart w n n -> placed_array w' n = placed_array w n).
Proof.
  intros limit es w H n b v K So Lb Eb. pose proof (history_inv _ _ _ H) as I.
  destruct (leaf_node w n) as (x & E & L); [left; exact K|].
  destruct (inv_node w n x I E) as (a & m & Et & La & Ea & _ ).
  assert (Tm : transform_of w n = Some m) by (unfold transform_of; rewrite E, Et; simpl; rewrite Ea; auto).
  pose proof (frame_set_rotation_eq w n x a m (Whole b) v E Et Ea Eb) as F.
  rewrite (set_rotation_run limit n x _ w _ E F), L. eexists. exists m. split; [reflexivity|]. split; auto.
  set (w' := reframe _ _ _ _ _ _).
  assert (E' : w_node w' n = Some (mkN (n_kind x) (mkF (Whole a) (f_loc (n_fr x)) (Whole b) (f_temp (n_fr x))))) by (unfold w', reframe; cbn [w_node]; apply upd_same).
  assert (Ea' : w_arr w' a = A44 (with_rot m v)) by (unfold w', reframe; cbn [w_arr]; apply upd_same).
  split; [unfold transform_of; rewrite E'; simpl; rewrite upd_same; auto|]. split.
  - intros (y & Ey & Ty). rewrite E in Ey. injection Ey as <-. rewrite Et in Ty. split.
    + eexists. split; [exact E'|]. exact Ty.
    + unfold global_frame, placed_array. rewrite E'. cbn [n_fr f_temp]. rewrite Ty. simpl. rewrite upd_same. auto.
  - intros Ap. unfold placed_array. rewrite E', E. cbn [n_fr f_temp]. destruct (f_temp (n_fr x)) as [r|] eqn:Er; auto.
    specialize (Ap x x r E E Er). rewrite Et in Ap. f_equal. apply (read_near w w' a); auto.
    intros c Nc. unfold w', reframe. cbn [w_arr]. apply upd_other; auto.
Qed.

Lemma made_surface_traced : forall limit es w, history limit es w -> forall em loc rot v s,
  plain_opt w loc -> plain_opt w rot -> given_location w loc v -> given_rotation w rot s ->
  forall w' n, new_surface limit em loc rot w = (w', Ok n) -> traced_by_transform w' n.
Proof.
  intros limit es w H em loc rot v s Pl Pr Gl Gr w' n E. unfold new_surface, init_frame in E.
  apply mbind_inv in E. destruct E as (w1 & [l|] & _ & E); [|destruct E; discriminate].
  apply mbind_inv in E. destruct E as (w2 & [r|] & _ & E); [|destruct E; discriminate].
  apply mbind_inv in E. destruct E as (w3 & [t|] & _ & E); [|destruct E; discriminate].
  apply mbind_inv in E. destruct E as (w4 & [k|] & _ & E); [|destruct E; discriminate].
  unfold or_forget in E. destruct (mthen _ _ w4) as [w5 [o|]] eqn:E5; [|discriminate]. injection E as <- <-.
  apply mthen_inv in E5. destruct E5 as (w6 & [[]|] & _ & E5); [|destruct E5; discriminate].
  apply mthen_inv in E5. destruct E5 as (w7 & [[]|] & _ & E5); [|destruct E5; discriminate].
  unfold put_frame in E5. apply mbind_inv in E5. destruct E5 as (w8 & [y|] & E8 & E5); [|destruct E5; discriminate].
  unfold get_node in E8. destruct (w_node w7 k) as [z|] eqn:Ez; [|discriminate]. inj E8.
  unfold put_node in E5. inj E5. eexists. split; [cbn; apply upd_same|reflexivity].
Qed.

Lemma leaf_example : exists limit es w n r w', history limit es w /\ kind_of w n = Some KSurf /\ traced_by_transform w n /\
  usable_transform w n r /\ set_transform limit n r w = (w', Ok tt) /\
  transform_of w' n <> global_frame w' n.
Proof.
  pose (es := [MkSurface id4 None None; New (A44 (translate 1 0 0))]).
  exists 1, es, (run 1 es), 0, (Whole 3). eexists.
  split; [apply careful_history; cbn; auto|]. split; [reflexivity|]. split; [eexists; split; reflexivity|].
  split; [|split; [lazy; reflexivity|]].
  - exists 3, (translate 1 0 0). split; auto. split; [lazy; lia|]. split; [reflexivity|].
    intros [|n'] x N E; [lia|]. lazy in E. destruct n'; discriminate E.
  - intros E. lazy in E. injection E as E. lra.
Qed.
