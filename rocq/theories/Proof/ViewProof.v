(** The engine's view of an assembly that fits a description. *)
From Coq Require Import Reals List Arith Bool Lia Lra Permutation.
From Verif.Base Require Import Py Num Vec.
From Verif.Model Require Import RayBundle Geometry OpticsCallables Engine Objects Surface Assembly Scene.
From Verif.Spec Require Import FrameSpec SceneSpec.
From Verif.Proof Require Import VecLemmas FrameProof FrameHistory PlaceProof PlaceTop ConstructProof ConstructTop GrowProof ListLemmas.
Import ListNotations.

Section Forall3.
  Context {A C D : Type}.
  Implicit Types (P Q : A -> C -> D -> Prop).
  Lemma F3_impl P Q l m n : (forall x y z, P x y z -> Q x y z) -> Forall3 P l m n -> Forall3 Q l m n.
  Proof. intros I F. induction F; constructor; auto. Qed.
  Lemma F3_impl_in P Q l m n : (forall x y z, In x l -> In y m -> In z n -> P x y z -> Q x y z) -> Forall3 P l m n -> Forall3 Q l m n.
  Proof. intros I F. induction F; constructor; [apply I; simpl; auto|]. apply IHF. intros. apply I; simpl; auto. Qed.
  Lemma F3_app P l m n l' m' n' : Forall3 P l m n -> Forall3 P l' m' n' -> Forall3 P (l ++ l') (m ++ m') (n ++ n').
  Proof. intros F F'. induction F; simpl; auto. constructor; auto. Qed.
  Lemma F3_in P l m n x : Forall3 P l m n -> In x l -> exists y z, In y m /\ In z n /\ P x y z.
  Proof.
    intros F. induction F; simpl; [tauto|]. intros [->|I]; [exists y, z; auto|].
    destruct (IHF I) as (y' & z' & ? & ? & ?). exists y', z'. auto.
  Qed.
  Lemma F3_12 P (R : A -> C -> Prop) l m n : (forall x y z, P x y z -> R x y) -> Forall3 P l m n -> Forall2 R l m.
  Proof. intros I F. induction F; constructor; eauto. Qed.
  Lemma F3_13 P (R : A -> D -> Prop) l m n : (forall x y z, P x y z -> R x z) -> Forall3 P l m n -> Forall2 R l n.
  Proof. intros I F. induction F; constructor; eauto. Qed.
  Lemma F3_23 P (R : C -> D -> Prop) l m n : (forall x y z, P x y z -> R y z) -> Forall3 P l m n -> Forall2 R m n.
  Proof. intros I F. induction F; constructor; eauto. Qed.
  Lemma F3_length P l m n : Forall3 P l m n -> length m = length l /\ length n = length l.
  Proof. intros F. induction F; simpl; split; lia. Qed.
End Forall3.

(** A better induction principle. *)
Lemma is_assembly_ind2 (sc : scene) (P : nat -> adesc -> list nat -> Prop) :
  (forall n t os ms ods mds oss mss,
     kind_of (sc_w sc) n = Some (KAsm os ms) -> transform_of (sc_w sc) n = Some t ->
     Forall3 (is_object sc) os ods oss -> Forall3 (is_assembly sc) ms mds mss -> Forall3 P ms mds mss ->
     P n (mkA t ods mds) (concat mss ++ concat oss)) ->
  forall n d ls, is_assembly sc n d ls -> P n d ls.
Proof.
  intros H. fix IH 4. intros n d ls [n' t os ms ods mds oss mss K T O M]. apply (H n' t os ms); auto.
  clear K T O. induction M; constructor; auto.
Qed.

Lemma f2_length {A C} {P : A -> C -> Prop} {l m} : Forall2 P l m -> length m = length l.
Proof. intros F. induction F; simpl; auto. Qed.

(** ** Objects and surfaces found *)

Lemma seen_flat : forall d, seen_objects d = map seen_object (flat_objs d).
Proof.
  fix IH 1. intros [t os ms]. simpl. rewrite map_app. f_equal.
  induction ms as [|m ms E]; simpl; auto. rewrite IH, E, map_app. reflexivity.
Qed.

Lemma F3_concat {A C D} (P : A -> C -> D -> Prop) ls ms ns :
  Forall3 (Forall3 P) ls ms ns -> Forall3 P (concat ls) (concat ms) (concat ns).
Proof. intros F. induction F; simpl; [constructor|]. apply F3_app; auto. Qed.

Lemma depth_sub m ms : In m ms -> depth m <= fold_right max 0 (map depth ms).
Proof. induction ms; simpl; [tauto|]. intros [->|I]; [lia|]. apply IHms in I. lia. Qed.

Lemma found_objects sc n d ls : is_assembly sc n d ls ->
  exists os oss, Forall3 (is_object sc) os (flat_objs d) oss /\ concat oss = ls /\
    forall limit, depth d <= limit -> get_objects limit n (sc_w sc) = (sc_w sc, Ok os).
Proof.
  revert n d ls. apply is_assembly_ind2. intros n t os ms ods mds oss mss K T O M IH. clear M.
  assert (X : exists osm ossm, Forall3 (is_object sc) (concat osm) (concat (map flat_objs mds)) (concat ossm) /\ concat (concat ossm) = concat mss /\
     (forall limit, fold_right max 0 (map depth mds) <= limit -> Forall2 (fun c y => get_objects limit c (sc_w sc) = (sc_w sc, Ok y)) ms osm)).
  { clear K O. induction IH as [|c d ls ms mds mss (o1 & s1 & F1 & E1 & G1) IH (o2 & s2 & F2 & E2 & G2)].
    - exists [], []. split; [constructor|]. split; [reflexivity|]. intros. constructor.
    - exists (o1 :: o2), (s1 :: s2). simpl. split; [apply F3_app; auto|]. split; [rewrite concat_app, E1, E2; auto|].
      intros limit L. constructor; [apply G1; lia|apply G2; lia]. }
  destruct X as (osm & ossm & F & E & G). exists (concat osm ++ os), (concat ossm ++ oss).
  split; [apply F3_app; auto|]. split; [rewrite concat_app, E; auto|].
  intros limit L. simpl in L. destruct limit as [|limit]; [lia|]. simpl.
  unfold kind_of in K. destruct (w_node (sc_w sc) n) as [x|] eqn:Ex; [|discriminate]. injection K as K.
  erewrite mbind_ok by (unfold get_node; rewrite Ex; reflexivity). rewrite K.
  erewrite mbind_ok by (apply collect_ok; [intros; apply get_objects_same|apply G; lia]).
  unfold lift, reduce_add. destruct (osm ++ [os]) eqn:Es; [destruct osm; discriminate|]. rewrite <- Es.
  rewrite concat_app. simpl. rewrite app_nil_r. auto.
Qed.

Lemma found_surfaces sc n d ls os : is_assembly sc n d ls ->
  (forall limit, depth d <= limit -> get_objects limit n (sc_w sc) = (sc_w sc, Ok os)) ->
  forall oss, Forall3 (is_object sc) os (flat_objs d) oss -> concat oss = ls -> flat_objs d <> [] ->
  forall limit, S (depth d) <= limit -> get_surfaces limit n (sc_w sc) = (sc_w sc, Ok ls).
Proof.
  intros H G oss F E Ne limit L. destruct limit as [|limit]; [lia|]. destruct H as [n t os0 ms ods mds oss0 mss K T O M].
  unfold kind_of in K. destruct (w_node (sc_w sc) n) as [x|] eqn:Ex; [|discriminate]. injection K as K. 
  simpl. erewrite mbind_ok by (unfold get_node; rewrite Ex; reflexivity). rewrite K.
  erewrite mbind_ok by (apply G; lia).
  destruct limit as [|limit]; [simpl in L; lia|].
  erewrite mbind_ok.
  2:{ apply collect_ok; [intros; apply get_surfaces_same|]. eapply F3_13; [|exact F]. cbv beta.
      intros o ob ss (Ko & _). apply get_surfaces_object. exists []. auto. }
  rewrite <- E. unfold lift, reduce_add. destruct F; auto. congruence.
Qed.

(** ** The view *)

Lemma bbind_ok {A C} (m : B A) (f : A -> B C) sc sc1 x : m sc = (sc1, Ok x) -> bbind m f sc = f x sc1.
Proof. unfold bbind. intros ->. reflexivity. Qed.
Lemma frames_ok {A} (m : M A) sc w' r : m (sc_w sc) = (w', r) ->
  frames m sc = (mkSc w' (sc_geom sc) (sc_opt sc) (sc_sided sc) (sc_acc sc) (sc_junk sc), r).
Proof. unfold frames. intros ->. reflexivity. Qed.
Lemma frames_same {A} (m : M A) sc r : m (sc_w sc) = (sc_w sc, r) -> frames m sc = (sc, r).
Proof. intros H. rewrite (frames_ok _ _ _ _ H). destruct sc. reflexivity. Qed.
Lemma bmap_ok {A C} (f : A -> B C) l ys sc : Forall2 (fun x y => f x sc = (sc, Ok y)) l ys -> bmap f l sc = (sc, Ok ys).
Proof.
  intros F. induction F; simpl; auto. erewrite bbind_ok by eauto. erewrite bbind_ok by eauto. reflexivity.
Qed.

Lemma view_objects sc n d ls Fs : is_assembly sc n d ls -> flat_objs d <> [] ->
  Forall2 (fun l F => global_frame (sc_w sc) l = Some F) ls Fs ->
  forall limit, S (depth d) <= limit ->
  engine_view limit n sc = (sc, Ok (seen_objects d,
    map2 (fun l F => Surface.new_surface (sc_geom sc l) (sc_opt sc l) F) ls Fs)).
Proof.
  intros H Ne G limit L. destruct (found_objects _ _ _ _ H) as (os & oss & F & E & Go).
  unfold engine_view.
  erewrite bbind_ok by (apply frames_same; eapply found_surfaces; eauto).
  erewrite bbind_ok by (apply frames_same; apply Go; lia).
  erewrite bbind_ok.
  2:{ apply bmap_ok with (ys := map seen_object (flat_objs d)). clear E Go Ne G.
      induction F as [|o ob ss os obs oss (Ko & To & So & Po) F IH]; constructor; auto.
      unfold object_now. destruct limit as [|limit']; [lia|].
      erewrite bbind_ok by (apply frames_same; apply get_surfaces_object; exists []; exact Ko).
          cbv beta. unfold seen_object. rewrite So. rewrite (f2_length Po). destruct (o_sided ob); reflexivity. }
  erewrite bbind_ok.
  2:{ apply bmap_ok. instantiate (1 := map2 (fun l F => Surface.new_surface (sc_geom sc l) (sc_opt sc l) F) ls Fs).
      clear - G. induction G as [|l F ls Fs Hl G IH]; [constructor|].
      constructor; [|exact IH]. unfold surface_now. unfold global_frame, placed_array in Hl.
      destruct (w_node (sc_w sc) l) as [x|]; [|discriminate]. destruct (f_temp (n_fr x)) as [r|]; [|discriminate].
      destruct (read (sc_w sc) r); try discriminate. injection Hl as ->. reflexivity. }
  rewrite <- seen_flat. reflexivity.
Qed.

(** ** Frames *)

Fixpoint spots (T : mat4) (d : adesc) : list (mat4 * part) :=
  match d with
  | mkA t os ms =>
      concat (map (spots (mm4 T t)) ms) ++
      concat (map (fun o => map (pair (mm4 (mm4 T t) (o_tr o))) (o_parts o)) os)
  end.

Lemma seen_spots : forall d T, seen_surfaces T d = map (fun s => seen_part (fst s) (snd s)) (spots T d).
Proof.
  fix IH 1. intros [t os ms] T. simpl. rewrite map_app. f_equal.
  - induction ms as [|m ms E]; simpl; auto. rewrite IH, E, map_app. reflexivity.
  - rewrite concat_map, map_map. f_equal. apply map_ext. intros o. rewrite map_map. reflexivity.
Qed.

Lemma path_leaf sc n d ls l T : is_assembly sc n d ls -> path (sc_w sc) n l T -> In l ls.
Proof.
  intros H. revert n d ls H l T. apply (is_assembly_ind2 sc (fun n d ls => forall l T, path (sc_w sc) n l T -> In l ls)).
  intros n t os ms ods mds oss mss K T O M IH l P Pt. clear M.
  destruct Pt as [n l ss bs P Kn|n c l os' ms' P P' Kn Ic Tn Pc]; [congruence|]. rewrite K in Kn. injection Kn as <- <-.
  apply in_or_app. apply in_app_or in Ic. destruct Ic as [Ic|Ic].
  - right. destruct (F3_in _ _ _ _ _ O Ic) as (d & ss & _ & Is & (Kc & _)). apply in_concat. exists ss. split; auto.
    destruct Pc as [c l ss' bs P' Kc' Il|c c' l os' ms' P' P'' Kc']; [|congruence]. rewrite Kc in Kc'. injection Kc' as <- <-.
    rewrite app_nil_r in Il. auto.
  - left. destruct (F3_in _ _ _ _ _ IH Ic) as (d & ss & _ & Is & Hc). apply in_concat. exists ss. split; auto. eapply Hc; eauto.
Qed.

Lemma NoDup_app_remove_l {A} (l m : list A) : NoDup (l ++ m) -> NoDup m.
Proof. induction l; simpl; auto. intros N. inversion N; auto. Qed.
Lemma NoDup_app_remove_r {A} (l m : list A) : NoDup (l ++ m) -> NoDup l.
Proof.
  induction l; simpl; [constructor|]. intros N. inversion N; subst. constructor; auto. intros I. apply H1. apply in_or_app. auto.
Qed.
Lemma owner_unique {A C} (Q : A -> list C -> Prop) cs lss c c' lc l : Forall2 Q cs lss -> NoDup (concat lss) ->
  (forall k ks, Q k ks -> k = c' -> In l ks) -> In c' cs ->
  forall i, nth_error cs i = Some c -> nth_error lss i = Some lc -> In l lc -> c = c'.
Proof.
  intros F ND H. induction F as [|k ks cs lss Q1 F IH]; simpl; [tauto|]. intros I i Ei El Il.
  simpl in ND. assert (ND' : NoDup (concat lss)) by (apply NoDup_app_remove_l in ND; auto).
  assert (D : forall x, In x ks -> ~ In x (concat lss)).
  { intros x X Y. clear - ND X Y. induction ks; simpl in *; [tauto|]. inversion ND; subst. destruct X as [->|X]; auto.
    apply H1. apply in_or_app. auto. }
  assert (Z : forall j cj lj, nth_error cs j = Some cj -> nth_error lss j = Some lj -> In lj lss) by (intros; eapply nth_error_In; eauto).
  destruct i as [|i]; simpl in Ei, El.
  - injection Ei as ->. injection El as ->. destruct I as [->|I]; auto. exfalso.
    assert (Y : In l (concat lss)).
    { clear - F H I. induction F as [|k ks cs lss Q1 F IH]; simpl in *; [tauto|]. apply in_or_app.
      destruct I as [->|I]; [left; eapply H; eauto|right; auto]. }
    exact (D l Il Y).
  - destruct I as [E|I]; [|eapply IH; eauto]. subst c'. exfalso. apply (D l); [eapply H; eauto|].
    apply in_concat. exists lc. split; auto. eapply nth_error_In; eauto.
Qed.

Lemma Forall2_and_in_l {A C} {P : A -> C -> Prop} {l m} : Forall2 P l m -> Forall2 (fun x y => In x l /\ P x y) l m.
Proof. intros F. induction F; constructor; simpl; auto. eapply Forall2_impl; [|exact IHF]. simpl. tauto. Qed.
Lemma f2_concat {A C} (P : A -> C -> Prop) ls ms : Forall2 (Forall2 P) ls ms -> Forall2 P (concat ls) (concat ms).
Proof. intros F. induction F; simpl; auto. apply Forall2_app; auto. Qed.
Lemma f3_nth {A C D} (P : A -> C -> D -> Prop) l m n i x z : Forall3 P l m n -> nth_error l i = Some x -> nth_error n i = Some z ->
  exists y, nth_error m i = Some y /\ P x y z.
Proof.
  intros F. revert i. induction F; intros [|i]; simpl; try discriminate; [intros [= <-] [= <-]; eauto|]. apply IHF.
Qed.
Lemma nodup_concat_in {A} (ls : list (list A)) l : NoDup (concat ls) -> In l ls -> NoDup l.
Proof.
  induction ls as [|k ls IH]; simpl; [tauto|]. intros N [->|I].
  - apply NoDup_app_remove_r in N. auto.
  - apply IH; auto. apply NoDup_app_remove_l in N. auto.
Qed.

(** [l] is placed by [T] times the only path to it. *)
Definition only_path (w : world) (T : mat4) (n l : nat) (F : mat4) : Prop :=
  exists X, F = mm4 T X /\ path w n l X /\ forall Y, path w n l Y -> Y = X.

Lemma spots_paths sc n d ls : is_assembly sc n d ls -> NoDup ls -> forall T,
  Forall2 (fun l s => is_part sc l (snd s) /\ only_path (sc_w sc) T n l (fst s)) ls (spots T d).
Proof.
  intros H. revert n d ls H.
  apply (is_assembly_ind2 sc (fun n d ls => NoDup ls -> forall T,
    Forall2 (fun l s => is_part sc l (snd s) /\ only_path (sc_w sc) T n l (fst s)) ls (spots T d))).
  intros n t os ms ods mds oss mss K Tn O M IH ND T. simpl.
  set (w := sc_w sc).
  (* a surface below [n] is below one child only *)
  assert (U : forall c lc i l X, nth_error (ms ++ os) i = Some c -> nth_error (mss ++ oss) i = Some lc -> In l lc ->
     path w c l X -> (forall Y, path w c l Y -> Y = X) -> only_path w T n l (mm4 (mm4 T t) X)).
  { intros c lc i l X Ec El Il Pc Uc. exists (mm4 t X). split; [apply mm4_assoc|]. split.
    - eapply path_asm; [exact K| |exact Tn|exact Pc]. apply in_app_iff. apply nth_error_In in Ec. apply in_app_iff in Ec. tauto.
    - intros Y PY. destruct PY as [n l ss bs P Kn|n c' l os' ms' P P' Kn Ic Tn' Pc']; [unfold w in Kn; congruence|].
      unfold w in Kn. rewrite K in Kn. injection Kn as <- <-. unfold w in Tn'. rewrite Tn in Tn'. injection Tn' as <-.
      f_equal. apply Uc.
      assert (c = c'); [|subst c'; auto].
      apply (owner_unique (fun c lc => (exists d, is_object sc c d lc) \/ exists d, is_assembly sc c d lc) (ms ++ os) (mss ++ oss) c c' lc l) with (i := i); auto.
      + apply Forall2_app; [eapply F3_13; [|exact M]; eauto|eapply F3_13; [|exact O]; eauto].
      + rewrite concat_app. exact ND.
      + intros k ks Hk ->. destruct Hk as [(dk & (Kk & _))|(dk & Hk)]; [|eapply path_leaf; eauto].
        destruct Pc' as [c0 l0 ss bs Y0 Kc Il'|c0 c' l0 os' ms' Y0 Y1 Kc]; unfold w in Kc; [|congruence].
        rewrite Kk in Kc. injection Kc as <- <-. rewrite app_nil_r in Il'. auto.
      + apply in_app_iff in Ic. apply in_app_iff. tauto. }
  assert (NM : forall l, In l mss -> NoDup l).
  { intros l I. eapply nodup_concat_in; [|exact I]. apply NoDup_app_remove_r in ND. auto. }
  apply Forall2_app; apply f2_concat.
  - assert (U' : forall c lc i l X, nth_error ms i = Some c -> nth_error mss i = Some lc -> In l lc ->
       path w c l X -> (forall Y, path w c l Y -> Y = X) -> only_path w T n l (mm4 (mm4 T t) X)).
    { intros c lc i l X Ec El. apply (U c lc i); rewrite nth_error_app1; auto; apply nth_error_Some; congruence. }
    clear - IH NM U'. induction IH as [|c d ls ms mds mss H F IHF]; [constructor|]. simpl. constructor.
    + eapply Forall2_impl; [|apply (Forall2_and_in_l (H (NM ls (or_introl eq_refl)) (mm4 T t)))].
      cbv beta. intros l s (Il & (P & (X & E & PX & UX))). split; auto. rewrite E. apply (U' c ls 0); auto.
    + apply IHF; [intros; apply NM; simpl; auto|]. intros c' lc' i l X Ec El. apply (U' c' lc' (S i)); auto.
  - assert (U' : forall c lc i l X, nth_error os i = Some c -> nth_error oss i = Some lc -> In l lc ->
       path w c l X -> (forall Y, path w c l Y -> Y = X) -> only_path w T n l (mm4 (mm4 T t) X)).
    { destruct (F3_length _ _ _ _ M) as (_ & LM). intros c lc i l X Ec El. apply (U c lc (length ms + i)); rewrite nth_error_app2 by lia.
      - rewrite Nat.add_comm, Nat.add_sub. auto.
      - rewrite LM, Nat.add_comm, Nat.add_sub. auto. }
    clear - O U'. induction O as [|c d ls os ods oss H F IHF]; [constructor|]. simpl. constructor.
    + destruct H as (Kc & Tc & Sc & Pc).
      assert (X : Forall (fun l => only_path w T n l (mm4 (mm4 T t) (o_tr d))) ls).
      { apply Forall_forall. intros l Il. apply (U' c ls 0); auto.
        - econstructor; eauto. rewrite app_nil_r. auto.
        - intros Y PY. destruct PY as [c l ss bs P Kn ? Tn|n' c' l os' ms' P P' Kn]; unfold w in *; congruence. }
      clear - Pc X. induction Pc; simpl; constructor; inversion X; subst; simpl; auto.
    + apply IHF. intros c' lc' i l X Ec El. apply (U' c' lc' (S i)); auto.
Qed.

Lemma well_placed_view sc n d ls : is_assembly sc n d ls -> NoDup ls -> flat_objs d <> [] -> well_placed (sc_w sc) n ->
  forall limit, S (depth d) <= limit ->
  engine_view limit n sc = (sc, Ok (seen_objects d, seen_surfaces id4 d)).
Proof.
  intros H ND Ne W limit L. pose proof (spots_paths _ _ _ _ H ND id4) as S.
  rewrite (view_objects sc n d ls (map (fun s => mm4 (fst s) (p_own (snd s))) (spots id4 d)) H Ne); auto.
  - rewrite seen_spots. do 3 f_equal. clear - S. induction S as [|l s ls ss (P & _) S IH]; simpl; auto. f_equal; auto.
    unfold seen_part. destruct P as (_ & _ & -> & ->). reflexivity.
  - clear - S W. assert (X : Forall2 (fun l s => is_part sc l (snd s) /\ only_path (sc_w sc) id4 n l (fst s)) ls (spots id4 d)) by exact S.
    clear S. induction X as [|l s ls ss (P & X) F IH]; simpl; constructor; auto.
    destruct X as (Y & E & PY & U). rewrite mm4_id_l in E. destruct (W l) as (T & PT & Pl); [eauto|].
    apply U in PT. subst T. unfold placed_by in Pl. destruct P as (K & T & _). rewrite K in Pl.
    destruct Pl as (m & Em & A). rewrite T in Em. injection Em as <-. unfold global_frame. rewrite A, E. reflexivity.
Qed.

(** Frames of single surfaces. *)
Lemma well_placed_frames sc n d ls : is_assembly sc n d ls -> NoDup ls -> well_placed (sc_w sc) n ->
  Forall2 (fun l s => is_part sc l (snd s) /\ global_frame (sc_w sc) l = Some (mm4 (fst s) (p_own (snd s)))) ls (spots id4 d).
Proof.
  intros H ND W. pose proof (spots_paths _ _ _ _ H ND id4) as S. eapply Forall2_impl; [|exact S]. cbv beta.
  intros l s (P & X). split; auto.
  destruct X as (Y & E & PY & U). rewrite mm4_id_l in E. destruct (W l) as (T & PT & Pl); [eauto|].
  apply U in PT. subst T. unfold placed_by in Pl. destruct P as (K & T & _). rewrite K in Pl.
  destruct Pl as (m & Em & A). rewrite T in Em. injection Em as <-. unfold global_frame. rewrite A, E. reflexivity.
Qed.
