(** Setters, additions and listings of assemblies; global_to_local. *)
From Coq Require Import Reals List Arith Bool Lia Lra.
From Verif.Base Require Import Py Num Vec.
From Verif.Model Require Import RayBundle Engine Surface Assembly.
From Verif.Spec Require Import FrameSpec.
From Verif.Proof Require Import NumLemmas VecLemmas FrameProof FrameHistory PlaceProof.
Import ListNotations.

Lemma transform_children_top limit n t w w' : inv w -> transform_children limit n t w = (w', Ok tt) ->
  (forall l, (exists T, path w n l T) -> exists T, path w n l T /\ placed_by w' l (mm4 t T)) /\
  (forall l, ~ (exists T, path w n l T) -> placed_array w' l = placed_array w l) /\
  (forall k, same_node w w' k).
Proof.
  intros I H. apply transform_children_effect in H; auto. destruct H as (Q & E). split; [|split].
  - intros l (T & P). destruct (E l) as [(Q' & (T' & P' & ->) & Pl)|(N & _)]; [eauto|].
    exfalso. eapply N; eauto.
  - intros l N. destruct (E l) as [(Q' & (T' & P' & ->) & Pl)|(_ & A)]; auto. exfalso; eauto.
  - intros k. apply quiet_same_inv; auto. apply Q.
Qed.

Lemma children_placed limit n w w' : inv w -> transform_children limit n id4 w = (w', Ok tt) ->
  well_placed w' n /\
  (forall l, ~ (exists T, path w' n l T) -> placed_array w' l = placed_array w l).
Proof.
  intros I H. destruct (transform_children_top _ _ _ _ _ I H) as (A & B & C).
  assert (P1 : forall l T, path w n l T -> path w' n l T) by (intros l T; apply path_same; auto).
  assert (P2 : forall l T, path w' n l T -> path w n l T)
    by (intros l T; apply path_same; intros k; apply same_node_sym; auto).
  split.
  - intros l (T & P). destruct (A l) as (T' & P' & Pl); [eauto|]. exists T'. rewrite mm4_id_l in Pl. auto.
  - intros l N. apply B. intros (T & P). apply N; eauto.
Qed.

(** A setter that succeeded on an object or assembly. *)
Lemma composite_not_leaf w n : composite w n <->
  match kind_of w n with Some k => is_leaf k = false | None => False end.
Proof.
  unfold composite. destruct (kind_of w n) as [[]|]; simpl; split; try tauto; try discriminate; auto.
Qed.
Lemma composite_exists w n : composite w n -> kind_of w n <> None.
Proof. unfold composite. destruct (kind_of w n); [discriminate|tauto]. Qed.

Lemma composite_setter limit n m w w' : composite w n -> then_children limit n m w = (w', Ok tt) ->
  exists w1, m w = (w1, Ok tt) /\ transform_children limit n id4 w1 = (w', Ok tt).
Proof.
  rewrite composite_not_leaf. unfold kind_of. intros C H.
  destruct (then_children_cases _ _ _ _ _ _ H) as [(E & _)|(x & w1 & r1 & Ex & H1 & Q & D)].
  - rewrite E in C. tauto.
  - rewrite Ex in C. exists w1. destruct r1 as [[]|e]; [|destruct D; discriminate].
    rewrite C in D. auto.
Qed.

Lemma reframe_placed w n x f a m l y r : w_node w l = Some y -> l <> n -> f_temp (n_fr y) = Some r ->
  base r <> a -> placed_array (reframe w n x f a m) l = placed_array w l.
Proof.
  intros E N Er B. unfold placed_array, reframe. cbn [w_node]. rewrite upd_other, E, Er by auto.
  destruct r; simpl in *; rewrite upd_other by auto; auto.
Qed.
Lemma reframe_unplaced w n x f a m l : l <> n -> (forall y r, w_node w l = Some y -> f_temp (n_fr y) <> Some r) ->
  placed_array (reframe w n x f a m) l = placed_array w l.
Proof.
  intros N U. unfold placed_array, reframe. cbn [w_node]. rewrite upd_other by auto.
  destruct (w_node w l) as [y|]; auto. destruct (f_temp (n_fr y)) eqn:E; auto. exfalso. eapply U; eauto.
Qed.
Lemma reframe_apart w n x f a m l : w_node w n = Some x -> f_tr (n_fr x) = Whole a -> l <> n -> apart w n l ->
  placed_array (reframe w n x f a m) l = placed_array w l.
Proof.
  intros E Et N A. unfold placed_array, reframe. cbn [w_node]. rewrite upd_other by auto.
  destruct (w_node w l) as [y|] eqn:Ey; auto. destruct (f_temp (n_fr y)) as [r|] eqn:Er; auto.
  specialize (A x y r E Ey Er). rewrite Et in A. simpl in A. destruct r; simpl in *; rewrite upd_other; auto.
Qed.

Lemma set_location_top limit n b v w w' : inv w -> sole w n -> composite w n -> b < w_next w -> w_arr w b = A3 v ->
  set_location limit n (Whole b) w = (w', Ok tt) ->
  changes w n (fun m => with_loc m v) w' /\ well_placed w' n /\
  forall l, l <> n -> ~ (exists T, path w' n l T) -> apart w n l -> placed_array w' l = placed_array w l.
Proof.
  intros I So C L Eb H.
  pose proof (composite_exists _ _ C) as K.
  split; [eapply set_location_changes; eauto|].
  destruct (composite_setter _ _ _ _ _ C H) as (w1 & H1 & H2).
  unfold kind_of in K. destruct (w_node w n) as [x|] eqn:Ex; [|congruence].
  destruct (frame_set_location_good w n x b v I So Ex L Eb) as (w2 & m & H3 & I2 & _). rewrite H3 in H1. inj H1.
  destruct (children_placed _ _ _ _ I2 H2) as (A & B). split; auto.
  intros l N P Ap. rewrite B by auto.
  destruct (inv_node w n x I Ex) as (a & m' & Ht & La & Ea & Tm).
  rewrite (frame_set_location_eq w n x a m' (Whole b) v) in H3; auto. inj H3.
  eapply reframe_apart; eauto.
Qed.

Lemma set_rotation_top limit n b s w w' : inv w -> sole w n -> composite w n -> b < w_next w -> w_arr w b = A33 s ->
  set_rotation limit n (Whole b) w = (w', Ok tt) ->
  changes w n (fun m => with_rot m s) w' /\ well_placed w' n /\
  forall l, l <> n -> ~ (exists T, path w' n l T) -> apart w n l -> placed_array w' l = placed_array w l.
Proof.
  intros I So C L Eb H.
  pose proof (composite_exists _ _ C) as K.
  split; [eapply set_rotation_changes; eauto|].
  destruct (composite_setter _ _ _ _ _ C H) as (w1 & H1 & H2).
  unfold kind_of in K. destruct (w_node w n) as [x|] eqn:Ex; [|congruence].
  destruct (frame_set_rotation_good w n x b s I So Ex L Eb) as (w2 & m & H3 & I2 & _). rewrite H3 in H1. inj H1.
  destruct (children_placed _ _ _ _ I2 H2) as (A & B). split; auto.
  intros l N P Ap. rewrite B by auto.
  destruct (inv_node w n x I Ex) as (a & m' & Ht & La & Ea & Tm).
  rewrite (frame_set_rotation_eq w n x a m' (Whole b) s) in H3; auto. inj H3.
  eapply reframe_apart; eauto.
Qed.

Lemma frame_set_transform_placed w n x r : inv w -> w_node w n = Some x -> usable_transform w n r ->
  forall w', frame_set_transform n r w = (w', Ok tt) -> forall l, placed_array w' l = placed_array w l.
Proof.
  intros I E (b & m & -> & L & Eb & _) w' H l.
  destruct (frame_set_transform_eq w n x b m E Eb) as (w2 & H2 & Ha & _ & _ & En & Ek).
  rewrite H2 in H. inj H. unfold placed_array.
  assert (Rd : forall q, read w' q = read w q) by (intros []; simpl; rewrite Ha; auto).
  destruct (Nat.eq_dec l n) as [->|N].
  - rewrite En, E. cbn [n_fr f_temp]. destruct (f_temp (n_fr x)); auto. rewrite Rd; auto.
  - rewrite Ek by auto. destruct (w_node w l) as [y|]; auto. destruct (f_temp (n_fr y)); auto. rewrite Rd; auto.
Qed.

Lemma set_transform_top limit n r w w' : inv w -> composite w n -> usable_transform w n r ->
  set_transform limit n r w = (w', Ok tt) ->
  exists t, read w r = A44 t /\ changes w n (fun _ => t) w' /\ well_placed w' n /\
  forall l, ~ (exists T, path w' n l T) -> placed_array w' l = placed_array w l.
Proof.
  intros I C O H.
  pose proof (composite_exists _ _ C) as K.
  destruct (set_transform_changes _ _ _ _ _ _ I K O H) as (t & Rt & Ch & _). exists t. split; auto. split; auto.
  destruct (composite_setter _ _ _ _ _ C H) as (w1 & H1 & H2).
  unfold kind_of in K. destruct (w_node w n) as [x|] eqn:Ex; [|congruence].
  destruct (frame_set_transform_good w n x r I Ex O) as (w2 & m & H3 & I2 & _). rewrite H3 in H1. inj H1.
  destruct (children_placed _ _ _ _ I2 H2) as (A & B). split; auto.
  intros l P. rewrite B by auto. eapply frame_set_transform_placed; eauto.
Qed.

(** A setter succeeds exactly on complete assemblies within the recursion limit. *)
Lemma then_children_succeeds limit n m w w1 : composite w n -> m w = (w1, Ok tt) -> inv w1 ->
  (forall k, kind_of w1 k = kind_of w k) ->
  (snd (then_children limit n m w) = Ok tt <-> built w limit n).
Proof.
  intros C H I1 S. rewrite composite_not_leaf in C. unfold kind_of in C. unfold then_children.
  destruct (w_node w n) as [x|] eqn:Ex; [|tauto].
  erewrite mbind_ok by (unfold get_node; rewrite Ex; reflexivity). rewrite C.
  erewrite mthen_ok by exact H. rewrite transform_children_succeeds by auto.
  split; apply built_same; auto.
Qed.

Lemma set_transform_succeeds limit n r w : inv w -> composite w n -> usable_transform w n r ->
  (snd (set_transform limit n r w) = Ok tt <-> built w limit n).
Proof.
  intros I C O. pose proof C as C'. unfold composite, kind_of in C'. destruct (w_node w n) as [x|] eqn:Ex; [|tauto].
  destruct (frame_set_transform_good w n x r I Ex O) as (w2 & m & H3 & I2 & _ & _ & K & _ & _ & _ & Oth).
  eapply then_children_succeeds; eauto. intros k. destruct (Nat.eq_dec k n) as [->|N]; auto. apply Oth; auto.
Qed.
Lemma set_location_succeeds limit n b v w : inv w -> sole w n -> composite w n -> b < w_next w -> w_arr w b = A3 v ->
  (snd (set_location limit n (Whole b) w) = Ok tt <-> built w limit n).
Proof.
  intros I So C L Eb. pose proof C as C'. unfold composite, kind_of in C'. destruct (w_node w n) as [x|] eqn:Ex; [|tauto].
  destruct (frame_set_location_good w n x b v I So Ex L Eb) as (w2 & m & H3 & I2 & _ & _ & K & _ & _ & _ & Oth).
  eapply then_children_succeeds; eauto. intros k. destruct (Nat.eq_dec k n) as [->|N]; auto. apply Oth; auto.
Qed.
Lemma set_rotation_succeeds limit n b v w : inv w -> sole w n -> composite w n -> b < w_next w -> w_arr w b = A33 v ->
  (snd (set_rotation limit n (Whole b) w) = Ok tt <-> built w limit n).
Proof.
  intros I So C L Eb. pose proof C as C'. unfold composite, kind_of in C'. destruct (w_node w n) as [x|] eqn:Ex; [|tauto].
  destruct (frame_set_rotation_good w n x b v I So Ex L Eb) as (w2 & m & H3 & I2 & _ & _ & K & _ & _ & _ & Oth).
  eapply then_children_succeeds; eauto. intros k. destruct (Nat.eq_dec k n) as [->|N]; auto. apply Oth; auto.
Qed.

(** ** add_object, add_assembly, add_surface, add_boundary *)

Lemma put_kind_eq n k w x : w_node w n = Some x ->
  put_kind n k w = (mkW (w_arr w) (w_next w) (upd (w_node w) n (Some (mkN k (n_fr x)))) (w_size w), Ok tt).
Proof. intros E. unfold put_kind, mbind, get_node. rewrite E. reflexivity. Qed.

Lemma put_kind_facts n k w w' r : inv w -> kind_of w n <> None -> put_kind n k w = (w', r) ->
  r = Ok tt /\ inv w' /\ kind_of w' n = Some k /\ (forall j, j <> n -> kind_of w' j = kind_of w j) /\
  (forall j, transform_of w' j = transform_of w j /\ location_of w' j = location_of w j /\
             rotation_of w' j = rotation_of w j) /\
  (forall l, placed_array w' l = placed_array w l) /\ (forall q, read w' q = read w q).
Proof.
  intros I K H. destruct (put_kind_inv _ _ _ _ _ I H) as (I' & Ha & _ & _ & _ & _ & O & Kn & S).
  destruct (Kn K) as (K' & ->). split; auto. split; auto. split; auto. split; [|split; [auto|split]].
  - intros j N. unfold kind_of. rewrite O; auto.
  - unfold kind_of in K. destruct (w_node w n) as [x|] eqn:E; [|congruence].
    intros l. rewrite (put_kind_eq _ _ _ _ E) in H. inj H. unfold placed_array. cbn [w_node].
    unfold upd. destruct (Nat.eqb_spec l n) as [->|N]; [rewrite E|]; auto.
  - intros []; simpl; rewrite Ha; auto.
Qed.

Lemma add_child_top limit a c k tr w w' : inv w -> kind_of w a <> None -> usable_transform w c tr ->
  (forall w1, kind_of w1 a = Some k -> (exists os ms, k = KAsm os ms /\ In c (os ++ ms))) ->
  (put_kind a k ~> set_transform limit c tr ~> transform_children limit a id4) w = (w', Ok tt) ->
  exists t, read w tr = A44 t /\ child_added w a c k t w'.
Proof.
  intros I Ka O Kk H. apply mthen_inv in H. destruct H as (w1 & r1 & H1 & H).
  destruct (put_kind_facts _ _ _ _ _ I Ka H1) as (-> & I1 & K1 & Ko & S1 & P1 & R1).
  pose proof (put_kind_own _ _ _ _ _ _ _ I H1 O) as O1.
  apply mthen_inv in H. destruct H as (w2 & r2 & H2 & H). destruct r2 as [[]|e]; [|destruct H; discriminate].
  assert (I2 : inv w2) by (eapply set_transform_inv; eauto).
  assert (B2 : built w2 limit a) by (eapply transform_children_succeeds; [eauto|rewrite H; auto]).
  destruct (Kk w1 K1) as (os & ms & -> & Hc).
  assert (Sz : forall j, same_node w2 w' j).
  { intros j. apply quiet_same_inv; auto. eapply transform_children_ok; eauto. }
  (* the kind of the child *)
  assert (Kc1 : kind_of w1 c <> None).
  { unfold set_transform, then_children, mbind, get_node in H2. unfold kind_of. destruct (w_node w1 c); [discriminate|].
    discriminate. }
  destruct (set_transform_changes _ _ _ _ _ _ I1 Kc1 O1 H2) as (t & Rt & (_ & _ & K2 & (m2 & _ & T2) & S2) & _).
  exists t. rewrite R1 in Rt. split; auto.
  assert (K12 : forall j, kind_of w2 j = kind_of w1 j).
  { intros j. destruct (Nat.eq_dec j c) as [->|N]; auto. apply S2; auto. }
  assert (C1 : composite w1 c).
  { inversion B2; subst; rewrite K12 in *; rewrite K1 in *; try discriminate.
    match goal with E : Some _ = Some _ |- _ => injection E as -> -> end.
    match goal with F : Forall _ _ |- _ => rewrite Forall_forall in F; specialize (F c Hc) end.
    match goal with F : built w2 _ c |- _ => inversion F; subst end; rewrite K12 in *;
      unfold composite; match goal with E : kind_of w1 c = _ |- _ => rewrite E; reflexivity end. }
  destruct (set_transform_top _ _ _ _ _ I1 C1 O1 H2) as (t' & _ & _ & _ & U2).
  destruct (children_placed _ _ _ _ I2 H) as (Wp & U3).
  unfold child_added. split; [destruct (Sz a) as (-> & _); rewrite K12; auto|].
  split; [intros j N; destruct (Sz j) as (-> & _); rewrite K12; auto|].
  split; [destruct (Sz c) as (_ & -> & _); auto|].
  split.
  { intros j N. unfold same_frame. destruct (Sz j) as (_ & -> & -> & ->). destruct (S2 j N) as (_ & -> & -> & ->). auto. }
  split; auto. intros l P. rewrite U3 by auto. rewrite U2; [auto|].
  (* a path from the child in w2 is a path from a in w' *)
  intros (T & Pt). apply P.
  assert (Ta : exists Ta, transform_of w' a = Some Ta).
  { destruct (inv_sync w' (quiet_inv _ _ (transform_children_ok _ _ _ _ _ _ H) I2) a) as (Ta & E & _); eauto.
    destruct (Sz a) as (-> & _). rewrite K12, K1. discriminate. }
  destruct Ta as (Ta & ETa). exists (mm4 Ta T). eapply path_asm; eauto.
  - destruct (Sz a) as (-> & _). rewrite K12. eauto.
  - eapply path_same; [|exact Pt]. auto.
Qed.

Lemma default_tr_eq tr w w1 t : default tr (A44 id4) w = (w1, Ok t) ->
  inv w -> usable_opt w 0 tr \/ True ->
  quiet_ok w w1 /\ (forall j, same_node w w1 j) /\ (forall l, placed_array w1 l = placed_array w l) /\
  read w1 t = match tr with Some r => read w r | None => A44 id4 end.
Proof.
  intros H I _. destruct (default_ok _ _ _ _ _ H) as (s & E & Q & N & _ & C). inj E.
  split; auto. split; [intros j; apply quiet_same_inv; auto; apply Q|]. split.
  - intros l. unfold placed_array. rewrite N. destruct (w_node w l) as [y|] eqn:Ey; auto.
    destruct (f_temp (n_fr y)) as [q|] eqn:Eq; auto. f_equal. apply quiet_read; [apply Q|].
    destruct I as (A & _). destruct (A l y Ey) as (_ & _ & T). apply T; auto.
  - destruct tr as [r|].
    + destruct C as (-> & ->). auto.
    + destruct C as (-> & _ & V). simpl. auto.
Qed.

Lemma child_added_quiet w w1 a c k t w' : inv w -> quiet_ok w w1 -> (forall l, placed_array w1 l = placed_array w l) ->
  child_added w1 a c k t w' -> child_added w a c k t w'.
Proof.
  intros I Q P (A & B & C & D & E & F).
  assert (S : forall j, same_node w w1 j) by (intros j; apply quiet_same_inv; auto; apply Q).
  split; auto. split; [intros j N; rewrite B by auto; apply S|]. split; auto.
  split; [intros j N; unfold same_frame; destruct (D j N) as (-> & -> & ->); destruct (S j) as (_ & -> & -> & ->); auto|].
  split; auto. intros l N. rewrite F by auto. auto.
Qed.

Lemma add_object_top limit a o tr os ms w w' : inv w -> kind_of w a = Some (KAsm os ms) -> usable_opt w o tr ->
  add_object limit a o tr w = (w', Ok tt) ->
  exists t, given w tr t /\ child_added w a o (KAsm (os ++ [o]) ms) t w'.
Proof.
  intros I K O H. unfold add_object in H. apply mbind_inv in H. destruct H as (w1 & r1 & H1 & H).
  destruct r1 as [t1|e]; [|destruct H; discriminate].
  destruct (default_tr_eq _ _ _ _ H1 I (or_intror Logic.I)) as (Q & S & P & Rd).
  pose proof (default_own _ _ _ _ _ _ I H1 O) as O1. assert (I1 : inv w1) by (eapply quiet_inv; eauto).
  assert (K1 : kind_of w1 a = Some (KAsm os ms)) by (destruct (S a) as (-> & _); auto).
  unfold kind_of in K1. destruct (w_node w1 a) as [x|] eqn:Ex; [|discriminate]. injection K1 as K1.
  erewrite mbind_ok in H by (unfold get_node; rewrite Ex; reflexivity). rewrite K1 in H.
  assert (Kn : kind_of w1 a <> None) by (unfold kind_of; rewrite Ex; discriminate).
  apply add_child_top in H; auto; [|intros _ _; exists (os ++ [o]), ms; split; [auto|rewrite !in_app_iff; simpl; auto]].
  destruct H as (t & Rt & Ch).
  exists t. split; [|eapply child_added_quiet; eauto].
  rewrite Rd in Rt. unfold given. destruct tr; auto. congruence.
Qed.

Lemma add_assembly_top limit a o tr os ms w w' : inv w -> kind_of w a = Some (KAsm os ms) -> usable_opt w o tr ->
  add_assembly limit a o tr w = (w', Ok tt) ->
  exists t, given w tr t /\ child_added w a o (KAsm os (ms ++ [o])) t w'.
Proof.
  intros I K O H. unfold add_assembly in H. apply mbind_inv in H. destruct H as (w1 & r1 & H1 & H).
  destruct r1 as [t1|e]; [|destruct H; discriminate].
  destruct (default_tr_eq _ _ _ _ H1 I (or_intror Logic.I)) as (Q & S & P & Rd).
  pose proof (default_own _ _ _ _ _ _ I H1 O) as O1. assert (I1 : inv w1) by (eapply quiet_inv; eauto).
  assert (K1 : kind_of w1 a = Some (KAsm os ms)) by (destruct (S a) as (-> & _); auto).
  unfold kind_of in K1. destruct (w_node w1 a) as [x|] eqn:Ex; [|discriminate]. injection K1 as K1.
  erewrite mbind_ok in H by (unfold get_node; rewrite Ex; reflexivity). rewrite K1 in H.
  assert (Kn : kind_of w1 a <> None) by (unfold kind_of; rewrite Ex; discriminate).
  apply add_child_top in H; auto; [|intros _ _; exists os, (ms ++ [o]); split; [auto|rewrite !in_app_iff; simpl; auto]].
  destruct H as (t & Rt & Ch).
  exists t. split; [|eapply child_added_quiet; eauto].
  rewrite Rd in Rt. unfold given. destruct tr; auto. congruence.
Qed.

(** add_surface and add_boundary *)
Lemma add_member_top limit o k w w' : inv w -> kind_of w o <> None ->
  (put_kind o k ~> transform_children limit o id4) w = (w', Ok tt) -> member_added w o k w'.
Proof.
  intros I Ko H. apply mthen_inv in H. destruct H as (w1 & r1 & H1 & H).
  destruct (put_kind_facts _ _ _ _ _ I Ko H1) as (-> & I1 & K1 & Kj & S1 & P1 & R1).
  assert (Sz : forall j, same_node w1 w' j).
  { intros j. apply quiet_same_inv; auto. eapply transform_children_ok; eauto. }
  destruct (children_placed _ _ _ _ I1 H) as (Wp & U).
  split; [destruct (Sz o) as (-> & _); auto|]. split; [intros j N; destruct (Sz j) as (-> & _); auto|].
  split; [intros j; unfold same_frame; destruct (Sz j) as (_ & -> & -> & ->); auto|]. split; auto.
  intros l N. rewrite U by auto. auto.
Qed.

Lemma add_surface_top limit o s ss bs w w' : inv w -> kind_of w o = Some (KObj ss bs) ->
  add_surface limit o s w = (w', Ok tt) -> member_added w o (KObj (ss ++ [s]) bs) w'.
Proof.
  intros I K H. assert (Kn : kind_of w o <> None) by congruence. pose proof K as K'.
  unfold kind_of in K'. destruct (w_node w o) as [x|] eqn:Ex; [|discriminate]. injection K' as K'.
  unfold add_surface in H. erewrite mbind_ok in H by (unfold get_node; rewrite Ex; reflexivity). rewrite K' in H.
  eapply add_member_top; eauto.
Qed.
Lemma add_boundary_top limit o s ss bs w w' : inv w -> kind_of w o = Some (KObj ss bs) ->
  add_boundary limit o s w = (w', Ok tt) -> member_added w o (KObj ss (bs ++ [s])) w'.
Proof.
  intros I K H. assert (Kn : kind_of w o <> None) by congruence. pose proof K as K'.
  unfold kind_of in K'. destruct (w_node w o) as [x|] eqn:Ex; [|discriminate]. injection K' as K'.
  unfold add_boundary in H. erewrite mbind_ok in H by (unfold get_node; rewrite Ex; reflexivity). rewrite K' in H.
  eapply add_member_top; eauto.
Qed.

(** ** get_objects and get_surfaces *)

Lemma collect_same {A} (f : nat -> M A) l w : (forall c, In c l -> fst (f c w) = w) -> fst (collect f l w) = w.
Proof.
  induction l as [|c l IH]; intros F; simpl; auto. unfold mbind at 1.
  pose proof (F c (or_introl eq_refl)) as E. destruct (f c w) as [w1 r]; simpl in E; subst w1.
  destruct r; auto. unfold mbind. specialize (IH (fun c H => F c (or_intror H))).
  destruct (collect f l w) as [w1 r]; simpl in *; subst w1. destruct r; auto.
Qed.

Lemma collect_ok {A} (f : nat -> M A) l w ys : (forall c, In c l -> fst (f c w) = w) ->
  (collect f l w = (w, Ok ys) <-> Forall2 (fun c y => f c w = (w, Ok y)) l ys).
Proof.
  revert ys. induction l as [|c l IH]; intros ys F; simpl.
  - split; intros H; [inj H; constructor|inversion H; reflexivity].
  - unfold mbind at 1. pose proof (F c (or_introl eq_refl)) as E. destruct (f c w) as [w1 r] eqn:Ec.
    simpl in E; subst w1. specialize (IH (tl ys) (fun c H => F c (or_intror H))).
    pose proof (collect_same f l w (fun c H => F c (or_intror H))) as Es. unfold mbind.
    destruct r as [y|e].
    + destruct (collect f l w) as [w1 rs] eqn:El. simpl in Es. subst w1. destruct rs as [ys'|e].
      * split; intros H.
        -- inj H. constructor; auto. apply IH. auto.
        -- inversion H; subst. simpl in IH. rewrite Ec in H2. inj H2. apply IH in H4. inj H4. reflexivity.
      * split; intros H; [discriminate|]. inversion H; subst. simpl in IH. apply IH in H4. discriminate.
    + split; intros H; [discriminate|]. inversion H; subst. congruence.
Qed.

Lemma get_objects_same limit : forall n w, fst (get_objects limit n w) = w.
Proof.
  induction limit as [|limit IH]; simpl; intros n w; auto. unfold mbind at 1, get_node.
  destruct (w_node w n) as [x|]; auto. destruct (n_kind x); auto.
  unfold mbind. pose proof (collect_same (get_objects limit) asms w (fun c _ => IH c w)) as E.
  destruct (collect (get_objects limit) asms w) as [w1 [l|e]]; simpl in E; subst w1; auto.
Qed.

Lemma get_objects_sound limit : forall n w l, get_objects limit n w = (w, Ok l) -> objects w n l.
Proof.
  induction limit as [|limit IH]; simpl; intros n w l H; [discriminate|].
  apply mbind_inv in H. destruct H as (w1 & r1 & H1 & H). unfold get_node in H1.
  destruct (w_node w n) as [x|] eqn:Ex; inj H1; [|destruct H; discriminate].
  destruct (n_kind x) as [| | | |os ms] eqn:Kx; try discriminate.
  apply mbind_inv in H. destruct H as (w2 & r2 & H2 & H).
  pose proof (collect_same (get_objects limit) ms w1 (fun c _ => get_objects_same limit c w1)) as E.
  rewrite H2 in E. simpl in E. subst w2. destruct r2 as [ls|e]; [|destruct H; discriminate].
  apply collect_ok in H2; [|intros; apply get_objects_same].
  assert (El : l = concat ls ++ os).
  { unfold lift, reduce_add in H. destruct (ls ++ [os]) eqn:Es; [destruct ls; discriminate|]. rewrite <- Es in H.
    inj H. rewrite concat_app. simpl. rewrite app_nil_r. auto. }
  subst l. econstructor; [unfold kind_of; rewrite Ex, Kx; reflexivity|].
  clear - H2 IH. induction H2; constructor; auto.
Qed.

Lemma get_objects_complete w : forall n l, objects w n l ->
  exists d, forall limit, d <= limit -> get_objects limit n w = (w, Ok l).
Proof.
  fix IH 3. intros n l H. destruct H as [n os ms ls K F].
  assert (D : exists d, forall limit, d <= limit -> Forall2 (fun c y => get_objects limit c w = (w, Ok y)) ms ls).
  { clear K. induction F as [|c y ms ls Hc F (d & Hd)]; [exists 0; constructor|].
    destruct (IH _ _ Hc) as (d' & Hd'). exists (Nat.max d d'). intros limit L. constructor; [apply Hd'|apply Hd]; lia. }
  destruct D as (d & Hd). exists (S d). intros limit L. destruct limit as [|limit]; [lia|]. simpl.
  unfold kind_of in K. destruct (w_node w n) as [x|] eqn:Ex; [|discriminate]. injection K as K.
  erewrite mbind_ok by (unfold get_node; rewrite Ex; reflexivity). rewrite K.
  erewrite mbind_ok by (apply collect_ok; [intros; apply get_objects_same|apply Hd; lia]).
  unfold lift, reduce_add. destruct (ls ++ [os]) eqn:Es; [destruct ls; discriminate|]. rewrite <- Es.
  rewrite concat_app. simpl. rewrite app_nil_r. auto.
Qed.

Lemma objects_unique w : forall n l l', objects w n l -> objects w n l' -> l' = l.
Proof.
  intros n l l' H H'. destruct (get_objects_complete w n l H) as (d & D).
  destruct (get_objects_complete w n l' H') as (d' & D').
  specialize (D (Nat.max d d') (Nat.le_max_l _ _)). specialize (D' (Nat.max d d') (Nat.le_max_r _ _)).
  congruence.
Qed.

Lemma get_surfaces_object limit n w ss : surfaces_of w n ss -> get_surfaces (S limit) n w = (w, Ok ss).
Proof.
  intros (bs & K). unfold kind_of in K. destruct (w_node w n) as [x|] eqn:Ex; [|discriminate]. injection K as K.
  simpl. erewrite mbind_ok by (unfold get_node; rewrite Ex; reflexivity). rewrite K. reflexivity.
Qed.

Lemma get_surfaces_same limit : forall n w, fst (get_surfaces limit n w) = w.
Proof.
  induction limit as [|limit IH]; simpl; intros n w; auto. unfold mbind at 1, get_node.
  destruct (w_node w n) as [x|]; auto. destruct (n_kind x); auto.
  unfold mbind. pose proof (get_objects_same limit n w) as E.
  destruct (get_objects limit n w) as [w1 [os|e]]; simpl in E; subst w1; auto.
  pose proof (collect_same (get_surfaces limit) os w (fun c _ => IH c w)) as E.
  destruct (collect (get_surfaces limit) os w) as [w1 [l|e]]; simpl in E; subst w1; auto.
Qed.

Lemma get_surfaces_top w n os sss : objects w n os -> Forall2 (surfaces_of w) os sss ->
  exists d, forall limit, d <= limit ->
    get_surfaces limit n w = (w, match os with [] => Err TypeError | _ => Ok (concat sss) end).
Proof.
  intros H F. destruct (get_objects_complete w n os H) as (d & D). exists (S (S d)).
  intros limit L. destruct limit as [|limit]; [lia|].
  assert (K : exists o m, kind_of w n = Some (KAsm o m)) by (inversion H; eauto).
  destruct K as (o & m & K). unfold kind_of in K. destruct (w_node w n) as [x|] eqn:Ex; [|discriminate].
  injection K as K. simpl. erewrite mbind_ok by (unfold get_node; rewrite Ex; reflexivity). rewrite K.
  erewrite mbind_ok by (apply D; lia).
  assert (C : collect (get_surfaces limit) os w = (w, Ok sss)).
  { apply collect_ok; [intros; apply get_surfaces_same|].
    destruct limit as [|limit]; [lia|]. clear - F. induction F; constructor; auto. apply get_surfaces_object; auto. }
  erewrite mbind_ok by exact C.
  unfold lift, reduce_add. destruct F; auto.
Qed.

(** ** global_to_local *)

Local Open Scope R_scope.

Lemma det4_mm4 a b : det4 (mm4 a b) = det4 a * det4 b.
Proof.
  destruct a as [[] [] [] []], b as [[] [] [] []].
  cbv -[Rplus Rmult Rminus Ropp IZR]. ring.
Qed.
Lemma det4_id : det4 id4 = 1.
Proof. cbv -[Rplus Rmult Rminus Ropp IZR]. ring. Qed.

Lemma inv4_ok_iff m : (exists i, inv4 m = Ok i) <-> invertible m.
Proof.
  split.
  - intros (i & H). exists i. pose proof (inv4_sound m i H) as S. unfold mm4.
    pose proof (S (V4 1 0 0 0)) as A. pose proof (S (V4 0 1 0 0)) as B.
    pose proof (S (V4 0 0 1 0)) as C. pose proof (S (V4 0 0 0 1)) as D.
    assert (E : forall a b c d, mv4 m (V4 a b c d) = mv4 m (V4 a b c d)) by auto.
    assert (E0 : mv4 m (V4 1 0 0 0) = c4_0 m) by (unfold mv4, dot4, c4_0; cbn [w0 w1 w2 w3]; veq; ring).
    assert (E1 : mv4 m (V4 0 1 0 0) = c4_1 m) by (unfold mv4, dot4, c4_1; cbn [w0 w1 w2 w3]; veq; ring).
    assert (E2 : mv4 m (V4 0 0 1 0) = c4_2 m) by (unfold mv4, dot4, c4_2; cbn [w0 w1 w2 w3]; veq; ring).
    assert (E3 : mv4 m (V4 0 0 0 1) = c4_3 m) by (unfold mv4, dot4, c4_3; cbn [w0 w1 w2 w3]; veq; ring).
    rewrite E0 in A; rewrite E1 in B; rewrite E2 in C; rewrite E3 in D. rewrite A, B, C, D. reflexivity.
  - intros (g & H). unfold inv4. destruct (Reqb_spec (det4 m) 0) as [E|N]; [|eauto].
    exfalso. assert (X : det4 (mm4 g m) = 1) by (rewrite H; apply det4_id).
    rewrite det4_mm4, E in X. lra.
Qed.

Lemma global_to_local_top s points :
  match global_to_local s points with
  | Ok qs => invertible (s_frame s) /\
      Forall2 (fun p q => mv4 (s_frame s) q = hom p /\
                          forall q', mv4 (s_frame s) q' = hom p -> q' = q) points qs
  | Err e => e = LinAlgError /\ ~ invertible (s_frame s)
  end.
Proof.
  unfold global_to_local. destruct (inv4 (s_frame s)) as [i|e] eqn:E; cbn [bind].
  - split; [apply inv4_ok_iff; eauto|]. induction points as [|p l IH]; constructor; auto. split.
    + apply inv4_sound'; auto.
    + intros q' H. rewrite <- H. symmetry. apply inv4_sound; auto.
  - split.
    + unfold inv4 in E. destruct (Reqb _ _); [|discriminate]. congruence.
    + rewrite <- inv4_ok_iff. intros (i & H). congruence.
Qed.
