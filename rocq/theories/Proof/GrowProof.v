(** Calls that make new nodes leave the old ones and their arrays alone. *)
From Coq Require Import Reals List Arith Bool Lia Lra.
From Verif.Base Require Import Py Num Vec.
From Verif.Model Require Import Assembly.
From Verif.Spec Require Import FrameSpec.
From Verif.Proof Require Import VecLemmas FrameProof FrameHistory PlaceProof PlaceTop ConstructProof ConstructTop.
Import ListNotations.

(** Old arrays are as they were, and old nodes but for their global frames. *)
Definition ext (w w' : world) : Prop :=
  w_next w <= w_next w' /\ (forall b, b < w_next w -> w_arr w' b = w_arr w b) /\
  forall j, w_node w j <> None -> quiet_node (w_node w j) (w_node w' j).
(** Moreover, new nodes have new arrays as transforms. *)
Definition grown (w w' : world) : Prop := ext w w' /\
  forall j x, w_node w j = None -> w_node w' j = Some x -> exists a, f_tr (n_fr x) = Whole a /\ w_next w <= a.

Lemma quiet_node_some a b : quiet_node a b -> a <> None -> b <> None.
Proof. destruct a, b; simpl; congruence || tauto. Qed.
Lemma ext_refl w : ext w w.
Proof. split; auto. split; auto. intros. apply quiet_node_refl. Qed.
Lemma ext_trans a b c : ext a b -> ext b c -> ext a c.
Proof.
  intros (A1 & A2 & A3) (B1 & B2 & B3). split; [lia|]. split.
  - intros k L. rewrite B2, A2; auto. lia.
  - intros j N. eapply quiet_node_trans; [apply A3; auto|]. apply B3. eapply quiet_node_some; eauto.
Qed.
Lemma grown_refl w : grown w w.
Proof. split; [apply ext_refl|]. congruence. Qed.
Lemma grown_trans a b c : grown a b -> grown b c -> grown a c.
Proof.
  intros (A & A') (B & B'). split; [eapply ext_trans; eauto|]. intros j x Ha Hc.
  destruct (w_node b j) as [y|] eqn:E.
  - destruct (A' j y Ha E) as (k & Ek & Lk). destruct B as (_ & _ & B). specialize (B j). rewrite E, Hc in B.
    destruct B as (_ & T & _); [discriminate|]. exists k. split; auto. congruence.
  - destruct (B' j x E Hc) as (k & Ek & Lk). exists k. split; auto. destruct A as (L & _). lia.
Qed.
Lemma quiet_grown w w' : quiet w w' -> grown w w'.
Proof.
  intros (L & _ & A & Q). split; [split; auto|]. intros j x E E'. specialize (Q j). rewrite E, E' in Q. contradiction.
Qed.

Lemma ext_read w w' r : ext w w' -> base r < w_next w -> read w' r = read w r.
Proof. intros (_ & A & _) L. destruct r; simpl in *; rewrite A; auto. Qed.
Lemma ext_same w w' n : inv w -> ext w w' -> kind_of w n <> None -> same_node w w' n.
Proof.
  intros I X K. pose proof X as (L & A & Q). unfold kind_of in K. destruct (w_node w n) as [x|] eqn:E; [|congruence].
  specialize (Q n). rewrite E in Q. destruct (w_node w' n) as [y|] eqn:E'; [|destruct Q; discriminate].
  destruct Q as (K' & T1 & T2 & T3); [discriminate|]. destruct I as (I & _). destruct (I n x E) as (_ & F & _).
  apply frame_ok_base in F. destruct F as (F1 & F2 & F3).
  unfold same_node, kind_of, transform_of, location_of, rotation_of. rewrite E, E', T1, T2, T3, K'.
  rewrite !(ext_read w w') by auto. auto.
Qed.

(** ** Arrays below [N] and nodes other than [n] *)

Definition but (N n : nat) (u u' : world) : Prop :=
  w_next u <= w_next u' /\ (forall b, b < N -> w_arr u' b = w_arr u b) /\
  forall j, j <> n -> quiet_node (w_node u j) (w_node u' j).
Lemma but_refl N n u : but N n u u.
Proof. split; auto. split; auto. intros. apply quiet_node_refl. Qed.
Lemma but_trans N n a b c : but N n a b -> but N n b c -> but N n a c.
Proof.
  intros (A1 & A2 & A3) (B1 & B2 & B3). split; [lia|]. split.
  - intros k L. rewrite B2, A2; auto.
  - intros j J. eapply quiet_node_trans; eauto.
Qed.
Lemma quiet_but N n u u' : quiet u u' -> N <= w_next u -> but N n u u'.
Proof. intros (L & _ & A & Q) LN. split; auto. split; [|auto]. intros b Lb. apply A. lia. Qed.
Lemma reframe_but N n u x f a m : N <= a -> but N n u (reframe u n x f a m).
Proof.
  intros L. unfold reframe. split; [cbn; auto|]. cbn. split.
  - intros b Lb. apply upd_other. lia.
  - intros j J. rewrite upd_other by auto. apply quiet_node_refl.
Qed.

(** Node [n] has the transform array [a]. *)
Definition owns (n a : nat) (u : world) : Prop :=
  a < w_next u /\ (exists m, w_arr u a = A44 m) /\ exists x, w_node u n = Some x /\ f_tr (n_fr x) = Whole a.
Lemma quiet_owns n a u u' : quiet u u' -> owns n a u -> owns n a u'.
Proof.
  intros Q (L & (m & E) & x & Ex & T). destruct (quiet_some' _ _ _ _ Q Ex) as (y & Ey & _ & (T1 & _)). destruct Q as (Ln & _ & A & _).
  split; [lia|]. split; [exists m; rewrite A; auto|]. exists y. split; auto. congruence.
Qed.
Lemma reframe_owns n a u x f m : w_node u n = Some x -> f_tr (n_fr x) = Whole a -> f_tr f = Whole a -> a < w_next u ->
  owns n a (reframe u n x f a m).
Proof.
  intros E T F L. unfold reframe. split; [exact L|]. split; [exists m; cbn; apply upd_same|].
  eexists. split; [cbn; apply upd_same|]. exact F.
Qed.
Lemma set_location_but N n a limit r u u' o : owns n a u -> N <= a -> N <= w_next u ->
  set_location limit n r u = (u', o) -> but N n u u' /\ owns n a u'.
Proof.
  intros O LN LN' H. pose proof O as (L & (m & E) & x & Ex & T).
  destruct (then_children_cases _ _ _ _ _ _ H) as [(C & _)|(x' & w2 & r2 & Ex' & F & (Q & _) & _)]; [congruence|].
  assert (x' = x) by congruence. subst x'. 
  assert (B : but N n u w2 /\ owns n a w2).
  { destruct (read u r) as [v| | | |] eqn:R; try (rewrite frame_set_location_bad in F by (intros z; rewrite R; discriminate); inj F; split; [apply but_refl|exact O]).
    rewrite (frame_set_location_eq u n x a m r v Ex T E R) in F. inj F. split; [apply reframe_but; auto|apply reframe_owns; auto]. }
  destruct B as (B & O2). split; [|eapply quiet_owns; eauto].
  eapply but_trans; [exact B|]. apply quiet_but; auto. destruct B as (B & _). lia.
Qed.
Lemma set_rotation_but N n a limit r u u' o : owns n a u -> N <= a -> N <= w_next u ->
  set_rotation limit n r u = (u', o) -> but N n u u' /\ owns n a u'.
Proof.
  intros O LN LN' H. pose proof O as (L & (m & E) & x & Ex & T).
  destruct (then_children_cases _ _ _ _ _ _ H) as [(C & _)|(x' & w2 & r2 & Ex' & F & (Q & _) & _)]; [congruence|].
  assert (x' = x) by congruence. subst x'.
  assert (B : but N n u w2 /\ owns n a w2).
  { destruct (read u r) as [|v| | |] eqn:R; try (rewrite frame_set_rotation_bad in F by (intros z; rewrite R; discriminate); inj F; split; [apply but_refl|exact O]).
    rewrite (frame_set_rotation_eq u n x a m r v Ex T E R) in F. inj F. split; [apply reframe_but; auto|apply reframe_owns; auto]. }
  destruct B as (B & O2). split; [|eapply quiet_owns; eauto].
  eapply but_trans; [exact B|]. apply quiet_but; auto. destruct B as (B & _). lia.
Qed.

Lemma new_arr_grown x w w' r : new_arr x w = (w', r) -> grown w w'.
Proof. intros H. apply quiet_grown. apply new_arr_ok in H. apply H. Qed.

Lemma init_frame_grown limit k em loc rot w w' n : inv w -> init_frame limit k em loc rot w = (w', Ok n) -> grown w w'.
Proof.
  intros I H. unfold init_frame in H. apply mbind_inv in H. destruct H as (w1 & r1 & H1 & H).
  destruct (default_ok _ _ _ _ _ H1) as (l & -> & (Q1 & _) & N1 & _).
  apply mbind_inv in H. destruct H as (w2 & r2 & H2 & H).
  destruct (default_ok _ _ _ _ _ H2) as (r & -> & (Q2 & _) & N2 & _).
  apply mbind_inv in H. destruct H as (w3 & r3 & H3 & H).
  destruct (new_arr_ok _ _ _ _ H3) as ((Q3 & _) & N3 & -> & V3 & L3).
  pose proof (quiet_trans _ _ _ Q1 (quiet_trans _ _ _ Q2 Q3)) as Q.
  assert (Sz : w_size w3 = w_size w) by apply Q.
  assert (L02 : w_next w <= w_next w2) by (apply (quiet_trans _ _ _ Q1 Q2)).
  apply mbind_inv in H. destruct H as (w4 & r4 & H4 & H). unfold new_node in H4. inj H4. rewrite Sz in *.
  set (x := mkN k (mkF (Whole (w_next w2)) l r None)) in *.
  set (w4 := mkW (w_arr w3) (w_next w3) (upd (w_node w3) (w_size w) (Some x)) (S (w_size w))) in *.
  assert (O4 : owns (w_size w) (w_next w2) w4).
  { split; [cbn; lia|]. split; [eexists; exact V3|]. exists x. split; [apply upd_same|reflexivity]. }
  assert (L4 : w_next w <= w_next w4) by (cbn; lia).
  unfold or_forget in H. destruct (mthen _ _ w4) as [w9 [[]|]] eqn:H9; [|discriminate]. inj H.
  apply mthen_inv in H9. destruct H9 as (w5 & [[]|] & H5 & H9); [|destruct H9; discriminate].
  destruct (set_location_but (w_next w) _ _ _ _ _ _ _ O4 L02 L4 H5) as (B5 & O5).
  assert (L5 : w_next w <= w_next w5) by (destruct B5; lia).
  apply mthen_inv in H9. destruct H9 as (w6 & [[]|] & H6 & H9); [|destruct H9; discriminate].
  destruct (set_rotation_but (w_next w) _ _ _ _ _ _ _ O5 L02 L5 H6) as (B6 & O6).
  assert (L6 : w_next w <= w_next w6) by (destruct B6; lia).
  destruct O6 as (La & (m & Ea) & y & Ey & Ty). rewrite (put_frame_eq _ _ _ _ Ey) in H9. inj H9.
  destruct (but_trans _ _ _ _ _ B5 B6) as (Bn & Ba & Bq).
  assert (Nw : w_node w (w_size w) = None).
  { destruct (w_node w (w_size w)) as [z|] eqn:E; auto. destruct I as (I & _). destruct (I _ z E). lia. }
  assert (Q4 : forall j, j <> w_size w -> quiet_node (w_node w j) (w_node w4 j)).
  { intros j J. cbn [w4 w_node]. rewrite upd_other by auto. apply Q. }
  split; [split; [cbn; lia|split]|].
  - intros b Lb. cbn [w_arr]. rewrite Ba by auto. cbn [w4 w_arr]. apply Q. auto.
  - intros j J. cbn [w_node]. assert (Jn : j <> w_size w) by (intros ->; congruence). rewrite upd_other by auto.
    eapply quiet_node_trans; [apply Q4; auto|apply Bq; auto].
  - intros j z Ej E. cbn [w_node] in E. unfold upd in E. destruct (Nat.eqb_spec j (w_size w)) as [->|J].
    + inj E. cbn. exists (w_next w2). split; auto.
    + specialize (Q4 j J). specialize (Bq j J). pose proof (quiet_node_trans _ _ _ Q4 Bq) as Qz. rewrite Ej, E in Qz. contradiction.
Qed.

Lemma set_transform_ext limit n r w w' : w_node w n <> None -> set_transform limit n r w = (w', Ok tt) ->
  exists b, r = Whole b /\ but (w_next w) n w w' /\
  exists x x', w_node w n = Some x /\ w_node w' n = Some x' /\ n_kind x' = n_kind x /\
    f_tr (n_fr x') = Whole b /\ views (n_fr x').
Proof.
  intros Nn H. destruct (then_children_cases _ _ _ _ _ _ H) as [(C & _)|(x & w2 & r2 & Ex & F & (Q & _) & D)]; [congruence|].
  unfold frame_set_transform in F. erewrite mthen_ok in F by (apply put_frame_eq; exact Ex). cbv beta in F.
  destruct r as [b|b|b].
  2,3: exfalso; inj F; destruct D; discriminate.
  destruct (read _ (Whole b)) as [v|v|v|m|] eqn:R.
  1,2,3,5: exfalso; inj F; destruct D; discriminate.
  erewrite put_frame_eq in F by (cbn [w_node]; apply upd_same). inj F.
  exists b. split; auto.
  set (w2 := mkW _ _ _ _) in *.
  assert (B : but (w_next w) n w w2).
  { split; [cbn; auto|]. split; [intros; reflexivity|]. intros j J. cbn [w2 w_node]. rewrite !upd_other by auto. apply quiet_node_refl. }
  split; [eapply but_trans; [exact B|apply quiet_but; auto]|].
  assert (E2 : w_node w2 n = Some (mkN (n_kind x) (mkF (Whole b) (Col b) (Block b) (f_temp (n_fr x))))) by (cbn; apply upd_same).
  destruct (quiet_some' _ _ _ _ Q E2) as (x' & Ex' & K & T1 & T2 & T3). cbn in K, T1, T2, T3.
  exists x, x'. split; auto. split; auto. split; auto. split; auto. exists b. auto.
Qed.

(** Setting the transform of a node that is new since [w0] to an array that is new. *)
Lemma set_transform_grown limit n b w0 w w' : grown w0 w -> w_node w0 n = None -> w_node w n <> None -> w_next w0 <= b ->
  set_transform limit n (Whole b) w = (w', Ok tt) -> grown w0 w'.
Proof.
  intros (X & G) N0 N1 Lb H. destruct (set_transform_ext _ _ _ _ _ N1 H) as (b' & E & (L & A & Q) & x & x' & Ex & Ex' & K & T & _).
  inj E. destruct X as (X1 & X2 & X3). split; [split; [lia|split]|].
  - intros c Lc. rewrite A by lia. auto.
  - intros j J. assert (j <> n) by congruence. eapply quiet_node_trans; [apply X3; auto|apply Q; auto].
  - intros j y E0 Ey. destruct (Nat.eq_dec j n) as [->|J].
    + exists b'. rewrite Ex' in Ey. inj Ey. auto.
    + specialize (Q j J). destruct (w_node w j) as [z|] eqn:Ez.
      * rewrite Ey in Q. destruct Q as (_ & T1 & _). destruct (G j z E0 Ez) as (a & Ea & La). exists a. split; auto. congruence.
      * rewrite Ey in Q. contradiction.
Qed.
Lemma set_transform_still limit n b w0 w w' : ext w0 w -> w_node w0 n = None -> w_node w n <> None ->
  set_transform limit n (Whole b) w = (w', Ok tt) -> ext w0 w'.
Proof.
  intros (X1 & X2 & X3) N0 N1 H. destruct (set_transform_ext _ _ _ _ _ N1 H) as (b' & E & (L & A & Q) & _).
  split; [lia|]. split.
  - intros c Lc. rewrite A by lia. auto.
  - intros j J. assert (j <> n) by congruence. eapply quiet_node_trans; [apply X3; auto|apply Q; auto].
Qed.

Lemma new_object_ext limit ss bs tr w w' n : inv w -> new_object limit ss bs tr w = (w', Ok n) -> ext w w' /\
  (tr = None -> grown w w').
Proof.
  intros I H. unfold new_object in H. apply mbind_inv in H. destruct H as (w1 & r1 & H1 & H).
  destruct (default_ok _ _ _ _ _ H1) as (t & -> & (Q1 & _) & N1 & _ & C).
  assert (Sz : w_size w1 = w_size w) by apply Q1.
  apply mbind_inv in H. destruct H as (w2 & r2 & H2 & H). unfold new_node in H2. inj H2. rewrite Sz in *.
  set (w2 := mkW _ _ _ _) in *.
  unfold or_forget in H. destruct (set_transform limit (w_size w) t w2) as [w9 [[]|]] eqn:H9; [|discriminate]. inj H.
  assert (Nw : w_node w (w_size w) = None).
  { destruct (w_node w (w_size w)) as [z|] eqn:E; auto. destruct I as (I & _). destruct (I _ z E). lia. }
  assert (N2 : w_node w2 (w_size w) <> None) by (cbn; rewrite upd_same; discriminate).
  assert (E2 : ext w w2).
  { destruct Q1 as (L & _ & A & Q). split; [exact L|]. split; [exact A|]. intros j J. cbn [w2 w_node].
    rewrite upd_other by congruence. apply Q. }
  destruct (set_transform_ext _ _ _ _ _ N2 H9) as (b & -> & _).
  split; [eapply set_transform_still; eauto|].
  intros ->. destruct C as (E & L & _). inj E. eapply set_transform_grown; [|exact Nw|exact N2| |exact H9]; [|lia].
  split; auto. intros j x Ej E. cbn [w2 w_node] in E. unfold upd in E. destruct (Nat.eqb_spec j (w_size w)) as [->|J].
  - inj E. exists (w_next w). auto.
  - rewrite N1, Ej in E. discriminate.
Qed.
