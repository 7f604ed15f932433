(** Making surfaces and moving the new ones. *)
From Coq Require Import Reals List Arith Bool Lia Lra.
From Verif.Base Require Import Py Num Vec.
From Verif.Model Require Import RayBundle Geometry OpticsCallables Engine Objects Surface Assembly Scene.
From Verif.Proof Require Import VecLemmas FrameProof FrameHistory PlaceProof PlaceTop ConstructProof ConstructTop GrowProof ListLemmas ViewProof SceneProof.
From Verif.Spec Require Import FrameSpec SceneSpec.
Import ListNotations.

(** [sc'] came from [sc] with all old nodes as they were, even their global frames. *)
Record kept (limit : nat) (sc sc' : scene) : Prop := {
  kp_reached : reached limit sc';
  kp_grown : grown (sc_w sc) (sc_w sc');
  kp_size : w_size (sc_w sc) <= w_size (sc_w sc');
  kp_geom : forall j, j < w_size (sc_w sc) -> sc_geom sc' j = sc_geom sc j;
  kp_opt : forall j, j < w_size (sc_w sc) -> sc_opt sc' j = sc_opt sc j;
  kp_sided : forall j, j < w_size (sc_w sc) -> sc_sided sc' j = sc_sided sc j;
  kp_acc : sc_acc sc <= sc_acc sc';
  kp_node : forall j, j < w_size (sc_w sc) -> w_node (sc_w sc') j = w_node (sc_w sc) j }.

Lemma kept_refl limit sc : reached limit sc -> kept limit sc sc.
Proof. intros R. constructor; auto. apply grown_refl. Qed.
Lemma kept_trans limit a b c : kept limit a b -> kept limit b c -> kept limit a c.
Proof.
  intros A B. pose proof (kp_size _ _ _ A). pose proof (kp_size _ _ _ B).
  constructor; try apply B.
  - eapply grown_trans; [apply A|apply B].
  - lia.
  - intros j J. rewrite (kp_geom _ _ _ B), (kp_geom _ _ _ A); auto. lia.
  - intros j J. rewrite (kp_opt _ _ _ B), (kp_opt _ _ _ A); auto. lia.
  - intros j J. rewrite (kp_sided _ _ _ B), (kp_sided _ _ _ A); auto. lia.
  - pose proof (kp_acc _ _ _ A). pose proof (kp_acc _ _ _ B). lia.
  - intros j J. rewrite (kp_node _ _ _ B), (kp_node _ _ _ A); auto. lia.
Qed.
Lemma still limit sc sc' l : reached limit sc -> grown (sc_w sc) (sc_w sc') -> w_node (sc_w sc') l = w_node (sc_w sc) l ->
  placed_array (sc_w sc') l = placed_array (sc_w sc) l.
Proof.
  intros R ((_ & A & _) & _) N. unfold placed_array. rewrite N. destruct (w_node (sc_w sc) l) as [y|] eqn:Ey; auto.
  destruct (f_temp (n_fr y)) as [q|] eqn:Eq; auto. f_equal.
  apply reached_inv in R. destruct R as (I & _). destruct (I _ _ Ey) as (_ & _ & Te). specialize (Te _ Eq).
  destruct q; simpl in *; rewrite A; auto.
Qed.
Lemma kept_step limit sc sc' : reached limit sc -> kept limit sc sc' -> step limit none sc sc'.
Proof.
  intros R K. constructor; try apply K. intros l E _. eapply still; eauto; [apply K|]. apply K. eapply exists_size; eauto.
Qed.
Lemma kept_part limit sc sc' s p : reached limit sc -> kept limit sc sc' -> is_part sc s p -> is_part sc' s p.
Proof. intros R K. eapply step_part; eauto. eapply kept_step; eauto. Qed.

Lemma literal_kept limit x sc : reached limit sc ->
  exists sc', literal x sc = (sc', Ok (Whole (w_next (sc_w sc)))) /\ kept limit sc sc' /\
    w_arr (sc_w sc') (w_next (sc_w sc)) = x /\ w_next (sc_w sc') = S (w_next (sc_w sc)) /\ w_size (sc_w sc') = w_size (sc_w sc).
Proof.
  intros R. destruct (literal_step limit x sc R) as (sc' & E & S & V & L & N & Z & A). exists sc'. split; auto.
  split; [constructor; try apply S|auto]. intros j _. rewrite N. auto.
Qed.

(** Nodes other than the new one are not touched by the constructor of a surface. *)
Lemma default_node r x w w' o : default r x w = (w', o) -> w_node w' = w_node w /\ w_size w' = w_size w.
Proof. destruct r; cbn; intros H; inj H; auto. Qed.
(** Only node [n] changes, and not its kind. *)
Definition only (n : nat) (w w' : world) : Prop :=
  w_size w' = w_size w /\ kind_of w' n = kind_of w n /\ forall k, k <> n -> w_node w' k = w_node w k.
Lemma only_refl n w : only n w w.
Proof. split; auto. Qed.
Lemma only_trans n a b c : only n a b -> only n b c -> only n a c.
Proof. intros (A1 & A2 & A3) (B1 & B2 & B3). split; [congruence|]. split; [congruence|]. intros. rewrite B3, A3; auto. Qed.
Lemma put_frame_node n f w w' o : put_frame n f w = (w', o) -> only n w w'.
Proof.
  unfold put_frame, mbind, get_node, put_node. destruct (w_node w n) as [x|] eqn:E; intros H; inj H; [|apply only_refl].
  split; auto. split; [unfold kind_of; cbn; rewrite upd_eq, E; auto|]. intros k K. cbn. rewrite upd_ne; auto.
Qed.
Lemma assign_node n r x w w' o : assign_into r x w = (w', o) -> only n w w'.
Proof.
  unfold assign_into, put_arr. intros H.
  destruct r, x; repeat match type of H with context [match ?e with _ => _ end] => destruct e end; inj H; split; auto.
Qed.
Lemma frame_set_location_node n r w w' o : frame_set_location n r w = (w', o) -> only n w w'.
Proof.
  unfold frame_set_location. destruct (read w r); intros H; try (inj H; apply only_refl).
  apply mthen_inv in H. destruct H as (w1 & r1 & H1 & H). apply put_frame_node in H1. destruct r1.
  - apply mbind_inv in H. destruct H as (w2 & r2 & H2 & H). unfold get_node in H2. destruct (w_node w1 n) in H2; inj H2.
    + unfold put_col in H. destruct (f_tr _) in H; try (inj H; auto; fail). apply (assign_node n) in H. eapply only_trans; eauto.
    + destruct H as (-> & _). exact H1.
  - destruct H as (-> & _). exact H1.
Qed.
Lemma frame_set_rotation_node n r w w' o : frame_set_rotation n r w = (w', o) -> only n w w'.
Proof.
  unfold frame_set_rotation. destruct (read w r); intros H; try (inj H; apply only_refl).
  apply mthen_inv in H. destruct H as (w1 & r1 & H1 & H). apply put_frame_node in H1. destruct r1.
  - apply mbind_inv in H. destruct H as (w2 & r2 & H2 & H). unfold get_node in H2. destruct (w_node w1 n) in H2; inj H2.
    + unfold put_block in H. destruct (f_tr _) in H; try (inj H; auto; fail). apply (assign_node n) in H. eapply only_trans; eauto.
    + destruct H as (-> & _). exact H1.
  - destruct H as (-> & _). exact H1.
Qed.
Lemma leaf_only limit n m w w' o : kind_of w n = Some KSurf -> then_children limit n m w = (w', o) -> 
  exists o', m w = (w', o').
Proof.
  intros K H. destruct (then_children_cases _ _ _ _ _ _ H) as [(C & _)|(x & w1 & r1 & Ex & E & _ & D)].
  - unfold kind_of in K. rewrite C in K. discriminate.
  - unfold kind_of in K. rewrite Ex in K. injection K as K. rewrite K in D. cbn in D. exists r1. destruct r1; destruct D as (-> & _); auto.
Qed.
Lemma set_location_only limit n r w w' o : kind_of w n = Some KSurf -> set_location limit n r w = (w', o) -> only n w w'.
Proof. intros K H. destruct (leaf_only _ _ _ _ _ _ K H) as (o' & E). eapply frame_set_location_node; eauto. Qed.
Lemma set_rotation_only limit n r w w' o : kind_of w n = Some KSurf -> set_rotation limit n r w = (w', o) -> only n w w'.
Proof. intros K H. destruct (leaf_only _ _ _ _ _ _ K H) as (o' & E). eapply frame_set_rotation_node; eauto. Qed.

Lemma surface_node limit em loc rot w w' n : Assembly.new_surface limit em loc rot w = (w', Ok n) -> forall k, k < w_size w -> w_node w' k = w_node w k.
Proof.
  intros H k Lk. unfold Assembly.new_surface, init_frame in H.
  apply mbind_inv in H. destruct H as (w1 & [l|] & H1 & H); [|destruct H; discriminate]. apply default_node in H1. destruct H1 as (N1 & Z1).
  apply mbind_inv in H. destruct H as (w2 & [r|] & H2 & H); [|destruct H; discriminate]. apply default_node in H2. destruct H2 as (N2 & Z2).
  apply mbind_inv in H. destruct H as (w3 & [t|] & H3 & H); [|destruct H; discriminate]. unfold new_arr in H3. inj H3.
  apply mbind_inv in H. destruct H as (w4 & [m|] & H4 & H); [|destruct H; discriminate]. unfold new_node in H4. inj H4. cbn [w_size w_arr w_next w_node] in H.
  rewrite Z2, Z1 in H. set (w4 := mkW _ _ _ _) in H.
  unfold or_forget in H. destruct (mthen _ _ w4) as [w9 [[]|]] eqn:H9; [|discriminate]. inj H.
  assert (K4 : w_node w4 k = w_node w k) by (cbn; rewrite upd_ne by lia; congruence).
  assert (Nk : k <> w_size w) by lia. rewrite <- K4.
  assert (Kn : kind_of w4 (w_size w) = Some KSurf) by (unfold kind_of; cbn; rewrite upd_eq; auto).
  apply mthen_inv in H9. destruct H9 as (w5 & [[]|] & H5 & H9); [|destruct H9; discriminate].
  apply set_location_only in H5; auto.
  apply mthen_inv in H9. destruct H9 as (w6 & [[]|] & H6 & H9); [|destruct H9; discriminate].
  apply set_rotation_only in H6; [|destruct H5 as (_ & Q & _); congruence].
  apply put_frame_node in H9. apply (only_trans _ _ _ _ H5 (only_trans _ _ _ _ H6 H9)). auto.
Qed.

Lemma surface_kept limit g o loc rot v s sc : reached limit sc ->
  plain_opt (sc_w sc) loc -> plain_opt (sc_w sc) rot -> given_location (sc_w sc) loc v -> given_rotation (sc_w sc) rot s ->
  exists sc', make_surface limit g o loc rot sc = (sc', Ok (w_size (sc_w sc))) /\ kept limit sc sc' /\
    is_part sc' (w_size (sc_w sc)) (mkPart g o (mk4 s v)) /\ w_size (sc_w sc') = S (w_size (sc_w sc)).
Proof.
  intros R Pl Pr Gl Gr. destruct (surface_step limit g o loc rot v s sc R Pl Pr Gl Gr) as (sc' & E & S & P & Z & _).
  exists sc'. split; auto. split; [|auto]. constructor; try apply S.
  unfold make_surface in E. destruct (Assembly.new_surface _ _ _ _ _) as [w' [n|]] eqn:Ew; [|discriminate]. inj E. cbn. eapply surface_node; eauto.
Qed.

(** ** A new surface has its array to itself *)

Lemma fresh_sole limit sc sc' : reached limit sc -> kept limit sc sc' -> w_size (sc_w sc') = S (w_size (sc_w sc)) ->
  sole (sc_w sc') (w_size (sc_w sc)).
Proof.
  intros R K Z n' x x' N Ex Ex' E. pose proof (reached_inv _ _ (kp_reached _ _ _ K)) as (I' & _). destruct (I' _ _ Ex') as (L & _).
  assert (Lt : n' < w_size (sc_w sc)) by lia.
  rewrite (kp_node _ _ _ K) in Ex' by auto. pose proof (reached_inv _ _ R) as I. destruct (inv_node _ _ _ I Ex') as (a & m & Ea & La & _).
  destruct (kp_grown _ _ _ K) as (_ & G). destruct (G (w_size (sc_w sc)) x) as (c & Ec & Lc); auto; [|rewrite Ea, Ec in E; injection E as ->; lia].
  destruct (w_node (sc_w sc) (w_size (sc_w sc))) as [y|] eqn:Ey; auto. destruct I as (I & _). destruct (I _ _ Ey). lia.
Qed.
Lemma kept_sole limit sc sc' n : reached limit sc -> kept limit sc sc' -> exists_in sc n -> sole (sc_w sc) n -> sole (sc_w sc') n.
Proof.
  intros R K En So n' x x' N Ex Ex' E. pose proof (exists_size _ _ _ R En) as Ln. rewrite (kp_node _ _ _ K) in Ex by auto.
  pose proof (reached_inv _ _ R) as I. destruct (w_node (sc_w sc) n') as [y|] eqn:Ey.
  - assert (n' < w_size (sc_w sc)) by (destruct I as (I & _); apply (I _ _ Ey)). rewrite (kp_node _ _ _ K) in Ex' by auto. exact (So n' x x' N Ex Ex' E).
  - destruct (kp_grown _ _ _ K) as (_ & G). destruct (G n' x') as (c & Ec & Lc); auto.
    destruct (inv_node _ _ _ I Ex) as (a & m & Ea & La & _). rewrite Ea, Ec in E. injection E as ->. lia.
Qed.

(** [set_location] on a surface made since [sc0]. *)
Lemma locate_kept limit sc0 sc n p b v : reached limit sc0 -> kept limit sc0 sc -> w_size (sc_w sc0) <= n -> is_part sc n p -> sole (sc_w sc) n ->
  b < w_next (sc_w sc) -> w_arr (sc_w sc) b = A3 v ->
  exists sc', put_location limit n (Whole b) sc = (sc', Ok tt) /\ kept limit sc0 sc' /\
    is_part sc' n (mkPart (p_geom p) (p_opt p) (with_loc (p_own p) v)) /\
    (forall k q, k <> n -> is_part sc k q -> is_part sc' k q) /\ (forall k, sole (sc_w sc) k -> sole (sc_w sc') k) /\
    w_size (sc_w sc') = w_size (sc_w sc).
Proof.
  intros R0 K Ln (Kn & Tn & Gn & On) So Lb Eb. pose proof (kp_reached _ _ _ K) as R. pose proof (reached_inv _ _ R) as I.
  pose proof Kn as Kx. unfold kind_of in Kx. destruct (w_node (sc_w sc) n) as [x|] eqn:Ex; [|discriminate]. injection Kx as Kx.
  destruct (frame_set_location_good (sc_w sc) n x b v I So Ex Lb Eb) as (w' & m & E & I' & Nx & Sz & K' & T & T' & _ & O).
  assert (El : set_location limit n (Whole b) (sc_w sc) = (w', Ok tt)).
  { rewrite (set_location_run limit n x _ _ _ Ex E), Kx. reflexivity. }
  unfold put_location. rewrite (frames_ok _ _ _ _ El). eexists. split; [reflexivity|].
  assert (Nn : w_node (sc_w sc0) n = None).
  { destruct (w_node (sc_w sc0) n) as [y|] eqn:Ey; auto. apply reached_inv in R0. destruct R0 as (J & _). destruct (J _ _ Ey). lia. }
  pose proof (kp_grown _ _ _ K) as ((X1 & X2 & X3) & G). destruct (G n x Nn Ex) as (a & Ea & La).
  destruct (inv_node _ _ _ I Ex) as (a' & m' & Ea' & La' & Em & Tm). rewrite Ea in Ea'. injection Ea' as <-.
  assert (Ow : owns n a (sc_w sc)).
  { split; auto. split; [eauto|]. exists x. auto. }
  destruct (set_location_but (w_next (sc_w sc0)) n a limit (Whole b) _ _ _ Ow La X1 El) as ((B1 & B2 & B3) & (_ & _ & x' & Ex' & Tx')).
  assert (Oth : forall k, k <> n -> w_node w' k = w_node (sc_w sc) k) by (intros k Hk; apply O; auto).
  split; [constructor; cbn; try apply K|split; [|split; [|split]]].
  - unfold reached. cbn. eapply (reached_step limit sc (SetLocation n (Whole b))); auto; [split; [exists b; auto|auto]|].
    unfold perform. rewrite El. reflexivity.
  - split; [split; [lia|split]|].
    + intros k Lk. rewrite B2 by auto. apply X2; auto.
    + intros j J. assert (j <> n) by congruence. rewrite Oth by auto. apply X3; auto.
    + intros j y Ej Ey. destruct (Nat.eq_dec j n) as [->|Hj].
      * exists a. split; auto. congruence.
      * rewrite Oth in Ey by auto. eapply G; eauto.
  - rewrite Sz. apply K.
  - intros j Lj. rewrite Oth by lia. apply K; auto.
  - unfold is_part. cbn. rewrite K', T'. rewrite T in Tn. injection Tn as ->. auto.
  - intros k q Hk (P1 & P2 & P3 & P4). destruct (O k Hk) as ((S1 & S2 & _) & _). unfold is_part. cbn. rewrite S1, S2. auto.
  - intros k Sk j y y' Hj Ey Ey'. cbn in Ey, Ey'.
    assert (W : forall i z', w_node w' i = Some z' -> exists z, w_node (sc_w sc) i = Some z /\ f_tr (n_fr z') = f_tr (n_fr z)).
    { intros i z' Ez. destruct (Nat.eq_dec i n) as [->|Hi]; [exists x; split; auto; congruence|]. rewrite Oth in Ez by auto. eauto. }
    destruct (W _ _ Ey) as (z & Ez & ->). destruct (W _ _ Ey') as (z' & Ez' & ->). eapply Sk; eauto.
  - cbn. auto.
Qed.
