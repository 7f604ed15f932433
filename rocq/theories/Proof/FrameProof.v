(** Frames: location, rotation and transform stay in sync. *)
From Coq Require Import Reals List Arith Bool Lia Lra Classical.
From Verif.Base Require Import Py Num Vec.
From Verif.Model Require Import Assembly.
From Verif.Spec Require Import FrameSpec.
From Verif.Proof Require Import VecLemmas.
Import ListNotations.

(** ** The monad *)

Lemma mbind_inv {A B} (m : M A) (f : A -> M B) w w' r : mbind m f w = (w', r) ->
  exists w1 r1, m w = (w1, r1) /\
    match r1 with Ok x => f x w1 = (w', r) | Err e => w' = w1 /\ r = Err e end.
Proof.
  unfold mbind. destruct (m w) as [w1 r1]. intros H. exists w1, r1. split; auto.
  destruct r1; auto. injection H as <- <-. auto.
Qed.
Lemma mbind_ok {A B} (m : M A) (f : A -> M B) w w1 x : m w = (w1, Ok x) -> mbind m f w = f x w1.
Proof. unfold mbind. intros ->. auto. Qed.
Lemma mthen_ok {A B} (m : M A) (f : M B) w w1 x : m w = (w1, Ok x) -> mthen m f w = f w1.
Proof. unfold mthen, mbind. intros ->. auto. Qed.
Lemma mthen_inv {A B} (m : M A) (f : M B) w w' r : mthen m f w = (w', r) ->
  exists w1 r1, m w = (w1, r1) /\
    match r1 with Ok x => f w1 = (w', r) | Err e => w' = w1 /\ r = Err e end.
Proof. intros H. apply (mbind_inv m (fun _ => f)) in H. exact H. Qed.

Lemma upd_same {A} (f : nat -> A) k v : upd f k v k = v.
Proof. unfold upd. rewrite Nat.eqb_refl. auto. Qed.
Lemma upd_other {A} (f : nat -> A) k v j : j <> k -> upd f k v j = f j.
Proof. unfold upd. intros N. apply Nat.eqb_neq in N. rewrite N. auto. Qed.

Ltac inj H := injection H; clear H; intros; subst.

(** ** Changes to [_temp_frame] only *)

Definition same_but_temp (f g : frame) : Prop :=
  f_tr g = f_tr f /\ f_loc g = f_loc f /\ f_rot g = f_rot f.

Definition quiet_node (a b : option node) : Prop :=
  match a, b with
  | None, None => True
  | Some x, Some y => n_kind y = n_kind x /\ same_but_temp (n_fr x) (n_fr y)
  | _, _ => False
  end.

Definition quiet (w w' : world) : Prop :=
  w_next w <= w_next w' /\ w_size w' = w_size w /\
  (forall a, a < w_next w -> w_arr w' a = w_arr w a) /\
  (forall n, quiet_node (w_node w n) (w_node w' n)).

Lemma quiet_node_refl a : quiet_node a a.
Proof. destruct a; simpl; auto. unfold same_but_temp; auto. Qed.
Lemma quiet_refl w : quiet w w.
Proof. repeat split; auto. intros; apply quiet_node_refl. Qed.

Lemma quiet_node_trans a b c : quiet_node a b -> quiet_node b c -> quiet_node a c.
Proof.
  destruct a, b, c; simpl; try tauto. unfold same_but_temp.
  intros (A & B & C & D) (E & F & G & H). repeat split; congruence.
Qed.

Lemma quiet_trans a b c : quiet a b -> quiet b c -> quiet a c.
Proof.
  intros (A & B & C & D) (E & F & G & H). split; [lia|]. split; [congruence|]. split.
  - intros k Hk. rewrite G, C by lia. auto.
  - intros n. eapply quiet_node_trans; eauto.
Qed.

Lemma put_frame_eq n f w x : w_node w n = Some x ->
  put_frame n f w = (mkW (w_arr w) (w_next w) (upd (w_node w) n (Some (mkN (n_kind x) (f (n_fr x))))) (w_size w), Ok tt).
Proof. intros E. unfold put_frame, mbind, get_node. rewrite E. reflexivity. Qed.

(** The world after [transform_frame] succeeds. *)
Definition with_temp (w : world) (n : nat) (x : node) (v : arr) : world :=
  mkW (upd (w_arr w) (w_next w) v) (S (w_next w))
    (upd (w_node w) n (Some (mkN (n_kind x) (mkF (f_tr (n_fr x)) (f_loc (n_fr x)) (f_rot (n_fr x))
                                                (Some (Whole (w_next w))))))) (w_size w).

(** What [transform_frame] stores. *)
Definition placement (w : world) (x : node) (t : mat4) (v : arr) : Prop :=
  match n_kind x with
  | KSphere => exists c, read w (f_loc (n_fr x)) = A3 c /\ v = A4 (mv4 t (hom c))
  | _ => exists m, read w (f_tr (n_fr x)) = A44 m /\ v = A44 (mm4 t m)
  end.

Lemma transform_frame_cases n t w :
  (exists x v, w_node w n = Some x /\ placement w x t v /\
     transform_frame n t w = (with_temp w n x v, Ok tt)) \/
  (exists e, transform_frame n t w = (w, Err e)).
Proof.
  unfold transform_frame. destruct (w_node w n) as [x|] eqn:E;
    [|right; unfold mbind, get_node; rewrite E; eauto].
  erewrite mbind_ok by (unfold get_node; rewrite E; reflexivity). cbn beta.
  destruct (n_kind x) eqn:K;
    [destruct (read w (f_tr (n_fr x))) eqn:Rd; eauto|
     destruct (read w (f_loc (n_fr x))) eqn:Rd; eauto|
     destruct (read w (f_tr (n_fr x))) eqn:Rd; eauto..].
  all: left; erewrite mbind_ok by reflexivity; exists x; eexists; split; [reflexivity|]; split;
    [unfold placement; rewrite K; eexists; split; [exact Rd|reflexivity]|].
  all: erewrite put_frame_eq by (cbn [w_node]; exact E); unfold with_temp; rewrite ?K; reflexivity.
Qed.

Lemma with_temp_quiet w n x v : w_node w n = Some x -> quiet w (with_temp w n x v).
Proof.
  intros E. unfold with_temp. repeat split; simpl; auto.
  - intros a Ha. rewrite upd_other by lia. auto.
  - intros k. unfold upd. destruct (Nat.eqb_spec k n) as [->|]; [|apply quiet_node_refl].
    rewrite E. simpl. unfold same_but_temp. auto.
Qed.

Lemma transform_frame_quiet n t w w' r : transform_frame n t w = (w', r) -> quiet w w'.
Proof.
  intros H. destruct (transform_frame_cases n t w) as [(x & v & E & _ & H')|(e & H')]; rewrite H' in H; inj H.
  - apply with_temp_quiet; auto.
  - apply quiet_refl.
Qed.

Lemma each_quiet f l : (forall c w w' r, In c l -> f c w = (w', r) -> quiet w w') ->
  forall w w' r, each f l w = (w', r) -> quiet w w'.
Proof.
  induction l as [|c l IH]; simpl; intros F w w' r H.
  - inj H. apply quiet_refl.
  - apply mthen_inv in H. destruct H as (w1 & r1 & H1 & H2). apply F in H1; auto. destruct r1.
    + eapply quiet_trans; [exact H1|]. eapply IH; eauto.
    + destruct H2 as (-> & ->). auto.
Qed.

Lemma dot_tr_same t r w w' p : dot_tr t r w = (w', p) -> w' = w.
Proof. unfold dot_tr. destruct (read w r); intros H; inj H; auto. Qed.

Lemma transform_children_quiet limit : forall n t w w' r,
  transform_children limit n t w = (w', r) -> quiet w w'.
Proof.
  induction limit as [|limit IH]; simpl; intros n t w w' r H.
  - inj H. apply quiet_refl.
  - apply mbind_inv in H. destruct H as (w1 & r1 & H1 & H2).
    unfold get_node in H1. destruct (w_node w n) as [x|]; inj H1; [|destruct H2 as (-> & ->); apply quiet_refl].
    destruct (n_kind x); try (inj H2; apply quiet_refl).
    + eapply each_quiet; [|exact H2]. cbn beta. intros c w2 w3 r3 _ H.
      apply mbind_inv in H. destruct H as (w4 & r4 & H4 & H5). apply dot_tr_same in H4. subst.
      destruct r4; [eapply transform_frame_quiet; eauto|destruct H5 as (-> & _); apply quiet_refl].
    + eapply each_quiet; [|exact H2]. cbn beta. intros c w2 w3 r3 _ H.
      apply mbind_inv in H. destruct H as (w4 & r4 & H4 & H5). apply dot_tr_same in H4. subst.
      destruct r4; [eapply IH; eauto|destruct H5 as (-> & _); apply quiet_refl].
Qed.

(** ** The invariant *)

Definition frame_ok (w : world) (f : frame) : Prop :=
  exists a m, f_tr f = Whole a /\ a < w_next w /\ w_arr w a = A44 m /\
    (f_loc f = Col a \/ exists b, f_loc f = Whole b /\ b < w_next w /\ w_arr w b = A3 (loc_of m)) /\
    (f_rot f = Block a \/ exists b, f_rot f = Whole b /\ b < w_next w /\ w_arr w b = A33 (rot_of m)).

Definition temp_ok (w : world) (f : frame) : Prop :=
  forall r, f_temp f = Some r -> base r < w_next w.

Definition inv (w : world) : Prop :=
  (forall n x, w_node w n = Some x -> n < w_size w /\ frame_ok w (n_fr x) /\ temp_ok w (n_fr x)) /\
  (forall n n' x x' , w_node w n = Some x -> w_node w n' = Some x' ->
     f_tr (n_fr x) = f_tr (n_fr x') -> n = n' \/ views (n_fr x)).

(** The invariant, but for the location and rotation of node [n]. *)
Definition inv_x (n : nat) (w : world) : Prop :=
  (forall k x, w_node w k = Some x -> k < w_size w /\ (k <> n -> frame_ok w (n_fr x)) /\ temp_ok w (n_fr x)) /\
  (forall k k' x x' , w_node w k = Some x -> w_node w k' = Some x' ->
     f_tr (n_fr x) = f_tr (n_fr x') -> k = k' \/ k = n \/ views (n_fr x)).

Lemma inv_inv_x n w : inv w -> inv_x n w.
Proof.
  intros (A & B). split; [intros k x E; destruct (A k x E) as (L & F & T); auto|].
  intros k k' x x' E E' Eq. destruct (B k k' x x' E E' Eq); auto.
Qed.

Lemma inv_x_inv n w : inv_x n w -> (forall x, w_node w n = Some x -> frame_ok w (n_fr x)) ->
  (sole w n \/ forall x, w_node w n = Some x -> views (n_fr x)) -> inv w.
Proof.
  intros (A & B) F S. split.
  - intros k x E. destruct (A k x E) as (L & G & T). split; auto. split; auto.
    destruct (Nat.eq_dec k n) as [->|N]; auto.
  - intros k k' x x' E E' Eq. destruct (B k k' x x' E E' Eq) as [|[->|]]; auto.
    destruct S as [S|S]; [|right; auto]. destruct (Nat.eq_dec k' n) as [|N]; [left; congruence|].
    exfalso. eapply S; eauto.
Qed.

Lemma quiet_sole w w' n : quiet w w' -> sole w n -> sole w' n.
Proof.
  intros (_ & _ & _ & Q) S k x y N Ex Ey. pose proof (Q n) as Qn. pose proof (Q k) as Qk.
  rewrite Ex in Qn. rewrite Ey in Qk.
  destruct (w_node w n) as [x0|] eqn:Ex0; simpl in Qn; [|tauto].
  destruct (w_node w k) as [y0|] eqn:Ey0; simpl in Qk; [|tauto].
  destruct Qn as (_ & T & _). destruct Qk as (_ & T' & _). rewrite T, T'. eapply S; eauto.
Qed.

Lemma quiet_frame_ok w w' f g : quiet w w' -> same_but_temp f g -> frame_ok w f -> frame_ok w' g.
Proof.
  intros (L & _ & A & _) (T & Lo & Ro) (a & m & H1 & H2 & H3 & H4 & H5). exists a, m.
  rewrite T, Lo, Ro. split; auto. split; [lia|]. split; [rewrite A; auto|]. split.
  - destruct H4 as [|(b & E & Hb & Eb)]; auto. right. exists b. rewrite A by auto. repeat split; auto; lia.
  - destruct H5 as [|(b & E & Hb & Eb)]; auto. right. exists b. rewrite A by auto. repeat split; auto; lia.
Qed.

(** A change of [w] that keeps the invariant for the temporary frames too. *)
Definition quiet_ok (w w' : world) : Prop :=
  quiet w w' /\ forall n x', w_node w' n = Some x' ->
    (forall x, w_node w n = Some x -> temp_ok w (n_fr x)) -> temp_ok w' (n_fr x').

Lemma quiet_ok_refl w : quiet_ok w w.
Proof. split; [apply quiet_refl|]. intros; eauto. Qed.

Lemma quiet_some w w' n x' : quiet w w' -> w_node w' n = Some x' ->
  exists x, w_node w n = Some x /\ n_kind x' = n_kind x /\ same_but_temp (n_fr x) (n_fr x').
Proof.
  intros (_ & _ & _ & Q) E. specialize (Q n). rewrite E in Q. destruct (w_node w n) as [x|]; simpl in Q; [|tauto].
  exists x. auto.
Qed.
Lemma quiet_some' w w' n x : quiet w w' -> w_node w n = Some x ->
  exists x', w_node w' n = Some x' /\ n_kind x' = n_kind x /\ same_but_temp (n_fr x) (n_fr x').
Proof.
  intros (_ & _ & _ & Q) E. specialize (Q n). rewrite E in Q. destruct (w_node w' n) as [x'|]; simpl in Q; [|tauto].
  exists x'. auto.
Qed.

Lemma quiet_ok_trans a b c : quiet_ok a b -> quiet_ok b c -> quiet_ok a c.
Proof.
  intros (A & A') (B & B'). split; [eapply quiet_trans; eauto|].
  intros n x' E F. apply (B' n x' E). intros x1 E1. apply (A' n x1 E1). intros x Ex. apply F; auto.
Qed.

Lemma with_temp_ok w n x v : w_node w n = Some x -> quiet_ok w (with_temp w n x v).
Proof.
  intros E. split; [apply with_temp_quiet; auto|]. intros k x' H F. unfold with_temp in *. cbn [w_node] in H.
  unfold upd in H. destruct (Nat.eqb_spec k n) as [->|N].
  - inj H. intros r Hr. cbn in Hr. inj Hr. simpl. lia.
  - specialize (F x' H). intros r Hr. specialize (F r Hr). cbn [w_next]. lia.
Qed.

Lemma transform_frame_ok n t w w' r : transform_frame n t w = (w', r) -> quiet_ok w w'.
Proof.
  intros H. destruct (transform_frame_cases n t w) as [(x & v & E & _ & H')|(e & H')]; rewrite H' in H; inj H.
  - apply with_temp_ok; auto.
  - apply quiet_ok_refl.
Qed.

Lemma each_ok f l : (forall c w w' r, In c l -> f c w = (w', r) -> quiet_ok w w') ->
  forall w w' r, each f l w = (w', r) -> quiet_ok w w'.
Proof.
  induction l as [|c l IH]; simpl; intros F w w' r H.
  - inj H. apply quiet_ok_refl.
  - apply mthen_inv in H. destruct H as (w1 & r1 & H1 & H2). apply F in H1; auto. destruct r1.
    + eapply quiet_ok_trans; [exact H1|]. eapply IH; eauto.
    + destruct H2 as (-> & ->). auto.
Qed.

Lemma transform_children_ok limit : forall n t w w' r,
  transform_children limit n t w = (w', r) -> quiet_ok w w'.
Proof.
  induction limit as [|limit IH]; simpl; intros n t w w' r H.
  - inj H. apply quiet_ok_refl.
  - apply mbind_inv in H. destruct H as (w1 & r1 & H1 & H2).
    unfold get_node in H1. destruct (w_node w n) as [x|]; inj H1; [|destruct H2 as (-> & ->); apply quiet_ok_refl].
    destruct (n_kind x); try (inj H2; apply quiet_ok_refl).
    + eapply each_ok; [|exact H2]. cbn beta. intros c w2 w3 r3 _ H.
      apply mbind_inv in H. destruct H as (w4 & r4 & H4 & H5). apply dot_tr_same in H4. subst.
      destruct r4; [eapply transform_frame_ok; eauto|destruct H5 as (-> & _); apply quiet_ok_refl].
    + eapply each_ok; [|exact H2]. cbn beta. intros c w2 w3 r3 _ H.
      apply mbind_inv in H. destruct H as (w4 & r4 & H4 & H5). apply dot_tr_same in H4. subst.
      destruct r4; [eapply IH; eauto|destruct H5 as (-> & _); apply quiet_ok_refl].
Qed.

Lemma views_same f g : same_but_temp f g -> views f -> views g.
Proof. intros (T & L & R) (a & A & B & C). exists a. repeat split; congruence. Qed.

Lemma quiet_inv_x n0 w w' : quiet_ok w w' -> inv_x n0 w -> inv_x n0 w'.
Proof.
  intros (Q & T) (A & B). split.
  - intros n x' E. destruct (quiet_some _ _ _ _ Q E) as (x & Ex & _ & S).
    destruct (A n x Ex) as (H1 & H2 & H3). split; [destruct Q as (_ & -> & _); auto|]. split.
    + intros N. eapply quiet_frame_ok; eauto.
    + apply (T n x' E). intros y Ey. rewrite Ex in Ey. inj Ey. auto.
  - intros n n' x x' E E' Et. destruct (quiet_some _ _ _ _ Q E) as (y & Ey & _ & S).
    destruct (quiet_some _ _ _ _ Q E') as (y' & Ey' & _ & S').
    destruct (B n n' y y') as [|[|V]]; auto; [destruct S as (S & _), S' as (S' & _); congruence|].
    right. right. eapply views_same; eauto.
Qed.

Lemma quiet_inv w w' : quiet_ok w w' -> inv w -> inv w'.
Proof.
  intros Q I. apply (inv_x_inv (w_size w)); [eapply quiet_inv_x; eauto using inv_inv_x| |].
  - intros x' E. destruct (quiet_some _ _ _ _ (proj1 Q) E) as (x & Ex & _ & S).
    destruct I as (A & _). destruct (A _ x Ex) as (_ & F & _). eapply quiet_frame_ok; [apply Q|eauto|auto].
  - left. intros k x y N Ex _. destruct (quiet_some _ _ _ _ (proj1 Q) Ex) as (x0 & Ex0 & _).
    destruct I as (A & _). destruct (A _ x0 Ex0) as (L & _). lia.
Qed.

(** Reading through references that stay. *)
Lemma quiet_read w w' r : quiet w w' -> base r < w_next w -> read w' r = read w r.
Proof. intros (_ & _ & A & _) L. destruct r; simpl in *; rewrite A; auto. Qed.

Lemma frame_ok_base w f : frame_ok w f -> base (f_tr f) < w_next w /\ base (f_loc f) < w_next w /\ base (f_rot f) < w_next w.
Proof.
  intros (a & m & -> & L & _ & H & H'). split; [exact L|]. split.
  - destruct H as [->|(b & -> & Lb & _)]; auto.
  - destruct H' as [->|(b & -> & Lb & _)]; auto.
Qed.

Lemma quiet_same w w' n : quiet w w' -> (forall x, w_node w n = Some x ->
    base (f_tr (n_fr x)) < w_next w /\ base (f_loc (n_fr x)) < w_next w /\ base (f_rot (n_fr x)) < w_next w) ->
  same_node w w' n.
Proof.
  intros Q F. pose proof Q as (_ & _ & _ & Qn). specialize (Qn n).
  unfold same_node, kind_of, transform_of, location_of, rotation_of.
  destruct (w_node w n) as [x|], (w_node w' n) as [x'|]; simpl in Qn; try tauto.
  destruct Qn as (K & T & L & Rr). destruct (F x eq_refl) as (B1 & B2 & B3).
  rewrite K, T, L, Rr, !(quiet_read w w') by auto. auto.
Qed.

Lemma inv_sync w : inv w -> in_sync w.
Proof.
  intros (A & _) n K. unfold kind_of in K. destruct (w_node w n) as [x|] eqn:E; [|congruence].
  destruct (A n x E) as (_ & (a & m & Ht & La & Ea & Hl & Hr) & _). exists m.
  unfold transform_of, location_of, rotation_of. rewrite E, Ht. simpl. rewrite Ea. split; auto. split.
  - destruct Hl as [->|(b & -> & Lb & Eb)]; simpl; [rewrite Ea|rewrite Eb]; auto.
  - destruct Hr as [->|(b & -> & Lb & Eb)]; simpl; [rewrite Ea|rewrite Eb]; auto.
Qed.

Lemma quiet_same_inv w w' n : quiet w w' -> inv w -> same_node w w' n.
Proof.
  intros Q (A & _). apply quiet_same; auto. intros x E. destruct (A n x E) as (_ & F & _).
  apply frame_ok_base; auto.
Qed.

Lemma same_node_refl w n : same_node w w n.
Proof. repeat split. Qed.
Lemma same_node_trans a b c n : same_node a b n -> same_node b c n -> same_node a c n.
Proof. intros (A & B & C & D) (E & F & G & H). repeat split; congruence. Qed.

Lemma loc_with_loc m v : loc_of (with_loc m v) = v. Proof. destruct v; reflexivity. Qed.
Lemma rot_with_loc m v : rot_of (with_loc m v) = rot_of m. Proof. reflexivity. Qed.
Lemma rot_with_rot m r : rot_of (with_rot m r) = r. Proof. destruct r as [[] [] []]; reflexivity. Qed.
Lemma loc_with_rot m r : loc_of (with_rot m r) = loc_of m. Proof. reflexivity. Qed.

(** ** The three setters of HasFrame *)

(** Node [n] now has the frame [f] and its transform array contains [m]. *)
Definition reframe (w : world) (n : nat) (x : node) (f : frame) (a : nat) (m : mat4) : world :=
  mkW (upd (w_arr w) a (A44 m)) (w_next w) (upd (w_node w) n (Some (mkN (n_kind x) f))) (w_size w).

Lemma frame_set_location_eq w n x a m r v : w_node w n = Some x -> f_tr (n_fr x) = Whole a ->
  w_arr w a = A44 m -> read w r = A3 v ->
  frame_set_location n r w =
    (reframe w n x (mkF (Whole a) r (f_rot (n_fr x)) (f_temp (n_fr x))) a (with_loc m v), Ok tt).
Proof.
  intros E Et Ea Er. unfold frame_set_location. rewrite Er.
  erewrite mthen_ok by (apply put_frame_eq; exact E).
  unfold mbind, get_node. cbn [w_node]. rewrite upd_same. cbn [n_fr f_tr]. rewrite Et.
  unfold put_col, assign_into. cbn [w_arr]. rewrite Ea. reflexivity.
Qed.

Lemma frame_set_rotation_eq w n x a m r s : w_node w n = Some x -> f_tr (n_fr x) = Whole a ->
  w_arr w a = A44 m -> read w r = A33 s ->
  frame_set_rotation n r w =
    (reframe w n x (mkF (Whole a) (f_loc (n_fr x)) r (f_temp (n_fr x))) a (with_rot m s), Ok tt).
Proof.
  intros E Et Ea Er. unfold frame_set_rotation. rewrite Er.
  erewrite mthen_ok by (apply put_frame_eq; exact E).
  unfold mbind, get_node. cbn [w_node]. rewrite upd_same. cbn [n_fr f_tr]. rewrite Et.
  unfold put_block, assign_into. cbn [w_arr]. rewrite Ea. reflexivity.
Qed.

Lemma frame_set_transform_eq w n x a m : w_node w n = Some x -> w_arr w a = A44 m ->
  exists w', frame_set_transform n (Whole a) w = (w', Ok tt) /\
    w_arr w' = w_arr w /\ w_next w' = w_next w /\ w_size w' = w_size w /\
    w_node w' n = Some (mkN (n_kind x) (mkF (Whole a) (Col a) (Block a) (f_temp (n_fr x)))) /\
    forall k, k <> n -> w_node w' k = w_node w k.
Proof.
  intros E Ea. unfold frame_set_transform. erewrite mthen_ok by (apply put_frame_eq; exact E).
  cbn [read w_arr]. rewrite Ea. erewrite put_frame_eq by (cbn [w_node]; apply upd_same).
  eexists. split; [reflexivity|]. cbn. repeat split; auto.
  - apply upd_same.
  - intros k N. rewrite !upd_other by auto. auto.
Qed.

(** Reframing keeps the other nodes as they are. *)
Lemma reframe_other w n x f a m m0 : inv_x n w -> sole w n -> w_node w n = Some x -> f_tr (n_fr x) = Whole a -> w_arr w a = A44 m0 ->
  forall k y, k <> n -> w_node w k = Some y ->
    frame_ok (reframe w n x f a m) (n_fr y) /\
    (forall r, r = f_tr (n_fr y) \/ r = f_loc (n_fr y) \/ r = f_rot (n_fr y) ->
       read (reframe w n x f a m) r = read w r).
Proof.
  intros (I & _) J E Et Ea k y N Ey. destruct (I k y Ey) as (_ & F & _).
  destruct (F N) as (a' & m' & Ht & La & Ea' & Hl & Hr).
  assert (Na : a' <> a). { intros ->. apply (J k x y); auto. congruence. }
  assert (Nb : forall b, (exists v, w_arr w b = A3 v) \/ (exists v, w_arr w b = A33 v) -> b <> a).
  { intros b H ->. destruct H as [(v & H)|(v & H)]; rewrite Ea in H; discriminate. }
  split.
  - exists a', m'. unfold reframe. cbn [w_arr w_next]. rewrite upd_other by auto. repeat split; auto.
    + destruct Hl as [|(b & Hb & Lb & Eb)]; auto. right. exists b. rewrite upd_other by (apply Nb; eauto). auto.
    + destruct Hr as [|(b & Hb & Lb & Eb)]; auto. right. exists b. rewrite upd_other by (apply Nb; eauto). auto.
  - intros r. unfold reframe. intros [->|[->| ->]].
    + rewrite Ht. cbn. rewrite upd_other; auto.
    + destruct Hl as [->|(b & -> & Lb & Eb)]; cbn; rewrite upd_other; eauto.
    + destruct Hr as [->|(b & -> & Lb & Eb)]; cbn; rewrite upd_other; eauto.
Qed.

Lemma reframe_sole w n x f a m : w_node w n = Some x -> f_tr (n_fr x) = Whole a -> f_tr f = Whole a ->
  sole w n -> sole (reframe w n x f a m) n.
Proof.
  intros E Et Hf S k y z N Ey Ez. cbn [w_node reframe] in Ey, Ez. rewrite upd_same in Ey. rewrite upd_other in Ez by auto.
  inj Ey. cbn [n_fr]. rewrite Hf, <- Et. apply (S k x z); auto.
Qed.

Lemma reframe_inv_x w n x f a m m0 : inv_x n w -> sole w n -> w_node w n = Some x -> f_tr (n_fr x) = Whole a ->
  w_arr w a = A44 m0 -> f_tr f = Whole a -> f_temp f = f_temp (n_fr x) ->
  inv_x n (reframe w n x f a m).
Proof.
  intros I So E Et Ea Hf Ht. pose proof I as (A & B). split.
  - intros k y Ey. cbn [w_node reframe] in Ey. unfold upd in Ey. destruct (Nat.eqb_spec k n) as [->|N].
    + inj Ey. destruct (A n x E) as (L & _ & T). split; [exact L|]. split; [congruence|].
      intros r Hr. cbn in Hr. rewrite Ht in Hr. apply T; auto.
    + destruct (A k y Ey) as (L & _ & T). split; [exact L|]. split; [|exact T].
      intros _. eapply reframe_other; eauto.
  - intros k k' y y' Ey Ey' Eq. cbn [w_node reframe] in Ey, Ey'. unfold upd in *.
    destruct (Nat.eqb_spec k n) as [->|N], (Nat.eqb_spec k' n) as [->|N']; auto.
    inj Ey'. cbn in Eq. exfalso. apply (So k x y); auto. congruence.
    + apply (B k k' y y'); auto.
Qed.

Lemma reframe_inv w n x f a m m0 : inv w -> sole w n -> w_node w n = Some x -> f_tr (n_fr x) = Whole a ->
  w_arr w a = A44 m0 -> f_tr f = Whole a -> f_temp f = f_temp (n_fr x) ->
  frame_ok (reframe w n x f a m) f -> inv (reframe w n x f a m).
Proof.
  intros I So E Et Ea Hf Ht F. apply (inv_x_inv n); [eapply reframe_inv_x; eauto using inv_inv_x| |].
  - intros y Ey. cbn [w_node reframe] in Ey. rewrite upd_same in Ey. inj Ey. exact F.
  - left. apply reframe_sole; auto.
Qed.

Lemma reframe_same w n x f a m m0 k : inv_x n w -> sole w n -> w_node w n = Some x -> f_tr (n_fr x) = Whole a -> w_arr w a = A44 m0 ->
  k <> n -> same_node w (reframe w n x f a m) k.
Proof.
  intros I So E Et Ea N. unfold same_node, kind_of, transform_of, location_of, rotation_of.
  assert (En : w_node (reframe w n x f a m) k = w_node w k) by (cbn; apply upd_other; auto).
  rewrite En. destruct (w_node w k) as [y|] eqn:Ey; [|auto].
  destruct (reframe_other w n x f a m m0 I So E Et Ea k y N Ey) as (_ & Rd). rewrite !Rd by auto. auto.
Qed.

Lemma inv_node w n x : inv w -> w_node w n = Some x -> exists a m, f_tr (n_fr x) = Whole a /\
  a < w_next w /\ w_arr w a = A44 m /\ transform_of w n = Some m.
Proof.
  intros (A & _) E. destruct (A n x E) as (_ & (a & m & Ht & La & Ea & _) & _). exists a, m.
  unfold transform_of. rewrite E, Ht. simpl. rewrite Ea. auto.
Qed.

(** [set_location] of HasFrame *)
Lemma frame_set_location_good w n x b v : inv w -> sole w n -> w_node w n = Some x ->
  b < w_next w -> w_arr w b = A3 v ->
  exists w' m, frame_set_location n (Whole b) w = (w', Ok tt) /\ inv w' /\
    w_next w' = w_next w /\ w_size w' = w_size w /\
    kind_of w' n = kind_of w n /\ transform_of w n = Some m /\ transform_of w' n = Some (with_loc m v) /\
    (exists x', w_node w' n = Some x' /\ f_temp (n_fr x') = f_temp (n_fr x) /\ n_kind x' = n_kind x) /\
    forall k, k <> n -> same_node w w' k /\ w_node w' k = w_node w k.
Proof.
  intros I So E L Eb. destruct (inv_node w n x I E) as (a & m & Ht & La & Ea & Tm).
  assert (Nb : b <> a) by (intros ->; congruence).
  exists (reframe w n x (mkF (Whole a) (Whole b) (f_rot (n_fr x)) (f_temp (n_fr x))) a (with_loc m v)), m.
  split; [apply frame_set_location_eq; auto|].
  assert (Fo : frame_ok (reframe w n x (mkF (Whole a) (Whole b) (f_rot (n_fr x)) (f_temp (n_fr x))) a (with_loc m v))
                        (mkF (Whole a) (Whole b) (f_rot (n_fr x)) (f_temp (n_fr x)))).
  { exists a, (with_loc m v). unfold reframe. cbn [w_arr w_next f_tr f_loc f_rot]. rewrite upd_same, loc_with_loc, rot_with_loc. repeat split; auto.
    - right. exists b. rewrite upd_other by auto. auto.
    - destruct I as (A & _). destruct (A n x E) as (_ & (a' & m' & Ht' & _ & Ea' & _ & Hr) & _).
      assert (a' = a) by congruence. subst a'. assert (m' = m) by congruence. subst m'.
      destruct Hr as [|(b' & Hb' & Lb' & Eb')]; auto. right. exists b'.
      rewrite upd_other by (intros ->; congruence). auto. }
  split; [eapply reframe_inv; eauto|].
  split; [reflexivity|]. split; [reflexivity|].
  split; [unfold kind_of; cbn; rewrite upd_same, E; auto|]. split; [exact Tm|].
  split; [unfold transform_of; cbn; rewrite upd_same; cbn; rewrite upd_same; auto|].
  split; [eexists; split; [cbn; apply upd_same|cbn; auto]|].
  intros k N. split; [eapply reframe_same; eauto using inv_inv_x|cbn; apply upd_other; auto].
Qed.

Lemma frame_set_rotation_good w n x b s : inv w -> sole w n -> w_node w n = Some x ->
  b < w_next w -> w_arr w b = A33 s ->
  exists w' m, frame_set_rotation n (Whole b) w = (w', Ok tt) /\ inv w' /\
    w_next w' = w_next w /\ w_size w' = w_size w /\
    kind_of w' n = kind_of w n /\ transform_of w n = Some m /\ transform_of w' n = Some (with_rot m s) /\
    (exists x', w_node w' n = Some x' /\ f_temp (n_fr x') = f_temp (n_fr x) /\ n_kind x' = n_kind x) /\
    forall k, k <> n -> same_node w w' k /\ w_node w' k = w_node w k.
Proof.
  intros I So E L Eb. destruct (inv_node w n x I E) as (a & m & Ht & La & Ea & Tm).
  assert (Nb : b <> a) by (intros ->; congruence).
  exists (reframe w n x (mkF (Whole a) (f_loc (n_fr x)) (Whole b) (f_temp (n_fr x))) a (with_rot m s)), m.
  split; [apply frame_set_rotation_eq; auto|].
  assert (Fo : frame_ok (reframe w n x (mkF (Whole a) (f_loc (n_fr x)) (Whole b) (f_temp (n_fr x))) a (with_rot m s))
                        (mkF (Whole a) (f_loc (n_fr x)) (Whole b) (f_temp (n_fr x)))).
  { exists a, (with_rot m s). unfold reframe. cbn [w_arr w_next f_tr f_loc f_rot]. rewrite upd_same, loc_with_rot, rot_with_rot. repeat split; auto.
    - destruct I as (A & _). destruct (A n x E) as (_ & (a' & m' & Ht' & _ & Ea' & Hl & _) & _).
      assert (a' = a) by congruence. subst a'. assert (m' = m) by congruence. subst m'.
      destruct Hl as [|(b' & Hb' & Lb' & Eb')]; auto. right. exists b'.
      rewrite upd_other by (intros ->; congruence). auto.
    - right. exists b. rewrite upd_other by auto. auto. }
  split; [eapply reframe_inv; eauto|].
  split; [reflexivity|]. split; [reflexivity|].
  split; [unfold kind_of; cbn; rewrite upd_same, E; auto|]. split; [exact Tm|].
  split; [unfold transform_of; cbn; rewrite upd_same; cbn; rewrite upd_same; auto|].
  split; [eexists; split; [cbn; apply upd_same|cbn; auto]|].
  intros k N. split; [eapply reframe_same; eauto using inv_inv_x|cbn; apply upd_other; auto].
Qed.

Lemma frame_set_transform_good w n x r : inv w -> w_node w n = Some x -> usable_transform w n r ->
  exists w' m, frame_set_transform n r w = (w', Ok tt) /\ inv w' /\
    w_next w' = w_next w /\ w_size w' = w_size w /\
    kind_of w' n = kind_of w n /\ read w r = A44 m /\ transform_of w' n = Some m /\
    (exists x', w_node w' n = Some x' /\ f_temp (n_fr x') = f_temp (n_fr x) /\ n_kind x' = n_kind x) /\
    forall k, k <> n -> same_node w w' k /\ w_node w' k = w_node w k.
Proof.
  intros I E (b & m & -> & L & Eb & Own). pose proof I as (A & B).
  destruct (frame_set_transform_eq w n x b m E Eb) as (w' & H & Ha & Hn & Hs & En & Ek).
  exists w', m. split; auto.
  assert (Fo : forall f, frame_ok w f -> frame_ok w' f).
  { intros f (a' & m' & F). exists a', m'. rewrite Ha, Hn. auto. }
  split.
  { split.
    - intros k y Ey. rewrite Hs. destruct (Nat.eq_dec k n) as [->|N].
      + rewrite En in Ey. inj Ey. destruct (A n x E) as (Ln & _ & T). split; auto. split.
        * exists b, m. rewrite Ha, Hn. cbn. auto 10.
        * intros q Hq. cbn in Hq. rewrite Hn. apply T; auto.
      + rewrite Ek in Ey by auto. destruct (A k y Ey) as (Lk & F & T). split; auto. split; [apply Fo; auto|].
        intros q Hq. rewrite Hn. apply T; auto.
    - intros k k' y y' Ey Ey' Eq.
      destruct (Nat.eq_dec k n) as [->|N], (Nat.eq_dec k' n) as [->|N']; auto.
      + rewrite En in Ey. inj Ey. right. exists b. auto.
      + rewrite En in Ey'. rewrite Ek in Ey by auto. inj Ey'. cbn in Eq. right. eapply (Own k y); eauto.
      + rewrite Ek in Ey, Ey' by auto. apply (B k k' y y'); auto. }
  split; [exact Hn|]. split; [exact Hs|].
  split; [unfold kind_of; rewrite En, E; auto|]. split; [exact Eb|].
  split; [unfold transform_of; rewrite En; cbn; rewrite Ha, Eb; auto|].
  split; [eexists; split; [exact En|cbn; auto]|].
  intros k N. split; [|apply Ek; auto]. 
  unfold same_node, kind_of, transform_of, location_of, rotation_of. rewrite Ek by auto.
  destruct (w_node w k) as [y|]; auto.
  assert (Rd : forall q, read w' q = read w q) by (intros []; simpl; rewrite Ha; auto).
  rewrite !Rd. auto.
Qed.
