(** Histories of calls keep locations, rotations and transforms in sync. *)
From Coq Require Import Reals List Arith Bool Lia Lra.
From Verif.Base Require Import Py Num Vec.
From Verif.Model Require Import Assembly.
From Verif.Spec Require Import FrameSpec.
From Verif.Proof Require Import VecLemmas FrameProof.
Import ListNotations.

Lemma new_arr_ok x w w' r : new_arr x w = (w', r) -> quiet_ok w w' /\ w_node w' = w_node w /\
  r = Ok (Whole (w_next w)) /\ w_arr w' (w_next w) = x /\ w_next w' = S (w_next w).
Proof.
  unfold new_arr. intros H. inj H. split; [split; [split|]|].
  - cbn. lia.
  - cbn. split; auto. split; [|intros; apply quiet_node_refl].
    intros a Ha. rewrite upd_other by lia. auto.
  - intros n x' E F q Hq. cbn in *. specialize (F x' E q Hq). lia.
  - cbn. rewrite upd_same. auto.
Qed.

Lemma quiet_plain w w' r : quiet w w' -> plain w r -> plain w' r.
Proof. intros (L & _) (b & -> & Hb). exists b. split; auto. lia. Qed.
Lemma quiet_plain_opt w w' r : quiet w w' -> plain_opt w r -> plain_opt w' r.
Proof. destruct r; simpl; auto. apply quiet_plain. Qed.

Lemma quiet_own w w' n r : quiet w w' -> usable_transform w n r -> usable_transform w' n r.
Proof.
  intros Q (b & m & -> & L & E & F). exists b, m. split; auto. pose proof Q as (Ln & _ & A & _).
  split; [lia|]. split; [rewrite A; auto|]. intros k x' N Ex' Et.
  destruct (quiet_some _ _ _ _ Q Ex') as (x & Ex & _ & S). eapply views_same; [exact S|].
  apply (F k x N Ex). destruct S as (S & _). congruence.
Qed.

Lemma default_ok r x w w' q : default r x w = (w', q) -> exists s, q = Ok s /\ quiet_ok w w' /\
  w_node w' = w_node w /\
  (plain_opt w r -> plain w' s) /\
  match r with
  | Some r => s = r /\ w' = w
  | None => s = Whole (w_next w) /\ w_next w' = S (w_next w) /\ w_arr w' (w_next w) = x
  end.
Proof.
  unfold default. destruct r as [r|]; intros H.
  - inj H. exists r. split; auto. split; [apply quiet_ok_refl|]. auto.
  - destruct (new_arr_ok _ _ _ _ H) as (Q & N & E & V & L). exists (Whole (w_next w)).
    split; auto. split; auto. split; auto. split; [|auto]. intros _. exists (w_next w). split; auto. lia.
Qed.

(** After [default], a transform is the node's own. *)
Lemma default_own t w w' s n m : inv w -> default t (A44 m) w = (w', Ok s) -> usable_opt w n t ->
  usable_transform w' n s.
Proof.
  intros I H O. destruct (default_ok _ _ _ _ _ H) as (s' & E & Q & N & _ & C). inj E.
  destruct t as [t|]; simpl in O.
  - destruct C as (-> & ->). auto.
  - destruct C as (-> & L & V). exists (w_next w), m. split; auto. split; [lia|]. split; auto.
    intros k x _ Ex. rewrite N in Ex. destruct I as (A & _). destruct (A k x Ex) as (_ & F & _).
    intros Et. apply frame_ok_base in F. rewrite Et in F. simpl in F. lia.
Qed.

Lemma then_children_cases limit n m w w' r : then_children limit n m w = (w', r) ->
  (w_node w n = None /\ w' = w /\ r = Err NameError) \/
  exists x w1 r1, w_node w n = Some x /\ m w = (w1, r1) /\ quiet_ok w1 w' /\
    match r1 with
    | Err e => w' = w1 /\ r = Err e
    | Ok _ => if is_leaf (n_kind x) then w' = w1 /\ r = r1 else transform_children limit n id4 w1 = (w', r)
    end.
Proof.
  intros H. apply mbind_inv in H. destruct H as (w0 & r0 & H0 & H1). unfold get_node in H0.
  destruct (w_node w n) as [x|] eqn:E; inj H0; [|left; destruct H1; auto].
  right. exists x. destruct (is_leaf (n_kind x)) eqn:K.
  - exists w', r. split; auto. split; auto. split; [apply quiet_ok_refl|]. destruct r; auto.
  - apply mthen_inv in H1. destruct H1 as (w1 & r1 & H1 & H2). exists w1, r1. split; auto. split; auto.
    destruct r1.
    + split; auto. eapply transform_children_ok; eauto.
    + destruct H2 as (-> & ->). split; auto. apply quiet_ok_refl.
Qed.

(** A bad shape raises and changes nothing. *)
Lemma frame_set_location_bad n r w : (forall v, read w r <> A3 v) ->
  frame_set_location n r w = (w, Err ValueError).
Proof. intros H. unfold frame_set_location. destruct (read w r) eqn:E; auto. exfalso. eapply H; eauto. Qed.
Lemma frame_set_rotation_bad n r w : (forall v, read w r <> A33 v) ->
  frame_set_rotation n r w = (w, Err ValueError).
Proof. intros H. unfold frame_set_rotation. destruct (read w r) eqn:E; auto. exfalso. eapply H; eauto. Qed.

(** ** [set_location] and the like on a node *)

Lemma set_location_bad limit n r w : kind_of w n <> None -> (forall v, read w r <> A3 v) ->
  set_location limit n r w = (w, Err ValueError).
Proof.
  intros K B. unfold kind_of in K. unfold set_location, then_children.
  destruct (w_node w n) as [x|] eqn:E; [|congruence].
  erewrite mbind_ok by (unfold get_node; rewrite E; reflexivity).
  destruct (is_leaf (n_kind x)); [apply frame_set_location_bad; auto|].
  unfold mthen, mbind. rewrite frame_set_location_bad; auto.
Qed.
Lemma set_rotation_bad limit n r w : kind_of w n <> None -> (forall v, read w r <> A33 v) ->
  set_rotation limit n r w = (w, Err ValueError).
Proof.
  intros K B. unfold kind_of in K. unfold set_rotation, then_children.
  destruct (w_node w n) as [x|] eqn:E; [|congruence].
  erewrite mbind_ok by (unfold get_node; rewrite E; reflexivity).
  destruct (is_leaf (n_kind x)); [apply frame_set_rotation_bad; auto|].
  unfold mthen, mbind. rewrite frame_set_rotation_bad; auto.
Qed.

(** The effect of a setter [m] on node [n], which turns its transform by [f]. *)
Definition changes (w : world) (n : nat) (f : mat4 -> mat4) (w' : world) : Prop :=
  inv w' /\ w_size w' = w_size w /\ kind_of w' n = kind_of w n /\
  (exists m, transform_of w n = Some m /\ transform_of w' n = Some (f m)) /\
  forall k, k <> n -> same_node w w' k.

Lemma changes_quiet w n f w1 w' : changes w n f w1 -> quiet_ok w1 w' -> changes w n f w'.
Proof.
  intros (I & S & K & (m & M1 & M2) & O) Q. assert (I' := quiet_inv _ _ Q I).
  destruct Q as (Q & _). destruct (quiet_same_inv _ _ n Q I) as (K' & T' & _).
  split; auto. split; [destruct Q as (_ & -> & _); auto|]. split; [congruence|].
  split; [exists m; split; congruence|].
  intros k N. eapply same_node_trans; [apply O; auto|]. apply quiet_same_inv; auto.
Qed.

Lemma set_location_changes limit n b v w w' o : inv w -> sole w n -> kind_of w n <> None ->
  b < w_next w -> w_arr w b = A3 v -> set_location limit n (Whole b) w = (w', o) ->
  changes w n (fun m => with_loc m v) w' /\ (o = Ok tt \/ exists w1, quiet_ok w1 w' /\
     changes w n (fun m => with_loc m v) w1 /\ transform_children limit n id4 w1 = (w', o)).
Proof.
  intros I So K L E H. unfold kind_of in K. destruct (w_node w n) as [x|] eqn:Ex; [|congruence].
  destruct (then_children_cases _ _ _ _ _ _ H) as [(C & _)|(x' & w1 & r1 & Ex' & H1 & Q & C)]; [congruence|].
  assert (x' = x) by congruence. subst x'.
  destruct (frame_set_location_good w n x b v I So Ex L E) as (w2 & m & H2 & I2 & _ & S2 & K2 & M1 & M2 & _ & O2).
  rewrite H2 in H1. inj H1.
  assert (Ch : changes w n (fun m => with_loc m v) w1).
  { split; auto. split; auto. split; auto. split; [eauto|]. intros; apply O2; auto. }
  split; [eapply changes_quiet; eauto|].
  destruct (is_leaf (n_kind x)); [destruct C as (-> & ->); auto|right; exists w1; auto].
Qed.

Lemma set_rotation_changes limit n b s w w' o : inv w -> sole w n -> kind_of w n <> None ->
  b < w_next w -> w_arr w b = A33 s -> set_rotation limit n (Whole b) w = (w', o) ->
  changes w n (fun m => with_rot m s) w' /\ (o = Ok tt \/ exists w1, quiet_ok w1 w' /\
     changes w n (fun m => with_rot m s) w1 /\ transform_children limit n id4 w1 = (w', o)).
Proof.
  intros I So K L E H. unfold kind_of in K. destruct (w_node w n) as [x|] eqn:Ex; [|congruence].
  destruct (then_children_cases _ _ _ _ _ _ H) as [(C & _)|(x' & w1 & r1 & Ex' & H1 & Q & C)]; [congruence|].
  assert (x' = x) by congruence. subst x'.
  destruct (frame_set_rotation_good w n x b s I So Ex L E) as (w2 & m & H2 & I2 & _ & S2 & K2 & M1 & M2 & _ & O2).
  rewrite H2 in H1. inj H1.
  assert (Ch : changes w n (fun m => with_rot m s) w1).
  { split; auto. split; auto. split; auto. split; [eauto|]. intros; apply O2; auto. }
  split; [eapply changes_quiet; eauto|].
  destruct (is_leaf (n_kind x)); [destruct C as (-> & ->); auto|right; exists w1; auto].
Qed.

Lemma set_transform_changes limit n r w w' o : inv w -> kind_of w n <> None ->
  usable_transform w n r -> set_transform limit n r w = (w', o) ->
  exists t, read w r = A44 t /\
  changes w n (fun _ => t) w' /\ (o = Ok tt \/ exists w1, quiet_ok w1 w' /\
     changes w n (fun _ => t) w1 /\ transform_children limit n id4 w1 = (w', o)).
Proof.
  intros I K Own H. unfold kind_of in K. destruct (w_node w n) as [x|] eqn:Ex; [|congruence].
  destruct (then_children_cases _ _ _ _ _ _ H) as [(C & _)|(x' & w1 & r1 & Ex' & H1 & Q & C)]; [congruence|].
  assert (x' = x) by congruence. subst x'.
  destruct (frame_set_transform_good w n x r I Ex Own) as (w2 & t & H2 & I2 & _ & S2 & K2 & Rd & M2 & _ & O2).
  rewrite H2 in H1. inj H1. exists t. split; auto.
  destruct (inv_node w n x I Ex) as (a & m & _ & _ & _ & Tm).
  assert (Ch : changes w n (fun _ => t) w1).
  { split; auto. split; auto. split; auto. split; [eauto|]. intros; apply O2; auto. }
  split; [eapply changes_quiet; eauto|].
  destruct (is_leaf (n_kind x)); [destruct C as (-> & ->); auto|right; exists w1; auto].
Qed.

Lemma set_location_inv limit n r w w' o : inv w -> sole w n -> plain w r ->
  set_location limit n r w = (w', o) -> inv w'.
Proof.
  intros I So (b & -> & L) H. destruct (kind_of w n) eqn:K.
  - destruct (w_arr w b) as [v| | | |] eqn:E.
    1: { eapply set_location_changes in H; eauto; [destruct H as ((I' & _) & _); auto|congruence]. }
    all: rewrite set_location_bad in H; [inj H; auto|congruence|intros u Eu; simpl in Eu; congruence].
  - destruct (then_children_cases _ _ _ _ _ _ H) as [(_ & -> & _)|(x & _ & _ & Ex & _)]; auto.
    unfold kind_of in K. rewrite Ex in K. discriminate.
Qed.
Lemma set_rotation_inv limit n r w w' o : inv w -> sole w n -> plain w r ->
  set_rotation limit n r w = (w', o) -> inv w'.
Proof.
  intros I So (b & -> & L) H. destruct (kind_of w n) eqn:K.
  - destruct (w_arr w b) as [|s| | |] eqn:E.
    2: { eapply set_rotation_changes in H; eauto; [destruct H as ((I' & _) & _); auto|congruence]. }
    all: rewrite set_rotation_bad in H; [inj H; auto|congruence|intros u Eu; simpl in Eu; congruence].
  - destruct (then_children_cases _ _ _ _ _ _ H) as [(_ & -> & _)|(x & _ & _ & Ex & _)]; auto.
    unfold kind_of in K. rewrite Ex in K. discriminate.
Qed.
Lemma set_transform_inv limit n r w w' o : inv w -> usable_transform w n r ->
  set_transform limit n r w = (w', o) -> inv w'.
Proof.
  intros I Own H. destruct (kind_of w n) eqn:K.
  - destruct (set_transform_changes limit n r w w' o I) as (t & _ & (I' & _) & _); auto. congruence.
  - destruct (then_children_cases _ _ _ _ _ _ H) as [(_ & -> & _)|(x & _ & _ & Ex & _)]; auto.
    unfold kind_of in K. rewrite Ex in K. discriminate.
Qed.

(** ** New nodes and other kinds *)

Lemma put_kind_inv n k w w' r : inv w -> put_kind n k w = (w', r) -> inv w' /\
  w_arr w' = w_arr w /\ w_next w' = w_next w /\ w_size w' = w_size w /\
  (forall j x', w_node w' j = Some x' -> exists x, w_node w j = Some x /\ n_fr x' = n_fr x) /\
  (forall j, w_node w j = None <-> w_node w' j = None) /\
  (forall j, j <> n -> w_node w' j = w_node w j) /\
  (kind_of w n <> None -> kind_of w' n = Some k /\ r = Ok tt) /\
  (forall j, transform_of w' j = transform_of w j /\ location_of w' j = location_of w j /\ rotation_of w' j = rotation_of w j).
Proof.
  intros I H. apply mbind_inv in H. destruct H as (w1 & r1 & H1 & H2). unfold get_node in H1.
  unfold kind_of at 1. destruct (w_node w n) as [x|] eqn:E; inj H1.
  - unfold put_node in H2. inj H2. cbn [w_arr w_next w_size w_node].
    assert (Nd : forall j x', upd (w_node w1) n (Some (mkN k (n_fr x))) j = Some x' ->
              exists x, w_node w1 j = Some x /\ n_fr x' = n_fr x).
    { intros j x' Ej. unfold upd in Ej. destruct (Nat.eqb_spec j n) as [->|]; [inj Ej; exists x; auto|exists x'; auto]. }
    split; [split|].
    + intros j x' Ej. cbn [w_node] in Ej. destruct (Nd _ _ Ej) as (y & Ey & Ef). destruct I as (A & _).
      destruct (A j y Ey) as (L & F & T). rewrite Ef. split; auto.
    + intros j j' y y' Ej Ej' Eq. cbn [w_node] in *. destruct (Nd _ _ Ej) as (z & Ez & Ef).
      destruct (Nd _ _ Ej') as (z' & Ez' & Ef'). destruct I as (_ & B). rewrite Ef. apply (B j j' z z'); auto. congruence.
    + repeat split; auto.
      * intros Hj. unfold upd. destruct (Nat.eqb_spec j n) as [->|]; [congruence|auto].
      * unfold upd. destruct (Nat.eqb_spec j n) as [->|]; [discriminate|auto].
      * intros j N. apply upd_other; auto.
      * unfold kind_of. cbn [w_node]. rewrite upd_same. auto.
      * unfold transform_of. cbn [w_node]. unfold upd. destruct (Nat.eqb_spec j n) as [->|]; [rewrite E|]; auto.
      * unfold location_of. cbn [w_node]. unfold upd. destruct (Nat.eqb_spec j n) as [->|]; [rewrite E|]; auto.
      * unfold rotation_of. cbn [w_node]. unfold upd. destruct (Nat.eqb_spec j n) as [->|]; [rewrite E|]; auto.
  - destruct H2 as (-> & ->). split; auto. repeat split; auto; try tauto. eauto.
Qed.

Lemma put_kind_own n k w w' r m t : inv w -> put_kind n k w = (w', r) -> usable_transform w m t -> usable_transform w' m t.
Proof.
  intros I H (b & a & -> & L & E & F). destruct (put_kind_inv _ _ _ _ _ I H) as (_ & A & N & _ & Nd & _).
  exists b, a. rewrite A, N. repeat split; auto. intros j x' Nj Ej. destruct (Nd _ _ Ej) as (x & Ex & ->). eauto.
Qed.

(** Forgetting a node. *)
Lemma forget_inv n w : inv_x n w ->
  inv (mkW (w_arr w) (w_next w) (upd (w_node w) n None) (w_size w)).
Proof.
  intros (A & B). split.
  - intros k x E. cbn [w_node] in E. unfold upd in E. destruct (Nat.eqb_spec k n) as [|N]; [discriminate|].
    destruct (A k x E) as (L & F & T). split; auto.
  - intros k k' x x' E E' Eq. cbn [w_node] in *. unfold upd in *.
    destruct (Nat.eqb_spec k n), (Nat.eqb_spec k' n); try discriminate. destruct (B k k' x x') as [|[|]]; auto. contradiction.
Qed.

(** A new node with an array of its own as transform. *)
Lemma new_node_inv_x w x a m : inv w -> f_tr (n_fr x) = Whole a -> a < w_next w -> w_arr w a = A44 m ->
  (forall k y, w_node w k = Some y -> f_tr (n_fr y) = Whole a -> views (n_fr y)) -> f_temp (n_fr x) = None ->
  forall w' r, new_node x w = (w', r) ->
  r = Ok (w_size w) /\ inv_x (w_size w) w' /\ w_node w' (w_size w) = Some x /\
  w_arr w' = w_arr w /\ w_next w' = w_next w /\ w_size w' = S (w_size w) /\
  forall k, k <> w_size w -> w_node w' k = w_node w k.
Proof.
  intros (A & B) Et L E F T w' r H. unfold new_node in H. inj H.
  cbn [w_node w_arr w_next w_size]. rewrite upd_same. split; auto. split.
  - split.
    + intros k y Ey. cbn [w_node w_size] in *. unfold upd in Ey. destruct (Nat.eqb_spec k (w_size w)) as [->|N].
      * inj Ey. split; [lia|]. split; [congruence|]. intros q Hq. congruence.
      * destruct (A k y Ey) as (L' & F' & T'). split; [lia|]. split; [intros _; exact F'|exact T'].
    + intros k k' y y' Ey Ey' Eq. cbn [w_node] in *. unfold upd in *.
      destruct (Nat.eqb_spec k (w_size w)) as [->|N], (Nat.eqb_spec k' (w_size w)) as [->|N']; auto.
      * inj Ey'. right. right. eapply (F k y); eauto. congruence.
      * destruct (B k k' y y'); auto.
  - repeat split; auto. intros k N. apply upd_other; auto.
Qed.

(** After [set_location] and [set_rotation] of the constructor, node [n] is fine. *)
Lemma init_setters_inv limit n w x k a m bl br w' o : n_kind x = k ->
  inv_x n w -> sole w n -> w_node w n = Some x -> f_tr (n_fr x) = Whole a -> a < w_next w -> w_arr w a = A44 m ->
  f_temp (n_fr x) = None -> bl < w_next w -> br < w_next w ->
  or_forget n (set_location limit n (Whole bl) ~> set_rotation limit n (Whole br) ~>
     put_frame n (fun f => mkF (f_tr f) (f_loc f) (f_rot f)
        (Some (match k with KSphere => f_loc f | _ => f_tr f end)))) w = (w', o) ->
  inv w' /\ (forall k, k <> n -> same_node w w' k) /\
  (forall n', o = Ok n' -> n' = n /\ exists v s, w_arr w bl = A3 v /\ w_arr w br = A33 s /\ kind_of w' n = Some (n_kind x) /\
     transform_of w' n = Some (with_rot (with_loc m v) s)).
Proof.
  intros <- I So E Et La Ea Tn Ll Lr H.
  assert (Bad : forall u e, inv_x n u -> (forall k, k <> n -> same_node w u k) -> (w', o) = (mkW (w_arr u) (w_next u) (upd (w_node u) n None) (w_size u), Err e) ->
    inv w' /\ (forall k, k <> n -> same_node w w' k) /\
    (forall n', o = Ok n' -> n' = n /\ exists v s, w_arr w bl = A3 v /\ w_arr w br = A33 s /\ kind_of w' n = Some (n_kind x) /\
     transform_of w' n = Some (with_rot (with_loc m v) s))).
  { intros u e Iu Su Hu. inj Hu. split; [apply forget_inv; auto|]. split; [|discriminate].
    intros k N. eapply same_node_trans; [apply Su; auto|].
    unfold same_node, kind_of, transform_of, location_of, rotation_of. cbn [w_node].
    rewrite upd_other by auto. auto. }
  unfold or_forget in H.
  destruct (mthen _ _ w) as [w9 o9] eqn:H9. apply mthen_inv in H9. destruct H9 as (w1 & r1 & H1 & H2).
  destruct (then_children_cases _ _ _ _ _ _ H1) as [(C & _)|(x' & w2 & r2 & Ex' & F1 & Q1 & C1)]; [congruence|].
  assert (x' = x) by congruence. subst x'.
  destruct (w_arr w bl) as [v| | | |] eqn:Evl;
    try (rewrite frame_set_location_bad in F1 by (intros u; simpl; rewrite Evl; discriminate); inj F1;
         destruct C1 as (-> & ->); destruct H2 as (-> & ->); apply (Bad w2 ValueError); auto;
         intros; apply same_node_refl).
  rewrite (frame_set_location_eq w n x a m (Whole bl) v E Et Ea Evl) in F1. inj F1.
  set (f1 := mkF (Whole a) (Whole bl) (f_rot (n_fr x)) (f_temp (n_fr x))) in *.
  set (w2 := reframe w n x f1 a (with_loc m v)) in *.
  assert (I2 : inv_x n w2) by (eapply reframe_inv_x; eauto).
  assert (S2 : forall k, k <> n -> same_node w w2 k) by (intros; eapply reframe_same; eauto).
  assert (So2 : sole w2 n) by (apply reframe_sole; auto).
  assert (Sq : forall u u', inv_x n u -> quiet u u' -> forall k, k <> n -> same_node u u' k).
  { intros u u' (A & _) Q k N. apply quiet_same; auto. intros y Ey. destruct (A k y Ey) as (_ & F & _).
    apply frame_ok_base. auto. }
  assert (I1 : inv_x n w1) by (eapply quiet_inv_x; eauto).
  assert (So1 : sole w1 n) by (eapply quiet_sole; [apply Q1|exact So2]).
  assert (S1 : forall k, k <> n -> same_node w w1 k)
    by (intros k N; eapply same_node_trans; [apply S2; auto|apply (Sq w2 w1); auto; apply Q1]).
  destruct r1 as [[]|e]; [|destruct H2 as (-> & ->); apply (Bad w1 e); auto].
  assert (E2 : w_node w2 n = Some (mkN (n_kind x) f1)) by (unfold w2, reframe; cbn; apply upd_same).
  destruct (quiet_some' _ _ _ _ (proj1 Q1) E2) as (x1 & E1 & K1 & T1 & L1 & R1).
  cbn [n_fr n_kind f_tr f_loc f_rot f1] in K1, T1, L1, R1.
  assert (Nx : w_next w2 = w_next w) by reflexivity.
  assert (Nbl : bl <> a) by (intros ->; congruence).
  assert (A1 : w_arr w1 a = A44 (with_loc m v)).
  { destruct Q1 as ((_ & _ & Ar & _) & _). rewrite Ar by (rewrite Nx; auto). unfold w2, reframe. cbn [w_arr]. apply upd_same. }
  assert (Al1 : w_arr w1 bl = A3 v).
  { destruct Q1 as ((_ & _ & Ar & _) & _). rewrite Ar by (rewrite Nx; auto). unfold w2, reframe. cbn [w_arr]. rewrite upd_other; auto. }
  assert (N1 : w_next w <= w_next w1) by (destruct Q1 as ((L & _) & _); rewrite Nx in L; auto).
  assert (Bs : br <> a \/ w_arr w br = A44 m) by (destruct (Nat.eq_dec br a) as [->|]; auto).
  assert (Ar1 : w_arr w1 br = w_arr w br \/ br = a).
  { destruct (Nat.eq_dec br a) as [->|N]; auto. left. destruct Q1 as ((_ & _ & Ar & _) & _).
    rewrite Ar by (rewrite Nx; auto). unfold w2, reframe. cbn [w_arr]. rewrite upd_other; auto. }
  (* set_rotation *)
  apply mthen_inv in H2. destruct H2 as (w3 & r3 & H3 & H4).
  destruct (then_children_cases _ _ _ _ _ _ H3) as [(C & _)|(x' & w4 & r4 & Ex'' & F3 & Q3 & C3)]; [congruence|].
  assert (x' = x1) by congruence. subst x'.
  destruct (w_arr w1 br) as [|s| | |] eqn:Evr;
    try (rewrite frame_set_rotation_bad in F3 by (intros u; simpl; rewrite Evr; discriminate); inj F3;
         destruct C3 as (-> & ->); destruct H4 as (-> & ->); apply (Bad w4 ValueError); auto).
  destruct Ar1 as [Ar1| ->]; [|congruence].
  rewrite (frame_set_rotation_eq w1 n x1 a (with_loc m v) (Whole br) s E1 T1 A1 Evr) in F3. inj F3.
  set (f2 := mkF (Whole a) (f_loc (n_fr x1)) (Whole br) (f_temp (n_fr x1))) in *.
  set (w4 := reframe w1 n x1 f2 a (with_rot (with_loc m v) s)) in *.
  assert (I4 : inv_x n w4) by (eapply reframe_inv_x; eauto).
  assert (S4 : forall k, k <> n -> same_node w w4 k)
    by (intros k N; eapply same_node_trans; [apply S1; auto|eapply reframe_same; eauto]).
  assert (I3 : inv_x n w3) by (eapply quiet_inv_x; eauto).
  assert (So3 : sole w3 n) by (eapply quiet_sole; [apply Q3|]; apply reframe_sole; auto).
  assert (S3 : forall k, k <> n -> same_node w w3 k)
    by (intros k N; eapply same_node_trans; [apply S4; auto|apply (Sq w4 w3); auto; apply Q3]).
  destruct r3 as [[]|e]; [|destruct H4 as (-> & ->); apply (Bad w3 e); auto].
  assert (E4 : w_node w4 n = Some (mkN (n_kind x1) f2)) by (unfold w4, reframe; cbn; apply upd_same).
  destruct (quiet_some' _ _ _ _ (proj1 Q3) E4) as (x3 & E3 & K3 & T3 & L3 & R3).
  cbn [n_fr n_kind f_tr f_loc f_rot f2] in K3, T3, L3, R3.
  assert (Nbr : br <> a) by (intros ->; congruence).
  assert (Nx4 : w_next w4 = w_next w1) by reflexivity.
  assert (F4 : frame_ok w3 (n_fr x3)).
  { apply (quiet_frame_ok w4 w3 f2 (n_fr x3) (proj1 Q3)).
    - unfold same_but_temp. cbn [f_tr f_loc f_rot f2]. auto.
    - exists a, (with_rot (with_loc m v) s). unfold w4, reframe. cbn [w_arr w_next f_tr f_loc f_rot f2].
      rewrite upd_same, loc_with_rot, rot_with_rot, loc_with_loc. repeat split; auto; try lia.
      + right. exists bl. rewrite L1, upd_other by auto. repeat split; auto. lia.
      + right. exists br. rewrite upd_other by auto. repeat split; auto. lia. }
  rewrite (put_frame_eq _ _ _ _ E3) in H4. inj H4. inj H.
  split; [|split].
  - (* inv *)
    apply (inv_x_inv n).
    + destruct I3 as (A & B). split.
      * intros k y Ey. cbn [w_node w_size] in *. unfold upd in Ey. destruct (Nat.eqb_spec k n) as [->|N].
        -- inj Ey. destruct (A n x3 E3) as (L & _ & _). split; auto. split; [congruence|].
           intros q Hq. cbn in Hq. inj Hq. cbn [w_next].
           pose proof (frame_ok_base _ _ F4) as (B1 & B2 & B3).
           destruct (n_kind x); cbn; auto.
        -- exact (A k y Ey).
      * intros k k' y y' Ey Ey' Eq. cbn [w_node] in *. unfold upd in *.
        destruct (Nat.eqb_spec k n) as [->|N], (Nat.eqb_spec k' n) as [->|N']; auto.
        -- inj Ey'. exfalso. apply (So3 k x3 y); auto.
        -- apply (B k k' y y'); auto.
    + intros y Ey. cbn [w_node] in Ey. rewrite upd_same in Ey. inj Ey. cbn [n_fr]. exact F4.
    + left. intros j y z N Ey Ez. cbn [w_node] in Ey, Ez. rewrite upd_same in Ey. rewrite upd_other in Ez by auto.
      inj Ey. cbn [n_fr f_tr]. apply (So3 j x3 z); auto.
  - intros k N. eapply same_node_trans; [apply S3; auto|].
    unfold same_node, kind_of, transform_of, location_of, rotation_of. cbn [w_node].
    rewrite upd_other by auto. auto.
  - intros n' Hn. inj Hn. split; auto. exists v, s. split; auto. split; [congruence|]. unfold kind_of, transform_of. cbn [w_node].
    rewrite upd_same. cbn [n_kind n_fr f_tr]. rewrite T3. split; [congruence|]. cbn [read w_arr].
    destruct Q3 as ((_ & _ & Ar & _) & _). rewrite Ar by lia. unfold w4, reframe. cbn [w_arr]. rewrite upd_same. auto.
Qed.

(** ** Constructors *)

Lemma init_frame_inv limit k em loc rot w w' o : inv w -> plain_opt w loc -> plain_opt w rot ->
  init_frame limit k em loc rot w = (w', o) -> inv w' /\
  (forall j, j <> w_size w -> same_node w w' j) /\
  (forall n, o = Ok n -> n = w_size w /\ kind_of w' n = Some k /\
     exists v s, given_location w loc v /\ given_rotation w rot s /\ transform_of w' n = Some (mk4 s v)).
Proof.
  intros I Pl Pr H. unfold init_frame in H. apply mbind_inv in H. destruct H as (w1 & r1 & H1 & H).
  destruct (default_ok _ _ _ _ _ H1) as (l & -> & Q1 & N1 & P1 & C1).
  apply mbind_inv in H. destruct H as (w2 & r2 & H2 & H).
  destruct (default_ok _ _ _ _ _ H2) as (r & -> & Q2 & N2 & P2 & C2).
  apply mbind_inv in H. destruct H as (w3 & r3 & H3 & H).
  destruct (new_arr_ok _ _ _ _ H3) as (Q3 & N3 & -> & V3' & L3).
  assert (Q : quiet_ok w w3) by (eapply quiet_ok_trans; [exact Q1|]; eapply quiet_ok_trans; eauto).
  assert (I3 : inv w3) by (eapply quiet_inv; eauto).
  assert (Pl3 : plain w3 l). { eapply quiet_plain; [apply Q3|]. eapply quiet_plain; [apply Q2|]. auto. }
  assert (Pr3 : plain w3 r).
  { eapply quiet_plain; [apply Q3|]. apply P2. eapply quiet_plain_opt; [apply Q1|auto]. }
  destruct Pl3 as (bl & -> & Ll). destruct Pr3 as (br & -> & Lr).
  apply mbind_inv in H. destruct H as (w4 & r4 & H4 & H).
  assert (Fresh : forall j y, w_node w3 j = Some y -> f_tr (n_fr y) <> Whole (w_next w2)).
  { intros j y Ey Et. assert (I2 : inv w2) by (exact (quiet_inv _ _ (quiet_ok_trans _ _ _ Q1 Q2) I)).
    rewrite N3 in Ey. destruct I2 as (A & _). destruct (A j y Ey) as (_ & F & _). apply frame_ok_base in F.
    rewrite Et in F. simpl in F. lia. }
  destruct (new_node_inv_x w3 (mkN k (mkF (Whole (w_next w2)) (Whole bl) (Whole br) None)) (w_next w2) (M4 (q0 em) (q1 em) (q2 em) (V4 0 0 0 1)) I3
    eq_refl ltac:(lia) V3') with (w' := w4) (r := r4) as (-> & I4 & E4 & A4' & Nx4 & S4 & O4); auto.
  { intros j y Ey Et. exfalso. eapply Fresh; eauto. }
  assert (Sz : w_size w3 = w_size w) by (destruct Q as ((_ & -> & _) & _); auto).
  rewrite Sz in *.
  eapply (init_setters_inv limit (w_size w) w4 _ k (w_next w2)) in H; try exact E4; eauto; try (rewrite Nx4; lia).
  2: { intros j y z N Ey Ez. rewrite E4 in Ey. inj Ey. rewrite O4 in Ez by auto. apply (Fresh j z Ez). }
  2: { rewrite A4'. exact V3'. }
  destruct H as (I' & S' & O'). split; auto. split.
  - intros j N. eapply same_node_trans; [apply (quiet_same_inv w w3); [apply Q|auto]|].
    eapply same_node_trans; [|apply S'; auto].
    unfold same_node, kind_of, transform_of, location_of, rotation_of. rewrite O4 by auto.
    destruct (w_node w3 j) as [y|]; auto.
    assert (Rd : forall q, read w4 q = read w3 q) by (intros []; simpl; rewrite A4'; auto). rewrite !Rd. auto.
  - intros n Hn. destruct (O' n Hn) as (-> & v & s & Ev & Es & K & T). split; auto. split; auto.
    exists v, s. cbn [n_kind] in K. rewrite A4' in Ev, Es.
    assert (Pres : forall b, b < w_next w1 -> w_arr w3 b = w_arr w1 b).
    { intros b L. destruct (quiet_ok_trans _ _ _ Q2 Q3) as ((_ & _ & A & _) & _). apply A; auto. }
    split; [|split].
    + unfold given_location. destruct loc as [r0|].
      * destruct C1 as (<- & ->). simpl. destruct Pl as (b & E & Lb). injection E as <-.
        rewrite <- Pres by auto. auto.
      * destruct C1 as (E & L & V). injection E as ->. rewrite Pres in Ev by lia. congruence.
    + unfold given_rotation. destruct rot as [r0|].
      * destruct C2 as (<- & ->). simpl. destruct Pr as (b & E & Lb). injection E as <-.
        assert (L1 : br < w_next w1) by (destruct Q1 as ((L & _) & _); lia).
        rewrite Pres in Es by auto. destruct Q1 as ((_ & _ & A & _) & _). rewrite A in Es by auto. auto.
      * destruct C2 as (E & L & V). injection E as ->. destruct Q3 as ((_ & _ & A & _) & _).
        rewrite A in Es by lia. congruence.
    + rewrite T. reflexivity.
Qed.

Lemma new_object_inv limit ss bs tr w w' o : inv w -> usable_opt w (w_size w) tr ->
  new_object limit ss bs tr w = (w', o) -> inv w' /\
  (forall j, j <> w_size w -> same_node w w' j) /\
  (forall n, o = Ok n -> n = w_size w /\ kind_of w' n = Some (KObj ss bs) /\
     transform_of w' n = match tr with Some r => match read w r with A44 m => Some m | _ => None end | None => Some id4 end).
Proof.
  intros I O H. unfold new_object in H. apply mbind_inv in H. destruct H as (w1 & r1 & H1 & H).
  destruct (default_ok _ _ _ _ _ H1) as (t & -> & Q1 & N1 & _ & C1).
  pose proof (default_own _ _ _ _ _ _ I H1 O) as (a & m & -> & La & Ea & Ua).
  assert (I1 : inv w1) by (eapply quiet_inv; eauto).
  assert (Sz : w_size w1 = w_size w) by (destruct Q1 as ((_ & -> & _) & _); auto).
  apply mbind_inv in H. destruct H as (w2 & r2 & H2 & H).
  destruct (new_node_inv_x w1 (mkN (KObj ss bs) (mkF (Whole a) (Whole a) (Whole a) None)) a m I1
    eq_refl La Ea) with (w' := w2) (r := r2) as (-> & I2 & E2 & A2 & Nx2 & S2 & O2); auto.
  { intros j y Ey. apply (Ua j y); auto. destruct I1 as (A & _). destruct (A j y Ey) as (L & _). lia. }
  rewrite Sz in *. unfold or_forget in H. destruct (set_transform limit (w_size w) (Whole a) w2) as [w3 o3] eqn:H3.
  destruct (then_children_cases _ _ _ _ _ _ H3) as [(C & _)|(x' & w4 & r4 & Ex' & F3 & Q3 & C3)]; [congruence|].
  rewrite E2 in Ex'. inj Ex'.
  destruct (frame_set_transform_eq w2 (w_size w) _ a m E2) as (w5 & F5 & Ha & Hn & Hs & En & Ek);
    [rewrite A2; auto|]. rewrite F5 in F3. inj F3. cbn [n_kind is_leaf n_fr f_temp] in *.
  assert (S21 : forall j, j <> w_size w -> same_node w w4 j).
  { intros j N. eapply same_node_trans; [apply (quiet_same_inv w w1); [apply Q1|auto]|].
    unfold same_node, kind_of, transform_of, location_of, rotation_of. rewrite Ek, O2 by auto.
    destruct (w_node w1 j) as [y|]; auto.
    assert (Rd : forall q, read w4 q = read w1 q) by (intros []; simpl; rewrite Ha, A2; auto). rewrite !Rd. auto. }
  assert (I4 : inv w4).
  { apply (inv_x_inv (w_size w)).
    - destruct I2 as (A & B). split.
      + intros k x Ex. rewrite Hs. destruct (Nat.eq_dec k (w_size w)) as [->|N].
        * rewrite En in Ex. inj Ex. split; [lia|]. split; [congruence|]. intros q Hq. discriminate.
        * rewrite Ek in Ex by auto. destruct (A k x Ex) as (L & F & T). split; auto. split.
          -- intros _. destruct (F N) as (a' & m' & F'). exists a', m'. rewrite Ha, Hn. auto.
          -- intros q Hq. rewrite Hn. apply T; auto.
      + intros k k' y y' Ey Ey' Eq.
        destruct (Nat.eq_dec k (w_size w)) as [->|N], (Nat.eq_dec k' (w_size w)) as [->|N']; auto.
        * rewrite En in Ey'. rewrite Ek in Ey by auto. inj Ey'. apply (B k (w_size w) y _ Ey E2). exact Eq.
        * rewrite Ek in Ey, Ey' by auto. apply (B k k' y y'); auto.
    - intros y Ey. rewrite En in Ey. inj Ey. exists a, m. rewrite Ha, Hn, A2, Nx2. cbn. auto 10.
    - right. intros y Ey. rewrite En in Ey. inj Ey. exists a. auto. }
  assert (I3 : inv w3) by (eapply quiet_inv; eauto).
  assert (S3 : forall j, j <> w_size w -> same_node w w3 j).
  { intros j N. eapply same_node_trans; [apply S21; auto|]. apply quiet_same_inv; auto. apply Q3. }
  destruct o3 as [[]|e]; inj H.
  - split; auto. split; auto. intros n Hn'. inj Hn'. split; auto.
    destruct (quiet_same_inv w4 w' (w_size w) (proj1 Q3) I4) as (K & T & _). rewrite K, T.
    unfold kind_of, transform_of. rewrite En. cbn [n_kind n_fr f_tr read]. rewrite Ha, A2, Ea. split; auto.
    destruct tr as [r|].
    + destruct C1 as (E & ->). subst r. simpl. rewrite Ea. auto.
    + destruct C1 as (E & L & V). inj E. congruence.
  - split; [apply forget_inv, inv_inv_x; auto|]. split; [|discriminate].
    intros j N. eapply same_node_trans; [apply S3; auto|].
    unfold same_node, kind_of, transform_of, location_of, rotation_of. cbn [w_node].
    rewrite upd_other by auto. auto.
Qed.

(** ** Adding children *)

Lemma tc_inv limit n t w w' r : inv w -> transform_children limit n t w = (w', r) -> inv w'.
Proof. intros I H. eapply quiet_inv; [eapply transform_children_ok; eauto|auto]. Qed.

Lemma add_child_inv limit a o k tr w w' r : inv w -> usable_transform w o tr ->
  (put_kind a k ~> set_transform limit o tr ~> transform_children limit a id4) w = (w', r) -> inv w'.
Proof.
  intros I O H. apply mthen_inv in H. destruct H as (w1 & r1 & H1 & H).
  pose proof (put_kind_own _ _ _ _ _ _ _ I H1 O) as O1.
  destruct (put_kind_inv _ _ _ _ _ I H1) as (I1 & _).
  destruct r1; [|destruct H as (-> & _); auto].
  apply mthen_inv in H. destruct H as (w2 & r2 & H2 & H).
  assert (I2 : inv w2) by (eapply set_transform_inv; eauto).
  destruct r2; [eapply tc_inv; eauto|destruct H as (-> & _); auto].
Qed.

Lemma add_object_inv limit a o tr w w' r : inv w -> usable_opt w o tr ->
  add_object limit a o tr w = (w', r) -> inv w'.
Proof.
  intros I O H. unfold add_object in H. apply mbind_inv in H. destruct H as (w1 & r1 & H1 & H).
  destruct (default_ok _ _ _ _ _ H1) as (t & -> & Q1 & N1 & _ & _).
  pose proof (default_own _ _ _ _ _ _ I H1 O) as O1. assert (I1 : inv w1) by (eapply quiet_inv; eauto).
  apply mbind_inv in H. destruct H as (w2 & r2 & H2 & H). unfold get_node in H2.
  destruct (w_node w1 a) as [x|]; inj H2; [|destruct H as (-> & _); auto].
  destruct (n_kind x); try (inj H; auto). eapply add_child_inv; eauto.
Qed.
Lemma add_assembly_inv limit a o tr w w' r : inv w -> usable_opt w o tr ->
  add_assembly limit a o tr w = (w', r) -> inv w'.
Proof.
  intros I O H. unfold add_assembly in H. apply mbind_inv in H. destruct H as (w1 & r1 & H1 & H).
  destruct (default_ok _ _ _ _ _ H1) as (t & -> & Q1 & N1 & _ & _).
  pose proof (default_own _ _ _ _ _ _ I H1 O) as O1. assert (I1 : inv w1) by (eapply quiet_inv; eauto).
  apply mbind_inv in H. destruct H as (w2 & r2 & H2 & H). unfold get_node in H2.
  destruct (w_node w1 a) as [x|]; inj H2; [|destruct H as (-> & _); auto].
  destruct (n_kind x); try (inj H; auto). eapply add_child_inv; eauto.
Qed.

Lemma add_member_inv limit o k w w' r : inv w ->
  (put_kind o k ~> transform_children limit o id4) w = (w', r) -> inv w'.
Proof.
  intros I H. apply mthen_inv in H. destruct H as (w1 & r1 & H1 & H).
  destruct (put_kind_inv _ _ _ _ _ I H1) as (I1 & _).
  destruct r1; [eapply tc_inv; eauto|destruct H as (-> & _); auto].
Qed.

Lemma add_surface_inv limit o s w w' r : inv w -> add_surface limit o s w = (w', r) -> inv w'.
Proof.
  intros I H. unfold add_surface in H. apply mbind_inv in H. destruct H as (w2 & r2 & H2 & H). unfold get_node in H2.
  destruct (w_node w o) as [x|]; inj H2; [|destruct H as (-> & _); auto].
  destruct (n_kind x); try (inj H; auto). eapply add_member_inv; eauto.
Qed.
Lemma add_boundary_inv limit o s w w' r : inv w -> add_boundary limit o s w = (w', r) -> inv w'.
Proof.
  intros I H. unfold add_boundary in H. apply mbind_inv in H. destruct H as (w2 & r2 & H2 & H). unfold get_node in H2.
  destruct (w_node w o) as [x|]; inj H2; [|destruct H as (-> & _); auto].
  destruct (n_kind x); try (inj H; auto). eapply add_member_inv; eauto.
Qed.

(** Writing into an array nobody refers to. *)
Lemma put_arr_unused a v w : inv w -> unused w a -> a < w_next w ->
  inv (fst (put_arr a v w)) /\ forall k, same_node w (fst (put_arr a v w)) k.
Proof.
  intros I U L. pose proof I as (A & B). cbn [put_arr fst].
  assert (Rd : forall k x r, w_node w k = Some x -> r = f_tr (n_fr x) \/ r = f_loc (n_fr x) \/ r = f_rot (n_fr x) ->
    read (mkW (upd (w_arr w) a v) (w_next w) (w_node w) (w_size w)) r = read w r).
  { intros k x r E H. destruct (U k x E) as (U1 & U2 & U3).
    assert (N : base r <> a) by (destruct H as [->|[->| ->]]; auto).
    destruct r; simpl in *; rewrite upd_other; auto. }
  split.
  - split; [|exact B]. intros k x E. cbn [w_node w_size] in *. destruct (A k x E) as (Lk & F & T).
    split; auto. split; [|exact T].
    destruct F as (a' & m' & Ht & La & Ea & Hl & Hr). destruct (U k x E) as (U1 & U2 & U3).
    rewrite Ht in U1. simpl in U1. exists a', m'. cbn [w_arr w_next]. rewrite upd_other by auto. repeat split; auto.
    + destruct Hl as [|(b & Hb & Lb & Eb)]; auto. right. exists b. rewrite Hb in U2. simpl in U2.
      rewrite upd_other by auto. auto.
    + destruct Hr as [|(b & Hb & Lb & Eb)]; auto. right. exists b. rewrite Hb in U3. simpl in U3.
      rewrite upd_other by auto. auto.
  - intros k. unfold same_node, kind_of, transform_of, location_of, rotation_of. cbn [w_node].
    destruct (w_node w k) as [x|] eqn:E; auto. rewrite !(Rd k x) by auto. auto.
Qed.

Lemma write_inv r v w w' o : inv w -> base r < w_next w -> unused w (base r) ->
  assign_into r v w = (w', o) -> inv w' /\ forall k, same_node w w' k.
Proof.
  intros I L U H. assert (Same : inv w /\ forall k, same_node w w k) by (split; auto; intros; apply same_node_refl).
  assert (P : forall x, put_arr (base r) x w = (w', o) -> inv w' /\ forall k, same_node w w' k).
  { intros x Hx. destruct (put_arr_unused (base r) x w I U L) as (I' & S'). rewrite Hx in *. auto. }
  destruct r as [a|a|a]; simpl in *.
  - destruct (w_arr w a), v; try (inj H; exact Same); eapply P; eauto.
  - destruct v; try (inj H; exact Same). destruct (w_arr w a); try (inj H; exact Same). eapply P; eauto.
  - destruct v; try (inj H; exact Same). destruct (w_arr w a); try (inj H; exact Same). eapply P; eauto.
Qed.

(** ** All calls *)

Lemma ignore_fst {A} (m : M A) w : fst (ignore m w) = fst (m w).
Proof. unfold ignore, mthen, mbind, ret. destruct (m w) as [w' []]; auto. Qed.

Lemma perform_inv limit e w : inv w -> careful w e -> inv (fst (perform limit e w)).
Proof.
  intros I C. destruct e; cbn [perform careful] in *; rewrite ?ignore_fst.
  - destruct (new_arr x w) as [w' r] eqn:H. destruct (new_arr_ok _ _ _ _ H) as (Q & _). eapply quiet_inv; eauto.
  - destruct C as (L & U). destruct (assign_into r x w) as [w' o] eqn:H. eapply write_inv in H; eauto. apply H.
  - destruct C as (P1 & P2). destruct (new_surface limit empty loc rot w) as [w' o] eqn:H.
    eapply init_frame_inv in H; eauto. apply H.
  - destruct (new_sphere limit empty loc w) as [w' o] eqn:H.
    eapply init_frame_inv in H; eauto; [apply H|simpl; auto].
  - destruct C as (P1 & P2). destruct (new_boundary limit empty loc rot w) as [w' o] eqn:H.
    eapply init_frame_inv in H; eauto. apply H.
  - destruct (new_object limit surfs bounds tr w) as [w' o] eqn:H. eapply new_object_inv in H; eauto. apply H.
  - destruct C as (P1 & P2). destruct (new_assembly limit empty objs asms loc rot w) as [w' o] eqn:H.
    eapply init_frame_inv in H; eauto. apply H.
  - destruct C as (P & So). destruct (set_location limit n r w) as [w' o] eqn:H. eapply set_location_inv; eauto.
  - destruct C as (P & So). destruct (set_rotation limit n r w) as [w' o] eqn:H. eapply set_rotation_inv; eauto.
  - destruct (set_transform limit n r w) as [w' o] eqn:H. eapply set_transform_inv; eauto.
  - destruct (add_surface limit o s w) as [w' q] eqn:H. eapply add_surface_inv; eauto.
  - destruct (add_boundary limit o b w) as [w' q] eqn:H. eapply add_boundary_inv; eauto.
  - destruct (add_object limit a o tr w) as [w' q] eqn:H. eapply add_object_inv; eauto.
  - destruct (add_assembly limit a b tr w) as [w' q] eqn:H. eapply add_assembly_inv; eauto.
  - destruct (transform_children limit n t w) as [w' q] eqn:H. eapply tc_inv; eauto.
Qed.

Lemma nothing_inv : inv nothing.
Proof. split; unfold nothing; cbn; intros; discriminate. Qed.

Lemma history_inv limit es w : history limit es w -> inv w.
Proof. intros H. induction H; [apply nothing_inv|apply perform_inv; auto]. Qed.

Lemma history_sync limit es w : history limit es w -> in_sync w.
Proof. intros H. apply inv_sync. eapply history_inv; eauto. Qed.
