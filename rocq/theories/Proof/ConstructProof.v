(** Constructors: where a new surface, object or assembly puts its parts. *)
From Coq Require Import Reals List Arith Bool Lia Lra.
From Verif.Base Require Import Py Num Vec.
From Verif.Model Require Import Assembly.
From Verif.Spec Require Import FrameSpec.
From Verif.Proof Require Import VecLemmas FrameProof FrameHistory PlaceProof PlaceTop.
Import ListNotations.

(** ** New temporary frames live in new arrays *)

Definition stamped (u u' : world) : Prop := w_next u <= w_next u' /\
  forall l x', w_node u' l = Some x' ->
    w_node u l = Some x' \/ exists b, f_temp (n_fr x') = Some (Whole b) /\ w_next u <= b.

Lemma stamped_refl u : stamped u u.
Proof. split; auto. Qed.
Lemma stamped_trans a b c : stamped a b -> stamped b c -> stamped a c.
Proof.
  intros (L1 & S1) (L2 & S2). split; [lia|]. intros l x E. destruct (S2 l x E) as [H|(k & H & L)].
  - auto.
  - right. exists k. split; auto. lia.
Qed.
Lemma transform_frame_stamped n t w w' r : transform_frame n t w = (w', r) -> stamped w w'.
Proof.
  intros H. destruct (transform_frame_cases n t w) as [(x & v & E & _ & H')|(e & H')]; rewrite H' in H; inj H;
    [|apply stamped_refl].
  split; [unfold with_temp; cbn; lia|]. intros l x' El. unfold with_temp in El. cbn [w_node] in El. unfold upd in El.
  destruct (Nat.eqb_spec l n) as [->|N]; auto. inj El. right. exists (w_next w). cbn. auto.
Qed.
Lemma each_stamped f l : (forall c w w' r, In c l -> f c w = (w', r) -> stamped w w') ->
  forall w w' r, each f l w = (w', r) -> stamped w w'.
Proof.
  induction l as [|c l IH]; simpl; intros F w w' r H.
  - inj H. apply stamped_refl.
  - apply mthen_inv in H. destruct H as (w1 & r1 & H1 & H2). apply F in H1; auto. destruct r1.
    + eapply stamped_trans; [exact H1|]. eapply IH; eauto.
    + destruct H2 as (-> & ->). auto.
Qed.
Lemma transform_children_stamped limit : forall n t w w' r,
  transform_children limit n t w = (w', r) -> stamped w w'.
Proof.
  induction limit as [|limit IH]; simpl; intros n t w w' r H.
  - inj H. apply stamped_refl.
  - apply mbind_inv in H. destruct H as (w1 & r1 & H1 & H2).
    unfold get_node in H1. destruct (w_node w n) as [x|]; inj H1; [|destruct H2 as (-> & ->); apply stamped_refl].
    destruct (n_kind x); try (inj H2; apply stamped_refl).
    + eapply each_stamped; [|exact H2]. cbn beta. intros c w2 w3 r3 _ H.
      apply mbind_inv in H. destruct H as (w4 & r4 & H4 & H5). apply dot_tr_same in H4. subst.
      destruct r4; [eapply transform_frame_stamped; eauto|destruct H5 as (-> & _); apply stamped_refl].
    + eapply each_stamped; [|exact H2]. cbn beta. intros c w2 w3 r3 _ H.
      apply mbind_inv in H. destruct H as (w4 & r4 & H4 & H5). apply dot_tr_same in H4. subst.
      destruct r4; [eapply IH; eauto|destruct H5 as (-> & _); apply stamped_refl].
Qed.

(** ** A node and an array that nobody else uses *)

Definition private (u : world) (n a : nat) : Prop := forall j x, j <> n -> w_node u j = Some x ->
  base (f_tr (n_fr x)) <> a /\ base (f_loc (n_fr x)) <> a /\ base (f_rot (n_fr x)) <> a /\
  forall r, f_temp (n_fr x) = Some r -> base r <> a.
Definition near (n a : nat) (u u' : world) : Prop :=
  w_next u' = w_next u /\ w_size u' = w_size u /\
  (forall b, b <> a -> w_arr u' b = w_arr u b) /\ (forall j, j <> n -> w_node u' j = w_node u j).

Lemma read_near u u' a r : (forall b, b <> a -> w_arr u' b = w_arr u b) -> base r <> a -> read u' r = read u r.
Proof. intros A B. destruct r; simpl in *; rewrite A; auto. Qed.
Lemma near_same n a u u' j : private u n a -> near n a u u' -> j <> n ->
  same_node u u' j /\ placed_array u' j = placed_array u j.
Proof.
  intros P (_ & _ & A & B) N. unfold same_node, kind_of, transform_of, location_of, rotation_of, placed_array.
  rewrite B by auto. destruct (w_node u j) as [x|] eqn:E; auto. destruct (P j x N E) as (P1 & P2 & P3 & P4).
  rewrite !(read_near u u' a) by auto. split; auto.
  destruct (f_temp (n_fr x)) as [r|] eqn:T; auto. rewrite (read_near u u' a); auto.
Qed.
Lemma near_private n a u u' : private u n a -> near n a u u' -> private u' n a.
Proof. intros P (_ & _ & _ & B) j x N E. rewrite B in E by auto. apply (P j x N E). Qed.
Lemma near_trans n a u v w : near n a u v -> near n a v w -> near n a u w.
Proof.
  intros (A1 & A2 & A3 & A4) (B1 & B2 & B3 & B4). split; [congruence|]. split; [congruence|]. split.
  - intros b N. rewrite B3, A3; auto.
  - intros j N. rewrite B4, A4; auto.
Qed.
Lemma reframe_near w n x f a m : near n a w (reframe w n x f a m).
Proof.
  unfold reframe. split; [auto|]. split; [auto|]. cbn. split; intros; apply upd_other; auto.
Qed.
Lemma quiet_private n a u u' : a < w_next u -> quiet u u' -> stamped u u' -> private u n a -> private u' n a.
Proof.
  intros L Q (_ & S) P j x N E. destruct (quiet_some _ _ _ _ Q E) as (y & Ey & _ & (T1 & T2 & T3)).
  destruct (P j y N Ey) as (P1 & P2 & P3 & P4). rewrite T1, T2, T3. repeat split; auto.
  intros r Er. destruct (S j x E) as [H|(b & H & Lb)].
  - rewrite H in Ey. inj Ey. auto.
  - rewrite H in Er. inj Er. simpl. lia.
Qed.

(** A node [n] with a transform in [a] and a location in [bl]. *)
Lemma near_pinv n a u u' x : private u n a -> near n a u u' -> pinv u ->
  w_node u' n = Some x ->
  ((exists m, f_tr (n_fr x) = Whole a /\ a < w_next u' /\ w_arr u' a = A44 m) /\
   (exists v, read u' (f_loc (n_fr x)) = A3 v) /\
   base (f_loc (n_fr x)) < w_next u' /\ base (f_rot (n_fr x)) < w_next u' /\ temp_ok u' (n_fr x)) ->
  pinv u'.
Proof.
  intros P Nr I E ((m & Et & La & Ea) & Ev & Bl & Br & Tp) j y Ey. destruct (Nat.eq_dec j n) as [->|N].
  - rewrite E in Ey. inj Ey. split; eauto.
  - pose proof Nr as (Nx & _ & A & B). rewrite B in Ey by auto. destruct (P j y N Ey) as (P1 & P2 & P3 & P4).
    destruct (I j y Ey) as ((b & m' & Et' & Lb & Eb) & (v & Ev') & B1 & B2 & T). rewrite Nx. split; [|split; [|split; [auto|split; [auto|]]]].
    + exists b, m'. rewrite A by (rewrite Et' in P1; exact P1). auto.
    + exists v. rewrite (read_near u u' a); auto.
    + intros r Er. rewrite Nx. apply T; auto.
Qed.

(** ** Passing the frame to the children *)

Definition children (k : kind) : list nat := match k with KAsm os ms => os ++ ms | KObj ss bs => ss ++ bs | _ => [] end.

Lemma pass_children limit n u d os ms : pinv u -> kind_of u n = Some (KAsm os ms) -> Forall (built u d) (os ++ ms) -> d < limit ->
  exists u', transform_children limit n id4 u = (u', Ok tt).
Proof.
  intros I K F L. assert (B : built u limit n).
  { destruct limit as [|limit]; [lia|]. eapply built_asm; [exact K|]. eapply Forall_impl; [|exact F].
    intros c Hc. eapply built_more; [exact Hc|lia]. }
  apply (transform_children_succeeds_p limit n id4 u I) in B.
  destruct (transform_children limit n id4 u) as [u' r]. simpl in B. subst. eauto.
Qed.

Lemma set_location_run limit n x r u u1 : w_node u n = Some x -> frame_set_location n r u = (u1, Ok tt) ->
  set_location limit n r u = if is_leaf (n_kind x) then (u1, Ok tt) else transform_children limit n id4 u1.
Proof.
  intros E H. unfold set_location, then_children. erewrite mbind_ok by (unfold get_node; rewrite E; reflexivity).
  destruct (is_leaf (n_kind x)); auto. erewrite mthen_ok by exact H. auto.
Qed.
Lemma set_rotation_run limit n x r u u1 : w_node u n = Some x -> frame_set_rotation n r u = (u1, Ok tt) ->
  set_rotation limit n r u = if is_leaf (n_kind x) then (u1, Ok tt) else transform_children limit n id4 u1.
Proof.
  intros E H. unfold set_rotation, then_children. erewrite mbind_ok by (unfold get_node; rewrite E; reflexivity).
  destruct (is_leaf (n_kind x)); auto. erewrite mthen_ok by exact H. auto.
Qed.

(** ** Depth below existing nodes *)

Lemma built_grown w w' : (forall k, kind_of w k <> None -> kind_of w' k = kind_of w k) ->
  forall d n, built w d n -> built w' d n.
Proof.
  intros S. fix IH 3. intros d n H. destruct H as [d n ss bs K F|d n os ms K F].
  - apply (built_obj w' d n ss bs); [rewrite S; congruence|]. eapply Forall_impl; [|exact F]. intros l Hl. rewrite S; auto.
  - apply (built_asm w' d n os ms); [rewrite S; congruence|]. clear K. induction F; constructor; auto.
Qed.
Lemma built_exists w d n : built w d n -> kind_of w n <> None.
Proof. intros H; inversion H; congruence. Qed.

(** Paths below built nodes stay among existing nodes. *)
Lemma built_path w w' d n : (forall k, kind_of w k <> None -> kind_of w' k = kind_of w k) ->
  (forall k, kind_of w k <> None -> transform_of w' k = transform_of w k) ->
  built w d n -> forall l T, path w' n l T <-> path w n l T.
Proof.
  intros Sk St. revert d n. fix IH 3. intros d n H. destruct H as [d n ss bs K F|d n os ms K F]; intros l T.
  - assert (Kn : kind_of w n <> None) by congruence. split; intros P; inversion P; subst.
    + rewrite Sk in * by auto. rewrite St in * by auto. econstructor; eauto.
    + rewrite Sk in * by auto. congruence.
    + econstructor; [rewrite Sk; eauto|eauto|rewrite St; auto].
    + congruence.
  - assert (Kn : kind_of w n <> None) by congruence.
    assert (F' : Forall (fun c => forall l T, path w' c l T <-> path w c l T) (os ++ ms)).
    { clear K. induction F; constructor; [apply (IH d); auto|auto]. }
    rewrite Forall_forall in F'. split; intros P; inversion P; subst.
    + rewrite Sk in * by auto. congruence.
    + rewrite Sk in * by auto. rewrite St in * by auto.
      match goal with K1 : kind_of w n = Some (KAsm ?a ?b) |- _ => assert (Eq : KAsm a b = KAsm os ms) by congruence; injection Eq as -> -> end.
      eapply path_asm; [exact K|eauto|eauto|]. apply F'; auto.
    + congruence.
    + match goal with K1 : kind_of w n = Some (KAsm ?a ?b) |- _ => assert (Eq : KAsm a b = KAsm os ms) by congruence; injection Eq as -> -> end.
      eapply path_asm; [rewrite Sk by auto; exact K|eauto|rewrite St by auto; eauto|]. apply F'; auto.
Qed.
Lemma path_exists w d n l T : built w d n -> path w n l T -> kind_of w l <> None.
Proof.
  revert d n l T. fix IH 6. intros d n l T B P. destruct P as [n l ss bs T K Hl Ht|n c l os ms T T' K Hc Ht P].
  - inversion B; subst; rewrite K in H; [|discriminate]. injection H as -> ->. rewrite Forall_forall in H0. auto.
  - inversion B; subst; rewrite K in H; [discriminate|]. injection H as -> ->. rewrite Forall_forall in H0.
    eapply IH; [apply H0; exact Hc|exact P].
Qed.

Lemma path_cong w w' : (forall j, kind_of w' j = kind_of w j /\ transform_of w' j = transform_of w j) ->
  forall n l T, path w n l T -> path w' n l T.
Proof.
  intros S n l T P. induction P as [n l ss bs T K Hl Ht|n c l os ms T T' K Hc Ht P IH].
  - eapply path_obj; [rewrite (proj1 (S n)); exact K|exact Hl|rewrite (proj2 (S n)); exact Ht].
  - eapply path_asm; [rewrite (proj1 (S n)); exact K|exact Hc|rewrite (proj2 (S n)); exact Ht|exact IH].
Qed.

(** ** The constructor of HasFrame step by step *)

Definition members (k : kind) : list nat := match k with KAsm os ms => os ++ ms | _ => [] end.
Definition plain_kind (w : world) (limit : nat) (k : kind) : Prop :=
  match k with KObj _ _ => False | KAsm os ms => exists d, d < limit /\ Forall (built w d) (os ++ ms) | _ => True end.

Section Init.
  Variables (limit : nat) (w : world) (n a bl br : nat) (k : kind) (v : vec) (s : mat3).
  Hypothesis Hk : plain_kind w limit k.
  Hypothesis Hn : kind_of w n = None.

  Definition St (u : world) (x : node) (m : mat4) : Prop :=
    w_node u n = Some x /\ n_kind x = k /\ f_tr (n_fr x) = Whole a /\ a < w_next u /\ w_arr u a = A44 m /\
    pinv u /\ private u n a /\ (forall j, j <> n -> same_node w u j) /\
    (w_arr u bl = A3 v /\ bl < w_next u /\ bl <> a) /\ (w_arr u br = A33 s /\ br < w_next u /\ br <> a).

  Definition reached (l : nat) (T : mat4) : Prop := exists c, In c (members k) /\ path w c l T.

  Lemma reached_other l T : reached l T -> l <> n.
  Proof.
    intros (c & Hc & P) ->. unfold plain_kind in Hk. destruct k; simpl in Hc; try contradiction.
    destruct Hk as (d & _ & F). rewrite Forall_forall in F. exact (path_exists w d c n T (F c Hc) P Hn).
  Qed.
  Lemma St_kinds u x m : St u x m -> (forall j, kind_of w j <> None -> kind_of u j = kind_of w j) /\
    (forall j, kind_of w j <> None -> transform_of u j = transform_of w j).
  Proof.
    intros (_ & _ & _ & _ & _ & _ & _ & S & _). split; intros j N; apply S; intros ->; contradiction.
  Qed.
  Lemma St_tr u x m : St u x m -> transform_of u n = Some m.
  Proof. intros (E & _ & T & _ & A & _). unfold transform_of. rewrite E, T. simpl. rewrite A. auto. Qed.
  Lemma St_kind u x m : St u x m -> kind_of u n = Some k.
  Proof. intros (E & K & _). unfold kind_of. rewrite E. congruence. Qed.
  Lemma St_path u x m l T : St u x m -> (path u n l T <-> exists T', reached l T' /\ T = mm4 m T').
  Proof.
    intros S. pose proof (St_kinds u x m S) as (Sk & Str). pose proof (St_tr u x m S) as Tn. pose proof (St_kind u x m S) as Kn.
    split.
    - intros P. inversion P as [? ? ss bs ? K Hl Ht|? c ? os ms M T' K Hc Ht Pc]; subst.
      + rewrite Kn in K. injection K as K. unfold plain_kind in Hk. rewrite K in Hk. contradiction.
      + exists T'. split; [|congruence]. exists c. rewrite Kn in K. injection K as K. unfold members. rewrite K. split; auto.
        unfold plain_kind in Hk. rewrite K in Hk. destruct Hk as (d & _ & F). rewrite Forall_forall in F.
        apply (built_path w u d c Sk Str (F c Hc)); auto.
    - intros (T' & (c & Hc & Pc) & ->). unfold plain_kind in Hk. unfold members in Hc. destruct k as [| | |ss bs|os ms] eqn:K; try contradiction.
      destruct Hk as (d & _ & F). rewrite Forall_forall in F. eapply path_asm; [exact Kn|exact Hc|exact Tn|].
      apply (built_path w u d c Sk Str (F c Hc)); auto.
  Qed.

  Lemma St_pass u x m : St u x m -> exists u' x',
    (if is_leaf k then (u, Ok tt) else transform_children limit n id4 u) = (u', Ok tt) /\
    St u' x' m /\ n_fr x' = mkF (f_tr (n_fr x)) (f_loc (n_fr x)) (f_rot (n_fr x)) (f_temp (n_fr x')) /\ w_size u' = w_size u /\
    forall l, l <> n -> (exists T, reached l T /\ placed_by u' l (mm4 m T)) \/
      ((forall T, ~ reached l T) /\ placed_array u' l = placed_array u l).
  Proof.
    intros S. pose proof S as (E & Kx & T & La & Ea & I & P & Sn & (Bl1 & Bl2 & Bl3) & (Br1 & Br2 & Br3)).
    assert (C : is_leaf k = true /\ members k = [] \/ exists os ms, k = KAsm os ms)
      by (clear -Hk; destruct k; simpl in Hk; try contradiction; eauto).
    destruct C as [(Lf & Mk)|(os & ms & Ek)].
    { rewrite Lf. exists u, x; split; [reflexivity|]; split; [exact S|]; split; [destruct x as [? []]; reflexivity|]; split; [reflexivity|];
         intros l Nl; right; split; [intros T0 (c & Hc & _); rewrite Mk in Hc; exact Hc|reflexivity]. }
    pose proof Hk as Hk'. rewrite Ek in Hk'. destruct Hk' as (d & Ld & F).
    destruct (St_kinds u x m S) as (Sk & Str). replace (is_leaf k) with false by (rewrite Ek; reflexivity).
    destruct (pass_children limit n u d os ms I) as (u' & H).
    { unfold kind_of. rewrite E. congruence. }
    { eapply Forall_impl; [|exact F]. intros c. apply (built_grown w u); auto. }
    { auto. }
    pose proof (transform_children_effect_p limit n id4 u u' I H) as (Q & Ef).
    pose proof (transform_children_stamped _ _ _ _ _ _ H) as Stm.
    destruct (quiet_some' _ _ _ _ (proj1 Q) E) as (x' & E' & K' & T1 & T2 & T3).
    assert (Ar : forall b, b < w_next u -> w_arr u' b = w_arr u b) by apply Q.
    assert (Lx : w_next u <= w_next u') by apply Q.
    exists u', x'. split; [exact H|]. split; [|split; [|split; [apply Q|]]].
    - split; [exact E'|]. split; [congruence|]. split; [congruence|]. split; [lia|]. split; [rewrite Ar; auto|].
      split; [eapply quiet_pinv; eauto|]. split; [eapply quiet_private; [exact La|apply Q|exact Stm|exact P]|].
      split; [|rewrite !Ar by auto; repeat split; auto; lia].
      intros j Nj. eapply same_node_trans; [apply Sn; auto|]. apply quiet_same_pinv; auto. apply Q.
    - destruct (n_fr x') as [f1 f2 f3 f4]. simpl in *. congruence.
    - intros l Nl. destruct (Ef l) as [(P' & (T' & Pt & ->) & Pl)|(No & Pl)].
      + rewrite mm4_id_l in Pl. apply (St_path u x m) in Pt; [|exact S]. destruct Pt as (T'' & R & ->). left. exists T''. auto.
      + right. split; auto. intros T' R. apply (No (mm4 id4 (mm4 m T'))). exists (mm4 m T'). split; auto.
        apply (St_path u x m); [exact S|]. exists T'. auto.
  Qed.

  Lemma St_reframe u x m m' loc rot : St u x m ->
    (exists q, loc = Whole q /\ q < w_next u /\ q <> a /\ exists v', w_arr u q = A3 v') ->
    (exists q, rot = Whole q /\ q < w_next u) ->
    let f := mkF (Whole a) loc rot (f_temp (n_fr x)) in let u' := reframe u n x f a m' in
    St u' (mkN (n_kind x) f) m' /\ forall l, l <> n -> placed_array u' l = placed_array u l.
  Proof.
    intros (E & Kx & T & La & Ea & I & P & Sn & (Bl1 & Bl2 & Bl3) & (Br1 & Br2 & Br3)) (q & Eq & Lq & Nq & v' & Vq) (q' & Eq' & Lq') f u'.
    assert (Nr : near n a u u') by apply reframe_near.
    assert (E' : w_node u' n = Some (mkN (n_kind x) f)) by (unfold u', reframe; cbn [w_node]; apply upd_same).
    assert (Ea' : w_arr u' a = A44 m') by (unfold u', reframe; cbn [w_arr]; apply upd_same).
    assert (Oa : forall b, b <> a -> w_arr u' b = w_arr u b) by (intros b Nb; unfold u', reframe; cbn [w_arr]; apply upd_other; auto).
    split; [|intros l Nl; apply (near_same n a u u' l P Nr Nl)].
    split; [exact E'|]. split; [exact Kx|]. split; [reflexivity|]. split; [exact La|]. split; [exact Ea'|].
    split; [|split; [eapply near_private; eauto|split; [|rewrite !Oa by auto; auto 10]]].
    - eapply (near_pinv n a u u' _ P Nr I E'). cbn [n_fr f f_tr f_loc f_rot]. split; [exists m'; auto|].
      split; [exists v'; rewrite Eq; change (w_arr u' q = A3 v'); rewrite Oa; auto|]. split; [rewrite Eq; exact Lq|]. split; [rewrite Eq'; exact Lq'|].
      destruct (I n x E) as (_ & _ & _ & _ & Tx). exact Tx.
    - intros j Nj. eapply same_node_trans; [apply Sn; auto|]. apply (near_same n a u u' j P Nr Nj).
  Qed.

  Lemma St_frame u x m : St u x m -> f_loc (n_fr x) = Whole bl -> f_rot (n_fr x) = Whole br ->
    exists u', or_forget n
    (set_location limit n (Whole bl) ~> set_rotation limit n (Whole br) ~>
     put_frame n (fun f => mkF (f_tr f) (f_loc f) (f_rot f)
                               (Some (match k with KSphere => f_loc f | _ => f_tr f end)))) u = (u', Ok n) /\
    w_size u' = w_size u /\
    placed_array u' n = Some (match k with KSphere => A3 v | _ => A44 (with_rot (with_loc m v) s) end) /\
    transform_of u' n = Some (with_rot (with_loc m v) s) /\ kind_of u' n = Some k /\
    (forall j, j <> n -> same_node w u' j) /\
    (forall l T, path u' n l T <-> exists T', reached l T' /\ T = mm4 (with_rot (with_loc m v) s) T') /\
    forall l, l <> n -> (exists T, reached l T /\ placed_by u' l (mm4 (with_rot (with_loc m v) s) T)) \/
      ((forall T, ~ reached l T) /\ placed_array u' l = placed_array u l).
  Proof.
    intros S Fl Fr. pose proof S as (E & Kx & T & La & Ea & _ & _ & _ & (Bl1 & Bl2 & Bl3) & (Br1 & Br2 & Br3)).
    destruct (St_reframe u x m (with_loc m v) (Whole bl) (f_rot (n_fr x)) S) as (S1 & P1); [eauto 10|eauto|].
    pose proof (frame_set_location_eq u n x a m (Whole bl) v E T Ea Bl1) as H1.
    set (f1 := mkF (Whole a) (Whole bl) (f_rot (n_fr x)) (f_temp (n_fr x))) in *.
    set (u1 := reframe u n x f1 a (with_loc m v)) in *.
    destruct (St_pass u1 _ _ S1) as (u2 & x2 & H2 & S2 & F2 & Z2 & P2).
    pose proof S2 as (E2 & Kx2 & T2 & La2 & Ea2 & _ & _ & _ & (Cl1 & Cl2 & Cl3) & (Cr1 & Cr2 & Cr3)).
    destruct (St_reframe u2 x2 (with_loc m v) (with_rot (with_loc m v) s) (f_loc (n_fr x2)) (Whole br) S2) as (S3 & P3);
      [rewrite F2; simpl; eauto 10|eauto|].
    pose proof (frame_set_rotation_eq u2 n x2 a (with_loc m v) (Whole br) s E2 T2 Ea2 Cr1) as H3.
    set (f3 := mkF (Whole a) (f_loc (n_fr x2)) (Whole br) (f_temp (n_fr x2))) in *.
    set (m3 := with_rot (with_loc m v) s) in *.
    set (u3 := reframe u2 n x2 f3 a m3) in *.
    destruct (St_pass u3 _ _ S3) as (u4 & x4 & H4 & S4 & F4 & Z4 & P4).
    pose proof S4 as (E4 & Kx4 & T4 & La4 & Ea4 & _ & _ & Sn4 & (Dl1 & Dl2 & Dl3) & (Dr1 & Dr2 & Dr3)).
    unfold or_forget.
    erewrite mthen_ok by (rewrite (set_location_run limit n x _ u u1 E H1), Kx; exact H2).
    erewrite mthen_ok by (rewrite (set_rotation_run limit n x2 _ u2 u3 E2 H3), Kx2; exact H4).
    rewrite (put_frame_eq _ _ _ _ E4).
    eexists. split; [reflexivity|]. cbn [w_size].
    set (u5 := mkW (w_arr u4) (w_next u4) (upd (w_node u4) n _) (w_size u4)).
    assert (N5 : forall j, j <> n -> w_node u5 j = w_node u4 j) by (intros; apply upd_other; auto).
    assert (R5 : forall r, read u5 r = read u4 r) by (intros []; reflexivity).
    assert (S5 : forall j, j <> n -> same_node u4 u5 j).
    { intros j Nj. unfold same_node, kind_of, transform_of, location_of, rotation_of. rewrite N5 by auto.
      destruct (w_node u4 j); auto. }
    assert (Q5 : forall j, j <> n -> placed_array u5 j = placed_array u4 j).
    { intros j Nj. unfold placed_array. rewrite N5 by auto. reflexivity. }
    assert (E5 : exists x5, w_node u5 n = Some x5 /\ n_kind x5 = k /\ f_tr (n_fr x5) = Whole a /\
      f_temp (n_fr x5) = Some (match k with KSphere => Whole bl | _ => Whole a end)).
    { eexists. split; [apply upd_same|]. cbn [n_kind n_fr f_tr f_temp]. split; auto. split; auto.
      rewrite F4. cbn. rewrite F2. cbn. destruct k; auto. }
    destruct E5 as (x5 & E5 & K5 & T5 & F5).
    assert (Tr5 : transform_of u5 n = Some m3).
    { unfold transform_of. rewrite E5, T5. simpl. rewrite Ea4. auto. }
    assert (Kd5 : kind_of u5 n = Some k) by (unfold kind_of; rewrite E5; congruence).
    split; [rewrite Z4; change (w_size u3) with (w_size u2); rewrite Z2; reflexivity|]. split.
    { unfold placed_array. rewrite E5, F5. f_equal. destruct k; simpl; auto. }
    split; auto. split; auto. split; [intros j Nj; eapply same_node_trans; [apply Sn4; auto|apply S5; auto]|].
    split.
    - intros l T'. rewrite <- (St_path u4 x4 m3 l T' S4).
      assert (Sa : forall j, kind_of u5 j = kind_of u4 j /\ transform_of u5 j = transform_of u4 j).
      { intros j. destruct (Nat.eq_dec j n) as [->|Nj].
        - rewrite Kd5, Tr5, (St_kind u4 x4 m3 S4), (St_tr u4 x4 m3 S4). auto.
        - destruct (S5 j Nj) as (A & B & _). auto. }
      split; apply path_cong; intros j; destruct (Sa j); auto.
    - intros l Nl. destruct (P4 l Nl) as [(T' & R & Pl)|(No & Pl)].
      + left. exists T'. split; auto. eapply same_placed_by; [apply S5; auto|apply Q5; auto|exact Pl].
      + right. split; auto. rewrite Q5, Pl, P3 by auto. destruct (P2 l Nl) as [(T' & R & _)|(_ & Pl2)].
        * exfalso. eapply No; eauto.
        * rewrite Pl2. apply P1. auto.
  Qed.
End Init.

Lemma init_frame_placed limit k em loc rot w v s : inv w -> plain_opt w loc -> plain_opt w rot ->
  given_location w loc v -> given_rotation w rot s -> plain_kind w limit k ->
  exists w', init_frame limit k em loc rot w = (w', Ok (w_size w)) /\ inv w' /\ w_size w' = S (w_size w) /\
    kind_of w' (w_size w) = Some k /\ transform_of w' (w_size w) = Some (mk4 s v) /\
    (forall j, j <> w_size w -> same_node w w' j) /\
    placed_array w' (w_size w) = Some (match k with KSphere => A3 v | _ => A44 (mk4 s v) end) /\
    (forall l T, path w' (w_size w) l T <-> exists T', reached w k l T' /\ T = mm4 (mk4 s v) T') /\
    forall l, l <> w_size w -> (exists T, reached w k l T /\ placed_by w' l (mm4 (mk4 s v) T)) \/
      ((forall T, ~ reached w k l T) /\ placed_array w' l = placed_array w l).
Proof.
  intros I Pl Pr Gl Gr Hk.
  destruct (init_frame limit k em loc rot w) as [w' o] eqn:H0.
  destruct (init_frame_inv limit k em loc rot w w' o I Pl Pr H0) as (I' & _).
  pose proof H0 as H. unfold init_frame in H. apply mbind_inv in H. destruct H as (w1 & r1 & H1 & H).
  destruct (default_ok _ _ _ _ _ H1) as (l & -> & Q1 & N1 & P1 & C1).
  apply mbind_inv in H. destruct H as (w2 & r2 & H2 & H).
  destruct (default_ok _ _ _ _ _ H2) as (r & -> & Q2 & N2 & P2 & C2).
  apply mbind_inv in H. destruct H as (w3 & r3 & H3 & H).
  destruct (new_arr_ok _ _ _ _ H3) as (Q3 & N3 & -> & V3 & L3).
  assert (Q : quiet_ok w w3) by (eapply quiet_ok_trans; [exact Q1|]; eapply quiet_ok_trans; eauto).
  assert (I3 : inv w3) by (eapply quiet_inv; eauto).
  assert (I2 : inv w2) by (exact (quiet_inv _ _ (quiet_ok_trans _ _ _ Q1 Q2) I)).
  assert (Sz : w_size w3 = w_size w) by (destruct Q as ((_ & -> & _) & _); auto).
  assert (Pl2 : plain w2 l) by (eapply quiet_plain; [apply Q2|]; auto).
  assert (Pr2 : plain w2 r) by (apply P2; eapply quiet_plain_opt; [apply Q1|auto]).
  destruct Pl2 as (bl & -> & Ll). destruct Pr2 as (br & -> & Lr).
  assert (Al : w_arr w2 bl = A3 v).
  { unfold given_location in Gl. destruct loc as [r0|].
    - destruct C1 as (<- & ->). destruct Pl as (b & E & Lb). injection E as <-. destruct Q2 as ((_ & _ & A & _) & _). rewrite A by auto. exact Gl.
    - destruct C1 as (E & L & V). injection E as ->. destruct Q2 as ((_ & _ & A & _) & _). rewrite A by lia. congruence. }
  assert (Ar : w_arr w2 br = A33 s).
  { unfold given_rotation in Gr. destruct rot as [r0|].
    - destruct C2 as (<- & ->). destruct Pr as (b & E & Lb). injection E as <-. destruct Q1 as ((_ & _ & A & _) & _). rewrite A by auto. exact Gr.
    - destruct C2 as (E & L & V). injection E as ->. congruence. }
  apply mbind_inv in H. destruct H as (w4 & r4 & H4 & H). unfold new_node in H4. inj H4. cbn [w_size] in H. rewrite Sz in H.
  set (x := mkN k (mkF (Whole (w_next w2)) (Whole bl) (Whole br) None)) in *.
  set (w4 := mkW (w_arr w3) (w_next w3) (upd (w_node w3) (w_size w) (Some x)) (S (w_size w))) in *.
  change (mkW _ _ _ _) with w4 in H.
  set (m := M4 (q0 em) (q1 em) (q2 em) (V4 0 0 0 1)) in *.
  assert (Kn : kind_of w (w_size w) = None).
  { unfold kind_of. destruct (w_node w (w_size w)) as [y|] eqn:E; auto. destruct I as (A & _). destruct (A _ y E). lia. }
  assert (A3' : forall b, b < w_next w2 -> w_arr w4 b = w_arr w2 b).
  { intros b Lb. destruct Q3 as ((_ & _ & A & _) & _). apply A; auto. }
  assert (N4 : forall j, j <> w_size w -> w_node w4 j = w_node w j).
  { intros j Nj. unfold w4. cbn [w_node]. rewrite upd_other, N3, N2, N1 by auto. auto. }
  assert (R4 : forall j y, w_node w j = Some y -> frame_ok w (n_fr y) /\ temp_ok w (n_fr y)).
  { intros j y E. destruct I as (A & _). destruct (A j y E) as (_ & F & T). auto. }
  assert (Lw : w_next w <= w_next w2) by (apply (quiet_ok_trans _ _ _ Q1 Q2)).
  assert (Rd : forall q, base q < w_next w -> read w4 q = read w q).
  { intros q Lq. change (read w4 q) with (read w3 q). apply quiet_read; auto. apply Q. }
  assert (Ss : forall j, j <> w_size w -> same_node w w4 j /\ placed_array w4 j = placed_array w j).
  { intros j Nj. unfold same_node, kind_of, transform_of, location_of, rotation_of, placed_array. rewrite N4 by auto.
    destruct (w_node w j) as [y|] eqn:E; auto. destruct (R4 j y E) as (F & T). apply frame_ok_base in F. destruct F as (F1 & F2 & F3).
    rewrite !Rd by auto. split; auto. destruct (f_temp (n_fr y)) eqn:Et; auto. rewrite Rd; auto. }
  assert (S4 : St w (w_size w) (w_next w2) bl br k v s w4 x m).
  { split; [apply upd_same|]. split; [reflexivity|]. split; [reflexivity|]. split; [cbn; lia|]. split; [exact V3|].
    split; [|split; [|split; [intros; apply Ss; auto|]]].
    - intros j y Ey. unfold w4 in Ey. cbn [w_node] in Ey. unfold upd in Ey. destruct (Nat.eqb_spec j (w_size w)) as [->|Nj].
      + inj Ey. cbn [n_fr x f_tr f_loc f_rot base read]. split; [exists (w_next w2), m; repeat split; auto; cbn; lia|].
        split; [exists v; rewrite A3' by auto; auto|]. cbn [w4 w_next]. split; [lia|]. split; [lia|]. intros q Hq. discriminate Hq.
      + exact (inv_pinv w3 I3 j y Ey).
    - intros j y Nj Ey. rewrite N4 in Ey by auto. destruct (R4 j y Ey) as (F & T). apply frame_ok_base in F.
      repeat split; try lia. intros q Hq. specialize (T q Hq). lia.
    - rewrite !A3' by auto. cbn [w4 w_next]. repeat split; auto; lia. }
  destruct (St_frame limit w (w_size w) (w_next w2) bl br k v s Hk Kn w4 x m S4 eq_refl eq_refl)
    as (u & Hu & Zu & Pn & Tn & Ku & Su & Pu & Lu).
  rewrite Hu in H. inj H. exists w'.
  change (with_rot (with_loc m v) s) with (mk4 s v) in *.
  split; [exact eq_refl|]. split; [auto|]. split; [rewrite Zu; reflexivity|]. split; auto. split; auto. split; auto. split; auto. split; auto.
  intros l0 Nl. destruct (Lu l0 Nl) as [X|(No & Pl')]; auto. right. split; auto. rewrite Pl'. apply Ss. auto.
Qed.

(** ** Objects *)

Lemma new_object_placed limit ss bs tr t w : inv w -> usable_opt w (w_size w) tr -> given w tr t ->
  Forall (fun l => kind_of w l <> None) (ss ++ bs) -> 0 < limit ->
  exists w', new_object limit ss bs tr w = (w', Ok (w_size w)) /\ inv w' /\ w_size w' = S (w_size w) /\
    kind_of w' (w_size w) = Some (KObj ss bs) /\ transform_of w' (w_size w) = Some t /\
    (forall j, j <> w_size w -> same_node w w' j) /\
    placed_array w' (w_size w) = None /\
    (forall l, In l (ss ++ bs) -> placed_by w' l t) /\
    (forall l, ~ In l (ss ++ bs) -> l <> w_size w -> placed_array w' l = placed_array w l).
Proof.
  intros I O G F Ll.
  destruct (new_object limit ss bs tr w) as [w' o] eqn:H0.
  destruct (new_object_inv limit ss bs tr w w' o I O H0) as (I' & Sm & Ok').
  pose proof H0 as H. unfold new_object in H. apply mbind_inv in H. destruct H as (w1 & r1 & H1 & H).
  destruct (default_ok _ _ _ _ _ H1) as (q & -> & Q1 & N1 & _ & C1).
  pose proof (default_own _ _ _ _ _ _ I H1 O) as (a & m & -> & La & Ea & Ua).
  assert (I1 : inv w1) by (eapply quiet_inv; eauto).
  assert (Sz : w_size w1 = w_size w) by (destruct Q1 as ((_ & -> & _) & _); auto).
  apply mbind_inv in H. destruct H as (w2 & r2 & H2 & H).
  destruct (new_node_inv_x w1 (mkN (KObj ss bs) (mkF (Whole a) (Whole a) (Whole a) None)) a m I1
    eq_refl La Ea) with (w' := w2) (r := r2) as (-> & I2 & E2 & A2 & Nx2 & S2 & O2); auto.
  { intros j y Ey. apply (Ua j y); auto. destruct I1 as (A & _). destruct (A j y Ey) as (L & _). lia. }
  rewrite Sz in *.
  destruct (frame_set_transform_eq w2 (w_size w) _ a m E2) as (w4 & F4 & Ha & Hn & Hs & En & Ek);
    [rewrite A2; auto|]. cbn [n_kind n_fr f_temp] in En.
  assert (Rd : forall r, read w4 r = read w1 r) by (intros []; simpl; rewrite Ha, A2; auto).
  assert (Nd : forall j, j <> w_size w -> w_node w4 j = w_node w j) by (intros j Nj; rewrite Ek, O2, N1 by auto; auto).
  assert (Rw : forall r, base r < w_next w -> read w4 r = read w r).
  { intros r Lr. rewrite Rd. apply quiet_read; auto. apply Q1. }
  assert (Nw : forall j y, w_node w j = Some y -> j < w_size w /\ frame_ok w (n_fr y) /\ temp_ok w (n_fr y)) by apply I.
  assert (P4 : pinv w4).
  { intros j y Ey. destruct (Nat.eq_dec j (w_size w)) as [->|Nj].
    - rewrite En in Ey. inj Ey. cbn [n_fr f_tr f_loc f_rot base]. rewrite Hn, Nx2. split; [|split; [|repeat split; auto]].
      + exists a, m. rewrite Ha, A2. auto.
      + exists (loc_of m). simpl. rewrite Ha, A2, Ea. auto.
      + intros r Hr. discriminate Hr.
    - rewrite Ek, O2 in Ey by auto. destruct (inv_pinv w1 I1 j y Ey) as (X1 & (v & X2) & X3 & X4 & X5). rewrite Hn, Nx2, Ha, A2.
      split; [auto|]. split; [exists v; rewrite Rd; auto|]. split; auto. split; auto. intros r Hr. rewrite Hn, Nx2. apply X5; auto. }
  assert (Kn4 : kind_of w4 (w_size w) = Some (KObj ss bs)) by (unfold kind_of; rewrite En; auto).
  assert (Tn4 : transform_of w4 (w_size w) = Some m).
  { unfold transform_of. rewrite En. cbn [n_fr f_tr]. rewrite Rd. simpl. rewrite Ea. auto. }
  assert (S4 : forall j, j <> w_size w -> same_node w w4 j /\ placed_array w4 j = placed_array w j).
  { intros j Nj. unfold same_node, kind_of, transform_of, location_of, rotation_of, placed_array. rewrite Nd by auto.
    destruct (w_node w j) as [y|] eqn:E; auto. destruct (Nw j y E) as (_ & Fy & Ty). apply frame_ok_base in Fy. destruct Fy as (B1 & B2 & B3).
    rewrite !Rw by auto. split; auto. destruct (f_temp (n_fr y)) eqn:Et; auto. rewrite Rw; auto. }
  assert (Kw : kind_of w (w_size w) = None).
  { unfold kind_of. destruct (w_node w (w_size w)) as [y|] eqn:E; auto. destruct (Nw _ y E). lia. }
  assert (Oth : forall l, In l (ss ++ bs) -> l <> w_size w).
  { intros l Hl ->. rewrite Forall_forall in F. apply (F _ Hl). exact Kw. }
  assert (B4 : built w4 limit (w_size w)).
  { destruct limit as [|limit]; [lia|]. eapply built_obj; [exact Kn4|]. rewrite Forall_forall in *. intros l Hl.
    destruct (S4 l (Oth l Hl)) as ((K & _) & _). rewrite K. auto. }
  apply (transform_children_succeeds_p limit (w_size w) id4 w4 P4) in B4.
  destruct (transform_children limit (w_size w) id4 w4) as [w5 o5] eqn:H5. simpl in B4. subst o5.
  unfold or_forget, set_transform, then_children in H. erewrite mbind_ok in H by (unfold get_node; rewrite E2; reflexivity).
  cbn [n_kind is_leaf] in H. erewrite mthen_ok in H by exact F4. rewrite H5 in H. inj H.
  destruct (transform_children_effect_p limit (w_size w) id4 w4 w' P4 H5) as (Q5 & Ef).
  destruct (Ok' (w_size w) eq_refl) as (_ & K' & T').
  exists w'. split; auto. split; auto. split; [destruct Q5 as ((_ & Z & _) & _); congruence|]. split; auto.
  assert (Et : m = t).
  { unfold given in G. destruct tr as [r|].
    - destruct C1 as (<- & ->). simpl in G. congruence.
    - destruct C1 as (E & L & V). inj E. congruence. }
  split.
  { rewrite T'. unfold given in G. destruct tr as [r|]; [rewrite G; auto|congruence]. }
  split; auto.
  assert (Pth : forall l T, path w4 (w_size w) l T <-> In l (ss ++ bs) /\ T = m).
  { intros l T. split.
    - intros P. inversion P; subst; rewrite Kn4 in *; try congruence.
      match goal with K : Some (KObj _ _) = Some (KObj _ _) |- _ => injection K as <- <- end. split; [auto|congruence].
    - intros (Hl & ->). eapply path_obj; eauto. }
  split; [|split].
  - destruct (Ef (w_size w)) as [(P & (T & Pt & _) & _)|(_ & Pl)].
    + apply Pth in Pt. destruct Pt as (Hl & _). exfalso. exact (Oth _ Hl eq_refl).
    + rewrite Pl. unfold placed_array. rewrite En. reflexivity.
  - intros l Hl. destruct (Ef l) as [(P & (T & Pt & ->) & Pl)|(No & _)].
    + apply Pth in Pt. destruct Pt as (_ & ->). rewrite mm4_id_l in Pl. congruence.
    + exfalso. apply (No (mm4 id4 m)). exists m. split; auto. apply Pth. auto.
  - intros l Hl Nl. destruct (Ef l) as [(P & (T & Pt & ->) & Pl)|(_ & Pl)].
    + apply Pth in Pt. destruct Pt as (Hl' & _). contradiction.
    + rewrite Pl. apply S4; auto.
Qed.
