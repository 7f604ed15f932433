(** Traces in which the whole course of every ray is known. *)
From Coq Require Import Reals String List Arith Bool Lia Lra Sorted Permutation.
From Verif.Base Require Import Py Num Vec.
From Verif.Model Require Import RayBundle Geometry TraceTree OpticsCallables Engine Objects Surface.
From Verif.Proof Require Import ListLemmas NumLemmas BundleProof ProcessProof CallProof SurfaceProof LibraryTop TraceTop ObjectProof ObjectTrace AnswerProof
  AccountProof RelayProof TowerProof.
From Verif.Spec Require Import BundleSpec EngineSpec GeometrySpec GeomIface OpticsSpec LibrarySpec ModelSpec AccountSpec.
Import ListNotations.

Lemma pick_fun {A} (a0 : A) (P : nat -> A -> Prop) n : (forall j, j < n -> exists a, P j a) -> exists f, forall j, j < n -> P j (f j).
Proof.
  induction n as [|n IH]; intros H; [exists (fun _ => a0); intros; lia|].
  destruct IH as (f & Hf); [intros; apply H; lia|]. destruct (H n ltac:(lia)) as (a & Ha).
  exists (fun j => if Nat.eqb j n then a else f j). intros j Hj. destruct (Nat.eqb_spec j n) as [->|N]; auto. apply Hf. lia.
Qed.

Lemma sorted_nodup l : StronglySorted lt l -> NoDup l.
Proof.
  induction 1 as [|a l S IH F]; constructor; auto. intros I. rewrite Forall_forall in F. apply F in I. lia.
Qed.

Lemma nodup_app_intro {A} (l m : list A) : NoDup l -> NoDup m -> (forall x, In x l -> In x m -> False) -> NoDup (l ++ m).
Proof.
  induction l as [|a l IH]; intros N M D; auto. inversion N as [|? ? Na Nl]; subst. cbn. constructor.
  - rewrite in_app_iff. intros [I|I]; [auto|]. apply (D a); auto. left; auto.
  - apply IH; auto. intros x I. apply D. right; auto.
Qed.

Lemma nodup_left {A} (l m : list A) : NoDup (l ++ m) -> NoDup l.
Proof.
  induction l as [|a l IH]; intros N; [constructor|]. inversion N as [|? ? Na Nl]; subst. constructor; auto. rewrite in_app_iff in Na. auto.
Qed.

Lemma in_firstn_nth {A} (l : list A) k x : In x (firstn k l) <-> exists i, i < k /\ nth_error l i = Some x.
Proof.
  revert k. induction l as [|a l IH]; intros [|k]; cbn.
  - split; [tauto|]. intros (i & Hi & _). lia.
  - split; [tauto|]. intros (i & _ & E). destruct i; discriminate.
  - split; [tauto|]. intros (i & Hi & _). lia.
  - rewrite IH. split.
    + intros [->|(i & Hi & E)]; [exists 0|exists (S i)]; split; auto; lia.
    + intros ([|i] & Hi & E); cbn in E; [left; congruence|right; exists i; split; auto; lia].
Qed.

Lemma picks_map {A} (f : nat -> A) hs ks l : picks (map f hs) ks l -> l = map f (map (fun k => nth k hs 0) ks).
Proof.
  intros P. rewrite map_map. apply col_map; [apply (picks_length _ _ _ P)|]. intros i k E. destruct (nth_lt l i) as (x & Ex).
  { rewrite (picks_length _ _ _ P). apply nth_error_Some. congruence. }
  pose proof (Forall2_at _ _ _ _ _ _ P E Ex) as Q. cbv beta in Q. rewrite nth_error_map in Q. rewrite Ex.
  destruct (nth_error hs k) as [j|] eqn:Ej; [|discriminate]. cbn in Q. rewrite (nth_error_nth _ _ _ Ej). congruence.
Qed.

Lemma picked_emits_any pt dd ee hs ks rc lvl : emits pt dd ee hs rc -> rays_picked rc ks lvl ->
  emits pt dd ee (map (fun k => nth k hs 0) ks) lvl.
Proof.
  intros (A & B & C & D) P. unfold emits.
  pose proof (P Vertices) as P1. pose proof (P Directions) as P2. pose proof (P Energy) as P3. pose proof (P Parents) as P4. cbn in *.
  rewrite A in P1. rewrite B in P2. rewrite C in P3. rewrite D in P4. cbn in *.
  destruct P1 as (l1 & E1 & Q1). destruct P2 as (l2 & E2 & Q2). destruct P3 as (l3 & E3 & Q3). destruct P4 as (l4 & E4 & Q4).
  rewrite map_map in Q1, Q2, Q3. apply picks_map in Q1, Q2, Q3, Q4. subst.
  assert (Inj : forall A B (f : A -> B) l m, (forall x y, f x = f y -> x = y) -> map f l = map f m -> l = m).
  { clear. intros A B f l. induction l; intros [|y m] H E; try discriminate; auto. injection E as E1 E2. f_equal; auto. }
  rewrite <- map_map with (g := PVec) in E1. rewrite <- map_map with (g := PVec) in E2. rewrite <- map_map with (g := PReal) in E3.
  split; [|split; [|split]].
  - destruct (b_vert lvl) as [l|]; [|discriminate]. injection E1 as E1. f_equal. eapply Inj; [|exact E1]. congruence.
  - destruct (b_dir lvl) as [l|]; [|discriminate]. injection E2 as E2. f_equal. eapply Inj; [|exact E2]. congruence.
  - destruct (b_energy lvl) as [l|]; [|discriminate]. injection E3 as E3. f_equal. eapply Inj; [|exact E3]. congruence.
  - destruct (b_parents lvl) as [l|]; [|discriminate]. injection E4 as E4. f_equal. eapply Inj; [|exact E4]. congruence.
Qed.

Lemma emits_nth pt dd ee hs o k j : emits pt dd ee hs o -> nth_error hs k = Some j ->
  vert_at o k = Some (pt j) /\ dir_at o k = Some (dd j) /\ energy_at o k = Some (ee j) /\ parent_at o k = Some j.
Proof.
  intros (A & B & C & D) E. unfold vert_at, dir_at, energy_at, parent_at, at_col. rewrite A, B, C, D, !nth_error_map, E. auto.
Qed.

Lemma emits_count pt dd ee hs o m : emits pt dd ee hs o -> traceable o m -> m = length hs.
Proof.
  intros (E & _) (_ & (_ & R) & _). specialize (R Vertices). cbn in R. rewrite E in R. cbn in R.
  specialize (R _ eq_refl). rewrite !map_length in R. auto.
Qed.

Lemma gathered_nodup (who : nat -> nat) n : forall is hss, NoDup is ->
  Forall2 (fun i hits => StronglySorted lt hits /\ forall j, In j hits <-> j < n /\ who j = i) is hss -> NoDup (concat hss).
Proof.
  intros is hss N F. induction F as [|i hits is hss (Sh & Wh) F IH]; [constructor|]. inversion N as [|? ? Ni Nis]; subst. cbn.
  apply nodup_app_intro; auto; [apply sorted_nodup; auto|]. intros x Ix Iy. apply Wh in Ix as (_ & Wx).
  apply in_concat in Iy as (hits' & Ih & Iy). apply In_nth_error in Ih as (k & Ek).
  destruct (nth_lt is k) as (i' & Ei). { rewrite (Forall2_length _ _ _ F). apply nth_error_Some. congruence. }
  pose proof (Forall2_at _ _ _ _ _ _ F Ei Ek) as (_ & W). pose proof (proj1 (W x) Iy) as Wy. apply Ni. apply nth_error_In in Ei. destruct Wy as (_ & Wy). congruence.
Qed.

(** Ray [j] goes to the surface [who j], or nowhere if there is no such surface. *)
Definition may_go (T : reports) (nsurf n : nat) (who : nat -> nat) (len : nat -> R) : Prop :=
  forall i j t, meets_first T nsurf n i j t <-> j < n /\ i = who j /\ i < nsurf /\ t = len j.

Lemma may_go_intro T nsurf n who len :
  (forall j, j < n -> who j < nsurf -> T (who j) j = Some (Fin (len j)) /\ (tenm 6 < len j)%R) ->
  (forall i j, i < nsurf -> j < n -> i <> who j ->
     T i j = None \/ T i j = Some PInf \/ who j < nsurf /\ exists t, T i j = Some (Fin t) /\ (len j < t)%R) ->
  may_go T nsurf n who len.
Proof.
  intros H1 H2 i j t. split.
  - intros (Hi & Hj & Ht & _ & Mn). split; auto.
    destruct (Nat.eq_dec i (who j)) as [->|Ne]; [destruct (H1 j Hj Hi) as (Tw & Lw); repeat split; auto; congruence|]. exfalso.
    destruct (H2 i j Hi Hj Ne) as [E|[E|(Hw & t' & E & L)]]; try congruence. assert (t' = t) by congruence. subst t'.
    destruct (H1 j Hj Hw) as (Tw & Lw). specialize (Mn (who j) Hw). rewrite Tw in Mn. destruct Mn as [(_ & Dn)|Mn]; lra.
  - intros (Hj & -> & Hw & ->). destruct (H1 j Hj Hw) as (Tw & Lw). split; auto. split; auto. split; auto. split.
    { intros (_ & Dn). lra. }
    intros i' Hi'. destruct (Nat.eq_dec i' (who j)) as [->|Ne]; [rewrite Tw; right; lra|].
    destruct (H2 i' j Hi' Hj Ne) as [->|[->|(_ & t' & -> & L)]]; auto. right. lra.
Qed.

Lemma level_gathered_some surfs prev tb rc T n g g' ems who len pt dd ee :
  reported surface_ops surfs prev n T tb -> emissions surface_ops surfs tb n T g ems g' -> concatenate_rays (map snd ems) = Ok rc ->
  (exists j, j < n /\ who j < length surfs) -> may_go T (length surfs) n who len ->
  (forall i, (exists j, j < n /\ who j = i /\ i < length surfs) -> exists s Hit Out, nth_error surfs i = Some s /\ acts s Hit Out /\
    forall j v d e d' e', j < n -> who j = i -> vert_at prev j = Some v -> dir_at prev j = Some d -> energy_at prev j = Some e ->
      Hit v d (Fin (len j)) -> Out (ray_at v d (len j)) d e d' e' -> ray_at v d (len j) = pt j /\ d' = dd j /\ e' = ee j) ->
  exists hss, Forall2 (fun i hits => StronglySorted lt hits /\ forall j, In j hits <-> j < n /\ who j = i) (map fst ems) hss /\
  (forall j, In j (concat hss) <-> j < n /\ who j < length surfs) /\ emits pt dd ee (concat hss) rc.
Proof.
  intros Rp Em Cc (j0 & Hj0 & Wj0) W Act. destruct Em as (So & Ei & Tn).
  assert (Il : forall i, In i (map fst ems) -> i < length surfs).
  { intros i Ii. apply Ei in Ii as (j & t & Ht). apply Ht. }
  assert (X : forall l h h', incl (map fst l) (map fst ems) -> in_turn (fun io h h' => exists s hits, nth_error surfs (fst io) = Some s /\ StronglySorted lt hits /\
    (forall j, In j hits <-> exists t, meets_first T (length surfs) n (fst io) j t) /\
    emission surface_ops tb n T (fst io) s hits h (snd io) h') l h h' ->
    exists hss, Forall2 (fun i hits => StronglySorted lt hits /\ forall j, In j hits <-> j < n /\ who j = i) (map fst l) hss /\
      Forall2 (emits pt dd ee) hss (map snd l)).
  { intros l h h' Ic H. revert Ic. induction H as [|[i o] l g0 g1 g2 (s & hits & Es & Sh & Mh & E) Tn' IH]; intros Ic; [exists []; split; constructor|].
    cbn [fst snd map] in *. destruct IH as (hss & F1 & F2); [intros x Ix; apply Ic; right; auto|].
    pose proof (Il i (Ic i (or_introl eq_refl))) as Hi.
    assert (Mh' : forall j, In j hits <-> j < n /\ who j = i).
    { intros j. rewrite Mh. split.
      - intros (t & Ht). apply W in Ht. intuition.
      - intros (Hj & <-). exists (len j). apply W. auto. }
    exists (hits :: hss). split; constructor; auto.
    assert (Q : exists j, j < n /\ who j = i /\ i < length surfs).
    { destruct (proj1 (Ei i) (Ic i (or_introl eq_refl))) as (j & t & Ht). apply W in Ht as (Hj & Hw & _). eauto. }
    destruct (Act i Q) as (s' & Hit & Out & Es' & Ac & Ho). rewrite Es in Es'. injection Es' as <-.
    eapply emission_emits; [apply Rp|exact E|exact Ac| |].
    - intros j Ij. apply Mh in Ij as (t & Ht). pose proof (proj1 (W _ _ _) Ht) as (_ & _ & _ & ->). apply Ht.
    - intros j v d e d' e' Ij V D En. apply Mh' in Ij as (Hj & Wj).
      assert (Sm : same_ray tb j prev j).
      { destruct Rp as (_ & P & _). eapply picked_same; [exact P|]. rewrite nth_error_nth' with (d := 0) by (rewrite seq_length; auto). rewrite seq_nth; auto. }
      apply Ho; auto.
      + rewrite <- (same_ray_vert _ _ _ _ Sm); auto.
      + rewrite <- (same_ray_dir _ _ _ _ Sm); auto.
      + rewrite <- (same_ray_energy _ _ _ _ Sm); auto. }
  destruct (X ems g g' (incl_refl _) Tn) as (hss & F1 & F2).
  assert (Mem : forall j, In j (concat hss) <-> j < n /\ who j < length surfs).
  { intros j. rewrite in_concat. split.
    - intros (hits & Ih & Ij). apply In_nth_error in Ih as (k & Ek).
      destruct (nth_lt (map fst ems) k) as (i & Eik). { rewrite (Forall2_length _ _ _ F1). apply nth_error_Some. congruence. }
      pose proof (Forall2_at _ _ _ _ _ _ F1 Eik Ek) as (_ & M). pose proof (proj1 (M j) Ij) as (Hj & Wj). split; auto. rewrite Wj. apply Il. eapply nth_error_In; eauto.
    - intros (Hj & Wj). assert (I : In (who j) (map fst ems)) by (apply Ei; exists j, (len j); apply W; auto).
      apply In_nth_error in I as (k & Ek). destruct (nth_lt hss k) as (hits & Eh). { rewrite <- (Forall2_length _ _ _ F1). apply nth_error_Some. congruence. }
      exists hits. split; [eapply nth_error_In; eauto|]. apply (Forall2_at _ _ _ _ _ _ F1 Ek Eh). auto. }
  exists hss. split; auto. split; auto. eapply concat_emits; eauto.
  intros E. destruct ems as [|io l]; [|discriminate]. apply (proj2 (Ei (who j0))). exists j0, (len j0). apply W. auto.
Qed.

(** One level: what is sent on is, in some order, one ray for each traced one that meets
    something; the strong ones come first. *)
Lemma level_shuffled surfs prev tb rc lvl T n m ns' me g g' ems who len pt dd ee :
  reported surface_ops surfs prev n T tb -> emissions surface_ops surfs tb n T g ems g' ->
  concatenate_rays (map snd ems) = Ok rc -> level_order rc m me lvl ns' -> traceable rc m -> split_by_energy lvl m ns' me ->
  (exists j, j < n /\ who j < length surfs) -> may_go T (length surfs) n who len ->
  (forall i, (exists j, j < n /\ who j = i /\ i < length surfs) -> exists s Hit Out, nth_error surfs i = Some s /\ acts s Hit Out /\
    forall j v d e d' e', j < n -> who j = i -> vert_at prev j = Some v -> dir_at prev j = Some d -> energy_at prev j = Some e ->
      Hit v d (Fin (len j)) -> Out (ray_at v d (len j)) d e d' e' -> ray_at v d (len j) = pt j /\ d' = dd j /\ e' = ee j) ->
  exists hs, Permutation hs (filter (fun j => Nat.ltb (who j) (length surfs)) (seq 0 n)) /\ emits pt dd ee hs lvl /\ ns' <= length hs /\
    forall k j, nth_error hs k = Some j -> (k < ns' <-> (me < ee j)%R).
Proof.
  intros Rp Em Cc Lo Tl Sp Pos W Act.
  destruct (level_gathered_some surfs prev tb rc T n g g' ems who len pt dd ee Rp Em Cc Pos W Act) as (hss & F & Mem & E).
  assert (Nd : NoDup (concat hss)).
  { eapply gathered_nodup; [|exact F]. apply sorted_nodup. apply Em. }
  assert (Pm : Permutation (concat hss) (filter (fun j => Nat.ltb (who j) (length surfs)) (seq 0 n))).
  { apply NoDup_Permutation; auto; [apply NoDup_filter, seq_NoDup|]. intros x. rewrite Mem, filter_In, in_seq, Nat.ltb_lt. intuition lia. }
  pose proof (emits_count _ _ _ _ _ _ E Tl) as Em'. subst m.
  destruct Lo as (strong & weak & Ls & P & S1 & S2 & O1 & O2).
  assert (Ps : Permutation (strong ++ weak) (seq 0 (length (concat hss)))).
  { apply NoDup_Permutation; [|apply seq_NoDup|].
    - apply nodup_app_intro; try (apply sorted_nodup; auto). intros x I1 I2. apply S1 in I1 as (_ & e & Ee & He). apply S2 in I2 as (_ & e' & Ee' & He').
      rewrite Ee in Ee'. injection Ee' as <-. lra.
    - intros x. rewrite in_app_iff, S1, S2, in_seq. split; [lia|]. intros (_ & Hx).
      destruct (nth_lt (concat hss) x) as (j & Ej); [lia|]. destruct (emits_nth _ _ _ _ _ _ _ E Ej) as (_ & _ & Ee & _).
      destruct (Rlt_dec me (ee j)); [left|right]; (split; [lia|]); exists (ee j); split; auto; lra. }
  assert (Ph : Permutation (map (fun k => nth k (concat hss) 0) (strong ++ weak)) (concat hss)).
  { assert (X : map (fun k => nth k (concat hss) 0) (seq 0 (length (concat hss))) = concat hss).
    { generalize (concat hss) as l. clear. induction l as [|a l IH]; auto. cbn [length seq map nth]. f_equal. rewrite <- seq_shift, map_map. exact IH. }
    apply (Permutation_map (fun k => nth k (concat hss) 0)) in Ps. rewrite X in Ps. exact Ps. }
  exists (map (fun k => nth k (concat hss) 0) (strong ++ weak)). split; [|split; [|split]].
  - eapply Permutation_trans; eauto.
  - eapply picked_emits_any; eauto.
  - rewrite (Permutation_length Ph). apply Sp.
  - intros k j Ek. pose proof (picked_emits_any _ _ _ _ _ _ _ E P) as El. destruct (emits_nth _ _ _ _ _ _ _ El Ek) as (_ & _ & Ee & _).
    apply Sp. auto.
Qed.

(** ** The whole trace *)

Section Fate.
Variables (objs : list obj) (surfs : list surface) (i0 id : nat) (rs : surface) (ab : absorbing) (me : R).
Variables (Hit : nat -> vec -> vec -> num -> Prop) (Out : nat -> vec -> vec -> R -> vec -> R -> Prop)
  (asks : option nat -> nat -> Prop) (state : option nat -> vec -> vec -> R -> nat -> option (R * vec) -> Prop).
Hypothesis Ans : answering_assembly objs surfs.
Hypothesis Rs : nth_error surfs i0 = Some rs.
Hypothesis Racc : s_opt rs = Accountant id ab.
Hypothesis Rall : absorptivity ab = 1%R.
Hypothesis Sole : sole_account surfs i0 id.
Hypothesis Acts : forall i s, nth_error surfs i = Some s -> acts s (Hit i) (Out i).
Hypothesis Asks0 : forall i, asks None i.
Hypothesis Asks : forall i oi owns next b j r, emitted_by objs i oi owns next b j r ->
  forall i', i' < length surfs -> (next_surfaces objs oi owns next r i' <-> asks (Some i) i').
(** A ray in the state [state q v d e k o], sent on by surface [q], has at most [k]
    mirrors ahead and is then taken by the receiver, with the energy and at the place
    [o], or lost. *)
Definition ahead (q : option nat) (v d : vec) (e : R) (k : nat) (o : option (R * vec)) (i : nat) (t : R) (d1 : vec) (e1 : R) : Prop :=
  asks q i /\ (tenm 6 < t)%R /\ (forall x, Hit i v d x -> x = Fin t) /\
  (forall i' x, i' < length surfs -> i' <> i -> asks q i' -> Hit i' v d x -> x = PInf \/ exists t', x = Fin t' /\ (t < t')%R) /\
  (forall d' e', Hit i v d (Fin t) -> Out i (ray_at v d t) d e d' e' -> d' = d1 /\ e' = e1) /\
  (i = i0 /\ o = Some (e, ray_at v d t) /\ (e1 <= me)%R \/ i <> i0 /\ o = None /\ (e1 <= me)%R \/
   i <> i0 /\ (me < e1)%R /\ exists k', k = S k' /\ state (Some i) (ray_at v d t) d1 e1 k' o).
Hypothesis Step : forall q v d e k o, state q v d e k o ->
  (exists i t d1 e1, i < length surfs /\ ahead q v d e k o i t d1 e1) \/
  o = None /\ forall i x, i < length surfs -> asks q i -> Hit i v d x -> x = PInf.

(** What is known of the rays of one level. *)
Definition known (reps L : nat) (T : reports) (prev : bundle) (n : nat) (f : nat -> option nat * nat * option (R * vec)) : Prop :=
  forall j, j < n -> let '(q, k, o) := f j in
    L + k < reps /\ (forall i, i < length surfs -> (T i j <> None <-> asks q i)) /\
    exists v d e, vert_at prev j = Some v /\ dir_at prev j = Some d /\ energy_at prev j = Some e /\ state q v d e k o.

Definition finds_next (T : reports) (prev : bundle) (j : nat) (a : option nat * nat * option (R * vec)) (b : (nat * R) * (vec * vec * R)) : Prop :=
  let '(q, k, o) := a in let '((i, t), (p, d1, e1)) := b in
    exists v d e, vert_at prev j = Some v /\ dir_at prev j = Some d /\ energy_at prev j = Some e /\
    (i = length surfs /\ o = None /\ (e1 <= me)%R /\ (forall i', i' < length surfs -> T i' j = None \/ T i' j = Some PInf) \/
     i < length surfs /\ p = ray_at v d t /\ T i j = Some (Fin t) /\ (tenm 6 < t)%R /\
     (forall i', i' < length surfs -> i' <> i -> T i' j = None \/ T i' j = Some PInf \/ exists t', T i' j = Some (Fin t') /\ (t < t')%R) /\
     (forall d' e', Hit i v d (Fin t) -> Out i p d e d' e' -> d' = d1 /\ e' = e1) /\
     (i = i0 /\ o = Some (e, p) /\ (e1 <= me)%R \/ i <> i0 /\ o = None /\ (e1 <= me)%R \/
      i <> i0 /\ (me < e1)%R /\ exists k', k = S k' /\ state (Some i) p d1 e1 k' o)).
Definition takes (T : reports) (n : nat) (prev : bundle) (f : nat -> option nat * nat * option (R * vec))
    (g : nat -> (nat * R) * (vec * vec * R)) : Prop := forall j, j < n -> finds_next T prev j (f j) (g j).

Lemma known_takes reps L T prev n f tb : reported surface_ops surfs prev n T tb -> known reps L T prev n f -> exists g, takes T n prev f g.
Proof.
  intros Rp K. apply (pick_fun ((0, 0%R), (vzero, vzero, 0%R)) (fun j a => finds_next T prev j (f j) a)).
  intros j Hj. specialize (K j Hj). destruct (f j) as ((q, k), o). destruct K as (Lk & As & v & d & e & V & D & E & St).
  assert (HH : forall i x, i < length surfs -> T i j = Some x -> Hit i v d x).
  { intros i x Hi Tx. destruct (nth_lt surfs i Hi) as (s & Es). eapply report_acts; eauto. }
  destruct (Step q v d e k o St) as [(i & t & d1 & e1 & Hi & Ai & Ht & H1 & H2 & H3 & H4)|(Eo & No)].
  - exists ((i, t), (ray_at v d t, d1, e1)). exists v, d, e. do 3 (split; auto). right. do 2 (split; auto).
    split. { destruct (T i j) as [x|] eqn:Tx; [|exfalso; apply (proj2 (As i Hi)); auto]. f_equal. apply H1. apply HH; auto. }
    split; auto. split; [|split; auto]. intros i' Hi' Ne. destruct (T i' j) as [x|] eqn:Tx; auto. right.
    destruct (H2 i' x Hi' Ne) as [->|(t' & -> & Ht')]; eauto. apply As; auto. congruence.
  - exists ((length surfs, 0%R), (vzero, vzero, me)). exists v, d, e. do 3 (split; auto). left. do 2 (split; auto). split; [lra|].
    intros i' Hi'. destruct (T i' j) as [x|] eqn:Tx; auto. right. f_equal. apply (No i'); auto. apply As; auto. congruence.
Qed.

Lemma takes_goes T n prev f g : takes T n prev f g -> may_go T (length surfs) n (fun j => fst (fst (g j))) (fun j => snd (fst (g j))).
Proof.
  intros Tk. apply may_go_intro.
  - intros j Hj Hw. specialize (Tk j Hj). destruct (f j) as ((q, k), o). destruct (g j) as ((i, t), ((p, d1), e1)). cbn in *.
    destruct Tk as (v & d & e & _ & _ & _ & [(-> & _)|(Hi & _ & Tx & Ht & _)]); [lia|auto].
  - intros i' j Hi' Hj Ne. specialize (Tk j Hj). destruct (f j) as ((q, k), o). destruct (g j) as ((i, t), ((p, d1), e1)). cbn in *.
    destruct Tk as (v & d & e & _ & _ & _ & [(-> & _ & _ & No)|(Hi & _ & Tx & Ht & Ot & _)]).
    + destruct (No i' Hi'); auto.
    + destruct (Ot i' Hi' Ne) as [?|[?|?]]; auto.
Qed.

Definition taken {A} (f : A -> option (R * vec)) : list A -> list (R * vec) := flat_map (fun a => match f a with Some o => [o] | None => [] end).
Definition todo (f : nat -> option nat * nat * option (R * vec)) (n : nat) : list (R * vec) := taken (fun j => snd (f j)) (seq 0 n).
Lemma taken_app {A} (f : A -> option (R * vec)) l l' : taken f (l ++ l') = taken f l ++ taken f l'.
Proof. unfold taken. apply flat_map_app. Qed.
Lemma taken_perm {A} (f : A -> option (R * vec)) l l' : Permutation l l' -> Permutation (taken f l) (taken f l').
Proof. unfold taken. apply Permutation_flat_map. Qed.
Lemma taken_map {A C} (f : A -> option (R * vec)) (h : C -> A) l : taken f (map h l) = taken (fun c => f (h c)) l.
Proof. induction l; auto. unfold taken in *. cbn. congruence. Qed.
Lemma taken_none {A} (f : A -> option (R * vec)) l : (forall a, In a l -> f a = None) -> taken f l = [].
Proof. induction l as [|a l IH]; auto. intros H. unfold taken in *. cbn. rewrite (H a) by (left; auto). apply IH. intros; apply H; right; auto. Qed.


(** What the receiver notes, and what is still under way. *)
Lemma takes_split T n prev f g l hs ns' : takes T n prev f g -> noted (absorptivity ab) T (length surfs) prev n i0 l ->
  Permutation hs (filter (fun j => Nat.ltb (fst (fst (g j))) (length surfs)) (seq 0 n)) ->
  (forall k j, nth_error hs k = Some j -> (k < ns' <-> (me < snd (snd (g j)))%R)) ->
  Permutation (todo f n) (l ++ taken (fun j => snd (f j)) (firstn ns' hs)).
Proof.
  intros Tk (js & Sj & Mj & F) Ph Hs. pose proof (takes_goes _ _ _ _ _ Tk) as G.
  assert (Ej : l = taken (fun j => snd (f j)) js).
  { clear Sj. assert (Hj : forall j, In j js -> exists t, meets_first T (length surfs) n i0 j t) by (intros j; apply Mj). clear Mj.
    induction F as [|j x js l (t & e & v & d & M & En & V & D & ->) F IH]; auto. unfold taken in *. cbn [flat_map].
    rewrite <- IH by (intros; apply Hj; right; auto). clear IH. change (?a :: l) with ([a] ++ l). f_equal.
    apply G in M as (Lj & Wi & Wl & Wt). specialize (Tk j Lj). destruct (f j) as ((q, k'), o). destruct (g j) as ((i, t'), ((p, d1), e1)). cbn in *. subst i t'.
    destruct Tk as (v' & d' & e' & V' & D' & E' & [(Hi & _)|(_ & -> & _ & _ & _ & _ & M)]); [lia|]. rewrite V in V'. rewrite D in D'. rewrite En in E'.
    assert (v' = v) by congruence. assert (d' = d) by congruence. assert (e' = e) by congruence. subst v' d' e'.
    destruct M as [(_ & -> & _)|[(M & _)|(M & _)]]; try congruence. rewrite Rall. do 2 f_equal. ring. }
  subst l. set (lost := filter (fun j => match snd (f j) with None => if Rlt_dec me (snd (snd (g j))) then false else true | Some _ => false end) (seq 0 n)).
  assert (El : taken (fun j => snd (f j)) lost = []).
  { apply taken_none. intros j Ij. apply filter_In in Ij as (_ & Ij). destruct (snd (f j)); auto; discriminate. }
  rewrite <- (app_nil_r (taken _ (firstn ns' hs))), <- El, <- !taken_app. apply taken_perm.
  assert (Nh : NoDup hs) by (eapply Permutation_NoDup; [apply Permutation_sym; exact Ph|apply NoDup_filter, seq_NoDup]).
  assert (In_hs : forall x, In x hs <-> x < n /\ fst (fst (g x)) < length surfs).
  { intros x. rewrite Ph, filter_In, in_seq, Nat.ltb_lt. intuition lia. }
  assert (Il : forall x, In x lost <-> x < n /\ snd (f x) = None /\ (snd (snd (g x)) <= me)%R).
  { intros x. unfold lost. rewrite filter_In, in_seq. destruct (snd (f x)); destruct (Rlt_dec me (snd (snd (g x)))); split; intros Q; try (intuition (try discriminate; try lra; try lia)). }
  apply NoDup_Permutation; [apply seq_NoDup| |].
  - apply nodup_app_intro; [apply sorted_nodup; auto| |].
    + apply nodup_app_intro; [|apply NoDup_filter, seq_NoDup|].
      * rewrite <- (firstn_skipn ns' hs) in Nh. apply nodup_left in Nh. auto.
      * intros x I1 I2. apply Il in I2 as (_ & _ & L). apply in_firstn_nth in I1 as (k & Hk & Ek). apply (Hs k x Ek) in Hk. lra.
    + intros x I1 I2. apply Mj in I1 as (t & M). apply G in M as (Hx & Wi & Wl & Wt). specialize (Tk x Hx). rewrite in_app_iff in I2.
      assert (Q : (snd (snd (g x)) <= me)%R /\ snd (f x) <> None).
      { destruct (f x) as ((q, k'), o). destruct (g x) as ((i, t'), ((p, d1), e1)). cbn in *. subst i.
        destruct Tk as (v' & d' & e' & _ & _ & _ & [(Hi & _)|(_ & _ & _ & _ & _ & _ & M)]); [lia|].
        destruct M as [(_ & -> & M)|[(M & _)|(M & _)]]; try congruence. split; auto. discriminate. }
      destruct Q as (Q1 & Q2). destruct I2 as [I2|I2].
      * apply in_firstn_nth in I2 as (k & Hk & Ek). apply (Hs k x Ek) in Hk. lra.
      * apply Il in I2. tauto.
  - intros x. rewrite !in_app_iff, Mj, in_firstn_nth, Il, in_seq. split.
    + intros (_ & Hx). cbn in Hx. pose proof (Tk x Hx) as Q. pose proof (proj2 (G (fst (fst (g x))) x (snd (fst (g x))))) as W. cbv beta in W.
      pose proof (proj2 (In_hs x)) as Ih. assert (Hk : In x hs -> exists k, nth_error hs k = Some x) by apply In_nth_error.
      destruct (f x) as ((q, k'), o). destruct (g x) as ((i, t'), ((p, d1), e1)) eqn:Eg. cbn [fst snd] in *.
      destruct Q as (v' & d' & e' & _ & _ & _ & [(_ & -> & Le & _)|(Hi & _ & _ & _ & _ & _ & M)]); [auto|].
      destruct M as [(-> & _)|[(_ & -> & Le)|(_ & M & _)]]; auto.
      * left. exists t'. apply W. auto.
      * right. left. destruct (Hk (Ih (conj Hx Hi))) as (k & Ek). exists k. split; auto. apply (Hs k x Ek). rewrite Eg. exact M.
    + intros [(t & M)|[(k & _ & Ek)|I]].
      * apply G in M. lia.
      * apply nth_error_In, In_hs in Ek. lia.
      * lia.
Qed.

Section Run.
Variables (g g' : shared) (source : bundle) (n reps : nat) (tree : list bundle) (ns : nat -> nat) (Ts : nat -> reports) (gs : nat -> shared)
  (f0 : nat -> nat * option (R * vec)).
Hypothesis C : consistent_tree surface_ops objs surfs me source n reps tree ns Ts g gs g'.
Hypothesis Clear : g_acc g id = mkAcc [] [].
Hypothesis Start : forall j, j < n -> fst (f0 j) < reps /\
  exists v d e, vert_at source j = Some v /\ dir_at source j = Some d /\ energy_at source j = Some e /\ state None v d e (fst (f0 j)) (snd (f0 j)).

Definition start (j : nat) : option nat * nat * option (R * vec) := (None, fst (f0 j), snd (f0 j)).

Lemma run : forall L prev, nth_error tree L = Some prev -> exists f ls, known reps L (Ts L) prev (ns L) f /\
  a_absorbed (g_acc (gs L) id) = map (map fst) (filter nonempty ls) /\ a_hits (g_acc (gs L) id) = map (map snd) (filter nonempty ls) /\
  Permutation (concat ls ++ todo f (ns L)) (todo start n).
Proof.
  pose proof Ans as (La & _).
  induction L as [|L IH]; intros prev Hp.
  { rewrite (ct_source _ _ _ _ _ _ _ _ _ _ _ _ _ C) in Hp. injection Hp as <-. exists start, [].
    rewrite (ct_source_n _ _ _ _ _ _ _ _ _ _ _ _ _ C), (ct_before _ _ _ _ _ _ _ _ _ _ _ _ _ C), Clear. split; [|split; [|split]]; auto.
    intros j Hj. cbn. destruct (Start j Hj) as (Lr & St). split; auto. split; auto. intros i Hi. split; auto. intros _.
    apply (ct_first _ _ _ _ _ _ _ _ _ _ _ _ _ C); auto. lia. }
  destruct (nth_error tree L) as [b|] eqn:Hb.
  2:{ apply nth_error_None in Hb. assert (S L < length tree) by (apply nth_error_Some; congruence). lia. }
  destruct (IH b eq_refl) as (f & ls & K & A1 & A2 & Pm). replace (S L) with (L + 1) in * by lia.
  destruct (ct_level _ _ _ _ _ _ _ _ _ _ _ _ _ C L b prev Hb Hp) as (tb & rc & m & ems & Rp & Em & Cc & Lo & Tp & Mp & Ch & Sp & Tr).
  destruct (known_takes _ _ _ _ _ _ _ Rp K) as (h & Tk). pose proof (takes_goes _ _ _ _ _ Tk) as G.
  assert (Np : exists j, j < ns L /\ fst (fst (h j)) < length surfs).
  { destruct (proj1 Ch 0 Mp) as (i & j & t & v & d & _ & Hj & M & _). exists j. apply G in M as (Hj' & Wi & Wl & _). split; auto. cbv beta in Wi. lia. }
  destruct (level_shuffled surfs b tb rc prev (Ts L) (ns L) m (ns (L + 1)) me _ _ ems _ _ (fun j => fst (fst (snd (h j)))) (fun j => snd (fst (snd (h j))))
    (fun j => snd (snd (h j))) Rp Em Cc Lo Tr Sp Np G) as (hs & Ph & Eh & Ln & Hs).
  { intros i (j0 & Hj0 & Wi & Hi).
    destruct (nth_lt surfs i Hi) as (s & Es). exists s, (Hit i), (Out i). split; auto. split; auto.
    intros j v d e d' e' Hj Wj V D E HH HO. specialize (Tk j Hj). destruct (f j) as ((q, k), o). destruct (h j) as ((i', t), ((p, d1), e1)). cbn in *. subst i'.
    destruct Tk as (v' & d0 & e0 & V' & D' & E' & [(Hl & _)|(_ & -> & _ & _ & _ & Ho & _)]); [lia|]. rewrite V in V'. rewrite D in D'. rewrite E in E'.
    assert (v' = v) by congruence. assert (d0 = d) by congruence. assert (e0 = e) by congruence. subst v' d0 e0. split; auto. }
  destruct (level_noted objs surfs b (ns L) (Ts L) tb i0 rs id ab _ ems _ La Rp Em Rs Racc Sole) as (l & Nt & X1 & X2).
  pose proof (takes_split _ _ _ _ _ _ _ _ Tk Nt Ph Hs) as Sl.
  exists (fun k => let j := nth k hs 0 in (Some (fst (fst (h j))), pred (snd (fst (f j))), snd (f j))), (ls ++ [l]).
  split; [|split; [|split]].
  - intros k Hk. cbv zeta.
    destruct (nth_lt hs k) as (j & Ej); [lia|]. rewrite (nth_error_nth _ _ _ Ej).
    assert (Hj : j < ns L). { apply nth_error_In in Ej. rewrite Ph in Ej. apply filter_In in Ej as (Ej & _). apply in_seq in Ej. lia. }
    destruct (emits_nth _ _ _ _ _ _ _ Eh Ej) as (V & D & E & Pa). apply (Hs k j Ej) in Hk as Hm. specialize (K j Hj).
    pose proof (Tk j Hj) as Q. destruct (f j) as ((q, k0), o). destruct K as (Lk & _).
    destruct (ct_owned _ _ _ _ _ _ _ _ _ _ _ _ _ C L prev Hp k Hk) as (i & p & t & oi & owns & next & r & Pa' & Mf & Eb & Nx).
    rewrite Pa in Pa'. assert (p = j) by congruence. subst p. clear Pa'. apply G in Mf as (_ & Wi & Wl & _).
    destruct (h j) as ((i', t'), ((p, d1), e1)). cbn [fst snd] in *. subst i'.
    destruct Q as (v & d & e & _ & _ & _ & [(Hl & _)|(_ & _ & _ & _ & _ & _ & M)]); [lia|].
    destruct M as [(_ & _ & M)|[(_ & _ & M)|(_ & _ & k1 & -> & M)]]; [lra|lra|]. cbn [pred].
    split; [lia|]. split.
    + intros i' Hi'. rewrite Nx by (auto; lia). apply (Asks i oi owns next prev k r Eb); auto.
    + exists p, d1, e1. auto.
  - rewrite X1, A1, filter_app, map_app. reflexivity.
  - rewrite X2, A2, filter_app, map_app. reflexivity.
  - rewrite <- Pm. rewrite concat_app. cbn [concat]. rewrite app_nil_r, <- app_assoc. apply Permutation_app_head. rewrite Sl. apply Permutation_app_head.
    unfold todo. cbn [snd].
    rewrite <- (taken_map (fun j => snd (f j)) (fun k => nth k hs 0)).
    replace (map (fun k => nth k hs 0) (seq 0 (ns (L + 1)))) with (firstn (ns (L + 1)) hs); auto.
    assert (Hl : ns (L + 1) <= length hs) by lia. clear - Hl. revert Hl. generalize (ns (L + 1)) as k. induction hs as [|a hs IH]; intros [|k] Hk; auto; cbn in Hk; [lia|].
    cbn [firstn map seq nth]. f_equal. rewrite <- seq_shift, map_map. apply IH. lia.
Qed.

Lemma run_end L prev : nth_error tree L = Some prev -> nth_error tree (L + 1) = None -> (1 <= reps)%nat -> L <= reps -> exists f ls,
  (L = reps -> ns L = 0) /\ todo f (ns L) = [] /\
  a_absorbed (g_acc (gs L) id) = map (map fst) (filter nonempty ls) /\ a_hits (g_acc (gs L) id) = map (map snd) (filter nonempty ls) /\
  Permutation (concat ls ++ todo f (ns L)) (todo start n).
Proof.
  intros Hp Hn Hr Lr. destruct (run L prev Hp) as (f & ls & K & A1 & A2 & Pm). exists f, ls. split; [|split]; auto.
  - intros ->. destruct (Nat.eq_dec (ns reps) 0) as [|Nz]; auto. exfalso. specialize (K 0 ltac:(lia)). destruct (f 0) as ((q, k), o). lia.
  - destruct (Nat.eq_dec (ns L) 0) as [->|Nz]; auto.
    assert (L < reps). { specialize (K 0 ltac:(lia)). destruct (f 0) as ((q, k), o). lia. }
    destruct (ct_end _ _ _ _ _ _ _ _ _ _ _ _ _ C L prev Hp Hn) as (tb & Rp & No); auto; [right; lia|].
    destruct (known_takes _ _ _ _ _ _ _ Rp K) as (h & Tk). pose proof (takes_goes _ _ _ _ _ Tk) as G.
    unfold todo. apply taken_none. intros j Ij. apply in_seq in Ij. specialize (Tk j ltac:(lia)).
    pose proof (No (fst (fst (h j))) j (snd (fst (h j)))) as N. rewrite (G _ _ _) in N. cbv beta in N.
    destruct (f j) as ((q, k), o). destruct (h j) as ((i, t), ((p, d1), e1)). cbn in *.
    destruct Tk as (v & d & e & _ & _ & _ & [(_ & -> & _)|(Hi & _)]); auto. exfalso. apply N. repeat split; auto. lia.
Qed.
End Run.

Lemma fates g source n reps (f0 : nat -> nat * option (R * vec)) : library_source source n -> 1 <= reps -> g_acc g id = mkAcc [] [] ->
  knows_media surfs source ->
  (forall j, j < n -> fst (f0 j) < reps /\ exists v d e, vert_at source j = Some v /\ dir_at source j = Some d /\ energy_at source j = Some e /\
     state None v d e (fst (f0 j)) (snd (f0 j))) ->
  exists st es hs, ray_tracer surface_ops objs surfs g source reps me TreeTrue = Ok ([], [], st) /\
    get_all_hits (g_acc (t_g st) id) = Ok (es, hs) /\ length es = length hs /\
    Permutation (combine es hs) (taken (fun j => snd (f0 j)) (seq 0 n)).
Proof.
  intros Ls Hr Cl Md St.
  destruct (tracing_answers objs surfs Ans g source n reps me TreeTrue Ls Md) as (vs & ds & st & E); [left; lia|].
  pose proof Ans as (La & _).
  destruct (library_trace objs surfs me La g source n reps vs ds st Ls E)
    as (ns & Ts & gs & C & _ & Lt & Ev & Ed & Tb & _ & Full & Short & _).
  pose proof (ct_source _ _ _ _ _ _ _ _ _ _ _ _ _ C) as T0. pose proof (ct_after _ _ _ _ _ _ _ _ _ _ _ _ _ C) as Ta.
  assert (Lp : 0 < length (t_tree st)) by (apply nth_error_Some; congruence).
  destruct (nth_lt (t_tree st) (length (t_tree st) - 1)) as (lst & El); [lia|].
  assert (En : nth_error (t_tree st) (length (t_tree st) - 1 + 1) = None) by (apply nth_error_None; lia).
  destruct (run_end _ _ _ _ _ _ _ _ _ _ C Cl St _ _ El En Hr ltac:(lia)) as (f & ls & N0 & Td & A1 & A2 & Pm).
  assert (Vn : vs = []).
  { destruct (Nat.eq_dec (length (t_tree st)) (reps + 1)) as [Eq|Eq]; [|apply Short; lia].
    replace (length (t_tree st) - 1) with reps in * by lia. destruct (Full Eq lst El) as (Lv & _). rewrite N0 in Lv by auto. destruct vs; [auto|discriminate]. }
  assert (Dn : ds = []).
  { destruct Tb as (_ & (_ & Rr) & _). specialize (Rr Directions). cbn in Rr. rewrite Ed in Rr. cbn in Rr. specialize (Rr _ eq_refl).
    rewrite map_length in Rr. subst vs. destruct ds; [auto|discriminate]. }
  subst vs ds. rewrite Ta in A1, A2. rewrite Td, app_nil_r in Pm. unfold todo, start in Pm. cbn [snd] in Pm.
  exists st, (map fst (concat ls)), (map snd (concat ls)). split; auto. split.
  { rewrite <- hits_concat. f_equal. destruct (g_acc (t_g st) id) as [a h]. cbn in A1, A2. congruence. }
  split; [rewrite !map_length; auto|].
  assert (Cb : combine (map fst (concat ls)) (map snd (concat ls)) = concat ls).
  { generalize (concat ls) as l. clear. induction l as [|[a b] l IH]; auto. cbn. f_equal. auto. }
  rewrite Cb. exact Pm.
Qed.
End Fate.
