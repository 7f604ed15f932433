(** Traces in which it is known of every ray which surface it meets first. *)
From Coq Require Import Reals String List Arith Bool Lia Lra Sorted.
From Verif.Base Require Import Py Num Vec.
From Verif.Model Require Import RayBundle Geometry TraceTree OpticsCallables Engine Objects Surface.
From Verif.Proof Require Import ListLemmas BundleProof ProcessProof CallProof SurfaceProof LibraryTop ObjectProof.
From Verif.Spec Require Import BundleSpec EngineSpec GeometrySpec GeomIface OpticsSpec LibrarySpec ModelSpec.
Import ListNotations.

(** Strictly increasing lists are determined by their members. *)
Lemma sorted_same : forall l l', StronglySorted lt l -> StronglySorted lt l' -> (forall x, In x l <-> In x l') -> l = l'.
Proof.
  induction l as [|a l IH]; intros [|c l'] S S' M; auto.
  - exfalso. apply (M c). left; auto.
  - exfalso. apply (M a). left; auto.
  - inversion S as [|? ? S1 F1]; subst. inversion S' as [|? ? S2 F2]; subst. rewrite Forall_forall in F1, F2.
    assert (a = c).
    { destruct (proj1 (M a) (or_introl eq_refl)) as [->|I]; auto.
      destruct (proj2 (M c) (or_introl eq_refl)) as [->|I']; auto. apply F1 in I'. apply F2 in I. lia. }
    subst c. f_equal. apply IH; auto. intros x. split; intros I.
    + destruct (proj1 (M x) (or_intror I)) as [->|]; auto. apply F1 in I. lia.
    + destruct (proj2 (M x) (or_intror I)) as [->|]; auto. apply F2 in I. lia.
Qed.

(** ** What one surface sends on *)

Definition emits (pt dd : nat -> vec) (ee : nat -> R) (hits : list nat) (o : bundle) : Prop :=
  b_vert o = Some (map pt hits) /\ b_dir o = Some (map dd hits) /\ b_energy o = Some (map ee hits) /\ b_parents o = Some hits.

Lemma col_map {A} (c : list A) (f : nat -> A) (hits : list nat) : length c = length hits ->
  (forall k j, nth_error hits k = Some j -> nth_error c k = Some (f j)) -> c = map f hits.
Proof.
  intros L H. apply nth_error_ext. intros k. rewrite nth_error_map. destruct (nth_error hits k) as [j|] eqn:E.
  - cbn. apply H; auto.
  - cbn. apply nth_error_None. rewrite L. apply nth_error_None. auto.
Qed.

Lemma prop_vert o l : prop o Vertices = Some (map PVec l) -> b_vert o = Some l.
Proof.
  cbn. destruct (b_vert o) as [m|]; cbn; [|discriminate]. intros H. injection H as H. f_equal. revert l H.
  induction m; intros [|y l] H; try discriminate; auto. injection H as -> H. f_equal; auto.
Qed.

Lemma emission_emits tb n T i s hits h o h' Hit Out pt dd ee len : traceable tb n ->
  emission surface_ops tb n T i s hits h o h' -> acts s Hit Out ->
  (forall j, In j hits -> T i j = Some (Fin (len j))) ->
  (forall j v d e d' e', In j hits -> vert_at tb j = Some v -> dir_at tb j = Some d -> energy_at tb j = Some e ->
     Hit v d (Fin (len j)) -> Out (ray_at v d (len j)) d e d' e' -> ray_at v d (len j) = pt j /\ d' = dd j /\ e' = ee j) ->
  emits pt dd ee hits o.
Proof.
  intros Tb (sub & ps & s1 & idx & s2 & o0 & q & q' & Nm & Hsub & Rg & Hps & Hidx & Sl & Og & Po & Eq & Eq' & Pq) Ac Hh Ho.
  cbn [surface_ops register_incoming select_rays get_outgoing] in *.
  pose proof (picked_traceable tb _ sub n Tb Nm Hsub) as Tsub.
  destruct (Ac sub _ Tsub) as (s1' & ps' & Rg' & Lps & HH & HS). rewrite Rg in Rg'. injection Rg' as <- <-.
  assert (Lh : length hits = length idx) by (eapply picks_length; eauto).
  assert (Hj : forall k i0 j, nth_error idx k = Some i0 -> nth_error hits k = Some j -> nth_error (asked T n i) i0 = Some j).
  { intros k i0 j. apply (Forall2_at _ _ _ k i0 j Hidx). }
  assert (Hp : forall i0 j t, nth_error (asked T n i) i0 = Some j -> T i j = Some (Fin t) -> nth_error ps i0 = Some (Fin t)).
  { intros i0 j t A B. destruct (nth_error ps i0) as [x|] eqn:Ex.
    - pose proof (Forall2_at _ _ _ _ _ _ Hps A Ex). congruence.
    - apply nth_error_None in Ex. rewrite Lps in Ex.
      assert (i0 < length (asked T n i)) by (apply nth_error_Some; congruence). lia. }
  assert (Ah : all_hit ps idx).
  { intros i0 Hi. apply In_nth_error in Hi as (k & Hk). destruct (nth_lt hits k) as (j & Ej).
    { rewrite Lh. apply nth_error_Some. congruence. }
    exists (len j). apply (Hp i0 j (len j)); eauto. apply Hh. eapply nth_error_In; eauto. }
  destruct (HS idx h Ah) as (s2' & o1 & h1 & Sl' & Og' & To & Ch). rewrite Sl in Sl'. injection Sl' as <-.
  rewrite Og in Og'. injection Og' as <- _.
  destruct (traceable_parts _ _ To) as (vs & ds & es & Ev & Ed & Ee & Lv & Ld & Le).
  assert (K : forall k j, nth_error hits k = Some j -> exists i0, nth_error idx k = Some i0 /\
    nth_error vs k = Some (pt j) /\ nth_error ds k = Some (dd j) /\ nth_error es k = Some (ee j) /\
    nth_error q k = Some i0).
  { intros k j Ej. destruct (nth_lt idx k) as (i0 & Ei). { rewrite <- Lh. apply nth_error_Some. congruence. }
    exists i0. split; auto. pose proof (Hj _ _ _ Ei Ej) as Ha. pose proof (nth_error_In _ _ Ej) as Ij.
    pose proof (Hp _ _ _ Ha (Hh j Ij)) as Ep. pose proof (picked_same _ _ _ _ _ Hsub Ha) as Sm.
    assert (La : i0 < length (asked T n i)) by (apply nth_error_Some; congruence).
    destruct (traceable_parts _ _ Tsub) as (vs1 & ds1 & es1 & Ev1 & Ed1 & Ee1 & Lv1 & Ld1 & Le1).
    destruct (nth_lt vs1 i0 ltac:(lia)) as (v & Xv). destruct (nth_lt ds1 i0 ltac:(lia)) as (d & Xd). destruct (nth_lt es1 i0 ltac:(lia)) as (e & Xe).
    assert (V : vert_at sub i0 = Some v) by (unfold vert_at, at_col; rewrite Ev1; auto).
    assert (D : dir_at sub i0 = Some d) by (unfold dir_at, at_col; rewrite Ed1; auto).
    assert (E : energy_at sub i0 = Some e) by (unfold energy_at, at_col; rewrite Ee1; auto).
    destruct (Ch k i0 v d e (len j) Ei V D E Ep) as (d' & e' & HO & C).
    destruct (Ho j v d e d' e' Ij) as (P1 & P2 & P3); auto.
    { rewrite <- (same_ray_vert _ _ _ _ Sm); auto. }
    { rewrite <- (same_ray_dir _ _ _ _ Sm); auto. }
    { rewrite <- (same_ray_energy _ _ _ _ Sm); auto. }
    { eapply HH; eauto. }
    pose proof (ch_vert _ _ _ _ _ _ _ _ C) as Cv. pose proof (ch_dir _ _ _ _ _ _ _ _ C) as Cd.
    pose proof (ch_energy _ _ _ _ _ _ _ _ C) as Ce. pose proof (ch_parent _ _ _ _ _ _ _ _ C) as Cp.
    unfold vert_at, dir_at, energy_at, parent_at, at_col in *. rewrite Ev in Cv. rewrite Ed in Cd. rewrite Ee in Ce. rewrite Eq in Cp.
    subst d' e'. rewrite <- P1. auto. }
  assert (Lq : length q = length idx).
  { destruct To as (_ & (_ & Ra) & _). specialize (Ra Parents). cbn in Ra. rewrite Eq in Ra. cbn in Ra. specialize (Ra _ eq_refl).
    rewrite map_length in Ra. auto. }
  unfold emits. split; [|split; [|split]].
  - assert (Q : prop o Vertices = prop o0 Vertices) by (apply Po; discriminate). cbn in Q. rewrite Ev in Q.
    rewrite <- (col_map vs pt hits) by (try congruence; intros k j Hk; destruct (K k j Hk) as (i0 & _ & X & _); auto). apply prop_vert. exact Q.
  - assert (Q : prop o Directions = prop o0 Directions) by (apply Po; discriminate). cbn in Q. rewrite Ed in Q.
    rewrite <- (col_map ds dd hits) by (try congruence; intros k j Hk; destruct (K k j Hk) as (i0 & _ & _ & X & _); auto).
    destruct (b_dir o) as [m|]; cbn in Q; [|discriminate]. injection Q as Q. f_equal. clear - Q. revert ds Q.
    induction m; intros [|y l] H; try discriminate; auto. injection H as -> H. f_equal; auto.
  - assert (Q : prop o Energy = prop o0 Energy) by (apply Po; discriminate). cbn in Q. rewrite Ee in Q.
    rewrite <- (col_map es ee hits) by (try congruence; intros k j Hk; destruct (K k j Hk) as (i0 & _ & _ & _ & X & _); auto).
    destruct (b_energy o) as [m|]; cbn in Q; [|discriminate]. injection Q as Q. f_equal. clear - Q. revert es Q.
    induction m; intros [|y l] H; try discriminate; auto. injection H as -> H. f_equal; auto.
  - rewrite Eq'. f_equal. rewrite <- (map_id hits). apply col_map.
    + rewrite (picks_length _ _ _ Pq). congruence.
    + intros k j Hk. destruct (K k j Hk) as (i0 & Ei & _ & _ & _ & Xq). pose proof (Hj _ _ _ Ei Hk) as Ha.
      destruct (nth_lt q' k) as (x & Ex). { rewrite (picks_length _ _ _ Pq), Lq. apply nth_error_Some. congruence. }
      pose proof (Forall2_at _ _ _ _ _ _ Pq Xq Ex) as Hx. cbv beta in Hx. congruence.
Qed.

Lemma concat_prop_all {A} (get : bundle -> option (list A)) (f : nat -> A) : forall os hss, os <> [] ->
  Forall2 (fun hits o => get o = Some (map f hits)) hss os -> concat_prop get os = Ok (Some (map f (concat hss))).
Proof.
  intros os hss Ne F.
  assert (M : mapM (fun c => get_prop (get c) SAll) os = Ok (map (map f) hss)).
  { clear Ne. induction F as [|hits o hss os Ho F IH]; [reflexivity|]. rewrite mapM_cons. unfold get_prop at 1. rewrite Ho. cbn [select bind].
    rewrite IH. reflexivity. }
  unfold concat_prop. destruct os as [|o os]; [congruence|]. inversion F as [|hits ? ? ? Ho]; subst. rewrite Ho, M. cbn [bind].
  rewrite concat_map. reflexivity.
Qed.

Lemma concat_emits pt dd ee hss os rc : os <> [] -> Forall2 (emits pt dd ee) hss os -> concatenate_rays os = Ok rc ->
  emits pt dd ee (concat hss) rc.
Proof.
  intros Ne F E. unfold concatenate_rays in E. destruct os as [|o os]; [congruence|].
  rewrite (concat_prop_all b_vert pt (o :: os) hss) in E; [|auto|eapply Forall2_impl; [|exact F]; unfold emits; tauto].
  rewrite (concat_prop_all b_dir dd (o :: os) hss) in E; [|auto|eapply Forall2_impl; [|exact F]; unfold emits; tauto].
  rewrite (concat_prop_all b_energy ee (o :: os) hss) in E; [|auto|eapply Forall2_impl; [|exact F]; unfold emits; tauto].
  rewrite (concat_prop_all b_parents (fun j => j) (o :: os) hss) in E; [|auto|eapply Forall2_impl; [|exact F]].
  2:{ intros a c (_ & _ & _ & H). rewrite map_id. auto. }
  cbn [bind] in E. rewrite map_id in E. apply bind_ok in E as (rf & _ & E). apply bind_ok in E as (x & _ & E). injection E as <-.
  unfold emits. cbn. auto.
Qed.

Lemma concat_in_turn : forall (hss : list (list nat)) is (who : nat -> nat), StronglySorted lt is ->
  Forall2 (fun i hits => StronglySorted lt hits /\ forall j, In j hits -> who j = i) is hss ->
  (forall j j', In j (concat hss) -> In j' (concat hss) -> who j < who j' -> j < j') -> StronglySorted lt (concat hss).
Proof.
  assert (Ap : forall l l', StronglySorted lt l -> StronglySorted lt l' -> (forall x y, In x l -> In y l' -> x < y) -> StronglySorted lt (l ++ l')).
  { induction l as [|a l IH]; intros l' S S' H; auto. inversion S as [|? ? S1 F]; subst. cbn. constructor.
    - apply IH; auto. intros; apply H; auto. right; auto.
    - apply Forall_app. split; auto. apply Forall_forall. intros y Iy. apply H; auto. left; auto. }
  intros hss is who S F M. induction F as [|i hits is hss (Sh & Wh) F IH]; [constructor|]. inversion S as [|? ? S1 Fi]; subst. cbn in *.
  apply Ap; auto.
  - apply IH; auto. intros j j' I I'. apply M; apply in_or_app; auto.
  - intros x y Ix Iy. apply M; try (apply in_or_app; auto). rewrite (Wh x Ix). rewrite Forall_forall in Fi.
    apply in_concat in Iy as (hits' & Ih & Iy). apply In_nth_error in Ih as (k & Ek).
    assert (Lk : length is = length hss) by (eapply Forall2_length; eauto).
    destruct (nth_lt is k) as (i' & Ei). { rewrite Lk. apply nth_error_Some. congruence. }
    pose proof (Forall2_at _ _ _ _ _ _ F Ei Ek) as (_ & W). rewrite (W y Iy). apply Fi. eapply nth_error_In; eauto.
Qed.

(** ** One level *)

(** Ray [j] of [prev] meets surface [who j] first, at the parameter [len j]. *)
Definition goes_to (T : reports) (nsurf n : nat) (who : nat -> nat) (len : nat -> R) : Prop :=
  forall i j t, meets_first T nsurf n i j t <-> j < n /\ i = who j /\ t = len j.

Section Level.
Variables (surfs : list surface) (prev tb rc lvl : bundle) (T : reports) (n m ns' : nat) (me : R) (g g' : shared)
  (ems : list (nat * bundle)) (who : nat -> nat) (len : nat -> R) (pt dd : nat -> vec) (ee : nat -> R).
Hypothesis Rp : reported surface_ops surfs prev n T tb.
Hypothesis Em : emissions surface_ops surfs tb n T g ems g'.
Hypothesis Cc : concatenate_rays (map snd ems) = Ok rc.
Hypothesis Lo : level_order rc m me lvl ns'.
Hypothesis Tl : traceable rc m.
Hypothesis Pos : 0 < n.
Hypothesis W : goes_to T (length surfs) n who len.
Hypothesis Mono : forall j j', j < n -> j' < n -> who j < who j' -> j < j'.
Hypothesis Act : forall i, (exists j, j < n /\ who j = i) -> exists s Hit Out, nth_error surfs i = Some s /\ acts s Hit Out /\
  forall j v d e d' e', j < n -> who j = i -> vert_at prev j = Some v -> dir_at prev j = Some d -> energy_at prev j = Some e ->
    Hit v d (Fin (len j)) -> Out (ray_at v d (len j)) d e d' e' -> ray_at v d (len j) = pt j /\ d' = dd j /\ e' = ee j.

Lemma tb_same j : j < n -> same_ray tb j prev j.
Proof.
  intros Hj. destruct Rp as (_ & P & _). eapply picked_same; [exact P|]. rewrite nth_error_nth' with (d := 0) by (rewrite seq_length; auto).
  rewrite seq_nth; auto.
Qed.

Lemma level_gathered : exists hss, Forall2 (fun i hits => StronglySorted lt hits /\ forall j, In j hits <-> j < n /\ who j = i) (map fst ems) hss /\
  (forall j, In j (concat hss) <-> j < n) /\ emits pt dd ee (concat hss) rc.
Proof.
  destruct Em as (So & Ei & Tn).
  assert (X : forall l h h', incl (map fst l) (map fst ems) -> in_turn (fun io h h' => exists s hits, nth_error surfs (fst io) = Some s /\ StronglySorted lt hits /\
    (forall j, In j hits <-> exists t, meets_first T (length surfs) n (fst io) j t) /\
    emission surface_ops tb n T (fst io) s hits h (snd io) h') l h h' ->
    exists hss, Forall2 (fun i hits => StronglySorted lt hits /\ forall j, In j hits <-> j < n /\ who j = i) (map fst l) hss /\
      Forall2 (emits pt dd ee) hss (map snd l)).
  { intros l h h' Ic H. revert Ic. induction H as [|[i o] l g0 g1 g2 (s & hits & Es & Sh & Mh & E) Tn' IH]; intros Ic; [exists []; split; constructor|].
    cbn [fst snd map] in *. destruct IH as (hss & F1 & F2); [intros x Ix; apply Ic; right; auto|].
    assert (Mh' : forall j, In j hits <-> j < n /\ who j = i).
    { intros j. rewrite Mh. split.
      - intros (t & Ht). apply W in Ht. intuition.
      - intros (Hj & <-). exists (len j). apply W. auto. }
    exists (hits :: hss). split; constructor; auto.
    assert (Q : exists j, j < n /\ who j = i).
    { destruct (proj1 (Ei i) (Ic i (or_introl eq_refl))) as (j & t & Ht). apply W in Ht as (Hj & Hi & _). eauto. }
    destruct (Act i Q) as (s' & Hit & Out & Es' & Ac & Ho). rewrite Es in Es'. injection Es' as <-.
    eapply emission_emits; [apply Rp|exact E|exact Ac| |].
    - intros j Ij. apply Mh in Ij as (t & Ht). pose proof (proj1 (W _ _ _) Ht) as (_ & _ & ->). apply Ht.
    - intros j v d e d' e' Ij V D En. apply Mh' in Ij as (Hj & Wj). pose proof (tb_same j Hj) as Sm. apply Ho; auto.
      + rewrite <- (same_ray_vert _ _ _ _ Sm); auto.
      + rewrite <- (same_ray_dir _ _ _ _ Sm); auto.
      + rewrite <- (same_ray_energy _ _ _ _ Sm); auto. }
  destruct (X ems g g' (incl_refl _) Tn) as (hss & F1 & F2).
  assert (Mem : forall j, In j (concat hss) <-> j < n).
  { intros j. rewrite in_concat. split.
    - intros (hits & Ih & Ij). apply In_nth_error in Ih as (k & Ek).
      destruct (nth_lt (map fst ems) k) as (i & Eik). { rewrite (Forall2_length _ _ _ F1). apply nth_error_Some. congruence. }
      pose proof (Forall2_at _ _ _ _ _ _ F1 Eik Ek) as (_ & M). apply M in Ij. tauto.
    - intros Hj. assert (I : In (who j) (map fst ems)) by (apply Ei; exists j, (len j); apply W; auto).
      apply In_nth_error in I as (k & Ek). destruct (nth_lt hss k) as (hits & Eh). { rewrite <- (Forall2_length _ _ _ F1). apply nth_error_Some. congruence. }
      exists hits. split; [eapply nth_error_In; eauto|]. apply (Forall2_at _ _ _ _ _ _ F1 Ek Eh). auto. }
  exists hss. split; auto. split; auto. eapply concat_emits; eauto.
  intros E. destruct ems as [|io l]; [|discriminate]. apply (proj2 (Ei (who 0))). exists 0, (len 0). apply W. auto.
Qed.

Lemma level_emits : emits pt dd ee (seq 0 n) rc.
Proof.
  destruct level_gathered as (hss & F1 & Mem & G).
  assert (Es : concat hss = seq 0 n).
  { apply sorted_same.
    - apply concat_in_turn with (map fst ems) who; auto; [apply Em|..].
      + eapply Forall2_impl; [|exact F1]. cbv beta. intros i hits (Sh & M). split; auto. intros j Ij. apply M in Ij. tauto.
      + intros j j' I I'. apply Mem in I, I'. apply Mono; auto.
    - apply seq_sorted.
    - intros x. rewrite Mem, in_seq. lia. }
  rewrite <- Es. exact G.
Qed.

Lemma picks_seq_map {A} (f : nat -> A) k l : picks (map f (seq 0 k)) (seq 0 k) l -> l = map f (seq 0 k).
Proof.
  intros P. apply col_map; [apply (picks_length _ _ _ P)|]. intros i j E. destruct (nth_lt l i) as (x & Ex).
  { rewrite (picks_length _ _ _ P). apply nth_error_Some. congruence. }
  pose proof (Forall2_at _ _ _ _ _ _ P E Ex) as Q. cbv beta in Q. rewrite nth_error_map in Q.
  assert (I : In j (seq 0 k)) by (eapply nth_error_In; eauto). apply in_seq in I.
  rewrite nth_error_nth' with (d := 0) in Q by (rewrite seq_length; lia). rewrite seq_nth in Q by lia. cbn in Q. congruence.
Qed.

Lemma picked_emits k : emits pt dd ee (seq 0 k) rc -> rays_picked rc (seq 0 k) lvl -> emits pt dd ee (seq 0 k) lvl.
Proof.
  intros (A & B & C & D) P. unfold emits.
  pose proof (P Vertices) as P1. pose proof (P Directions) as P2. pose proof (P Energy) as P3. pose proof (P Parents) as P4. cbn in *.
  rewrite A in P1. rewrite B in P2. rewrite C in P3. rewrite D in P4. cbn in *.
  destruct P1 as (l1 & E1 & Q1). destruct P2 as (l2 & E2 & Q2). destruct P3 as (l3 & E3 & Q3). destruct P4 as (l4 & E4 & Q4).
  rewrite map_map in Q1, Q2, Q3. apply picks_seq_map in Q1, Q2, Q3, Q4. subst.
  assert (Inj : forall A B (f : A -> B) l m, (forall x y, f x = f y -> x = y) -> map f l = map f m -> l = m).
  { clear. intros A B f l. induction l; intros [|y m] H E; try discriminate; auto. injection E as E1 E2. f_equal; auto. }
  rewrite <- map_map with (g := PVec) in E1. rewrite <- map_map with (g := PVec) in E2. rewrite <- map_map with (g := PReal) in E3.
  split; [|split; [|split]].
  - destruct (b_vert lvl) as [l|]; [|discriminate]. injection E1 as E1. f_equal. eapply Inj; [|exact E1]. congruence.
  - destruct (b_dir lvl) as [l|]; [|discriminate]. injection E2 as E2. f_equal. eapply Inj; [|exact E2]. congruence.
  - destruct (b_energy lvl) as [l|]; [|discriminate]. injection E3 as E3. f_equal. eapply Inj; [|exact E3]. congruence.
  - destruct (b_parents lvl) as [l|]; [|discriminate]. injection E4 as E4. f_equal. eapply Inj; [|exact E4]. congruence.
Qed.

Lemma rc_energy k : k < n -> energy_at rc k = Some (ee k).
Proof.
  intros Hk. destruct level_emits as (_ & _ & E & _). unfold energy_at, at_col. rewrite E, nth_error_map.
  rewrite nth_error_nth' with (d := 0) by (rewrite seq_length; auto). rewrite seq_nth; auto.
Qed.
Lemma rc_count : m = n.
Proof.
  destruct level_emits as (E & _). destruct Tl as (_ & (_ & R) & _). specialize (R Vertices). cbn in R. rewrite E in R. cbn in R.
  specialize (R _ eq_refl). rewrite !map_length, seq_length in R. auto.
Qed.

(** All go on, or none does. *)
Lemma level_strong : (forall j, j < n -> (me < ee j)%R) -> ns' = n /\ emits pt dd ee (seq 0 n) lvl.
Proof.
  intros St. destruct Lo as (strong & weak & Ls & P & S1 & S2 & O1 & O2). rewrite rc_count in *.
  assert (weak = []).
  { destruct weak as [|k l]; auto. exfalso. destruct (proj1 (S2 k) (or_introl eq_refl)) as (Hk & e & Ee & He).
    rewrite rc_energy in Ee by auto. injection Ee as <-. specialize (St k Hk). lra. }
  subst weak. assert (strong = seq 0 n).
  { apply sorted_same; auto; [apply seq_sorted|]. intros k. rewrite S1, in_seq. split; [lia|]. intros (_ & Hk). split; [lia|].
    exists (ee k). split; [apply rc_energy; lia|apply St; lia]. }
  subst strong. rewrite app_nil_r in P. rewrite seq_length in Ls. split; auto. apply picked_emits; auto. apply level_emits.
Qed.
Lemma level_weak : (forall j, j < n -> (ee j <= me)%R) -> ns' = 0 /\ emits pt dd ee (seq 0 n) lvl.
Proof.
  intros St. destruct Lo as (strong & weak & Ls & P & S1 & S2 & O1 & O2). rewrite rc_count in *.
  assert (strong = []).
  { destruct strong as [|k l]; auto. exfalso. destruct (proj1 (S1 k) (or_introl eq_refl)) as (Hk & e & Ee & He).
    rewrite rc_energy in Ee by auto. injection Ee as <-. specialize (St k Hk). lra. }
  subst strong. assert (weak = seq 0 n).
  { apply sorted_same; auto; [apply seq_sorted|]. intros k. rewrite S2, in_seq. split; [lia|]. intros (_ & Hk). split; [lia|].
    exists (ee k). split; [apply rc_energy; lia|apply St; lia]. }
  subst weak. split; auto. apply picked_emits; auto. apply level_emits.
Qed.
End Level.
