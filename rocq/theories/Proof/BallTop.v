(** Traces in a mirror ball. *)
From Coq Require Import Reals List Arith Bool Lra Lia.
From Verif.Base Require Import Py Num Vec.
From Verif.Model Require Import RayBundle Boundary Geometry TraceTree Sources OpticsCallables Engine Objects Surface.
From Verif.Proof Require Import ListLemmas NumLemmas VecLemmas ProcessProof EngineMore TraceProof EngineTop TraceTop LibraryTop AccountProof LedgerProof LawProof SymmetryProof BackProof FoundProof BallProof.
From Verif.Spec Require Import BundleSpec EngineSpec GeometrySpec GeomIface OpticsSpec LibrarySpec AccountSpec LawSpec BackSpec SightSpec FoundSpec BallSpec.
Import ListNotations.
Local Open Scope R_scope.

Section Ball.
Variables (objs : list obj) (s : surface) (r a me : R) (g : shared) (b : bundle) (n reps : nat) (vs ds : list vec) (st : tstate surface shared).
Hypothesis (La : library_assembly objs [s]) (Df : forall ob, In ob objs -> exists k, ob = default_object k) (Ms : mirror_ball r a s).
Hypothesis (Ls : library_source b n) (Fg : fair (g_rng g)).
Hypothesis Tr : ray_tracer surface_ops objs [s] g b reps me TreeTrue = Ok (vs, ds, st).

Lemma ball_lib : lib_surface s.
Proof. apply La. left. reflexivity. Qed.

Lemma one_child : forall L k k' j, descends (t_tree st) L k j -> descends (t_tree st) L k' j -> k' = k.
Proof.
  destruct (laws_top objs [s] La me g b n Ls Fg reps vs ds st Tr) as (ns & Ts & _ & _ & H).
  destruct (bounded_trace objs [s] La me g b n Ls reps vs ds st Tr) as (_ & _ & B3 & _).
  induction L as [|L IH]; intros k k' j D D'.
  - inversion D; [|lia]. inversion D'; [|lia]. congruence.
  - inversion D as [|L1 lvl k1 p j1 A1 A2 A3 Q1]; [assert (L1 = L) by lia]. inversion D' as [|L2 lvl2 k2 p2 j2 B1 B2 B4 Q2]; [assert (L2 = L) by lia]. subst L1 L2. subst k1 j1 k2 j2.
    assert (lvl2 = lvl) by congruence. subst lvl2. assert (p2 = p) by (eapply IH; eauto). subst p2.
    destruct (nth_lt (t_tree st) L) as (prev & Hp). { assert (L + 1 < length (t_tree st))%nat by (apply nth_error_Some; congruence). lia. }
    destruct (H L prev lvl Hp A1) as (N & via & thr & A & _ & B). destruct (B3 (L + 1)%nat lvl ltac:(lia) A1) as (m & Tm & _).
    assert (K : forall k, parent_at lvl k = Some p -> via k = O /\ thr k = false).
    { intros i Hi. destruct (parent_vert lvl m i p Tm Hi) as (x & Hx).
      destruct (A i x Hx) as (s0 & j0 & t & Es & _ & (v1 & d1 & e1 & q & g1 & d2 & e2 & Mk)).
      assert (via i = O /\ s0 = s) as (Ev & ->).
      { destruct (via i) as [|[|w]]; cbn in Es; try discriminate. split; congruence. }
      split; [exact Ev|]. destruct Mk as (_ & _ & _ & _ & _ & _ & _ & _ & _ & _ & F & _).
      destruct Ms as (_ & _ & [Eo|(id & Eo)]); rewrite Eo in F; cbn [follows] in F; apply F. }
    destruct (K k A2), (K k' B2). eapply B; eauto; congruence.
Qed.

Lemma ball_path : forall j v d e, vert_at b j = Some v -> dir_at b j = Some d -> energy_at b j = Some e -> in_ball (centre s) r v d ->
  exists P D, chords (centre s) r v d P D /\ forall L, (1 <= L <= reps)%nat -> ((2 <= L)%nat -> me < e * (1 - a) ^ (L - 1)) ->
  exists lvl k, nth_error (t_tree st) L = Some lvl /\ descends (t_tree st) L k j /\ (forall k', descends (t_tree st) L k' j -> k' = k) /\
    vert_at lvl k = Some (P L) /\ dir_at lvl k = Some (D L) /\ energy_at lvl k = Some (e * (1 - a) ^ L) /\ ref_at lvl k = ref_at b j.
Proof.
  intros j v d e Hv Hd He I. pose proof (ball_pos s r a Ms) as Pr.
  destruct Ls as (_ & Ar). destruct (Ar j d e Hd He) as (U & Pe & _).
  eexists _, _. split; [apply (chords_after (centre s) r Pr v d U I)|].
  intros L HL Hm. pose proof (in_ball_runs (centre s) r v d U I) as Ru.
  destruct (ball_way s r a Ms ball_lib me (ref_at b j) L (half_chord (centre s) r v d) v d e Ru (proj2 I) Pe Hm) as (path & Lp & Sw).
  destruct (found_top objs [s] La Df me g b n Ls Fg reps vs ds st Tr j v d e Hv Hd He path _ _ _ _ Sw ltac:(lia)) as (lvl & k & A1 & A2 & A3 & A4 & A5 & A6).
  rewrite Lp in A1, A2. exists lvl, k. split; [exact A1|]. split; [exact A2|]. split; [intros k' D'; eapply one_child; eauto|]. auto.
Qed.

(** ** All the light *)
Hypothesis Hn : (0 < n)%nat.
Hypothesis All : forall j v d, vert_at b j = Some v -> dir_at b j = Some d -> in_ball (centre s) r v d.
Hypothesis Strong : (2 <= reps)%nat -> forall j e, energy_at b j = Some e -> me < e * (1 - a) ^ (reps - 1).

Lemma strong_all L e j : (1 <= L <= reps)%nat -> energy_at b j = Some e -> 0 <= e -> (2 <= L)%nat -> me < e * (1 - a) ^ (L - 1).
Proof.
  intros HL He Pe H2. apply Rlt_le_trans with (e * (1 - a) ^ (reps - 1)); [apply (Strong ltac:(lia) j e He)|].
  pose proof (share_ok s r a Ms ball_lib) as Sa. replace (reps - 1)%nat with ((L - 1) + (reps - L))%nat by lia. rewrite pow_add.
  assert (P0 : 0 <= (1 - a) ^ (L - 1)) by (apply pow_le; lra).
  assert (P1 : (1 - a) ^ (reps - L) <= 1).
  { clear -Sa. induction (reps - L)%nat as [|k IH]; cbn [pow]; [lra|]. assert (0 <= (1 - a) ^ k) by (apply pow_le; lra). nra. }
  assert (0 <= e * (1 - a) ^ (L - 1)) by (apply Rmult_le_pos; auto). rewrite <- Rmult_assoc. nra.
Qed.

(** Every ray of the source is there at every level. *)
Lemma still_there j : (j < n)%nat -> forall L, (1 <= L <= reps)%nat -> exists lvl k, nth_error (t_tree st) L = Some lvl /\ descends (t_tree st) L k j.
Proof.
  intros Hj L HL. destruct Ls as (Ts & Ar). destruct (traceable_vert b n j Ts Hj) as (v & Hv). destruct (traceable_dir b n j Ts Hj) as (d & Hd).
  destruct (traceable_energy b n j Ts Hj) as (e & He). destruct (Ar j d e Hd He) as (_ & Pe & _).
  destruct (ball_path j v d e Hv Hd He (All j v d Hv Hd)) as (P & D & _ & K). destruct (K L HL) as (lvl & k & A & B & _); eauto.
  intros H2. eapply strong_all; eauto.
Qed.

Lemma whole_tree : length (t_tree st) = (reps + 1)%nat.
Proof.
  destruct (bounded_trace objs [s] La me g b n Ls reps vs ds st Tr) as (B1 & B2 & _). apply Nat.le_antisymm; [exact B1|].
  destruct reps as [|k] eqn:Er. { assert (0 < length (t_tree st))%nat by (apply nth_error_Some; congruence). lia. }
  rewrite <- Er in *. destruct (still_there 0%nat Hn reps ltac:(lia)) as (lvl & k' & H & _).
  assert (reps < length (t_tree st))%nat by (apply nth_error_Some; congruence). lia.
Qed.

Section Tree.
Variables (ns : nat -> nat) (Ts : nat -> reports) (gs : nat -> shared) (g' : shared).
Hypothesis C : consistent_tree surface_ops objs [s] me b n reps (t_tree st) ns Ts g gs g'.

Lemma has_meeting L prev lvl j e : nth_error (t_tree st) L = Some prev -> nth_error (t_tree st) (L + 1) = Some lvl -> energy_at prev j = Some e ->
  exists t, meets_first (Ts L) 1 (ns L) 0 j t.
Proof.
  intros Hp Hl He. destruct (ct_traced _ _ _ _ _ _ _ _ _ _ _ _ _ C (proj1 Ls) L prev Hp) as (mp & T1 & _).
  destruct (traceable_vert prev mp j T1 (traceable_energy_lt prev mp j e T1 He)) as (v & Hv).
  destruct (traceable_dir prev mp j T1 (traceable_energy_lt prev mp j e T1 He)) as (d & Hd).
  destruct (conserved_top objs [s] La me g b n Ls Fg reps vs ds st Tr L prev j v d Hp Hv Hd) as ((j0 & D) & K).
  destruct (K j0 D) as (v0 & d0 & Hv0 & _ & _). pose proof (traceable_vert_lt b n j0 v0 (proj1 Ls) Hv0) as Lj.
  pose proof whole_tree as W. assert (L + 1 < length (t_tree st))%nat by (apply nth_error_Some; congruence).
  destruct (still_there j0 Lj (L + 1) ltac:(lia)) as (lvl' & k & Hl' & D').
  inversion D' as [|L1 lvl1 k1 p j1 A1 A2 A3 Q1]; [lia|]. assert (L1 = L) by lia. subst L1 k1 j1.
  assert (lvl1 = lvl) by congruence. subst lvl1. assert (p = j) by (eapply one_child; eauto). subst p.
  destruct (ct_level _ _ _ _ _ _ _ _ _ _ _ _ _ C L prev lvl Hp Hl) as (tb & rc & m & ems & R1 & R2 & R3 & R4 & R5 & R6 & (R7 & _) & R8 & R9).
  destruct (parent_vert lvl m k j R5 A2) as (x & Hx). destruct (R7 k (traceable_vert_lt lvl m k x R5 Hx)) as (i & j' & t & v' & d' & Q3 & _ & Q2 & _).
  assert (j' = j) by congruence. subst j'. exists t. assert (i = O). { destruct Q2 as (Li & _). cbn in Li. lia. } subst i. exact Q2.
Qed.

Lemma no_ties_alone prev : never_ties [s] prev.
Proof. intros [|[|i]] [|[|i']] s1 s2 j t E1 E2 _ _; try discriminate; reflexivity. Qed.
End Tree.

Lemma ball_energy : forall L lvl, nth_error (t_tree st) L = Some lvl -> total_energy lvl = (1 - a) ^ L * total_energy b.
Proof.
  destruct (library_trace objs [s] me La g b n reps vs ds st Ls Tr) as (ns & Ts & gs & C & _ & Hlen & _ & _ & _ & _ & _ & _ & _ & Hlib).
  induction L as [|L IH]; intros lvl Hl.
  - rewrite (ct_source _ _ _ _ _ _ _ _ _ _ _ _ _ C) in Hl. assert (lvl = b) by congruence. subst. cbn. ring.
  - replace (S L) with (L + 1)%nat in Hl by lia.
    destruct (nth_lt (t_tree st) L) as (prev & Hp). { assert (L + 1 < length (t_tree st))%nat by (apply nth_error_Some; congruence). lia. }
    destruct (ct_level _ _ _ _ _ _ _ _ _ _ _ _ _ C L prev lvl Hp Hl) as (tb & rc & m & ems & R1 & R2 & R3 & R4 & R5 & R6 & (R7 & _) & R8 & R9).
    destruct (ct_traced _ _ _ _ _ _ _ _ _ _ _ _ _ C (proj1 Ls) L prev Hp) as (mp & T1 & T2 & _).
    destruct (tree_sent objs [s] La me g b n reps (t_tree st) ns Ts gs (t_g st) C Ls Hlib L prev lvl Hp Hl (no_ties_alone prev)) as (Sn & _).
    cbn [pow]. rewrite Rmult_assoc, <- (IH prev Hp). rewrite (total_or prev mp T1), (total_energy_from lvl m mp R5).
    + clear IH. assert (K : forall l, (forall j, In j l -> (j < mp)%nat) -> sum_R (map (energy_from lvl) l) = (1 - a) * sum_R (map (energy_or prev) l)).
      { induction l as [|j l IHl]; intros Hin; cbn [map]; [cbn; ring|]. rewrite !sum_R_cons, IHl by (intros; apply Hin; right; auto).
        destruct (traceable_energy prev mp j T1 (Hin j (or_introl eq_refl))) as (e & He).
        destruct (traceable_dir prev mp j T1 (Hin j (or_introl eq_refl))) as (d & Hd).
        destruct (has_meeting ns Ts gs (t_g st) C L prev lvl j e Hp Hl He) as (t & M).
        pose proof (Sn O s j t d e M eq_refl Hd He) as S1. assert (E1 : energy_from lvl j = e * (1 - a)).
        { destruct Ms as (_ & _ & [Eo|(id & Eo)]); rewrite Eo in S1; exact S1. }
        rewrite E1. unfold energy_or at 2. rewrite He. ring. }
      apply K. intros j Hj. apply in_seq in Hj. lia.
    + destruct (R7 0%nat R6) as (i & j & t & v & d & A1 & _). unfold parent_at, at_col in A1. destruct (b_parents lvl); congruence.
    + intros k p Hk. destruct (parent_vert lvl m k p R5 Hk) as (x & Hx).
      destruct (R7 k (traceable_vert_lt lvl m k x R5 Hx)) as (i & j' & t & v & d & A1 & A2 & _). assert (j' = p) by congruence. lia.
Qed.

Lemma ball_receiver id : s_opt s = Accountant id (Reflective a) -> g_acc g id = mkAcc [] [] ->
  exists es hs, get_all_hits (g_acc (t_g st) id) = Ok (es, hs) /\ sum_R es = total_energy b * (1 - (1 - a) ^ reps).
Proof.
  intros Eo Ea.
  destruct (library_trace objs [s] me La g b n reps vs ds st Ls Tr) as (ns & Ts & gs & C & _ & Hlen & _ & _ & _ & _ & _ & _ & _ & Hlib).
  pose proof whole_tree as W. destruct (nth_lt (t_tree st) reps) as (lvl & Hl); [lia|].
  assert (Kb : keeps_books [s]).
  { intros [|[|i]] s0 H; try discriminate. cbn in H. assert (s0 = s) by congruence. subst s0. rewrite Eo.
    intros [|[|i]] s1 ab H1 H2; try discriminate; reflexivity. }
  assert (Fb : fresh_books [s] g). { intros s0 id0 o [<-|[]] H. assert (id0 = id) by congruence. subst. exact Ea. }
  destruct (ledger objs [s] La me g b n reps (t_tree st) ns Ts gs (t_g st) C Ls Hlib Kb Fb (fun p _ => no_ties_alone p) reps lvl Hl) as (outs & xs & Lo & Hu & Fx & Et).
  assert (Z : sum_R (map (fun po => energy_of (fst po) (snd po)) (combine (t_tree st) outs)) = 0).
  { apply sum_R_zero. intros x Hx. apply in_map_iff in Hx as ((prev, out) & <- & Hi). cbn [fst snd].
    apply In_nth_error in Hi as (L & Hi). assert (Hp : nth_error (t_tree st) L = Some prev /\ nth_error outs L = Some out).
    { clear -Hi. revert outs L Hi. induction (t_tree st) as [|x l IH]; intros [|y outs] [|L] Hi; try discriminate; cbn in *; [injection Hi as -> ->; auto|]. apply IH. exact Hi. }
    destruct Hp as (Hp & Ho). destruct (Hu L prev out Hp Ho) as (_ & Un).
    destruct out as [|j out]; [reflexivity|]. exfalso. destruct (proj1 (Un j) (or_introl eq_refl)) as ((e & He) & No).
    assert (L < length outs)%nat by (apply nth_error_Some; congruence).
    destruct (nth_lt (t_tree st) (L + 1)) as (lv & Hlv); [lia|].
    destruct (has_meeting ns Ts gs (t_g st) C L prev lv j e Hp Hlv He) as (t & M). apply (No O t M). }
  rewrite Z, (ball_energy reps lvl Hl) in Et. inversion Fx as [|s0 x l0 l1 Bx Fx' Q1 Q2]. subst. inversion Fx'. subst.
  pose proof (booked_record _ _ _ Bx) as Rx. unfold on_record in Rx. rewrite Eo in Rx.
  pose proof (ct_after _ _ _ _ _ _ _ _ _ _ _ _ _ C) as Ag. replace (length (t_tree st) - 1)%nat with (length outs) in Ag by lia. rewrite Ag in Rx.
  destruct Rx as (es & hs & A & B). exists es, hs. split; [exact A|]. cbn in Et. lra.
Qed.
End Ball.
