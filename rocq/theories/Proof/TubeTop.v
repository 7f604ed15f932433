(** Traces in a mirror tube. *)
From Coq Require Import Reals List Arith Bool Lra Lia.
From Verif.Base Require Import Py Num Vec.
From Verif.Model Require Import RayBundle Boundary Geometry TraceTree Sources OpticsCallables Engine Objects Surface.
From Verif.Proof Require Import ListLemmas NumLemmas VecLemmas ProcessProof EngineTop TraceTop LibraryTop AccountProof LedgerProof LawProof SymmetryProof BackProof DishProof SightProof FoundProof TubeProof.
From Verif.Spec Require Import BundleSpec EngineSpec GeometrySpec GeomIface OpticsSpec LibrarySpec ModelSpec LawSpec BackSpec SightSpec FoundSpec TubeSpec.
Import ListNotations.
Local Open Scope R_scope.

Section Tube.
Variables (objs : list obj) (s : surface) (D : R) (H : option R) (a me : R) (g : shared) (b : bundle) (n reps : nat) (vs ds : list vec) (st : tstate surface shared).
Hypothesis (La : library_assembly objs [s]) (Df : forall ob, In ob objs -> exists k, ob = default_object k) (Ms : mirror_tube D H a s).
Hypothesis (Ls : library_source b n) (Fg : fair (g_rng g)).
Hypothesis Tr : ray_tracer surface_ops objs [s] g b reps me TreeTrue = Ok (vs, ds, st).

Lemma tube_lib : lib_surface s.
Proof. apply La. left. reflexivity. Qed.

Lemma one_child : forall L k k' j, descends (t_tree st) L k j -> descends (t_tree st) L k' j -> k' = k.
Proof.
  destruct (laws_top objs [s] La me g b n Ls Fg reps vs ds st Tr) as (ns & Ts & _ & _ & Law).
  destruct (bounded_trace objs [s] La me g b n Ls reps vs ds st Tr) as (_ & _ & B3 & _).
  induction L as [|L IH]; intros k k' j Ds Ds'.
  - inversion Ds; [|lia]. inversion Ds'; [|lia]. congruence.
  - inversion Ds as [|L1 lvl k1 p j1 A1 A2 A3 Q1]; [assert (L1 = L) by lia]. inversion Ds' as [|L2 lvl2 k2 p2 j2 B1 B2 B4 Q2]; [assert (L2 = L) by lia]. subst L1 L2. subst k1 j1 k2 j2.
    assert (lvl2 = lvl) by congruence. subst lvl2. assert (p2 = p) by (eapply IH; eauto). subst p2.
    destruct (nth_lt (t_tree st) L) as (prev & Hp). { assert (L + 1 < length (t_tree st))%nat by (apply nth_error_Some; congruence). lia. }
    destruct (Law L prev lvl Hp A1) as (N & via & thr & A & _ & B). destruct (B3 (L + 1)%nat lvl ltac:(lia) A1) as (m & Tm & _).
    assert (K : forall k, parent_at lvl k = Some p -> via k = O /\ thr k = false).
    { intros i Hi. destruct (parent_vert lvl m i p Tm Hi) as (x & Hx).
      destruct (A i x Hx) as (s0 & j0 & t & Es & _ & (v1 & d1 & e1 & q & g1 & d2 & e2 & Mk)).
      assert (via i = O /\ s0 = s) as (Ev & ->).
      { destruct (via i) as [|[|w]]; cbn in Es; try discriminate. split; congruence. }
      split; [exact Ev|]. destruct Mk as (_ & _ & _ & _ & _ & _ & _ & _ & _ & _ & Fo & _).
      destruct Ms as (_ & _ & [Eo|(id & Eo)]); rewrite Eo in Fo; cbn [follows] in Fo; apply Fo. }
    destruct (K k A2), (K k' B2). eapply B; eauto; congruence.
Qed.

Lemma tube_path : forall j q l e, vert_at b j = Some (app4 (s_frame s) q) -> dir_at b j = Some (turned (s_frame s) l) -> energy_at b j = Some e -> in_tube (D / 2) q l ->
  exists P E, winds (D / 2) q l P E /\
  (forall L, (1 <= L <= reps)%nat -> ((2 <= L)%nat -> me < e * (1 - a) ^ (L - 1)) -> (forall i, (1 <= i <= L)%nat -> walled H (vz (P i))) ->
   exists lvl k, nth_error (t_tree st) L = Some lvl /\ descends (t_tree st) L k j /\ (forall k', descends (t_tree st) L k' j -> k' = k) /\
     vert_at lvl k = Some (app4 (s_frame s) (P L)) /\ dir_at lvl k = Some (turned (s_frame s) (E L)) /\ energy_at lvl k = Some (e * (1 - a) ^ L) /\ ref_at lvl k = ref_at b j) /\
  (forall L, (L < reps)%nat -> ((1 <= L)%nat -> me < e * (1 - a) ^ L) -> (forall i, (1 <= i <= L)%nat -> walled H (vz (P i))) ->
   ~ walled H (vz (P (S L))) -> forall k, ~ descends (t_tree st) (S L) k j).
Proof.
  intros j q l e Hv Hd He I. pose proof (tube_pos s D H a Ms) as Pr. pose proof (tube_rigid s tube_lib) as RF.
  pose proof (share_ok s D H a Ms tube_lib) as Sa.
  destruct Ls as (Tb & Ar). destruct (Ar j _ e Hd He) as (U0 & Pe & _).
  assert (U : is_unit l) by (unfold is_unit in *; rewrite turned_unit in U0; auto). clear U0.
  pose proof (in_tube_runs (D / 2) q l U I) as Ru. set (h := half_width (D / 2) q l) in *.
  exists (fun k => fst (after (D / 2) h q l k)), (fun k => snd (after (D / 2) h q l k)). split; [apply (winds_after (D / 2) Pr q l U I)|].
  assert (Fnd : forall L, (1 <= L <= reps)%nat -> ((2 <= L)%nat -> me < e * (1 - a) ^ (L - 1)) -> (forall i, (1 <= i <= L)%nat -> walled H (vz (fst (after (D / 2) h q l i)))) ->
   exists lvl k, nth_error (t_tree st) L = Some lvl /\ descends (t_tree st) L k j /\ (forall k', descends (t_tree st) L k' j -> k' = k) /\
     vert_at lvl k = Some (app4 (s_frame s) (fst (after (D / 2) h q l L))) /\ dir_at lvl k = Some (turned (s_frame s) (snd (after (D / 2) h q l L))) /\
     energy_at lvl k = Some (e * (1 - a) ^ L) /\ ref_at lvl k = ref_at b j).
  { intros L HL Hm Hw. destruct I as (I1 & I2 & I3).
    destruct (tube_way s D H a Ms tube_lib me (ref_at b j) L h q l e Ru I3 Pe Hm Hw) as (path & Lp & Sw).
    destruct (found_top objs [s] La Df me g b n Ls Fg reps vs ds st Tr j _ _ e Hv Hd He path _ _ _ _ Sw ltac:(lia)) as (lvl & k & A1 & A2 & A3 & A4 & A5 & A6).
    rewrite Lp in A1, A2. exists lvl, k. split; [exact A1|]. split; [exact A2|]. split; [intros k' Dk; eapply one_child; eauto|]. auto. }
  split; [exact Fnd|].
  intros L HL Hm Hw Out k' Dk.
  assert (Here : exists prev p, nth_error (t_tree st) L = Some prev /\ descends (t_tree st) L p j /\ is_traced me L prev p /\
    vert_at prev p = Some (app4 (s_frame s) (fst (after (D / 2) h q l L))) /\ dir_at prev p = Some (turned (s_frame s) (snd (after (D / 2) h q l L)))).
  { destruct L as [|L].
    - destruct (bounded_trace objs [s] La me g b n Ls reps vs ds st Tr) as (_ & B2 & _). exists b, j. split; [exact B2|]. split; [econstructor; eauto|].
      split; [exists e; auto|]. cbn [after fst snd]. auto.
    - destruct (Fnd (S L)) as (lvl & k & A1 & A2 & _ & A3 & A4 & A5 & _); auto; [lia| |].
      + intros H2. specialize (Hm ltac:(lia)). replace (S L - 1)%nat with L by lia. cbn [pow] in Hm. assert (0 <= (1 - a) ^ L) by (apply pow_le; lra).
        assert (0 <= e * (1 - a) ^ L) by (apply Rmult_le_pos; auto). nra.
      + exists lvl, k. split; [exact A1|]. split; [exact A2|]. split; [exists (e * (1 - a) ^ S L); split; [exact A5|right; apply Hm; lia]|]. auto. }
  destruct Here as (prev & p & Hp & Dp & Ht & Hpv & Hpd).
  destruct (after_runs (D / 2) Pr h L q l Ru) as (RuL & _). rewrite after_S in Out.
  inversion Dk as [|L1 lvl k1 p1 j1 A1 A2 A3 Q1]. assert (L1 = L) by lia. subst L1 k1 j1. assert (p1 = p) by (eapply one_child; eauto). subst p1.
  destruct (sight_plain objs [s] La Df me g b n Ls reps vs ds st Tr L prev p _ _ Hp HL Ht Hpv Hpd) as (Ch & _).
  destruct (Ch lvl k' A1 A2) as ([|[|i]] & s0 & t & Es & _ & Pt & _ & On & _); try discriminate. cbn in Es. assert (s0 = s) by congruence. subst s0.
  destruct (after (D / 2) h q l L) as (qL, lL). cbn [fst snd] in *.
  destruct (tube_in_way s D H a Ms tube_lib qL lL (ru_slant _ _ _ _ RuL)) as (A & Iw & HA). specialize (On A Iw). rewrite app_turned in On by auto. apply HA in On. destruct On as (On & Wl).
  destruct (end_of_chord (D / 2) h qL lL RuL) as (_ & _ & _ & Only). specialize (Only t Pt On). subst t. apply Out. exact Wl.
Qed.
End Tube.
