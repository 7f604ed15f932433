(** Light fades, and traces end by themselves. *)
From Coq Require Import Reals List Arith Bool Lra Lia.
From Verif.Base Require Import Py Num Vec.
From Verif.Model Require Import RayBundle TraceTree Sources OpticsCallables Engine Objects Surface.
From Verif.Proof Require Import ListLemmas ProcessProof EngineTop TraceTop LibraryTop LawProof.
From Verif.Spec Require Import BundleSpec EngineSpec GeometrySpec GeomIface OpticsSpec LibrarySpec LawSpec FadeSpec.
Import ListNotations.
Local Open Scope R_scope.

Lemma follow_takes a thr s z n d e m d' e' m' : 0 <= a <= 1 -> takes a s -> 0 <= e ->
  follows thr (s_opt s) z n d e m d' e' m' -> e' <= (1 - a) * e.
Proof.
  intros Ha T He F. unfold takes in T. destruct (s_opt s) as [o|id o|i1 i2]; [| |contradiction].
  1,2: destruct o as [x|x|x]; cbn [follows] in F.
  1,3,4,6: assert (E : e' = e * (1 - x)) by tauto; rewrite E; nra.
  1,2: destruct F as (_ & _ & F1 & F2 & _); destruct (Rle_dec (dot d z) 0) as [L|L]; [rewrite (F1 L)|rewrite F2 by lra]; nra.
Qed.

Lemma level_positive objs surfs me g b n reps vs ds st : library_assembly objs surfs -> library_source b n ->
  ray_tracer surface_ops objs surfs g b reps me TreeTrue = Ok (vs, ds, st) ->
  forall L prev j e d, nth_error (t_tree st) L = Some prev -> energy_at prev j = Some e -> dir_at prev j = Some d -> 0 <= e.
Proof.
  intros La Ls E L prev j e d Hp He Hd.
  destruct (library_trace objs surfs me La g b n reps vs ds st Ls E) as (ns & Ts & gs & C & _ & Hlen & _ & _ & _ & _ & _ & _ & _ & Hlib).
  assert (A : all_rays lib_ray prev).
  { destruct L as [|L]. { rewrite (ct_source _ _ _ _ _ _ _ _ _ _ _ _ _ C) in Hp. assert (prev = b) by congruence. subst. apply Ls. }
    replace (S L) with (L + 1)%nat in Hp by lia. eauto. }
  apply (A j d e Hd He).
Qed.

Lemma fades : forall objs surfs, library_assembly objs surfs -> forall a, 0 <= a <= 1 -> (forall s, In s surfs -> takes a s) ->
  forall me g b n, library_source b n -> fair (g_rng g) -> forall E0, 0 <= E0 -> dimmer E0 b ->
  forall reps vs ds st, ray_tracer surface_ops objs surfs g b reps me TreeTrue = Ok (vs, ds, st) ->
  forall L lvl, nth_error (t_tree st) L = Some lvl -> dimmer ((1 - a) ^ L * E0) lvl.
Proof.
  intros objs surfs La a Ha Tk me g b n Ls Fg E0 P0 Dm reps vs ds st E.
  destruct (laws_top objs surfs La me g b n Ls Fg reps vs ds st E) as (ns & Ts & _ & _ & Law).
  destruct (bounded_trace objs surfs La me g b n Ls reps vs ds st E) as (_ & B2 & B3 & _).
  induction L as [|L IH]; intros lvl Hl.
  - assert (lvl = b) by congruence. subst. cbn. rewrite Rmult_1_l. exact Dm.
  - destruct (nth_lt (t_tree st) L) as (prev & Hp). { assert (S L < length (t_tree st))%nat by (apply nth_error_Some; congruence). lia. }
    pose proof Hl as Hl'. replace (S L) with (L + 1)%nat in Hl' by lia.
    destruct (Law L prev lvl Hp Hl') as (N & via & thr & S1 & _). destruct (B3 (S L) lvl ltac:(lia) Hl) as (m & Tm & _).
    intros k x Hk. destruct (traceable_vert lvl m k Tm (traceable_energy_lt lvl m k x Tm Hk)) as (p & Hv).
    destruct (S1 k p Hv) as (s & j & t & Hs & _ & v & d & e & q & gr & d' & e' & M1 & M2 & M3 & M4 & M5 & M6 & M7 & M8 & M9 & M10 & M11 & M12).
    assert (e' = x) by congruence. subst e'.
    pose proof (level_positive objs surfs me g b n reps vs ds st La Ls E L prev j e d Hp M3 M2) as Pe.
    pose proof (follow_takes a _ s _ _ _ _ _ _ _ _ Ha (Tk s (nth_error_In _ _ Hs)) Pe M11) as Lx.
    pose proof (IH prev Hp j e M3) as Le. cbn [pow]. rewrite Rmult_assoc. apply Rle_trans with ((1 - a) * e); auto.
    apply Rmult_le_compat_l; lra.
Qed.

(** So many iterations are enough. *)
Lemma enough : forall objs surfs, library_assembly objs surfs -> forall a, 0 <= a <= 1 -> (forall s, In s surfs -> takes a s) ->
  forall me g b n, library_source b n -> fair (g_rng g) -> forall E0, 0 <= E0 -> dimmer E0 b ->
  forall r, (1 <= r)%nat -> (1 - a) ^ r * E0 <= me ->
  forall reps vs ds st, (r <= reps)%nat -> ray_tracer surface_ops objs surfs g b reps me TreeTrue = Ok (vs, ds, st) ->
  vs = [] /\ (length (t_tree st) <= r + 1)%nat /\
  forall reps', (r <= reps')%nat -> ray_tracer surface_ops objs surfs g b reps' me TreeTrue = Ok (vs, ds, st).
Proof.
  intros objs surfs La a Ha Tk me g b n Ls Fg E0 P0 Dm r Hr Hm.
  assert (Main : forall reps vs ds st, (r <= reps)%nat -> ray_tracer surface_ops objs surfs g b reps me TreeTrue = Ok (vs, ds, st) ->
    vs = [] /\ (length (t_tree st) <= r + 1)%nat).
  { intros reps vs ds st Lr E.
    pose proof (fades objs surfs La a Ha Tk me g b n Ls Fg E0 P0 Dm reps vs ds st E r) as Fd.
    destruct (bounded_trace objs surfs La me g b n Ls reps vs ds st E) as (B1 & B2 & _ & B4 & B5 & B6 & B7 & B8 & B9 & _).
    assert (No : forall lvl j, nth_error (t_tree st) r = Some lvl -> ~ is_traced me r lvl j).
    { intros lvl j Hl (e & He & [Z|Gt]); [lia|]. pose proof (Fd lvl Hl j e He). lra. }
    assert (Len : (length (t_tree st) <= r + 1)%nat).
    { destruct (nth_error (t_tree st) r) as [lvl|] eqn:Hl; [|apply nth_error_None in Hl; lia].
      apply nth_error_None. apply (B9 r lvl Hl). intros j. apply No. reflexivity. }
    split; auto. destruct (Nat.eq_dec (length (t_tree st)) (reps + 1)) as [Eq|Ne]; [|apply B7; lia].
    assert (reps = r) by lia. subst reps. destruct (nth_lt (t_tree st) r ltac:(lia)) as (lvl & Hl). destruct (B8 lvl Hl) as (m & Pk & Tr).
    destruct vs as [|v vs]; auto. exfalso. specialize (Pk Vertices). cbn [prop] in Pk. rewrite B4 in Pk.
    destruct (b_vert lvl) as [l|]; [|discriminate]. cbn [option_map] in Pk. destruct Pk as (l' & El & P).
    apply Forall2_length in P. rewrite seq_length in P. assert (l' = map PVec (v :: vs)) by congruence. subst l'. cbn in P.
    apply (No lvl 0%nat Hl), Tr. lia. }
  intros reps vs ds st Lr E. destruct (Main reps vs ds st Lr E) as (Ev & Len). split; auto. split; auto. intros reps' Lr'.
  pose proof E as E1. replace reps with (r + (reps - r))%nat in E1 by lia.
  destruct (trace_prefix objs surfs me La g b n r _ vs ds st Ls E1) as (vs1 & ds1 & st1 & x & Er & _).
  destruct (Main r vs1 ds1 st1 (Nat.le_refl _) Er) as (Ev1 & _).
  pose proof (trace_stops objs surfs me g b r (reps - r) vs1 ds1 st1 Hr Er Ev1) as F1.
  pose proof (trace_stops objs surfs me g b r (reps' - r) vs1 ds1 st1 Hr Er Ev1) as F2.
  replace (r + (reps - r))%nat with reps in F1 by lia. replace (r + (reps' - r))%nat with reps' in F2 by lia.
  rewrite F2. rewrite <- E, F1. reflexivity.
Qed.

(** There is always such a number. *)
Lemma some_number a E0 me : 0 < a <= 1 -> 0 <= E0 -> 0 < me -> exists r, (1 <= r)%nat /\ (1 - a) ^ r * E0 <= me.
Proof.
  intros Ha He Hm. destruct (pow_lt_1_zero (1 - a)) with (y := me / (E0 + 1)) as (N & H).
  { rewrite Rabs_right; lra. } { apply Rdiv_lt_0_compat; lra. }
  exists (S N). split; [lia|]. specialize (H (S N) ltac:(lia)).
  assert (P : 0 <= (1 - a) ^ S N) by (apply pow_le; lra). rewrite Rabs_right in H by lra.
  apply Rle_trans with (me / (E0 + 1) * E0); [apply Rmult_le_compat_r; lra|].
  unfold Rdiv. rewrite Rmult_assoc. rewrite <- (Rmult_1_r me) at 2. apply Rmult_le_compat_l; [lra|].
  apply Rmult_le_reg_l with (E0 + 1); [lra|]. rewrite <- Rmult_assoc, Rinv_r by lra. lra.
Qed.
Lemma bundle_dimmer b : exists e, 0 <= e /\ dimmer e b.
Proof.
  unfold dimmer, energy_at, at_col. destruct (b_energy b) as [l|]; [|exists 0; split; [lra|discriminate]].
  induction l as [|x l (e & He & IH)]; [exists 0; split; [lra|intros []; discriminate]|].
  exists (Rmax x e). split; [eapply Rle_trans; [exact He|apply Rmax_r]|]. intros [|j] y Hy; cbn in Hy.
  - assert (x = y) by congruence. subst. apply Rmax_l.
  - eapply Rle_trans; [apply (IH j y Hy)|apply Rmax_r].
Qed.
Lemma ends_itself : forall objs surfs, library_assembly objs surfs -> forall a, 0 < a <= 1 -> (forall s, In s surfs -> takes a s) ->
  forall me, 0 < me -> forall b n, library_source b n ->
  exists r, forall g, fair (g_rng g) -> forall reps vs ds st, (r <= reps)%nat ->
  ray_tracer surface_ops objs surfs g b reps me TreeTrue = Ok (vs, ds, st) ->
  vs = [] /\ (length (t_tree st) <= r + 1)%nat /\
  forall reps', (r <= reps')%nat -> ray_tracer surface_ops objs surfs g b reps' me TreeTrue = Ok (vs, ds, st).
Proof.
  intros objs surfs La a Ha Tk me Hm b n Ls. destruct (bundle_dimmer b) as (E0 & He & Dm).
  destruct (some_number a E0 me Ha He Hm) as (r & Hr & Lr). exists r. intros g Fg reps vs ds st Lp E.
  apply (enough objs surfs La a ltac:(lra) Tk me g b n Ls Fg E0 He Dm r Hr Lr reps vs ds st Lp E).
Qed.
