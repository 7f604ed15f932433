(** What a ray has from the ray of the source it comes from. *)
From Coq Require Import Reals String List Arith Bool Lra Lia.
From Verif.Base Require Import Py Num Vec.
From Verif.Model Require Import RayBundle Geometry TraceTree Sources Optics OpticsCallables Engine Surface.
From Verif.Proof Require Import ListLemmas ProcessProof LibraryTop EngineTop TraceTop LawProof SymmetryProof.
From Verif.Spec Require Import BundleSpec EngineSpec GeometrySpec GeomIface OpticsSpec LibrarySpec LawSpec.
Import ListNotations.
Local Open Scope R_scope.

Lemma follows_less w o z n d e m d' e' m' : optics_ok o -> 0 <= e -> follows w o z n d e m d' e' m' -> 0 <= e' <= e.
Proof.
  assert (A : forall a, 0 <= a <= 1 -> 0 <= e -> 0 <= e * (1 - a) <= e).
  { intros a Ha He. pose proof (Rmult_le_pos e (1 - a) He ltac:(lra)). pose proof (Rmult_le_pos e a He ltac:(lra)). lra. }
  assert (B : forall a, 0 <= a <= 1 -> 0 <= e -> 0 <= e * a <= e).
  { intros a Ha He. pose proof (Rmult_le_pos e (1 - a) He ltac:(lra)). pose proof (Rmult_le_pos e a He ltac:(lra)). lra. }
  assert (C : forall a zd, 0 <= a <= 1 -> 0 <= e -> (zd <= 0 -> e' = e * (1 - a)) -> (0 < zd -> e' = 0) -> 0 <= e' <= e).
  { intros a zd Ha He H1 H2. destruct (Rle_lt_dec zd 0) as [Hz|Hz]; [rewrite (H1 Hz); auto|rewrite (H2 Hz); lra]. }
  destruct o as [[a|a|a]|k [a|a|a]|i1 i2]; cbn; intros Ok He F.
  1-6: destruct F as (_ & F); first [destruct F as (_ & -> & _); now apply A | destruct F as (_ & F1 & F2 & _); eapply C; eassumption | destruct F as (_ & _ & -> & _); now apply A].
  destruct F as (k & k' & f & _ & _ & _ & _ & Hf & _ & _ & F). destruct w; [destruct F as (_ & _ & -> & _); now apply A|destruct F as (_ & -> & _); now apply B].
Qed.

Lemma descends_once tree : forall L k j, descends tree L k j -> forall j', descends tree L k j' -> j' = j.
Proof.
  intros L k j D. induction D as [b j v H1 H2|L lvl k p j H1 H2 D IH]; intros j' D'.
  - inversion D'; subst; auto; lia.
  - inversion D' as [|L' lvl' k' p' j'' A1 A2 A3]; [lia|]. subst. assert (L' = L) by lia. subst L'.
    assert (lvl' = lvl) by congruence. subst lvl'. assert (p' = p) by congruence. subst p'. auto.
Qed.

Lemma lineage_top : forall objs surfs, library_assembly objs surfs ->
  forall me g b n, library_source b n -> fair (g_rng g) -> forall reps vs ds st,
  ray_tracer surface_ops objs surfs g b reps me TreeTrue = Ok (vs, ds, st) ->
  forall L lvl, nth_error (t_tree st) L = Some lvl ->
  (forall p, p <> Parents -> (prop lvl p = None <-> prop b p = None)) /\
  forall k v, vert_at lvl k = Some v ->
  exists j, descends (t_tree st) L k j /\ (forall j', descends (t_tree st) L k j' -> j' = j) /\
    (exists v0, vert_at b j = Some v0) /\ (forall x, extra_at lvl x k = extra_at b x j) /\
    exists e0 e, energy_at b j = Some e0 /\ energy_at lvl k = Some e /\ 0 <= e <= e0.
Proof.
  intros objs surfs La me g b n Ls Fg reps vs ds st E.
  destruct (laws_top objs surfs La me g b n Ls Fg reps vs ds st E) as (ns & Ts & _ & _ & H).
  destruct (library_trace objs surfs me La g b n reps vs ds st Ls E) as (ns' & Ts' & gs & C & _).
  pose proof (ct_source _ _ _ _ _ _ _ _ _ _ _ _ _ C) as E0.
  pose proof (ct_set _ _ _ _ _ _ _ _ _ _ _ _ _ C) as Hset. clear C ns' Ts' gs.
  assert (Ok : forall i s, nth_error surfs i = Some s -> optics_ok (s_opt s)).
  { intros i s Hs. destruct La as (_ & Hs' & _). apply (Hs' s (nth_error_In _ _ Hs)). }
  induction L as [|L IH]; intros lvl Hl.
  - assert (lvl = b) as -> by congruence. split; [tauto|]. intros k v Hv.
    exists k. assert (D : descends (t_tree st) 0 k k) by (eapply from_source; eauto). split; [exact D|]. split; [apply descends_once; exact D|].
    split; [eauto|]. split; [auto|]. destruct Ls as (Tr & Al).
    pose proof (traceable_vert_lt b n k v Tr Hv) as Lk. destruct (traceable_energy b n k Tr Lk) as (e & He). destruct (traceable_dir b n k Tr Lk) as (d & Hd).
    destruct (Al k d e Hd He) as (_ & P & _). exists e, e. split; auto. split; auto. lra.
  - replace (S L) with (L + 1)%nat in * by lia.
    destruct (nth_lt (t_tree st) L) as (prev & Hp). { assert (L + 1 < length (t_tree st))%nat by (apply nth_error_Some; congruence). lia. }
    destruct (IH prev Hp) as (I1 & I2). split.
    { intros p Np. rewrite (Hset L prev lvl Hp Hl p Np). auto. }
    intros k v Hv. destruct (H L prev lvl Hp Hl) as (N & via & thr & A & _). destruct (A k v Hv) as (s & j0 & t & Es & M & (v1 & d1 & e1 & q & gr & d' & e' & Hv1 & Hd1 & He1 & Hpar & Hv' & Hd' & He' & Hq & Hg & Hn & F & X)).
    destruct (I2 j0 v1 Hv1) as (j & D & _ & V0 & X0 & e0 & e & He0 & He & Bd).
    assert (D1 : descends (t_tree st) (L + 1) k j) by (eapply from_parent; eauto).
    exists j. split; [exact D1|]. split; [apply descends_once; exact D1|]. split; [exact V0|]. split.
    { intros x. now rewrite X. }
    exists e0, e'. split; [exact He0|]. split; [exact He'|]. assert (e1 = e) by congruence. subst e1.
    assert (P : 0 <= e) by lra. pose proof (follows_less _ _ _ _ _ _ _ _ _ _ (Ok _ s Es) P F). lra.
Qed.
