(** Where lenses focus, and lenses for the examples. *)
From Coq Require Import Reals List Arith Bool Lia Lra.
From Verif.Base Require Import Py Num Vec.
From Verif.Model Require Import RayBundle Spatial Geometry OpticsCallables Surface Assembly Scene Lens.
From Verif.Proof Require Import NumLemmas VecLemmas SceneProof ModelTop LensProof.
From Verif.Spec Require Import BundleSpec EngineSpec GeometrySpec GeomIface OpticsSpec FrameSpec SceneSpec ModelSpec TriangleSpec LensSpec.
Import ListNotations.
Local Open Scope R_scope.

Lemma focus_where n depth r1 r2 f v z : n <> 0 -> r1 <> 0 -> r2 <> 0 -> f * lensmaker n depth r1 r2 = 1 -> v = f * depth * (n - 1) / (n * r1) ->
  focus_at n r1 (v + depth) r2 v z <-> z = 2 * v - f.
Proof.
  intros Nn N1 N2 Ef Ev. set (P := lensmaker n depth r1 r2) in *.
  set (y2 := 1 - depth * (n - 1) / (n * r1)).
  assert (Ey : f * y2 = f - v) by (unfold y2; rewrite Ev; field; auto).
  assert (Hq : forall y p q, refracts 1 n r1 (mkPx (v + depth) y 0) p -> refracts n 1 r2 (travels v p) q ->
    px_y (travels z q) = y * (y2 - P * (v - z))).
  { intros y p q (A1 & A2 & A3) (B1 & B2 & B3). unfold travels in *. cbn [px_z px_y px_u] in *.
    rewrite A1, A2 in *. rewrite B1, B2.
    assert (U1 : px_u p = - (y * ((n - 1) / r1)) / n) by (apply Rmult_eq_reg_l with n; auto; rewrite A3; field; auto).
    assert (U2 : px_u q = - y * P).
    { rewrite Rmult_1_l in B3. rewrite B3, U1. unfold P, lensmaker. field. auto. }
    rewrite U2, U1. unfold y2. field. auto. }
  split.
  - intros H. set (u1 := - ((n - 1) / r1) / n).
    set (q := mkPx v (1 + u1 * depth) (n * u1 - (1 + u1 * depth) * ((1 - n) / r2))).
    assert (F : px_y (travels z q) = 0).
    { apply (H 1 (mkPx (v + depth) 1 u1) q).
      - split; [reflexivity|]. split; [reflexivity|]. cbn. unfold u1. field. auto.
      - unfold travels. cbn. split; [reflexivity|]. split; [cbn; ring|]. cbn. field. auto. }
    rewrite (Hq 1 (mkPx (v + depth) 1 u1) q) in F.
    + assert (E : f * (y2 - P * (v - z)) = 0) by (replace (y2 - P * (v - z)) with 0 by lra; ring).
      replace (f * (y2 - P * (v - z))) with (f * y2 - (f * P) * (v - z)) in E by ring. rewrite Ef, Ey in E. lra.
    + split; [reflexivity|]. split; [reflexivity|]. cbn. unfold u1. field. auto.
    + unfold travels. cbn. split; [reflexivity|]. split; [cbn; ring|]. cbn. field. auto.
  - intros -> y p q A B. rewrite (Hq y p q A B).
    replace (v - (2 * v - f)) with (f * y2) by lra. replace (P * (f * y2)) with ((f * P) * y2) by ring. rewrite Ef. ring.
Qed.

(** The docstring's place for the focus. *)
Lemma focus_not_there n depth r1 r2 f v : n <> 0 -> n <> 1 -> depth <> 0 -> r1 <> 0 -> r2 <> 0 ->
  f * lensmaker n depth r1 r2 = 1 -> v = f * depth * (n - 1) / (n * r1) -> ~ focus_at n r1 (v + depth) r2 v (- f).
Proof.
  intros Nn N' Nd N1 N2 Ef Ev H. apply (focus_where n depth r1 r2 f v) in H; auto.
  assert (V0 : v = 0) by lra. assert (Nf : f <> 0) by (intros ->; lra).
  assert (E : v * (n * r1) = f * depth * (n - 1)) by (rewrite Ev; field; auto).
  rewrite V0, Rmult_0_l in E. symmetry in E. apply Rmult_integral in E. destruct E as [E|E]; [|lra]. apply Rmult_integral in E. tauto.
Qed.

Lemma biconvex : 2 * 2 / 4 <= 3 * 3 /\ lensmaker (3 / 2) 1 3 (-3) <> 0 /\ cap 2 3 1 (V3 0 0 1).
Proof. unfold lensmaker, cap, off_axis, norm2, dot. cbn. repeat split; lra. Qed.

(** A planar back: distance between the faces on the axis. *)
Lemma too_thick n depth D r1 v1 v2 : n <> 0 -> depth <> 0 -> r1 <> 0 ->
  apex (cap D r1 (depth + depth / n)) v1 -> apex (disc D 0) v2 -> v1 - v2 <> depth.
Proof.
  intros Nn Nd N1 A B. pose proof (cap_apex D r1 (depth + depth / n) N1) as A'. pose proof (disc_apex D 0) as B'.
  assert (v1 = depth + depth / n) by (apply A', A; auto). assert (v2 = 0) by (apply B', B; auto). subst.
  intros H. assert (E : depth / n = 0) by lra. apply (f_equal (fun x => x * n)) in E. unfold Rdiv in E. rewrite Rmult_assoc, Rinv_l in E; auto. lra.
Qed.
