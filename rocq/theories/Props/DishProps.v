(** Dish collectors: where light that comes down the axis ends. *)
From Coq Require Import Reals ZArith String List Arith Bool Lia Lra Permutation.
From Verif.Base Require Import Py Num Vec.
From Verif.Model Require Import RayBundle Spatial Geometry OpticsCallables Engine Objects Surface Assembly Scene Models.
From Verif.Proof Require Import ModelExamples CollectTop.
From Verif.Spec Require Import BundleSpec EngineSpec GeometrySpec GeomIface OpticsSpec LibrarySpec AccountSpec FrameSpec SceneSpec ModelSpec DishSpec.
Import ListNotations.
Local Open Scope R_scope.

(** C87: whatever bundle of light comes down the axis of a minidish, wherever the
    dish stands: what passes the receiver meets the dish, goes through the focus into
    the box of mirrors below the receiver and is folded at its walls until it ends on
    the receiver, once and with the energy the reflections leave; nothing else is
    recorded; the histogram shows just that. *)
Theorem c87_minidish : forall limit D f eff side H heff aspect sc, reached limit sc -> tenm 6 < f -> tenm 6 < side -> tenm 6 < side * aspect -> 0 < H ->
  D * D < 16 * f * f -> 0 <= eff <= 1 -> 0 <= heff <= 1 -> (3 <= limit)%nat ->
  exists sc' r, minidish limit D f eff (f + H) side H heff aspect sc = (sc', Ok r) /\
    collecting limit sc' r (round_dish D f) side (side * aspect) H f eff heff.
Proof. exact minidish_collects. Qed.
Print Assumptions c87_minidish.

Theorem c87_petal : forall limit D f eff side H heff aspect sc, reached limit sc -> tenm 6 < f -> tenm 6 < side -> tenm 6 < side * aspect -> 0 < H ->
  D * D < 16 * f * f -> 0 <= eff <= 1 -> 0 <= heff <= 1 -> (3 <= limit)%nat ->
  exists sc' r, petal limit D f eff (f + H) side H heff aspect sc = (sc', Ok r) /\
    collecting limit sc' r (hex_dish D f) side (side * aspect) H f eff heff.
Proof. exact petal_collects. Qed.
Print Assumptions c87_petal.

Theorem c87_standard : forall limit D C v eff heff sc, reached limit sc -> 0 < D -> 0 < C -> 0 <= v -> (v + 1) * (D / 2 * sqrt (PI / C)) < D ->
  tenm 6 < D / 4 / (sqrt 2 - 1) -> tenm 6 < D / 2 * sqrt (PI / C) -> 0 <= eff <= 1 -> 0 <= heff <= 1 -> (3 <= limit)%nat ->
  exists sc' r f W H, standard_minidish limit D C v eff heff sc = (sc', Ok (r, (f, W, H))) /\ standard_measures D C v = Ok (f, W, H) /\
    collecting limit sc' r (round_dish D f) W W H f eff heff.
Proof. exact standard_collects. Qed.
Print Assumptions c87_standard.

(** A scene, and the first two rays of a bundle in it: one that is folded four times
    and one that ends on the back of the receiver. *)
Example c87_example : (reached 5 start /\ tenm 6 < 1 /\ tenm 6 < 1 / 5 /\ 2 * 2 < 16 * 1 * 1) /\
  (forall T, rigid T -> library_source (beam T [V3 (2 / 3) 0 5; V3 (1 / 20) 0 5] [1; 2]) 2) /\
  ends (round_dish 2 1) (1 / 5) (1 / 5) 1 1 (9 / 10) (9 / 10) (V3 (2 / 3) 0 5) 1 5 (Some (1 * (9 / 10) * (9 / 10) ^ 4, V3 (1 / 20) 0 (1 + 1))) /\
  ends (round_dish 2 1) (1 / 5) (1 / 5) 1 1 (9 / 10) (9 / 10) (V3 (1 / 20) 0 5) 2 0 None.
Proof.
  destruct tiny_tens as (T1 & _). split; [split; [apply start_reached|lra]|]. split; [|split; apply way_example].
  intros T RT. apply (beam_source T [V3 (2 / 3) 0 5; V3 (1 / 20) 0 5] [1; 2]); auto. repeat constructor; lra.
Qed.

(** Folding is determined, and gives a place between the mirrors. *)
Theorem c87_folds : forall X u, 0 < X -> (forall z, u <> (IZR z + 1 / 2) * X) ->
  exists z q, folds X u z q /\ - (X / 2) < q < X / 2 /\ forall z' q', folds X u z' q' -> z' = z /\ q' = q.
Proof. exact folds_top. Qed.
Print Assumptions c87_folds.
Example c87_folds_example : 0 < 1 / 5 /\ forall z, - (3 / 4) <> (IZR z + 1 / 2) * (1 / 5).
Proof. exact folds_example. Qed.

(** The receiver gets at most what the dish sends on, and exactly that if the walls
    keep nothing and no ray meets its back. *)
Theorem c87_energy : forall A X Y H f eff heff, 0 <= eff <= 1 -> 0 <= heff <= 1 ->
  forall vs es ks os, length es = length vs -> length ks = length vs -> length os = length vs -> Forall (Rle 0) es ->
  (forall j v e k o, nth_error vs j = Some v -> nth_error es j = Some e -> nth_error ks j = Some k -> nth_error os j = Some o -> ends A X Y H f eff heff v e k o) ->
  0 <= total (map fst (arriving os)) <= eff * total es /\ (heff = 1 -> ~ In None os -> total (map fst (arriving os)) = eff * total es).
Proof. exact collected_energy. Qed.
Print Assumptions c87_energy.

(** The example program labels the number of virtual sources "Edge reflections".
    With none, the light from the edge of the dish still meets the dish and a wall. *)
Theorem c87_edge_refuted : forall f W H z e, standard_measures 1 450 0 = Ok (f, W, H) -> 1 / 2 < z ->
  ends (round_dish 1 f) W W H f 1 1 (V3 (1 / 2) 0 z) e 2 (Some (e * 1 * 1 ^ 1, V3 (H - W) 0 (f + H))).
Proof. exact edge_way. Qed.
Print Assumptions c87_edge_refuted.
