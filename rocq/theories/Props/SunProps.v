(** Dish collectors: where light from any direction ends. *)
From Coq Require Import Reals ZArith String List Arith Bool Lia Lra Permutation.
From Verif.Base Require Import Py Num Vec.
From Verif.Model Require Import RayBundle Spatial Geometry OpticsCallables Engine Objects Surface Assembly Scene Models.
From Verif.Proof Require Import ModelExamples CollectProof CollectTop.
From Verif.Spec Require Import BundleSpec EngineSpec GeometrySpec GeomIface OpticsSpec LibrarySpec AccountSpec FrameSpec SceneSpec ModelSpec DishSpec SunSpec.
Import ListNotations.
Local Open Scope R_scope.

(** C90: whatever bundle of light falls on a minidish, wherever the dish stands.  Rays
    may pass everything, end on the back of the receiver or on the outside of the box of
    mirrors, be spilled by the dish past the box or onto its outside, or enter the box,
    where they are folded at the walls until they end on the receiver.  The record has
    exactly these last ones, each once, with its energy and place, apart from those too
    weak to be traced on; the histogram shows just that. *)
Theorem c90_minidish : forall limit D f eff side H heff aspect sc, reached limit sc -> tenm 6 < f -> tenm 6 < side -> tenm 6 < side * aspect -> 0 < H ->
  D * D < 16 * f * f -> 0 <= eff <= 1 -> 0 <= heff <= 1 -> (3 <= limit)%nat ->
  exists sc' r, minidish limit D f eff (f + H) side H heff aspect sc = (sc', Ok r) /\
    catching limit sc' r (round_dish D f) side (side * aspect) H f eff heff.
Proof. exact minidish_catches. Qed.
Print Assumptions c90_minidish.

Theorem c90_petal : forall limit D f eff side H heff aspect sc, reached limit sc -> tenm 6 < f -> tenm 6 < side -> tenm 6 < side * aspect -> 0 < H ->
  D * D < 16 * f * f -> 0 <= eff <= 1 -> 0 <= heff <= 1 -> (3 <= limit)%nat ->
  exists sc' r, petal limit D f eff (f + H) side H heff aspect sc = (sc', Ok r) /\
    catching limit sc' r (hex_dish D f) side (side * aspect) H f eff heff.
Proof. exact petal_catches. Qed.
Print Assumptions c90_petal.

Theorem c90_standard : forall limit D C v eff heff sc, reached limit sc -> 0 < D -> 0 < C -> 0 <= v -> (v + 1) * (D / 2 * sqrt (PI / C)) < D ->
  tenm 6 < D / 4 / (sqrt 2 - 1) -> tenm 6 < D / 2 * sqrt (PI / C) -> 0 <= eff <= 1 -> 0 <= heff <= 1 -> (3 <= limit)%nat ->
  exists sc' r f W H, standard_minidish limit D C v eff heff sc = (sc', Ok (r, (f, W, H))) /\ standard_measures D C v = Ok (f, W, H) /\
    catching limit sc' r (round_dish D f) W W H f eff heff.
Proof. exact standard_catches. Qed.
Print Assumptions c90_standard.

(** A scene, a bundle in it, and the courses of its rays: folded once and recorded,
    spilled, past everything, on the back. *)
Example c90_example : (reached 5 start /\ tenm 6 < 1 /\ tenm 6 < 1 / 2 /\ 7 / 2 * (7 / 2) < 16 * 1 * 1) /\
  (forall T, rigid T -> library_source (lights T [V3 (7 / 5) 0 (2781 / 500); V3 (27 / 50) 0 (337 / 400); V3 5 0 5; V3 (1 / 10) 0 5]
     [slant; steep; V3 0 0 (-1); V3 0 0 (-1)] [1; 1; 1; 1]) 4) /\
  let c := course (round_dish (7 / 2) 1) (1 / 2) (1 / 2) (1 / 8) 1 (9 / 10) (9 / 10) in
  c (V3 (7 / 5) 0 (2781 / 500)) slant 1 2%nat (Some (1 * (9 / 10) * (9 / 10) ^ 1, V3 (- (30774 / 149586)) 0 (1 + 1 / 8))) /\
  c (V3 (27 / 50) 0 (337 / 400)) steep 1 1%nat None /\ c (V3 5 0 5) (V3 0 0 (-1)) 1 0%nat None /\ c (V3 (1 / 10) 0 5) (V3 0 0 (-1)) 1 0%nat None.
Proof.
  destruct tiny_tens as (T1 & _). split; [split; [apply start_reached|lra]|]. split; [|apply caught_example].
  intros T RT. apply (lights_source T [_; _; _; _] [_; _; _; _] [_; _; _; _]); auto; [apply directions_unit|repeat constructor; lra].
Qed.

(** The light of C87, which comes down the axis, is a special case. *)
Theorem c90_axial : forall (A : shape) X Y H f eff heff v e k o, 0 < X -> 0 < Y -> 0 < H -> tenm 6 < f -> (forall q, A q -> focal_bowl f q /\ vz q < f) ->
  ends A X Y H f eff heff v e k o -> course A X Y H f eff heff v (V3 0 0 (-1)) e k o.
Proof. exact ends_course. Qed.
Print Assumptions c90_axial.
Example c90_axial_example : (forall q, round_dish 2 1 q -> focal_bowl 1 q /\ vz q < 1) /\
  ends (round_dish 2 1) (1 / 5) (1 / 5) 1 1 (9 / 10) (9 / 10) (V3 (2 / 3) 0 5) 1 5 (Some (1 * (9 / 10) * (9 / 10) ^ 4, V3 (1 / 20) 0 (1 + 1))).
Proof. destruct tiny_tens as (T1 & _). split; [|apply way_example]. intros q. apply below_round; lra. Qed.

(** The receiver gets at most what the dish sends on, and exactly that if the walls keep
    nothing, no ray is lost and none is too weak. *)
Theorem c90_energy : forall A X Y H f eff heff, 0 <= eff <= 1 -> 0 <= heff <= 1 ->
  forall vs ds es ks os me, length ds = length vs -> length es = length vs -> length ks = length vs -> length os = length vs -> Forall (Rle 0) es ->
  (forall j v d e k o, nth_error vs j = Some v -> nth_error ds j = Some d -> nth_error es j = Some e -> nth_error ks j = Some k -> nth_error os j = Some o ->
     course A X Y H f eff heff v d e k o) ->
  0 <= total (map fst (strong me (arriving os))) <= eff * total es /\
  (heff = 1 -> ~ In None os -> Forall (fun e => me < eff * e) es -> total (map fst (strong me (arriving os))) = eff * total es).
Proof. exact caught_energy. Qed.
Print Assumptions c90_energy.
