(** examples/test_case.py: sunlight on a tilted minidish. *)
From Coq Require Import Reals ZArith String List Arith Bool Lia Lra.
From Verif.Base Require Import Py Num Vec.
From Verif.Model Require Import RayBundle Spatial Geometry TraceTree Sources OpticsCallables Engine Objects Surface Assembly Scene Models TestCase.
From Verif.Proof Require Import ModelExamples SpotProof TestCaseProof TestCaseTop.
From Verif.Spec Require Import BundleSpec EngineSpec SourceSpec LibrarySpec AccountSpec GeometrySpec GeomIface OpticsSpec FrameSpec SceneSpec ModelSpec TowerSpec DishSpec SunSpec TestCaseSpec.
Import ListNotations.
Local Open Scope R_scope.

(** C91: whatever the random numbers are, from a clean start the program finishes with a
    map of 50 by 50 numbers, none negative.  The dish faces the sun.  A bin shows, in
    suns, exactly the rays of the trace that meet the receiver there.  If no ray meets
    two surfaces at once, not more energy is shown than was sent. *)
Theorem c91_map : forall limit f n H side sc g, reached limit sc -> 0 < f -> 0 < side -> 0 < H -> (3 <= limit)%nat -> (0 < n)%nat -> fair (g_rng g) ->
  (forall id, g_acc g id = mkAcc [] []) ->
  exists sc' rays vs ds es objs ss id vs' ds' st hist M,
    test_case limit f n H side g sc = (sc', Ok (M, t_g st)) /\ reached limit sc' /\
    solar_disk_bundle n sun_center sun_direction (5 / 2) (5 / 1000) (Some 1000) (g_rng g) = Ok (rays, mkRng (draws (g_rng g)) (drawn (g_rng g) + 4 * n)) /\
    seen_by_dish rays vs ds /\ b_energy rays = Some es /\ sunlight n vs ds es /\
    ray_tracer surface_ops objs ss (mkG (mkRng (draws (g_rng g)) (drawn (g_rng g) + 4 * n)) (g_acc g)) rays 100 (tenm 6) TreeTrue = Ok (vs', ds', st) /\
    box_receiver tilt (f + H) side side H (9 / 10) (round_reflector 5 f (9 / 10) tilt) ss /\
    nth_error ss 4 = Some (front_of id tilt (f + H) side side) /\
    shows ss 4 (t_tree st) 100 (tenm 6) side side (mm4 tilt (mm4 (translate 0 0 (f + H)) (rotx PI))) 50 hist /\ in_suns side M hist /\
    length M = 50%nat /\ (forall row, In row M -> length row = 50%nat /\ Forall (Rle 0) row) /\
    ((forall prev, In prev (t_tree st) -> never_ties ss prev) -> total (concat M) * (1000 * (side / 50) ^ 2) <= 1000 * (PI * (5 / 2) ^ 2)).
Proof. exact test_case_top. Qed.
Print Assumptions c91_map.

Theorem c91_aligned : app4 tilt (V3 0 0 (7 * sqrt 2)) = sun_center /\ turned tilt downwards = sun_direction /\ is_unit sun_direction.
Proof. exact sun_aligned. Qed.
Print Assumptions c91_aligned.

(** The map itself, when the way of each ray is clear as in C90; at most the dish's share
    of the energy is shown. *)
Theorem c91_caught : forall limit f n H side sc g, reached limit sc -> tenm 6 < f -> 5 * 5 < 16 * f * f -> tenm 6 < side -> 0 < H -> (3 <= limit)%nat -> (0 < n)%nat -> fair (g_rng g) ->
  (forall id, g_acc g id = mkAcc [] []) ->
  exists rays rnd vs ds es,
    solar_disk_bundle n sun_center sun_direction (5 / 2) (5 / 1000) (Some 1000) (g_rng g) = Ok (rays, rnd) /\
    seen_by_dish rays vs ds /\ b_energy rays = Some es /\ sunlight n vs ds es /\
    forall (ks : list nat) (os : list (option (R * vec))), length ks = n -> length os = n ->
    (forall j v d e k o, nth_error vs j = Some v -> nth_error ds j = Some d -> nth_error es j = Some e -> nth_error ks j = Some k -> nth_error os j = Some o ->
       course (round_dish 5 f) side side H f (9 / 10) (9 / 10) v d e k o /\ (k < 100)%nat) ->
    exists sc' M g' hist, test_case limit f n H side g sc = (sc', Ok (M, g')) /\ in_suns side M hist /\ shown side side 50 hist (strong (tenm 6) (arriving os)) /\
      0 <= total (concat M) * (1000 * (side / 50) ^ 2) <= 9 / 10 * (1000 * (PI * (5 / 2) ^ 2)).
Proof. exact test_case_caught. Qed.
Print Assumptions c91_caught.

(** How well a dish focuses light that comes within [ang] of its axis: at the height of
    the focus it is within [2 f ang / (kappa - ang)] of it, where [kappa] is the cosine
    with which axial light leaves the rim. *)
Theorem c91_spot : forall (A : shape) X Y H f D ang v d m c, 0 < f -> (forall q, A q -> focal_bowl f q /\ vx q * vx q + vy q * vy q <= D / 2 * (D / 2)) ->
  let kappa := (16 * f * f - D * D) / (16 * f * f + D * D) in 0 <= ang < kappa -> deviates downwards ang d -> mirrored_at A X Y H f v d m c ->
  exists r p, vz p = f /\ p = ray_at m c r /\ f - D * D / (16 * f) <= r /\ kappa - ang <= vz c /\ norm2 (vsub p (V3 0 0 f)) <= (2 * f * ang / (kappa - ang)) ^ 2.
Proof. exact spot. Qed.
Print Assumptions c91_spot.
Example c91_spot_example : let kappa := (16 * (25 / 4) * (25 / 4) - 5 * 5) / (16 * (25 / 4) * (25 / 4) + 5 * 5) in
  0 <= 5 / 1000 < kappa /\ 2 * (25 / 4) * (5 / 1000) / (kappa - 5 / 1000) < 7 / 100 /\ deviates downwards (5 / 1000) downwards /\
  exists m c, mirrored_at (round_dish 5 (25 / 4)) (2 / 5) (2 / 5) (7 / 10) (25 / 4) (V3 1 0 (7 * sqrt 2)) downwards m c.
Proof. exact spot_example. Qed.

(** With the default parameters nothing that the dish mirrors misses the box. *)
Theorem c91_no_spill : forall v d m c, deviates downwards (5 / 1000) d -> mirrored_at (round_dish 5 (25 / 4)) (2 / 5) (2 / 5) (7 / 10) (25 / 4) v d m c ->
  exists p, enters (round_dish 5 (25 / 4)) (2 / 5) (2 / 5) (25 / 4) m c p /\ 9 / 10 <= vz c /\ norm2 (vsub p (V3 0 0 (25 / 4))) <= (7 / 100) ^ 2.
Proof. exact default_spot. Qed.
Print Assumptions c91_no_spill.

(** Light that starts between the circles with radii 0.35 and 2.45 is mirrored into the box,
    and folded at most twice if its way is clear there; what starts in the square with the
    half side 0.15 ends on the back of the receiver. *)
Theorem c91_ring : forall v d, vz v = 7 * sqrt 2 -> in_ring (7 / 20) (49 / 20) v -> deviates downwards (5 / 1000) d ->
  exists m c p, mirrored_at (round_dish 5 (25 / 4)) (2 / 5) (2 / 5) (7 / 10) (25 / 4) v d m c /\ enters (round_dish 5 (25 / 4)) (2 / 5) (2 / 5) (25 / 4) m c p /\ 9 / 10 <= vz c /\ norm2 (vsub p (V3 0 0 (25 / 4))) <= (7 / 100) ^ 2.
Proof. exact default_ring. Qed.
Print Assumptions c91_ring.
Theorem c91_folded : forall v d m c p e, dish_safe (25 / 4) d -> deviates downwards (5 / 1000) d -> mirrored_at (round_dish 5 (25 / 4)) (2 / 5) (2 / 5) (7 / 10) (25 / 4) v d m c -> enters (round_dish 5 (25 / 4)) (2 / 5) (2 / 5) (25 / 4) m c p ->
  norm2 (vsub p (V3 0 0 (25 / 4))) <= (7 / 100) ^ 2 -> 9 / 10 <= vz c -> clear_inside (2 / 5) (2 / 5) (7 / 10) (25 / 4) p c ->
  exists k q, (k <= 2)%nat /\ course (round_dish 5 (25 / 4)) (2 / 5) (2 / 5) (7 / 10) (25 / 4) (9 / 10) (9 / 10) v d e (1 + k) (Some (e * (9 / 10) * (9 / 10) ^ k, q)) /\
    - ((2 / 5) / 2) < vx q < (2 / 5) / 2 /\ - ((2 / 5) / 2) < vy q < (2 / 5) / 2 /\ vz q = (25 / 4) + (7 / 10).
Proof. exact default_course. Qed.
Print Assumptions c91_folded.
Theorem c91_shadow : forall v d, vz v = 7 * sqrt 2 -> in_square (3 / 20) v -> deviates downwards (5 / 1000) d -> stopped (round_dish 5 (25 / 4)) (2 / 5) (2 / 5) (7 / 10) (25 / 4) v d.
Proof. exact default_shadow. Qed.
Print Assumptions c91_shadow.
Example c91_parts_example : in_ring (7 / 20) (49 / 20) (V3 1 0 (7 * sqrt 2)) /\ in_square (3 / 20) (V3 (1 / 10) (- (1 / 10)) (7 * sqrt 2)) /\
  deviates downwards (5 / 1000) downwards /\ dish_safe (25 / 4) downwards.
Proof. exact parts_example. Qed.

(** So if all rays start in these two parts and their ways are clear, the map has the energy of those
    in the ring, less 10% at the dish and at most 10% at each of two walls. *)
Theorem c91_default : forall limit n sc g, reached limit sc -> (3 <= limit)%nat -> (0 < n)%nat -> INR n <= 10 ^ 10 -> fair (g_rng g) -> (forall id, g_acc g id = mkAcc [] []) ->
  exists rays rnd vs ds es,
    solar_disk_bundle n sun_center sun_direction (5 / 2) (5 / 1000) (Some 1000) (g_rng g) = Ok (rays, rnd) /\
    seen_by_dish rays vs ds /\ b_energy rays = Some es /\ sunlight n vs ds es /\
    ((forall j v d, nth_error vs j = Some v -> nth_error ds j = Some d -> dish_safe (25 / 4) d /\
       (in_square (3 / 20) v \/ in_ring (7 / 20) (49 / 20) v /\
        forall m c p, mirrored_at (round_dish 5 (25 / 4)) (2 / 5) (2 / 5) (7 / 10) (25 / 4) v d m c -> enters (round_dish 5 (25 / 4)) (2 / 5) (2 / 5) (25 / 4) m c p ->
          clear_inside (2 / 5) (2 / 5) (7 / 10) (25 / 4) p c)) ->
     exists sc' M g' k, test_case limit (25 / 4) n (7 / 10) (2 / 5) g sc = (sc', Ok (M, g')) /\ sum_where (in_ring (7 / 20) (49 / 20)) (fun _ => 1) vs k /\
       (9 / 10) ^ 3 * (k / INR n * (1000 * (PI * (5 / 2) ^ 2))) <= total (concat M) * (1000 * (2 / 5 / 50) ^ 2) <= 9 / 10 * (k / INR n * (1000 * (PI * (5 / 2) ^ 2)))).
Proof. exact test_case_default. Qed.
Print Assumptions c91_default.

(** Random numbers for which all of this holds. *)
Example c91_example : reached 5 start /\ fair case_numbers /\ INR 1 <= 10 ^ 10 /\
  (forall rays rnd vs ds, solar_disk_bundle 1 sun_center sun_direction (5 / 2) (5 / 1000) (Some 1000) case_numbers = Ok (rays, rnd) -> seen_by_dish rays vs ds ->
   forall j v d, nth_error vs j = Some v -> nth_error ds j = Some d -> dish_safe (25 / 4) d /\
    (in_square (3 / 20) v \/ in_ring (7 / 20) (49 / 20) v /\
     forall m c p, mirrored_at (round_dish 5 (25 / 4)) (2 / 5) (2 / 5) (7 / 10) (25 / 4) v d m c -> enters (round_dish 5 (25 / 4)) (2 / 5) (2 / 5) (25 / 4) m c p ->
       clear_inside (2 / 5) (2 / 5) (7 / 10) (25 / 4) p c)).
Proof. split; [apply start_reached|]. split; [exact case_fair|]. split; [cbn; lra|exact case_course]. Qed.
