(** C16 (geometry part) and C21-C36: the geometry managers. *)
From Coq Require Import Reals List Arith Bool Lra.
From Verif.Base Require Import Py Num Vec.
From Verif.Model Require Import RayBundle Boundary Geometry.
From Verif.Spec Require Import GeometrySpec GeomIface.
From Verif.Proof Require Import VecLemmas GeomProof GeomTop GeomCases BoundMore TurnProof.
Import ListNotations.
Local Open Scope R_scope.

(** Concrete rays: from (1,10,4) along -Y onto [frame1], whose XY plane is the
    global plane y = 2 and whose origin is (1,2,3). *)
Ltac flat_example :=
  apply flat_case; [exact frame1_rigid | | lra | |];
  [ let q := fresh in intros q Hq; unfold xy_plane, rectangle, disk in Hq; tauto
  | unfold frame1, turn_x, z_of; vunfold; lra
  | exists (V3 0 1 0); split;
    [ unfold xy_plane, rectangle, disk; cbn [vx vy vz]; lra
    | unfold frame1, turn_x, ray_at; vunfold; veq; ring ] ].

(** C16: library classes other than the hemisphere and the bounded cut sphere
    report no negative and no NaN parameter, in any frame. *)
Theorem c16_library_params_proper : forall gm frame b st ps,
  match gm with Hemisphere _ | CutSphere _ (Some _) => False | _ => True end ->
  find_intersections gm frame b = Ok (st, ps) -> Forall proper_param ps.
Proof. exact proper_params. Qed.
Print Assumptions c16_library_params_proper.

(** The hemisphere can report a negative parameter when given several rays. *)
Theorem c16_hemisphere_negative_refuted : exists gm frame b st ps,
  new_hemisphere 1 = Ok gm /\ rigid frame /\
  find_intersections gm frame b = Ok (st, ps) /\ ~ Forall proper_param ps.
Proof. exact hemisphere_negative. Qed.
Print Assumptions c16_hemisphere_negative_refuted.

(** C21 *)
Theorem c21_infinite_plane : forall frame, rigid frame ->
  finds Flat frame (flat_answer frame xy_plane).
Proof. exact plane_finds. Qed.
Print Assumptions c21_infinite_plane.

(** The plane is met at most once. *)
Theorem c21_unique : forall frame v d t u, rigid frame -> inclined frame d ->
  placed frame xy_plane (ray_at v d t) -> placed frame xy_plane (ray_at v d u) -> t = u.
Proof. exact plane_once. Qed.
Print Assumptions c21_unique.

Example c21_example : rigid frame1 /\ inclined frame1 (V3 0 (-1) 0) /\
  first_hit0 (placed frame1 xy_plane) (V3 1 10 4) (V3 0 (-1) 0) (Fin 8) /\
  ~ inclined frame1 (V3 1 0 0).
Proof.
  split; [exact frame1_rigid|]. split; [|split].
  - unfold inclined, frame1, turn_x, z_of. vunfold. pose proof tenm10_small.
    rewrite Rabs_right; lra.
  - flat_example.
  - unfold inclined, frame1, turn_x, z_of. vunfold. pose proof (NumLemmas.tenm_pos 10).
    rewrite Rabs_right; lra.
Qed.

(** C22 *)
Theorem c22_rect_plate : forall width height gm frame,
  new_rect_plate width height = Ok gm -> rigid frame ->
  finds gm frame (flat_answer frame (rectangle width height)).
Proof. exact rect_finds. Qed.
Print Assumptions c22_rect_plate.

Theorem c22_rejected : forall width height,
  new_rect_plate width height = Err ValueError <-> width <= 0 \/ height <= 0.
Proof. exact rect_rejected. Qed.
Print Assumptions c22_rejected.

Theorem c22_accepted : forall width height,
  (exists gm, new_rect_plate width height = Ok gm) <-> 0 < width /\ 0 < height.
Proof. exact rect_accepted. Qed.
Print Assumptions c22_accepted.

Example c22_example :
  first_hit0 (placed frame1 (rectangle 1 2)) (V3 1 10 4) (V3 0 (-1) 0) (Fin 8) /\
  first_hit0 (placed frame1 (rectangle 1 1)) (V3 1 10 4) (V3 0 (-1) 0) PInf.
Proof.
  split; [flat_example|]. intros t (_ & q & (Hz & _ & Hy) & E).
  unfold frame1, turn_x, ray_at in E. vunfold. injection E as E1 E2 E3. lra.
Qed.

(** C23 *)
Theorem c23_round_plate : forall radius gm frame,
  new_round_plate radius = Ok gm -> rigid frame ->
  finds gm frame (flat_answer frame (disk radius)).
Proof. exact round_finds. Qed.
Print Assumptions c23_round_plate.

Theorem c23_rejected : forall radius, new_round_plate radius = Err ValueError <-> radius <= 0.
Proof. exact round_rejected. Qed.
Print Assumptions c23_rejected.

Example c23_example :
  first_hit0 (placed frame1 (disk 1)) (V3 1 10 4) (V3 0 (-1) 0) (Fin 8) /\
  first_hit0 (placed frame1 (disk (1/2))) (V3 1 10 4) (V3 0 (-1) 0) PInf.
Proof.
  split; [flat_example|]. intros t (_ & q & (Hz & Hy) & E).
  unfold frame1, turn_x, ray_at in E. vunfold. injection E as E1 E2 E3. nra.
Qed.

(** C24, for linearly independent [v0], [v1] of the local XY plane. *)
Theorem c24_triangle : forall v0 v1 frame, rigid frame ->
  vz v0 = 0 -> vz v1 = 0 -> vx v0 * vy v1 - vx v1 * vy v0 <> 0 ->
  finds (new_triangle v0 v1) frame (flat_answer frame (triangle v0 v1)).
Proof. exact triangle_finds. Qed.
Print Assumptions c24_triangle.

(** When one corner is a multiple of the other the whole plane is reported. *)
Theorem c24_degenerate_is_plane : forall v0 k frame, rigid frame ->
  finds (new_triangle v0 (vscale k v0)) frame (flat_answer frame xy_plane).
Proof. exact degenerate_finds. Qed.
Print Assumptions c24_degenerate_is_plane.

Example c24_example :
  first_hit0 (placed frame1 (triangle (V3 2 0 0) (V3 0 2 0))) (V3 1 10 4) (V3 0 (-1) 0) (Fin 8).
Proof.
  apply flat_case; [exact frame1_rigid| |lra| |].
  - intros q (s & t & _ & _ & _ & ->). vunfold. ring.
  - unfold frame1, turn_x, z_of. vunfold. lra.
  - exists (V3 0 1 0). split.
    + exists 0, (1/2). repeat split; try lra. vunfold. veq; field.
    + unfold frame1, turn_x, ray_at. vunfold. veq; ring.
Qed.

(** C25 *)
Theorem c25_sphere : forall radius gm frame, new_sphere radius = Ok gm -> rigid frame ->
  finds gm frame (fun v d x => tenm 10 < norm2 d ->
    first_hit (placed frame (ball_surface radius)) v d x).
Proof. exact sphere_finds. Qed.
Print Assumptions c25_sphere.

Theorem c25_rejected : forall radius, new_sphere radius = Err ValueError <-> radius <= 0.
Proof. exact sphere_rejected. Qed.
Print Assumptions c25_rejected.

Example c25_example : (exists gm, new_sphere 2 = Ok gm) /\
  first_hit (placed frame1 (ball_surface 2)) (V3 1 10 3) (V3 0 (-1) 0) (Fin 6).
Proof. exact sphere_case. Qed.

(** C26 *)
Theorem c26_hemisphere : forall radius gm frame, new_hemisphere radius = Ok gm -> rigid frame ->
  finds_one gm frame (fun v d x => tenm 10 < norm2 d ->
    first_hit (placed frame (lower_half (ball_surface radius))) v d x).
Proof. exact hemisphere_finds. Qed.
Print Assumptions c26_hemisphere.

Example c26_example : (exists gm, new_hemisphere 2 = Ok gm) /\
  first_hit (placed frame1 (lower_half (ball_surface 2))) (V3 1 (-10) 3) (V3 0 1 0) (Fin 14).
Proof. exact hemisphere_case. Qed.

(** Many rays at once: the answers are right exactly when no ray that only leaves
    the sphere through the hemisphere comes before one that only enters it. *)
Theorem c26_bundle : forall radius gm frame, new_hemisphere radius = Ok gm -> rigid frame ->
  finds_entering_first gm frame (placed frame (lower_half (ball_surface radius))) (app4 frame (V3 0 0 0)).
Proof. exact hemisphere_in_turn. Qed.
Print Assumptions c26_bundle.

Example c26_bundle_example : entering_first below (V3 0 0 0) [up_from; down_from] [up; down] /\
  ~ entering_first below (V3 0 0 0) [down_from; up_from] [down; up].
Proof. exact turn_case. Qed.

(** C27: with a sphere or a plane as bounding volume, or none. *)
Theorem c27_cut_sphere : forall radius bound gm frame,
  new_cut_sphere radius (Some bound) = Ok gm -> rigid frame -> sphere_or_plane bound ->
  finds_one gm frame (fun v d x => tenm 10 < norm2 d ->
    first_hit (placed frame (fun q => ball_surface radius q /\ volume bound q)) v d x).
Proof. exact cut_sphere_finds. Qed.
Print Assumptions c27_cut_sphere.

Theorem c27_bundle : forall radius bound gm frame,
  new_cut_sphere radius (Some bound) = Ok gm -> rigid frame -> sphere_or_plane bound ->
  finds_entering_first gm frame (placed frame (fun q => ball_surface radius q /\ volume bound q)) (app4 frame (V3 0 0 0)).
Proof. exact cut_sphere_in_turn. Qed.
Print Assumptions c27_bundle.

Theorem c27_uncut : forall radius gm frame,
  new_cut_sphere radius None = Ok gm -> rigid frame ->
  finds gm frame (fun v d x => tenm 10 < norm2 d ->
    first_hit (placed frame (ball_surface radius)) v d x).
Proof. exact uncut_sphere_finds. Qed.
Print Assumptions c27_uncut.

(** With a cylinder as bounding volume the call always fails, whenever the
    sphere itself is met. *)
Theorem c27_cylinder_bound_fails : forall radius diameter loc rot gm frame b v d,
  new_cut_sphere radius (Some (new_bcylinder diameter loc rot)) = Ok gm ->
  rigid frame -> tenm 10 < norm2 d -> has_rays b [v] [d] ->
  (exists t, placed frame (ball_surface radius) (ray_at v d t)) ->
  find_intersections gm frame b = Err ValueError.
Proof. exact cut_by_cylinder. Qed.
Print Assumptions c27_cylinder_bound_fails.

Example c27_example : sphere_or_plane (BPlane frame0) /\
  first_hit (placed frame0 (fun q => ball_surface 2 q /\ volume (BPlane frame0) q))
    (V3 0 0 (-10)) (V3 0 0 1) (Fin 12).
Proof. exact cut_case. Qed.

(** C28 *)
Theorem c28_cylinder : forall diameter frame, rigid frame ->
  finds (new_cylinder diameter) frame (fun v d x => cylinder_safe frame diameter v d ->
    first_hit (placed frame (round_wall diameter)) v d x).
Proof. exact cylinder_finds. Qed.
Print Assumptions c28_cylinder.

(** A ray of unit direction almost parallel to the axis is answered with a point
    that is not on the cylinder. *)
Theorem c28_nearly_parallel_refuted : exists diameter frame b v d st x,
  0 < diameter /\ rigid frame /\ has_rays b [v] [d] /\ norm2 d = 1 /\
  find_intersections (new_cylinder diameter) frame b = Ok (st, [x]) /\
  ~ first_hit (placed frame (round_wall diameter)) v d x.
Proof. exact cylinder_wrong. Qed.
Print Assumptions c28_nearly_parallel_refuted.

Example c28_example : cylinder_safe frame0 2 (V3 (-3) 0 0) (V3 1 0 0) /\
  first_hit (placed frame0 (round_wall 2)) (V3 (-3) 0 0) (V3 1 0 0) (Fin 2).
Proof. exact cylinder_case. Qed.

(** C29 *)
Theorem c29_finite_cylinder : forall diameter height frame, rigid frame ->
  finds (new_finite_cylinder diameter height) frame (fun v d x => cylinder_safe frame diameter v d ->
    first_hit (placed frame (round_wall_of_height diameter height)) v d x).
Proof. exact finite_cylinder_finds. Qed.
Print Assumptions c29_finite_cylinder.

Example c29_example :
  first_hit (placed frame0 (round_wall_of_height 2 2)) (V3 (-3) 0 1) (V3 1 0 0) (Fin 2) /\
  first_hit (placed frame0 (round_wall_of_height 2 2)) (V3 (-3) 0 2) (V3 1 0 0) PInf.
Proof. exact finite_cylinder_case. Qed.

(** C30 *)
Theorem c30_paraboloid : forall a b gm frame, new_parab a b = Ok gm -> rigid frame ->
  finds gm frame (fun v d x => bowl_safe frame a b d ->
    first_hit (placed frame (elliptic_bowl a b)) v d x).
Proof. exact parab_finds. Qed.
Print Assumptions c30_paraboloid.

Theorem c30_rejected : forall a b, (exists gm, new_parab a b = Ok gm) <-> a <> 0 /\ b <> 0.
Proof. exact parab_accepted. Qed.
Print Assumptions c30_rejected.

(** A ray of unit direction almost parallel to the axis is reported to miss,
    although it meets the paraboloid. *)
Theorem c30_nearly_parallel_refuted : exists a b gm frame bn v d st x,
  new_parab a b = Ok gm /\ rigid frame /\ has_rays bn [v] [d] /\ norm2 d = 1 /\
  find_intersections gm frame bn = Ok (st, [x]) /\
  ~ first_hit (placed frame (elliptic_bowl a b)) v d x.
Proof. exact bowl_wrong. Qed.
Print Assumptions c30_nearly_parallel_refuted.

Example c30_example : bowl_safe frame0 1 2 (V3 0 0 (-1)) /\
  first_hit (placed frame0 (elliptic_bowl 1 2)) (V3 1 2 5) (V3 0 0 (-1)) (Fin 3).
Proof. exact bowl_case. Qed.

(** C31 *)
Theorem c31_parabolic_dish : forall diameter f gm frame, new_dish diameter f = Ok gm -> rigid frame ->
  finds gm frame (fun v d x => bowl_safe frame (2 * sqrt f) (2 * sqrt f) d ->
    first_hit (placed frame (round_dish diameter f)) v d x).
Proof. exact dish_finds. Qed.
Print Assumptions c31_parabolic_dish.

Theorem c31_accepted : forall diameter f, (exists gm, new_dish diameter f = Ok gm) <-> 0 < f.
Proof. exact dish_accepted. Qed.
Print Assumptions c31_accepted.

Example c31_example : bowl_safe frame0 (2 * sqrt 1) (2 * sqrt 1) (V3 0 0 (-1)) /\
  first_hit (placed frame0 (round_dish 4 1)) (V3 2 0 5) (V3 0 0 (-1)) (Fin 4) /\
  first_hit (placed frame0 (round_dish 2 1)) (V3 2 0 5) (V3 0 0 (-1)) PInf.
Proof. exact dish_case. Qed.

(** C32 *)
Theorem c32_hexagonal_dish : forall diameter f gm frame, new_hex_dish diameter f = Ok gm -> rigid frame ->
  finds gm frame (fun v d x => bowl_safe frame (2 * sqrt f) (2 * sqrt f) d ->
    first_hit (placed frame (hex_dish diameter f)) v d x).
Proof. exact hex_finds. Qed.
Print Assumptions c32_hexagonal_dish.

Theorem c32_accepted : forall diameter f, (exists gm, new_hex_dish diameter f = Ok gm) <-> 0 < f.
Proof. exact hex_accepted. Qed.
Print Assumptions c32_accepted.

(** The corner at (0, 2) belongs to the hexagon of diameter 4, the point (2, 0)
    does not. *)
Example c32_example :
  first_hit (placed frame0 (hex_dish 4 1)) (V3 0 2 5) (V3 0 0 (-1)) (Fin 4) /\
  first_hit (placed frame0 (hex_dish 4 1)) (V3 2 0 5) (V3 0 0 (-1)) PInf.
Proof. exact hex_case. Qed.

(** C33: unit normals, along the gradient of the implicit equation at the hit
    point, not pointing along the incoming ray. *)
Theorem c33_normals : forall gm frame b st ps idxs st', rigid frame ->
  find_intersections gm frame b = Ok (st, ps) -> all_hit ps idxs ->
  select_geom gm st idxs = Ok st' ->
  exists ns, get_normals st' = Ok ns /\
    Forall2 (fun i n => exists d p q g, direction_of b i d /\ point_of b ps i p /\ p = app4 frame q /\
               is_gradient (implicit gm) q g /\ good_normal frame g d n) idxs ns.
Proof. exact normals_reported. Qed.
Print Assumptions c33_normals.

(** C34: the points reported for the selected rays. *)
Theorem c34_points : forall gm frame b st ps idxs st',
  find_intersections gm frame b = Ok (st, ps) -> all_hit ps idxs ->
  select_geom gm st idxs = Ok st' ->
  exists pts, get_points st' = Ok pts /\ Forall2 (point_of b ps) idxs pts.
Proof. exact points_reported. Qed.
Print Assumptions c34_points.

(** Selecting succeeds where the surface has a normal. *)
Theorem c34_select_total : forall gm frame b st ps idxs, rigid frame ->
  find_intersections gm frame b = Ok (st, ps) -> all_hit ps idxs ->
  (forall i p q g, In i idxs -> point_of b ps i p -> p = app4 frame q ->
     is_gradient (implicit gm) q g -> norm2 g <> 0) ->
  exists st', select_geom gm st idxs = Ok st'.
Proof. exact select_total. Qed.
Print Assumptions c34_select_total.

(** A bundle of two rays on a plate, one of which hits. *)
Example c34_example : exists gm st ps st',
  new_rect_plate 1 2 = Ok gm /\
  find_intersections gm frame1 (rays [V3 1 10 4; V3 7 10 4] [V3 0 (-1) 0; V3 0 (-1) 0]) = Ok (st, ps) /\
  ps = [Fin 8; PInf] /\ all_hit ps [0%nat] /\ select_geom gm st [0%nat] = Ok st'.
Proof. exact plate_case. Qed.

(** C35 *)
Theorem c35_independent : forall gm frame b vs ds st ps i v d b1,
  match gm with Hemisphere _ | CutSphere _ (Some _) => False | _ => True end ->
  has_rays b vs ds -> find_intersections gm frame b = Ok (st, ps) ->
  nth_error vs i = Some v -> nth_error ds i = Some d -> has_rays b1 [v] [d] ->
  exists st1 x, nth_error ps i = Some x /\ find_intersections gm frame b1 = Ok (st1, [x]).
Proof. exact independent_params. Qed.
Print Assumptions c35_independent.

(** The example of C34 has two rays with different answers; for the hemisphere
    two rays get each other's root. *)
Theorem c35_hemisphere_refuted : exists gm frame va da vb db sta stb st,
  new_hemisphere 1 = Ok gm /\ rigid frame /\
  find_intersections gm frame (rays [va] [da]) = Ok (sta, [Fin 3]) /\
  find_intersections gm frame (rays [vb] [db]) = Ok (stb, [Fin 1]) /\
  find_intersections gm frame (rays [va; vb] [da; db]) = Ok (st, [Fin 1; Fin 3]).
Proof. exact hemisphere_swaps. Qed.
Print Assumptions c35_hemisphere_refuted.

(** C36 *)
Theorem c36_sphere : forall centre radius frame, rigid frame ->
  says_inside (BSphere centre radius) frame.
Proof. exact sphere_says. Qed.
Print Assumptions c36_sphere.

Theorem c36_plane : forall tr frame, rigid tr -> rigid frame -> says_inside (BPlane tr) frame.
Proof. exact plane_says. Qed.
Print Assumptions c36_plane.

Example c36_example : rigid frame1 /\
  placed frame1 (volume (BSphere (V3 0 0 1) 2)) (V3 1 1 5) /\
  placed frame1 (volume (BPlane frame0)) (V3 0 0 0) /\ ~ placed frame1 (volume (BPlane frame0)) (V3 0 3 0).
Proof. exact volume_case. Qed.

(** The cylinder answers only for exactly three points, and then wrongly. *)
Theorem c36_cylinder_fails : forall diameter loc rot frame ps, length ps <> 3%nat ->
  in_bounds (transform_frame_b (new_bcylinder diameter loc rot) frame) ps = Err ValueError.
Proof. exact cylinder_in_bounds_count. Qed.
Print Assumptions c36_cylinder_fails.

Theorem c36_cylinder_refuted : exists diameter loc frame p0 p1 p2 flags, rigid frame /\
  in_bounds (transform_frame_b (new_bcylinder diameter loc id3) frame) (map nfin [p0; p1; p2]) = Ok flags /\
  nth_error flags 0 = Some false /\ placed frame (volume (new_bcylinder diameter loc id3)) p0.
Proof. exact cylinder_in_bounds_refuted. Qed.
Print Assumptions c36_cylinder_refuted.

(** Three points and no motion but along the axis: the answer is right. *)
Theorem c36_cylinder_axis : forall diameter z z' rot ps, length ps = 3%nat -> exists flags,
  in_bounds (transform_frame_b (new_bcylinder diameter (V3 0 0 z) rot) (mk4 id3 (V3 0 0 z'))) (map nfin ps) = Ok flags /\
  Forall2 (fun p (f : bool) => f = true <-> vx p * vx p + vy p * vy p <= (diameter / 2) * (diameter / 2)) ps flags.
Proof. exact cylinder_along_axis. Qed.
Print Assumptions c36_cylinder_axis.
Example c36_axis_example : length [V3 1 0 0; V3 0 0 5; V3 3 4 0] = 3%nat.
Proof. reflexivity. Qed.

(** Three points in general: each is moved by the location and then by the frame, instead of
    back, and its distance from the global Z axis is looked at. *)
Theorem c36_cylinder_answer : forall diameter loc rot frame ps, rigid frame -> length ps = 3%nat -> exists flags,
  in_bounds (transform_frame_b (new_bcylinder diameter loc rot) frame) (map nfin ps) = Ok flags /\
  Forall2 (fun p (f : bool) => f = true <->
    let q := app4 frame (vadd p loc) in vx q * vx q + vy q * vy q <= (diameter / 2) * (diameter / 2)) ps flags.
Proof. exact cylinder_answer. Qed.
Print Assumptions c36_cylinder_answer.
Example c36_answer_example : rigid frame1 /\ length [V3 0 0 0; V3 2 0 0; V3 (-5) 0 2] = 3%nat /\
  let q := app4 frame1 (vadd (V3 (-5) 0 2) (V3 4 1 0)) in vx q * vx q + vy q * vy q <= (4 / 2) * (4 / 2).
Proof. exact answer_case. Qed.

(** The rotation given to a BoundaryCylinder has no effect. *)
Theorem c36_cylinder_rotation_refuted : exists diameter loc rot p, orthonormal rot /\ 0 < diameter /\
  placed (mk4 rot loc) (solid_cylinder (diameter / 2)) p /\ ~ volume (new_bcylinder diameter loc rot) p.
Proof. exact cylinder_rotation_refuted. Qed.
Print Assumptions c36_cylinder_rotation_refuted.

(** The bounding rectangle is right for an untransformed sphere with its centre
    on the global plane z = 0, wrong elsewhere, and fails once transformed. *)
Theorem c36_bounding_rect : forall tr centre radius rect, rigid tr -> vz centre = 0 ->
  bounding_rect false centre radius tr = Ok rect -> covers_section tr centre radius rect.
Proof. exact bounding_rect_ok. Qed.
Print Assumptions c36_bounding_rect.

Theorem c36_bounding_rect_refuted : exists tr centre radius rect, rigid tr /\ 0 < radius /\
  bounding_rect false centre radius tr = Ok rect /\ ~ covers_section tr centre radius rect.
Proof. exact bounding_rect_refuted. Qed.
Print Assumptions c36_bounding_rect_refuted.

Theorem c36_bounding_rect_moved_fails : forall centre radius tr, rigid tr ->
  bounding_rect true centre radius tr = Err ValueError.
Proof. exact bounding_rect_moved_rigid. Qed.
Print Assumptions c36_bounding_rect_moved_fails.

Example c36_rect_example : exists rect, bounding_rect false (V3 3 4 0) 2 frame0 = Ok rect /\
  covers_section frame0 (V3 3 4 0) 2 rect.
Proof. exact rect_case. Qed.
