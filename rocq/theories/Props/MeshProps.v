(** C37: the meshes of the geometry managers and of surfaces. *)
From Coq Require Import Reals List Arith Bool Lra.
From Verif.Base Require Import Py Num Vec.
From Verif.Model Require Import RayBundle Boundary Geometry OpticsCallables Surface Mesh.
From Verif.Proof Require Import GeomCases MeshProof.
From Verif.Spec Require Import GeometrySpec GeomIface MeshSpec.
Import ListNotations.
Local Open Scope R_scope.

(** The mesh of a rectangular plate consists of its points, and no point of the plate
    is further than two units of the resolution from one of them. *)
Theorem c37_rectangle : forall w h gm res, new_rect_plate w h = Ok gm -> 0 < res ->
  meshed (geom_mesh gm res) (rectangle w h) (rectangle w h) (2 / res).
Proof. exact rect_meshed. Qed.
Print Assumptions c37_rectangle.

Example c37_rectangle_example : new_rect_plate 2 4 = Ok (RectPlate (2 / 2) (4 / 2)) /\
  geom_mesh (RectPlate (2 / 2) (4 / 2)) (3 / 4) =
    Ok [[V3 (-1) (-2) 0; V3 (-1) 0 0; V3 (-1) 2 0]; [V3 1 (-2) 0; V3 1 0 0; V3 1 2 0]].
Proof. exact plate_case. Qed.

(** A round plate: up to a hundredth of a unit of the resolution outside. *)
Theorem c37_round : forall R gm res, new_round_plate R = Ok gm -> 0 < res ->
  meshed (geom_mesh gm res) (disk R) (disk (R + 1 / (100 * res))) (2 / res).
Proof. exact round_meshed. Qed.
Print Assumptions c37_round.
(** Some points do lie outside. *)
Theorem c37_round_refuted : exists gm res m p, new_round_plate 1 = Ok gm /\ 0 < res /\ geom_mesh gm res = Ok m /\ in_mesh m p /\ ~ disk 1 p.
Proof. exact round_overshoots. Qed.
Print Assumptions c37_round_refuted.

(** The triangle; the resolution is the number of points along an edge. *)
Theorem c37_triangle : forall v0 v1 n, (2 <= n)%nat ->
  meshed (geom_mesh (new_triangle v0 v1) (INR n)) (triangle v0 v1) (triangle v0 v1) ((norm v0 + norm v1) / INR (n - 1)).
Proof. exact triangle_meshed. Qed.
Print Assumptions c37_triangle.
Theorem c37_coarse_triangle : forall v0 v1 res, res < 2 -> geom_mesh (new_triangle v0 v1) res = Err ValueError.
Proof. exact coarse_triangle. Qed.
Print Assumptions c37_coarse_triangle.

Theorem c37_sphere : forall R gm res, new_sphere R = Ok gm -> 0 < res ->
  meshed (geom_mesh gm res) (ball_surface R) (ball_surface R) (2 / res).
Proof. exact sphere_meshed. Qed.
Print Assumptions c37_sphere.

(** The hemisphere, when the resolution is at least 1/(pi R). *)
Theorem c37_hemisphere : forall R gm res, new_hemisphere R = Ok gm -> 0 < res -> 1 <= PI * (R * res) ->
  meshed (geom_mesh gm res) (lower_half (ball_surface R)) (lower_half (ball_surface R)) (2 / res).
Proof. exact hemisphere_meshed. Qed.
Print Assumptions c37_hemisphere.
(** For coarser resolutions the mesh has points in the upper half. *)
Theorem c37_hemisphere_refuted : forall R gm res, new_hemisphere R = Ok gm -> 1 < 2 * PI * (R * res) -> PI * (R * res) < 1 -> 0 < res ->
  exists m p, geom_mesh gm res = Ok m /\ in_mesh m p /\ 0 < vz p.
Proof. exact hemisphere_overshoots. Qed.
Print Assumptions c37_hemisphere_refuted.
Example c37_hemisphere_example : 1 < 2 * PI * (1 * (1 / 4)) /\ PI * (1 * (1 / 4)) < 1 /\ 1 <= PI * (1 * (1 / 2)).
Proof. exact hemisphere_case. Qed.

(** The cut sphere has the mesh of the whole sphere, whatever its bounding volume. *)
Theorem c37_cut_sphere : forall R bound gm res, new_cut_sphere R bound = Ok gm -> 0 < res ->
  meshed (geom_mesh gm res) (ball_surface R) (ball_surface R) (2 / res).
Proof. exact cut_sphere_meshed. Qed.
Print Assumptions c37_cut_sphere.
Theorem c37_cut_sphere_refuted : forall R bound gm res, new_cut_sphere R (Some bound) = Ok gm -> 0 < res -> ~ volume bound (V3 0 0 R) ->
  exists m, geom_mesh gm res = Ok m /\ in_mesh m (V3 0 0 R).
Proof. exact cut_overshoots. Qed.
Print Assumptions c37_cut_sphere_refuted.
Example c37_cut_sphere_example : ~ volume (BPlane (mk4 id3 (V3 0 0 2))) (V3 0 0 1).
Proof. exact MeshProof.cut_case. Qed.

(** The cylinder: up to half a unit of the resolution above the upper rim. *)
Theorem c37_cylinder : forall D h res, 0 < D -> 0 < res ->
  meshed (geom_mesh (new_finite_cylinder D h) res) (round_wall_of_height D h) (longer_wall D h (1 / (2 * res))) (2 / res).
Proof. exact cylinder_meshed. Qed.
Print Assumptions c37_cylinder.
Theorem c37_cylinder_refuted : exists m p, geom_mesh (new_finite_cylinder 2 1) (4 / 5) = Ok m /\ in_mesh m p /\ 1 / 2 < vz p.
Proof. exact cylinder_overshoots. Qed.
Print Assumptions c37_cylinder_refuted.
Theorem c37_no_diameter : forall h res, geom_mesh (new_finite_cylinder 0 h) res = Err ZeroDivisionError.
Proof. exact thin_cylinder. Qed.
Print Assumptions c37_no_diameter.

(** The parabolic dish: up to a hundredth of a unit of the resolution outside. *)
Theorem c37_dish : forall D f gm res, new_dish D f = Ok gm -> 0 < D -> 0 < res ->
  meshed (geom_mesh gm res) (round_dish D f) (larger_dish D f (1 / (100 * res))) ((2 + D / (4 * f)) / res).
Proof. exact dish_meshed. Qed.
Print Assumptions c37_dish.

(** The other classes have no mesh method. *)
Theorem c37_no_mesh : forall g res, g = Base \/ g = Flat \/ (exists d, g = new_cylinder d) \/ (exists a b, new_parab a b = Ok g) \/
  (exists d f, new_hex_dish d f = Ok g) -> geom_mesh g res = Err AttributeError.
Proof. exact no_mesh. Qed.
Print Assumptions c37_no_mesh.

(** The number of points is of the order of the area times the resolution squared,
    once the resolution gives a point for each dimension. *)
Theorem c37_rectangle_points : forall w h gm res, new_rect_plate w h = Ok gm -> 1 <= w * res -> 1 <= h * res ->
  in_proportion (geom_mesh gm res) (w * h) res.
Proof. exact rect_points. Qed.
Print Assumptions c37_rectangle_points.
Theorem c37_round_points : forall R gm res, new_round_plate R = Ok gm -> 1 <= R * res ->
  in_proportion (geom_mesh gm res) (PI * (R * R)) res.
Proof. exact round_points. Qed.
Print Assumptions c37_round_points.
Theorem c37_sphere_points : forall R gm res, new_sphere R = Ok gm -> 1 <= R * res ->
  in_proportion (geom_mesh gm res) (4 * PI * (R * R)) res.
Proof. exact sphere_points. Qed.
Print Assumptions c37_sphere_points.
Theorem c37_hemisphere_points : forall R gm res, new_hemisphere R = Ok gm -> 1 <= R * res ->
  in_proportion (geom_mesh gm res) (2 * PI * (R * R)) res.
Proof. exact hemisphere_points. Qed.
Print Assumptions c37_hemisphere_points.
Theorem c37_cylinder_points : forall D h res, 0 < D -> 1 <= D / 2 * res -> 1 <= h * res ->
  in_proportion (geom_mesh (new_finite_cylinder D h) res) (PI * D * h) res.
Proof. exact cylinder_points. Qed.
Print Assumptions c37_cylinder_points.
(** For the dish in terms of the area of its opening. *)
Theorem c37_dish_points : forall D f gm res, new_dish D f = Ok gm -> 0 < D -> 1 <= D / 2 * res ->
  in_proportion (geom_mesh gm res) (PI * (D / 2 * (D / 2))) res.
Proof. exact dish_points. Qed.
Print Assumptions c37_dish_points.
Theorem c37_triangle_points : forall v0 v1 n, (2 <= n)%nat ->
  exists m, geom_mesh (new_triangle v0 v1) (INR n) = Ok m /\ points m = (n * n)%nat.
Proof. exact triangle_points. Qed.
Print Assumptions c37_triangle_points.

(** The mesh of a surface is that of its geometry manager, moved to where the surface
    stands. *)
Theorem c37_surface : forall s res A A' o, rigid (s_frame s) -> meshed (geom_mesh (s_geom s) res) A A' o ->
  meshed (surf_mesh s res) (placed (s_frame s) A) (placed (s_frame s) A') o.
Proof. exact surface_meshed. Qed.
Print Assumptions c37_surface.
Example c37_surface_example : forall res, 0 < res -> exists s, s = new_surface (RectPlate (2 / 2) (4 / 2)) (Refractive 1 2) frame1 /\ rigid (s_frame s) /\
  meshed (surf_mesh s res) (placed frame1 (rectangle 2 4)) (placed frame1 (rectangle 2 4)) (2 / res).
Proof. exact shown_case. Qed.
