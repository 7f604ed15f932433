(** What each geometry manager finds, under a rigid frame. *)
From Coq Require Import Reals List Arith Bool Lra Lia Psatz.
From Verif.Base Require Import Py Num Vec.
From Verif.Model Require Import RayBundle Boundary Geometry.
From Verif.Spec Require Import GeometrySpec.
From Verif.Proof Require Import ListLemmas NumLemmas VecLemmas FlatProof QuadProof GeomProof.
Import ListNotations.
Local Open Scope R_scope.

(** Inverse of a rigid frame. *)
Definition rinv (r : mat3) (t : vec) : mat4 := mk4 (tr3 r) (vopp (mv3 (tr3 r) t)).

Lemma to_local_rigid r t f v d :
  to_local (mk4 r t) (rinv r t) f v d = f (loc_pt r t v) (mv3 (tr3 r) d).
Proof. unfold to_local, rinv. rewrite app4_inv, rot_mk4. reflexivity. Qed.

Lemma ndot4_rinv r t p :
  ndot4 (q0 (rinv r t)) (nfin p) = Fin (vx (loc_pt r t p)) /\
  ndot4 (q1 (rinv r t)) (nfin p) = Fin (vy (loc_pt r t p)) /\
  ndot4 (q2 (rinv r t)) (nfin p) = Fin (vz (loc_pt r t p)).
Proof. apply ndot4_inv. Qed.

(** ** Flat classes *)
Lemma flat_hit r t v d : orthonormal r -> tenm 10 < Rabs (dot d (col3 r)) ->
  first_hit0 (placed (mk4 r t) xy_plane) v d (param_of Flat (mk4 r t) (rinv r t) v d).
Proof.
  intros O H. apply (flat_first_hit r t xy_plane (fun _ => false)); auto.
  - unfold xy_plane. tauto.
Qed.

Lemma rect_hit r t w h v d : orthonormal r -> tenm 10 < Rabs (dot d (col3 r)) ->
  first_hit0 (placed (mk4 r t) (rectangle w h)) v d
    (param_of (RectPlate (w / 2) (h / 2)) (mk4 r t) (rinv r t) v d).
Proof.
  intros O H. apply (flat_first_hit r t (rectangle w h)); auto.
  - unfold rectangle; tauto.
  - intros p. apply outside_rect_spec.
Qed.

Lemma round_hit r t rad v d : orthonormal r -> tenm 10 < Rabs (dot d (col3 r)) ->
  first_hit0 (placed (mk4 r t) (disk rad)) v d
    (param_of (RoundPlate rad) (mk4 r t) (rinv r t) v d).
Proof.
  intros O H. apply (flat_first_hit r t (disk rad)); auto.
  - unfold disk; tauto.
  - intros p. apply outside_round_spec.
Qed.

Lemma triangle_hit r t v0 v1 v d : orthonormal r -> tenm 10 < Rabs (dot d (col3 r)) ->
  vz v0 = 0 -> vz v1 = 0 -> vx v0 * vy v1 - vx v1 * vy v0 <> 0 ->
  first_hit0 (placed (mk4 r t) (triangle v0 v1)) v d
    (param_of (Triangle v0 v1) (mk4 r t) (rinv r t) v d).
Proof.
  intros O H Z0 Z1 D. apply (flat_first_hit r t (triangle v0 v1)); auto.
  - intros q (a & b & _ & _ & _ & ->). cbn [vadd vscale vz]. rewrite Z0, Z1. ring.
  - intros p Hp. apply outside_triangle_spec; auto.
Qed.

Lemma flat_parallel gm r t v d : is_quad gm = false -> Rabs (dot d (col3 r)) <= tenm 10 ->
  param_of gm (mk4 r t) (rinv r t) v d = PInf.
Proof.
  intros Q H. unfold param_of. rewrite Q, flat_no_hit by auto. apply trimmed_no_hit.
Qed.

(** ** Sphere classes *)
Lemma norm2_loc r t p : orthonormal r -> norm2 (loc_pt r t p) = norm2 (vsub p t).
Proof. intros O. unfold loc_pt. apply orthonormal_norm2. apply orthonormal_transpose; auto. Qed.

Lemma sphere_roots r t rad v d u : orthonormal r ->
  let '(A, B, C) := abc_sphere (mk4 r t) rad v d in
  placed (mk4 r t) (ball_surface rad) (ray_at v d u) <-> A * (u * u) + B * u + C = 0.
Proof.
  intros O. unfold abc_sphere. rewrite loc_mk4, placed_loc by auto.
  unfold ball_surface. rewrite norm2_loc by auto.
  replace (norm2 (vsub (ray_at v d u) t)) with
    (norm2 d * (u * u) + 2 * dot d (vsub v t) * u + norm2 (vsub v t)).
  - split; intros; lra.
  - unfold ray_at. destruct v, d, t. vunfold. ring.
Qed.

Lemma sphere_part r t rad (s : shape) okb v d : orthonormal r -> tenm 10 < norm2 d ->
  (forall p, placed (mk4 r t) s p <-> placed (mk4 r t) (ball_surface rad) p /\ okb (nfin p) = true) ->
  first_hit (placed (mk4 r t) s) v d (quad_param okb (abc_sphere (mk4 r t) rad v d) v d).
Proof.
  intros O H Hs. pose proof (sphere_roots r t rad v d) as K.
  assert (HA : exists B C, abc_sphere (mk4 r t) rad v d = (norm2 d, B, C)) by (unfold abc_sphere; eauto).
  destruct HA as (B & C & E). rewrite E in *.
  apply quad_first.
  - left; auto.
  - intros u. rewrite Hs. rewrite (K u O). tauto.
Qed.

Lemma sphere_hit r t rad v d : orthonormal r -> tenm 10 < norm2 d ->
  first_hit (placed (mk4 r t) (ball_surface rad)) v d
    (param_of (Sphere rad) (mk4 r t) (rinv r t) v d).
Proof. intros O H. apply sphere_part; auto. intros p. tauto. Qed.

Lemma hemisphere_hit r t rad v d : orthonormal r -> tenm 10 < norm2 d ->
  first_hit (placed (mk4 r t) (lower_half (ball_surface rad))) v d
    (param_of (Hemisphere rad) (mk4 r t) (rinv r t) v d).
Proof.
  intros O H. apply sphere_part; auto. intros p. rewrite !placed_loc by auto.
  unfold lower_half. cbn [ok_of]. destruct (ndot4_rinv r t p) as (_ & _ & ->). cbn [nle].
  rewrite Rleb_true. tauto.
Qed.

(** Bounding volumes placed by a rigid frame. *)
Definition bound_shape (bd : bshape) : shape :=
  match bd with
  | BSphere c r => ball c r
  | BPlane tr => placed tr upper_space
  | BCylinder r tr => placed tr (solid_cylinder r)
  | BBase _ => fun _ => False
  end.

Lemma in_sphere_spec c rad p : in_sphere c rad (nfin p) = true <-> norm2 (vsub p c) <= rad * rad.
Proof. unfold in_sphere. cbn [nfin nx ny nz nsub nneg nadd nmul nle]. rewrite Rleb_true. vunfold. lra. Qed.

Lemma ball_placed r t c rad p : orthonormal r ->
  in_sphere (app4 (mk4 r t) c) rad (nfin p) = true <-> placed (mk4 r t) (ball c rad) p.
Proof.
  intros O. rewrite in_sphere_spec, placed_loc by auto. unfold ball.
  replace (norm2 (vsub (loc_pt r t p) c)) with (norm2 (vsub p (app4 (mk4 r t) c))); [tauto|].
  rewrite <- (orthonormal_norm2 r (vsub (loc_pt r t p) c)) by auto.
  rewrite mv3_vsub, <- loc_pt_back, app4_mk4 by auto.
  f_equal. generalize (mv3 r c). intros [? ? ?]. destruct p, t. vunfold. veq; ring.
Qed.

Lemma placed_mm4 r t r' t' s p : orthonormal r -> orthonormal r' ->
  placed (mm4 (mk4 r t) (mk4 r' t')) s p <-> placed (mk4 r t) (placed (mk4 r' t') s) p.
Proof.
  intros O O'. rewrite mm4_mk4. split.
  - intros (q & Hq & ->). exists (app4 (mk4 r' t') q). split; [exists q; auto|].
    rewrite !app4_mk4, mv3_mm3, mv3_vadd. generalize (mv3 r (mv3 r' q)) (mv3 r t').
    intros [? ? ?] [? ? ?]. destruct t. vunfold. veq; ring.
  - intros (q' & (q & Hq & ->) & ->). exists q. split; auto.
    rewrite !app4_mk4, mv3_mm3, mv3_vadd. generalize (mv3 r (mv3 r' q)) (mv3 r t').
    intros [? ? ?] [? ? ?]. destruct t. vunfold. veq; ring.
Qed.

Definition plane_ok (i : mat4) (p : nvec) : bool := nle (Fin 0) (ndot4 (q2 i) p).

Lemma plane_placed r t r' t' : orthonormal r -> orthonormal r' ->
  exists i, inv4 (mm4 (mk4 r t) (mk4 r' t')) = Ok i /\
    forall p, plane_ok i (nfin p) = true <-> placed (mk4 r t) (placed (mk4 r' t') upper_space) p.
Proof.
  intros O O'. pose proof (orthonormal_mm3 r r' O O') as O2.
  rewrite mm4_mk4, inv4_mk4 by auto. eexists; split; [reflexivity|].
  intros p. rewrite <- placed_mm4, mm4_mk4, placed_loc by auto.
  unfold plane_ok, upper_space.
  destruct (ndot4_rinv (mm3 r r') (vadd (mv3 r t') t) p) as (_ & _ & E). unfold rinv in E. rewrite E.
  cbn [nle]. apply Rleb_true.
Qed.

Lemma cut_sphere_hit r t rad bd okb v d : orthonormal r -> tenm 10 < norm2 d ->
  (forall p, okb (nfin p) = true <-> placed (mk4 r t) (bound_shape bd) p) ->
  first_hit (placed (mk4 r t) (fun q => ball_surface rad q /\ bound_shape bd q)) v d
    (quad_param okb (abc_of (CutSphere rad (Some bd)) (mk4 r t) (rinv r t) v d) v d).
Proof.
  intros O H Hb. apply sphere_part; auto. intros p. rewrite Hb, !placed_loc by auto. tauto.
Qed.

(** ** Cylinder classes *)
Lemma local_roots (f : vec -> vec -> R * R * R) (s w : shape) okb r t v d :
  orthonormal r ->
  (forall lv ld u, let '(A, B, C) := f lv ld in w (ray_at lv ld u) <-> A * (u * u) + B * u + C = 0) ->
  (forall p, placed (mk4 r t) s p <-> w (loc_pt r t p) /\ okb (nfin p) = true) ->
  sound_case (f (loc_pt r t v) (mv3 (tr3 r) d)) ->
  first_hit (placed (mk4 r t) s) v d
    (quad_param okb (to_local (mk4 r t) (rinv r t) f v d) v d).
Proof.
  intros O Hf Hs Hc. rewrite to_local_rigid.
  pose proof (Hf (loc_pt r t v) (mv3 (tr3 r) d)) as K.
  destruct (f (loc_pt r t v) (mv3 (tr3 r) d)) as [[A B] C].
  apply quad_first; auto. intros u. rewrite Hs, loc_pt_ray, (K u). tauto.
Qed.

Lemma cylinder_poly rad lv ld u : let '(A, B, C) := abc_cylinder rad lv ld in
  vx (ray_at lv ld u) * vx (ray_at lv ld u) + vy (ray_at lv ld u) * vy (ray_at lv ld u) = rad * rad
  <-> A * (u * u) + B * u + C = 0.
Proof.
  unfold abc_cylinder. destruct (ray_at_coords lv ld u) as (-> & -> & _).
  set (X := vx lv) in *. set (Y := vy lv) in *. split; intros; lra.
Qed.

(** Directions for which the solution is computed reliably: clearly inclined to
    the axis, or parallel to it and not inside the wall. *)
Definition steady_cylinder (rad : R) (lv ld : vec) : Prop :=
  tenm 10 < vx ld * vx ld + vy ld * vy ld \/
  vx ld = 0 /\ vy ld = 0 /\ vx lv * vx lv + vy lv * vy lv <> rad * rad.

Lemma steady_cylinder_sound rad lv ld : steady_cylinder rad lv ld -> sound_case (abc_cylinder rad lv ld).
Proof.
  unfold steady_cylinder, sound_case, abc_cylinder. intros [H|(H0 & H1 & H2)]; [left; auto|].
  right. rewrite H0, H1. split; [ring|right; lra].
Qed.

Lemma cylinder_hit r t D v d : orthonormal r ->
  steady_cylinder (D / 2) (loc_pt r t v) (mv3 (tr3 r) d) ->
  first_hit (placed (mk4 r t) (round_wall D)) v d
    (param_of (Cylinder (D / 2)) (mk4 r t) (rinv r t) v d).
Proof.
  intros O H. apply (local_roots _ _ (round_wall D)); auto.
  - intros. apply cylinder_poly.
  - intros p. rewrite placed_loc by auto. cbn [ok_of]. tauto.
  - apply steady_cylinder_sound; auto.
Qed.

Lemma Rabs_le_iff x a : Rabs x <= a <-> - a <= x <= a.
Proof. unfold Rabs. destruct (Rcase_abs x); lra. Qed.

Lemma finite_cylinder_hit r t D h v d : orthonormal r ->
  steady_cylinder (D / 2) (loc_pt r t v) (mv3 (tr3 r) d) ->
  first_hit (placed (mk4 r t) (round_wall_of_height D h)) v d
    (param_of (FiniteCyl (D / 2) (h / 2)) (mk4 r t) (rinv r t) v d).
Proof.
  intros O H. apply (local_roots _ _ (round_wall D)); auto.
  - intros. apply cylinder_poly.
  - intros p. rewrite placed_loc by auto. cbn [ok_of].
    destruct (ndot4_rinv r t p) as (_ & _ & ->). cbn [nabs nle]. rewrite Rleb_true, Rabs_le_iff.
    unfold round_wall_of_height. tauto.
  - apply steady_cylinder_sound; auto.
Qed.

(** ** Paraboloid classes *)
Lemma parab_poly a b lv ld u : let '(A, B, C) := abc_parab a b lv ld in
  vz (ray_at lv ld u) = a * (vx (ray_at lv ld u) * vx (ray_at lv ld u))
    + b * (vy (ray_at lv ld u) * vy (ray_at lv ld u))
  <-> A * (u * u) + B * u + C = 0.
Proof.
  unfold abc_parab. destruct (ray_at_coords lv ld u) as (-> & -> & ->). split; intros; lra.
Qed.

Definition steady_parab (a b : R) (ld : vec) : Prop :=
  tenm 10 < a * (vx ld * vx ld) + b * (vy ld * vy ld) \/
  vx ld = 0 /\ vy ld = 0 /\ vz ld <> 0.

Lemma steady_parab_sound a b lv ld : steady_parab a b ld -> sound_case (abc_parab a b lv ld).
Proof.
  unfold steady_parab, sound_case, abc_parab. intros [H|(H0 & H1 & H2)]; [left; auto|].
  right. rewrite H0, H1. split; [ring|left; lra].
Qed.

Lemma parab_hit r t a b v d : orthonormal r -> a <> 0 -> b <> 0 ->
  steady_parab (1 / (a * a)) (1 / (b * b)) (mv3 (tr3 r) d) ->
  first_hit (placed (mk4 r t) (elliptic_bowl a b)) v d
    (param_of (Parab (1 / (a * a)) (1 / (b * b))) (mk4 r t) (rinv r t) v d).
Proof.
  intros O Ha Hb H. apply (local_roots _ _ (elliptic_bowl a b)); auto.
  - intros lv ld u. pose proof (parab_poly (1 / (a * a)) (1 / (b * b)) lv ld u) as K.
    destruct (abc_parab _ _ lv ld) as [[A B] C]. rewrite <- K. unfold elliptic_bowl.
    replace (1 / (a * a) * (vx (ray_at lv ld u) * vx (ray_at lv ld u))) with
      (vx (ray_at lv ld u) / a * (vx (ray_at lv ld u) / a)) by (field; auto).
    replace (1 / (b * b) * (vy (ray_at lv ld u) * vy (ray_at lv ld u))) with
      (vy (ray_at lv ld u) / b * (vy (ray_at lv ld u) / b)) by (field; auto).
    tauto.
  - intros p. rewrite placed_loc by auto. cbn [ok_of]. tauto.
  - apply steady_parab_sound; auto.
Qed.

Lemma par_param_sq f : 0 < f -> 2 * sqrt f * (2 * sqrt f) = 4 * f.
Proof. intros H. pose proof (sqrt_sqrt f (Rlt_le _ _ H)). nra. Qed.

Lemma focal_poly f lv ld u : 0 < f -> let k := 1 / (2 * sqrt f * (2 * sqrt f)) in
  let '(A, B, C) := abc_parab k k lv ld in
  focal_bowl f (ray_at lv ld u) <-> A * (u * u) + B * u + C = 0.
Proof.
  intros Hf k. pose proof (parab_poly k k lv ld u) as K.
  destruct (abc_parab k k lv ld) as [[A B] C]. rewrite <- K. unfold k, focal_bowl.
  rewrite par_param_sq by auto.
  set (x := vx (ray_at lv ld u)). set (y := vy (ray_at lv ld u)). set (z := vz (ray_at lv ld u)).
  assert (E : 1 / (4 * f) * (x * x) + 1 / (4 * f) * (y * y) = (x * x + y * y) / (4 * f)) by (field; lra).
  rewrite E. split; intros G.
  - rewrite <- G. field; lra.
  - rewrite G. field; lra.
Qed.

Definition dish_of (D f : R) : geom :=
  let p := 2 * sqrt f in
  ParabDish (1 / (p * p)) (1 / (p * p)) (D / 2) ((D / 2 / p) * (D / 2 / p)).
Definition hex_of (D f : R) : geom :=
  let p := 2 * sqrt f in HexDish (1 / (p * p)) (1 / (p * p)) (D / 2).

Lemma dish_hit r t D f v d : orthonormal r -> 0 < f ->
  steady_parab (1 / (4 * f)) (1 / (4 * f)) (mv3 (tr3 r) d) ->
  first_hit (placed (mk4 r t) (round_dish D f)) v d
    (param_of (dish_of D f) (mk4 r t) (rinv r t) v d).
Proof.
  intros O Hf H. apply (local_roots _ _ (focal_bowl f)); auto.
  - intros lv ld u. apply focal_poly; auto.
  - intros p. rewrite placed_loc by auto. cbn [ok_of dish_of].
    destruct (ndot4_rinv r t p) as (_ & _ & ->). cbn [nle]. rewrite Rleb_true.
    unfold round_dish. set (q := loc_pt r t p).
    assert (E : D / 2 / (2 * sqrt f) * (D / 2 / (2 * sqrt f)) = D / 2 * (D / 2) / (4 * f)).
    { rewrite <- (par_param_sq f Hf). field.
      pose proof (sqrt_lt_R0 f Hf). lra. }
    rewrite E. split.
    + intros (Hq & Hle). split; auto. unfold focal_bowl in Hq.
      apply Rmult_le_reg_l with (4 * f); [lra|]. rewrite Hq.
      replace (4 * f * (D / 2 * (D / 2) / (4 * f))) with (D / 2 * (D / 2)) by (field; lra). auto.
    + intros (Hq & Hle). split; auto. unfold focal_bowl in Hq. rewrite <- Hq.
      replace (D / 2 * (D / 2)) with (4 * f * (D / 2 * (D / 2) / (4 * f))) by (field; lra).
      apply Rmult_le_compat_l; [lra|auto].
  - rewrite par_param_sq by auto. apply steady_parab_sound; auto.
Qed.

Lemma hexagon_test rad x y :
  (Rabs x <= sqrt 3 * rad / 2 /\ Rabs y <= rad - tan (PI / 6) * Rabs x) <-> hexagon rad x y.
Proof.
  rewrite tan_PI6. unfold hexagon.
  pose proof (sqrt_sqrt 3 ltac:(lra)) as S. pose proof (sqrt_lt_R0 3 ltac:(lra)) as P.
  set (s := sqrt 3) in *.
  assert (I : 1 / s = s / 3) by (apply Rmult_eq_reg_l with s; [|lra]; field_simplify; nra).
  rewrite I. unfold Rabs.
  destruct (Rcase_abs x), (Rcase_abs y), (Rcase_abs (1 / 2 * x + s / 2 * y)),
    (Rcase_abs (- (1 / 2) * x + s / 2 * y)); split; intros HH; repeat split; try nra.
Qed.

Lemma hex_hit r t D f v d : orthonormal r -> 0 < f ->
  steady_parab (1 / (4 * f)) (1 / (4 * f)) (mv3 (tr3 r) d) ->
  first_hit (placed (mk4 r t) (hex_dish D f)) v d
    (param_of (hex_of D f) (mk4 r t) (rinv r t) v d).
Proof.
  intros O Hf H. apply (local_roots _ _ (focal_bowl f)); auto.
  - intros lv ld u. apply focal_poly; auto.
  - intros p. rewrite placed_loc by auto. cbn [ok_of hex_of]. unfold in_hexagon.
    destruct (ndot4_rinv r t p) as (-> & -> & _). cbn [nabs nmul nsub nneg nadd nlt].
    rewrite negb_true_iff, orb_false_iff, !Rltb_false.
    unfold hex_dish. rewrite <- hexagon_test. unfold Rminus. tauto.
  - rewrite par_param_sq by auto. apply steady_parab_sound; auto.
Qed.
