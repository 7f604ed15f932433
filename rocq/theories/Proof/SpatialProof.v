(** Rotations and transforms. *)
From Coq Require Import Reals List Bool Lra Lia Psatz.
From Verif.Base Require Import Py Num Vec.
From Verif.Model Require Import Spatial.
From Verif.Spec Require Import GeometrySpec OpticsSpec SpatialSpec.
From Verif.Proof Require Import NumLemmas VecLemmas OpticsProof CallProof.
Import ListNotations.
Local Open Scope R_scope.

Ltac gunfold := unfold general_axis_rotation, outer, madd3, mscale3; vunfold.

Lemma gar_apply axis angle v : mv3 (general_axis_rotation axis angle) v =
  vadd (vscale ((1 - cos angle) * dot axis v) axis)
       (vadd (vscale (cos angle) v) (vscale (sin angle) (cross axis v))).
Proof. destruct axis, v. gunfold. veq; ring. Qed.

Lemma cs1 a : cos a * cos a + sin a * sin a = 1.
Proof. pose proof (sin2_cos2 a) as H. unfold Rsqr in H. lra. Qed.

Lemma gar_turns axis angle : is_unit axis -> turns axis angle (general_axis_rotation axis angle).
Proof.
  intros U k u D. rewrite gar_apply. unfold is_unit in U.
  assert (E : dot axis (vadd (vscale k axis) u) = k * norm2 axis + dot axis u)
    by (destruct axis, u; vunfold; ring).
  rewrite E, U, D. destruct axis, u. vunfold. veq; ring.
Qed.

Lemma unit_split axis v : is_unit axis ->
  exists k u, v = vadd (vscale k axis) u /\ dot axis u = 0.
Proof.
  intros U. unfold is_unit in U. exists (dot axis v), (vsub v (vscale (dot axis v) axis)). split.
  - destruct axis, v. vunfold. veq; ring.
  - assert (E : dot axis (vsub v (vscale (dot axis v) axis)) = dot axis v * (1 - norm2 axis))
      by (destruct axis, v; vunfold; ring).
    rewrite E, U. ring.
Qed.

Lemma mat3_ext a b : (forall v, mv3 a v = mv3 b v) -> a = b.
Proof.
  intros H. pose proof (H (V3 1 0 0)) as H1. pose proof (H (V3 0 1 0)) as H2. pose proof (H (V3 0 0 1)) as H3.
  destruct a as [[a1 a2 a3] [a4 a5 a6] [a7 a8 a9]], b as [[b1 b2 b3] [b4 b5 b6] [b7 b8 b9]]. vunfold.
  injection H1; injection H2; injection H3; intros. veq; lra.
Qed.

(** The description determines the matrix. *)
Lemma turns_unique axis angle m m' : is_unit axis -> turns axis angle m -> turns axis angle m' -> m = m'.
Proof.
  intros U T T'. apply mat3_ext. intros v. destruct (unit_split axis v U) as (k & u & -> & D).
  rewrite (T k u D), (T' k u D). reflexivity.
Qed.

Lemma cross_perp a u : dot a u = 0 -> dot a (cross a u) = 0.
Proof. intros _. destruct a, u; vunfold; ring. Qed.

Lemma cross_cross axis u : is_unit axis -> dot axis u = 0 -> cross axis (cross axis u) = vopp u.
Proof.
  unfold is_unit. intros U D.
  assert (E : cross axis (cross axis u) = vsub (vscale (dot axis u) axis) (vscale (norm2 axis) u))
    by (destruct axis, u; vunfold; veq; ring).
  rewrite E, D, U. destruct axis, u; vunfold; veq; ring.
Qed.

Lemma turns_add axis a b ma mb : is_unit axis -> turns axis a ma -> turns axis b mb ->
  turns axis (a + b) (mm3 ma mb).
Proof.
  intros U A B k u D. rewrite mv3_mm3, (B k u D).
  set (w := vadd (vscale (cos b) u) (vscale (sin b) (cross axis u))).
  assert (Dw : dot axis w = 0).
  { unfold w. assert (E : dot axis (vadd (vscale (cos b) u) (vscale (sin b) (cross axis u))) =
      cos b * dot axis u + sin b * dot axis (cross axis u)) by (destruct axis, u; vunfold; ring).
    rewrite E, D, (cross_perp axis u D). ring. }
  rewrite (A k w Dw). f_equal. unfold w.
  assert (E : cross axis (vadd (vscale (cos b) u) (vscale (sin b) (cross axis u))) =
    vadd (vscale (cos b) (cross axis u)) (vscale (sin b) (cross axis (cross axis u))))
    by (destruct axis, u; vunfold; veq; ring).
  rewrite E, (cross_cross axis u U D), cos_plus, sin_plus.
  destruct axis, u. vunfold. veq; ring.
Qed.

Lemma turns_zero axis : turns axis 0 id3.
Proof. intros k u D. rewrite mv3_id, cos_0, sin_0. destruct axis, u; vunfold; veq; ring. Qed.

Lemma gar_zero axis : is_unit axis -> general_axis_rotation axis 0 = id3.
Proof. intros U. eapply turns_unique; [exact U|apply gar_turns; auto|apply turns_zero]. Qed.

Lemma gar_add axis a b : is_unit axis ->
  mm3 (general_axis_rotation axis a) (general_axis_rotation axis b) = general_axis_rotation axis (a + b).
Proof.
  intros U. eapply turns_unique; [exact U| |apply gar_turns; auto].
  apply turns_add; auto using gar_turns.
Qed.

Lemma gar_tr axis a : tr3 (general_axis_rotation axis a) = general_axis_rotation axis (- a).
Proof. destruct axis. gunfold. rewrite cos_neg, sin_neg. veq; ring. Qed.

Lemma gar_orthonormal axis a : is_unit axis -> orthonormal (general_axis_rotation axis a).
Proof.
  intros U. unfold orthonormal. rewrite gar_tr, gar_add by auto.
  replace (- a + a) with 0 by ring. apply gar_zero; auto.
Qed.

(** Its determinant is that of the square of the rotation by half the angle. *)
Lemma gar_det axis a : is_unit axis -> det3 (general_axis_rotation axis a) = 1.
Proof.
  intros U. replace a with (a / 2 + a / 2) by field.
  rewrite <- gar_add, det3_mm3 by auto. apply orthonormal_det, gar_orthonormal; auto.
Qed.

Lemma gar_rotation axis a : is_unit axis -> is_rotation (general_axis_rotation axis a).
Proof. intros U. split; [apply gar_orthonormal|apply gar_det]; auto. Qed.

Lemma turns_fixes axis a m : turns axis a m -> mv3 m axis = axis.
Proof.
  intros T. assert (D : dot axis vzero = 0) by (unfold vzero; destruct axis; vunfold; ring).
  specialize (T 1 vzero D). unfold vzero in T.
  assert (E : vadd (vscale 1 axis) (V3 0 0 0) = axis) by (destruct axis; vunfold; veq; ring).
  rewrite E in T. rewrite T. destruct axis; vunfold; veq; ring.
Qed.

Lemma general_axis_top axis angle : is_unit axis ->
  is_rotation (general_axis_rotation axis angle) /\
  turns axis angle (general_axis_rotation axis angle) /\
  mv3 (general_axis_rotation axis angle) axis = axis /\
  (forall b, mm3 (general_axis_rotation axis angle) (general_axis_rotation axis b) =
             general_axis_rotation axis (angle + b)) /\
  (forall m, turns axis angle m -> m = general_axis_rotation axis angle).
Proof.
  intros U. split; [apply gar_rotation; auto|]. split; [apply gar_turns; auto|].
  split; [eapply turns_fixes; apply gar_turns; auto|]. split; [intros; apply gar_add; auto|].
  intros m T. eapply turns_unique; eauto. apply gar_turns; auto.
Qed.

Lemma x_unit : is_unit (V3 1 0 0). Proof. unfold is_unit; vunfold; ring. Qed.
Lemma y_unit : is_unit (V3 0 1 0). Proof. unfold is_unit; vunfold; ring. Qed.
Lemma z_unit : is_unit (V3 0 0 1). Proof. unfold is_unit; vunfold; ring. Qed.

Lemma rotx_eq a : rotx a = mk4 (general_axis_rotation (V3 1 0 0) a) vzero.
Proof. unfold rotx, vzero. gunfold. veq; ring. Qed.
Lemma roty_eq a : roty a = mk4 (general_axis_rotation (V3 0 1 0) a) vzero.
Proof. unfold roty, vzero. gunfold. veq; ring. Qed.
Lemma rotz_eq a : rotz a = mk4 (general_axis_rotation (V3 0 0 1) a) vzero.
Proof. unfold rotz, vzero. gunfold. veq; ring. Qed.
Lemma translate_eq x y z : translate x y z = mk4 id3 (V3 x y z).
Proof. unfold translate. vunfold. reflexivity. Qed.

Lemma mk4_moves r t : moves (mk4 r t) r t.
Proof.
  split; [|split; [apply rot_mk4|apply loc_mk4]].
  intros p. destruct r as [[] [] []], t, p. vunfold. veq; ring.
Qed.

Lemma moves_mk4 f m t : moves f m t -> f = mk4 m t.
Proof.
  intros (H & A & B). pose proof (H vzero) as H0. pose proof (H (V3 1 0 0)) as H1.
  pose proof (H (V3 0 1 0)) as H2. pose proof (H (V3 0 0 1)) as H3. unfold vzero in *.
  destruct f as [[] [] [] []], m as [[] [] []], t. vunfold.
  injection A; injection B; injection H0; injection H1; injection H2; injection H3; intros.
  veq; lra.
Qed.

Lemma proper_mk4 f : proper_motion f <-> exists m t, is_rotation m /\ f = mk4 m t.
Proof.
  split; intros (m & t & R & H); exists m, t; split; auto.
  - apply moves_mk4; auto.
  - subst. apply mk4_moves.
Qed.

Lemma proper_rigid f : proper_motion f -> rigid f.
Proof. rewrite proper_mk4. intros (m & t & (O & _) & ->). exists m, t. auto. Qed.

Lemma rigid_keeps f : rigid f -> keeps_distances f.
Proof.
  intros (r & t & -> & O) p q. rewrite !app4_mk4.
  assert (E : vsub (vadd (mv3 r p) t) (vadd (mv3 r q) t) = mv3 r (vsub p q))
    by (rewrite mv3_vsub; destruct (mv3 r p), (mv3 r q), t; vunfold; veq; ring).
  rewrite E. apply orthonormal_norm2; auto.
Qed.

Lemma is_rotation_mm3 a b : is_rotation a -> is_rotation b -> is_rotation (mm3 a b).
Proof.
  intros (A & A') (B & B'). split; [apply orthonormal_mm3; auto|]. rewrite det3_mm3, A', B'. ring.
Qed.
Lemma id_rotation : is_rotation id3.
Proof. split; [unfold orthonormal; vunfold; veq; ring|vunfold; ring]. Qed.

(** Products apply the right factor first. *)
Lemma moves_compose f g m t m' t' : moves f m t -> moves g m' t' ->
  moves (mm4 f g) (mm3 m m') (vadd (mv3 m t') t).
Proof.
  intros F G. apply moves_mk4 in F. apply moves_mk4 in G. subst. rewrite mm4_mk4. apply mk4_moves.
Qed.

Lemma proper_compose f g : proper_motion f -> proper_motion g -> proper_motion (mm4 f g).
Proof.
  intros (m & t & R & F) (m' & t' & R' & G). exists (mm3 m m'), (vadd (mv3 m t') t).
  split; [apply is_rotation_mm3; auto|apply moves_compose; auto].
Qed.

Lemma app4_mm4 f g p : rigid f -> rigid g -> app4 (mm4 f g) p = app4 f (app4 g p).
Proof.
  intros (r & t & -> & _) (r' & t' & -> & _). rewrite mm4_mk4, !app4_mk4, mv3_mm3, mv3_vadd.
  destruct (mv3 r (mv3 r' p)), (mv3 r t'), t. vunfold. veq; ring.
Qed.

Lemma generate_transform_top axis angle t : is_unit axis ->
  exists m, turns axis angle m /\ is_rotation m /\ moves (generate_transform axis angle t) m t.
Proof.
  intros U. exists (general_axis_rotation axis angle). split; [apply gar_turns; auto|].
  split; [apply gar_rotation; auto|apply mk4_moves].
Qed.

Lemma rot_axis_top a :
  (exists m, turns (V3 1 0 0) a m /\ is_rotation m /\ moves (rotx a) m vzero) /\
  (exists m, turns (V3 0 1 0) a m /\ is_rotation m /\ moves (roty a) m vzero) /\
  (exists m, turns (V3 0 0 1) a m /\ is_rotation m /\ moves (rotz a) m vzero).
Proof.
  rewrite rotx_eq, roty_eq, rotz_eq.
  split; [|split]; eexists; (split; [apply gar_turns; first [apply x_unit|apply y_unit|apply z_unit]|]);
    (split; [apply gar_rotation; first [apply x_unit|apply y_unit|apply z_unit]|apply mk4_moves]).
Qed.

Lemma translate_top x y z :
  moves (translate x y z) id3 (V3 x y z) /\ forall p, app4 (translate x y z) p = vadd p (V3 x y z).
Proof.
  rewrite translate_eq. split; [apply mk4_moves|]. intros p. rewrite app4_mk4, mv3_id. reflexivity.
Qed.

Lemma proper_product_top fs : Forall proper_motion fs ->
  proper_motion (fold_right mm4 id4 fs) /\ keeps_distances (fold_right mm4 id4 fs) /\
  forall p, app4 (fold_right mm4 id4 fs) p = fold_right (fun f q => app4 f q) p fs.
Proof.
  intros F. assert (P : proper_motion (fold_right mm4 id4 fs)).
  { induction F; simpl fold_right.
    - exists id3, vzero. split; [apply id_rotation|].
      replace id4 with (mk4 id3 vzero) by reflexivity. apply mk4_moves.
    - apply proper_compose; auto. }
  split; auto. split; [apply rigid_keeps, proper_rigid; auto|]. clear P.
  intros p. induction F as [|f fs Hf F IH]; simpl fold_right.
  - destruct p. unfold id4. vunfold. veq; ring.
  - rewrite app4_mm4; [rewrite IH; auto|apply proper_rigid; auto|].
    apply proper_rigid. clear -F. induction F; simpl fold_right.
    + exists id3, vzero. split; [apply id_rotation|].
      replace id4 with (mk4 id3 vzero) by reflexivity. apply mk4_moves.
    + apply proper_compose; auto.
Qed.

Lemma rotation_to_z_det v : is_unit v -> det3 (rotation_to_z v) = 1.
Proof.
  intros U. rewrite rotation_to_z_cols. destruct (to_z_x_ok v) as (X & D & _).
  set (x := to_z_x v) in *.
  assert (E : det3 (of_cols x (cross v x) v) = norm2 v * norm2 x - dot v x * dot v x)
    by (destruct v, x; vunfold; ring).
  unfold is_unit in *. rewrite E, U, X, D. ring.
Qed.

Lemma of_cols_col1 a b c : col1 (of_cols a b c) = a. Proof. destruct a; reflexivity. Qed.
Lemma of_cols_col3 a b c : col3 (of_cols a b c) = c. Proof. destruct c; reflexivity. Qed.

(** The first column is the unit vector along [(vy, -vx, 0)], when there is one. *)
Lemma to_z_x_along v : exists k, 0 < k /\
  (V3 (vy v) (- vx v) 0 = vscale k (to_z_x v) \/ (vx v = 0 /\ vy v = 0 /\ to_z_x v = V3 1 0 0)).
Proof.
  unfold to_z_x. cbv zeta. set (p := V3 (vy v) (- vx v) 0). destruct (veqb p vzero) eqn:E.
  - apply veqb_true in E. unfold p, vzero in E. injection E as E1 E2. exists 1. split; [lra|]. right.
    split; [lra|]. split; [lra|]. assert (N : norm2 (V3 1 0 0) = 1) by (vunfold; ring).
    rewrite N, sqrt_1. vunfold. veq; field.
  - assert (N : norm2 p <> 0).
    { intros Z. apply norm2_zero in Z. rewrite (proj2 (veqb_true p vzero) Z) in E. discriminate. }
    pose proof (norm2_nonneg p) as P. exists (sqrt (norm2 p)).
    assert (L : 0 < sqrt (norm2 p)) by (apply sqrt_lt_R0; lra).
    split; auto. left. destruct p as [a b c]. unfold vscale. cbn [vx vy vz]. veq; field; lra.
Qed.

Lemma rotation_to_z_top v : is_unit v ->
  is_rotation (rotation_to_z v) /\ mv3 (rotation_to_z v) (V3 0 0 1) = v /\
  vz (mv3 (rotation_to_z v) (V3 1 0 0)) = 0 /\
  (v = V3 0 0 1 -> rotation_to_z v = id3).
Proof.
  intros U. split; [split; [apply rotation_to_z_orthonormal; auto|apply rotation_to_z_det; auto]|].
  split; [|split].
  - rewrite rotation_to_z_cols. set (x := to_z_x v). destruct v, x. vunfold. veq; ring.
  - rewrite rotation_to_z_cols. destruct (to_z_x_ok v) as (_ & _ & Z). set (x := to_z_x v) in *.
    destruct v, x. vunfold. subst. ring.
  - intros ->. rewrite rotation_to_z_cols. destruct (to_z_x_along (V3 0 0 1)) as (k & K & [E|(_ & _ & E)]).
    + cbn [vx vy vz] in E. destruct (to_z_x_ok (V3 0 0 1)) as (X & _ & _). set (x := to_z_x (V3 0 0 1)) in *.
      exfalso. destruct x as [a b c]. unfold is_unit in X. vunfold. injection E as E1 E2 E3.
      assert (a = 0) by nra. assert (b = 0) by nra. assert (c = 0) by nra. subst. lra.
    + rewrite E. vunfold. veq; ring.
Qed.

Lemma rotation_to_z_x v : is_unit v -> 
  exists k, 0 <= k /\ V3 (vy v) (- vx v) 0 = vscale k (mv3 (rotation_to_z v) (V3 1 0 0)).
Proof.
  intros U. assert (E : mv3 (rotation_to_z v) (V3 1 0 0) = to_z_x v).
  { rewrite rotation_to_z_cols. set (x := to_z_x v). destruct v, x. vunfold. veq; ring. }
  rewrite E. destruct (to_z_x_along v) as (k & K & [H|(A & B & H)]).
  - exists k. split; [lra|auto].
  - exists 0. split; [lra|]. rewrite A, B. destruct (to_z_x v). vunfold. veq; ring.
Qed.
