(** The geometry of heliostat aiming. *)
From Coq Require Import Reals List Arith Bool Lia Lra.
From Verif.Base Require Import Py Num Vec.
From Verif.Model Require Import RayBundle Spatial Geometry OpticsCallables Surface Assembly Scene Models.
From Verif.Spec Require Import GeometrySpec OpticsSpec.
From Verif.Proof Require Import NumLemmas VecLemmas SpatialProof FlatProof SelectProof.
Local Open Scope R_scope.

Lemma arctan2_polar y x : sqrt (x * x + y * y) * cos (arctan2 y x) = x /\ sqrt (x * x + y * y) * sin (arctan2 y x) = y.
Proof.
  unfold arctan2.
  assert (P : forall u, 0 < sqrt (1 + u²)) by (intros u; apply sqrt_lt_R0; pose proof (Rle_0_sqr u); lra).
  assert (K : x <> 0 -> sqrt (x * x + y * y) = Rabs x * sqrt (1 + (y / x)²)).
  { intros Nx. replace (x * x + y * y) with (x² * (1 + (y / x)²)) by (unfold Rsqr; field; auto).
    rewrite sqrt_mult_alt by apply Rle_0_sqr. rewrite sqrt_Rsqr_abs. reflexivity. }
  destruct (Rltb_spec 0 x) as [Px|Nx].
  - rewrite K, cos_atan, sin_atan, Rabs_right by lra. specialize (P (y / x)). split; field; lra.
  - destruct (Rltb_spec x 0) as [Lx|Zx].
    + assert (C : forall e, (e = PI \/ e = - PI) -> Rabs x * sqrt (1 + (y / x)²) * cos (atan (y / x) + e) = x /\
                   Rabs x * sqrt (1 + (y / x)²) * sin (atan (y / x) + e) = y).
      { intros e He. assert (cos e = -1 /\ sin e = 0) as (Ce & Se).
        { destruct He as [-> | ->]; rewrite ?cos_neg, ?sin_neg, ?cos_PI, ?sin_PI; split; lra. }
        rewrite cos_plus, sin_plus, Ce, Se, cos_atan, sin_atan, Rabs_left by lra. specialize (P (y / x)). split; field; lra. }
      rewrite K by lra. destruct (Rleb_spec 0 y); [apply C; auto|]. unfold Rminus. apply C; auto.
    + assert (x = 0) as -> by lra. replace (0 * 0 + y * y) with (y²) by (unfold Rsqr; ring). rewrite sqrt_Rsqr_abs.
      destruct (Rltb_spec 0 y); [rewrite cos_PI2, sin_PI2, Rabs_right by lra; lra|].
      destruct (Rltb_spec y 0); [rewrite cos_neg, sin_neg, cos_PI2, sin_PI2, Rabs_left by lra; lra|].
      assert (y = 0) as -> by lra. rewrite Rabs_R0. lra.
Qed.

Lemma unit_polar n : is_unit n ->
  cos (arctan2 (vy n) (vx n)) * sin (acos (vz n)) = vx n /\ sin (arctan2 (vy n) (vx n)) * sin (acos (vz n)) = vy n /\ cos (acos (vz n)) = vz n.
Proof.
  destruct n as [x y z]. unfold is_unit. vunfold. intros U.
  assert (Z : -1 <= z <= 1) by nra. rewrite cos_acos, sin_acos by auto.
  replace (1 - z²) with (x * x + y * y) by (unfold Rsqr; lra).
  destruct (arctan2_polar y x) as (A & B). split; [lra|]. split; [lra|auto].
Qed.

Lemma with_loc_mk4 r t v : with_loc (mk4 r t) v = mk4 r v.
Proof. destruct r as [[? ? ?] [? ? ?] [? ? ?]], t, v. reflexivity. Qed.

(** The frame that takes the z axis to [n]. *)
Definition facing (n pos : vec) : mat4 := with_loc (mm4 (rotz (arctan2 (vy n) (vx n))) (roty (acos (vz n)))) pos.

Lemma app_zero r t : app4 (mk4 r t) vzero = t.
Proof. rewrite app4_mk4. destruct r as [[? ? ?] [? ? ?] [? ? ?]], t. unfold vzero. vunfold. veq; ring. Qed.

Lemma facing_ok n pos : is_unit n -> rigid (facing n pos) /\ app4 (facing n pos) vzero = pos /\ z_of (facing n pos) = n /\
  vz (mv3 (rot_of (facing n pos)) (V3 0 1 0)) = 0.
Proof.
  intros U. unfold facing. rewrite rotz_eq, roty_eq, mm4_mk4, with_loc_mk4.
  split; [eexists _, _; split; [reflexivity|]; apply orthonormal_mm3; apply gar_orthonormal; [apply z_unit|apply y_unit]|].
  split; [apply app_zero|]. destruct (unit_polar n U) as (A & B & C).
  rewrite z_of_mk4, rot_mk4.
  set (az := arctan2 (vy n) (vx n)) in *. set (el := acos (vz n)) in *.
  assert (E : mm3 (general_axis_rotation (V3 0 0 1) az) (general_axis_rotation (V3 0 1 0) el) =
              M3 (V3 (cos az * cos el) (- sin az) (cos az * sin el)) (V3 (sin az * cos el) (cos az) (sin az * sin el)) (V3 (- sin el) 0 (cos el))).
  { rewrite <- (rot_mk4 (mm3 _ _) vzero). 
    replace (mk4 (mm3 (general_axis_rotation (V3 0 0 1) az) (general_axis_rotation (V3 0 1 0) el)) vzero) with (mm4 (rotz az) (roty el)).
    - unfold mm4, rotz, roty, tr4, c4_0, c4_1, c4_2, c4_3, rot_of, v4_3. cbn. veq; ring.
    - rewrite rotz_eq, roty_eq, mm4_mk4. f_equal. unfold vzero. vunfold. veq; ring. }
  rewrite E. split; [destruct n; vunfold; veq; lra|]. vunfold. ring.
Qed.

(** ** The bisector reflects the sun to the tower *)

Lemma mirrored_unique n d a b : mirrored n d a -> mirrored n d b -> a = b.
Proof.
  unfold mirrored, tangential. intros (A1 & A2) (B1 & B2). rewrite <- B2 in A2. rewrite A1, B1 in A2.
  destruct a, b, n. vunfold. injection A2 as X Y Z. veq; lra.
Qed.

Lemma bisector s tw k n : is_unit s -> is_unit tw -> is_unit n -> 0 < k -> vadd s tw = vscale k n ->
  mirrored n (vopp s) tw /\ dot (vopp s) n < 0.
Proof.
  destruct s as [a b c], tw as [d e f], n as [x y z]. unfold is_unit, mirrored, tangential. vunfold. intros Us Ut Un Hk E.
  injection E as E1 E2 E3.
  assert (D : a * x + b * y + c * z = d * x + e * y + f * z).
  { apply (Rmult_eq_reg_l k); [|lra].
    replace (k * (a * x + b * y + c * z)) with (a * (k * x) + b * (k * y) + c * (k * z)) by ring.
    replace (k * (d * x + e * y + f * z)) with (d * (k * x) + e * (k * y) + f * (k * z)) by ring.
    rewrite <- E1, <- E2, <- E3. lra. }
  assert (D2 : 2 * (a * x + b * y + c * z) = k).
  { rewrite double. rewrite D at 2.
    replace (a * x + b * y + c * z + (d * x + e * y + f * z)) with ((a + d) * x + (b + e) * y + (c + f) * z) by ring.
    rewrite E1, E2, E3. replace (k * x * x + k * y * y + k * z * z) with (k * (x * x + y * y + z * z)) by ring. rewrite Un. ring. }
  split; [split; [lra|]|lra].
  rewrite <- D. set (q := a * x + b * y + c * z) in *.
  replace (- a * x + - b * y + - c * z) with (- q) by (unfold q; ring). subst k. veq; lra.
Qed.

Lemma aim_ok sun pos height : is_unit sun -> pos <> V3 0 0 height ->
  (forall tw k, 0 < k -> V3 0 0 height = vadd pos (vscale k tw) -> is_unit tw -> vadd sun tw <> vzero) ->
  exists n tw k, aim_transform sun pos height = Ok (facing n pos) /\ is_unit n /\ is_unit tw /\ 0 < k /\ ray_at pos tw k = V3 0 0 height /\ mirrored n (vopp sun) tw /\ dot (vopp sun) n < 0.
Proof.
  intros Us Np Ns. unfold aim_transform, aim_normal.
  assert (Nz : forall v, v <> vzero -> norm2 v <> 0).
  { intros [a b c] Hv E. apply Hv. unfold vzero. vunfold. assert (a * a = 0 /\ b * b = 0 /\ c * c = 0) as (A & B & C) by nra.
    apply Rsqr_0_uniq in A, B, C. subst. reflexivity. }
  destruct (normalised_total (vadd (vopp pos) (V3 0 0 height))) as (tw & Et).
  { apply Nz. intros E. apply Np. destruct pos as [a b c]. unfold vzero in E. vunfold. injection E as X Y Z. veq; lra. }
  rewrite Et. cbn [bind]. destruct (normalised_ok _ _ Et) as (Ut & k & Hk & Ek).
  assert (Er : vadd pos (vscale (/ k) tw) = V3 0 0 height).
  { rewrite Ek. destruct pos as [a b c]. vunfold. veq; field; lra. }
  pose proof (Rinv_0_lt_compat k Hk) as Hk'.
  destruct (normalised_total (vadd sun tw)) as (n & En).
  { apply Nz. eapply Ns; eauto. }
  rewrite En. cbn [bind]. destruct (normalised_ok _ _ En) as (Un & j & Hj & Ej).
  exists n, tw, (/ k). split; [reflexivity|]. split; [exact Un|]. split; [exact Ut|]. split; auto. split; [exact Er|].
  apply (bisector sun tw (/ j) n); auto; [apply Rinv_0_lt_compat; auto|].
  rewrite Ej. destruct (vadd sun tw). vunfold. veq; field; lra.
Qed.

Lemma solar_unit az el : is_unit (solar_vector az el).
Proof.
  unfold solar_vector, is_unit. vunfold.
  assert (C : 0 <= 1 - cos el * cos el) by (pose proof (cs1 el); nra).
  set (q := sqrt (1 - cos el * cos el)). pose proof (sqrt_sqrt _ C) as S. fold q in S. pose proof (cs1 az).
  replace (- sin az * q * (- sin az * q) + - cos az * q * (- cos az * q) + cos el * cos el)
    with ((cos az * cos az + sin az * sin az) * (q * q) + cos el * cos el) by ring. rewrite H, S. ring.
Qed.
