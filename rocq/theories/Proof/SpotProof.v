(** Light from a disk above a dish: where the dish sends it. *)
From Coq Require Import Reals ZArith List Arith Bool Lia Lra Psatz.
From Verif.Base Require Import Py Num Vec.
From Verif.Model Require Import RayBundle Spatial Geometry Optics OpticsCallables Engine Objects Surface Assembly Scene Models.
From Verif.Proof Require Import NumLemmas VecLemmas OpticsProof MeshProof DishProof ReceiverProof CollectProof CollectTop.
From Verif.Spec Require Import BundleSpec SourceSpec GeometrySpec GeomIface OpticsSpec ModelSpec DishSpec SunSpec.
Import ListNotations.
Local Open Scope R_scope.

Definition down : vec := V3 0 0 (-1).

Lemma cos_below t : 0 <= t -> 2 - 2 * cos t <= t * t.
Proof.
  intros Ht. pose proof (cos_2a_sin (t / 2)) as C. replace (2 * (t / 2)) with t in C by field. rewrite C.
  assert (B : Rabs (sin (t / 2)) <= t / 2).
  { destruct (Req_dec t 0) as [->|N]; [replace (0 / 2) with 0 by field; rewrite sin_0, Rabs_R0; lra|].
    destruct (Rle_dec t 2) as [L|L].
    - pose proof (sin_lt_x (t / 2) ltac:(lra)). pose proof PI2_3_2. rewrite Rabs_right; [lra|]. apply Rle_ge, sin_ge_0; lra.
    - destruct (SIN_bound (t / 2)). apply Rabs_le. lra. }
  pose proof (Rabs_pos (sin (t / 2))). assert (S : sin (t / 2) * sin (t / 2) <= t / 2 * (t / 2)).
  { rewrite <- (Rabs_pos_eq (sin (t / 2) * sin (t / 2))) by (apply Rle_0_sqr). rewrite Rabs_mult. apply Rmult_le_compat; lra. }
  lra.
Qed.

(** How far the direction of a ray is from the axis. *)
Lemma deviates_off ang d : deviates down ang d -> norm2 (vsub d down) <= ang * ang.
Proof.
  intros (U & t & Ht & E). pose proof (cos_below t ltac:(lra)) as C.
  replace (norm2 (vsub d down)) with (norm2 d + 1 - 2 * dot down d) by (destruct d; unfold down; vunfold; ring).
  unfold is_unit in U. rewrite U, E. assert (t * t <= ang * ang) by (apply Rmult_le_compat; lra). lra.
Qed.


Lemma abs_square a b : 0 <= b -> a * a <= b * b -> - b <= a <= b.
Proof. intros Hb L. split; nra. Qed.

Lemma norm2_swap u v : norm2 (vsub u v) = norm2 (vsub v u).
Proof. destruct u, v. vunfold. ring. Qed.

(** The mirrored direction is that of the axial light, up to as much. *)
Lemma bowl_mirrors f m n k d c : 0 < f -> focal_bowl f m -> is_unit n -> n = vscale k (bowl_normal f m) -> mirrored n d c ->
  exists u, norm2 u = norm2 (vsub d down) /\ vscale (f + vz m) c = vadd (vsub (V3 0 0 f) m) (vscale (f + vz m) u).
Proof.
  intros Hf B Un En Mr. unfold focal_bowl in B. apply mirrored_keeps in Mr as ->; auto.
  set (w := vsub d down). exists (reflection w n). split; [apply (mirrored_norm n); auto; apply reflection_mirrored; auto|].
  assert (Ed : d = vadd down w) by (unfold w, down; destruct d; vunfold; veq; ring). rewrite Ed. clearbody w. clear Ed d.
  rewrite (mirrored_keeps n w (reflection w n) Un (reflection_mirrored w n Un)).
  destruct m as [x y z], w as [w1 w2 w3]. unfold bowl_normal in En. subst n. unfold is_unit in Un. unfold down. vunfold.
  assert (K : k * k * (4 * f * (z + f)) = 1) by (rewrite <- Un; nra).
  assert (K1 : (f + z) * (4 * f * (k * k)) = 1) by (rewrite <- K; ring).
  f_equal.
  - transitivity (- x * ((f + z) * (4 * f * (k * k))) + (f + z) * (w1 - 2 * (w1 * (k * x) + w2 * (k * y) + w3 * (k * - (2 * f))) * (k * x))); [ring|rewrite K1; ring].
  - transitivity (- y * ((f + z) * (4 * f * (k * k))) + (f + z) * (w2 - 2 * (w1 * (k * x) + w2 * (k * y) + w3 * (k * - (2 * f))) * (k * y))); [ring|rewrite K1; ring].
  - transitivity (2 * f * ((f + z) * (4 * f * (k * k))) - (f + z) + (f + z) * (w3 - 2 * (w1 * (k * x) + w2 * (k * y) + w3 * (k * - (2 * f))) * (k * - (2 * f)))); [ring|rewrite K1; ring].
Qed.

(** Light that comes within [ang] of the axis is sent close to the focus. *)
Lemma spot (A : shape) X Y H f D ang v d m c : 0 < f -> (forall q, A q -> focal_bowl f q /\ vx q * vx q + vy q * vy q <= D / 2 * (D / 2)) ->
  let kappa := (16 * f * f - D * D) / (16 * f * f + D * D) in 0 <= ang < kappa -> deviates down ang d -> mirrored_at A X Y H f v d m c ->
  exists r p, vz p = f /\ p = ray_at m c r /\ f - D * D / (16 * f) <= r /\ kappa - ang <= vz c /\ norm2 (vsub p (V3 0 0 f)) <= (2 * f * ang / (kappa - ang)) ^ 2.
Proof.
  intros Hf HA kappa Ha Dv (t & n & k & _ & _ & Am & _ & _ & Un & En & Mr).
  destruct (HA m Am) as (B & C). pose proof (deviates_off ang d Dv) as W.
  assert (Uc : norm2 c = 1) by (apply (mirrored_norm n) in Mr; auto; rewrite Mr; apply Dv).
  destruct (bowl_mirrors f m n k d c Hf B Un En Mr) as (u & Nu & Ec). rewrite <- Nu in W. clear Nu Mr En Un Am Dv HA.
  unfold focal_bowl in B. destruct m as [x y z]. vunfold.
  set (h := D * D / (16 * f)).
  assert (Eh : 16 * f * h = D * D) by (unfold h; field; lra).
  assert (Hz : 0 <= z <= h) by (pose proof (Rle_0_sqr x); pose proof (Rle_0_sqr y); unfold Rsqr in *; split; nra).
  assert (Kp : kappa * (f + h) = f - h).
  { unfold kappa. rewrite <- Eh. field. nra. }
  assert (Hh : h < f) by nra.
  assert (Kl : kappa * (f + z) <= f - z) by nra.
  destruct u as [u1 u2 u3], c as [c1 c2 c3]. vunfold. injection Ec as E1 E2 E3.
  assert (U3 : u3 * u3 <= ang * ang) by (pose proof (Rle_0_sqr u1); pose proof (Rle_0_sqr u2); unfold Rsqr in *; lra).
  destruct (abs_square u3 ang ltac:(lra) U3) as (U3a & U3b).
  assert (C3 : kappa - ang <= c3).
  { apply Rmult_le_reg_l with (f + z); [lra|]. rewrite E3. nra. }
  assert (C3b : c3 <= 1) by (pose proof (Rle_0_sqr c1); pose proof (Rle_0_sqr c2); unfold Rsqr in *; nra).
  exists ((f - z) / c3), (ray_at (V3 x y z) (V3 c1 c2 c3) ((f - z) / c3)). unfold ray_at. vunfold.
  split; [field; lra|]. split; [reflexivity|]. split.
  { apply Rle_trans with (f - z); [lra|]. apply Rmult_le_reg_r with c3; [lra|]. unfold Rdiv. rewrite Rmult_assoc, Rinv_l by lra. nra. }
  split; [exact C3|].
  set (g1 := 0 - x). set (g2 := 0 - y). set (g3 := f - z) in *.
  assert (G : g1 * g1 + g2 * g2 + g3 * g3 = (f + z) * (f + z)) by (unfold g1, g2, g3; nra).
  set (q1 := g3 * u1 - u3 * g1). set (q2 := g3 * u2 - u3 * g2). set (q3 := g3 * u3 - u3 * g3).
  assert (Q1 : c3 * (x + g3 / c3 * c1 - 0) = q1).
  { transitivity (g3 * c1 + c3 * x); [field; lra|]. apply Rmult_eq_reg_l with (f + z); [|lra].
    transitivity (g3 * ((f + z) * c1) + (f + z) * c3 * x); [ring|]. rewrite E1, E3. unfold q1, g1. ring. }
  assert (Q2 : c3 * (y + g3 / c3 * c2 - 0) = q2).
  { transitivity (g3 * c2 + c3 * y); [field; lra|]. apply Rmult_eq_reg_l with (f + z); [|lra].
    transitivity (g3 * ((f + z) * c2) + (f + z) * c3 * y); [ring|]. rewrite E2, E3. unfold q2, g2. ring. }
  assert (Q3 : z + g3 / c3 * c3 - f = 0) by (unfold g3; field; lra).
  rewrite Q3.
  assert (Bd : q1 * q1 + q2 * q2 <= (2 * f * ang) * (2 * f * ang)).
  { pose proof (cauchy (V3 u1 u2 u3) (V3 g1 g2 g3)) as Cs. vunfold. rewrite G in Cs.
    set (ug := u1 * g1 + u2 * g2 + u3 * g3) in *.
    assert (Cs' : ug * ug <= (ang * (f + z)) * (ang * (f + z))).
    { apply Rle_trans with (1 := Cs). replace (ang * (f + z) * (ang * (f + z))) with (ang * ang * ((f + z) * (f + z))) by ring.
      apply Rmult_le_compat_r; [nra|exact W]. }
    apply abs_square in Cs'; [|apply Rmult_le_pos; lra].
    assert (Pr : - (ang * (ang * (f + z))) <= u3 * ug <= ang * (ang * (f + z))).
    { assert (Q : (u3 * ug) * (u3 * ug) <= (ang * (ang * (f + z))) * (ang * (ang * (f + z)))).
      { replace (u3 * ug * (u3 * ug)) with ((u3 * u3) * (ug * ug)) by ring.
        replace (ang * (ang * (f + z)) * (ang * (ang * (f + z)))) with ((ang * ang) * (ang * (f + z) * (ang * (f + z)))) by ring.
        apply Rmult_le_compat; auto; try apply Rle_0_sqr. apply Rle_trans with (1 := Cs).
        replace (ang * (f + z) * (ang * (f + z))) with (ang * ang * ((f + z) * (f + z))) by ring. apply Rmult_le_compat_r; [nra|exact W]. }
      apply abs_square in Q; auto. apply Rmult_le_pos; [lra|]. apply Rmult_le_pos; lra. }
    assert (Id : q1 * q1 + q2 * q2 = g3 * g3 * (u1 * u1 + u2 * u2 + u3 * u3) - 2 * g3 * (u3 * ug) + u3 * u3 * (g1 * g1 + g2 * g2 + g3 * g3)).
    { unfold q1, q2, ug. ring. }
    rewrite Id, G. assert (0 <= g3) by (unfold g3; lra).
    assert (g3 * g3 * (u1 * u1 + u2 * u2 + u3 * u3) <= g3 * g3 * (ang * ang)) by (apply Rmult_le_compat_l; [apply Rle_0_sqr|lra]).
    assert (- (2 * g3 * (u3 * ug)) <= 2 * g3 * (ang * (ang * (f + z)))) by nra.
    assert (u3 * u3 * ((f + z) * (f + z)) <= ang * ang * ((f + z) * (f + z))) by (apply Rmult_le_compat_r; [apply Rle_0_sqr|lra]).
    replace (2 * f * ang * (2 * f * ang)) with (g3 * g3 * (ang * ang) + 2 * g3 * (ang * (ang * (f + z))) + ang * ang * ((f + z) * (f + z))) by (unfold g3; ring). lra. }
  set (P1 := x + g3 / c3 * c1 - 0) in *. set (P2 := y + g3 / c3 * c2 - 0) in *. rewrite <- Q1, <- Q2 in Bd.
  assert (Kpos : 0 < kappa - ang) by lra. set (l := kappa - ang) in *.
  apply Rmult_le_reg_l with (l * l); [nra|].
  replace (l * l * (2 * f * ang / l) ^ 2) with (2 * f * ang * (2 * f * ang)) by (field; lra).
  apply Rle_trans with (2 := Bd).
  replace (c3 * P1 * (c3 * P1) + c3 * P2 * (c3 * P2)) with (c3 * c3 * (P1 * P1 + P2 * P2 + 0 * 0)) by ring.
  apply Rmult_le_compat_r; [|apply Rmult_le_compat; lra]. pose proof (Rle_0_sqr P1); pose proof (Rle_0_sqr P2); unfold Rsqr in *; lra.
Qed.

Lemma spot_enters (A : shape) X Y H f D ang v d m c : 0 < f -> (forall q, A q -> focal_bowl f q /\ vx q * vx q + vy q * vy q <= D / 2 * (D / 2)) ->
  let kappa := (16 * f * f - D * D) / (16 * f * f + D * D) in let spread := 2 * f * ang / (kappa - ang) in
  0 <= ang -> 2 * ang < kappa -> spread < X / 2 -> spread < Y / 2 -> tenm 6 < f - D * D / (16 * f) ->
  deviates down ang d -> mirrored_at A X Y H f v d m c ->
  exists p, enters A X Y f m c p /\ kappa - ang <= vz c /\ norm2 (vsub p (V3 0 0 f)) <= spread ^ 2.
Proof.
  intros Hf HA kappa spread Ha Hk HX HY Ht Dv Mr.
  destruct (spot A X Y H f D ang v d m c Hf HA) as (r & p & Pz & Ep & Lr & C3 & Np); auto; [fold kappa; lra|].
  fold kappa in C3, Np. fold spread in Np. exists p. split; auto.
  assert (S0 : 0 <= spread). { unfold spread, Rdiv. apply Rmult_le_pos; [|apply Rlt_le, Rinv_0_lt_compat; lra]. apply Rmult_le_pos; lra. }
  assert (S1 : spread < 2 * f).
  { unfold spread. apply Rmult_lt_reg_r with (kappa - ang); [lra|]. unfold Rdiv. rewrite Rmult_assoc, Rinv_l by lra. nra. }
  assert (Am : A m) by (destruct Mr as (t & n & k & _ & _ & Am & _); exact Am). destruct (HA m Am) as (B & _).
  destruct p as [p1 p2 p3]. cbn [vz] in Pz. subst p3. vunfold.
  assert (Sq : p1 * p1 + p2 * p2 <= spread * spread) by (clear - Np; nra).
  pose proof (Rle_0_sqr p1) as R1. pose proof (Rle_0_sqr p2) as R2. unfold Rsqr in R1, R2.
  pose proof (abs_square p1 spread S0 ltac:(lra)) as B1. pose proof (abs_square p2 spread S0 ltac:(lra)) as B2.
  exists r. split; [lra|]. split; auto. split; auto. cbn [vx vy vz]. split; [lra|]. split; [lra|].
  intros s Hs As. destruct (HA _ As) as (Bs & _). unfold focal_bowl in B, Bs. clear HA As Mr Dv.
  destruct m as [m1 m2 m3], c as [c1 c2 c3]. unfold ray_at in Ep, Bs. vunfold. injection Ep as E1 E2 E3.
  set (al := 4 * f * c3 - 2 * (m1 * c1 + m2 * c2)). set (be := c1 * c1 + c2 * c2).
  assert (Z1 : s * (al - be * s) = 0) by (unfold al, be; nra).
  assert (Z2 : r * (al - be * r) = 4 * f * f - (p1 * p1 + p2 * p2)) by (unfold al, be; rewrite E1, E2; rewrite E3 at 2; nra).
  assert (0 < r * (al - be * r)) by (rewrite Z2; nra).
  assert (0 < al - be * r) by nra. assert (0 <= be) by (unfold be; nra).
  assert (al - be * s = 0) by (apply Rmult_eq_reg_l with s; lra). nra.
Qed.

(** The direction and the way sideways. *)
Lemma sideways ang Z sigma d s : 0 <= ang < PI / 2 -> Z * tan ang <= sigma -> deviates down ang d -> 0 <= s -> 0 <= Z + s * vz d ->
  vz d < 0 /\ cos ang <= - vz d <= 1 /\ s * s * (vx d * vx d + vy d * vy d) <= sigma * sigma.
Proof.
  intros Ha Sg (U & t & Ht & E) Hs Hz. unfold is_unit in U. destruct d as [d1 d2 d3]. unfold down in E. vunfold.
  assert (E3 : d3 = - cos t) by lra. subst d3.
  pose proof (cos_gt_0 ang ltac:(lra) ltac:(lra)) as Ca.
  assert (Ct : cos ang <= cos t) by (destruct (Req_dec t ang) as [->|N]; [lra|]; left; apply cos_decreasing_1; lra).
  pose proof (COS_bound t) as Cb. split; [lra|]. split; [lra|].
  assert (St : 0 <= sin t) by (apply sin_ge_0; pose proof PI_RGT_0; lra).
  assert (Sa : sin t <= sin ang) by (destruct (Req_dec t ang) as [->|N]; [lra|]; left; apply sin_increasing_1; lra).
  pose proof (sin2_cos2 t) as I. unfold Rsqr in I.
  replace (d1 * d1 + d2 * d2) with (sin t * sin t) by lra.
  assert (Q : s * sin t <= sigma).
  { apply Rle_trans with (2 := Sg). unfold tan. apply Rmult_le_reg_r with (cos ang); auto.
    replace (Z * (sin ang / cos ang) * cos ang) with (Z * sin ang) by (field; lra).
    assert (s * cos ang <= Z) by nra. apply Rle_trans with (s * cos ang * sin ang); [|nra].
    replace (s * sin t * cos ang) with (s * cos ang * sin t) by ring. apply Rmult_le_compat_l; [|lra]. apply Rmult_le_pos; lra. }
  assert (0 <= s * sin t) by (apply Rmult_le_pos; lra). replace (s * s * (sin t * sin t)) with ((s * sin t) * (s * sin t)) by ring. nra.
Qed.

Lemma shifted_square a1 a2 b1 b2 s sigma : 0 <= s -> 0 <= sigma -> s * s * (b1 * b1 + b2 * b2) <= sigma * sigma ->
  forall a b, 0 <= a -> 0 <= b -> sigma <= a -> a * a <= a1 * a1 + a2 * a2 <= b * b ->
  (a - sigma) * (a - sigma) <= (a1 + s * b1) * (a1 + s * b1) + (a2 + s * b2) * (a2 + s * b2) <= (b + sigma) * (b + sigma).
Proof.
  intros Hs Sg L a b Pa Pb Sa (La & Lb). set (rho := sqrt (a1 * a1 + a2 * a2)).
  assert (R0 : 0 <= rho) by apply sqrt_pos.
  assert (Rr : rho * rho = a1 * a1 + a2 * a2) by (apply sqrt_sqrt; nra).
  set (e1 := s * b1). set (e2 := s * b2). assert (Le : e1 * e1 + e2 * e2 <= sigma * sigma) by (unfold e1, e2; nra).
  set (ep := sqrt (e1 * e1 + e2 * e2)).
  assert (P0 : 0 <= ep) by apply sqrt_pos.
  assert (Pp : ep * ep = e1 * e1 + e2 * e2) by (apply sqrt_sqrt; nra).
  assert (ep <= sigma) by nra. assert (a <= rho) by nra. assert (rho <= b) by nra.
  assert (C : - (rho * ep) <= a1 * e1 + a2 * e2 <= rho * ep).
  { apply abs_square; [apply Rmult_le_pos; auto|]. replace (rho * ep * (rho * ep)) with ((rho * rho) * (ep * ep)) by ring. rewrite Rr, Pp.
    pose proof (Rle_0_sqr (a1 * e2 - a2 * e1)) as Q. unfold Rsqr in Q. nra. }
  replace ((a1 + e1) * (a1 + e1) + (a2 + e2) * (a2 + e2)) with (rho * rho + 2 * (a1 * e1 + a2 * e2) + ep * ep) by (rewrite Rr, Pp; ring).
  split.
  - apply Rle_trans with ((rho - ep) * (rho - ep)); [nra|nra].
  - apply Rle_trans with ((rho + ep) * (rho + ep)); [nra|nra].
Qed.

Lemma side_square X Y H f B z q : In (B, z) (sides X Y H f) -> B q -> vx q * vx q + vy q * vy q <= X / 2 * (X / 2) + Y / 2 * (Y / 2).
Proof.
  intros I Bq. cbn in I. destruct q as [x y u].
  repeat (destruct I as [E|I]; [injection E as <- <-; cbn in Bq; destruct Bq as (B1 & B2 & B3); cbn [vx vy]; nra|]). destruct I.
Qed.

Lemma quadratic_continuous a z dz b bx c cy : continuity (fun s => a * (z + s * dz) - ((b + s * bx) * (b + s * bx) + (c + s * cy) * (c + s * cy))).
Proof. reg. Qed.

(** Light that goes down between the box and the rim meets the dish first. *)
Lemma ring_mirrored D f X Y H Z ang sigma a b v d : 0 < f -> 0 < D -> D * D < 16 * f * f -> 0 <= ang < PI / 2 -> Z * tan ang <= sigma -> f + tenm 6 <= Z ->
  0 <= a -> 0 <= b -> 0 <= sigma <= a -> b + sigma <= D / 2 -> X / 2 * (X / 2) + Y / 2 * (Y / 2) < (a - sigma) * (a - sigma) ->
  vz v = Z -> a * a <= vx v * vx v + vy v * vy v <= b * b -> deviates down ang d ->
  exists m c, mirrored_at (round_dish D f) X Y H f v d m c.
Proof.
  intros Hf HD L Ha Sg HZ Pa Pb Psg Rim Box Ez Rg Dv. pose proof (tenm_pos 6) as T6.
  assert (Sd : vz d < 0 /\ cos ang <= - vz d <= 1).
  { destruct (sideways ang Z sigma d 0 Ha Sg Dv) as (A & B & _); [lra|lra|auto]. }
  destruct Sd as (N3 & C3).
  destruct v as [v1 v2 v3]. cbn [vx vy vz] in *. subst v3.
  set (G := fun s => 4 * f * (Z + s * vz d) - ((v1 + s * vx d) * (v1 + s * vx d) + (v2 + s * vy d) * (v2 + s * vy d))).
  assert (G0 : 0 < G 0).
  { unfold G. replace (4 * f * (Z + 0 * vz d) - ((v1 + 0 * vx d) * (v1 + 0 * vx d) + (v2 + 0 * vy d) * (v2 + 0 * vy d))) with (4 * f * Z - (v1 * v1 + v2 * v2)) by ring.
    assert (b * b <= D / 2 * (D / 2)) by nra. assert (D / 2 * (D / 2) < 4 * f * f) by lra. nra. }
  set (s1 := Z / - vz d).
  assert (S1 : 0 <= s1) by (unfold s1, Rdiv; apply Rmult_le_pos; [lra|apply Rlt_le, Rinv_0_lt_compat; lra]).
  assert (Ez1 : Z + s1 * vz d = 0) by (unfold s1; field; lra).
  assert (G1 : G s1 <= 0). { unfold G. rewrite Ez1. pose proof (Rle_0_sqr (v1 + s1 * vx d)). pose proof (Rle_0_sqr (v2 + s1 * vy d)). unfold Rsqr in *. lra. }
  destruct (IVT_cor G 0 s1) as (t & Ht & Gt); auto.
  { unfold G. apply quadratic_continuous. }
  { nra. }
  assert (Tp : 0 < t) by (destruct (Rle_lt_or_eq_dec 0 t (proj1 Ht)) as [P|P]; auto; exfalso; subst t; lra).
  assert (Hs : forall s, 0 <= s <= t -> 0 <= Z + s * vz d).
  { intros s Bs. rewrite <- Ez1. nra. }
  assert (Sh : forall s, 0 <= s <= t -> (a - sigma) * (a - sigma) <= (v1 + s * vx d) * (v1 + s * vx d) + (v2 + s * vy d) * (v2 + s * vy d) <= (b + sigma) * (b + sigma)).
  { intros s Bs. destruct (sideways ang Z sigma d s Ha Sg Dv) as (_ & _ & Q); [lra|apply Hs; auto|].
    apply shifted_square; auto; lra. }
  set (m := V3 (v1 + t * vx d) (v2 + t * vy d) (Z + t * vz d)).
  assert (Em : m = ray_at (V3 v1 v2 Z) d t) by (unfold m, ray_at; destruct d; vunfold; veq; ring).
  assert (Bm : focal_bowl f m) by (unfold focal_bowl, m; cbn [vx vy vz]; unfold G in Gt; lra).
  assert (Rm : vx m * vx m + vy m * vy m <= D / 2 * (D / 2)).
  { unfold m; cbn [vx vy]. destruct (Sh t ltac:(lra)) as (_ & Q). apply Rle_trans with (1 := Q). apply Rmult_le_compat; lra. }
  assert (Zm : vz m < f). { unfold focal_bowl in Bm. apply Rmult_lt_reg_l with (4 * f); [lra|]. rewrite Bm. lra. }
  set (q := vx m * vx m + vy m * vy m + 4 * f * f). assert (Hq : 0 < q) by (unfold q; nra).
  set (n := vscale (/ sqrt q) (bowl_normal f m)).
  assert (Un : is_unit n).
  { unfold is_unit, n, bowl_normal. vunfold. cbn [vx vy vz]. pose proof (sqrt_lt_R0 q Hq) as Sq. pose proof (sqrt_sqrt q ltac:(lra)) as Sr.
    transitivity (/ sqrt q * / sqrt q * q); [unfold q; cbn [vx vy]; ring|]. rewrite <- Sr at 3. field. apply Rgt_not_eq; exact Sq. }
  exists m, (reflection d n), t, n, (/ sqrt q). split.
  { unfold m in Zm. cbn [vz] in Zm. nra. }
  split; auto. split; [split; auto|]. split.
  { intros B z s I Bs Bq. apply (side_square X Y H f B z) in Bq; auto. destruct (Sh s Bs) as (Q & _).
    destruct d as [d1 d2 d3]. unfold ray_at in Bq. vunfold. cbn [vx vy vz] in *. lra. }
  split.
  { intros s Bs (Bq & _). unfold focal_bowl, ray_at in Bq. destruct d as [d1 d2 d3]. vunfold. cbn [vx vy vz] in *.
    assert (Gs : G s = 0) by (unfold G; cbn [vx vy vz]; lra).
    set (be := d1 * d1 + d2 * d2). assert (Pb0 : 0 <= be) by (unfold be; nra).
    assert (Id : t * G s = (t - s) * G 0 + s * G t + be * s * (t - s) * t) by (unfold G, be; cbn [vx vy vz]; ring).
    rewrite Gs, Gt in Id. assert (0 < (t - s) * G 0) by (apply Rmult_lt_0_compat; lra).
    assert (0 <= be * s * (t - s) * t) by (repeat apply Rmult_le_pos; lra). lra. }
  split; auto. split; auto. apply reflection_mirrored; auto.
Qed.

(** Light that goes down in the middle ends on the back of the receiver. *)
Lemma shadow_stopped (A : shape) X Y H f Z ang sigma v d : 0 < f -> 0 < H -> (forall q, A q -> vz q < f) -> 0 <= ang < PI / 2 -> tenm 10 < cos ang -> Z * tan ang <= sigma ->
  0 <= sigma -> f + H + tenm 10 + tenm 6 < Z -> vz v = Z -> - (X / 2 - sigma) <= vx v <= X / 2 - sigma -> - (Y / 2 - sigma) <= vy v <= Y / 2 - sigma ->
  deviates down ang d -> stopped A X Y H f v d.
Proof.
  intros Hf HH HA Ha Hc Sg Ps HZ Ez Bx By Dv. pose proof (tenm_pos 6) as T6. pose proof (tenm_pos 10) as T10.
  assert (Sd : vz d < 0 /\ cos ang <= - vz d <= 1).
  { destruct (sideways ang Z sigma d 0 Ha Sg Dv) as (A' & B & _); [lra|lra|auto]. }
  destruct Sd as (N3 & C3). set (t := (Z - (f + H + tenm 10)) / - vz d).
  assert (Et : Z + t * vz d = f + H + tenm 10) by (unfold t; field; lra).
  assert (Lt : tenm 6 < t) by (clearbody t; nra).
  assert (Hs : forall s, 0 <= s <= t -> f + H + tenm 10 <= Z + s * vz d) by (intros s Bs; rewrite <- Et; nra).
  destruct (sideways ang Z sigma d t Ha Sg Dv) as (_ & _ & Q); [lra|lra|].
  destruct v as [v1 v2 v3], d as [d1 d2 d3]. cbn [vx vy vz] in *. subst v3.
  assert (Q1 : - sigma <= t * d1 <= sigma) by (apply abs_square; nra). assert (Q2 : - sigma <= t * d2 <= sigma) by (apply abs_square; nra).
  exists 5%nat. eexists _, _, t. split; [reflexivity|]. split; [discriminate|]. split; auto. unfold ray_at. vunfold. cbn [vx vy vz].
  split; [split; [lra|split; lra]|]. split; [lra|]. split.
  - intros i' B' z' s E Ni Bs Bq. specialize (Hs s Bs).
    destruct i' as [|[|[|[|[|[|i']]]]]]; cbn in E; try (injection E as <- <-; cbn in Bq; destruct Bq as (Q3 & Q4 & Q5); cbn [vz] in *; lra); [congruence|].
    destruct i'; discriminate.
  - intros s Bs Aq. apply HA in Aq. cbn [vz] in Aq. specialize (Hs s ltac:(lra)). lra.
Qed.
