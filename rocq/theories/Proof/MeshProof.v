(** The meshes of the geometry managers. *)
From Coq Require Import Reals List Arith ZArith Bool Lra Lia Psatz.
From Verif.Base Require Import Py Num Vec.
From Verif.Model Require Import RayBundle Boundary Geometry OpticsCallables Surface Mesh.
From Verif.Proof Require Import NumLemmas VecLemmas FlatProof ShapeProof GeomTop GeomCases.
From Verif.Spec Require Import GeometrySpec GeomIface MeshSpec.
Import ListNotations.
Local Open Scope R_scope.

(** ** Counting *)
Lemma ceil_bounds x : x <= IZR (ceil x) < x + 1.
Proof. unfold ceil. rewrite opp_IZR. pose proof (base_Int_part (- x)). lra. Qed.

Lemma below_ceil k x : INR k < x <-> (k < Z.to_nat (ceil x))%nat.
Proof.
  pose proof (ceil_bounds x) as C. rewrite INR_IZR_INZ. split.
  - intros H. assert (IZR (Z.of_nat k) < IZR (ceil x)) by lra. apply lt_IZR in H0. lia.
  - intros H. assert (Z : (Z.of_nat k <= ceil x - 1)%Z) by lia. apply IZR_le in Z. rewrite minus_IZR in Z. lra.
Qed.

Lemma int_nat x : 0 <= x -> exists k, INR k <= x < INR k + 1 /\ Int_part x = Z.of_nat k.
Proof.
  intros H. pose proof (base_Int_part x) as B. assert (0 <= Int_part x)%Z.
  { assert (P : IZR (-1) < IZR (Int_part x)) by lra. apply lt_IZR in P. lia. }
  exists (Z.to_nat (Int_part x)). rewrite INR_IZR_INZ, Z2Nat.id by auto. split; [lra|auto].
Qed.

Lemma steps_in a b s x : 0 < s -> In x (steps a b s) -> a <= x < b /\ exists k, x = a + INR k * s.
Proof.
  intros Hs H. unfold steps in H. apply in_map_iff in H as (k & <- & Hk). apply in_seq in Hk.
  assert (K : INR k < (b - a) / s) by (apply below_ceil; lia).
  apply Rmult_lt_compat_r with (r := s) in K; auto. unfold Rdiv in K. rewrite Rmult_assoc, Rinv_l, Rmult_1_r in K by lra.
  pose proof (pos_INR k). split; [nra|eauto].
Qed.

Lemma steps_at a b s k : 0 < s -> a + INR k * s < b -> In (a + INR k * s) (steps a b s).
Proof.
  intros Hs H. unfold steps. apply in_map_iff. exists k. split; auto. apply in_seq. split; [lia|].
  assert (INR k < (b - a) / s); [|apply below_ceil in H0; lia].
  apply Rmult_lt_reg_r with s; auto. unfold Rdiv. rewrite Rmult_assoc, Rinv_l, Rmult_1_r by lra. lra.
Qed.

Lemma steps_cover a b s t : 0 < s -> a <= t < b -> exists x, In x (steps a b s) /\ x <= t < x + s.
Proof.
  intros Hs (H0 & H1). destruct (int_nat ((t - a) / s)) as (k & (K0 & K1) & _).
  { apply Rmult_le_pos; [lra|]. left. apply Rinv_0_lt_compat; auto. }
  assert (E : (t - a) / s * s = t - a) by (field; lra).
  assert (B : INR k * s <= t - a) by (rewrite <- E; apply Rmult_le_compat_r; lra).
  assert (C : t - a < (INR k + 1) * s) by (rewrite <- E; apply Rmult_lt_compat_r; lra).
  exists (a + INR k * s). split; [apply steps_at; auto; lra|lra].
Qed.

Lemma linspace_in lo hi n x : (2 <= n)%nat -> lo <= hi -> In x (linspace lo hi n) -> lo <= x <= hi.
Proof.
  intros Hn H Hx. unfold linspace in Hx. apply in_map_iff in Hx as (k & <- & Hk). apply in_seq in Hk.
  assert (N1 : 0 < INR (n - 1)) by (apply lt_0_INR; lia).
  assert (K : INR k <= INR (n - 1)) by (apply le_INR; lia). pose proof (pos_INR k).
  assert (D : 0 <= (hi - lo) / INR (n - 1)).
  { apply Rmult_le_pos; [lra|]. left. apply Rinv_0_lt_compat; auto. }
  assert (E : INR (n - 1) * ((hi - lo) / INR (n - 1)) = hi - lo) by (field; lra).
  nra.
Qed.

Lemma linspace_cover lo hi n t : (2 <= n)%nat -> lo < hi -> lo <= t <= hi ->
  exists x, In x (linspace lo hi n) /\ Rabs (t - x) <= (hi - lo) / INR (n - 1) / 2.
Proof.
  intros Hn H Ht. assert (N1 : 0 < INR (n - 1)) by (apply lt_0_INR; lia).
  set (d := (hi - lo) / INR (n - 1)).
  assert (D : 0 < d) by (apply Rdiv_lt_0_compat; lra).
  assert (E : INR (n - 1) * d = hi - lo) by (unfold d; field; lra).
  assert (Q : (t - lo) / d * d = t - lo) by (field; lra). set (q := (t - lo) / d) in *.
  assert (Q0 : 0 <= q) by (apply Rmult_le_pos; [lra|left; apply Rinv_0_lt_compat; auto]).
  destruct (int_nat (q + 1 / 2)) as (k & (K0 & K1) & _); [lra|].
  assert (Kn : (k < n)%nat).
  { assert (q <= INR (n - 1)) by (apply Rmult_le_reg_r with d; lra).
    assert (INR k < INR n); [|apply INR_lt; auto].
    rewrite (minus_INR n 1) in * by lia. simpl in *. lra. }
  exists (lo + INR k * d). split.
  - unfold linspace. apply in_map_iff. exists k. split; auto. apply in_seq. lia.
  - apply Rabs_le. split; nra.
Qed.

(** ** Grids *)
Lemma grid_in f us vs p : in_mesh (grid f us vs) p <-> exists u v, In u us /\ In v vs /\ p = f u v.
Proof.
  unfold in_mesh, grid. split.
  - intros (row & Hr & Hp). apply in_map_iff in Hr as (u & <- & Hu). apply in_map_iff in Hp as (v & <- & Hv).
    exists u, v. auto.
  - intros (u & v & Hu & Hv & ->). exists (map (f u) vs). split; [apply in_map_iff; eauto|apply in_map; auto].
Qed.
Lemma grid_flat f us vs : two_dimensional (grid f us vs).
Proof. exists (length vs). intros row H. apply in_map_iff in H as (u & <- & _). apply map_length. Qed.

Lemma grid_represents f us vs (A A' : shape) o :
  (forall u v, In u us -> In v vs -> A' (f u v)) ->
  (forall p, A p -> exists u v, In u us /\ In v vs /\ near o p (f u v)) ->
  represents (grid f us vs) A A' o.
Proof.
  intros H K. split; [apply grid_flat|]. split.
  - intros p Hp. apply grid_in in Hp as (u & v & Hu & Hv & ->). auto.
  - intros p Hp. destruct (K p Hp) as (u & v & Hu & Hv & N). exists (f u v). split; auto. apply grid_in. eauto.
Qed.

(** ** Angles *)
Lemma sin_small x : sin x * sin x <= x * x.
Proof.
  assert (P : forall y, 0 < y -> sin y * sin y <= y * y).
  { intros y Hy. destruct (MVT_cor2 sin cos 0 y Hy) as (c & E & _).
    - intros. apply derivable_pt_lim_sin.
    - rewrite sin_0 in E. pose proof (COS_bound c). assert (S : sin y = cos c * y) by (rewrite Rminus_0_r, Rminus_0_r in E; exact E). rewrite S.
      assert (cos c * cos c <= 1) by nra. assert (0 <= y * y) by nra.
      replace (cos c * y * (cos c * y)) with (cos c * cos c * (y * y)) by ring. nra. }
  destruct (Rtotal_order x 0) as [H|[->|H]].
  - replace (sin x * sin x) with (sin (- x) * sin (- x)) by (rewrite sin_neg; ring).
    replace (x * x) with (- x * - x) by ring. apply P. lra.
  - rewrite sin_0. lra.
  - auto.
Qed.
Lemma chord x : 0 <= 2 - 2 * cos x <= x * x.
Proof.
  pose proof (COS_bound x). split; [lra|].
  replace x with (2 * (x / 2)) at 1 by field. rewrite cos_2a_sin. pose proof (sin_small (x / 2)). lra.
Qed.

Lemma polar x y r : 0 <= r -> x * x + y * y = r * r -> exists a, 0 <= a < 2 * PI /\ x = r * cos a /\ y = r * sin a.
Proof.
  intros Hr E. pose proof PI_RGT_0 as Pp. destruct (Rle_lt_or_eq_dec 0 r Hr) as [P|<-].
  2:{ exists 0. split; [lra|]. split; nra. }
  set (c := x / r). assert (Ex : x = r * c) by (unfold c; field; lra).
  set (s := y / r). assert (Ey : y = r * s) by (unfold s; field; lra).
  assert (U : c * c + s * s = 1).
  { apply Rmult_eq_reg_l with (r * r); [|nra]. rewrite Ex, Ey in E. lra. }
  assert (Cb : -1 <= c <= 1) by nra. pose proof (acos_bound c) as Ab.
  assert (Sq : 1 - Rsqr c = s * s) by (unfold Rsqr; lra).
  destruct (Rle_lt_dec 0 s) as [Hs|Hs].
  - exists (acos c). split; [lra|]. rewrite cos_acos, sin_acos, Sq by auto. split; auto.
    rewrite Ey. f_equal. symmetry. apply sqrt_square; auto.
  - exists (2 * PI - acos c). assert (A0 : acos c <> 0).
    { intros Z. pose proof (cos_acos c Cb) as Q. rewrite Z, cos_0 in Q. nra. }
    split; [lra|]. rewrite cos_minus, sin_minus, cos_2PI, sin_2PI, cos_acos, sin_acos, Sq by auto.
    split; [rewrite Ex; ring|]. replace (s * s) with (- s * - s) by ring. rewrite sqrt_square by lra. rewrite Ey. ring.
Qed.

Lemma spherical p r : 0 < r -> norm2 p = r * r ->
  exists t a, 0 <= t <= PI /\ 0 <= a < 2 * PI /\
    p = V3 (r * sin t * cos a) (r * sin t * sin a) (r * cos t) /\ (vz p <= 0 -> PI / 2 <= t).
Proof.
  intros P E. destruct p as [x y z]. vunfold. cbn [vx vy vz] in *.
  set (c := z / r). assert (Ez : z = r * c) by (unfold c; field; lra).
  assert (Cb : -1 <= c <= 1) by (split; apply Rmult_le_reg_l with r; try lra; nra).
  pose proof (acos_bound c) as Ab. pose proof (cos_acos c Cb) as Cc. pose proof (sin_acos c Cb) as Sc.
  set (t := acos c) in *. assert (S0 : 0 <= sin t) by (rewrite Sc; apply sqrt_pos).
  assert (Q : sin t * sin t = 1 - c * c).
  { rewrite Sc. rewrite sqrt_sqrt; [reflexivity|]. unfold Rsqr. nra. }
  destruct (polar x y (r * sin t)) as (a & Ha & Ex & Ey).
  - apply Rmult_le_pos; lra.
  - replace (r * sin t * (r * sin t)) with (r * r * (sin t * sin t)) by ring. rewrite Q. rewrite Ez in E. lra.
  - exists t, a. split; auto. split; auto. split; [f_equal; auto; rewrite Cc; auto|].
    intros Hz. destruct (Rle_lt_dec (PI / 2) t) as [|L]; auto. exfalso.
    assert (0 < cos t) by (apply cos_gt_0; lra). rewrite Cc in H. nra.
Qed.

Lemma polar_near r a r' a' : 0 <= r' -> 0 <= r ->
  norm2 (vsub (V3 (r * cos a) (r * sin a) 0) (V3 (r' * cos a') (r' * sin a') 0)) <=
  (r - r') * (r - r') + r * r' * ((a - a') * (a - a')).
Proof.
  intros H' H. vunfold. cbn [vx vy vz].
  pose proof (chord (a - a')) as (_ & C). rewrite cos_minus in C.
  pose proof (sin2_cos2 a) as T. pose proof (sin2_cos2 a') as T'. unfold Rsqr in *.
  replace ((r * cos a - r' * cos a') * (r * cos a - r' * cos a') + (r * sin a - r' * sin a') * (r * sin a - r' * sin a') + (0 - 0) * (0 - 0))
    with ((r - r') * (r - r') + r * r' * (2 - 2 * (cos a * cos a' + sin a * sin a'))
          + r * r * (sin a * sin a + cos a * cos a - 1) + r' * r' * (sin a' * sin a' + cos a' * cos a' - 1)) by ring.
  rewrite T, T'. assert (0 <= r * r') by nra. nra.
Qed.

(** ** The classes *)
Lemma abs_le x a : Rabs x <= a -> - a <= x <= a.
Proof. intros H. pose proof (Rle_abs x). pose proof (Rle_abs (- x)). rewrite Rabs_Ropp in *. lra. Qed.
Lemma div_pos a b : 0 < a -> 0 < b -> 0 < a / b.
Proof. apply Rdiv_lt_0_compat. Qed.
Lemma inv_sq k : 0 < k -> 2 * (1 / k * (1 / k)) <= 2 / k * (2 / k).
Proof. intros H. assert (0 < 1 / k) by (apply div_pos; lra). replace (2 / k) with (2 * (1 / k)) by (field; lra). nra. Qed.

Lemma edge_points_ok res half : 0 < res -> 0 < half ->
  (2 <= edge_points res half)%nat /\ (half - - half) / INR (edge_points res half - 1) / 2 <= 1 / res.
Proof.
  intros H0 H1. unfold edge_points. cbv zeta. pose proof (ceil_bounds (res * half * 2)) as (C & _).
  set (n := Z.to_nat _).
  assert (N : (2 <= n)%nat /\ res * half * 2 <= INR n).
  { unfold n. destruct (Z.ltb_spec (ceil (res * half * 2)) 2) as [L|L].
    - split; [reflexivity|]. apply IZR_lt in L. simpl. lra.
    - split; [lia|]. rewrite INR_IZR_INZ, Z2Nat.id by lia. auto. }
  destruct N as (N & M). split; auto.
  assert (P : 1 <= INR (n - 1)) by (apply (le_INR 1); lia).
  assert (Q : INR n = INR (n - 1) + 1) by (rewrite minus_INR by lia; simpl; ring).
  replace (half - - half) with (2 * half) by ring.
  apply Rmult_le_reg_r with (INR (n - 1) * res); [nra|].
  replace (2 * half / INR (n - 1) / 2 * (INR (n - 1) * res)) with (half * res) by (field; lra).
  replace (1 / res * (INR (n - 1) * res)) with (INR (n - 1)) by (field; lra). nra.
Qed.

Lemma rect_meshed w h gm res : new_rect_plate w h = Ok gm -> 0 < res ->
  meshed (geom_mesh gm res) (rectangle w h) (rectangle w h) (2 / res).
Proof.
  intros E H. apply new_rect_ok in E as (Hw & Hh & ->). eexists. split; [reflexivity|].
  destruct (edge_points_ok res (w / 2)) as (N1 & D1); [lra|lra|].
  destruct (edge_points_ok res (h / 2)) as (N2 & D2); [lra|lra|].
  apply grid_represents.
  - intros x y Hx Hy. apply linspace_in in Hx; [|auto|lra]. apply linspace_in in Hy; [|auto|lra].
    unfold rectangle. cbn [vx vy vz]. lra.
  - intros p (Z & Hx & Hy).
    destruct (linspace_cover (- (w / 2)) (w / 2) _ (vx p) N1) as (x & Ix & Dx); [lra|lra|].
    destruct (linspace_cover (- (h / 2)) (h / 2) _ (vy p) N2) as (y & Iy & Dy); [lra|lra|].
    exists x, y. split; auto. split; auto. unfold near. destruct p as [px py pz]. vunfold. cbn [vx vy vz] in *. subst pz.
    assert (Ax : Rabs (px - x) <= 1 / res) by lra. assert (Ay : Rabs (py - y) <= 1 / res) by lra.
    apply abs_le in Ax, Ay. pose proof (inv_sq res H). assert (0 < 1 / res) by (apply div_pos; lra). nra.
Qed.

Lemma not_zero x : 0 < x -> Reqb x 0 = false.
Proof. intros. apply Reqb_false. lra. Qed.

Lemma scaled_sq R res d : 0 < R -> 0 < res -> 0 <= d < 1 / (R * res) -> R * R * (d * d) <= 1 / res * (1 / res).
Proof.
  intros H0 H1 (D0 & D1).
  assert (E : R * (1 / (R * res)) = 1 / res) by (field; lra).
  assert (0 <= R * d) by nra. assert (R * d <= 1 / res) by nra.
  replace (R * R * (d * d)) with (R * d * (R * d)) by ring. nra.
Qed.

(** Radius and angle of a mesh point near a given one. *)
Lemma polar_mesh R res ends p : 0 < R -> 0 < res -> 2 * PI <= ends ->
  vx p * vx p + vy p * vy p <= R * R ->
  exists r a, In r (steps 0 (R + 1 / 100 / res) (1 / res)) /\ In a (steps 0 ends (1 / (R * res))) /\
    exists rp, 0 <= r <= rp /\ rp <= R /\ rp < r + 1 / res /\ vx p * vx p + vy p * vy p = rp * rp /\
    norm2 (vsub (V3 (vx p) (vy p) 0) (V3 (r * cos a) (r * sin a) 0)) <= 2 * (1 / res * (1 / res)).
Proof.
  intros HR Hs He Hp. set (rp := sqrt (vx p * vx p + vy p * vy p)).
  assert (Q0 : 0 <= vx p * vx p + vy p * vy p) by nra.
  assert (Q : rp * rp = vx p * vx p + vy p * vy p) by (apply sqrt_sqrt; auto).
  assert (P0 : 0 <= rp) by apply sqrt_pos. assert (P1 : rp <= R) by nra.
  destruct (polar (vx p) (vy p) rp P0 (eq_sym Q)) as (ap & Ha & Ex & Ey).
  assert (S1 : 0 < 1 / res) by (apply div_pos; lra). assert (S2 : 0 < 1 / (R * res)) by (apply div_pos; nra).
  assert (S3 : 0 < 1 / 100 / res) by (apply div_pos; lra).
  destruct (steps_cover 0 (R + 1 / 100 / res) (1 / res) rp S1) as (r & Ir & Dr); [lra|].
  destruct (steps_cover 0 ends (1 / (R * res)) ap S2) as (a & Ia & Da); [lra|].
  exists r, a. split; auto. split; auto. exists rp.
  apply steps_in in Ir as ((R0 & _) & _); auto. repeat split; try lra.
  rewrite Ex, Ey. eapply Rle_trans; [apply polar_near; lra|].
  pose proof (scaled_sq R res (ap - a) HR Hs) as K. assert (0 <= ap - a < 1 / (R * res)) by lra. specialize (K H).
  assert (rp * r * ((ap - a) * (ap - a)) <= R * R * ((ap - a) * (ap - a))).
  { apply Rmult_le_compat_r; [nra|]. nra. }
  assert ((rp - r) * (rp - r) <= 1 / res * (1 / res)) by nra. lra.
Qed.

Lemma round_meshed R gm res : new_round_plate R = Ok gm -> 0 < res ->
  meshed (geom_mesh gm res) (disk R) (disk (R + 1 / (100 * res))) (2 / res).
Proof.
  intros E H. apply new_round_ok in E as (HR & ->). cbn [geom_mesh]. unfold round_mesh.
  rewrite (not_zero res), (not_zero (R * res)) by nra. eexists. split; [reflexivity|].
  assert (S1 : 0 < 1 / res) by (apply div_pos; lra).
  replace (1 / (100 * res)) with (1 / 100 / res) by (field; lra).
  apply grid_represents.
  - intros r a Hr _. apply steps_in in Hr as (Hr & _); auto. unfold disk. cbn [vx vy vz]. split; auto.
    replace (r * cos a * (r * cos a) + r * sin a * (r * sin a)) with (r * r * (Rsqr (sin a) + Rsqr (cos a))) by (unfold Rsqr; ring).
    rewrite sin2_cos2. nra.
  - intros p (Z & Hp). destruct (polar_mesh R res (2 * PI) p HR H) as (r & a & Ir & Ia & rp & _ & _ & _ & _ & D); [lra|auto|].
    exists r, a. split; auto. split; auto. unfold near. pose proof (inv_sq res H).
    destruct p as [px py pz]. cbn [vz] in Z. subst pz. cbn [vx vy] in D. lra.
Qed.

Lemma sphere_part_mesh R first res (A A' : shape) : 0 < R -> 0 < res -> 0 <= first ->
  (forall t a, first <= t < PI + 1 / (R * res) -> (exists k, t = first + INR k * (1 / (R * res))) ->
     A' (V3 (R * sin t * cos a) (R * sin t * sin a) (R * cos t))) ->
  (forall p, A p -> exists t a, first <= t <= PI /\ 0 <= a < 2 * PI /\ p = V3 (R * sin t * cos a) (R * sin t * sin a) (R * cos t)) ->
  meshed (sphere_mesh R first res) A A' (2 / res).
Proof.
  intros HR H Hf HA' HA. unfold sphere_mesh. rewrite not_zero by nra. eexists. split; [reflexivity|].
  set (s := 1 / (R * res)) in *. assert (S2 : 0 < s) by (apply div_pos; nra). pose proof PI_RGT_0.
  apply grid_represents.
  - intros t a Ht _. apply steps_in in Ht as (Ht & K); auto.
  - intros p Hp. destruct (HA p Hp) as (tp & ap & Ht & Ha & ->).
    destruct (steps_cover first (PI + s) s tp S2) as (t & It & Dt); [lra|].
    destruct (steps_cover 0 (2 * (PI + s)) s ap S2) as (a & Ia & Da); [lra|].
    exists t, a. split; auto. split; auto. unfold near. vunfold. cbn [vx vy vz].
    pose proof (chord (tp - t)) as (C0 & C1). pose proof (chord (ap - a)) as (C2 & C3).
    rewrite cos_minus in C0, C1, C2, C3.
    pose proof (sin2_cos2 tp) as T1. pose proof (sin2_cos2 t) as T2. pose proof (sin2_cos2 ap) as T3. pose proof (sin2_cos2 a) as T4.
    unfold Rsqr in *.
    pose proof (scaled_sq R res (tp - t) HR H) as K1. fold s in K1. specialize (K1 ltac:(lra)).
    pose proof (scaled_sq R res (ap - a) HR H) as K2. fold s in K2. specialize (K2 ltac:(lra)).
    set (st := sin tp) in *. set (ct := cos tp) in *. set (su := sin t) in *. set (cu := cos t) in *.
    set (sa := sin ap) in *. set (ca := cos ap) in *. set (sb := sin a) in *. set (cb := cos a) in *.
    replace ((R * st * ca - R * su * cb) * (R * st * ca - R * su * cb) + (R * st * sa - R * su * sb) * (R * st * sa - R * su * sb) +
             (R * ct - R * cu) * (R * ct - R * cu))
      with (R * R * (st * st * (sa * sa + ca * ca) + su * su * (sb * sb + cb * cb) + ct * ct + cu * cu
              - 2 * (ct * cu + st * su) + st * su * (2 - 2 * (ca * cb + sa * sb)))) by ring.
    rewrite T3, T4.
    assert (Sb : st * su <= 1) by nra.
    assert (X : st * su * (2 - 2 * (ca * cb + sa * sb)) <= (ap - a) * (ap - a)).
    { apply Rle_trans with (1 * (2 - 2 * (ca * cb + sa * sb))); [apply Rmult_le_compat_r; lra|lra]. }
    pose proof (inv_sq res H).
    apply Rle_trans with (R * R * ((tp - t) * (tp - t) + (ap - a) * (ap - a))).
    + apply Rmult_le_compat_l; [nra|]. lra.
    + lra.
Qed.

Lemma on_sphere R t a : norm2 (V3 (R * sin t * cos a) (R * sin t * sin a) (R * cos t)) = R * R.
Proof.
  vunfold. cbn [vx vy vz]. pose proof (sin2_cos2 t) as T1. pose proof (sin2_cos2 a) as T2. unfold Rsqr in *.
  replace (R * sin t * cos a * (R * sin t * cos a) + R * sin t * sin a * (R * sin t * sin a) + R * cos t * (R * cos t))
    with (R * R * (sin t * sin t * (sin a * sin a + cos a * cos a) + cos t * cos t)) by ring.
  rewrite T2, Rmult_1_r, T1. ring.
Qed.

Lemma whole_sphere_meshed R res : 0 < R -> 0 < res ->
  meshed (sphere_mesh R 0 res) (ball_surface R) (ball_surface R) (2 / res).
Proof.
  intros HR H. apply sphere_part_mesh; auto; [lra| |].
  - intros t a _ _. apply on_sphere.
  - intros p Hp. destruct (spherical p R HR Hp) as (t & a & Ht & Ha & E & _). eauto 8.
Qed.
Lemma sphere_meshed R gm res : new_sphere R = Ok gm -> 0 < res ->
  meshed (geom_mesh gm res) (ball_surface R) (ball_surface R) (2 / res).
Proof. intros E H. apply new_sphere_ok in E as (HR & ->). apply whole_sphere_meshed; auto. Qed.
Lemma cut_sphere_meshed R bd gm res : new_cut_sphere R bd = Ok gm -> 0 < res ->
  meshed (geom_mesh gm res) (ball_surface R) (ball_surface R) (2 / res).
Proof. intros E H. apply new_cut_ok in E as (HR & ->). apply whole_sphere_meshed; auto. Qed.

Lemma hemisphere_meshed R gm res : new_hemisphere R = Ok gm -> 0 < res -> 1 <= PI * (R * res) ->
  meshed (geom_mesh gm res) (lower_half (ball_surface R)) (lower_half (ball_surface R)) (2 / res).
Proof.
  intros E H Hs. apply new_hemisphere_ok in E as (HR & ->). cbn [geom_mesh]. pose proof PI_RGT_0 as Pp.
  apply sphere_part_mesh; auto; [lra| |].
  - intros t a Ht (k & Ek). split; [apply on_sphere|]. cbn [vz].
    assert (cos t <= 0); [|nra].
    assert (P : 0 < R * res) by nra. set (s := 1 / (R * res)) in *.
    assert (S0 : 0 < s) by (apply div_pos; lra).
    assert (S1 : s <= PI).
    { apply Rmult_le_reg_r with (R * res); auto. unfold s. replace (1 / (R * res) * (R * res)) with 1 by (field; lra). auto. }
    apply cos_le_0; [lra|]. destruct (Rle_lt_dec s (PI / 2)); [lra|].
    destruct k as [|[|k]].
    + simpl in Ek. lra.
    + simpl in Ek. lra.
    + exfalso. rewrite !S_INR in Ek. pose proof (pos_INR k). nra.
  - intros p (Hp & Hz). destruct (spherical p R HR Hp) as (t & a & Ht & Ha & E & K). exists t, a. specialize (K Hz).
    split; [lra|auto].
Qed.
Lemma hemisphere_overshoots R gm res : new_hemisphere R = Ok gm -> 1 < 2 * PI * (R * res) -> PI * (R * res) < 1 -> 0 < res ->
  exists m p, geom_mesh gm res = Ok m /\ in_mesh m p /\ 0 < vz p.
Proof.
  intros E H1 H2 H. apply new_hemisphere_ok in E as (HR & ->). cbn [geom_mesh]. unfold sphere_mesh.
  assert (P : 0 < R * res) by nra. rewrite not_zero by auto. pose proof PI_RGT_0 as Pp.
  set (s := 1 / (R * res)) in *. assert (Es : s * (R * res) = 1) by (unfold s; field; lra).
  assert (S0 : 0 < s) by (apply div_pos; lra).
  assert (S1 : PI < s) by nra. assert (S2 : s < 2 * PI) by nra.
  eexists. exists (V3 (R * sin (PI / 2 + s) * cos 0) (R * sin (PI / 2 + s) * sin 0) (R * cos (PI / 2 + s))).
  split; [reflexivity|]. split.
  - apply grid_in. exists (PI / 2 + s), 0. split; [|split; [|reflexivity]].
    + replace (PI / 2 + s) with (PI / 2 + INR 1 * s) by (simpl; ring). apply steps_at; auto. simpl. lra.
    + replace 0 with (0 + INR 0 * s) at 1 by (simpl; ring). apply steps_at; auto. simpl. lra.
  - cbn [vz]. apply Rmult_lt_0_compat; auto. rewrite cos_plus, cos_PI2, sin_PI2.
    assert (sin s < 0) by (apply sin_lt_0; lra). lra.
Qed.

Lemma cylinder_meshed D h res : 0 < D -> 0 < res ->
  meshed (geom_mesh (new_finite_cylinder D h) res) (round_wall_of_height D h) (longer_wall D h (1 / (2 * res))) (2 / res).
Proof.
  intros HD H. unfold new_finite_cylinder. cbn [geom_mesh]. unfold cylinder_mesh. set (R := D / 2). assert (HR : 0 < R) by (unfold R; lra).
  rewrite (not_zero res), (not_zero (R * res)) by nra. eexists. split; [reflexivity|].
  assert (S1 : 0 < 1 / res) by (apply div_pos; lra). assert (S2 : 0 < 1 / (R * res)) by (apply div_pos; nra).
  replace (1 / (2 * res)) with (1 / 2 / res) by (field; lra). assert (S3 : 0 < 1 / 2 / res) by (apply div_pos; lra).
  apply grid_represents.
  - intros z a Hz _. apply steps_in in Hz as (Hz & _); auto. split; cbn [vx vy vz]; [|lra].
    unfold round_wall. cbn [vx vy vz]. fold R.
    replace (R * cos a * (R * cos a) + R * sin a * (R * sin a)) with (R * R * (Rsqr (sin a) + Rsqr (cos a))) by (unfold Rsqr; ring).
    rewrite sin2_cos2. ring.
  - intros p (Hp & Hz). unfold round_wall in Hp. fold R in Hp.
    destruct (polar (vx p) (vy p) R) as (ap & Ha & Ex & Ey); [lra|auto|].
    destruct (steps_cover (- (h / 2)) (h / 2 + 1 / 2 / res) (1 / res) (vz p) S1) as (z & Iz & Dz); [lra|].
    destruct (steps_cover 0 (2 * PI + 1 / (R * res)) (1 / (R * res)) ap S2) as (a & Ia & Da); [lra|].
    exists z, a. split; auto. split; auto. unfold near.
    assert (K := polar_near R ap R a ltac:(lra) ltac:(lra)).
    pose proof (scaled_sq R res (ap - a) HR H ltac:(lra)) as K2. pose proof (inv_sq res H).
    destruct p as [px py pz]. vunfold. cbn [vx vy vz] in *. rewrite Ex, Ey.
    assert ((pz - z) * (pz - z) <= 1 / res * (1 / res)) by nra. lra.
Qed.

Lemma dish_meshed D f gm res : new_dish D f = Ok gm -> 0 < D -> 0 < res ->
  meshed (geom_mesh gm res) (round_dish D f) (larger_dish D f (1 / (100 * res))) ((2 + D / (4 * f)) / res).
Proof.
  intros E HD H.
  assert (G : 0 < f /\ exists hh, gm = ParabDish (1 / (4 * f)) (1 / (4 * f)) (D / 2) hh).
  { revert E. unfold new_dish, par_param. destruct (Rltb_spec f 0) as [|F0]; cbn [bind]; [discriminate|].
    assert (F1 : 0 <= f) by lra.
    assert (Q : 2 * sqrt f * (2 * sqrt f) = 4 * f) by (replace (2 * sqrt f * (2 * sqrt f)) with (4 * (sqrt f * sqrt f)) by ring; rewrite sqrt_sqrt; auto).
    rewrite Q. destruct (Reqb_spec (4 * f) 0); [discriminate|]. intros E. injection E as <-. split; [lra|]. eauto. }
  destruct G as (Hf & hh & ->). cbn [geom_mesh]. unfold dish_mesh. set (R := D / 2). assert (HR : 0 < R) by (unfold R; lra).
  rewrite (not_zero res), (not_zero (R * res)) by nra. eexists. split; [reflexivity|].
  assert (S1 : 0 < 1 / res) by (apply div_pos; lra). assert (S2 : 0 < 1 / (R * res)) by (apply div_pos; nra).
  replace (1 / (100 * res)) with (1 / 100 / res) by (field; lra). pose proof PI_RGT_0 as Pp.
  assert (Sq : forall r a, r * cos a * (r * cos a) + r * sin a * (r * sin a) = r * r).
  { intros r a. replace (r * cos a * (r * cos a) + r * sin a * (r * sin a)) with (r * r * (Rsqr (sin a) + Rsqr (cos a))) by (unfold Rsqr; ring).
    rewrite sin2_cos2. ring. }
  apply grid_represents.
  - intros r a Hr _. apply steps_in in Hr as (Hr & _); auto. cbv zeta. split; unfold focal_bowl; cbn [vx vy vz].
    + field. lra.
    + rewrite Sq. fold R. nra.
  - intros p (Hb & Hp). fold R in Hp. unfold focal_bowl in Hb.
    destruct (polar_mesh R res (2 * PI + 1 / (R * res)) p HR H) as (r & a & Ir & Ia & rp & R0 & R1 & R2 & Q & Dd); [lra|auto|].
    exists r, a. split; auto. split; auto. unfold near. cbv zeta.
    destruct p as [px py pz]. vunfold. cbn [vx vy vz] in *.
    replace (1 / (4 * f) * (r * cos a * (r * cos a)) + 1 / (4 * f) * (r * sin a * (r * sin a)))
      with (1 / (4 * f) * (r * r)) by (rewrite <- (Sq r a); ring).
    assert (Ez : pz = 1 / (4 * f) * (rp * rp)).
    { apply Rmult_eq_reg_l with (4 * f); [|lra]. rewrite Hb, Q. field. lra. }
    rewrite Ez. set (c := 1 / (4 * f)). assert (C0 : 0 < c) by (apply div_pos; lra).
    set (k := 1 / res) in *.
    replace ((2 + D / (4 * f)) / res) with ((2 + 2 * R * c) * k) by (unfold k, c, R; field; lra).
    assert (Dz : 0 <= c * (rp * rp) - c * (r * r) <= 2 * R * c * k).
    { split; [assert (r * r <= rp * rp) by nra; nra|].
      replace (c * (rp * rp) - c * (r * r)) with (c * ((rp - r) * (rp + r))) by ring.
      replace (2 * R * c * k) with (c * (k * (2 * R))) by ring. apply Rmult_le_compat_l; [lra|].
      apply Rmult_le_compat; lra. }
    set (dz := c * (rp * rp) - c * (r * r)) in *. set (e := 2 * R * c * k) in *.
    replace ((2 + 2 * R * c) * k * ((2 + 2 * R * c) * k)) with ((2 * k + e) * (2 * k + e)) by (unfold e; ring).
    assert (dz * dz <= e * e) by nra. nra.
Qed.

Lemma cauchy u v : dot u v * dot u v <= norm2 u * norm2 v.
Proof.
  destruct u as [a b c], v as [x y z]. vunfold. cbn [vx vy vz].
  pose proof (Rle_0_sqr (a * y - b * x)) as A1. pose proof (Rle_0_sqr (a * z - c * x)) as A2. pose proof (Rle_0_sqr (b * z - c * y)) as A3.
  unfold Rsqr in *. lra.
Qed.

Lemma combination v0 v1 c0 c1 d : 0 <= d -> Rabs c0 <= d -> Rabs c1 <= d ->
  norm2 (vadd (vscale c0 v0) (vscale c1 v1)) <= (norm v0 + norm v1) * d * ((norm v0 + norm v1) * d).
Proof.
  intros Hd H0 H1. apply abs_le in H0, H1. unfold norm.
  assert (N0 := norm2_nonneg v0). assert (N1 := norm2_nonneg v1).
  assert (Q0 := sqrt_sqrt _ N0). assert (Q1 := sqrt_sqrt _ N1).
  assert (P0 := sqrt_pos (norm2 v0)). assert (P1 := sqrt_pos (norm2 v1)).
  pose proof (cauchy v0 v1) as C.
  assert (E : norm2 (vadd (vscale c0 v0) (vscale c1 v1)) = c0 * c0 * norm2 v0 + 2 * (c0 * c1) * dot v0 v1 + c1 * c1 * norm2 v1)
    by (clear; destruct v0, v1; vunfold; cbn; ring).
  rewrite E. revert N0 N1 Q0 Q1 P0 P1 C. clear E.
  generalize (dot v0 v1) (sqrt (norm2 v0)). intros x n0. generalize (sqrt (norm2 v1)). intros n1.
  generalize (norm2 v0) (norm2 v1). intros m0 m1. clear v0 v1. intros N0 N1 Q0 Q1 P0 P1 C. subst m0 m1.
  assert (X : - (n0 * n1) <= x <= n0 * n1).
  { assert (x * x <= (n0 * n1) * (n0 * n1)) by lra. assert (0 <= n0 * n1) by nra. split; nra. }
  assert (C0 : c0 * c0 <= d * d) by nra. assert (C1 : c1 * c1 <= d * d) by nra.
  assert (C2 : - (d * d) <= c0 * c1 <= d * d) by (split; nra).
  assert (0 <= n0 * n1) by nra.
  assert (A : c0 * c1 * x <= d * d * (n0 * n1)).
  { destruct (Rle_lt_dec 0 (c0 * c1)).
    - apply Rle_trans with (c0 * c1 * (n0 * n1)); [apply Rmult_le_compat_l; lra|apply Rmult_le_compat_r; lra].
    - apply Rle_trans with (- (c0 * c1) * (n0 * n1)); [nra|apply Rmult_le_compat_r; lra]. }
  assert (c0 * c0 * (n0 * n0) <= d * d * (n0 * n0)) by (apply Rmult_le_compat_r; nra).
  assert (c1 * c1 * (n1 * n1) <= d * d * (n1 * n1)) by (apply Rmult_le_compat_r; nra).
  replace ((n0 + n1) * d * ((n0 + n1) * d)) with (d * d * (n0 * n0) + 2 * (d * d * (n0 * n1)) + d * d * (n1 * n1)) by ring.
  lra.
Qed.

Lemma triangle_meshed v0 v1 n : (2 <= n)%nat ->
  meshed (geom_mesh (new_triangle v0 v1) (INR n)) (triangle v0 v1) (triangle v0 v1) ((norm v0 + norm v1) / INR (n - 1)).
Proof.
  intros Hn. unfold new_triangle. cbn [geom_mesh]. unfold triangle_mesh.
  assert (N2 : 2 <= INR n) by (apply (le_INR 2); auto).
  destruct (Rltb_spec (INR n) 2); [lra|]. rewrite Int_part_INR, Nat2Z.id. eexists. split; [reflexivity|].
  assert (N1 : 0 < INR (n - 1)) by (apply lt_0_INR; lia).
  apply grid_represents.
  - intros b a Hb Ha. apply linspace_in in Hb; [|auto|lra]. apply linspace_in in Ha; [|auto|lra].
    exists (a * b), (a * (1 - b)). split; [nra|]. split; [nra|]. split; [nra|].
    destruct v0, v1. vunfold. veq; ring.
  - intros p (s & t & Hs & Ht & Hst & ->).
    assert (G : exists al be, 0 <= al <= 1 /\ 0 <= be <= 1 /\ s = al * be /\ t = al * (1 - be)).
    { destruct (Req_dec (s + t) 0) as [Z|Z].
      - exists 0, 0. repeat split; lra.
      - exists (s + t), (s / (s + t)). assert (P : 0 < s + t) by lra. split; [lra|]. split; [split|split].
        + apply Rmult_le_pos; auto. left. apply Rinv_0_lt_compat; auto.
        + apply Rmult_le_reg_r with (s + t); auto. unfold Rdiv. rewrite Rmult_assoc, Rinv_l by lra. lra.
        + field. auto.
        + field. auto. }
    destruct G as (al & be & Hal & Hbe & -> & ->).
    destruct (linspace_cover 0 1 n al Hn) as (a & Ia & Da); [lra|lra|].
    destruct (linspace_cover 0 1 n be Hn) as (b & Ib & Db); [lra|lra|].
    exists b, a. split; auto. split; auto. unfold near.
    apply linspace_in in Ia; [|auto|lra]. apply linspace_in in Ib; [|auto|lra].
    set (d := 1 / INR (n - 1)). assert (D0 : 0 < d) by (apply div_pos; lra).
    replace ((1 - 0) / INR (n - 1) / 2) with (d / 2) in * by (unfold d; field; lra).
    apply abs_le in Da, Db.
    replace ((norm v0 + norm v1) / INR (n - 1)) with ((norm v0 + norm v1) * d) by (unfold d; field; lra).
    replace (vsub (vadd (vscale (al * be) v0) (vscale (al * (1 - be)) v1)) (vadd (vscale (a * (1 - b)) v1) (vscale (a * b) v0)))
      with (vadd (vscale (al * be - a * b) v0) (vscale (al * (1 - be) - a * (1 - b)) v1))
      by (destruct v0, v1; vunfold; veq; ring).
    apply combination; [lra| |]; apply Rabs_le.
    + replace (al * be - a * b) with ((al - a) * be + a * (be - b)) by ring. split; nra.
    + replace (al * (1 - be) - a * (1 - b)) with ((al - a) * (1 - be) - a * (be - b)) by ring. split; nra.
Qed.

(** ** Surfaces *)
Lemma distance_kept r t p q : orthonormal r -> norm2 (vsub (app4 (mk4 r t) p) (app4 (mk4 r t) q)) = norm2 (vsub p q).
Proof.
  intros O. rewrite !app4_mk4, <- (orthonormal_norm2 r (vsub p q) O), mv3_vsub. f_equal.
  generalize (mv3 r p) (mv3 r q). intros [? ? ?] [? ? ?]. destruct t. vunfold. veq; ring.
Qed.

Lemma surface_meshed s res A A' o : rigid (s_frame s) -> meshed (geom_mesh (s_geom s) res) A A' o ->
  meshed (surf_mesh s res) (placed (s_frame s) A) (placed (s_frame s) A') o.
Proof.
  intros (r & t & Er & O) (m & E & (n & Hn) & H1 & H2). unfold surf_mesh. rewrite E. cbn [bind]. eexists. split; [reflexivity|].
  rewrite Er. split; [|split].
  - exists n. intros row Hr. apply in_map_iff in Hr as (row0 & <- & Hr). rewrite map_length. auto.
  - intros p (row & Hr & Hp). apply in_map_iff in Hr as (row0 & <- & Hr). apply in_map_iff in Hp as (q & <- & Hq).
    exists q. split; auto. apply H1. exists row0. auto.
  - intros p (q & Hq & ->). destruct (H2 q Hq) as (q' & (row & Hr & Hq') & N).
    exists (app4 (mk4 r t) q'). split.
    + exists (map (app4 (mk4 r t)) row). split; [apply in_map; auto|apply in_map; auto].
    + unfold near. rewrite distance_kept by auto. exact N.
Qed.

(** ** How many points *)
Lemma grid_points f us vs : points (grid f us vs) = (length us * length vs)%nat.
Proof.
  unfold points, grid. induction us as [|u us IH]; simpl; auto. rewrite app_length, map_length, IH. reflexivity.
Qed.
Lemma steps_length a b s : 0 < s -> 0 <= (b - a) / s -> INR (length (steps a b s)) <= (b - a) / s + 1.
Proof.
  intros _ H. unfold steps. rewrite map_length, seq_length. pose proof (ceil_bounds ((b - a) / s)) as (C0 & C1).
  assert (0 <= ceil ((b - a) / s))%Z by (apply le_IZR; lra).
  rewrite INR_IZR_INZ, Z2Nat.id by auto. lra.
Qed.
Lemma count_bound f us vs a b c x y : INR (length us) <= a -> INR (length vs) <= b -> a * b <= 6 * c * (x * x) -> y = x ->
  INR (points (grid f us vs)) <= 6 * c * (y * y).
Proof.
  intros H0 H1 H2 ->. rewrite grid_points, mult_INR. pose proof (pos_INR (length us)). pose proof (pos_INR (length vs)).
  eapply Rle_trans; [apply Rmult_le_compat; eauto|auto].
Qed.
Lemma edge_points_few res half : 0 < half -> 1 <= res * (2 * half) -> INR (edge_points res half) <= 2 * (res * (2 * half)).
Proof.
  intros H0 H1. unfold edge_points. cbv zeta. pose proof (ceil_bounds (res * half * 2)) as (_ & C).
  destruct (Z.ltb_spec (ceil (res * half * 2)) 2) as [L|L].
  - simpl. lra.
  - rewrite INR_IZR_INZ, Z2Nat.id by lia. lra.
Qed.

Lemma rect_points w h gm res : new_rect_plate w h = Ok gm -> 1 <= w * res -> 1 <= h * res ->
  in_proportion (geom_mesh gm res) (w * h) res.
Proof.
  intros E Hw1 Hh1. apply new_rect_ok in E as (Hw & Hh & ->). eexists. split; [reflexivity|].
  apply (count_bound _ _ _ (2 * (res * w)) (2 * (res * h)) (w * h) res); auto.
  - unfold linspace. rewrite map_length, seq_length.
    assert (K := edge_points_few res (w / 2)). replace (2 * (w / 2)) with w in K by field. apply K; lra.
  - unfold linspace. rewrite map_length, seq_length.
    assert (K := edge_points_few res (h / 2)). replace (2 * (h / 2)) with h in K by field. apply K; lra.
  - assert (0 <= w * res * (h * res)) by nra. lra.
Qed.

Lemma pi_range : 3 <= PI <= 4.
Proof. pose proof PI2_3_2. pose proof PI_4. lra. Qed.

Lemma radius_pos R res : 0 < R -> 1 <= R * res -> 0 < res.
Proof. intros. apply Rmult_lt_reg_l with R; lra. Qed.

Lemma round_points R gm res : new_round_plate R = Ok gm -> 1 <= R * res ->
  in_proportion (geom_mesh gm res) (PI * (R * R)) res.
Proof.
  intros E H. apply new_round_ok in E as (HR & ->). pose proof (radius_pos R res HR H) as Hr. pose proof pi_range.
  cbn [geom_mesh]. unfold round_mesh.
  rewrite (not_zero res), (not_zero (R * res)) by lra. eexists. split; [reflexivity|]. set (x := R * res) in *.
  assert (S1 : 0 < 1 / res) by (apply div_pos; lra). assert (S2 : 0 < 1 / x) by (apply div_pos; lra).
  apply (count_bound _ _ _ (201 / 100 * x) ((2 * PI + 1) * x) (PI * (R * R)) res); auto.
  - assert (Q : (R + 1 / 100 / res - 0) / (1 / res) = x + 1 / 100) by (unfold x; field; lra).
    eapply Rle_trans; [apply steps_length; auto|]; rewrite Q; lra.
  - assert (Q : (2 * PI - 0) / (1 / x) = 2 * PI * x) by (field; lra).
    eapply Rle_trans; [apply steps_length; auto|]; rewrite Q; nra.
  - replace (6 * (PI * (R * R)) * (res * res)) with (6 * PI * (x * x)) by (unfold x; ring).
    replace (201 / 100 * x * ((2 * PI + 1) * x)) with (201 / 100 * (2 * PI + 1) * (x * x)) by ring.
    apply Rmult_le_compat_r; [nra|lra].
Qed.

Lemma sphere_part_points R first res c : 0 < R -> 1 <= R * res -> 0 <= first <= PI ->
  (PI - first + 2) * (2 * PI + 3) <= 6 * c ->
  in_proportion (sphere_mesh R first res) (c * (R * R)) res.
Proof.
  intros HR H Hf Hc. pose proof (radius_pos R res HR H) as Hr. pose proof pi_range.
  unfold sphere_mesh. rewrite (not_zero (R * res)) by lra. eexists. split; [reflexivity|]. set (x := R * res) in *.
  assert (S2 : 0 < 1 / x) by (apply div_pos; lra).
  apply (count_bound _ _ _ ((PI - first + 2) * x) ((2 * PI + 3) * x) (c * (R * R)) res); auto.
  - assert (Q : (PI + 1 / x - first) / (1 / x) = (PI - first) * x + 1) by (field; lra).
    eapply Rle_trans; [apply steps_length; auto|]; rewrite Q; nra.
  - assert (Q : (2 * (PI + 1 / x) - 0) / (1 / x) = 2 * PI * x + 2) by (field; lra).
    eapply Rle_trans; [apply steps_length; auto|]; rewrite Q; nra.
  - replace (6 * (c * (R * R)) * (res * res)) with (6 * c * (x * x)) by (unfold x; ring).
    replace ((PI - first + 2) * x * ((2 * PI + 3) * x)) with ((PI - first + 2) * (2 * PI + 3) * (x * x)) by ring.
    apply Rmult_le_compat_r; [nra|lra].
Qed.
Lemma sphere_points R gm res : new_sphere R = Ok gm -> 1 <= R * res ->
  in_proportion (geom_mesh gm res) (4 * PI * (R * R)) res.
Proof. intros E H. apply new_sphere_ok in E as (HR & ->). pose proof pi_range. apply sphere_part_points; auto; [lra|nra]. Qed.
Lemma hemisphere_points R gm res : new_hemisphere R = Ok gm -> 1 <= R * res ->
  in_proportion (geom_mesh gm res) (2 * PI * (R * R)) res.
Proof. intros E H. apply new_hemisphere_ok in E as (HR & ->). pose proof pi_range. apply sphere_part_points; auto; [lra|nra]. Qed.

Lemma cylinder_points D h res : 0 < D -> 1 <= D / 2 * res -> 1 <= h * res ->
  in_proportion (geom_mesh (new_finite_cylinder D h) res) (PI * D * h) res.
Proof.
  intros HD H Hh. unfold new_finite_cylinder. cbn [geom_mesh]. unfold cylinder_mesh. set (R := D / 2) in *. assert (HR : 0 < R) by (unfold R; lra).
  pose proof (radius_pos R res HR H) as Hr. pose proof pi_range.
  rewrite (not_zero res), (not_zero (R * res)) by lra. eexists. split; [reflexivity|]. set (x := R * res) in *.
  assert (S1 : 0 < 1 / res) by (apply div_pos; lra). assert (S2 : 0 < 1 / x) by (apply div_pos; lra).
  apply (count_bound _ _ _ (5 / 2 * (h * res)) ((2 * PI + 2) * x) (PI * D * h) res); auto.
  - assert (Q : (h / 2 + 1 / 2 / res - - (h / 2)) / (1 / res) = h * res + 1 / 2) by (field; lra).
    eapply Rle_trans; [apply steps_length; auto|]; rewrite Q; lra.
  - assert (Q : (2 * PI + 1 / x - 0) / (1 / x) = 2 * PI * x + 1) by (field; lra).
    eapply Rle_trans; [apply steps_length; auto|]; rewrite Q; nra.
  - replace (6 * (PI * D * h) * (res * res)) with (12 * PI * (x * (h * res))) by (unfold x, R; field).
    replace (5 / 2 * (h * res) * ((2 * PI + 2) * x)) with (5 / 2 * (2 * PI + 2) * (x * (h * res))) by ring.
    apply Rmult_le_compat_r; [nra|lra].
Qed.

Lemma dish_points D f gm res : new_dish D f = Ok gm -> 0 < D -> 1 <= D / 2 * res ->
  in_proportion (geom_mesh gm res) (PI * (D / 2 * (D / 2))) res.
Proof.
  intros E HD H. apply new_dish_ok in E as (Hf & ->). unfold dish_of. cbn [geom_mesh]. unfold dish_mesh. set (R := D / 2) in *. assert (HR : 0 < R) by (unfold R; lra).
  pose proof (radius_pos R res HR H) as Hr. pose proof pi_range.
  rewrite (not_zero res), (not_zero (R * res)) by lra. eexists. split; [reflexivity|]. set (x := R * res) in *.
  assert (S1 : 0 < 1 / res) by (apply div_pos; lra). assert (S2 : 0 < 1 / x) by (apply div_pos; lra).
  apply (count_bound _ _ _ (201 / 100 * x) ((2 * PI + 2) * x) (PI * (R * R)) res); auto.
  - assert (Q : (R + 1 / 100 / res - 0) / (1 / res) = x + 1 / 100) by (unfold x; field; lra).
    eapply Rle_trans; [apply steps_length; auto|]; rewrite Q; lra.
  - assert (Q : (2 * PI + 1 / x - 0) / (1 / x) = 2 * PI * x + 1) by (field; lra).
    eapply Rle_trans; [apply steps_length; auto|]; rewrite Q; nra.
  - replace (6 * (PI * (R * R)) * (res * res)) with (6 * PI * (x * x)) by (unfold x; ring).
    replace (201 / 100 * x * ((2 * PI + 2) * x)) with (201 / 100 * (2 * PI + 2) * (x * x)) by ring.
    apply Rmult_le_compat_r; [nra|lra].
Qed.

Lemma triangle_points v0 v1 n : (2 <= n)%nat ->
  exists m, geom_mesh (new_triangle v0 v1) (INR n) = Ok m /\ points m = (n * n)%nat.
Proof.
  intros Hn. unfold new_triangle. cbn [geom_mesh]. unfold triangle_mesh.
  assert (N2 : 2 <= INR n) by (apply (le_INR 2); auto).
  destruct (Rltb_spec (INR n) 2); [lra|]. rewrite Int_part_INR, Nat2Z.id. eexists. split; [reflexivity|].
  rewrite grid_points. unfold linspace. rewrite map_length, seq_length. reflexivity.
Qed.

(** ** Refusals *)
Lemma no_mesh g res : g = Base \/ g = Flat \/ (exists d, g = new_cylinder d) \/ (exists a b, new_parab a b = Ok g) \/
  (exists d f, new_hex_dish d f = Ok g) -> geom_mesh g res = Err AttributeError.
Proof.
  intros [-> | [-> | [(d & ->) | [(a & b & H) | (d & f & H)]]]]; auto; revert H.
  - unfold new_parab. repeat (destruct (Reqb _ _); [discriminate|]). intros E. injection E as <-. reflexivity.
  - unfold new_hex_dish, par_param. destruct (Rltb _ _); cbn [bind]; [discriminate|]. destruct (Reqb _ _); [discriminate|].
    intros E. injection E as <-. reflexivity.
Qed.
Lemma coarse_triangle v0 v1 res : res < 2 -> geom_mesh (new_triangle v0 v1) res = Err ValueError.
Proof. intros H. unfold new_triangle. cbn [geom_mesh]. unfold triangle_mesh. destruct (Rltb_spec res 2); [auto|lra]. Qed.
Lemma thin_cylinder h res : geom_mesh (new_finite_cylinder 0 h) res = Err ZeroDivisionError.
Proof.
  unfold new_finite_cylinder. cbn [geom_mesh]. unfold cylinder_mesh. destruct (Reqb res 0); auto.
  replace (0 / 2 * res) with 0 by field. destruct (Reqb_spec 0 0); auto. lra.
Qed.

(** ** Overshoots *)
Lemma cut_overshoots radius bound gm res : new_cut_sphere radius (Some bound) = Ok gm -> 0 < res -> ~ volume bound (V3 0 0 radius) ->
  exists m, geom_mesh gm res = Ok m /\ in_mesh m (V3 0 0 radius).
Proof.
  intros E H _. apply new_cut_ok in E as (HR & ->). cbn [geom_mesh]. unfold sphere_mesh. assert (P : 0 < radius * res) by nra. rewrite not_zero by auto.
  eexists. split; [reflexivity|]. set (s := 1 / (radius * res)). assert (S0 : 0 < s) by (apply div_pos; lra). pose proof PI_RGT_0.
  apply grid_in. exists 0, 0. split; [|split].
  - pattern 0 at 1. replace 0 with (0 + INR 0 * s) by (simpl; ring). apply steps_at; auto. simpl. lra.
  - pattern 0 at 1. replace 0 with (0 + INR 0 * s) by (simpl; ring). apply steps_at; auto. simpl. lra.
  - rewrite sin_0, cos_0. veq; ring.
Qed.

Lemma round_overshoots : exists gm res m p, new_round_plate 1 = Ok gm /\ 0 < res /\ geom_mesh gm res = Ok m /\ in_mesh m p /\ ~ disk 1 p.
Proof.
  exists (RoundPlate 1), (995 / 1000). eexists. exists (V3 (1 / (995 / 1000) * cos 0) (1 / (995 / 1000) * sin 0) 0). split.
  { unfold new_round_plate. destruct (Rleb_spec 1 0); [lra|reflexivity]. }
  split; [lra|]. split.
  { cbn [geom_mesh]. unfold round_mesh. rewrite !not_zero by lra. reflexivity. }
  assert (S1 : 0 < 1 / (995 / 1000)) by lra. assert (S2 : 0 < 1 / (1 * (995 / 1000))) by lra. pose proof PI_RGT_0. split.
  - apply grid_in. exists (1 / (995 / 1000)), 0. split; [|split; [|reflexivity]].
    + pattern (1 / (995 / 1000)) at 1. replace (1 / (995 / 1000)) with (0 + INR 1 * (1 / (995 / 1000))) by (simpl; ring).
      apply steps_at; auto. simpl. lra.
    + pattern 0 at 1. replace 0 with (0 + INR 0 * (1 / (1 * (995 / 1000)))) by (simpl; ring). apply steps_at; auto. simpl. lra.
  - unfold disk. cbn [vx vy vz]. rewrite cos_0, sin_0. lra.
Qed.

Lemma cylinder_overshoots : exists m p, geom_mesh (new_finite_cylinder 2 1) (4 / 5) = Ok m /\ in_mesh m p /\ 1 / 2 < vz p.
Proof.
  eexists. exists (V3 (2 / 2 * cos 0) (2 / 2 * sin 0) (3 / 4)). split.
  { unfold new_finite_cylinder. cbn [geom_mesh]. unfold cylinder_mesh. rewrite !not_zero by lra. reflexivity. }
  assert (S1 : 0 < 1 / (4 / 5)) by lra. assert (S2 : 0 < 1 / (2 / 2 * (4 / 5))) by lra. pose proof PI_RGT_0. split.
  - apply grid_in. exists (3 / 4), 0. split; [|split; [|reflexivity]].
    + replace (3 / 4) with (- (1 / 2) + INR 1 * (1 / (4 / 5))) by (simpl; field). apply steps_at; auto. simpl. lra.
    + pattern 0 at 1. replace 0 with (0 + INR 0 * (1 / (2 / 2 * (4 / 5)))) by (simpl; ring). apply steps_at; auto. simpl. lra.
  - cbn [vz]. lra.
Qed.

(** ** Cases *)
Lemma ceil_nat n : ceil (INR n) = Z.of_nat n.
Proof.
  pose proof (ceil_bounds (INR n)) as (A & B). rewrite INR_IZR_INZ in A, B. apply le_IZR in A.
  assert (C : IZR (ceil (IZR (Z.of_nat n))) < IZR (Z.of_nat n + 1)) by (rewrite plus_IZR; lra). apply lt_IZR in C.
  rewrite INR_IZR_INZ. lia.
Qed.

Lemma plate_case : new_rect_plate 2 4 = Ok (RectPlate (2 / 2) (4 / 2)) /\
  geom_mesh (RectPlate (2 / 2) (4 / 2)) (3 / 4) =
    Ok [[V3 (-1) (-2) 0; V3 (-1) 0 0; V3 (-1) 2 0]; [V3 1 (-2) 0; V3 1 0 0; V3 1 2 0]].
Proof.
  split.
  { unfold new_rect_plate. destruct (Rleb_spec 2 0); [lra|]. destruct (Rleb_spec 4 0); [lra|]. reflexivity. }
  cbn [geom_mesh]. unfold rect_mesh.
  assert (E1 : edge_points (3 / 4) (2 / 2) = 2%nat).
  { unfold edge_points. cbv zeta. replace (3 / 4 * (2 / 2) * 2) with (3 / 2) by field.
    assert (C : ceil (3 / 2) = 2%Z).
    { pose proof (ceil_bounds (3 / 2)) as (A & B). assert (IZR 1 < IZR (ceil (3 / 2))) as A' by lra. assert (IZR (ceil (3 / 2)) < IZR 3) as B' by lra.
      apply lt_IZR in A'. apply lt_IZR in B'. lia. }
    rewrite C. reflexivity. }
  assert (E2 : edge_points (3 / 4) (4 / 2) = 3%nat).
  { unfold edge_points. cbv zeta. replace (3 / 4 * (4 / 2) * 2) with (INR 3) by (simpl; field). rewrite ceil_nat. reflexivity. }
  rewrite E1, E2. unfold grid, linspace. cbn [seq map Nat.sub]. cbv zeta. apply f_equal.
  repeat (apply f_equal2; [repeat (apply f_equal2; [apply f_equal3; simpl; field|]); reflexivity|]). reflexivity.
Qed.

Lemma shown_case res : 0 < res -> exists s, s = new_surface (RectPlate (2 / 2) (4 / 2)) (Refractive 1 2) frame1 /\ rigid (s_frame s) /\
  meshed (surf_mesh s res) (placed frame1 (rectangle 2 4)) (placed frame1 (rectangle 2 4)) (2 / res).
Proof.
  intros H. eexists. split; [reflexivity|]. split; [apply frame1_rigid|].
  apply surface_meshed; [apply frame1_rigid|]. apply (rect_meshed 2 4); auto. apply plate_case.
Qed.

Lemma cut_case : ~ volume (BPlane (mk4 id3 (V3 0 0 2))) (V3 0 0 1).
Proof.
  intros (q & Hq & E). unfold upper_space in Hq. destruct q as [x y z]. revert E. cbn [vz] in Hq. vunfold. intros E. injection E as _ _ E. lra.
Qed.

Lemma hemisphere_case : 1 < 2 * PI * (1 * (1 / 4)) /\ PI * (1 * (1 / 4)) < 1 /\ 1 <= PI * (1 * (1 / 2)).
Proof.
  pose proof pi_range. assert (PI < 4).
  { destruct (Req_dec PI 4) as [E|]; [|lra]. exfalso. pose proof (PI_ineq 1) as (_ & K). rewrite E in K. unfold tg_alt, PI_tg in K. simpl in K. lra. }
  lra.
Qed.
