(** The laws of optics. *)
From Coq Require Import Reals String List Arith Bool Lia Lra.
From Verif.Base Require Import Py Num Vec.
From Verif.Model Require Import RayBundle Geometry Optics.
From Verif.Spec Require Import BundleSpec EngineSpec GeometrySpec OpticsSpec.
From Verif.Proof Require Import ListLemmas NumLemmas VecLemmas SelectProof.
Import ListNotations.
Local Open Scope R_scope.

Lemma sq_nonneg x : 0 <= sq x.
Proof. unfold sq. apply Rle_0_sqr. Qed.

Lemma lagrange a b : norm2 (cross a b) = norm2 a * norm2 b - dot a b * dot a b.
Proof. destruct a, b. vunfold. ring. Qed.

Lemma unit_dot a b : is_unit a -> is_unit b -> -1 <= dot a b <= 1.
Proof.
  unfold is_unit. intros A B. pose proof (norm2_nonneg (cross a b)) as H.
  rewrite lagrange, A, B in H. split; nra.
Qed.

Lemma unit_cross a b : is_unit a -> is_unit b -> norm (cross a b) = sqrt (1 - dot a b * dot a b).
Proof. unfold is_unit. intros A B. unfold norm. rewrite lagrange, A, B. f_equal. ring. Qed.

(** *** Reflection *)
Lemma reflection_mirrored d n : is_unit n -> mirrored n d (reflection d n).
Proof.
  unfold is_unit, mirrored, reflection, tangential. intros U.
  assert (E : dot (vsub d (vscale 2 (vscale (dot d n) n))) n = - dot d n).
  { destruct d as [a b c], n as [x y z]. vunfold.
    replace ((a - 2 * ((a * x + b * y + c * z) * x)) * x + (b - 2 * ((a * x + b * y + c * z) * y)) * y +
      (c - 2 * ((a * x + b * y + c * z) * z)) * z) with
      ((a * x + b * y + c * z) - 2 * (a * x + b * y + c * z) * (x * x + y * y + z * z)) by ring.
    rewrite U. ring. }
  split; auto. rewrite E. destruct d as [a b c], n as [x y z]. vunfold. veq; ring.
Qed.

Lemma mirrored_decomp d n : d = vadd (tangential d n) (vscale (dot d n) n).
Proof. destruct d, n. unfold tangential. vunfold. veq; ring. Qed.

Lemma mirrored_unique n d d1 d2 : mirrored n d d1 -> mirrored n d d2 -> d1 = d2.
Proof.
  intros (A & B) (C & D). rewrite (mirrored_decomp d1 n), (mirrored_decomp d2 n). congruence.
Qed.

Lemma tangential_dot d n : is_unit n -> dot (tangential d n) n = 0.
Proof.
  unfold is_unit, tangential. intros U. destruct d as [a b c], n as [x y z]. vunfold.
  replace ((a - (a * x + b * y + c * z) * x) * x + (b - (a * x + b * y + c * z) * y) * y +
    (c - (a * x + b * y + c * z) * z) * z) with
    ((a * x + b * y + c * z) * (1 - (x * x + y * y + z * z))) by ring. rewrite U. ring.
Qed.

Lemma decomp_norm2 t n k : is_unit n -> dot t n = 0 -> norm2 (vadd t (vscale k n)) = norm2 t + k * k.
Proof.
  unfold is_unit. intros U D.
  assert (E : norm2 (vadd t (vscale k n)) = norm2 t + 2 * k * dot t n + k * k * norm2 n)
    by (destruct t, n; vunfold; ring).
  rewrite E, U, D. ring.
Qed.

Lemma mirrored_norm n d d' : is_unit n -> mirrored n d d' -> norm2 d' = norm2 d.
Proof.
  intros U (A & B). rewrite (mirrored_decomp d n), (mirrored_decomp d' n).
  rewrite !decomp_norm2 by auto using tangential_dot. rewrite A, B. ring.
Qed.

Lemma mirrored_back n d d' : is_unit n -> mirrored n d d' -> mirrored n d' d.
Proof. intros U (A & B). split; [lra|auto]. Qed.

(** *** Angles *)
Lemma incidence_acos d n : is_unit d -> is_unit n -> incidence d n (acos (Rabs (dot d n))).
Proof.
  intros D N. pose proof (unit_dot d n D N) as B.
  assert (A : 0 <= Rabs (dot d n) <= 1) by (split; [apply Rabs_pos|apply Rabs_le; lra]).
  unfold incidence. pose proof (cos_acos (Rabs (dot d n)) ltac:(lra)) as C. split; auto.
  pose proof (acos_bound (Rabs (dot d n))) as K. split; [lra|].
  destruct (Rle_lt_dec (acos (Rabs (dot d n))) (PI / 2)) as [|L]; auto. exfalso.
  pose proof PI_RGT_0. pose proof (cos_lt_0 (acos (Rabs (dot d n)))). lra.
Qed.

Lemma cos_inj_quarter t t' : 0 <= t <= PI / 2 -> 0 <= t' <= PI / 2 -> cos t = cos t' -> t = t'.
Proof.
  intros H H' E. pose proof PI_RGT_0. rewrite <- (acos_cos t), <- (acos_cos t') by lra. congruence.
Qed.

Lemma incidence_unique d n t t' : incidence d n t -> incidence d n t' -> t = t'.
Proof. intros (A & B) (C & D). apply cos_inj_quarter; auto; congruence. Qed.

Lemma sin_quarter t : 0 <= t <= PI / 2 -> 0 <= sin t.
Proof. intros. apply sin_ge_0; lra. Qed.
Lemma cos_quarter t : 0 <= t <= PI / 2 -> 0 <= cos t.
Proof. intros. apply cos_ge_0; lra. Qed.

Lemma incidence_sin2 d n t : incidence d n t -> sin t * sin t = 1 - dot d n * dot d n.
Proof.
  intros (_ & E). pose proof (sin2_cos2 t) as S. unfold Rsqr in S. rewrite E in S.
  pose proof (Rsqr_abs (dot d n)) as Q. unfold Rsqr in Q. rewrite <- Q in S. lra.
Qed.

Lemma sq_le_iff x y : 0 <= x -> 0 <= y -> (x <= y <-> x * x <= y * y).
Proof. intros. split; intros; nra. Qed.

(** *** Which rays are refracted *)
Lemma refracted_iff n1 n2 d n t : 0 < n1 -> 0 < n2 -> incidence d n t ->
  (is_refracted (n2 / n1) d n = true <-> n1 * sin t <= n2).
Proof.
  intros H1 H2 I. pose proof (incidence_sin2 _ _ _ I) as S. pose proof (sin_quarter _ (proj1 I)) as P.
  unfold is_refracted. rewrite Rleb_true. unfold sq. rewrite (dot_comm n d).
  rewrite (sq_le_iff (n1 * sin t) n2) by (try apply Rmult_le_pos; lra).
  replace (n1 * sin t * (n1 * sin t)) with (n1 * n1 * (sin t * sin t)) by ring. rewrite S.
  assert (E : n2 / n1 * (n2 / n1) = n2 * n2 / (n1 * n1)) by (field; lra). rewrite E.
  assert (Q : 0 < n1 * n1) by nra.
  assert (F : n2 * n2 = n2 * n2 / (n1 * n1) * (n1 * n1)) by (field; lra).
  set (k := n2 * n2 / (n1 * n1)) in *. clearbody k.
  split; intros; nra.
Qed.

Lemma can_refract_iff n1 n2 d n : 0 < n1 -> 0 < n2 -> is_unit d -> is_unit n ->
  (is_refracted (n2 / n1) d n = true <-> can_refract n1 n2 d n).
Proof.
  intros H1 H2 D N. pose proof (incidence_acos d n D N) as I. rewrite (refracted_iff _ _ _ _ _ H1 H2 I).
  split.
  - intros L. exists (acos (Rabs (dot d n))). auto.
  - intros (t & I' & L). rewrite (incidence_unique _ _ _ _ I I'). auto.
Qed.

(** *** Snell *)
Lemma refracted_snell n1 n2 d n : 0 < n1 -> 0 < n2 -> is_unit d -> is_unit n ->
  is_refracted (n2 / n1) d n = true ->
  exists d', refracted_dir (n2 / n1) d n = Ok d' /\ snell n1 n2 n d d' /\
    tangential d' n = vscale (n1 / n2) (tangential d n) /\
    dot d' n * dot d' n = 1 - (n1 / n2) * (n1 / n2) * (1 - dot d n * dot d n).
Proof.
  intros H1 H2 D N Hr. unfold is_refracted in Hr. apply Rleb_true in Hr.
  unfold refracted_dir. assert (K : 0 < n2 / n1) by (apply Rdiv_lt_0_compat; auto).
  set (k := n2 / n1) in *.
  assert (Ek : n1 / n2 = / k) by (unfold k; field; lra).
  destruct (Reqb_spec k 0) as [|_]; [lra|].
  rewrite (dot_comm n d) in *. set (c := dot d n) in *.
  unfold np_sqrt, sq in *.
  assert (A : 0 <= 1 - 1 / (k * k) * (1 - c * c)).
  { assert (1 / (k * k) * (1 - c * c) <= 1); [|lra].
    apply Rmult_le_reg_l with (k * k); [nra|].
    replace (k * k * (1 / (k * k) * (1 - c * c))) with (1 - c * c) by (field; lra). lra. }
  destruct (Rltb_spec (1 - 1 / (k * k) * (1 - c * c)) 0) as [|_]; [lra|]. cbn [bind].
  set (c2 := sqrt (1 - 1 / (k * k) * (1 - c * c))) in *.
  assert (C2 : 0 <= c2) by apply sqrt_pos.
  assert (S2 : c2 * c2 = 1 - 1 / (k * k) * (1 - c * c)) by (apply sqrt_sqrt; auto).
  set (s := if Rltb c 0 then -1 else 1).
  assert (Ss : s * s = 1) by (unfold s; rdec; ring).
  eexists. split; [reflexivity|].
  set (t := tangential d n).
  assert (Et : vsub d (vscale c n) = t) by reflexivity.
  rewrite Et. assert (Ht : dot t n = 0) by (apply tangential_dot; auto).
  assert (Nt : norm2 t = 1 - c * c).
  { assert (norm2 d = norm2 t + c * c); [|unfold is_unit in D; lra].
    rewrite (mirrored_decomp d n) at 1. apply decomp_norm2; auto. }
  set (d' := vadd (vscale (/ k) t) (vscale s (vscale c2 n))).
  assert (E' : d' = vadd (vscale (/ k) t) (vscale (s * c2) n)).
  { unfold d'. destruct t, n. vunfold. veq; ring. }
  assert (Dn : dot d' n = s * c2).
  { rewrite E', dot_vadd_l, !dot_vscale_l, Ht. unfold is_unit, norm2 in N. rewrite N. ring. }
  assert (Tn : tangential d' n = vscale (/ k) t).
  { unfold tangential. rewrite Dn, E'. destruct t, n. vunfold. veq; ring. }
  assert (U : is_unit d').
  { unfold is_unit. rewrite (mirrored_decomp d' n), decomp_norm2, Tn by auto using tangential_dot.
    replace (norm2 (vscale (/ k) t)) with (/ k * / k * norm2 t) by (destruct t; vunfold; ring).
    rewrite Nt, Dn.
    replace (s * c2 * (s * c2)) with ((s * s) * (c2 * c2)) by ring. rewrite Ss, S2. field; lra. }
  split; [|split].
  - split; [auto|]. split.
    + exists (/ k), (s * c2 - / k * c). rewrite E'. rewrite <- Et. destruct d, n. vunfold. veq; ring.
    + rewrite Dn. fold c. unfold s. split; [rdec; intros; lra|]. split; [rdec; intros; lra|]. split.
      * rewrite !unit_cross by auto. fold c. rewrite Dn.
        replace (s * c2 * (s * c2)) with ((s * s) * (c2 * c2)) by ring. rewrite Ss, S2.
        replace (1 - 1 * (1 - 1 / (k * k) * (1 - c * c))) with ((1 - c * c) * (/ k) ^ 2) by (field; lra).
        rewrite sqrt_mult by (rewrite <- ?Nt; try apply norm2_nonneg; apply pow2_ge_0).
        rewrite sqrt_pow2 by (left; apply Rinv_0_lt_compat; auto).
        unfold k. field. lra.
      * rewrite Tn. fold t. rewrite (dot_comm t). rewrite dot_vscale_l. apply Rmult_le_pos.
        -- left. apply Rinv_0_lt_compat; auto.
        -- apply norm2_nonneg.
  - rewrite Tn, Ek. reflexivity.
  - rewrite Dn, Ek. replace (s * c2 * (s * c2)) with ((s * s) * (c2 * c2)) by ring.
    rewrite Ss, S2. field. lra.
Qed.

(** *** Fresnel *)
Lemma np_div_ok x y : y <> 0 -> np_div x y = Ok (x / y).
Proof. intros. unfold np_div. rdec; congruence. Qed.

Lemma fresnel_lawful n1 n2 d n : 0 < n1 -> 0 < n2 -> is_unit d -> is_unit n ->
  can_refract n1 n2 d n -> reflectance_defined n1 n2 d n ->
  exists r, fresnel d n n1 n2 = Ok r /\ reflectance n1 n2 d n r.
Proof.
  intros H1 H2 D N (t & I & L) Hd.
  pose proof (incidence_acos d n D N) as I0.
  pose proof (sin_quarter _ (proj1 I)) as Sp. pose proof (cos_quarter _ (proj1 I)) as Cp.
  unfold fresnel. rewrite (dot_comm n d). unfold np_arccos.
  pose proof (unit_dot d n D N) as B.
  assert (A : 0 <= Rabs (dot d n) <= 1) by (split; [apply Rabs_pos|apply Rabs_le; lra]).
  rewrite (Rabs_pos_eq (Rabs (dot d n))) by lra.
  destruct (Rltb_spec 1 (Rabs (dot d n))) as [|_]; [lra|]. cbn [bind].
  rewrite (incidence_unique _ _ _ _ I0 I). rewrite np_div_ok by lra. cbn [bind].
  set (q := n1 / n2 * sin t).
  assert (Q : 0 <= q <= 1).
  { unfold q. split.
    - apply Rmult_le_pos; auto. left. apply Rdiv_lt_0_compat; auto.
    - apply Rmult_le_reg_l with n2; auto. replace (n2 * (n1 / n2 * sin t)) with (n1 * sin t) by (field; lra). lra. }
  unfold np_sqrt, sq at 1. destruct (Rltb_spec (1 - q * q) 0) as [|_]; [nra|]. cbn [bind].
  set (t2 := asin q).
  assert (S2 : sin t2 = q) by (apply sin_asin; lra).
  assert (T2 : 0 <= t2 <= PI / 2).
  { pose proof (asin_bound q) as K. fold t2 in K. split; [|lra].
    destruct (Rle_lt_dec 0 t2) as [|X]; auto. exfalso.
    pose proof PI_RGT_0. pose proof (sin_lt_0_var t2). lra. }
  assert (C2 : cos t2 = sqrt (1 - q * q)) by (unfold t2; rewrite cos_asin by lra; reflexivity).
  change (sq q) with (q * q). rewrite <- C2. pose proof (cos_quarter _ T2) as C2p.
  assert (NZ : 0 < cos t \/ 0 < cos t2).
  { destruct (Rlt_dec 0 (cos t)) as [|X]; auto. right.
    assert (Z : cos t = 0) by lra. destruct (Rlt_dec 0 (cos t2)) as [|Y]; auto. exfalso.
    assert (Z2 : cos t2 = 0) by lra.
    assert (Eq : dot d n = 0).
    { destruct I as (_ & I). rewrite Z in I. destruct (Req_dec (dot d n) 0); auto.
      apply Rabs_pos_lt in H. lra. }
    destruct Hd as [Hd|Hd]; [auto|]. apply Hd.
    pose proof (sin2_cos2 t) as E1. pose proof (sin2_cos2 t2) as E2. unfold Rsqr in *.
    rewrite Z in E1. rewrite Z2, S2 in E2.
    assert (sin t = 1) by nra. assert (q = 1) by nra. unfold q in *.
    apply (Rmult_eq_reg_r (/ n2)); [|apply Rinv_neq_0_compat; lra].
    rewrite Rinv_r by lra. unfold Rdiv in *. nra. }
  assert (P1 : 0 < n1 * cos t + n2 * cos t2) by (destruct NZ; nra).
  assert (P2 : 0 < n1 * cos t2 + n2 * cos t) by (destruct NZ; nra).
  rewrite !np_div_ok by lra. cbn [bind]. eexists. split; [reflexivity|].
  exists t, t2. split; auto. split; auto. split.
  { rewrite S2. unfold q. field. lra. }
  split; [lra|]. split; [lra|]. unfold sq. cbn [pow]. lra.
Qed.

Lemma ratio_sq_le x y : 0 <= x -> 0 <= y -> 0 < x + y -> 0 <= ((x - y) / (x + y)) ^ 2 <= 1.
Proof.
  intros X Y P. split; [apply pow2_ge_0|].
  assert (E : ((x - y) / (x + y)) ^ 2 = 1 - 4 * x * y / (x + y) ^ 2) by (field; lra). rewrite E.
  assert (0 <= 4 * x * y / (x + y) ^ 2); [|lra].
  apply Rmult_le_pos; [nra|]. left. apply Rinv_0_lt_compat. apply pow_lt; auto.
Qed.

Lemma fresnel_law_bounds n1 n2 t1 t2 r : 0 < n1 -> 0 < n2 -> 0 <= t1 <= PI / 2 -> 0 <= t2 <= PI / 2 ->
  fresnel_law n1 n2 t1 t2 r -> 0 <= r <= 1.
Proof.
  intros H1 H2 T1 T2 (N1 & N2 & ->).
  pose proof (cos_quarter _ T1). pose proof (cos_quarter _ T2).
  assert (0 <= n1 * cos t1 /\ 0 <= n2 * cos t2 /\ 0 <= n1 * cos t2 /\ 0 <= n2 * cos t1)
    by (repeat split; apply Rmult_le_pos; lra).
  pose proof (ratio_sq_le (n1 * cos t1) (n2 * cos t2)) as A.
  pose proof (ratio_sq_le (n1 * cos t2) (n2 * cos t1)) as B.
  lra.
Qed.

Lemma reflectance_bounds n1 n2 d n r : 0 < n1 -> 0 < n2 -> reflectance n1 n2 d n r -> 0 <= r <= 1.
Proof. intros H1 H2 (t1 & t2 & (I & _) & T2 & _ & F). exact (fresnel_law_bounds n1 n2 t1 t2 r H1 H2 I T2 F). Qed.

Lemma sin_inj_quarter t t' : 0 <= t <= PI / 2 -> 0 <= t' <= PI / 2 -> sin t = sin t' -> t = t'.
Proof.
  intros H H' E. pose proof PI_RGT_0. rewrite <- (asin_sin t), <- (asin_sin t') by lra. congruence.
Qed.

Lemma reflectance_unique n1 n2 d n r r' : 0 < n2 ->
  reflectance n1 n2 d n r -> reflectance n1 n2 d n r' -> r = r'.
Proof.
  intros H2 (t1 & t2 & I & T2 & S & _ & _ & ->) (u1 & u2 & J & U2 & V & _ & _ & ->).
  rewrite (incidence_unique _ _ _ _ J I) in *.
  assert (E : u2 = t2); [|rewrite E; reflexivity].
  apply sin_inj_quarter; auto. rewrite S in V. apply (Rmult_eq_reg_l n2); lra.
Qed.

(** Straight on. *)
Lemma reflectance_normal n1 n2 d n r : 0 < n1 -> 0 < n2 -> Rabs (dot d n) = 1 ->
  reflectance n1 n2 d n r -> r = ((n1 - n2) / (n1 + n2)) ^ 2.
Proof.
  intros H1 H2 A (t1 & t2 & (I & C) & T2 & S & _ & _ & ->). rewrite A in C.
  assert (E1 : t1 = 0).
  { apply cos_inj_quarter; [auto|pose proof PI_RGT_0; lra|]. rewrite cos_0; auto. }
  subst t1. rewrite sin_0 in S.
  assert (E2 : t2 = 0).
  { apply sin_inj_quarter; [auto|pose proof PI_RGT_0; lra|]. rewrite sin_0.
    apply (Rmult_eq_reg_l n2); lra. }
  subst t2. rewrite cos_0. field. lra.
Qed.

(** The refraction angle is the incidence angle of the refracted ray. *)
Lemma snell_angle n1 n2 d n d' t1 : 0 < n2 -> is_unit d -> is_unit n -> snell n1 n2 n d d' ->
  incidence d n t1 -> exists t2, incidence d' n t2 /\ n1 * sin t1 = n2 * sin t2.
Proof.
  intros H2 D N (U & _ & _ & _ & E & _) I.
  pose proof (incidence_acos d' n U N) as J. exists (acos (Rabs (dot d' n))). split; auto.
  rewrite !unit_cross in E by auto.
  rewrite <- (incidence_sin2 _ _ _ I), <- (incidence_sin2 _ _ _ J) in E.
  rewrite !sqrt_square in E by (apply sin_quarter; [apply I || apply J]). exact E.
Qed.

(** Reversing the ray. *)
Lemma reflectance_reversed n1 n2 d n d' r : 0 < n1 -> 0 < n2 -> is_unit d -> is_unit n ->
  snell n1 n2 n d d' -> reflectance n1 n2 d n r -> reflectance n2 n1 (vopp d') n r.
Proof.
  intros H1 H2 D N S (t1 & t2 & I & T2 & E & NZ1 & NZ2 & ->).
  destruct (snell_angle _ _ _ _ _ _ H2 D N S I) as (u & (J & Cu) & Eu).
  assert (t2 = u) by (apply sin_inj_quarter; auto; apply (Rmult_eq_reg_l n2); lra). subst u.
  exists t2, t1. split.
  { split; auto. rewrite dot_vopp_l, Rabs_Ropp. auto. }
  split; [apply I|]. split; [lra|]. unfold fresnel_law.
  split; [lra|]. split; [lra|].
  field. split; lra.
Qed.
