(** examples/test_case.py with its default parameters. *)
From Coq Require Import Reals ZArith String List Arith Bool Lia Lra Psatz Permutation.
From Verif.Base Require Import Py Num Vec.
From Verif.Model Require Import RayBundle Spatial Geometry Optics TraceTree Sources OpticsCallables Engine Objects Surface Assembly Scene Models TestCase.
From Verif.Proof Require Import ListLemmas NumLemmas VecLemmas SpatialProof SourceProof FlatProof FrameProof GeomTop ModelProof ModelTop ModelExamples DishProof CollectProof CollectTop SpotProof TestCaseProof.
From Verif.Spec Require Import BundleSpec EngineSpec SourceSpec LibrarySpec AccountSpec GeometrySpec GeomIface OpticsSpec FrameSpec SceneSpec ModelSpec DishSpec SunSpec TestCaseSpec.
Import ListNotations.
Local Open Scope R_scope.

Lemma small_angle : 0 <= 5 / 1000 < PI / 2 /\ 7 * sqrt 2 * tan (5 / 1000) <= 1 / 20 /\ 9 / 10 < cos (5 / 1000) /\ 98 / 10 < 7 * sqrt 2.
Proof.
  pose proof PI2_3_2 as P. split; [lra|]. pose proof (cos_below (5 / 1000) ltac:(lra)) as C. destruct root2 as (S2 & S0).
  assert (L2 : 14 / 10 < sqrt 2) by nra. assert (U2 : sqrt 2 < 1415 / 1000) by nra.
  split; [|split; lra]. unfold tan. pose proof (sin_lt_x (5 / 1000) ltac:(lra)) as S. set (c := cos (5 / 1000)) in *. set (s := sin (5 / 1000)) in *.
  apply Rmult_le_reg_r with c; [lra|]. replace (7 * sqrt 2 * (s / c) * c) with (7 * sqrt 2 * s) by (field; lra). nra.
Qed.

Lemma default_kappa : (16 * (25 / 4) * (25 / 4) - 5 * 5) / (16 * (25 / 4) * (25 / 4) + 5 * 5) = 12 / 13.
Proof. field. Qed.

(** The slope of mirrored light. *)
Lemma slope (A : shape) X Y H f D ang v d m c : 0 < f -> 0 < D -> 0 <= ang -> (forall q, A q -> focal_bowl f q /\ vx q * vx q + vy q * vy q <= D / 2 * (D / 2)) ->
  deviates down ang d -> mirrored_at A X Y H f v d m c -> Rabs (vx c) <= D / (2 * f) + ang /\ Rabs (vy c) <= D / (2 * f) + ang.
Proof.
  intros Hf HD Ha HA Dv (t & n & k & _ & _ & Am & _ & _ & Un & En & Mr). destruct (HA m Am) as (B & C). pose proof (deviates_off ang d Dv) as W.
  destruct (bowl_mirrors f m n k d c Hf B Un En Mr) as (u & Nu & Ec). rewrite <- Nu in W. unfold focal_bowl in B. destruct m as [x y z], u as [u1 u2 u3], c as [c1 c2 c3].
  vunfold. injection Ec as E1 E2 E3. cbn [vx vy vz] in *.
  assert (Hz : 0 <= z) by (pose proof (Rle_0_sqr x); pose proof (Rle_0_sqr y); unfold Rsqr in *; nra).
  assert (Bx : - (D / 2) <= x <= D / 2) by (apply abs_square; nra). assert (By : - (D / 2) <= y <= D / 2) by (apply abs_square; nra).
  assert (U1 : - ang <= u1 <= ang) by (apply abs_square; nra). assert (U2 : - ang <= u2 <= ang) by (apply abs_square; nra).
  assert (S : f * (D / (2 * f)) = D / 2) by (field; lra). assert (S0 : 0 <= D / (2 * f)).
  { unfold Rdiv. apply Rmult_le_pos; [lra|]. apply Rlt_le, Rinv_0_lt_compat. lra. }
  split; apply Rabs_le; (split; apply Rmult_le_reg_l with (f + z); nra).
Qed.

Section Default.
Notation f := (25 / 4). Notation side := (2 / 5). Notation H := (7 / 10). Notation dish := (round_dish 5 (25 / 4)).
Notation ang := (5 / 1000).

Lemma default_dish q : dish q -> focal_bowl f q /\ vx q * vx q + vy q * vy q <= 5 / 2 * (5 / 2).
Proof. intros Q. exact Q. Qed.

(** Nothing is spilled. *)
Lemma default_spot v d m c : deviates down ang d -> mirrored_at dish side side H f v d m c ->
  exists p, enters dish side side f m c p /\ 9 / 10 <= vz c /\ norm2 (vsub p (V3 0 0 f)) <= (7 / 100) ^ 2.
Proof.
  intros Dv Mr. destruct small_angle as (S1 & _).
  destruct (spot_enters dish side side H f 5 ang v d m c ltac:(lra) default_dish) as (p & E & C & N); auto; rewrite ?default_kappa in *; try lra.
  { destruct tiny_tens. lra. }
  exists p. split; auto. split; [lra|]. apply Rle_trans with (1 := N). rewrite <- !Rsqr_pow2. apply Rsqr_incr_1; lra.
Qed.

Lemma default_ring v d : vz v = 7 * sqrt 2 -> in_ring (7 / 20) (49 / 20) v -> deviates down ang d ->
  exists m c p, mirrored_at dish side side H f v d m c /\ enters dish side side f m c p /\ 9 / 10 <= vz c /\ norm2 (vsub p (V3 0 0 f)) <= (7 / 100) ^ 2.
Proof.
  intros Ez Rg Dv. destruct small_angle as (S1 & S2 & S3 & S4). destruct tiny_tens as (T1 & _).
  destruct (ring_mirrored 5 f side side H (7 * sqrt 2) ang (1 / 20) (7 / 20) (49 / 20) v d) as (m & c & Mr); auto; try lra.
  destruct (default_spot v d m c Dv Mr) as (p & En & C & N). exists m, c, p. auto.
Qed.

Lemma fold_count X u z q : 0 < X -> - (3 / 2 * X) < u < 3 / 2 * X -> folds X u z q -> (Z.abs_nat z <= 1)%nat.
Proof.
  intros HX Hu ((A & B) & _). assert (- 2 * X < IZR z * X < 2 * X) as (L1 & L2) by lra.
  assert (-2 < IZR z) by (apply Rmult_lt_reg_r with X; lra). assert (IZR z < 2) by (apply Rmult_lt_reg_r with X; lra).
  assert (-2 < z)%Z by (apply lt_IZR; auto). assert (z < 2)%Z by (apply lt_IZR; auto). lia.
Qed.

Lemma default_course v d m c p e : dish_safe f d -> deviates down ang d -> mirrored_at dish side side H f v d m c -> enters dish side side f m c p ->
  norm2 (vsub p (V3 0 0 f)) <= (7 / 100) ^ 2 -> 9 / 10 <= vz c -> clear_inside side side H f p c ->
  exists k q, (k <= 2)%nat /\ course dish side side H f (9 / 10) (9 / 10) v d e (1 + k) (Some (e * (9 / 10) * (9 / 10) ^ k, q)) /\
    - (side / 2) < vx q < side / 2 /\ - (side / 2) < vy q < side / 2 /\ vz q = f + H.
Proof.
  intros Sf Dv Mr En Np C3 Cl. destruct (slope dish side side H f 5 ang v d m c ltac:(lra) ltac:(lra) ltac:(lra) default_dish Dv Mr) as (Bx & By).
  pose proof Cl as (_ & _ & Kx & Ky & _).
  assert (Lh : 0 <= H / vz c <= 7 / 9).
  { unfold Rdiv at 3 4. pose proof (Rinv_0_lt_compat (vz c) ltac:(lra)) as I. split; [apply Rmult_le_pos; lra|].
    apply Rmult_le_reg_r with (vz c); [lra|]. rewrite Rmult_assoc, Rinv_l by lra. lra. }
  assert (Np' : vx p * vx p + vy p * vy p <= 49 / 10000).
  { clear - Np. destruct p as [p1 p2 p3]. vunfold. pose proof (Rle_0_sqr (p3 - f)). unfold Rsqr in *. lra. }
  pose proof (Rle_0_sqr (vx p)) as R1. pose proof (Rle_0_sqr (vy p)) as R2. unfold Rsqr in R1, R2.
  assert (P1 : - (7 / 100) <= vx p <= 7 / 100) by (apply abs_square; lra).
  assert (P2 : - (7 / 100) <= vy p <= 7 / 100) by (apply abs_square; lra).
  assert (Wx : - (42 / 100) <= vx c <= 42 / 100) by (destruct (Rabs_def2 (vx c) (42 / 100)); lra).
  assert (Wy : - (42 / 100) <= vy c <= 42 / 100) by (destruct (Rabs_def2 (vy c) (42 / 100)); lra).
  remember (H / vz c) as h eqn:Eh.
  assert (Ux : - (3 / 2 * side) < vx p + h * vx c < 3 / 2 * side) by (split; nra).
  assert (Uy : - (3 / 2 * side) < vy p + h * vy c < 3 / 2 * side) by (split; nra).
  pose proof (tenm_pos 6) as T6.
  destruct (folds_exist side (vx p + h * vx c) ltac:(lra)) as (zx & qx & Fx & Qx).
  { intros z E. destruct (Kx h (conj (proj1 Lh) (ex_intro _ z E)) (Rle_refl h)) as (_ & Q). lra. }
  destruct (folds_exist side (vy p + h * vy c) ltac:(lra)) as (zy & qy & Fy & Qy).
  { intros z E. destruct (Ky h (conj (proj1 Lh) (ex_intro _ z E)) (Rle_refl h)) as (_ & Q). lra. }
  assert (S0 : 0 < side) by lra. pose proof (fold_count _ _ _ _ S0 Ux Fx) as Ax. pose proof (fold_count _ _ _ _ S0 Uy Fy) as Ay.
  exists (Z.abs_nat zx + Z.abs_nat zy)%nat, (V3 qx qy (f + H)). split; [lia|]. split; [|cbn [vx vy vz]; auto].
  subst h. apply (course_in dish side side H f (9 / 10) (9 / 10) v d e m c p zx zy qx qy); auto.
Qed.

Lemma default_shadow v d : vz v = 7 * sqrt 2 -> in_square (3 / 20) v -> deviates down ang d -> stopped dish side side H f v d.
Proof.
  intros Ez (Bx & By) Dv. destruct small_angle as (S1 & S2 & S3 & S4). destruct tiny_tens as (T1 & T2).
  apply (shadow_stopped dish side side H f (7 * sqrt 2) ang (1 / 20)); auto; try lra.
  intros q Q. apply (below_round 5 f q); auto; lra.
Qed.
End Default.

(** ** All rays *)

Lemma list_choice {A} (P : nat -> A -> Prop) n : (forall j, (j < n)%nat -> exists x, P j x) -> exists l, length l = n /\ forall j x, nth_error l j = Some x -> P j x.
Proof.
  induction n as [|n IH]; intros E; [exists []; split; auto; intros [|j] x; discriminate|].
  destruct IH as (l & L & Q); [intros j Hj; apply E; lia|]. destruct (E n ltac:(lia)) as (x & Px). exists (l ++ [x]). split; [rewrite app_length, L; cbn; lia|].
  intros j y Ej. destruct (lt_dec j (length l)) as [Lj|Lj]; [rewrite nth_error_app1 in Ej by auto; auto|].
  rewrite nth_error_app2 in Ej by lia. destruct (j - length l)%nat as [|i] eqn:D; [|destruct i; discriminate]. cbn in Ej. injection Ej as <-. replace j with n by lia. auto.
Qed.

(** What becomes of a ray. *)
Definition outcome (me lo hi : R) (P Q : vec -> Prop) (v : vec) (o : option (R * vec)) : Prop :=
  P v /\ (exists e q, o = Some (e, q) /\ lo <= e <= hi /\ me < e) \/ Q v /\ o = None.

Lemma outcomes_total me lo hi (P Q : vec -> Prop) : (forall v, P v -> ~ Q v) -> forall vs os, Forall2 (outcome me lo hi P Q) vs os ->
  exists k, sum_where P (fun _ => 1) vs k /\ lo * k <= total (map fst (strong me (arriving os))) <= hi * k.
Proof.
  intros D vs os F. induction F as [|v o vs os O F (k & S & B)]; [exists 0; split; [constructor|cbn; lra]|].
  destruct O as [(Pv & e & q & -> & Be & Me)|(Qv & ->)].
  - exists (1 + k). split; [apply (sum_in P (fun _ => 1)); auto|]. unfold arriving. cbn [flat_map app]. fold (arriving os). unfold strong. cbn [filter fst].
    destruct (Rlt_dec me e); [|contradiction]. fold (strong me (arriving os)). cbn [map total fold_right fst]. unfold total in B. cbn [fst]. lra.
  - exists k. split; [apply sum_out; auto; intros Pv; exact (D v Pv Qv)|]. exact B.
Qed.

Lemma nth_same {A} (l : list A) n j : length l = n -> (j < n)%nat -> exists x, nth_error l j = Some x.
Proof. intros L Hj. destruct (nth_error l j) eqn:E; eauto. apply nth_error_None in E. lia. Qed.

Lemma Forall2_of_nth {A C} (Q : A -> C -> Prop) : forall l l', length l = length l' ->
  (forall j a c, nth_error l j = Some a -> nth_error l' j = Some c -> Q a c) -> Forall2 Q l l'.
Proof.
  induction l as [|a l IH]; intros [|c l'] L F; try discriminate; constructor; [apply (F 0%nat); reflexivity|].
  apply IH; [auto|]. intros j x y Ex Ey. apply (F (S j)); auto.
Qed.

(** C91 for the default parameters *)
Lemma test_case_default limit n sc g : reached limit sc -> (3 <= limit)%nat -> (0 < n)%nat -> INR n <= 10 ^ 10 -> fair (g_rng g) -> (forall id, g_acc g id = mkAcc [] []) ->
  exists rays rnd vs ds es,
    solar_disk_bundle n sun_center sun_direction (5 / 2) (5 / 1000) (Some 1000) (g_rng g) = Ok (rays, rnd) /\
    seen_by_dish rays vs ds /\ b_energy rays = Some es /\ sunlight n vs ds es /\
    ((forall j v d, nth_error vs j = Some v -> nth_error ds j = Some d -> dish_safe (25 / 4) d /\
       (in_square (3 / 20) v \/ in_ring (7 / 20) (49 / 20) v /\
        forall m c p, mirrored_at (round_dish 5 (25 / 4)) (2 / 5) (2 / 5) (7 / 10) (25 / 4) v d m c -> enters (round_dish 5 (25 / 4)) (2 / 5) (2 / 5) (25 / 4) m c p ->
          clear_inside (2 / 5) (2 / 5) (7 / 10) (25 / 4) p c)) ->
     exists sc' M g' k, test_case limit (25 / 4) n (7 / 10) (2 / 5) g sc = (sc', Ok (M, g')) /\ sum_where (in_ring (7 / 20) (49 / 20)) (fun _ => 1) vs k /\
       (9 / 10) ^ 3 * (k / INR n * (1000 * (PI * (5 / 2) ^ 2))) <= total (concat M) * (1000 * (2 / 5 / 50) ^ 2) <= 9 / 10 * (k / INR n * (1000 * (PI * (5 / 2) ^ 2)))).
Proof.
  intros Re L Hn Hb Fg Eg. destruct tiny_tens as (T1 & _).
  destruct (test_case_caught limit (25 / 4) n (7 / 10) (2 / 5) sc g Re) as (rays & rnd & vs & ds & es & Eb & Sb & Ee & Sl & K); auto; try lra.
  exists rays, rnd, vs, ds, es. do 4 (split; [auto; fail|]). intros Cl. pose proof Sl as (Lv & Ld & Fv & Fd & Es).
  assert (Np : 0 < INR n) by (apply lt_0_INR; auto). set (E := 1000 * (PI * (5 / 2) ^ 2)) in *. pose proof PI_RGT_0 as Pp. pose proof PI2_3_2 as P3.
  assert (HE : 18000 < E) by (unfold E; lra). set (e := E / INR n) in *.
  assert (He : tenm 6 < (9 / 10) ^ 3 * e).
  { unfold e. apply Rmult_lt_reg_r with (INR n); auto. replace ((9 / 10) ^ 3 * (E / INR n) * INR n) with ((9 / 10) ^ 3 * E) by (field; lra).
    apply Rle_lt_trans with (tenm 6 * 10 ^ 10); [apply Rmult_le_compat_l; [apply Rlt_le, tenm_pos|auto]|]. unfold tenm. lra. }
  assert (Pe : 0 < e) by (unfold e, Rdiv; apply Rmult_lt_0_compat; [lra|apply Rinv_0_lt_compat; auto]).
  set (P := fun j (ko : nat * option (R * vec)) => forall v d, nth_error vs j = Some v -> nth_error ds j = Some d ->
    course (round_dish 5 (25 / 4)) (2 / 5) (2 / 5) (7 / 10) (25 / 4) (9 / 10) (9 / 10) v d e (fst ko) (snd ko) /\ (fst ko < 100)%nat /\
    outcome (tenm 6) ((9 / 10) ^ 3 * e) (9 / 10 * e) (in_ring (7 / 20) (49 / 20)) (in_square (3 / 20)) v (snd ko)).
  destruct (list_choice P n) as (kos & Lk & Pk).
  { intros j Hj. destruct (nth_same vs n j Lv Hj) as (v & Ev). destruct (nth_same ds n j Ld Hj) as (d & Ed).
    destruct (Cl j v d Ev Ed) as (Sf & W). rewrite Forall_forall in Fv, Fd. pose proof (Fd d (nth_error_In _ _ Ed)) as Dv.
    assert (Ez : vz v = 7 * sqrt 2).
    { destruct (Fv v (nth_error_In _ _ Ev)) as (O & _). unfold downwards in O. clear - O. destruct v as [x y z]. vunfold. lra. }
    destruct W as [Sq|(Rg & W)].
    - exists (0%nat, None). intros v' d' Ev' Ed'. assert (v' = v) by congruence. assert (d' = d) by congruence. subst v' d'. cbn [fst snd]. split; [|split; [lia|right; auto]].
      apply course_stopped; auto. apply default_shadow; auto.
    - destruct (default_ring v d Ez Rg Dv) as (m & c & p & Mr & En & C3 & Nq).
      destruct (default_course v d m c p e Sf Dv Mr En Nq C3 (W m c p Mr En)) as (k & q & Lk & Co & _).
      exists ((1 + k)%nat, Some (e * (9 / 10) * (9 / 10) ^ k, q)). intros v' d' Ev' Ed'. assert (v' = v) by congruence. assert (d' = d) by congruence. subst v' d'.
      cbn [fst snd]. split; auto. split; [lia|]. left. split; auto. do 2 eexists. split; [reflexivity|].
      assert ((9 / 10) ^ 3 * e <= e * (9 / 10) * (9 / 10) ^ k <= 9 / 10 * e) by (destruct k as [|[|[|k]]]; [| | |lia]; cbn [pow]; lra). lra. }
  assert (Lc : length (map fst kos) = n /\ length (map snd kos) = n) by (rewrite !map_length; auto). destruct Lc as (L1 & L2).
  destruct (K (map fst kos) (map snd kos) L1 L2) as (sc' & M & g' & hist & Er & Is & Sh & _).
  { intros j v d e' k o Ev Ed Ee' Ek Eo. rewrite nth_error_map in Ek, Eo. destruct (nth_error kos j) as [ko|] eqn:Ej; [|discriminate]. cbn in Ek, Eo. injection Ek as <-. injection Eo as <-.
    assert (e' = e) by (subst es; apply nth_error_In, repeat_spec in Ee'; auto). subst e'. destruct (Pk j ko Ej v d Ev Ed) as (Co & Lt & _). auto. }
  destruct (outcomes_total (tenm 6) ((9 / 10) ^ 3 * e) (9 / 10 * e) (in_ring (7 / 20) (49 / 20)) (in_square (3 / 20))) with (vs := vs) (os := map snd kos) as (k & Sk & Bk).
  { intros v (A & _) (B & C). destruct B, C. clear - A H H0 H1 H2. nra. }
  { apply Forall2_of_nth; [congruence|]. intros j v o Ev Eo. rewrite nth_error_map in Eo. destruct (nth_error kos j) as [ko|] eqn:Ej; [|discriminate]. cbn in Eo. injection Eo as <-.
    destruct (nth_same ds n j Ld) as (d & Ed); [rewrite <- Lv; apply nth_error_Some; congruence|]. apply (Pk j ko Ej v d Ev Ed). }
  exists sc', M, g', k. split; auto. split; auto. rewrite <- (in_suns_total (2 / 5) M hist Is). destruct Sh as (_ & _ & _ & ->).
  replace (k / INR n * E) with (e * k) by (unfold e; field; lra). lra.
Qed.

(** ** A case *)

Lemma axial_clear v : vz v = 7 * sqrt 2 -> vx v * vx v + vy v * vy v = 1 ->
  forall m c p, mirrored_at (round_dish 5 (25 / 4)) (2 / 5) (2 / 5) (7 / 10) (25 / 4) v down m c -> enters (round_dish 5 (25 / 4)) (2 / 5) (2 / 5) (25 / 4) m c p ->
  clear_inside (2 / 5) (2 / 5) (7 / 10) (25 / 4) p c.
Proof.
  intros Ez Rv m c p (t & n & k & _ & Em & (B & _) & _ & _ & Un & En & Mr) (r & _ & Ep & Pz & _).
  destruct (bowl_mirrors (25 / 4) m n k down c ltac:(lra) B Un En Mr) as (u & Nu & Ec). unfold focal_bowl in B.
  destruct v as [v1 v2 v3], m as [m1 m2 m3], u as [u1 u2 u3], c as [c1 c2 c3], p as [p1 p2 p3]. unfold down, ray_at in *. vunfold. cbn [vx vy vz] in *.
  injection Em as M1 M2 M3. injection Ec as C1 C2 C3. injection Ep as P1 P2 P3.
  replace (v1 + t * 0) with v1 in M1 by ring. replace (v2 + t * 0) with v2 in M2 by ring. subst m1 m2.
  assert (m3 = 1 / 25) by lra. clear M3. subst m3.
  assert (u1 = 0 /\ u2 = 0 /\ u3 = 0) as (-> & -> & ->) by (repeat split; nra).
  assert (c3 = 621 / 629) by lra. assert (Ev1 : v1 = - (629 / 100) * c1) by lra. assert (Ev2 : v2 = - (629 / 100) * c2) by lra. subst c3.
  assert (Er : r = 629 / 100) by lra. assert (Ep1 : p1 = 0) by (rewrite P1, Ev1, Er; ring). assert (Ep2 : p2 = 0) by (rewrite P2, Ev2, Er; ring). clear P1 P2 P3. subst p1 p2.
  assert (Cc : c1 * c1 + c2 * c2 = 10000 / 395641) by (rewrite Ev1, Ev2 in Rv; lra).
  assert (B1 : - (16 / 100) <= c1 <= 16 / 100) by (apply abs_square; [lra|]; pose proof (Rle_0_sqr c2); unfold Rsqr in *; lra).
  assert (B2 : - (16 / 100) <= c2 <= 16 / 100) by (apply abs_square; [lra|]; pose proof (Rle_0_sqr c1); unfold Rsqr in *; lra).
  destruct tiny_tens as (T1 & T2).
  assert (No : forall a s, - (16 / 100) <= a <= 16 / 100 -> passes_image (2 / 5) 0 a s -> s <= 7 / 10 / (621 / 629) -> False).
  { intros a s Ba (Ps & z & E) Ls. assert (Sa : - (12 / 100) <= s * a <= 12 / 100) by (split; nra).
    assert (L1 : -1 < IZR z) by lra. assert (L2 : IZR z < 0) by lra. apply lt_IZR in L1, L2. lia. }
  unfold clear_inside. cbn [vx vy vz]. split; [lra|]. split; [lra|]. split; [|split].
  - intros s I Ls. destruct (No c1 s B1 I Ls).
  - intros s I Ls. destruct (No c2 s B2 I Ls).
  - intros s s' I _ Ls _. destruct (No c1 s B1 I Ls).
Qed.

(** One ray, straight down the axis at the distance 1. *)
Definition case_numbers : rng := mkRng (fun k => if Nat.eqb k 2 then 4 / 25 else 0) 0.
Lemma case_fair : fair case_numbers.
Proof. intros k. unfold case_numbers. cbn. destruct (Nat.eqb k 2); lra. Qed.

Lemma vec_on_axes x y z p : right_handed x y z -> norm2 p = dot p x * dot p x + dot p y * dot p y + dot p z * dot p z.
Proof.
  intros (Ux & Uy & O & <-). unfold is_unit in *.
  assert (G : dot p (cross x y) * dot p (cross x y) =
    norm2 x * norm2 y * norm2 p + 2 * dot x y * dot p y * dot p x - norm2 x * (dot p y * dot p y) - norm2 y * (dot p x * dot p x) - norm2 p * (dot x y * dot x y)).
  { destruct x as [x1 x2 x3], y as [y1 y2 y3], p as [p1 p2 p3]. clear. vunfold. ring. }
  rewrite Ux, Uy, O in G. lra.
Qed.
Lemma norm2_zero v : norm2 v = 0 -> v = vzero.
Proof. destruct v as [a b c]. unfold vzero. vunfold. intros E. pose proof (Rle_0_sqr a). pose proof (Rle_0_sqr b). pose proof (Rle_0_sqr c). unfold Rsqr in *. veq; nra. Qed.

Lemma case_course rays rnd vs ds : solar_disk_bundle 1 sun_center sun_direction (5 / 2) (5 / 1000) (Some 1000) case_numbers = Ok (rays, rnd) -> seen_by_dish rays vs ds ->
  forall j v d, nth_error vs j = Some v -> nth_error ds j = Some d -> dish_safe (25 / 4) d /\
    (in_square (3 / 20) v \/ in_ring (7 / 20) (49 / 20) v /\
     forall m c p, mirrored_at (round_dish 5 (25 / 4)) (2 / 5) (2 / 5) (7 / 10) (25 / 4) v d m c -> enters (round_dish 5 (25 / 4)) (2 / 5) (2 / 5) (25 / 4) m c p ->
       clear_inside (2 / 5) (2 / 5) (7 / 10) (25 / 4) p c).
Proof.
  intros E (Ev & Ed) j v d Jv Jd. destruct sun_aligned as (Ac & Ad & Au). pose proof tilt_rigid as RT.
  assert (Ha : 0 <= 5 / 1000 <= PI / 2) by (pose proof PI2_3_2; lra).
  pose proof (SourceProof.solar_disk_top 1 sun_center sun_direction (5 / 2) (5 / 1000) (Some 1000) case_numbers Au Ha case_fair) as S. rewrite E in S.
  destruct S as (_ & _ & (ps & Ep & Lp & Fp) & (qs & Eq & Lq & Fq) & _). rewrite Ep in Ev. rewrite Eq in Ed. injection Ev as ->. injection Ed as ->. rewrite map_length in Lp, Lq.
  destruct (SourceProof.solar_disk_draws 1 sun_center sun_direction (5 / 2) (5 / 1000) (Some 1000) case_numbers rays rnd Au Ha case_fair E) as (_ & _ & x & y & Rh & K).
  assert (j = 0%nat) by (assert (j < length vs)%nat by (apply nth_error_Some; congruence); lia). subst j.
  destruct (K 0%nat ltac:(lia)) as (p & q & Hp & Hq & Pp & Pq & Pz). unfold vert_at, dir_at, at_col in Hp, Hq. rewrite Ep in Hp. rewrite Eq in Hq.
  rewrite nth_error_map, Jv in Hp. rewrite nth_error_map, Jd in Hq. cbn [option_map] in Hp, Hq. assert (p = app4 tilt v) by congruence. assert (q = turned tilt d) by congruence. subst p q.
  assert (Iv : In (app4 tilt v) (map (app4 tilt) vs)) by (apply in_map; eapply nth_error_In; eauto). rewrite Forall_forall in Fp. destruct (Fp _ Iv) as (O & _).
  assert (Id : In (turned tilt d) (map (turned tilt) ds)) by (apply in_map; eapply nth_error_In; eauto). rewrite Forall_forall in Fq. destruct (Fq _ Id) as (U & _). unfold is_unit in U.
  assert (W : vsub (app4 tilt v) sun_center = turned tilt (vsub v (V3 0 0 (7 * sqrt 2)))).
  { rewrite <- Ac. destruct RT as (r & t & -> & _). unfold turned. rewrite rot_mk4, !app4_mk4, mv3_vsub. destruct (mv3 r v), (mv3 r (V3 0 0 (7 * sqrt 2))), t. vunfold. veq; ring. }
  unfold polar in Pp, Pq. cbn [case_numbers draws drawn Nat.eqb Nat.add Nat.mul] in Pp, Pq.
  assert (Sq : sqrt (4 / 25) = 2 / 5) by (rewrite <- (sqrt_square (2 / 5)) by lra; f_equal; field).
  rewrite Sq, Rmult_0_r, cos_0, sin_0 in Pp. rewrite sqrt_0, !Rmult_0_r, !Rmult_0_l in Pq.
  assert (P1 : dot (vsub (app4 tilt v) sun_center) x = 1) by (apply (f_equal vx) in Pp; cbn [vx] in Pp; lra).
  assert (P2 : dot (vsub (app4 tilt v) sun_center) y = 0) by (apply (f_equal vy) in Pp; cbn [vy] in Pp; lra).
  assert (Q1 : dot (turned tilt d) x = 0) by (apply (f_equal vx) in Pq; exact Pq).
  assert (Q2 : dot (turned tilt d) y = 0) by (apply (f_equal vy) in Pq; exact Pq).
  pose proof (vec_on_axes x y sun_direction (vsub (app4 tilt v) sun_center) Rh) as Nv. rewrite P1, P2, O in Nv. rewrite W, turned_unit in Nv by auto.
  rewrite W, <- Ad, turned_dot in O by auto.
  pose proof (vec_on_axes x y sun_direction (turned tilt d) Rh) as Nd. rewrite Q1, Q2, U in Nd.
  assert (Dd : dot (turned tilt d) sun_direction = 1) by nra. rewrite <- Ad, turned_dot in Dd by auto. rewrite turned_unit in U by auto.
  assert (d = down).
  { assert (Z : norm2 (vsub d down) = 0). { replace (norm2 (vsub d down)) with (norm2 d + 1 - 2 * dot d down) by (clear; destruct d; unfold down; vunfold; ring). change down with downwards. lra. }
    apply norm2_zero in Z. destruct d as [d1 d2 d3]. unfold vzero, down in *. vunfold. injection Z as Z1 Z2 Z3. veq; lra. }
  subst d. assert (Ez : vz v = 7 * sqrt 2) by (clear - O; destruct v as [v1 v2 v3]; unfold downwards in O; vunfold; lra).
  assert (Rv : vx v * vx v + vy v * vy v = 1).
  { rewrite <- (Rplus_0_r 1). transitivity (norm2 (vsub v (V3 0 0 (7 * sqrt 2)))); [|lra]. clear - Ez. destruct v as [v1 v2 v3]. cbn [vz] in Ez. subst v3. vunfold. ring. }
  split; [right; unfold down; cbn; lra|]. right. split; [unfold in_ring; rewrite Rv; lra|]. apply axial_clear; auto.
Qed.

Lemma down_deviates : deviates down (5 / 1000) down.
Proof. split; [unfold is_unit, down; vunfold; ring|]. exists 0. split; [lra|]. rewrite cos_0. unfold down. vunfold. ring. Qed.
Lemma parts_example : in_ring (7 / 20) (49 / 20) (V3 1 0 (7 * sqrt 2)) /\ in_square (3 / 20) (V3 (1 / 10) (- (1 / 10)) (7 * sqrt 2)) /\
  deviates down (5 / 1000) down /\ dish_safe (25 / 4) down.
Proof.
  split; [unfold in_ring; cbn [vx vy]; lra|]. split; [unfold in_square; cbn [vx vy]; lra|]. split; [apply down_deviates|]. right. unfold down. cbn [vx vy vz]. lra.
Qed.
Lemma spot_example : let kappa := (16 * (25 / 4) * (25 / 4) - 5 * 5) / (16 * (25 / 4) * (25 / 4) + 5 * 5) in
  0 <= 5 / 1000 < kappa /\ 2 * (25 / 4) * (5 / 1000) / (kappa - 5 / 1000) < 7 / 100 /\ deviates down (5 / 1000) down /\
  exists m c, mirrored_at (round_dish 5 (25 / 4)) (2 / 5) (2 / 5) (7 / 10) (25 / 4) (V3 1 0 (7 * sqrt 2)) down m c.
Proof.
  cbv zeta. rewrite default_kappa. split; [lra|]. split; [lra|]. split; [apply down_deviates|].
  destruct (default_ring (V3 1 0 (7 * sqrt 2)) down eq_refl (proj1 parts_example) down_deviates) as (m & c & _ & Mr & _). eauto.
Qed.
