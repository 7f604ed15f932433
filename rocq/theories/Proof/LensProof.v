(** Making a spherical lens. *)
From Coq Require Import Reals List Arith Bool Lia Lra.
From Verif.Base Require Import Py Num Vec.
From Verif.Model Require Import RayBundle Spatial Boundary Geometry OpticsCallables Engine Objects Surface Assembly Scene Models Lens.
From Verif.Proof Require Import NumLemmas VecLemmas FlatProof GeomTop FrameProof ConstructProof ConstructTop ViewProof SceneProof ModelProof ModelTop TriangleProof KeptProof TurnProof.
From Verif.Spec Require Import BundleSpec EngineSpec GeometrySpec GeomIface OpticsSpec FrameSpec SceneSpec ModelSpec TriangleSpec LensSpec.
Import ListNotations.
Local Open Scope R_scope.

(** ** Shapes *)

Lemma flip_eq : flip_side = M3 (V3 1 0 0) (V3 0 (-1) 0) (V3 0 0 (-1)).
Proof. unfold flip_side, rotx, rot_of. cbn. rewrite sin_PI, cos_PI. repeat f_equal; ring. Qed.

Definition sect_of (D r : R) : bshape :=
  if Rltb 0 r then BPlane (mk4 id3 (V3 0 0 (sqrt (r * r - D * D / 4)))) else BPlane (mk4 flip_side (V3 0 0 (- sqrt (r * r - D * D / 4)))).
Definition cut_of (D r : R) : R := if Rltb 0 r then sqrt (r * r - D * D / 4) else - sqrt (r * r - D * D / 4).

Lemma cut_plane_ok D r : D * D / 4 <= r * r -> cut_plane D (Fin r) = Ok (sect_of D r, cut_of D r).
Proof.
  intros H. unfold cut_plane, sect_of, cut_of. cbv zeta. destruct (Rltb (r * r - D * D / 4) 0) eqn:E; [apply Rltb_true in E; lra|].
  destruct (Rltb 0 r); auto.
Qed.
Lemma sect_plane D r : sphere_or_plane (sect_of D r).
Proof.
  assert (F : orthonormal flip_side) by (rewrite flip_eq; apply orthonormal_eqs; cbn; repeat split; ring).
  assert (O : orthonormal id3) by (apply orthonormal_eqs; cbn; repeat split; ring).
  unfold sect_of. destruct (Rltb 0 r); [exists id3|exists flip_side]; eauto.
Qed.
Lemma sect_volume D r q : D * D / 4 <= r * r -> r <> 0 -> volume (sect_of D r) q <->
  (0 < r -> sqrt (r * r - D * D / 4) <= vz q) /\ (r < 0 -> vz q <= - sqrt (r * r - D * D / 4)).
Proof.
  intros H N. unfold sect_of. destruct (Rltb 0 r) eqn:E; [apply Rltb_true in E|apply Rltb_false in E]; cbn [volume]; unfold placed, upper_space; split.
  - intros (x & Hx & ->). split; [|lra]. intros _. rewrite app4_mk4. destruct x. vunfold. cbn in *. lra.
  - intros (Hq & _). exists (vsub q (V3 0 0 (sqrt (r * r - D * D / 4)))). rewrite app4_mk4. destruct q. vunfold. cbn in *. split; [specialize (Hq E); lra|veq; ring].
  - intros (x & Hx & ->). split; [lra|]. intros _. rewrite app4_mk4, flip_eq. destruct x. vunfold. cbn in *. lra.
  - intros (_ & Hq). exists (V3 (vx q) (- vy q) (- vz q - sqrt (r * r - D * D / 4))). rewrite app4_mk4, flip_eq. destruct q. vunfold. cbn in *. split; [|veq; ring].
    assert (r < 0) by lra. specialize (Hq H0). lra.
Qed.

Lemma cap_points D r v p : D * D / 4 <= r * r -> r <> 0 ->
  placed (mk4 id3 (V3 0 0 (v - r))) (fun q => ball_surface (Rabs r) q /\ volume (sect_of D r) q) p <-> cap D r v p.
Proof.
  intros H N. set (s := sqrt (r * r - D * D / 4)).
  assert (S0 : 0 <= s) by apply sqrt_pos. assert (S2 : s * s = r * r - D * D / 4) by (apply sqrt_sqrt; lra).
  assert (A : Rabs r * Rabs r = r * r) by (rewrite <- Rabs_mult; apply Rabs_pos_eq, Rle_0_sqr).
  assert (K : forall q, ball_surface (Rabs r) q /\ volume (sect_of D r) q <-> norm2 q = r * r /\ 0 <= vz q * r /\ off_axis q <= (D / 2) * (D / 2)).
  { intros q. unfold ball_surface. rewrite A, sect_volume by auto. fold s. unfold off_axis, norm2, dot. destruct q as [x y z]. cbn [vx vy vz].
    split.
    - intros (E & P & Q). split; auto. destruct (Rtotal_order r 0) as [L|[L|L]]; [|lra|].
      + specialize (Q L). split; nra.
      + specialize (P L). split; nra.
    - intros (E & P & Q). split; auto. split; intros L.
      + assert (0 <= z) by nra. destruct (Rle_dec s z); auto. nra.
      + assert (z <= 0) by nra. destruct (Rle_dec z (- s)); auto. nra. }
  unfold placed, cap. split.
  - intros (q & Hq & ->). apply K in Hq. rewrite app4_mk4. destruct q as [x y z]. unfold off_axis in *. vunfold. cbn in *.
    replace (1 * x + 0 * y + 0 * z + 0) with x by ring. replace (0 * x + 1 * y + 0 * z + 0) with y by ring.
    replace (0 * x + 0 * y + 1 * z + (v - r)) with (z + (v - r)) by ring.
    replace (z + (v - r) - (v - r)) with z by ring. replace (x - 0) with x by ring. replace (y - 0) with y by ring. tauto.
  - intros Hp. exists (vsub p (V3 0 0 (v - r))). rewrite K. split.
    + destruct p as [x y z]. unfold off_axis in *. vunfold. cbn in *. replace ((x - 0) * (x - 0)) with (x * x) in * by ring. replace ((y - 0) * (y - 0)) with (y * y) in * by ring. tauto.
    + rewrite app4_mk4. destruct p. vunfold. cbn. veq; ring.
Qed.

Lemma cap_apex D r v : r <> 0 -> apex (cap D r v) v.
Proof.
  intros N x. unfold cap, off_axis. vunfold. cbn. split.
  - intros (E & P & _). assert (Q : (x - v) * (x - v + 2 * r) = 0) by nra. apply Rmult_integral in Q. destruct Q as [Q|Q]; [lra|].
    exfalso. assert (x - (v - r) = - r) by lra. rewrite H in P. nra.
  - intros ->. repeat split; nra.
Qed.
Lemma cap_edge D r v : D * D / 4 <= r * r -> r <> 0 -> edge D (cap D r v) (v - r + cut_of D r).
Proof.
  intros H N p Hp. unfold cap. rewrite Hp. set (s := sqrt (r * r - D * D / 4)).
  assert (S0 : 0 <= s) by apply sqrt_pos. assert (S2 : s * s = r * r - D * D / 4) by (apply sqrt_sqrt; lra).
  unfold cut_of. fold s. unfold off_axis in Hp. destruct p as [x y z]. vunfold. cbn in *.
  replace ((x - 0) * (x - 0) + (y - 0) * (y - 0) + (z - (v - r)) * (z - (v - r))) with (x * x + y * y + (z - (v - r)) * (z - (v - r))) by ring.
  set (c := z - (v - r)). assert (Ez : z = v - r + c) by (unfold c; ring).
  destruct (Rltb 0 r) eqn:E; [apply Rltb_true in E|apply Rltb_false in E]; split.
  - intros (A & B & _). assert (c = s); [|lra]. assert (Q : (c - s) * (c + s) = 0) by nra. apply Rmult_integral in Q. nra.
  - intros B. assert (c = s) by lra. repeat split; nra.
  - intros (A & B & _). assert (c = - s); [|lra]. assert (Q : (c - s) * (c + s) = 0) by nra. apply Rmult_integral in Q. nra.
  - intros B. assert (c = - s) by lra. repeat split; nra.
Qed.
Lemma disc_edge D v : edge D (disc D v) v.
Proof. intros p H. unfold disc. rewrite H. split; [tauto|]. intros; split; auto. lra. Qed.
Lemma disc_apex D v : apex (disc D v) v.
Proof. intros x. unfold disc, off_axis. cbn. split; [tauto|]. intros; split; auto. nra. Qed.

Lemma tube_points D h z0 p : placed (mk4 id3 (V3 0 0 z0)) (round_wall_of_height D h) p <-> tube D (z0 - h / 2) (z0 + h / 2) p.
Proof.
  unfold placed, round_wall_of_height, round_wall, tube, off_axis. split.
  - intros (q & Hq & ->). rewrite app4_mk4. destruct q as [x y z]. vunfold. cbn in *.
    replace (1 * x + 0 * y + 0 * z + 0) with x by ring. replace (0 * x + 1 * y + 0 * z + 0) with y by ring. split; [tauto|lra].
  - intros Hp. exists (vsub p (V3 0 0 z0)). rewrite app4_mk4. destruct p as [x y z]. vunfold. cbn in *. split; [|veq; ring].
    replace ((x - 0) * (x - 0)) with (x * x) by ring. replace ((y - 0) * (y - 0)) with (y * y) by ring. split; [tauto|lra].
Qed.
Lemma disc_points D p : placed (mk4 flip_side vzero) (disk (D / 2)) p <-> disc D 0 p.
Proof.
  rewrite flip_eq. unfold placed, disk, disc, off_axis. split.
  - intros (q & Hq & ->). rewrite app4_mk4. destruct q as [x y z]. unfold vzero. vunfold. cbn in *. destruct Hq as (-> & Hq). split; [ring|nra].
  - intros (Z & Hp). exists (V3 (vx p) (- vy p) (- vz p)). rewrite app4_mk4. destruct p as [x y z]. unfold vzero. vunfold. cbn in *. split; [|veq; ring].
    split; [lra|nra].
Qed.

(** ** Parts *)

Lemma first_hit_same (A A' : shape) v d x : (forall p, A p <-> A' p) -> first_hit A v d x -> first_hit A' v d x.
Proof.
  intros H. unfold first_hit, least. destruct x; auto.
  - intros ((B & C) & D). split; [split; auto; apply H; auto|]. intros t' (E & F). apply D. split; auto. apply H; auto.
  - intros N t (B & C). apply (N t). split; auto. apply H; auto.
Qed.
Lemma id_good : orthonormal id3.
Proof. apply orthonormal_eqs; cbn; repeat split; ring. Qed.
Lemma rigid_at v : rigid (mk4 id3 v).
Proof. exists id3, v. split; auto. apply id_good. Qed.
Lemma flip_good : orthonormal flip_side.
Proof. rewrite flip_eq; apply orthonormal_eqs; cbn; repeat split; ring. Qed.

Definition cap_geom (D r : R) : geom := CutSphere (Rabs r) (Some (sect_of D r)).
Lemma cap_geom_ok D r : r <> 0 -> new_cut_sphere (Rabs r) (Some (sect_of D r)) = Ok (cap_geom D r).
Proof.
  intros N. unfold new_cut_sphere, check_radius. pose proof (Rabs_pos_lt r N). destruct (Rleb (Rabs r) 0) eqn:E; [|reflexivity].
  apply Rleb_true in E. lra.
Qed.
Lemma in_turn_same (A A' : shape) c vs ds : (forall p, A p <-> A' p) -> entering_first A c vs ds <-> entering_first A' c vs ds.
Proof.
  intros H.
  assert (C : forall v d, comes_in A c v d <-> comes_in A' c v d).
  { intros v d. unfold comes_in. setoid_rewrite H. tauto. }
  assert (G : forall v d, goes_out A c v d <-> goes_out A' c v d).
  { intros v d. unfold goes_out. setoid_rewrite H. tauto. }
  unfold entering_first. setoid_rewrite C. setoid_rewrite G. tauto.
Qed.
Lemma finds_entering_first_same gm frame (A A' : shape) c : (forall p, A p <-> A' p) ->
  finds_entering_first gm frame A c -> finds_entering_first gm frame A' c.
Proof.
  intros H F b vs ds Hb Hd. destruct (F b vs ds Hb Hd) as (st & ps & E & L & P). exists st, ps. split; auto. split; auto.
  rewrite <- (in_turn_same A A') by auto. rewrite P. split; intros K i v d x Hv Hdi Hx.
  - eapply first_hit_same; eauto.
  - apply (first_hit_same A'); [intros; symmetry; apply H|]. eapply K; eauto.
Qed.
Lemma cap_face D r n v : D * D / 4 <= r * r -> r <> 0 ->
  face_of n (cap D r v) (V3 0 0 (v - r)) (mkPart (cap_geom D r) (Refractive 1 n) (mk4 id3 (V3 0 0 (v - r)))).
Proof.
  intros H N. split; [reflexivity|]. intros T RT b vs ds Hb Hd. unfold seen_part. cbn [p_geom p_opt p_own].
  assert (F : finds_entering_first (cap_geom D r) (mm4 T (mk4 id3 (V3 0 0 (v - r)))) (placed T (cap D r v)) (app4 T (V3 0 0 (v - r)))).
  { apply finds_entering_first_same with
      (A := placed (mm4 T (mk4 id3 (V3 0 0 (v - r)))) (fun q => ball_surface (Rabs r) q /\ volume (sect_of D r) q)).
    - intros q. rewrite placed_mm4 by auto using rigid_at. apply placed_ext. intros u. apply cap_points; auto.
    - destruct RT as (m & t & -> & O). rewrite mm4_mk4, mm3_id_r, app4_mk4.
      apply (cut_sphere_turn _ _ _ m _ (cap_geom_ok D r N) O (sect_plane D r)). }
  destruct (F b vs ds Hb Hd) as (st & ps & E & P). eexists. exists ps.
  split; [unfold surf_register, Surface.new_surface; cbn [s_geom s_frame]; rewrite E; reflexivity|]. exact P.
Qed.
Lemma plate_face D n : 0 < D ->
  flat_face_of n (disc D 0) (mkPart (RoundPlate (D / 2)) (Refractive 1 n) (mk4 flip_side vzero)).
Proof.
  intros H. split; [reflexivity|]. intros T RT. unfold seen_part. cbn [p_geom p_opt p_own].
  assert (Rf : rigid (mk4 flip_side vzero)) by (exists flip_side, vzero; split; auto; apply flip_good).
  pose proof (rigid_mm4 _ _ RT Rf) as Rm. eapply covers_ext; [| |apply (covers_intro _ _ _ (disk (D / 2)))]; auto.
  - intros q. rewrite placed_mm4 by auto. apply placed_ext. intros u. apply disc_points.
  - rewrite z_of_mm4, z_of_mk4 by auto. f_equal. rewrite flip_eq. reflexivity.
  - apply round_finds; auto. unfold new_round_plate. destruct (Rleb (D / 2) 0) eqn:E; auto. apply Rleb_true in E. lra.
Qed.
Lemma safe_shift T D z v d : rigid T -> cylinder_safe T D v d -> cylinder_safe (mm4 T (mk4 id3 (V3 0 0 z))) D v d.
Proof.
  intros (r & t & -> & O) (l & q & El & Eq & H). exists l, (vsub q (V3 0 0 z)). rewrite mm4_mk4, !rot_mk4, app4_mk4 in *. rewrite mm3_id_r. split; auto. split.
  - rewrite Eq. destruct r as [[? ? ?] [? ? ?] [? ? ?]], q, t. vunfold. cbn. veq; ring.
  - destruct H as [H|(X & Y & W)]; [left; auto|right]. split; auto. split; auto. unfold round_wall in *. destruct q. vunfold. cbn in *.
    replace (vx - 0) with vx by ring. replace (vy - 0) with vy by ring. auto.
Qed.
Lemma tube_wall D n h z : wall_of n D (tube D (z - h / 2) (z + h / 2)) (mkPart (new_finite_cylinder D h) (Refractive n 1) (mk4 id3 (V3 0 0 z))).
Proof.
  split; [reflexivity|]. intros T RT b vs ds Hb. unfold seen_part. cbn [p_geom p_opt p_own].
  pose proof (rigid_mm4 _ _ RT (rigid_at (V3 0 0 z))) as Rm.
  destruct (finite_cylinder_finds D h _ Rm b vs ds Hb) as (st & ps & E & L & P).
  eexists. exists ps. split; [unfold surf_register, Surface.new_surface; cbn [s_geom s_frame]; rewrite E; reflexivity|]. split; auto.
  intros i v d x Hv Hd Hx Sf. eapply first_hit_same; [|apply (P i v d x); auto; apply safe_shift; auto].
  intros q. rewrite placed_mm4 by auto using rigid_at. apply placed_ext. intros u. apply tube_points.
Qed.

(** ** The constructor *)

Lemma curved_kept limit D r n sc : reached limit sc -> D * D / 4 <= r * r -> r <> 0 ->
  exists sc', curved_face limit D (Fin r) n sc = (sc', Ok (w_size (sc_w sc), (r, cut_of D r))) /\ kept limit sc sc' /\
    is_part sc' (w_size (sc_w sc)) (mkPart (cap_geom D r) (Refractive 1 n) (mk4 id3 vzero)) /\ w_size (sc_w sc') = S (w_size (sc_w sc)).
Proof.
  intros R H N. unfold curved_face.
  erewrite bbind_ok by (apply calc_ok, cut_plane_ok; auto). cbv beta iota.
  erewrite bbind_ok by (apply calc_ok; reflexivity). cbv beta iota.
  erewrite bbind_ok by (apply calc_ok, cap_geom_ok; auto).
  destruct (surface_kept limit (cap_geom D r) (Refractive 1 n) None None vzero id3 sc R Logic.I Logic.I eq_refl eq_refl) as (sc' & E & K & P & Z).
  bstep. exists sc'. auto.
Qed.

Lemma assembled limit sc0 sc ss parts tr t : reached limit sc0 -> kept limit sc0 sc -> Forall2 (is_part sc) ss parts -> newer sc0 ss -> (0 < limit)%nat ->
  usable_opt (sc_w sc0) (w_size (sc_w sc0)) tr -> given (sc_w sc0) tr t ->
  exists sc', make_object limit ss [] tr sc = (sc', Ok (w_size (sc_w sc))) /\ reached limit sc' /\ undisturbed sc0 sc' /\
    ~ exists_in sc0 (w_size (sc_w sc)) /\ is_object sc' (w_size (sc_w sc)) (mkO false t parts) ss.
Proof.
  intros R K P N Ll U G. pose proof (kept_step _ _ _ R K) as S.
  destruct (transform_step limit sc0 sc tr t R S U G) as (U1 & G1).
  destruct (object_at_step limit ss parts tr t sc (kp_reached _ _ _ K) P Ll U1 G1) as (sc' & E & R' & Sa & Pl & Ob).
  exists sc'. split; auto. split; auto. split; [|split; auto].
  - intros j Ej. pose proof (step_exists _ _ _ _ _ S Ej) as Ej'.
    destruct (step_same _ _ _ _ _ R S Ej) as ((X1 & X2 & X3 & X4) & X5 & X6 & X7).
    destruct (Sa j Ej') as ((Y1 & Y2 & Y3 & Y4) & Y5 & Y6 & Y7). split; [unfold same_in, same_node; repeat split; congruence|].
    rewrite Pl; auto; [apply S; auto|]. intros I. exact (newer_not limit sc0 ss j R N I Ej).
  - intros E0. apply (exists_size _ _ _ R) in E0. pose proof (kp_size _ _ _ K). lia.
Qed.

Lemma with_loc_id v w : with_loc (mk4 id3 w) v = mk4 id3 v.
Proof. destruct v. reflexivity. Qed.

(** spherical_lens.py:99-116 *)
Definition rest (limit : nat) (D depth r1 cut1 n : R) (tr : option ref) (front back : nat) (f pd : R) (lh : R * R) : B lens :=
  let '(loc, height) := lh in
  let locf := pd + depth - r1 in
  at_f <+ literal (A3 (V3 0 0 locf)) ;+
  u <+ put_location limit front at_f ;+
  let loc := loc + (locf + cut1) / 2 in
  let height := height + (locf + cut1) in
  if Rltb 0 height then
    at_c <+ literal (A3 (V3 0 0 loc)) ;+
    cyl <+ make_surface limit (new_finite_cylinder D height) (Refractive n 1) (Some at_c) None ;+
    m <+ make_object limit [front; back; cyl] [] tr ;+
    bret (mkLens m front back (Some cyl) f)
  else
    m <+ make_object limit [front; back] [] tr ;+
    bret (mkLens m front back None f).

Lemma rest_ok limit sc0 sc D depth r1 n tr t front back f pd zb pb g : reached limit sc0 -> kept limit sc0 sc -> (0 < limit)%nat ->
  usable_opt (sc_w sc0) (w_size (sc_w sc0)) tr -> given (sc_w sc0) tr t ->
  (w_size (sc_w sc0) <= front)%nat -> (w_size (sc_w sc0) <= back)%nat -> front <> back ->
  is_part sc front (mkPart g (Refractive 1 n) (mk4 id3 vzero)) -> is_part sc back pb -> sole (sc_w sc) front ->
  let zf := pd + depth - r1 + cut_of D r1 in
  exists sc' l ss walls, rest limit D depth r1 (cut_of D r1) n tr front back f pd (zb / 2, - zb) sc = (sc', Ok l) /\ reached limit sc' /\ undisturbed sc0 sc' /\
    ~ exists_in sc0 (l_node l) /\ (forall s, In s ss -> ~ exists_in sc0 s) /\ NoDup ss /\
    ss = l_front l :: l_back l :: match l_cyl l with Some c => [c] | None => [] end /\
    is_object sc' (l_node l) (mkO false t (mkPart g (Refractive 1 n) (mk4 id3 (V3 0 0 (pd + depth - r1))) :: pb :: walls)) ss /\ focal_length l = f /\
    (zb < zf /\ (exists w, walls = [w] /\ wall_of n D (tube D zb zf) w) \/ zf <= zb /\ walls = []).
Proof.
  intros R0 K Ll U G Lf Lb Nfb Pf Pb So zf. unfold rest. pose proof (kp_reached _ _ _ K) as R.
  destruct (literal_kept limit (A3 (V3 0 0 (pd + depth - r1))) sc R) as (sc1 & E1 & K1 & V1 & N1 & Z1). bstep. pose proof (kp_reached _ _ _ K1) as R1.
  pose proof (kept_part _ _ _ _ _ R K1 Pf) as Pf1. pose proof (kept_part _ _ _ _ _ R K1 Pb) as Pb1.
  pose proof (kept_sole _ _ _ _ R K1 (part_exists _ _ _ Pf) So) as So1.
  destruct (locate_kept limit sc0 sc1 front _ (w_next (sc_w sc)) (V3 0 0 (pd + depth - r1)) R0 (kept_trans _ _ _ _ K K1) Lf Pf1 So1) as (sc2 & E2 & K2 & Pf2 & Oth & _ & Z2); [lia|auto|].
  bstep. cbn [p_geom p_opt p_own] in Pf2. rewrite with_loc_id in Pf2. pose proof (Oth back pb (not_eq_sym Nfb) Pb1) as Pb2. pose proof (kp_reached _ _ _ K2) as R2.
  assert (Nw : newer sc0 [front; back]) by (constructor; auto; constructor; auto; constructor).
  assert (Nn : forall ss, newer sc0 ss -> forall s, In s ss -> ~ exists_in sc0 s) by (intros ss H s Is Es; exact (newer_not limit sc0 ss s R0 H Is Es)).
  assert (Zf : zf = pd + depth - r1 + cut_of D r1) by reflexivity. clearbody zf.
  match goal with |- context [if Rltb 0 ?h then _ else _] => replace h with (zf - zb) by (rewrite Zf; ring) end.
  destruct (Rltb 0 (zf - zb)) eqn:E; [apply Rltb_true in E|apply Rltb_false in E].
  - match goal with |- context [literal (A3 (V3 0 0 ?l))] => replace l with ((zf + zb) / 2) by (rewrite Zf; field) end.
    destruct (literal_kept limit (A3 (V3 0 0 ((zf + zb) / 2))) sc2 R2) as (sc3 & E3 & K3 & V3' & N3 & Z3). bstep. pose proof (kp_reached _ _ _ K3) as R3.
    destruct (surface_kept limit (new_finite_cylinder D (zf - zb)) (Refractive n 1) (Some (Whole (w_next (sc_w sc2)))) None (V3 0 0 ((zf + zb) / 2)) id3 sc3 R3) as (sc4 & E4 & K4 & Pc & Z4).
    { exists (w_next (sc_w sc2)). split; auto. lia. }
    { exact Logic.I. }
    { cbn. auto. }
    { reflexivity. }
    bstep. set (cyl := w_size (sc_w sc3)) in *.
    pose proof (kept_trans _ _ _ _ K3 K4) as K34.
    assert (Lc : (w_size (sc_w sc0) <= cyl)%nat) by (unfold cyl; pose proof (kp_size _ _ _ (kept_trans _ _ _ _ K2 K3)); lia).
    assert (Pa : Forall2 (is_part sc4) [front; back; cyl] [mkPart g (Refractive 1 n) (mk4 id3 (V3 0 0 (pd + depth - r1))); pb; mkPart (new_finite_cylinder D (zf - zb)) (Refractive n 1) (mk4 id3 (V3 0 0 ((zf + zb) / 2)))]).
    { constructor; [exact (kept_part _ _ _ _ _ R2 K34 Pf2)|]. constructor; [exact (kept_part _ _ _ _ _ R2 K34 Pb2)|]. constructor; auto. }
    assert (Nc : newer sc0 [front; back; cyl]) by (constructor; auto; constructor; auto; constructor; auto; constructor).
    destruct (assembled limit sc0 sc4 _ _ tr t R0 (kept_trans _ _ _ _ K2 K34) Pa Nc Ll U G) as (sc5 & E5 & R5 & Un & Ne & Ob). bstep.
    eexists sc5, _, [front; back; cyl], _. split; [reflexivity|]. cbn [l_node l_front l_back l_cyl l_f focal_length].
    split; auto. split; auto. split; auto. split; [apply Nn; auto|]. split.
    { assert (front < cyl /\ back < cyl)%nat as (? & ?) by (unfold cyl; pose proof (exists_size _ _ _ R2 (part_exists _ _ _ Pf2)); pose proof (exists_size _ _ _ R2 (part_exists _ _ _ Pb2)); lia).
      constructor; [simpl; lia|]. constructor; [simpl; lia|]. constructor; [simpl; tauto|constructor]. }
    split; auto. split; [exact Ob|]. split; auto. left. split; [lra|]. eexists. split; [reflexivity|].
    pose proof (tube_wall D n (zf - zb) ((zf + zb) / 2)) as W.
    replace ((zf + zb) / 2 - (zf - zb) / 2) with zb in W by field. replace ((zf + zb) / 2 + (zf - zb) / 2) with zf in W by field. exact W.
  - assert (Pa : Forall2 (is_part sc2) [front; back] [mkPart g (Refractive 1 n) (mk4 id3 (V3 0 0 (pd + depth - r1))); pb]) by (constructor; [exact Pf2|constructor; [exact Pb2|constructor]]).
    destruct (assembled limit sc0 sc2 _ _ tr t R0 K2 Pa Nw Ll U G) as (sc5 & E5 & R5 & Un & Ne & Ob). bstep.
    eexists sc5, _, [front; back], []. split; [reflexivity|]. cbn [l_node l_front l_back l_cyl l_f focal_length].
    split; auto. split; auto. split; auto. split; [apply Nn; auto|]. split; [constructor; [simpl; lia|]; constructor; [simpl; tauto|constructor]|].
    split; auto. split; [exact Ob|]. split; auto. right. split; [lra|auto].
Qed.

Lemma power_eq n depth r1 r2 : n <> 0 -> r1 <> 0 -> r2 <> 0 ->
  (n - 1) * (1 / r1 - 1 / r2 + depth * (n - 1) / r1 / r2 / n) = lensmaker n depth r1 r2.
Proof. intros. unfold lensmaker. field. auto. Qed.

Lemma lens_top limit D depth r1 r2 n tr t sc : reached limit sc -> (0 < limit)%nat ->
  usable_opt (sc_w sc) (w_size (sc_w sc)) tr -> given (sc_w sc) tr t ->
  r1 <> 0 -> r2 <> 0 -> D * D / 4 <= r1 * r1 -> D * D / 4 <= r2 * r2 -> n <> 0 -> lensmaker n depth r1 r2 <> 0 ->
  exists f v pf pb walls, makes_lens limit D depth (Some (Fin r1)) (Some (Fin r2)) n tr t sc f (pf :: pb :: walls) /\
    f * lensmaker n depth r1 r2 = 1 /\ v = f * depth * (n - 1) / (n * r1) /\
    face_of n (cap D r1 (v + depth)) (V3 0 0 (v + depth - r1)) pf /\ face_of n (cap D r2 v) (V3 0 0 (v - r2)) pb /\
    closed_by n D (cap D r1 (v + depth)) (cap D r2 v) walls.
Proof.
  intros R Ll U G N1 N2 H1 H2 Nn Np.
  set (f := 1 / lensmaker n depth r1 r2). set (v := f * depth * (n - 1) / n / r1).
  unfold makes_lens, spherical_lens.
  destruct (curved_kept limit D r1 n sc R H1 N1) as (sc1 & E1 & K1 & P1 & Z1).
  assert (Ef : front_face limit D (Some (Fin r1)) n sc = (sc1, Ok (w_size (sc_w sc), (r1, cut_of D r1)))).
  { unfold front_face. cbn [is_planar]. destruct (Reqb r1 0) eqn:E; auto. apply Reqb_true in E. lra. }
  bstep. cbv beta iota. pose proof (kp_reached _ _ _ K1) as R1.
  pose proof (fresh_sole _ _ _ R K1 Z1) as So1.
  destruct (curved_kept limit D r2 n sc1 R1 H2 N2) as (sc2 & E2 & K2 & P2 & Z2).
  assert (Eb : back_face limit D (Some (Fin r2)) n sc1 = (sc2, Ok (w_size (sc_w sc1), Some (r2, cut_of D r2)))).
  { unfold back_face. cbn [is_planar]. destruct (Reqb r2 0) eqn:E; [apply Reqb_true in E; lra|]. bstep. reflexivity. }
  bstep. cbv beta iota. cbn [option_map fst]. pose proof (kp_reached _ _ _ K2) as R2.
  assert (Eo : optical_power depth r1 (Some r2) n = Ok (lensmaker n depth r1 r2)).
  { unfold optical_power. destruct (Reqb n 0) eqn:E; [apply Reqb_true in E; lra|]. f_equal. apply power_eq; auto. }
  erewrite bbind_ok by (apply calc_ok; exact Eo).
  assert (Ei : (if Reqb (lensmaker n depth r1 r2) 0 then Err ZeroDivisionError else Ok (1 / lensmaker n depth r1 r2)) = Ok f).
  { destruct (Reqb _ 0) eqn:E; auto. apply Reqb_true in E. lra. }
  erewrite bbind_ok by (apply calc_ok; exact Ei). cbv zeta. change (f * depth * (n - 1) / n / r1) with v.
  pose proof (kept_trans _ _ _ _ K1 K2) as K12.
  pose proof (kept_part _ _ _ _ _ R1 K2 P1) as P1'. pose proof (kept_sole _ _ _ _ R1 K2 (part_exists _ _ _ P1) So1) as So1'.
  pose proof (fresh_sole _ _ _ R1 K2 Z2) as So2.
  set (front := w_size (sc_w sc)) in *. set (back := w_size (sc_w sc1)) in *.
  destruct (literal_kept limit (A3 (V3 0 0 (v - r2))) sc2 R2) as (sc3 & E3 & K3 & V3' & N3 & Z3).
  pose proof (kp_reached _ _ _ K3) as R3.
  destruct (locate_kept limit sc sc3 back (mkPart (cap_geom D r2) (Refractive 1 n) (mk4 id3 vzero))
    (w_next (sc_w sc2)) (V3 0 0 (v - r2)) R (kept_trans _ _ _ _ K12 K3)) as (sc4 & E4 & K4 & P4 & O4 & S4 & Z4).
  { unfold back. lia. }
  { exact (kept_part _ _ _ _ _ R2 K3 P2). }
  { exact (kept_sole _ _ _ _ R2 K3 (part_exists _ _ _ P2) So2). }
  { lia. }
  { auto. }
  cbn [p_geom p_opt p_own] in P4. rewrite with_loc_id in P4.
  assert (Nfb : front <> back) by (unfold front, back; lia).
  pose proof (O4 front _ Nfb (kept_part _ _ _ _ _ R2 K3 P1')) as P1''.
  pose proof (S4 front (kept_sole _ _ _ _ R2 K3 (part_exists _ _ _ P1') So1')) as So1''.
  set (zb := v - r2 + cut_of D r2).
  destruct (rest_ok limit sc sc4 D depth r1 n tr t front back f v zb
    (mkPart (cap_geom D r2) (Refractive 1 n) (mk4 id3 (V3 0 0 (v - r2)))) (cap_geom D r1) R K4 Ll U G)
    as (sc5 & l & ss & walls & E5 & R5 & Un & Ne & Ns & Nd & Es & Ob & Ff & Wl); auto.
  { unfold back. lia. }
  exists f, v. eexists. eexists. exists walls. split.
  - exists sc5, l, ss. split; [|repeat (split; [eassumption|]); eassumption].
    erewrite bbind_ok; [|erewrite bbind_ok by exact E3; erewrite bbind_ok by exact E4; reflexivity]. exact E5.
  - split; [unfold f; field; auto|]. split; [unfold v; field; auto|]. split; [|split].
    + apply cap_face; auto.
    + apply cap_face; auto.
    + eexists. exists zb. split; [|split; [apply cap_edge; auto|exact Wl]].
      apply cap_edge; auto.
Qed.

(** ** Planar faces *)

Lemma planar_iff r : is_planar r = true <-> planar_radius r.
Proof.
  unfold planar_radius. destruct r as [[r| | |]|]; cbn; try (split; intros; auto 10; fail).
  - rewrite Reqb_true. split; [intros ->; auto|]. intros [H|[H|[H|H]]]; congruence.
  - split; [discriminate|]. intros [H|[H|[H|H]]]; discriminate.
Qed.

Lemma planar_front limit D depth r1 r2 n tr sc : planar_radius r1 -> 0 < D -> reached limit sc ->
  snd (spherical_lens limit D depth r1 r2 n tr sc) = Err NameError.
Proof.
  intros P HD R. apply planar_iff in P. unfold spherical_lens.
  assert (E : exists sc', front_face limit D r1 n sc = (sc', Err NameError)).
  { assert (F : exists sc', flat_front limit D n sc = (sc', Err NameError)).
    { unfold flat_front.
      assert (Eg : new_round_plate (D / 2) = Ok (RoundPlate (D / 2))) by (unfold new_round_plate; destruct (Rleb (D / 2) 0) eqn:E; auto; apply Rleb_true in E; lra).
      erewrite bbind_ok by (apply calc_ok; exact Eg).
      destruct (surface_kept limit (RoundPlate (D / 2)) (Refractive 1 n) None None vzero id3 sc R Logic.I Logic.I eq_refl eq_refl) as (sc' & E & _). bstep. exists sc'. reflexivity. }
    unfold front_face. destruct r1; auto. rewrite P. auto. }
  destruct E as (sc' & E). unfold bbind at 1. rewrite E. reflexivity.
Qed.

Lemma plano_top limit D depth r1 r2 n tr t sc : reached limit sc -> (0 < limit)%nat ->
  usable_opt (sc_w sc) (w_size (sc_w sc)) tr -> given (sc_w sc) tr t -> 0 < D -> planar_radius r2 ->
  r1 <> 0 -> D * D / 4 <= r1 * r1 -> n <> 0 -> n <> 1 ->
  exists f pf pb walls, makes_lens limit D depth (Some (Fin r1)) r2 n tr t sc f (pf :: pb :: walls) /\
    f * ((n - 1) / r1) = 1 /\
    face_of n (cap D r1 (depth + depth / n)) (V3 0 0 (depth + depth / n - r1)) pf /\ flat_face_of n (disc D 0) pb /\
    closed_by n D (cap D r1 (depth + depth / n)) (disc D 0) walls.
Proof.
  intros R Ll U G HD P N1 H1 Nn Np. apply planar_iff in P.
  set (f := 1 / ((n - 1) / r1)). set (v := f * depth * (n - 1) / n / r1).
  assert (Q : (n - 1) / r1 <> 0).
  { intros H. apply (f_equal (fun x => x * r1)) in H. unfold Rdiv in H. rewrite Rmult_assoc, Rinv_l, Rmult_0_l in H; auto. lra. }
  assert (Ev : v = depth / n) by (unfold v, f; field; repeat split; auto; lra).
  unfold makes_lens, spherical_lens.
  destruct (curved_kept limit D r1 n sc R H1 N1) as (sc1 & E1 & K1 & P1 & Z1).
  assert (Ef : front_face limit D (Some (Fin r1)) n sc = (sc1, Ok (w_size (sc_w sc), (r1, cut_of D r1)))).
  { unfold front_face. cbn [is_planar]. destruct (Reqb r1 0) eqn:E; auto. apply Reqb_true in E. lra. }
  bstep. cbv beta iota. pose proof (kp_reached _ _ _ K1) as R1.
  pose proof (fresh_sole _ _ _ R K1 Z1) as So1.
  assert (Eg : new_round_plate (D / 2) = Ok (RoundPlate (D / 2))) by (unfold new_round_plate; destruct (Rleb (D / 2) 0) eqn:E; auto; apply Rleb_true in E; lra).
  destruct (literal_kept limit (A33 flip_side) sc1 R1) as (sc2 & E2 & K2 & V2 & N2 & Z2). pose proof (kp_reached _ _ _ K2) as R2.
  destruct (surface_kept limit (RoundPlate (D / 2)) (Refractive 1 n) None (Some (Whole (w_next (sc_w sc1)))) vzero flip_side sc2 R2 Logic.I) as (sc3 & E3 & K3 & P3 & Z3).
  { exists (w_next (sc_w sc1)). split; auto. lia. }
  { reflexivity. }
  { cbn. auto. }
  pose proof (kp_reached _ _ _ K3) as R3. set (front := w_size (sc_w sc)) in *. set (back := w_size (sc_w sc2)) in *.
  assert (Eb : back_face limit D r2 n sc1 = (sc3, Ok (back, None))).
  { assert (F : flat_back limit D n sc1 = (sc3, Ok (back, None))).
    { unfold flat_back. erewrite bbind_ok by (apply calc_ok; exact Eg). bstep. bstep. reflexivity. }
    unfold back_face. destruct r2; auto. rewrite P. auto. }
  bstep. cbv beta iota. cbn [option_map].
  assert (Eo : optical_power depth r1 None n = Ok ((n - 1) / r1)).
  { unfold optical_power. destruct (Reqb n 0) eqn:E; [apply Reqb_true in E; lra|]. f_equal. field. auto. }
  erewrite bbind_ok by (apply calc_ok; exact Eo).
  assert (Ei : (if Reqb ((n - 1) / r1) 0 then Err ZeroDivisionError else Ok (1 / ((n - 1) / r1))) = Ok f).
  { destruct (Reqb _ 0) eqn:E; auto. apply Reqb_true in E. lra. }
  erewrite bbind_ok by (apply calc_ok; exact Ei). cbv zeta. change (f * depth * (n - 1) / n / r1) with v.
  erewrite bbind_ok by reflexivity.
  pose proof (kept_trans _ _ _ _ K2 K3) as K23.
  pose proof (kept_part _ _ _ _ _ R1 K23 P1) as P1'. pose proof (kept_sole _ _ _ _ R1 K23 (part_exists _ _ _ P1) So1) as So1'.
  destruct (rest_ok limit sc sc3 D depth r1 n tr t front back f v 0
    (mkPart (RoundPlate (D / 2)) (Refractive 1 n) (mk4 flip_side vzero)) (cap_geom D r1) R (kept_trans _ _ _ _ K1 K23) Ll U G)
    as (sc5 & l & ss & walls & E5 & R5 & Un & Ne & Ns & Nd & Es & Ob & Ff & Wl); auto.
  { unfold front, back. lia. }
  { unfold front, back. lia. }
  replace (0 / 2) with 0 in E5 by field. replace (- 0) with 0 in E5 by ring.
  exists f. eexists. eexists. exists walls. split; [exists sc5, l, ss; split; [exact E5|repeat (split; [eassumption|]); eassumption]|].
  split; [unfold f; field; split; auto; lra|].
  replace (depth + depth / n) with (v + depth) by (rewrite Ev; ring). split; [|split].
  - apply cap_face; auto.
  - apply plate_face; auto.
  - eexists. exists 0. split; [|split; [apply disc_edge|exact Wl]]. apply cap_edge; auto.
Qed.
