(** Concrete cases of the geometry claims, and counterexamples. *)
From Coq Require Import Reals List Arith Bool Lra Lia Psatz.
From Verif.Base Require Import Py Num Vec.
From Verif.Model Require Import RayBundle Boundary Geometry.
From Verif.Spec Require Import GeometrySpec GeomIface.
From Verif.Proof Require Import ListLemmas NumLemmas VecLemmas FlatProof QuadProof GeomProof ShapeProof SelectProof GeomTop.
Import ListNotations.
Local Open Scope R_scope.

Definition rays (vs ds : list vec) : bundle := mkB (Some vs) (Some ds) None None None [].

Lemma rays_has vs ds : length vs = length ds -> has_rays (rays vs ds) vs ds.
Proof. intros; repeat split; auto. Qed.

Lemma least_unique P x y : least P x -> least P y -> x = y.
Proof.
  destruct x as [a| | |], y as [b| | |]; simpl; try tauto.
  - intros (Pa & La) (Pb & Lb). f_equal. apply Rle_antisym; auto.
  - intros (Pa & _) N. exfalso; eapply N; eauto.
  - intros N (Pb & _). exfalso; eapply N; eauto.
Qed.

Lemma tenm10_val : tenm 10 = / 10000000000.
Proof. unfold tenm. f_equal. simpl. ring. Qed.
Lemma tenm10_small : tenm 10 < / 2.
Proof. rewrite tenm10_val. lra. Qed.

(** A quarter turn about X followed by a translation. *)
Definition turn_x : mat3 := M3 (V3 1 0 0) (V3 0 0 (-1)) (V3 0 1 0).
Definition frame1 : mat4 := mk4 turn_x (V3 1 2 3).

Lemma turn_x_ok : orthonormal turn_x.
Proof. unfold orthonormal, turn_x. vunfold. veq; ring. Qed.
Lemma frame1_rigid : rigid frame1.
Proof. exists turn_x, (V3 1 2 3). split; auto. apply turn_x_ok. Qed.
Lemma id_ok : orthonormal id3.
Proof. unfold orthonormal. vunfold. veq; ring. Qed.
Definition frame0 : mat4 := mk4 id3 vzero.
Lemma frame0_rigid : rigid frame0.
Proof. exists id3, vzero. split; auto. apply id_ok. Qed.

(** Deciding [first_hit0] on a flat shape met at [t]. *)
Lemma flat_case frame (s : shape) v d t : rigid frame -> (forall q, s q -> vz q = 0) ->
  0 <= t -> dot d (z_of frame) <> 0 -> placed frame s (ray_at v d t) -> first_hit0 (placed frame s) v d (Fin t).
Proof.
  intros (r & c & -> & O) Hz Ht Hd Hp. split; auto. intros u (Hu & Hpu).
  rewrite placed_loc in Hp, Hpu by auto. apply Hz in Hp, Hpu.
  rewrite loc_pt_z in Hp, Hpu. rewrite z_of_mk4 in Hd. rewrite dot_comm in Hd.
  assert (E : forall w, dot (col3 r) (vsub (ray_at v d w) c) = dot (col3 r) (vsub v c) + w * dot (col3 r) d).
  { intros w. unfold ray_at. generalize (col3 r). intros [? ? ?]. destruct v, d, c. vunfold. ring. }
  rewrite E in Hp, Hpu. right. nra.
Qed.

(** ** Near-parallel rays *)
Definition m0 : R := / 2000000.
Definition dx0 : R := 2 * m0 / (1 + m0 * m0).
Definition dz0 : R := (1 - m0 * m0) / (1 + m0 * m0).
Definition grazing : vec := V3 dx0 0 dz0.

Lemma grazing_unit : norm2 grazing = 1.
Proof. unfold grazing, dx0, dz0, m0. vunfold. field. Qed.

Lemma dx0_range : 0 < dx0 /\ dx0 * dx0 <= tenm 10.
Proof.
  rewrite tenm10_val. unfold dx0, m0. split.
  - lra.
  - lra.
Qed.
Lemma dz0_pos : 0 < dz0.
Proof. unfold dz0, m0. lra. Qed.

Lemma loc0 p : loc_pt id3 vzero p = p.
Proof. unfold loc_pt, vzero. destruct p. vunfold. veq; ring. Qed.
Lemma placed0 s p : placed frame0 s p <-> s p.
Proof. unfold frame0. rewrite placed_loc by apply id_ok. rewrite loc0. tauto. Qed.

Lemma to_local0 f v d : to_local frame0 (rinv id3 vzero) f v d = f v d.
Proof.
  unfold frame0. rewrite to_local_rigid, loc0. f_equal. destruct d. vunfold. veq; ring.
Qed.

Lemma cylinder_grazing b : has_rays b [V3 (1/2) 0 0] [grazing] ->
  exists st, find_intersections (new_cylinder 2) frame0 b = Ok (st, [Fin (3 / 4 / dx0)]).
Proof.
  intros Hb. eexists. rewrite (find_regular (new_cylinder 2) frame0 (rinv id3 vzero) b _ _ eq_refl
     (rinv_for _ _ _ id_ok) Hb). cbn [map2]. do 3 f_equal.
  unfold param_of. cbn [is_quad new_cylinder ok_of abc_of]. rewrite to_local0.
  destruct dx0_range as (P & Q). 
  assert (E : abc_cylinder (2 / 2) (V3 (1 / 2) 0 0) grazing = (dx0 * dx0, dx0, - (3 / 4))).
  { unfold abc_cylinder, grazing. cbn [vx vy vz]. f_equal; [f_equal|]; field. }
  rewrite E. unfold quad_param.
  assert (Rt : roots (dx0 * dx0, dx0, - (3 / 4)) = (Fin (3 / 4 / dx0), Fin (3 / 4 / dx0))).
  { unfold roots, fdiv. destruct (Rleb_spec (dx0 * dx0) (tenm 10)); [|lra].
    destruct (Reqb_spec dx0 0); [lra|]. do 2 f_equal; field; lra. }
  rewrite Rt. unfold has_roots. destruct (Rleb_spec 0 (dx0 * dx0 - 4 * (dx0 * dx0) * - (3 / 4))); [|nra].
  unfold valid2. cbn [fst snd andb nlt]. destruct (Rltb_spec 0 (3 / 4 / dx0)) as [_|N]; [reflexivity|].
  exfalso. assert (0 < 3 / 4 / dx0) by (apply Rdiv_lt_0_compat; lra). lra.
Qed.

Lemma cylinder_grazing_wrong : ~ first_hit (placed frame0 (round_wall 2)) (V3 (1/2) 0 0) grazing (Fin (3 / 4 / dx0)).
Proof.
  intros ((_ & H) & _). apply (proj1 (placed0 _ _)) in H. unfold round_wall, ray_at, grazing in H.
  cbn [vadd vscale vx vy vz] in H. destruct dx0_range as (P & _).
  replace (3 / 4 / dx0 * dx0) with (3 / 4) in H by (field; lra). rewrite Rmult_0_r in H. lra.
Qed.

Lemma bowl_grazing b : has_rays b [V3 0 0 1] [grazing] -> forall gm, new_parab 1 1 = Ok gm ->
  exists st, find_intersections gm frame0 b = Ok (st, [PInf]).
Proof.
  intros Hb gm G. apply new_parab_ok in G as (_ & _ & ->).
  eexists. rewrite (find_regular (Parab (1/(1*1)) (1/(1*1))) frame0 (rinv id3 vzero) b _ _ eq_refl
     (rinv_for _ _ _ id_ok) Hb). cbn [map2]. do 3 f_equal.
  unfold param_of. cbn [is_quad ok_of abc_of]. rewrite to_local0.
  destruct dx0_range as (P & Q). pose proof dz0_pos as Z.
  assert (E : abc_parab (1/(1*1)) (1/(1*1)) (V3 0 0 1) grazing = (dx0 * dx0, - dz0, - 1)).
  { unfold abc_parab, grazing. cbn [vx vy vz]. f_equal; [f_equal|]; field. }
  rewrite E. unfold quad_param.
  assert (Rt : roots (dx0 * dx0, - dz0, - 1) = (Fin (- / dz0), Fin (- / dz0))).
  { unfold roots, fdiv. destruct (Rleb_spec (dx0 * dx0) (tenm 10)); [|lra].
    destruct (Reqb_spec (- dz0) 0); [lra|]. do 2 f_equal; field; lra. }
  rewrite Rt. unfold has_roots. destruct (Rleb_spec 0 (- dz0 * - dz0 - 4 * (dx0 * dx0) * - 1)); [|nra].
  unfold valid2. cbn [fst snd andb nlt]. destruct (Rltb_spec 0 (- / dz0)) as [N|_]; [|reflexivity].
  exfalso. pose proof (Rinv_0_lt_compat _ Z). lra.
Qed.

Lemma bowl_grazing_wrong : ~ first_hit (placed frame0 (elliptic_bowl 1 1)) (V3 0 0 1) grazing PInf.
Proof.
  intros H. cbn [first_hit least] in H.
  destruct dx0_range as (P & _). pose proof dz0_pos as Z.
  set (D := dz0 * dz0 + 4 * (dx0 * dx0)).
  assert (HD : 0 <= D) by (unfold D; nra).
  pose proof (sqrt_sqrt D HD) as S. pose proof (sqrt_pos D) as S0. set (s := sqrt D) in *.
  set (u := (dz0 + s) / (2 * (dx0 * dx0))).
  assert (A : 0 < dx0 * dx0) by nra.
  apply (H u). split.
  - apply Rdiv_lt_0_compat; lra.
  - apply placed0. unfold elliptic_bowl, ray_at, grazing. cbn [vadd vscale vx vy vz].
    assert (dx0 * dx0 * (u * u) - dz0 * u - 1 = 0); [|lra].
    assert (E : 4 * (dx0 * dx0) * (dx0 * dx0 * (u * u) - dz0 * u - 1) = s * s - D).
    { unfold u, D. field. lra. }
    rewrite S in E. nra.
Qed.

(** ** Several rays on a hemisphere *)
Definition ray_a : vec * vec := (V3 0 0 2, V3 0 0 (-1)).
Definition ray_b : vec * vec := (V3 0 0 (-2), V3 0 0 1).
Definition ray_c : vec * vec := (V3 0 0 0, V3 0 0 (-1)).

Lemma roots_13 : roots (1, -4, 3) = (Fin 1, Fin 3) /\ has_roots (1, -4, 3) = true.
Proof.
  unfold roots, has_roots. pose proof tenm10_small.
  replace (-4 * -4 - 4 * 1 * 3) with (2 * 2) by ring. rewrite sqrt_square by lra.
  destruct (Rleb_spec 1 (tenm 10)); [lra|]. split; [f_equal; f_equal; field|].
  apply Rleb_true. lra.
Qed.
Lemma roots_pm1 : roots (1, 0, -1) = (Fin (-1), Fin 1) /\ has_roots (1, 0, -1) = true.
Proof.
  unfold roots, has_roots. pose proof tenm10_small.
  replace (0 * 0 - 4 * 1 * -1) with (2 * 2) by ring. rewrite sqrt_square by lra.
  destruct (Rleb_spec 1 (tenm 10)); [lra|]. split; [f_equal; f_equal; field|].
  apply Rleb_true. lra.
Qed.

Lemma abc_a : abc_sphere frame0 1 (fst ray_a) (snd ray_a) = (1, -4, 3).
Proof. unfold abc_sphere, frame0. rewrite loc_mk4. cbn [fst snd ray_a]. vunfold. cbn [vzero vx vy vz].
  f_equal; [f_equal|]; ring. Qed.
Lemma abc_b : abc_sphere frame0 1 (fst ray_b) (snd ray_b) = (1, -4, 3).
Proof. unfold abc_sphere, frame0. rewrite loc_mk4. cbn [fst snd ray_b]. vunfold. cbn [vzero vx vy vz].
  f_equal; [f_equal|]; ring. Qed.
Lemma abc_c : abc_sphere frame0 1 (fst ray_c) (snd ray_c) = (1, 0, -1).
Proof. unfold abc_sphere, frame0. rewrite loc_mk4. cbn [fst snd ray_c]. vunfold. cbn [vzero vx vy vz].
  f_equal; [f_equal|]; ring. Qed.

Lemma below_z0 p : nle (ndot4 (q2 (rinv id3 vzero)) (nfin p)) (Fin 0) = Rleb (vz p) 0.
Proof.
  destruct (ndot4_rinv id3 vzero p) as (_ & _ & ->). rewrite loc0. reflexivity.
Qed.

(** [x] then [b]: the second root of [x] and the first of [b] are valid. *)
Lemma hemi_pair (x : vec * vec) abc h0 h1 p0 p1 b :
  abc_sphere frame0 1 (fst x) (snd x) = abc -> roots abc = (Fin h0, Fin h1) -> has_roots abc = true ->
  ray_at (fst x) (snd x) h0 = p0 -> ray_at (fst x) (snd x) h1 = p1 ->
  0 < vz p0 -> vz p1 <= 0 -> 0 < h1 ->
  has_rays b [fst x; fst ray_b] [snd x; snd ray_b] ->
  exists st, find_intersections (Hemisphere 1) frame0 b = Ok (st, [Fin h0; Fin 3]).
Proof.
  intros Ha Hr Hh H0 H1 Z0 Z1 P1 (Ev & Ed & L).
  unfold find_intersections, get_directions, get_vertices, get_prop. rewrite Ev, Ed. cbn [select bind same_len length Nat.eqb negb].
  enough (exists vv, quad_find (Hemisphere 1) frame0 [fst x; fst ray_b] [snd x; snd ray_b]
            = Ok ([Fin h0; Fin 3], vv)) as (vv & ->) by (cbn [bind]; eauto).
  unfold quad_find. cbn [get_ABC map2 map bind length]. rewrite Ha, abc_b.
  destruct roots_13 as (R1 & R2). rewrite Hh, R2.
  change (count_true [true; true] =? 0)%nat with false. cbv iota. cbn [mask_select map]. rewrite Hr, R1.
  cbn [map3 fst snd]. rewrite !along_fin, H0, H1.
  assert (S : select_coords (Hemisphere 1) frame0
     [(nfin p0, nfin p1); (nfin (ray_at (fst ray_b) (snd ray_b) 1), nfin (ray_at (fst ray_b) (snd ray_b) 3))]
     [(Fin h0, Fin h1); (Fin 1, Fin 3)] = Ok [Some 0%nat; Some 1%nat]).
  { unfold select_coords. rewrite select_default_pick. cbn [bind].
    unfold frame0. rewrite inv4_mk4 by apply id_ok. fold (rinv id3 vzero). cbn [bind].
    unfold and_positive. cbn [map2 fst snd]. rewrite !below_z0.
    unfold positive2. cbn [map fst snd nlt].
    unfold ray_at, ray_b. cbn [fst snd vadd vscale vx vy vz].
    destruct (Rleb_spec (vz p0) 0); [lra|]. destruct (Rleb_spec (vz p1) 0); [|lra].
    destruct (Rltb_spec 0 h1); [|lra]. destruct (Rltb_spec 0 1); [|lra]. destruct (Rltb_spec 0 3); [|lra].
    destruct (Rleb_spec (-2 + 1 * 1) 0); [|lra]. destruct (Rleb_spec (-2 + 3 * 1) 0); [lra|].
    cbn [andb]. destruct (Rltb 0 h0); reflexivity. }
  rewrite S. eexists. reflexivity.
Qed.

(** ** Bounding volumes *)
Lemma says_of bd frame okb :
  (forall ps, in_bounds (transform_frame_b bd frame) ps = Ok (map okb ps)) ->
  (forall p, okb (nfin p) = true <-> placed frame (volume bd) p) -> says_inside bd frame.
Proof.
  intros H K ps. exists (map okb (map nfin ps)). split; [apply H|]. split; [rewrite !map_length; auto|].
  intros i p f Hp Hf. rewrite !nth_error_map, Hp in Hf. cbn in Hf. injection Hf as <-. apply K.
Qed.

Lemma sphere_says c rad frame : rigid frame -> says_inside (BSphere c rad) frame.
Proof.
  intros (r & t & -> & O). apply (says_of _ _ (in_sphere (app4 (mk4 r t) c) rad)); [reflexivity|].
  intros p. apply ball_placed; auto.
Qed.

Lemma plane_says tr frame : rigid tr -> rigid frame -> says_inside (BPlane tr) frame.
Proof.
  intros (r' & t' & -> & O') (r & t & -> & O). destruct (plane_placed r t r' t' O O') as (i & Hi & Hp).
  apply (says_of _ _ (plane_ok i)); [|exact Hp].
  intros ps. unfold transform_frame_b, in_bounds. rewrite Hi. reflexivity.
Qed.

Lemma cylinder_in_bounds_count D loc rot frame ps : length ps <> 3%nat ->
  in_bounds (transform_frame_b (new_bcylinder D loc rot) frame) ps = Err ValueError.
Proof.
  intros H. cbn [new_bcylinder transform_frame_b in_bounds].
  destruct (Nat.eqb_spec (length ps) 3); [contradiction|auto].
Qed.

(** Three points, a cylinder of diameter 2 at (10,0,0): the one on its axis is
    reported outside. *)
Lemma cylinder_in_bounds_wrong : exists flags,
  in_bounds (transform_frame_b (new_bcylinder 2 (V3 10 0 0) id3) frame0)
    (map nfin [V3 10 0 0; V3 10 0 1; V3 10 0 2]) = Ok flags /\
  nth_error flags 0 = Some false /\
  placed frame0 (volume (new_bcylinder 2 (V3 10 0 0) id3)) (V3 10 0 0).
Proof.
  eexists. split; [reflexivity|]. split.
  - unfold frame0. rewrite mm4_mk4. cbn [map nth_error]. f_equal. rewrite !ndot4_fin.
    cbn [nmul nadd nle]. apply Rleb_false. vunfold. unfold vzero. cbn [vx vy vz]. lra.
  - apply placed0. exists vzero. split; unfold solid_cylinder, vzero; vunfold; [lra|]. veq; ring.
Qed.

Lemma bounding_rect_ok tr centre radius rect : rigid tr -> vz centre = 0 ->
  bounding_rect false centre radius tr = Ok rect -> covers_section tr centre radius rect.
Proof.
  intros (r & t & -> & O) Hz. unfold bounding_rect. rewrite inv4_mk4 by auto. cbn [bind].
  rewrite app4_inv. set (c := loc_pt r t centre). rewrite Hz.
  set (e := radius * radius - (0 - vz c) * (0 - vz c)).
  destruct (Rltb_spec e 0) as [|He]; [discriminate|]. intros E. apply Ok_inj in E. subst rect.
  pose proof (sqrt_sqrt e He) as S. pose proof (sqrt_pos e) as P. set (s := sqrt e) in *.
  intros q Hq Hb. unfold ball in Hb.
  assert (Ec : vsub (app4 (mk4 r t) q) centre = mv3 r (vsub q c)).
  { rewrite mv3_vsub. unfold c. rewrite <- loc_pt_back by auto. rewrite app4_mk4.
    generalize (mv3 r q). intros [? ? ?]. destruct centre, t. vunfold. veq; ring. }
  rewrite Ec, orthonormal_norm2 in Hb by auto.
  assert (Hs : (vx q - vx c) * (vx q - vx c) + (vy q - vy c) * (vy q - vy c) <= s * s).
  { rewrite S. unfold e. unfold norm2, dot, vsub in Hb. cbn [vx vy vz] in Hb. rewrite Hq in Hb. lra. }
  assert (Hx : (vx q - vx c) * (vx q - vx c) <= s * s) by (pose proof (Rle_0_sqr (vy q - vy c)) as K; unfold Rsqr in K; lra).
  assert (Hy : (vy q - vy c) * (vy q - vy c) <= s * s) by (pose proof (Rle_0_sqr (vx q - vx c)) as K; unfold Rsqr in K; lra).
  split; split; nra.
Qed.

(** A sphere of radius 2 about (0,0,1), cut by the plane z = 1. *)
Definition lifted : mat4 := mk4 id3 (V3 0 0 1).
Lemma lifted_rigid : rigid lifted.
Proof. exists id3, (V3 0 0 1). split; auto. apply id_ok. Qed.
Lemma bounding_rect_wrong : exists rect,
  bounding_rect false (V3 0 0 1) 2 lifted = Ok rect /\ ~ covers_section lifted (V3 0 0 1) 2 rect.
Proof.
  unfold bounding_rect, lifted. rewrite inv4_mk4 by apply id_ok. cbn [bind]. rewrite app4_inv.
  assert (Ec : loc_pt id3 (V3 0 0 1) (V3 0 0 1) = vzero).
  { unfold loc_pt, vzero. vunfold. veq; ring. }
  rewrite Ec. unfold vzero at 1 2. cbn [vz].
  destruct (Rltb_spec (2 * 2 - (1 - 0) * (1 - 0)) 0); [lra|].
  eexists. split; [reflexivity|]. intros K. destruct (K (V3 2 0 0)) as ((_ & Hx) & _).
  - reflexivity.
  - unfold ball. rewrite app4_mk4. vunfold. lra.
  - unfold vzero in Hx. cbn [vx vz] in Hx.
    assert (Q : sqrt (2 * 2 - (1 - 0) * (1 - 0)) < 2).
    { apply Rlt_le_trans with (sqrt (2 * 2)); [apply sqrt_lt_1; lra|rewrite sqrt_square; lra]. }
    lra.
Qed.

Lemma bounding_rect_moved centre radius tr i : inv4 tr = Ok i ->
  bounding_rect true centre radius tr = Err ValueError.
Proof. intros H. unfold bounding_rect. rewrite H. reflexivity. Qed.

(** ** Lemmas for [Props.GeometryProps] *)
Lemma regular_of gm : match gm with Hemisphere _ | CutSphere _ (Some _) => False | _ => True end ->
  gm <> Base -> regular gm = true.
Proof. destruct gm; simpl; auto; try contradiction; try congruence. destruct bound; auto; contradiction. Qed.

Lemma proper_params gm frame b st ps :
  match gm with Hemisphere _ | CutSphere _ (Some _) => False | _ => True end ->
  find_intersections gm frame b = Ok (st, ps) -> Forall proper_param ps.
Proof.
  intros H E. eapply find_proper; eauto. apply regular_of; auto. intros ->. discriminate.
Qed.

Lemma independent_params gm frame b vs ds st ps i v d b1 :
  match gm with Hemisphere _ | CutSphere _ (Some _) => False | _ => True end ->
  has_rays b vs ds -> find_intersections gm frame b = Ok (st, ps) ->
  nth_error vs i = Some v -> nth_error ds i = Some d -> has_rays b1 [v] [d] ->
  exists st1 x, nth_error ps i = Some x /\ find_intersections gm frame b1 = Ok (st1, [x]).
Proof.
  intros H Hb E. eapply independent; eauto. apply regular_of; auto. intros ->. discriminate.
Qed.

Lemma new_hemi1 : new_hemisphere 1 = Ok (Hemisphere 1).
Proof. unfold new_hemisphere, check_radius. destruct (Rleb_spec 1 0); [lra|reflexivity]. Qed.

Lemma hemisphere_negative : exists gm frame b st ps,
  new_hemisphere 1 = Ok gm /\ rigid frame /\
  find_intersections gm frame b = Ok (st, ps) /\ ~ Forall proper_param ps.
Proof.
  destruct roots_pm1 as (R1 & R2).
  destruct (hemi_pair ray_c (1, 0, -1) (-1) 1 (V3 0 0 1) (V3 0 0 (-1))
    (rays [fst ray_c; fst ray_b] [snd ray_c; snd ray_b])) as (st & H);
    auto using abc_c; try (cbn [vz]; lra); try (apply rays_has; reflexivity);
    try (unfold ray_at, ray_c; cbn [fst snd vadd vscale vx vy vz]; veq; ring).
  exists (Hemisphere 1), frame0. eexists; eexists; eexists. split; [apply new_hemi1|].
  split; [apply frame0_rigid|]. split; [exact H|]. intros F. inversion F as [|? ? P]. simpl in P. lra.
Qed.

Lemma hemisphere_swaps : exists gm frame va da vb db sta stb st,
  new_hemisphere 1 = Ok gm /\ rigid frame /\
  find_intersections gm frame (rays [va] [da]) = Ok (sta, [Fin 3]) /\
  find_intersections gm frame (rays [vb] [db]) = Ok (stb, [Fin 1]) /\
  find_intersections gm frame (rays [va; vb] [da; db]) = Ok (st, [Fin 1; Fin 3]).
Proof.
  destruct roots_13 as (R1 & R2).
  destruct (hemi_pair ray_a (1, -4, 3) 1 3 (V3 0 0 1) (V3 0 0 (-1))
    (rays [fst ray_a; fst ray_b] [snd ray_a; snd ray_b])) as (st & H);
    auto using abc_a; try (cbn [vz]; lra); try (apply rays_has; reflexivity);
    try (unfold ray_at, ray_a; cbn [fst snd vadd vscale vx vy vz]; veq; ring).
  assert (T : tenm 10 < norm2 (snd ray_a) /\ tenm 10 < norm2 (snd ray_b)).
  { pose proof tenm10_small. unfold ray_a, ray_b. cbn [snd]. vunfold. lra. }
  destruct (hemisphere_finds 1 _ frame0 new_hemi1 frame0_rigid (rays [fst ray_a] [snd ray_a]) _ _
     (rays_has [fst ray_a] [snd ray_a] eq_refl)) as (sa & xa & Ha & Pa).
  destruct (hemisphere_finds 1 _ frame0 new_hemi1 frame0_rigid (rays [fst ray_b] [snd ray_b]) _ _
     (rays_has [fst ray_b] [snd ray_b] eq_refl)) as (sb & xb & Hb & Pb).
  specialize (Pa (proj1 T)). specialize (Pb (proj2 T)).
  assert (Xa : xa = Fin 3).
  { eapply least_unique; [exact Pa|]. unfold ray_at, ray_a. cbn [fst snd vadd vscale vx vy vz]. split.
    - split; [lra|]. apply placed0. split; [unfold ball_surface|]; vunfold; lra.
    - intros u (Hu & K). apply (proj1 (placed0 _ _)) in K. destruct K as (K1 & K2).
      unfold ball_surface in K1. vunfold. nra. }
  assert (Xb : xb = Fin 1).
  { eapply least_unique; [exact Pb|]. unfold ray_at, ray_b. cbn [fst snd vadd vscale vx vy vz]. split.
    - split; [lra|]. apply placed0. split; [unfold ball_surface|]; vunfold; lra.
    - intros u (Hu & K). apply (proj1 (placed0 _ _)) in K. destruct K as (K1 & K2).
      unfold ball_surface in K1. vunfold. nra. }
  subst xa xb.
  exists (Hemisphere 1), frame0, (fst ray_a), (snd ray_a), (fst ray_b), (snd ray_b), sa, sb, st.
  split; [apply new_hemi1|]. split; [apply frame0_rigid|]. auto.
Qed.

Lemma plane_once frame v d t u : rigid frame -> inclined frame d ->
  placed frame xy_plane (ray_at v d t) -> placed frame xy_plane (ray_at v d u) -> t = u.
Proof.
  intros (r & c & -> & O). rewrite inclined_mk4, !placed_loc by auto. intros Hd.
  unfold xy_plane. rewrite !loc_pt_ray. unfold ray_at, vadd, vscale. cbn [vz].
  intros H1 H2.
  assert (N : vz (mv3 (tr3 r) d) <> 0).
  { intros E. assert (dot d (col3 r) = 0) as Z.
    { rewrite <- E. destruct r as [[? ? ?] [? ? ?] [? ? ?]], d. vunfold. ring. }
    rewrite Z, Rabs_R0 in Hd. pose proof (tenm_pos 10). lra. }
  nra.
Qed.

Lemma rect_rejected width height :
  new_rect_plate width height = Err ValueError <-> width <= 0 \/ height <= 0.
Proof.
  unfold new_rect_plate. destruct (Rleb_spec width 0); [tauto|]. destruct (Rleb_spec height 0); [tauto|].
  split; [discriminate|lra].
Qed.
Lemma rect_accepted width height :
  (exists gm, new_rect_plate width height = Ok gm) <-> 0 < width /\ 0 < height.
Proof.
  split.
  - intros (gm & H). apply new_rect_ok in H. tauto.
  - unfold new_rect_plate. destruct (Rleb_spec width 0); [lra|]. destruct (Rleb_spec height 0); [lra|]. eauto.
Qed.
Lemma round_rejected radius : new_round_plate radius = Err ValueError <-> radius <= 0.
Proof. unfold new_round_plate. destruct (Rleb_spec radius 0); [tauto|]. split; [discriminate|lra]. Qed.
Lemma sphere_rejected radius : new_sphere radius = Err ValueError <-> radius <= 0.
Proof.
  unfold new_sphere, check_radius. destruct (Rleb_spec radius 0); cbn [bind]; [tauto|]. split; [discriminate|lra].
Qed.
Lemma parab_accepted a b : (exists gm, new_parab a b = Ok gm) <-> a <> 0 /\ b <> 0.
Proof.
  split.
  - intros (gm & H). apply new_parab_ok in H. tauto.
  - intros (Ha & Hb). unfold new_parab. destruct (Reqb_spec (a * a) 0) as [E|]; [exfalso; nra|].
    destruct (Reqb_spec (b * b) 0) as [E|]; [exfalso; nra|]. eauto.
Qed.
Lemma dish_accepted D f : (exists gm, new_dish D f = Ok gm) <-> 0 < f.
Proof.
  split.
  - intros (gm & H). apply new_dish_ok in H. tauto.
  - intros Hf. destruct (par_pos f Hf) as (E & N). unfold new_dish. rewrite E. cbn [bind].
    destruct (Reqb_spec (2 * sqrt f * (2 * sqrt f)) 0); [contradiction|eauto].
Qed.
Lemma hex_accepted D f : (exists gm, new_hex_dish D f = Ok gm) <-> 0 < f.
Proof.
  split.
  - intros (gm & H). apply new_hex_ok in H. tauto.
  - intros Hf. destruct (par_pos f Hf) as (E & N). unfold new_hex_dish. rewrite E. cbn [bind].
    destruct (Reqb_spec (2 * sqrt f * (2 * sqrt f)) 0); [contradiction|eauto].
Qed.

Lemma degenerate_finds v0 k frame : rigid frame ->
  finds (new_triangle v0 (vscale k v0)) frame (flat_answer frame xy_plane).
Proof.
  intros Rf. pose proof Rf as (r & c & E & O). subst frame.
  apply (finds_regular _ _ (rinv r c)); auto using rinv_for.
  intros v d. pose proof (plane_finds _ Rf) as PF.
  assert (Ep : param_of (new_triangle v0 (vscale k v0)) (mk4 r c) (rinv r c) v d
               = param_of Flat (mk4 r c) (rinv r c) v d).
  { assert (Ef : param_of Flat (mk4 r c) (rinv r c) v d = flat_param (mk4 r c) v d).
    { unfold param_of. cbn [is_quad out_of]. apply trimmed_false. }
    rewrite Ef. destruct (flat_param (mk4 r c) v d) eqn:F.
    - apply degenerate_triangle; auto.
    - unfold param_of, new_triangle. cbn [is_quad]. rewrite F. apply trimmed_no_hit.
    - pose proof (flat_param_proper (mk4 r c) v d) as K. rewrite F in K. contradiction.
    - pose proof (flat_param_proper (mk4 r c) v d) as K. rewrite F in K. contradiction. }
  rewrite Ep.
  destruct (PF (rays [v] [d]) [v] [d] (rays_has [v] [d] eq_refl)) as (st & ps & Hf & _ & K).
  rewrite (find_regular Flat (mk4 r c) (rinv r c) _ _ _ eq_refl (rinv_for _ _ _ O) (rays_has [v] [d] eq_refl)) in Hf.
  injection Hf as _ <-. apply (K 0%nat); reflexivity.
Qed.

(** Deciding [first_hit] when the first two crossings are known. *)
Lemma sphere_case : (exists gm, new_sphere 2 = Ok gm) /\
  first_hit (placed frame1 (ball_surface 2)) (V3 1 10 3) (V3 0 (-1) 0) (Fin 6).
Proof.
  split.
  - unfold new_sphere, check_radius. destruct (Rleb_spec 2 0); [lra|]. cbn [bind]. eauto.
  - split.
    + split; [lra|]. exists (V3 0 0 (-2)). split; [unfold ball_surface; vunfold; lra|].
      unfold frame1, turn_x, ray_at. vunfold. veq; ring.
    + intros u (Hu & q & Hq & E). unfold frame1, turn_x, ray_at in E. vunfold.
      injection E as E1 E2 E3. unfold ball_surface in Hq. vunfold. nra.
Qed.

Lemma hemisphere_case : (exists gm, new_hemisphere 2 = Ok gm) /\
  first_hit (placed frame1 (lower_half (ball_surface 2))) (V3 1 (-10) 3) (V3 0 1 0) (Fin 14).
Proof.
  split.
  - unfold new_hemisphere, check_radius. destruct (Rleb_spec 2 0); [lra|]. cbn [bind]. eauto.
  - split.
    + split; [lra|]. exists (V3 0 0 (-2)). split; [split; [unfold ball_surface; vunfold; lra|cbn; lra]|].
      unfold frame1, turn_x, ray_at. vunfold. veq; ring.
    + intros u (Hu & q & (Hq & Hz) & E). unfold frame1, turn_x, ray_at in E. vunfold.
      injection E as E1 E2 E3. unfold ball_surface in Hq. vunfold. nra.
Qed.

Lemma cut_case : sphere_or_plane (BPlane frame0) /\
  first_hit (placed frame0 (fun q => ball_surface 2 q /\ volume (BPlane frame0) q))
    (V3 0 0 (-10)) (V3 0 0 1) (Fin 12).
Proof.
  split; [exact frame0_rigid|]. unfold ray_at. split.
  - split; [lra|]. apply placed0. cbn [volume]. split; [|apply placed0];
      unfold ball_surface, upper_space, ray_at; vunfold; lra.
  - intros u (Hu & K). apply (proj1 (placed0 _ _)) in K. destruct K as (K1 & K2). cbn [volume] in K2.
    apply (proj1 (placed0 _ _)) in K2. unfold ball_surface, upper_space, ray_at in *. vunfold. nra.
Qed.

Lemma cut_by_cylinder radius D loc rot gm frame b v d :
  new_cut_sphere radius (Some (new_bcylinder D loc rot)) = Ok gm ->
  rigid frame -> tenm 10 < norm2 d -> has_rays b [v] [d] ->
  (exists t, placed frame (ball_surface radius) (ray_at v d t)) ->
  find_intersections gm frame b = Err ValueError.
Proof.
  intros G (r & c & -> & O) Hd (Ev & Ed & _) (t & Ht). apply new_cut_ok in G as (_ & ->).
  unfold find_intersections, get_directions, get_vertices, get_prop. rewrite Ev, Ed.
  cbn [select bind same_len length Nat.eqb negb].
  enough (quad_find (CutSphere radius (Some (new_bcylinder D loc rot))) (mk4 r c) [v] [d] = Err ValueError)
    as -> by reflexivity.
  unfold quad_find. cbn [get_ABC map2 map bind length].
  assert (Hr : has_roots (abc_sphere (mk4 r c) radius v d) = true).
  { destruct (has_roots (abc_sphere (mk4 r c) radius v d)) eqn:E; auto. exfalso.
    unfold abc_sphere in E. eapply has_roots_false in E. apply E. clear E.
    pose proof (sphere_roots r c radius v d t O) as S. unfold abc_sphere in S. apply S. exact Ht. }
  rewrite Hr. change (count_true [true] =? 0)%nat with false. cbv iota. cbn [mask_select map].
  set (h := roots _). cbn [map3]. unfold select_coords. rewrite select_default_pick. cbn [bind].
  reflexivity.
Qed.

Lemma cylinder_wrong : exists diameter frame b v d st x,
  0 < diameter /\ rigid frame /\ has_rays b [v] [d] /\ norm2 d = 1 /\
  find_intersections (new_cylinder diameter) frame b = Ok (st, [x]) /\
  ~ first_hit (placed frame (round_wall diameter)) v d x.
Proof.
  pose proof (rays_has [V3 (1/2) 0 0] [grazing] eq_refl) as Hb.
  destruct (cylinder_grazing _ Hb) as (st & H).
  exists 2, frame0. do 5 eexists. split; [lra|]. split; [apply frame0_rigid|].
  split; [exact Hb|]. split; [apply grazing_unit|]. split; [exact H|apply cylinder_grazing_wrong].
Qed.

Lemma bowl_wrong : exists a b gm frame bn v d st x,
  new_parab a b = Ok gm /\ rigid frame /\ has_rays bn [v] [d] /\ norm2 d = 1 /\
  find_intersections gm frame bn = Ok (st, [x]) /\
  ~ first_hit (placed frame (elliptic_bowl a b)) v d x.
Proof.
  pose proof (rays_has [V3 0 0 1] [grazing] eq_refl) as Hb.
  assert (exists gm, new_parab 1 1 = Ok gm) as (gm & G) by (apply parab_accepted; lra).
  destruct (bowl_grazing _ Hb gm G) as (st & H).
  exists 1, 1, gm, frame0. do 5 eexists. split; [exact G|]. split; [apply frame0_rigid|].
  split; [exact Hb|]. split; [apply grazing_unit|]. split; [exact H|apply bowl_grazing_wrong].
Qed.

Lemma cylinder_case : cylinder_safe frame0 2 (V3 (-3) 0 0) (V3 1 0 0) /\
  first_hit (placed frame0 (round_wall 2)) (V3 (-3) 0 0) (V3 1 0 0) (Fin 2).
Proof.
  split.
  - exists (V3 1 0 0), (V3 (-3) 0 0). unfold frame0, vzero. split; [|split].
    + vunfold. veq; ring.
    + vunfold. veq; ring.
    + left. cbn [vx vy]. pose proof tenm10_small. lra.
  - split.
    + split; [lra|]. apply placed0. unfold round_wall, ray_at. vunfold. lra.
    + intros u (Hu & K). apply (proj1 (placed0 _ _)) in K. unfold round_wall, ray_at in K. vunfold. nra.
Qed.

Lemma finite_cylinder_case :
  first_hit (placed frame0 (round_wall_of_height 2 2)) (V3 (-3) 0 1) (V3 1 0 0) (Fin 2) /\
  first_hit (placed frame0 (round_wall_of_height 2 2)) (V3 (-3) 0 2) (V3 1 0 0) PInf.
Proof.
  split; [split|].
  - split; [lra|]. apply placed0. unfold round_wall_of_height, round_wall, ray_at. vunfold. lra.
  - intros u (Hu & K). apply (proj1 (placed0 _ _)) in K. destruct K as (K & _).
    unfold round_wall, ray_at in K. vunfold. nra.
  - intros u (Hu & K). apply (proj1 (placed0 _ _)) in K. destruct K as (_ & K).
    unfold ray_at in K. vunfold. lra.
Qed.

Lemma axial_safe a b : bowl_safe frame0 a b (V3 0 0 (-1)).
Proof.
  exists (V3 0 0 (-1)). unfold frame0. split; [vunfold; veq; ring|]. right. cbn [vx vy vz].
  repeat split; lra.
Qed.

Lemma bowl_case : bowl_safe frame0 1 2 (V3 0 0 (-1)) /\
  first_hit (placed frame0 (elliptic_bowl 1 2)) (V3 1 2 5) (V3 0 0 (-1)) (Fin 3).
Proof.
  split; [apply axial_safe|]. split.
  - split; [lra|]. apply placed0. unfold elliptic_bowl, ray_at. vunfold. lra.
  - intros u (Hu & K). apply (proj1 (placed0 _ _)) in K. unfold elliptic_bowl, ray_at in K. vunfold. lra.
Qed.

Lemma dish_case : bowl_safe frame0 (2 * sqrt 1) (2 * sqrt 1) (V3 0 0 (-1)) /\
  first_hit (placed frame0 (round_dish 4 1)) (V3 2 0 5) (V3 0 0 (-1)) (Fin 4) /\
  first_hit (placed frame0 (round_dish 2 1)) (V3 2 0 5) (V3 0 0 (-1)) PInf.
Proof.
  split; [apply axial_safe|]. split; [split|].
  - split; [lra|]. apply placed0. unfold round_dish, focal_bowl, ray_at. vunfold. lra.
  - intros u (Hu & K). apply (proj1 (placed0 _ _)) in K. destruct K as (K & _).
    unfold focal_bowl, ray_at in K. vunfold. lra.
  - intros u (Hu & K). apply (proj1 (placed0 _ _)) in K. destruct K as (_ & K).
    unfold ray_at in K. vunfold. lra.
Qed.

Lemma hex_case :
  first_hit (placed frame0 (hex_dish 4 1)) (V3 0 2 5) (V3 0 0 (-1)) (Fin 4) /\
  first_hit (placed frame0 (hex_dish 4 1)) (V3 2 0 5) (V3 0 0 (-1)) PInf.
Proof.
  pose proof (sqrt_sqrt 3 ltac:(lra)) as S. pose proof (sqrt_lt_R0 3 ltac:(lra)) as P.
  split; [split|].
  - split; [lra|]. apply placed0. unfold hex_dish, focal_bowl, hexagon, ray_at. vunfold.
    split; [lra|]. set (s := sqrt 3) in *. unfold Rabs.
    repeat match goal with |- context [Rcase_abs ?x] => destruct (Rcase_abs x) end; repeat split; nra.
  - intros u (Hu & K). apply (proj1 (placed0 _ _)) in K. destruct K as (K & _).
    unfold focal_bowl, ray_at in K. vunfold. lra.
  - intros u (Hu & K). apply (proj1 (placed0 _ _)) in K. destruct K as (_ & K & _).
    unfold ray_at in K. vunfold. set (s := sqrt 3) in *.
    assert (s < 2) by nra. unfold Rabs in K. destruct (Rcase_abs _); nra.
Qed.

Lemma cylinder_in_bounds_refuted : exists diameter loc frame p0 p1 p2 flags, rigid frame /\
  in_bounds (transform_frame_b (new_bcylinder diameter loc id3) frame) (map nfin [p0; p1; p2]) = Ok flags /\
  nth_error flags 0 = Some false /\ placed frame (volume (new_bcylinder diameter loc id3)) p0.
Proof.
  destruct cylinder_in_bounds_wrong as (flags & H). do 7 eexists. split; [apply frame0_rigid|exact H].
Qed.

Lemma bounding_rect_refuted : exists tr centre radius rect, rigid tr /\ 0 < radius /\
  bounding_rect false centre radius tr = Ok rect /\ ~ covers_section tr centre radius rect.
Proof.
  destruct bounding_rect_wrong as (rect & H). do 4 eexists. split; [apply lifted_rigid|].
  split; [|exact H]. lra.
Qed.

Lemma bounding_rect_moved_rigid centre radius tr : rigid tr ->
  bounding_rect true centre radius tr = Err ValueError.
Proof. intros (r & t & -> & O). eapply bounding_rect_moved. apply inv4_mk4; auto. Qed.

Lemma volume_case : rigid frame1 /\
  placed frame1 (volume (BSphere (V3 0 0 1) 2)) (V3 1 1 5) /\
  placed frame1 (volume (BPlane frame0)) (V3 0 0 0) /\ ~ placed frame1 (volume (BPlane frame0)) (V3 0 3 0).
Proof.
  split; [apply frame1_rigid|]. split; [|split].
  - exists (V3 0 2 1). cbn [volume]. unfold ball, frame1, turn_x. vunfold. split; [lra|veq; ring].
  - exists (V3 (-1) (-3) 2). cbn [volume]. split; [apply placed0; unfold upper_space; cbn; lra|].
    unfold frame1, turn_x. vunfold. veq; ring.
  - intros (q & K & E). cbn [volume] in K. apply (proj1 (placed0 _ _)) in K. unfold upper_space in K.
    unfold frame1, turn_x in E. vunfold. injection E as E1 E2 E3. lra.
Qed.

Lemma rect_case : exists rect, bounding_rect false (V3 3 4 0) 2 frame0 = Ok rect /\
  covers_section frame0 (V3 3 4 0) 2 rect.
Proof.
  assert (exists rect, bounding_rect false (V3 3 4 0) 2 frame0 = Ok rect) as (rect & H).
  { unfold bounding_rect, frame0. rewrite inv4_mk4 by apply id_ok. cbn [bind]. rewrite app4_inv, loc0.
    cbn [vz]. destruct (Rltb_spec (2 * 2 - (0 - 0) * (0 - 0)) 0); [lra|]. eauto. }
  exists rect. split; auto. eapply bounding_rect_ok; eauto using frame0_rigid.
Qed.

Lemma plate_case : exists gm st ps st',
  new_rect_plate 1 2 = Ok gm /\
  find_intersections gm frame1 (rays [V3 1 10 4; V3 7 10 4] [V3 0 (-1) 0; V3 0 (-1) 0]) = Ok (st, ps) /\
  ps = [Fin 8; PInf] /\ all_hit ps [0%nat] /\ select_geom gm st [0%nat] = Ok st'.
Proof.
  assert (exists gm, new_rect_plate 1 2 = Ok gm) as (gm & G) by (apply rect_accepted; lra).
  set (b := rays [V3 1 10 4; V3 7 10 4] [V3 0 (-1) 0; V3 0 (-1) 0]).
  destruct (rect_finds 1 2 gm frame1 G frame1_rigid b _ _ (rays_has [V3 1 10 4; V3 7 10 4] [V3 0 (-1) 0; V3 0 (-1) 0] eq_refl)) as (st & ps & H & L & K).
  assert (I : inclined frame1 (V3 0 (-1) 0)).
  { unfold inclined, frame1, turn_x, z_of. vunfold. pose proof tenm10_small. rewrite Rabs_right; lra. }
  destruct ps as [|x [|y [|? ?]]]; try discriminate L.
  assert (X : x = Fin 8).
  { eapply least_unique; [apply (K 0%nat _ _ x eq_refl eq_refl eq_refl); exact I|].
    apply (flat_case frame1 (rectangle 1 2)); [apply frame1_rigid| |lra| |].
    - intros q Hq. apply Hq.
    - unfold frame1, turn_x, z_of. vunfold. lra.
    - exists (V3 0 1 0). split; [unfold rectangle; cbn [vx vy vz]; lra|].
      unfold frame1, turn_x, ray_at. vunfold. veq; ring. }
  assert (Y : y = PInf).
  { eapply least_unique; [apply (K 1%nat _ _ y eq_refl eq_refl eq_refl); exact I|].
    intros t (_ & q & (_ & Hx & _) & E). unfold frame1, turn_x, ray_at in E. vunfold.
    injection E as E1 E2 E3. lra. }
  subst x y.
  assert (A : all_hit [Fin 8; PInf] [0%nat]) by (intros i [<-|[]]; exists 8; reflexivity).
  destruct (select_total gm frame1 b st _ [0%nat] frame1_rigid H A) as (st' & Hs).
  - apply new_rect_ok in G as (_ & _ & ->). intros i p q g _ _ _ (_ & _ & D).
    assert (vz g = 1).
    { eapply uniqueness_limite; [exact D|]. cbn [implicit vz]. apply derivable_pt_lim_id. }
    intros N. apply norm2_zero in N. subst g. cbn in H0. lra.
  - exists gm, st, [Fin 8; PInf], st'. auto.
Qed.
