(** Plane mirrors make images. *)
From Coq Require Import Reals String List Arith Bool Lra Lia Permutation.
From Verif.Base Require Import Py Num Vec.
From Verif.Model Require Import RayBundle Boundary Geometry TraceTree Sources Optics OpticsCallables Engine Objects Surface.
From Verif.Proof Require Import ListLemmas NumLemmas VecLemmas FlatProof GeomProof GeomTop OpticsProof OpticsTop DishProof IterProof SymmetryProof ProcessProof EngineTop TraceTop LibraryTop LawProof BackProof.
From Verif.Spec Require Import BundleSpec EngineSpec GeometrySpec GeomIface OpticsSpec LibrarySpec LawSpec ImageSpec.
Import ListNotations.
Local Open Scope R_scope.

Lemma rigid_axis s : rigid (s_frame s) -> is_unit (axis s).
Proof.
  intros (r & t & E & O). unfold axis, z_of. rewrite E. replace (rot_of (mk4 r t)) with r.
  - unfold is_unit. rewrite orthonormal_norm2 by auto. vunfold. ring.
  - destruct r as [[] [] []]. reflexivity.
Qed.
Lemma middle_loc s : rigid (s_frame s) -> middle s = loc_of (s_frame s) /\ axis s = zaxis (s_frame s).
Proof.
  intros (r & t & E & O). unfold middle, axis. rewrite E.
  destruct r as [[] [] []], t. split; unfold app4, loc_of, z_of, zaxis, rot_of, mk4, c4_2, c4_3, v4_3; cbn; vunfold; f_equal; ring.
Qed.

(** What is reported of a plane is in the plane. *)
Lemma report_on_plane s inv v d t : plane_mirror s -> rigid (s_frame s) ->
  param_of (s_geom s) (s_frame s) inv v d = Fin t -> on_plane s (ray_at v d t) /\ dot d (axis s) <> 0.
Proof.
  intros (G & _) Rf E. destruct (middle_loc s Rf) as (Em & Ea). unfold on_plane. rewrite Em, Ea.
  assert (F : flat_param (s_frame s) v d = Fin t).
  { unfold param_of in E. destruct (is_quad (s_geom s)) eqn:Q; [destruct (s_geom s); contradiction || discriminate|].
    unfold trimmed in E. destruct (out_of _ _ _ _); [discriminate|exact E]. }
  unfold flat_param in F. destruct (Rltb (tenm 10) (Rabs (dot d (zaxis (s_frame s))))) eqn:Nz; [|discriminate].
  match type of F with (if ?c then _ else _) = _ => destruct c; [discriminate|] end.
  match type of F with Fin ?x = Fin t => assert (Et : x = t) by congruence end. clear F. subst t.
  assert (D : dot d (zaxis (s_frame s)) <> 0).
  { intros Z. rewrite Z, Rabs_R0 in Nz. apply Rltb_true in Nz. pose proof (tenm_pos 10). lra. }
  split; [|exact D]. revert D. generalize (zaxis (s_frame s)) (loc_of (s_frame s)). intros z c D.
  assert (Eu : (- dot z (vsub v c) / dot d z) * dot d z = - dot z (vsub v c)) by (field; exact D).
  revert Eu. generalize (- dot z (vsub v c) / dot d z). intros u Eu.
  assert (G2 : dot (vsub (ray_at v d u) c) z = dot z (vsub v c) + u * dot d z) by (destruct v, d, z, c; unfold ray_at; open_vec; ring).
  rewrite G2, Eu. ring.
Qed.

(** The normal of a plane mirror is its axis, one way or the other. *)
Lemma plane_normal s q g d n : plane_mirror s -> rigid (s_frame s) -> is_gradient (implicit (s_geom s)) q g ->
  good_normal (s_frame s) g d n -> n = axis s \/ n = vopp (axis s).
Proof.
  intros (G & _) Rf Gr (Un & (c & En) & _).
  assert (g = V3 0 0 1).
  { apply (gradient_unique (implicit (s_geom s)) q); auto.
    assert (Ei : implicit (s_geom s) = fun q => vz q) by (destruct (s_geom s); try contradiction; reflexivity). rewrite Ei.
    repeat split; cbn; [apply derivable_pt_lim_const|apply derivable_pt_lim_const|apply derivable_pt_lim_id]. }
  subst g. pose proof (rigid_axis s Rf) as Ua.
  change (mv3 (rot_of (s_frame s)) (V3 0 0 1)) with (axis s) in En. subst n.
  assert (One : axis s = vscale 1 (axis s)) by (destruct (axis s); open_vec; f_equal; ring).
  rewrite One in Ua. destruct (scaled_unit 1 c (axis s) Ua Un) as [E|E]; rewrite E, <- One; auto.
Qed.

Lemma mirrored_formula n d d' : is_unit n -> mirrored n d d' -> d' = vsub d (vscale (2 * dot d n) n).
Proof.
  intros N (A & B). rewrite (mirrored_decomp d' n), B, A. unfold tangential. generalize (dot d n). intros c. destruct d, n. open_vec. f_equal; ring.
Qed.

Lemma mirror_turns s n d e m d' e' m' thr q g : plane_mirror s -> rigid (s_frame s) -> is_gradient (implicit (s_geom s)) q g ->
  good_normal (s_frame s) g d n -> follows thr (s_opt s) (z_of (s_frame s)) n d e m d' e' m' -> d' = image_dir d s.
Proof.
  intros Pm Rf Gr Gn F. assert (M : mirrored n d d').
  { destruct Pm as (_ & Po). destruct (s_opt s) as [[]|? []|]; try contradiction; cbn [follows] in F; tauto. }
  rewrite (mirrored_formula n d d'); [|apply Gn|exact M]. unfold image_dir.
  destruct (plane_normal s q g d n Pm Rf Gr Gn) as [-> | ->]; [reflexivity|].
  generalize (axis s). intros z. destruct d, z. unfold vopp. open_vec. f_equal; ring.
Qed.

(** ** Images move along with what they show *)
Lemma image_ray s p d u : image_point (ray_at p d u) s = ray_at (image_point p s) (image_dir d s) u.
Proof. unfold image_point, image_dir, ray_at. generalize (axis s) (middle s). intros z c. destruct p, d, z, c. open_vec. f_equal; ring. Qed.
Lemma images_ray ss : forall p d u, images (ray_at p d u) ss = ray_at (images p ss) (image_dirs d ss) u.
Proof. induction ss as [|s ss IH]; intros p d u; cbn; [reflexivity|]. unfold images, image_dirs in *. cbn. rewrite image_ray. apply IH. Qed.
Lemma image_on_plane s p : on_plane s p -> image_point p s = p.
Proof. unfold on_plane, image_point. intros ->. generalize (axis s). intros z. destruct p, z. open_vec. f_equal; ring. Qed.
Lemma images_app p s1 s2 : images p (s1 ++ s2) = images (images p s1) s2.
Proof. apply fold_left_app. Qed.
Lemma image_dirs_app d s1 s2 : image_dirs d (s1 ++ s2) = image_dirs (image_dirs d s1) s2.
Proof. apply fold_left_app. Qed.

Lemma images_top : forall objs surfs, library_assembly objs surfs -> (forall s, In s surfs -> plane_mirror s) ->
  forall me g b n, library_source b n -> fair (g_rng g) -> forall reps vs ds st,
  ray_tracer surface_ops objs surfs g b reps me TreeTrue = Ok (vs, ds, st) ->
  forall L lvl k v d, nth_error (t_tree st) L = Some lvl -> vert_at lvl k = Some v -> dir_at lvl k = Some d ->
  exists j v0 d0 ss t, came_by surfs (t_tree st) L k j ss t /\ vert_at b j = Some v0 /\ dir_at b j = Some d0 /\
    length ss = L /\ 0 <= t /\ Forall (fun s => In s surfs) ss /\ v = images (ray_at v0 d0 t) ss /\ d = image_dirs d0 ss.
Proof.
  intros objs surfs La Pm me g b n Ls Fg reps vs ds st E.
  destruct (laws_all objs surfs La me g b n Ls Fg reps vs ds st E) as (ns & Ts & gs & C & _ & _ & S).
  pose proof (ct_source _ _ _ _ _ _ _ _ _ _ _ _ _ C) as E0.
  induction L as [|L IH]; intros lvl k v d Hl Hv Hd.
  - assert (lvl = b) as -> by congruence. exists k, v, d, [], 0. split; [eapply came_from_source; eauto|].
    repeat (split; auto); try lra. cbn. destruct v, d; unfold ray_at; open_vec; f_equal; ring.
  - replace (Datatypes.S L) with (L + 1)%nat in * by lia.
    destruct (nth_lt (t_tree st) L) as (prev & Hp). { assert (L + 1 < length (t_tree st))%nat by (apply nth_error_Some; congruence). lia. }
    destruct (S L prev lvl Hp Hl) as (N & via & thr & (S1 & _) & _).
    destruct (S1 k v Hv) as (s & p & u & Es & M & (v1 & d1 & e1 & q & gr & d' & e' & Hv1 & Hd1 & He1 & Hpar & Hv' & Hd' & He' & Hq & Hg & Hn & F & X)).
    assert (d' = d) by congruence. subst d'. assert (v = ray_at v1 d1 u) by congruence. subst v.
    destruct (ct_level _ _ _ _ _ _ _ _ _ _ _ _ _ C L prev lvl Hp Hl) as (tb & rc & mm & ems & R1 & _).
    pose proof (nth_error_In _ _ Es) as Hin. assert (Rf : rigid (s_frame s)) by (apply (proj1 (proj2 La) s Hin)).
    assert (On : on_plane s (ray_at v1 d1 u) /\ dot d1 (axis s) <> 0).
    { apply (report_on_plane s (inv_of (s_frame s)) v1 d1 u); auto. symmetry.
      apply (reported_param surfs prev (ns L) (Ts L) tb (via k) p s (Fin u) v1 d1 (inv_of (s_frame s)) R1 Es); auto.
      - destruct (Pm s Hin) as (G & _). destruct (s_geom s); try contradiction; reflexivity.
      - apply inv_of_rigid; auto.
      - apply M. }
    destruct On as (On & Nz).
    assert (Ei : d = image_dir d1 s) by exact (mirror_turns s (N (via k) p) d1 e1 _ d e' _ _ q gr (Pm s Hin) Rf Hg Hn F).
    assert (Pu : 0 < u) by (pose proof (meets_first_pos _ _ _ _ _ _ M); pose proof (tenm_pos 10); lra).
    destruct (IH prev p v1 d1 Hp Hv1 Hd1) as (j & v0 & d0 & ss & t & Cb & B1 & B2 & Len & Pt & Fa & Ev & Ed).
    exists j, v0, d0, (ss ++ [s])%list, (t + u). split; [eapply came_from_mirror; eauto; congruence|]. split; auto. split; auto.
    split; [rewrite app_length, Len; reflexivity|]. split; [lra|]. split; [apply Forall_app; auto|]. split.
    + rewrite images_app. replace (ray_at v0 d0 (t + u)) with (ray_at (ray_at v0 d0 t) d0 u) by (destruct v0, d0; unfold ray_at; open_vec; f_equal; ring).
      rewrite images_ray, <- Ev, <- Ed. cbn. symmetry. apply image_on_plane. exact On.
    + rewrite image_dirs_app, <- Ed. cbn. exact Ei.
Qed.

(** ** What images are like *)
Lemma image_dir_dot s d d' : is_unit (axis s) -> dot (image_dir d s) (image_dir d' s) = dot d d'.
Proof.
  unfold is_unit, image_dir. generalize (axis s). intros z U.
  assert (G : dot (vsub d (vscale (2 * dot d z) z)) (vsub d' (vscale (2 * dot d' z) z)) = dot d d' + 4 * (dot d z * dot d' z) * (norm2 z - 1)).
  { destruct d, d', z. open_vec. ring. }
  rewrite G, U. ring.
Qed.
Lemma image_sub s p q : vsub (image_point p s) (image_point q s) = image_dir (vsub p q) s.
Proof. unfold image_point, image_dir. generalize (axis s) (middle s). intros z c. destruct p, q, z, c. open_vec. f_equal; ring. Qed.

(** Images keep lengths and angles. *)
Lemma images_rigid : forall ss, (forall s, In s ss -> rigid (s_frame s)) -> forall p q d d',
  norm2 (vsub (images p ss) (images q ss)) = norm2 (vsub p q) /\ dot (image_dirs d ss) (image_dirs d' ss) = dot d d'.
Proof.
  induction ss as [|s ss IH]; intros Rf p q d d'; [split; reflexivity|]. unfold images, image_dirs in *. cbn [fold_left].
  destruct (IH (fun s H => Rf s (or_intror H)) (image_point p s) (image_point q s) (image_dir d s) (image_dir d' s)) as (A & B).
  pose proof (rigid_axis s (Rf s (or_introl eq_refl))) as U. rewrite A, B, image_sub, (image_dir_dot s d d' U). split; auto.
  change (norm2 (image_dir (vsub p q) s)) with (dot (image_dir (vsub p q) s) (image_dir (vsub p q) s)). apply image_dir_dot; auto.
Qed.

Lemma twice_cross y a b : vadd (vscale (dot y (cross a b)) (cross a b)) (cross (cross a b) (cross y (cross a b))) = vscale (norm2 (cross a b)) y.
Proof. destruct y, a, b. open_vec. f_equal; ring. Qed.
Lemma perp_both y a b : is_unit a -> is_unit b -> dot a b = 0 -> dot y a = 0 -> dot y b = 0 -> y = vscale (dot y (cross a b)) (cross a b).
Proof.
  intros A B Ab Ya Yb. assert (C : cross y (cross a b) = V3 0 0 0).
  { assert (E : cross y (cross a b) = vsub (vscale (dot y b) a) (vscale (dot y a) b)) by (destruct y, a, b; open_vec; f_equal; ring).
    rewrite E, Ya, Yb. destruct a, b. open_vec. f_equal; ring. }
  assert (N : norm2 (cross a b) = 1).
  { assert (E : norm2 (cross a b) = norm2 a * norm2 b - dot a b * dot a b) by (destruct a, b; open_vec; ring).
    unfold is_unit in A, B. rewrite E, A, B, Ab. ring. }
  pose proof (twice_cross y a b) as T. rewrite C, N in T. revert T. generalize (cross a b). intros n T.
  assert (E : vscale 1 y = y) by (destruct y; open_vec; f_equal; ring). rewrite E in T. clear E. transitivity (vadd (vscale (dot y n) n) (cross n (V3 0 0 0))); [symmetry; exact T|]. clear. generalize (dot y n). intros k. destruct n. open_vec. f_equal; ring.
Qed.

Lemma three_axes x a b c : is_unit a -> is_unit b -> is_unit c -> dot a b = 0 -> dot b c = 0 -> dot a c = 0 ->
  x = vadd (vadd (vscale (dot x a) a) (vscale (dot x b) b)) (vscale (dot x c) c).
Proof.
  intros A B C Ab Bc Ac.
  pose (w := vadd (vadd (vscale (dot x a) a) (vscale (dot x b) b)) (vscale (dot x c) c)).
  pose (y := vsub x w).
  assert (D : forall u, dot y u = dot x u - dot x a * dot a u - dot x b * dot b u - dot x c * dot c u).
  { intros u. unfold y, w. generalize (dot x a) (dot x b) (dot x c). intros k1 k2 k3. destruct x, a, b, c, u. open_vec. ring. }
  assert (Y1 : dot y a = 0). { rewrite D, (dot_comm b a), (dot_comm c a), Ab, Ac. change (dot a a) with (norm2 a). unfold is_unit in A. rewrite A. ring. }
  assert (Y2 : dot y b = 0). { rewrite D, (dot_comm c b), Ab, Bc. change (dot b b) with (norm2 b). unfold is_unit in B. rewrite B. ring. }
  assert (Y3 : dot y c = 0). { rewrite D, Ac, Bc. change (dot c c) with (norm2 c). unfold is_unit in C. rewrite C. ring. }
  pose proof (perp_both y a b A B Ab Y1 Y2) as Ey.
  pose proof (perp_both c a b A B Ab ltac:(rewrite dot_comm; auto) ltac:(rewrite dot_comm; auto)) as Ec.
  assert (Z : dot y (cross a b) = 0).
  { assert (P : dot y (cross a b) * dot c (cross a b) = 0).
    { rewrite <- Y3. rewrite Ec at 2. generalize (dot c (cross a b)) (cross a b). intros k n. destruct y, n. open_vec. ring. }
    apply Rmult_integral in P as [P|P]; auto. exfalso. rewrite P in Ec. unfold is_unit in C. rewrite Ec in C. revert C. generalize (cross a b). intros n. destruct n. open_vec. lra. }
  rewrite Z in Ey. assert (Y0 : y = V3 0 0 0) by (rewrite Ey; generalize (cross a b); intros n; destruct n; open_vec; f_equal; ring).
  change (x = w). unfold y in Y0. destruct x as [x1 x2 x3], w as [w1 w2 w3]. unfold vsub in Y0. cbn in Y0. injection Y0 as E1 E2 E3. f_equal; lra.
Qed.

(** Three mirrors perpendicular to each other turn light round; everything is seen on the
    other side of a common point. *)
Lemma corner : forall s1 s2 s3, rigid (s_frame s1) -> rigid (s_frame s2) -> rigid (s_frame s3) ->
  perpendicular s1 s2 -> perpendicular s2 s3 -> perpendicular s1 s3 ->
  (forall d, image_dirs d [s1; s2; s3] = vopp d) /\
  forall c p, on_plane s1 c -> on_plane s2 c -> on_plane s3 c -> images p [s1; s2; s3] = vadd c (vopp (vsub p c)).
Proof.
  intros s1 s2 s3 R1 R2 R3 P12 P23 P13.
  pose proof (rigid_axis s1 R1) as U1. pose proof (rigid_axis s2 R2) as U2. pose proof (rigid_axis s3 R3) as U3.
  assert (Dir : forall d, image_dirs d [s1; s2; s3] = vopp d).
  { intros d. unfold image_dirs. cbn [fold_left]. unfold image_dir.
    unfold perpendicular in *. revert U1 U2 U3 P12 P23 P13. generalize (axis s1) (axis s2) (axis s3). intros a b c U1 U2 U3 P12 P23 P13.
    assert (D2 : dot (vsub d (vscale (2 * dot d a) a)) b = dot d b).
    { transitivity (dot d b - 2 * dot d a * dot a b); [generalize (dot d a); intros k; destruct d, a, b; open_vec; ring|rewrite P12; ring]. }
    rewrite D2.
    assert (D3 : dot (vsub (vsub d (vscale (2 * dot d a) a)) (vscale (2 * dot d b) b)) c = dot d c).
    { transitivity (dot d c - 2 * dot d a * dot a c - 2 * dot d b * dot b c); [generalize (dot d a) (dot d b); intros k l; destruct d, a, b, c; open_vec; ring|rewrite P13, P23; ring]. }
    rewrite D3. pose proof (three_axes d a b c U1 U2 U3 P12 P23 P13) as T. revert T. generalize (dot d a) (dot d b) (dot d c). intros x y z ->.
    destruct a, b, c. unfold vopp. open_vec. f_equal; ring. }
  split; auto. intros c p O1 O2 O3.
  replace p with (ray_at c (vsub p c) 1) at 1 by (destruct p, c; unfold ray_at; open_vec; f_equal; ring).
  rewrite images_ray, Dir. unfold images. cbn [fold_left]. rewrite (image_on_plane s1 c O1), (image_on_plane s2 c O2), (image_on_plane s3 c O3).
  destruct (vopp (vsub p c)), c. unfold ray_at. open_vec. f_equal; ring.
Qed.

(** Two mirrors: parallel ones leave the direction as it is, others turn it about their
    common line by twice their angle. *)
Lemma two_mirrors : forall s1 s2, rigid (s_frame s1) -> rigid (s_frame s2) -> forall d,
  let a := axis s1 in let b := axis s2 in let d' := image_dirs d [s1; s2] in
  ((b = a \/ b = vopp a) -> d' = d) /\ dot d' (cross a b) = dot d (cross a b) /\
  (dot d (cross a b) = 0 -> dot d d' = (2 * (dot a b * dot a b) - 1) * norm2 d).
Proof.
  intros s1 s2 R1 R2 d a b d'. pose proof (rigid_axis s1 R1) as U1. pose proof (rigid_axis s2 R2) as U2. fold a in U1. fold b in U2.
  assert (Ed : d' = vsub (vsub d (vscale (2 * dot d a) a)) (vscale (2 * (dot d b - 2 * dot d a * dot a b)) b)).
  { unfold d', image_dirs. cbn [fold_left]. unfold image_dir. fold a. fold b. f_equal. f_equal. f_equal.
    generalize (dot d a). intros k. destruct d, a, b. open_vec. ring. }
  rewrite Ed. clear Ed d'. revert U1 U2. generalize a b. clear a b. unfold is_unit. intros a b U1 U2. split; [|split].
  - assert (Aa : dot a a = 1) by exact U1. intros [-> | ->].
    + rewrite Aa. generalize (dot d a). intros k. destruct d, a. open_vec. f_equal; ring.
    + rewrite !dot_opp_r, Aa. generalize (dot d a). intros k. destruct d, a. unfold vopp. open_vec. f_equal; ring.
  - generalize (dot d a) (dot d b - 2 * dot d a * dot a b). intros k l. destruct d, a, b. open_vec. ring.
  - intros Z.
    assert (Gr : dot d (cross a b) * dot d (cross a b) =
      norm2 d * (norm2 a * norm2 b - dot a b * dot a b) - dot d a * (dot d a * norm2 b - dot a b * dot d b) + dot d b * (dot d a * dot a b - norm2 a * dot d b)).
    { destruct d, a, b. open_vec. ring. }
    rewrite Z, U1, U2 in Gr.
    assert (Ex : dot d (vsub (vsub d (vscale (2 * dot d a) a)) (vscale (2 * (dot d b - 2 * dot d a * dot a b)) b)) =
      norm2 d - 2 * (dot d a * dot d a) - 2 * (dot d b - 2 * dot d a * dot a b) * dot d b).
    { generalize (dot a b). intros k. destruct d, a, b. open_vec. ring. }
    rewrite Ex. lra.
Qed.

(** ** Mirrors at right angles *)
(** Light leaves the mirrors it has met, and does not meet them again. *)
Lemma leaves surfs tree : (forall s, In s surfs -> rigid (s_frame s)) -> square surfs ->
  forall L k j ss t, came_by surfs tree L k j ss t -> NoDup ss /\ incl ss surfs /\
  forall lvl v d, nth_error tree L = Some lvl -> vert_at lvl k = Some v -> dir_at lvl k = Some d ->
  forall s, In s ss -> exists c, 0 <= c /\ dot d (axis s) <> 0 /\ dot (vsub v (middle s)) (axis s) = dot d (axis s) * c.
Proof.
  intros Rf Sq. induction 1 as [b j v Hb Hv|L prev lvl k p j ss t u s v d Cb IH Hp Hl Hpar Hv Hd Hin Hu Hv' On Nz Hd'].
  - split; [constructor|]. split; [intros x []|]. intros ? ? ? _ _ _ s [].
  - destruct IH as (Nd & Inc & K). specialize (K prev v d Hp Hv Hd).
    assert (H1 : forall x, dot (vsub (ray_at v d u) (middle x)) (axis x) = dot (vsub v (middle x)) (axis x) + u * dot d (axis x)).
    { intros x. generalize (axis x) (middle x). intros z c. destruct v, d, z, c. unfold ray_at. open_vec. ring. }
    assert (New : ~ In s ss).
    { intros Hs. destruct (K s Hs) as (c & Pc & Nc & E). unfold on_plane in On. rewrite H1, E in On.
      assert (Z : dot d (axis s) * (c + u) = 0) by lra. apply Rmult_integral in Z as [Z|Z]; [auto|lra]. }
    split. { apply NoDup_rev in Nd. rewrite <- (rev_involutive (ss ++ [s])). apply NoDup_rev. rewrite rev_app_distr. cbn.
             constructor; auto. rewrite <- in_rev. exact New. }
    split. { intros x Hx. apply in_app_or in Hx as [Hx|[<-|[]]]; auto. }
    intros lvl' v' d' Hl' Hv2 Hd2 x Hx. assert (lvl' = lvl) by congruence. subst lvl'.
    assert (v' = ray_at v d u) by congruence. assert (d' = image_dir d s) by congruence. subst v' d'.
    assert (Dx : forall x, dot (image_dir d s) (axis x) = dot d (axis x) - 2 * dot d (axis s) * dot (axis s) (axis x)).
    { intros y. unfold image_dir. generalize (axis y) (axis s). intros z a. generalize (dot d a). intros k0. destruct d, z, a. open_vec. ring. }
    apply in_app_or in Hx as [Hx|[<-|[]]].
    + destruct (K x Hx) as (c & Pc & Nc & E). assert (P : perpendicular s x) by (apply Sq; auto; intros ->; auto).
      unfold perpendicular in P. exists (c + u). rewrite Dx, P, H1, E. split; [lra|].
      replace (dot d (axis x) - 2 * dot d (axis s) * 0) with (dot d (axis x)) by ring. split; [exact Nc|ring].
    + exists 0. pose proof (rigid_axis s (Rf s Hin)) as U. unfold is_unit in U. change (norm2 (axis s)) with (dot (axis s) (axis s)) in U.
      rewrite Dx, U, On. split; [lra|]. split; [lra|ring].
Qed.

(** No four directions are at right angles to each other. *)
Lemma at_most_three surfs : (forall s, In s surfs -> rigid (s_frame s)) -> square surfs ->
  forall ss, NoDup ss -> incl ss surfs -> (length ss <= 3)%nat.
Proof.
  intros Rf Sq ss Nd Inc. destruct ss as [|s1 [|s2 [|s3 [|s4 ss]]]]; cbn [length]; try lia. exfalso.
  assert (N : s1 <> s2 /\ s1 <> s3 /\ s1 <> s4 /\ s2 <> s3 /\ s2 <> s4 /\ s3 <> s4).
  { inversion Nd as [|? ? N1 Nd1]; subst. inversion Nd1 as [|? ? N2 Nd2]; subst. inversion Nd2 as [|? ? N3 Nd3]; subst. cbn in *.
    repeat split; intros ->; tauto. }
  assert (I : In s1 surfs /\ In s2 surfs /\ In s3 surfs /\ In s4 surfs) by (repeat split; apply Inc; cbn; tauto).
  destruct N as (N12 & N13 & N14 & N23 & N24 & N34), I as (I1 & I2 & I3 & I4).
  pose proof (three_axes (axis s4) (axis s1) (axis s2) (axis s3) (rigid_axis _ (Rf _ I1)) (rigid_axis _ (Rf _ I2)) (rigid_axis _ (Rf _ I3))
    (Sq _ _ I1 I2 N12) (Sq _ _ I2 I3 N23) (Sq _ _ I1 I3 N13)) as T.
  assert (P : forall s, In s surfs -> s <> s4 -> dot (axis s4) (axis s) = 0) by (intros s Hs Ns; apply (Sq s4 s); auto).
  rewrite (P s1), (P s2), (P s3) in T by auto. pose proof (rigid_axis _ (Rf _ I4)) as U. unfold is_unit in U. rewrite T in U.
  revert U. generalize (axis s1) (axis s2) (axis s3). intros [] [] []. open_vec. lra.
Qed.

(** Among mirrors at right angles light is reflected three times at most, and then goes
    back. *)
Lemma corner_trace : forall objs surfs, library_assembly objs surfs -> (forall s, In s surfs -> plane_mirror s) -> square surfs ->
  forall me g b n, library_source b n -> fair (g_rng g) -> forall reps vs ds st,
  ray_tracer surface_ops objs surfs g b reps me TreeTrue = Ok (vs, ds, st) ->
  forall L lvl k v d, nth_error (t_tree st) L = Some lvl -> vert_at lvl k = Some v -> dir_at lvl k = Some d ->
  (L <= 3)%nat /\
  (L = 3%nat -> exists j v0 d0 t, descends (t_tree st) 3 k j /\ vert_at b j = Some v0 /\ dir_at b j = Some d0 /\ 0 <= t /\ d = vopp d0 /\
    forall c, (forall s, In s surfs -> on_plane s c) -> v = vadd c (vopp (vsub (ray_at v0 d0 t) c))).
Proof.
  intros objs surfs La Pm Sq me g b n Ls Fg reps vs ds st E L lvl k v d Hl Hv Hd.
  assert (Rf : forall s, In s surfs -> rigid (s_frame s)) by (intros s Hs; apply (proj1 (proj2 La) s Hs)).
  destruct (images_top objs surfs La Pm me g b n Ls Fg reps vs ds st E L lvl k v d Hl Hv Hd) as (j & v0 & d0 & ss & t & Cb & B1 & B2 & Len & Pt & Fa & Ev & Ed).
  destruct (leaves surfs (t_tree st) Rf Sq L k j ss t Cb) as (Nd & Inc & _).
  pose proof (at_most_three surfs Rf Sq ss Nd Inc) as L3. split; [lia|]. intros ->.
  destruct ss as [|s1 [|s2 [|s3 [|]]]]; try discriminate.
  assert (N : s1 <> s2 /\ s1 <> s3 /\ s2 <> s3).
  { inversion Nd as [|? ? N1 Nd1]; subst. inversion Nd1 as [|? ? N2 Nd2]; subst. cbn in *. repeat split; intros ->; tauto. }
  assert (I : In s1 surfs /\ In s2 surfs /\ In s3 surfs) by (repeat split; apply Inc; cbn; tauto).
  destruct N as (N12 & N13 & N23), I as (I1 & I2 & I3).
  destruct (corner s1 s2 s3 (Rf _ I1) (Rf _ I2) (Rf _ I3) (Sq _ _ I1 I2 N12) (Sq _ _ I2 I3 N23) (Sq _ _ I1 I3 N13)) as (Cd & Cp).
  exists j, v0, d0, t. split. { clear - Cb. remember 3%nat as L eqn:E. clear E. induction Cb; econstructor; eauto. }
  split; auto. split; auto. split; auto. split; [rewrite Ed; apply Cd|].
  intros c Hc. rewrite Ev. apply Cp; auto.
Qed.
