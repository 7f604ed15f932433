(** The frames of triangular faces, and the surfaces made of them. *)
From Coq Require Import Reals List Arith ZArith Bool Lia Lra.
From Verif.Base Require Import Py Num Vec.
From Verif.Model Require Import RayBundle Spatial Geometry OpticsCallables Engine Objects Surface Assembly Scene Models Triangulated.
From Verif.Proof Require Import NumLemmas VecLemmas ListLemmas FrameProof FrameHistory PlaceProof PlaceTop ConstructProof ConstructTop GrowProof ViewProof SceneProof FlatProof GeomProof SelectProof GeomTop CallProof OpticsTop SurfaceProof ActProof ModelProof ModelTop.
From Verif.Spec Require Import BundleSpec EngineSpec GeometrySpec GeomIface OpticsSpec FrameSpec SceneSpec ModelSpec TriangleSpec.
Import ListNotations.
Local Open Scope R_scope.

(** ** Axes *)

Lemma norm_sq v : norm v * norm v = norm2 v.
Proof. unfold norm. apply sqrt_sqrt, norm2_nonneg. Qed.
Lemma norm_nonneg v : 0 <= norm v.
Proof. apply sqrt_pos. Qed.
Lemma norm_zero v : norm v = 0 <-> v = vzero.
Proof.
  split; [|intros ->; unfold norm, norm2; vunfold; rewrite <- sqrt_0; f_equal; cbn; lra].
  intros H. apply norm2_zero. rewrite <- norm_sq, H. lra.
Qed.
Lemma scaled_unit v : v <> vzero -> is_unit (vscale (/ norm v) v).
Proof.
  intros N. unfold is_unit. assert (Hn : norm v <> 0) by (rewrite norm_zero; auto). pose proof (norm_sq v) as Q.
  replace (norm2 (vscale (/ norm v) v)) with (/ norm v * / norm v * norm2 v) by (destruct v; vunfold; ring).
  rewrite <- Q. field. auto.
Qed.

(** An orthonormal matrix from two of its columns. *)
Lemma axes_orthonormal x z : is_unit x -> is_unit z -> dot x z = 0 -> orthonormal (of_cols x (cross z x) z).
Proof.
  unfold is_unit, norm2, orthonormal. destruct x as [a b c], z as [d e f]. vunfold. intros X Z D.
  assert (Y : (e * c - f * b) * (e * c - f * b) + (f * a - d * c) * (f * a - d * c) + (d * b - e * a) * (d * b - e * a) = 1).
  { transitivity ((a * a + b * b + c * c) * (d * d + e * e + f * f) - (a * d + b * e + c * f) * (a * d + b * e + c * f)); [ring|].
    rewrite X, Z, D. ring. }
  unfold id3. veq; try lra; try ring.
Qed.

(** ** [face_frames] face by face *)

Definition axes_of (e : vec * vec) : mat3 :=
  let x := first_axis e in let z := cross x (snd e) in let z := vscale (/ norm z) z in of_cols x (cross z x) z.
Definition frame_of (e : vec * vec) : mat3 * (vec * vec) :=
  (axes_of e, (mv3 (tr3 (axes_of e)) (fst e), mv3 (tr3 (axes_of e)) (snd e))).
Definition long (e : vec * vec) : bool := Rltb (tenm 8) (Rabs (norm (fst e))) && Rltb (tenm 8) (Rabs (norm (snd e))).
Definition spread (e : vec * vec) : bool := far_from_zero (normal_axis (first_axis e) e).

Lemma mask_map {A C} (f : A -> bool) (g : A -> C) l : mask_select (map f l) (map g l) = map g (filter f l).
Proof. induction l as [|x l IH]; simpl; auto. destruct (f x); simpl; rewrite IH; auto. Qed.
Lemma map2_map {A C D E} (h : C -> D -> E) (f : A -> C) (g : A -> D) l : map2 h (map f l) (map g l) = map (fun x => h (f x) (g x)) l.
Proof. induction l as [|x l IH]; simpl; auto. rewrite IH. auto. Qed.
Lemma combine_map {A C D} (f : A -> C) (g : A -> D) l : combine (map f l) (map g l) = map (fun x => (f x, g x)) l.
Proof. induction l as [|x l IH]; simpl; auto. rewrite IH. auto. Qed.
Lemma filter_filter {A} (f g : A -> bool) l : filter g (filter f l) = filter (fun x => f x && g x) l.
Proof. induction l as [|x l IH]; simpl; auto. destruct (f x); simpl; [destruct (g x); rewrite IH; auto|auto]. Qed.
Lemma mapM_map {A C D} (f : C -> res D) (g : A -> C) (h : A -> D) l : (forall x, In x l -> f (g x) = Ok (h x)) ->
  mapM f (map g l) = Ok (map h l).
Proof.
  unfold mapM. induction l as [|x l IH]; intros H; simpl; auto.
  rewrite H by (simpl; auto). simpl. rewrite IH by (intros; apply H; simpl; auto). reflexivity.
Qed.

Definition normal_of (e : vec * vec) : vec := let z := cross (first_axis e) (snd e) in vscale (/ norm z) z.
Lemma spread_normal e : spread e = true -> normal_axis (first_axis e) e = Some (normal_of e).
Proof.
  unfold spread, normal_axis, normal_of. destruct (Reqb _ 0); simpl; auto. discriminate.
Qed.

Lemma mask_self {A} (f : A -> bool) l : mask_select (map f l) l = filter f l.
Proof. induction l as [|x l IH]; simpl; auto. destruct (f x); simpl; rewrite IH; auto. Qed.
Lemma map2_self {A C E} (h : C -> A -> E) (f : A -> C) l : map2 h (map f l) l = map (fun x => h (f x) x) l.
Proof. induction l as [|x l IH]; simpl; auto. rewrite IH. auto. Qed.

Lemma frames_each edges : face_frames edges = Ok (map frame_of (filter (fun e => long e && spread e) edges)).
Proof.
  unfold face_frames. cbv zeta. fold long.
  change (map (fun e : vec * vec => Rltb (tenm 8) (Rabs (norm (fst e))) && Rltb (tenm 8) (Rabs (norm (snd e)))) edges) with (map long edges).
  rewrite (mask_self long edges), <- filter_filter. set (l := filter long edges).
  rewrite map2_self, map_map.
  change (map (fun x : vec * vec => far_from_zero (normal_axis (first_axis x) x)) l) with (map spread l).
  rewrite !mask_map, mask_self. rewrite (mapM_map known _ normal_of).
  2:{ intros e I. apply filter_In in I as (_ & I). rewrite (spread_normal _ I). reflexivity. }
  cbn [bind]. f_equal. rewrite map2_map, combine_map, map2_map, map2_self. apply map_ext. intros e. reflexivity.
Qed.

(** ** Which faces are kept *)

Definition edges_of (t : tri) : vec * vec := (vsub (t1 t) (t0 t), vsub (t2 t) (t0 t)).
Definition keeps (t : tri) : bool := long (edges_of t) && spread (edges_of t).

Lemma cross_scale k a b : cross (vscale k a) b = vscale k (cross a b).
Proof. destruct a, b. vunfold. cbn. veq; ring. Qed.
Lemma scale_zero k v : k <> 0 -> vscale k v = vzero -> v = vzero.
Proof.
  intros K H. destruct v as [a b c]. unfold vzero in *. cbn in H. injection H as A B C.
  f_equal; [apply Rmult_integral in A|apply Rmult_integral in B|apply Rmult_integral in C]; tauto.
Qed.

Lemma unit_far z : is_unit z -> far_from_zero (Some z) = true.
Proof.
  unfold is_unit, norm2. destruct z as [a b c]. vunfold. intros U. unfold far_from_zero. cbn [vx vy vz].
  assert (Sm : tenm 6 < / 2) by (unfold tenm; apply Rinv_lt_contravar; lra).
  destruct (Rltb (tenm 6) (Rabs a)) eqn:Ea; auto. destruct (Rltb (tenm 6) (Rabs b)) eqn:Eb; auto.
  destruct (Rltb (tenm 6) (Rabs c)) eqn:Ec; auto. exfalso. apply Rltb_false in Ea, Eb, Ec.
  assert (Sq : forall x, ~ tenm 6 < Rabs x -> x * x <= / 4).
  { intros x Hx. assert (Rabs x <= / 2) by lra. pose proof (Rabs_pos x).
    assert (Rabs x * Rabs x <= / 2 * / 2) by (apply Rmult_le_compat; lra).
    replace (x * x) with (Rabs x * Rabs x); [lra|]. rewrite <- Rabs_mult. apply Rabs_pos_eq. nra. }
  assert (Ha : a * a <= / 4) by (apply Sq; lra). assert (Hb : b * b <= / 4) by (apply Sq; lra). assert (Hc : c * c <= / 4) by (apply Sq; lra). lra.
Qed.

Lemma keeps_proper t : keeps t = true <-> proper t.
Proof.
  unfold keeps, long, proper, edges_of. cbn [fst snd]. set (a := vsub (t1 t) (t0 t)). set (b := vsub (t2 t) (t0 t)).
  rewrite !andb_true_iff, !Rltb_true. rewrite !(Rabs_pos_eq (norm _)) by apply norm_nonneg. fold (tenm 8).
  assert (P8 : 0 < tenm 8) by (unfold tenm; apply Rinv_0_lt_compat; lra).
  enough (Hs : tenm 8 < norm a -> (spread (a, b) = true <-> cross a b <> vzero)) by tauto.
  intros La. unfold spread, normal_axis, first_axis. cbn [fst snd]. rewrite cross_scale.
  destruct (Reqb _ 0) eqn:E.
  - apply Reqb_true, norm_zero in E. apply scale_zero in E; [|apply Rinv_neq_0_compat; lra]. cbn [far_from_zero]. split; [discriminate|tauto].
  - apply Reqb_false in E. rewrite norm_zero in E. split.
    + intros _ C. apply E. rewrite C. unfold vzero. vunfold. cbn. veq; ring.
    + intros _. apply unit_far, scaled_unit; auto.
Qed.

(** ** The frame of a face *)

Lemma frame_axes t : proper t -> let e := edges_of t in let '(r, (l0, l1)) := frame_of e in
  orthonormal r /\ mv3 r l0 = fst e /\ mv3 r l1 = snd e /\ vz l0 = 0 /\ vz l1 = 0 /\ vx l0 * vy l1 - vx l1 * vy l0 <> 0 /\
  facing t (col3 r).
Proof.
  intros (L1 & L2 & Cr). cbv zeta. unfold frame_of, edges_of, axes_of. cbn [fst snd].
  set (a := vsub (t1 t) (t0 t)) in *. set (b := vsub (t2 t) (t0 t)) in *. fold (tenm 8) in *.
  assert (P8 : 0 < tenm 8) by (unfold tenm; apply Rinv_0_lt_compat; lra).
  unfold first_axis. cbn [fst snd]. set (x := vscale (/ norm a) a). set (w := cross x b). set (z := vscale (/ norm w) w).
  assert (Na : 0 < norm a) by lra.
  assert (Ux : is_unit x) by (apply scaled_unit; intros H; apply norm_zero in H; lra).
  assert (Ew : w = vscale (/ norm a) (cross a b)) by (apply cross_scale).
  assert (Nw : w <> vzero) by (rewrite Ew; intros H; apply scale_zero in H; auto; apply Rinv_neq_0_compat; lra).
  assert (Pw : 0 < norm w). { pose proof (norm_nonneg w). assert (norm w <> 0) by (rewrite norm_zero; auto). lra. }
  assert (Uz : is_unit z) by (apply scaled_unit; auto).
  assert (Dxw : dot x w = 0) by (unfold w; destruct x, b; vunfold; cbn; ring).
  assert (Dxz : dot x z = 0). { unfold z. replace (dot x (vscale (/ norm w) w)) with (/ norm w * dot x w) by (destruct x, w; vunfold; cbn; ring). rewrite Dxw. ring. }
  pose proof (axes_orthonormal x z Ux Uz Dxz) as O. set (r := of_cols x (cross z x) z) in *.
  assert (Row : forall v, mv3 (tr3 r) v = V3 (dot x v) (dot (cross z x) v) (dot z v)).
  { intros v. unfold r. destruct x, z, v. vunfold. cbn. reflexivity. }
  assert (Ea : a = vscale (norm a) x). { unfold x. destruct a as [a1 a2 a3]. vunfold. cbn. veq; field; lra. }
  assert (Dza : dot z a = 0). { rewrite Ea. replace (dot z (vscale (norm a) x)) with (norm a * dot x z) by (destruct x, z; vunfold; cbn; ring). rewrite Dxz. ring. }
  assert (Dzb : dot z b = 0). { unfold z. replace (dot (vscale (/ norm w) w) b) with (/ norm w * dot w b) by (destruct w, b; vunfold; cbn; ring).
    replace (dot w b) with 0 by (unfold w; destruct x, b; vunfold; cbn; ring). ring. }
  assert (Dxa : dot x a = norm a). { rewrite Ea at 1. replace (dot x (vscale (norm a) x)) with (norm a * norm2 x) by (destruct x; vunfold; cbn; ring). rewrite Ux. ring. }
  assert (Dya : dot (cross z x) a = 0). { rewrite Ea. destruct x, z. vunfold. cbn. ring. }
  assert (Dyb : dot (cross z x) b = norm w).
  { replace (dot (cross z x) b) with (dot z w) by (unfold w; destruct x, z, b; vunfold; cbn; ring).
    unfold z. replace (dot (vscale (/ norm w) w) w) with (/ norm w * norm2 w) by (destruct w; vunfold; cbn; ring).
    rewrite <- norm_sq. field. lra. }
  split; auto. split; [apply mv3_tr3; auto|]. split; [apply mv3_tr3; auto|]. rewrite !Row. cbn [vx vy vz].
  split; auto. split; auto. split.
  - rewrite Dxa, Dya, Dyb. rewrite Rmult_0_r, Rminus_0_r. apply Rgt_not_eq, Rmult_lt_0_compat; lra.
  - replace (col3 r) with z by (unfold r; destruct x, z; vunfold; cbn; reflexivity). split; auto.
    exists (/ norm w * / norm a). split; [apply Rmult_lt_0_compat; apply Rinv_0_lt_compat; lra|].
    unfold z. rewrite Ew at 2. fold a b. destruct (cross a b). vunfold. cbn. veq; ring.
Qed.

(** ** One face as a surface *)

Lemma covers_intro gm o frame A : rigid frame -> finds gm frame (flat_answer frame A) ->
  covers (Surface.new_surface gm o frame) (placed frame A) (z_of frame).
Proof.
  intros Rf Fi b n T. destruct (traceable_parts _ _ T) as (vs & ds & es & Ev & Ed & Ee & Lv & Ld & Le).
  assert (Hr : has_rays b vs ds) by (unfold has_rays; rewrite Lv, Ld; auto).
  destruct (Fi b vs ds Hr) as (st & ps & F & Lp & HP).
  eexists. exists ps. split; [unfold surf_register; cbn; rewrite F; reflexivity|]. split; [lia|].
  intros j v d x V D X. unfold vert_at, dir_at, at_col in V, D. rewrite Ev in V. rewrite Ed in D. exact (HP j v d x V D X).
Qed.

Lemma covers_ext s A A' z z' : (forall p, A p <-> A' p) -> z = z' -> covers s A z -> covers s A' z'.
Proof.
  intros H <- M b n T. destruct (M b n T) as (s1 & ps & E & L & Hh). exists s1, ps. split; auto. split; auto.
  intros j v d x Ev Ed Ex. destruct (Hh j v d x Ev Ed Ex) as (P & Q). split; auto. intros X. eapply first_hit_ext; eauto.
Qed.

Lemma triangle_mirror l0 l1 a frame : rigid frame -> vz l0 = 0 -> vz l1 = 0 -> vx l0 * vy l1 - vx l1 * vy l0 <> 0 ->
  flat_mirror (Surface.new_surface (Triangle l0 l1) (Absorbing (Reflective a)) frame) (placed frame (triangle l0 l1)) (z_of frame) (1 - a).
Proof.
  intros Rf Z0 Z1 D. unfold flat_mirror. apply acts_intro with (fun d e n d' e' => mirrored n d d' /\ e' = e * (1 - a)); auto.
  - exact (triangle_finds l0 l1 frame Rf Z0 Z1 D).
  - intros v d t _ q g _ Hg. apply flat_gradient in Hg. subst g. vunfold. lra.
  - intros gs b n sel pts ns g T Ln To Lp Un.
    destruct (reflective_top a gs b n sel pts ns _ g T Ln To Lp Un) as (r & Ec & O). exists r, g. auto.
  - intros v d t q g e m d' e' _ _ Hg (U & (k & ->) & _) (M & He). apply flat_gradient in Hg. subst g.
    split; auto. eapply mirrored_same; eauto. apply z_of_unit; auto.
Qed.

Definition face_part (o : optics) (p : vec) (t : tri) : part :=
  let '(r, (l0, l1)) := frame_of (edges_of t) in mkPart (new_triangle l0 l1) o (mk4 r p).

Lemma face_points p t r l0 l1 q : mv3 r l0 = fst (edges_of t) -> mv3 r l1 = snd (edges_of t) ->
  placed (mk4 r p) (triangle l0 l1) q <-> points_of (carried p t) q.
Proof.
  intros E0 E1. unfold edges_of in *. cbn [fst snd] in *. unfold placed, triangle, points_of, carried. cbn [t0 t1 t2]. rewrite <- E0, <- E1.
  split.
  - intros (l & (b & c & Hb & Hc & Hs & ->) & ->). exists (1 - b - c), b, c. repeat split; try lra.
    rewrite app4_mk4. destruct r as [[? ? ?] [? ? ?] [? ? ?]], l0, l1, p. vunfold. cbn. veq; ring.
  - intros (a & b & c & Ha & Hb & Hc & Hs & ->). exists (vadd (vscale b l0) (vscale c l1)). split; [exists b, c; repeat split; lra|].
    replace a with (1 - b - c) by lra.
    rewrite app4_mk4. destruct r as [[? ? ?] [? ? ?] [? ? ?]], l0, l1, p. vunfold. cbn. veq; ring.
Qed.

Lemma facing_carried p t z : facing t z -> facing (carried p t) z.
Proof.
  intros (U & k & K & E). split; auto. exists k. split; auto. rewrite E. unfold carried. cbn [t0 t1 t2].
  destruct t as [a b c]. cbn [t0 t1 t2]. destruct a, b, c, p. vunfold. cbn. veq; ring.
Qed.

Lemma face_shows o p t : proper t -> shows o (carried p t) (face_part o p t).
Proof.
  intros Pr. pose proof (frame_axes t Pr) as H. cbv zeta in H. unfold face_part. destruct (frame_of (edges_of t)) as [r [l0 l1]].
  destruct H as (O & E0 & E1 & Z0 & Z1 & D & Fz). split; [reflexivity|]. exists (col3 r). split; [apply facing_carried; auto|].
  intros T RT. unfold seen_part. cbn [p_geom p_opt p_own].
  assert (Rr : rigid (mk4 r p)) by (exists r, p; auto). pose proof (rigid_mm4 _ _ RT Rr) as Rm.
  assert (Pl : forall q, placed (mm4 T (mk4 r p)) (triangle l0 l1) q <-> placed T (points_of (carried p t)) q).
  { intros q. rewrite placed_mm4 by auto. apply placed_ext. intros u. apply face_points; auto. }
  assert (Zz : z_of (mm4 T (mk4 r p)) = turned T (col3 r)) by (rewrite z_of_mm4, z_of_mk4 by auto; auto).
  split.
  - eapply covers_ext; [exact Pl|exact Zz|]. apply covers_intro; auto. apply triangle_finds; auto.
  - intros a ->. eapply flat_ext; [exact Pl|exact Zz|reflexivity|]. apply triangle_mirror; auto.
Qed.

(** ** Indices *)

Lemma at_index_ok {A} (l : list A) i x : index_of l i x -> at_index l i = Ok x.
Proof.
  intros (k & Hk & Hi). assert (Lk : (k < length l)%nat) by (apply nth_error_Some; congruence).
  unfold at_index. cbv zeta.
  destruct (Z.ltb_spec i (- Z.of_nat (length l))); [lia|]. destruct (Z.leb_spec (Z.of_nat (length l)) i); [lia|]. cbn [orb].
  replace (Z.to_nat (if (i <? 0)%Z then i + Z.of_nat (length l) else i)) with k.
  - unfold take1. rewrite Hk. auto.
  - destruct (Z.ltb_spec i 0); lia.
Qed.
Lemma at_index_cases {A} (l : list A) i : (exists x, index_of l i x) \/ at_index l i = Err IndexError.
Proof.
  unfold at_index. cbv zeta.
  destruct (Z.ltb_spec i (- Z.of_nat (length l))); [right; auto|]. destruct (Z.leb_spec (Z.of_nat (length l)) i); [right; auto|].
  left. set (k := Z.to_nat (if (i <? 0)%Z then i + Z.of_nat (length l) else i)).
  destruct (nth_error l k) as [x|] eqn:E.
  - exists x, k. split; auto. unfold k. destruct (Z.ltb_spec i 0); lia.
  - exfalso. apply nth_error_None in E. unfold k in E. destruct (Z.ltb_spec i 0); lia.
Qed.
Lemma index_unique {A} (l : list A) i x y : index_of l i x -> index_of l i y -> x = y.
Proof. intros H K. apply at_index_ok in H, K. congruence. Qed.

Lemma mapM_index {A C} (l : list A) (g : C -> Z) (cs : list C) xs : Forall2 (fun c x => index_of l (g c) x) cs xs ->
  mapM (fun c => at_index l (g c)) cs = Ok xs.
Proof.
  unfold mapM. intros F. induction F as [|c x cs xs H F IH]; simpl; auto. rewrite (at_index_ok _ _ _ H). simpl. rewrite IH. auto.
Qed.

(** ** The object *)
Local Close Scope R_scope.

Lemma object_at_step limit ss ps tr t sc : reached limit sc -> Forall2 (is_part sc) ss ps -> 0 < limit ->
  usable_opt (sc_w sc) (w_size (sc_w sc)) tr -> given (sc_w sc) tr t ->
  exists sc', make_object limit ss [] tr sc = (sc', Ok (w_size (sc_w sc))) /\ reached limit sc' /\
    (forall j, exists_in sc j -> same_in sc sc' j) /\
    (forall l, exists_in sc l -> ~ In l ss -> placed_array (sc_w sc') l = placed_array (sc_w sc) l) /\
    is_object sc' (w_size (sc_w sc)) (mkO false t ps) ss.
Proof.
  intros R Hp Ll Us Gi. pose proof (reached_inv _ _ R) as I. unfold make_object.
  assert (F : Forall (fun l => kind_of (sc_w sc) l <> None) (ss ++ [])).
  { rewrite app_nil_r. clear - Hp. induction Hp as [|x y l m (K & _) H2 IH]; constructor; auto. congruence. }
  destruct (new_object_placed limit ss [] tr t (sc_w sc) I Us Gi F Ll) as (w' & E & I' & Sz & K & T & Sm & _ & _ & O).
  rewrite E. eexists. split; [reflexivity|].
  match goal with |- reached _ ?s /\ _ => set (sc' := s) end.
  assert (Sa : forall j, exists_in sc j -> same_in sc sc' j).
  { intros j Ej. assert (Nj : j <> w_size (sc_w sc)) by (intros ->; exact (new_not_exists limit sc R Ej)).
    split; [exact (Sm j Nj)|]. cbn. split; auto. split; auto. apply upd_ne; auto. }
  split.
  { unfold reached. cbn. eapply (reached_step limit sc (MkObject ss [] tr)); auto. unfold perform. rewrite fst_ignore, E. reflexivity. }
  split; auto. split.
  - intros l El N. apply O; [rewrite app_nil_r; auto|]. intros ->. exact (new_not_exists limit sc R El).
  - split; [exact K|]. split; [exact T|]. split; [cbn; apply upd_eq|]. cbn [o_parts].
    eapply Forall2_impl; [|exact Hp]. intros a b Hab. eapply same_part; [|exact Hab]. apply Sa. eapply part_exists; eauto.
Qed.

(** A transform given to a constructor stays usable until then. *)
Lemma transform_step limit sc sc' tr t : reached limit sc -> step limit none sc sc' ->
  usable_opt (sc_w sc) (w_size (sc_w sc)) tr -> given (sc_w sc) tr t ->
  usable_opt (sc_w sc') (w_size (sc_w sc')) tr /\ given (sc_w sc') tr t.
Proof.
  intros R S U G. destruct tr as [r|]; [|auto]. destruct U as (b & m & -> & L & A & F). cbn in G. rewrite A in G. injection G as ->.
  assert (Fa : frame_array sc b t).
  { split; auto. split; auto. intros j x Ex Et. refine (F j x _ Ex Et). intros ->. apply (new_not_exists limit sc); auto.
    unfold exists_in, kind_of. rewrite Ex. discriminate. }
  pose proof (step_frame _ _ _ _ _ _ S Fa) as Fb. split; [eapply frame_usable; eauto|]. cbn. apply Fb.
Qed.

Lemma face_step limit o p r l0 l1 sc : reached limit sc ->
  exists sc' s, one_face limit o (p, (r, (l0, l1))) sc = (sc', Ok s) /\ step limit none sc sc' /\
    is_part sc' s (mkPart (new_triangle l0 l1) o (mk4 r p)) /\ w_size (sc_w sc) <= s /\ s < w_size (sc_w sc').
Proof.
  intros R. unfold one_face.
  destruct (literal_step limit (A3 p) sc R) as (sc1 & E1 & S1 & V1 & N1 & _ & Z1 & A1). bstep.
  destruct (literal_step limit (A33 r) sc1 (st_reached _ _ _ _ S1)) as (sc2 & E2 & S2 & V2 & N2 & _ & Z2 & A2). bstep.
  assert (V1' : w_arr (sc_w sc2) (w_next (sc_w sc)) = A3 p).
  { destruct (st_grown _ _ _ _ S2) as ((_ & X & _) & _). rewrite X; auto. lia. }
  destruct (surface_step limit (new_triangle l0 l1) o (Some (Whole (w_next (sc_w sc)))) (Some (Whole (w_next (sc_w sc1)))) p r sc2 (st_reached _ _ _ _ S2))
    as (sc3 & E3 & S3 & P3 & Z3 & A3'); [exists (w_next (sc_w sc)); split; auto; lia|exists (w_next (sc_w sc1)); split; auto; lia|exact V1'|exact V2|].
  exists sc3, (w_size (sc_w sc2)). split; auto.
  assert (S03 : step limit none sc sc3) by (repeat (eapply step_then; [|eassumption]); auto; apply step_refl; auto).
  split; auto. split; auto. lia.
Qed.

Lemma faces_step limit o : forall fs sc, reached limit sc ->
  exists sc' ss, bmap (one_face limit o) fs sc = (sc', Ok ss) /\ step limit none sc sc' /\
    Forall2 (is_part sc') ss (map (fun f : vec * (mat3 * (vec * vec)) => mkPart (new_triangle (fst (snd (snd f))) (snd (snd (snd f)))) o (mk4 (fst (snd f)) (fst f))) fs) /\
    newer sc ss /\ NoDup ss.
Proof.
  induction fs as [|[p [r [l0 l1]]] fs IH]; intros sc R.
  { exists sc, []. split; [reflexivity|]. split; [apply step_refl; auto|]. repeat constructor. }
  cbn [bmap map fst snd]. destruct (face_step limit o p r l0 l1 sc R) as (sc1 & s & E1 & S1 & P1 & L1 & U1). bstep.
  destruct (IH sc1 (st_reached _ _ _ _ S1)) as (sc2 & ss & E2 & S2 & P2 & N2 & D2). bstep.
  exists sc2, (s :: ss). split; [reflexivity|]. split; [eapply step_then; eauto|].
  split; [constructor; auto; eapply step_part; [exact (st_reached _ _ _ _ S1)|exact S2|exact P1]|].
  split; [constructor; auto; eapply newer_step; eauto|]. constructor; auto.
  intros I. unfold newer in N2. rewrite Forall_forall in N2. specialize (N2 _ I). cbv beta in N2. lia.
Qed.

Local Open Scope R_scope.
(** ** All together *)

Lemma Forall2_map_l {A C D} (P : C -> D -> Prop) (f : A -> C) l m : Forall2 (fun a d => P (f a) d) l m -> Forall2 P (map f l) m.
Proof. intros H. induction H; constructor; auto. Qed.
Lemma Forall2_map_r {A C D} (P : A -> D -> Prop) (f : C -> D) l m : Forall2 (fun a c => P a (f c)) l m -> Forall2 P l (map f m).
Proof. intros H. induction H; constructor; auto. Qed.
Lemma filter_map {A C} (f : A -> C) (p : C -> bool) l : filter p (map f l) = map f (filter (fun x => p (f x)) l).
Proof. induction l as [|x l IH]; simpl; auto. destruct (p (f x)); simpl; rewrite IH; auto. Qed.
Lemma combine_map2 {A C D E} (f : A -> C) (g : D -> E) : forall l m, combine (map f l) (map g m) = map (fun x => (f (fst x), g (snd x))) (combine l m).
Proof. induction l as [|x l IH]; intros [|y m]; simpl; auto. rewrite IH. auto. Qed.

Definition made (o : optics) (ts : list tri) : list part :=
  map (fun x => face_part o (t0 (fst x)) (snd x)) (combine ts (filter keeps ts)).

Lemma triangulated_step limit vertices faces ts o tr t sc : reached limit sc -> (0 < limit)%nat ->
  usable_opt (sc_w sc) (w_size (sc_w sc)) tr -> given (sc_w sc) tr t ->
  Forall2 (names_corners vertices) faces ts -> makes_surface limit vertices faces o tr t sc (made o ts).
Proof.
  intros R Ll U G F. unfold makes_surface, triangulated_surface.
  erewrite bbind_ok by (apply calc_ok, (mapM_index vertices f0 faces (map t0 ts)), Forall2_map_r; eapply Forall2_impl; [|exact F]; intros ? ? (X & _); exact X).
  erewrite bbind_ok by (apply calc_ok, (mapM_index vertices f1 faces (map t1 ts)), Forall2_map_r; eapply Forall2_impl; [|exact F]; intros ? ? (_ & X & _); exact X).
  erewrite bbind_ok by (apply calc_ok, (mapM_index vertices f2 faces (map t2 ts)), Forall2_map_r; eapply Forall2_impl; [|exact F]; intros ? ? (_ & _ & X); exact X).
  cbv zeta. rewrite combine_map, map2_map. cbn [fst snd].
  change (map (fun x : tri => (vsub (t1 x) (t0 x), vsub (t2 x) (t0 x))) ts) with (map edges_of ts).
  erewrite bbind_ok by (apply calc_ok, frames_each).
  rewrite filter_map, map_map. change (filter (fun x => long (edges_of x) && spread (edges_of x)) ts) with (filter keeps ts).
  rewrite combine_map2.
  match goal with |- context [bmap _ ?fs] => destruct (faces_step limit o fs sc R) as (sc1 & ss & E1 & S1 & P1 & N1 & D1) end. bstep.
  destruct (transform_step limit sc sc1 tr t R S1 U G) as (U1 & G1).
  rewrite map_map in P1.
  match type of P1 with Forall2 _ _ ?l => assert (Em : l = made o ts) end.
  { unfold made. apply map_ext. intros [a b]. cbn [fst snd]. unfold face_part. destruct (frame_of (edges_of b)) as [r [l0 l1]]. reflexivity. }
  rewrite Em in P1. clear Em.
  destruct (object_at_step limit ss (made o ts) tr t sc1 (st_reached _ _ _ _ S1) P1 Ll U1 G1) as (sc2 & E2 & R2 & Sa & Pl & Ob).
  assert (Nn : forall s, In s ss -> ~ exists_in sc s) by (intros s Is Es; exact (newer_not limit sc ss s R N1 Is Es)).
  exists sc2, (w_size (sc_w sc1)), ss. split; auto. split; auto. split; [|split; auto].
  - intros j Ej. pose proof (step_exists _ _ _ _ _ S1 Ej) as Ej'.
    destruct (step_same _ _ _ _ _ R S1 Ej) as ((X1 & X2 & X3 & X4) & X5 & X6 & X7).
    destruct (Sa j Ej') as ((Y1 & Y2 & Y3 & Y4) & Y5 & Y6 & Y7). split; [unfold same_in, same_node; repeat split; congruence|].
    rewrite Pl; auto; [|intros I; exact (Nn j I Ej)]. apply S1; auto.
  - intros E. apply (exists_size _ _ _ R) in E. pose proof (st_size _ _ _ _ S1). lia.
Qed.

Lemma selection_keeps ts kept : selection proper ts kept -> kept = filter keeps ts.
Proof.
  intros H. induction H as [|x l m P H IH|x l m P H IH]; simpl; auto.
  - rewrite (proj2 (keeps_proper x) P). congruence.
  - destruct (keeps x) eqn:E; auto. apply keeps_proper in E. tauto.
Qed.

Lemma triangulated_any limit vertices faces ts kept o tr t sc : reached limit sc -> (0 < limit)%nat ->
  usable_opt (sc_w sc) (w_size (sc_w sc)) tr -> given (sc_w sc) tr t ->
  Forall2 (names_corners vertices) faces ts -> selection proper ts kept ->
  exists parts, makes_surface limit vertices faces o tr t sc parts /\ length parts = length kept /\
    forall k a b p, nth_error ts k = Some a -> nth_error kept k = Some b -> nth_error parts k = Some p -> shows o (carried (t0 a) b) p.
Proof.
  intros R Ll U G F Sl. exists (made o ts). split; [apply triangulated_step; auto|].
  rewrite (selection_keeps _ _ Sl). unfold made. split.
  - rewrite map_length, combine_length. assert (length (filter keeps ts) <= length ts)%nat by (clear; induction ts as [|x l IH]; simpl; auto; destruct (keeps x); simpl; lia). lia.
  - intros k a b p Ha Hb Hp. rewrite nth_error_map in Hp.
    assert (Ek : nth_error (combine ts (filter keeps ts)) k = Some (a, b)).
    { clear Hp Sl F. revert Ha Hb. generalize (filter keeps ts) as m. revert ts. induction k as [|k IH]; intros [|x l] [|y m]; simpl; try discriminate.
      - congruence.
      - auto. }
    rewrite Ek in Hp. cbn in Hp. injection Hp as <-. apply face_shows. apply keeps_proper.
    apply nth_error_In, filter_In in Hb. tauto.
Qed.

Lemma carried_own t : carried (t0 t) t = t.
Proof.
  destruct t as [a b c]. unfold carried. cbn [t0 t1 t2].
  assert (E : forall u v, vadd u (vsub v u) = v) by (intros [] []; vunfold; cbn; veq; ring). rewrite !E. reflexivity.
Qed.

Lemma triangulated_top limit vertices faces good bad o tr t sc : reached limit sc -> (0 < limit)%nat ->
  usable_opt (sc_w sc) (w_size (sc_w sc)) tr -> given (sc_w sc) tr t ->
  Forall2 (names_corners vertices) faces (good ++ bad) -> Forall proper good -> Forall (fun x => ~ proper x) bad ->
  exists parts, makes_surface limit vertices faces o tr t sc parts /\ Forall2 (shows o) good parts.
Proof.
  intros R Ll U G F Pg Pb.
  assert (Sl : selection proper (good ++ bad) good).
  { clear F. induction Pg as [|x l P Pg IH]; simpl; [|constructor; auto].
    induction Pb; [constructor|apply sel_out; auto]. }
  destruct (triangulated_any limit vertices faces _ _ o tr t sc R Ll U G F Sl) as (parts & M & L & H). exists parts. split; auto.
  assert (H' : forall k b p, nth_error good k = Some b -> nth_error parts k = Some p -> shows o b p).
  { intros k b p Hb Hp. rewrite <- (carried_own b). apply (H k b b p); auto.
    rewrite nth_error_app1; auto. apply nth_error_Some. congruence. }
  clear - L H'. revert parts L H'. induction good as [|x l IH]; intros [|p ps] L H'; simpl in L; try discriminate; constructor.
  - apply (H' 0%nat); auto.
  - apply IH; [lia|]. intros k. apply (H' (S k)).
Qed.

(** A row that names no vertex. *)
Lemma triangulated_index limit vertices faces o tr sc f : In f faces ->
  (forall x, ~ index_of vertices (f0 f) x) \/ (forall x, ~ index_of vertices (f1 f) x) \/ (forall x, ~ index_of vertices (f2 f) x) ->
  triangulated_surface limit vertices faces o tr sc = (sc, Err IndexError).
Proof.
  intros I H.
  assert (Ca : forall g, (exists xs, Forall2 (fun c x => index_of vertices (g c) x) faces xs) \/ mapM (fun c => at_index vertices (g c)) faces = Err IndexError).
  { intros g. unfold mapM. clear. induction faces as [|c l IH]; [left; exists []; constructor|].
    cbn [map sequence]. destruct (at_index_cases vertices (g c)) as [(x & Hx)|E]; [|right; rewrite E; reflexivity].
    rewrite (at_index_ok _ _ _ Hx). cbn [bind]. destruct IH as [(xs & F)|E]; [left; exists (x :: xs); constructor; auto|right; rewrite E; reflexivity]. }
  assert (No : forall g xs, Forall2 (fun c x => index_of vertices (g c) x) faces xs -> exists x, index_of vertices (g f) x).
  { intros g xs F. clear - F I. induction F as [|c x l m Hc F IH]; [destruct I|]. destruct I as [->|I]; eauto. }
  unfold triangulated_surface.
  destruct (Ca f0) as [(x0 & F0)|E0]; [rewrite (bbind_ok _ _ _ _ _ (calc_ok _ _ _ (mapM_index vertices f0 faces x0 F0)))|unfold bbind, calc; rewrite E0; reflexivity].
  destruct (Ca f1) as [(x1 & F1)|E1]; [rewrite (bbind_ok _ _ _ _ _ (calc_ok _ _ _ (mapM_index vertices f1 faces x1 F1)))|unfold bbind, calc; rewrite E1; reflexivity].
  destruct (Ca f2) as [(x2 & F2)|E2]; [|unfold bbind, calc; rewrite E2; reflexivity].
  exfalso. destruct (No _ _ F0) as (? & ?). destruct (No _ _ F1) as (? & ?). destruct (No _ _ F2) as (? & ?).
  destruct H as [H|[H|H]]; eapply H; eauto.
Qed.
