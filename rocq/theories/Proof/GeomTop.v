(** The claims of [Spec.GeomIface] for each class. *)
From Coq Require Import Reals List Arith Bool Lra Lia Psatz.
From Verif.Base Require Import Py Num Vec.
From Verif.Model Require Import RayBundle Boundary Geometry.
From Verif.Spec Require Import GeometrySpec GeomIface.
From Verif.Proof Require Import ListLemmas NumLemmas VecLemmas FlatProof QuadProof GeomProof ShapeProof SelectProof.
Import ListNotations.
Local Open Scope R_scope.

Lemma finds_regular gm frame inv (P : vec -> vec -> num -> Prop) :
  regular gm = true -> inv_for gm frame inv ->
  (forall v d, P v d (param_of gm frame inv v d)) -> finds gm frame P.
Proof.
  intros Rg I H b vs ds Hb. eexists; eexists.
  split; [apply (find_regular gm frame inv b vs ds Rg I Hb)|].
  destruct Hb as (_ & _ & L). split; [apply map2_length; auto|].
  intros i v d x Hv Hd Hx. rewrite map2_nth_error, Hv, Hd in Hx.
  assert (param_of gm frame inv v d = x) as <- by congruence. apply H.
Qed.

Lemma rinv_for gm r t : orthonormal r -> inv_for gm (mk4 r t) (rinv r t).
Proof. intros O. apply inv_for_of, inv4_mk4, O. Qed.

Lemma inclined_mk4 r t d : inclined (mk4 r t) d <-> tenm 10 < Rabs (dot d (col3 r)).
Proof. unfold inclined. rewrite z_of_mk4. tauto. Qed.

Lemma flat_finds gm s frame : regular gm = true -> is_quad gm = false -> rigid frame ->
  (forall r t v d, orthonormal r -> tenm 10 < Rabs (dot d (col3 r)) ->
     first_hit0 (placed (mk4 r t) s) v d (param_of gm (mk4 r t) (rinv r t) v d)) ->
  finds gm frame (flat_answer frame s).
Proof.
  intros Rg Q (r & t & -> & O) H. apply (finds_regular gm _ (rinv r t)); auto using rinv_for.
  intros v d. unfold flat_answer. rewrite inclined_mk4. split; intros K.
  - apply H; auto.
  - apply flat_parallel; auto. lra.
Qed.

Lemma plane_finds frame : rigid frame -> finds Flat frame (flat_answer frame xy_plane).
Proof. intros; apply flat_finds; auto using flat_hit. Qed.

Lemma new_rect_ok w h gm : new_rect_plate w h = Ok gm -> 0 < w /\ 0 < h /\ gm = RectPlate (w / 2) (h / 2).
Proof. unfold new_rect_plate. rdec; try discriminate. intros E. repeat split; auto; congruence. Qed.

Lemma rect_finds w h gm frame : new_rect_plate w h = Ok gm -> rigid frame ->
  finds gm frame (flat_answer frame (rectangle w h)).
Proof.
  intros E Rf. apply new_rect_ok in E as (_ & _ & ->). apply flat_finds; auto.
  intros. apply rect_hit; auto.
Qed.

Lemma new_round_ok r gm : new_round_plate r = Ok gm -> 0 < r /\ gm = RoundPlate r.
Proof. unfold new_round_plate. rdec; try discriminate. intros E. split; auto; congruence. Qed.

Lemma round_finds r gm frame : new_round_plate r = Ok gm -> rigid frame ->
  finds gm frame (flat_answer frame (disk r)).
Proof.
  intros E Rf. apply new_round_ok in E as (_ & ->). apply flat_finds; auto.
  intros. apply round_hit; auto.
Qed.

Lemma triangle_finds v0 v1 frame : rigid frame ->
  vz v0 = 0 -> vz v1 = 0 -> vx v0 * vy v1 - vx v1 * vy v0 <> 0 ->
  finds (new_triangle v0 v1) frame (flat_answer frame (triangle v0 v1)).
Proof. intros. apply flat_finds; auto. intros. apply triangle_hit; auto. Qed.

(** Linearly dependent corners: the trimming never applies. *)
Lemma degenerate_triangle v0 k frame v d t :
  flat_param frame v d = Fin t ->
  rigid frame -> forall inv, param_of (Triangle v0 (vscale k v0)) frame inv v d = Fin t.
Proof.
  intros E (r & c & -> & O) inv. unfold param_of, trimmed. cbn [is_quad out_of]. rewrite E.
  rewrite along_fin. set (p := ray_at v d t).
  enough (outside_triangle (mk4 r c) v0 (vscale k v0) (nfin p) = false) as -> by auto.
  unfold outside_triangle. rewrite loc_mk4, !app4_mk4.
  set (q := loc_pt r c p).
  assert (Eq : vsub p c = mv3 r q) by (apply loc_pt_back; auto).
  assert (R0 : forall v, vsub (vadd (mv3 r v) c) c = mv3 r v).
  { intros u. generalize (mv3 r u). intros [? ? ?]. destruct c. vunfold. veq; ring. }
  rewrite !R0.
  assert (W : forall u, nadd (nadd (nmul (nsub (Fin (vx p)) (Fin (vx c))) (Fin (vx u)))
                (nmul (nsub (Fin (vy p)) (Fin (vy c))) (Fin (vy u))))
                (nmul (nsub (Fin (vz p)) (Fin (vz c))) (Fin (vz u))) = Fin (dot (vsub p c) u)).
  { intros u. simpl. f_equal. }
  cbn [nx ny nz nfin]. rewrite !W, Eq, !orthonormal_dot by auto.
  assert (En : forall a b, nsub (Fin a) (Fin b) = Fin (a - b)) by (intros; simpl; f_equal; ring).
  cbn [nmul]. rewrite !En. cbn [ndivf]. unfold fdiv.
  assert (D0 : dot v0 (vscale k v0) * dot v0 (vscale k v0) - norm2 v0 * norm2 (vscale k v0) = 0)
    by (destruct v0; vunfold; ring).
  rewrite D0. destruct (Reqb_spec 0 0); [|lra].
  assert (N0 : dot v0 (vscale k v0) * dot q (vscale k v0) - norm2 (vscale k v0) * dot q v0 = 0)
    by (destruct v0, q; vunfold; ring).
  assert (N1 : dot v0 (vscale k v0) * dot q v0 - norm2 v0 * dot q (vscale k v0) = 0)
    by (destruct v0, q; vunfold; ring).
  rewrite N0, N1. unfold sgn_inf. destruct (Rltb_spec 0 0); [lra|]. reflexivity.
Qed.

(** ** Quadrics *)
Lemma new_sphere_ok r gm : new_sphere r = Ok gm -> 0 < r /\ gm = Sphere r.
Proof. unfold new_sphere, check_radius. rdec; cbn [bind]; try discriminate. intros E. split; auto; congruence. Qed.
Lemma new_hemisphere_ok r gm : new_hemisphere r = Ok gm -> 0 < r /\ gm = Hemisphere r.
Proof. unfold new_hemisphere, check_radius. rdec; cbn [bind]; try discriminate. intros E. split; auto; congruence. Qed.
Lemma new_cut_ok r bd gm : new_cut_sphere r bd = Ok gm -> 0 < r /\ gm = CutSphere r bd.
Proof. unfold new_cut_sphere, check_radius. rdec; cbn [bind]; try discriminate. intros E. split; auto; congruence. Qed.

Lemma sphere_finds rad gm frame : new_sphere rad = Ok gm -> rigid frame ->
  finds gm frame (fun v d x => tenm 10 < norm2 d -> first_hit (placed frame (ball_surface rad)) v d x).
Proof.
  intros E (r & t & -> & O). apply new_sphere_ok in E as (_ & ->).
  apply (finds_regular _ _ (rinv r t)); auto using rinv_for. intros; apply sphere_hit; auto.
Qed.

Lemma uncut_sphere_finds rad gm frame : new_cut_sphere rad None = Ok gm -> rigid frame ->
  finds gm frame (fun v d x => tenm 10 < norm2 d -> first_hit (placed frame (ball_surface rad)) v d x).
Proof.
  intros E (r & t & -> & O). apply new_cut_ok in E as (_ & ->).
  apply (finds_regular _ _ (rinv r t)); auto using rinv_for. intros; apply (sphere_hit r t rad); auto.
Qed.

Lemma hemisphere_finds rad gm frame : new_hemisphere rad = Ok gm -> rigid frame ->
  finds_one gm frame (fun v d x => tenm 10 < norm2 d ->
    first_hit (placed frame (lower_half (ball_surface rad))) v d x).
Proof.
  intros E (r & t & -> & O) b v d Hb. apply new_hemisphere_ok in E as (_ & ->).
  eexists; eexists. split.
  - apply (find_single (Hemisphere rad) (mk4 r t) (rinv r t) (ok_of (Hemisphere rad) (rinv r t)) b v d);
      auto using rinv_for. reflexivity.
  - intros H. apply (hemisphere_hit r t rad v d O H).
Qed.

Lemma cut_sphere_finds rad bd gm frame : new_cut_sphere rad (Some bd) = Ok gm -> rigid frame ->
  sphere_or_plane bd ->
  finds_one gm frame (fun v d x => tenm 10 < norm2 d ->
    first_hit (placed frame (fun q => ball_surface rad q /\ volume bd q)) v d x).
Proof.
  intros E (r & t & -> & O) Hbd b v d Hb. apply new_cut_ok in E as (_ & ->).
  assert (K : exists okb, bound_test bd (mk4 r t) okb /\
            forall p, okb (nfin p) = true <-> placed (mk4 r t) (bound_shape bd) p).
  { destruct bd as [c rb|rb tr|tr|tr]; try contradiction.
    - exists (in_sphere (app4 (mk4 r t) c) rb). split; [intros p q; reflexivity|].
      intros p. apply ball_placed; auto.
    - destruct Hbd as (r' & t' & -> & O'). destruct (plane_placed r t r' t' O O') as (i & Hi & Hp).
      exists (plane_ok i). split; [|exact Hp].
      intros p q. unfold transform_frame_b, in_bounds. rewrite Hi. reflexivity. }
  destruct K as (okb & K1 & K2).
  eexists; eexists. split.
  - apply (find_single (CutSphere rad (Some bd)) (mk4 r t) (rinv r t) okb b v d);
      auto using rinv_for.
  - intros H. apply (cut_sphere_hit r t rad bd okb v d O H K2).
Qed.

Lemma rigid_local r t d l : orthonormal r -> d = mv3 (rot_of (mk4 r t)) l -> mv3 (tr3 r) d = l.
Proof. intros O ->. rewrite rot_mk4. apply tr3_mv3; auto. Qed.
Lemma rigid_local_pt r t v q : orthonormal r -> v = app4 (mk4 r t) q -> loc_pt r t v = q.
Proof. intros O ->. rewrite <- app4_inv. apply mk4_inverse; auto. Qed.

Lemma cylinder_safe_steady r t D v d : orthonormal r -> cylinder_safe (mk4 r t) D v d ->
  steady_cylinder (D / 2) (loc_pt r t v) (mv3 (tr3 r) d).
Proof.
  intros O (l & q & Ed & Ev & H). rewrite (rigid_local r t d l O Ed), (rigid_local_pt r t v q O Ev).
  exact H.
Qed.

Lemma cylinder_finds D frame : rigid frame ->
  finds (new_cylinder D) frame (fun v d x => cylinder_safe frame D v d ->
    first_hit (placed frame (round_wall D)) v d x).
Proof.
  intros (r & t & -> & O). apply (finds_regular _ _ (rinv r t)); auto using rinv_for.
  intros v d H. apply cylinder_hit; auto. apply cylinder_safe_steady; auto.
Qed.

Lemma finite_cylinder_finds D h frame : rigid frame ->
  finds (new_finite_cylinder D h) frame (fun v d x => cylinder_safe frame D v d ->
    first_hit (placed frame (round_wall_of_height D h)) v d x).
Proof.
  intros (r & t & -> & O). apply (finds_regular _ _ (rinv r t)); auto using rinv_for.
  intros v d H. apply finite_cylinder_hit; auto. apply cylinder_safe_steady; auto.
Qed.

Lemma bowl_safe_steady r t a b d : orthonormal r -> a <> 0 -> b <> 0 -> bowl_safe (mk4 r t) a b d ->
  steady_parab (1 / (a * a)) (1 / (b * b)) (mv3 (tr3 r) d).
Proof.
  intros O Ha Hb (l & Ed & H). rewrite (rigid_local r t d l O Ed). unfold steady_parab.
  replace (1 / (a * a) * (vx l * vx l)) with (vx l / a * (vx l / a)) by (field; auto).
  replace (1 / (b * b) * (vy l * vy l)) with (vy l / b * (vy l / b)) by (field; auto). exact H.
Qed.

Lemma new_parab_ok a b gm : new_parab a b = Ok gm ->
  a <> 0 /\ b <> 0 /\ gm = Parab (1 / (a * a)) (1 / (b * b)).
Proof.
  unfold new_parab. destruct (Reqb_spec (a * a) 0) as [|N]; [discriminate|].
  destruct (Reqb_spec (b * b) 0) as [|M]; [discriminate|].
  intros E. apply Ok_inj in E. repeat split; auto.
  - intros ->. apply N. ring.
  - intros ->. apply M. ring.
Qed.

Lemma parab_finds a b gm frame : new_parab a b = Ok gm -> rigid frame ->
  finds gm frame (fun v d x => bowl_safe frame a b d ->
    first_hit (placed frame (elliptic_bowl a b)) v d x).
Proof.
  intros E (r & t & -> & O). apply new_parab_ok in E as (Ha & Hb & ->).
  apply (finds_regular _ _ (rinv r t)); auto using rinv_for.
  intros v d H. apply parab_hit; auto. eapply bowl_safe_steady; eauto.
Qed.

Lemma focal_steady f r t d : 0 < f -> orthonormal r -> bowl_safe (mk4 r t) (2 * sqrt f) (2 * sqrt f) d ->
  steady_parab (1 / (4 * f)) (1 / (4 * f)) (mv3 (tr3 r) d).
Proof.
  intros Hf O H. pose proof (sqrt_lt_R0 f Hf).
  rewrite <- (par_param_sq f Hf). eapply bowl_safe_steady; eauto; lra.
Qed.

Lemma par_pos f : 0 < f -> par_param f = Ok (2 * sqrt f) /\ 2 * sqrt f * (2 * sqrt f) <> 0.
Proof.
  intros Hf. unfold par_param. rdec; [lra|]. split; auto. rewrite par_param_sq; lra.
Qed.

Lemma new_dish_ok D f gm : new_dish D f = Ok gm -> 0 < f /\ gm = dish_of D f.
Proof.
  unfold new_dish, par_param. destruct (Rltb_spec f 0); cbn [bind]; [discriminate|].
  destruct (Reqb_spec (2 * sqrt f * (2 * sqrt f)) 0) as [|N]; [discriminate|].
  intros E. split; [|symmetry; apply Ok_inj; exact E].
  destruct (Req_dec f 0) as [->|]; [|lra]. exfalso. apply N. rewrite sqrt_0. ring.
Qed.
Lemma new_hex_ok D f gm : new_hex_dish D f = Ok gm -> 0 < f /\ gm = hex_of D f.
Proof.
  unfold new_hex_dish, par_param. destruct (Rltb_spec f 0); cbn [bind]; [discriminate|].
  destruct (Reqb_spec (2 * sqrt f * (2 * sqrt f)) 0) as [|N]; [discriminate|].
  intros E. split; [|symmetry; apply Ok_inj; exact E].
  destruct (Req_dec f 0) as [->|]; [|lra]. exfalso. apply N. rewrite sqrt_0. ring.
Qed.

Lemma dish_finds D f gm frame : new_dish D f = Ok gm -> rigid frame ->
  finds gm frame (fun v d x => bowl_safe frame (2 * sqrt f) (2 * sqrt f) d ->
    first_hit (placed frame (round_dish D f)) v d x).
Proof.
  intros E (r & t & -> & O). apply new_dish_ok in E as (Hf & ->).
  apply (finds_regular _ _ (rinv r t)); auto using rinv_for.
  intros v d H. apply dish_hit; auto. eapply focal_steady; eauto.
Qed.

Lemma hex_finds D f gm frame : new_hex_dish D f = Ok gm -> rigid frame ->
  finds gm frame (fun v d x => bowl_safe frame (2 * sqrt f) (2 * sqrt f) d ->
    first_hit (placed frame (hex_dish D f)) v d x).
Proof.
  intros E (r & t & -> & O). apply new_hex_ok in E as (Hf & ->).
  apply (finds_regular _ _ (rinv r t)); auto using rinv_for.
  intros v d H. apply hex_hit; auto. eapply focal_steady; eauto.
Qed.

(** ** Independence of the other rays *)
Lemma independent gm frame b vs ds st ps i v d b1 : regular gm = true ->
  has_rays b vs ds -> find_intersections gm frame b = Ok (st, ps) ->
  nth_error vs i = Some v -> nth_error ds i = Some d -> has_rays b1 [v] [d] ->
  exists st1 x, nth_error ps i = Some x /\ find_intersections gm frame b1 = Ok (st1, [x]).
Proof.
  intros Rg Hb H Hv Hd H1. destruct (find_inv _ _ _ _ _ Rg H) as (inv & I).
  rewrite (find_regular gm frame inv b vs ds Rg I Hb) in H. injection H as <- <-.
  rewrite (find_regular gm frame inv b1 [v] [d] Rg I H1).
  eexists; eexists. rewrite map2_nth_error, Hv, Hd. split; reflexivity.
Qed.

(** ** Points and normals *)
Lemma point_of_picked b vs ds ps i k : has_rays b vs ds -> picked vs ds ps i k ->
  point_of b ps i (pick_pt k) /\ direction_of b i (pk_d k).
Proof.
  intros Hb (Hv & Hd & Hp). split.
  - exists vs, ds, (pk_v k), (pk_d k), (pk_t k). auto.
  - exists vs, ds. auto.
Qed.

Lemma Forall2_map_r {A B C} (P : A -> C -> Prop) (f : B -> C) l k :
  Forall2 (fun a b => P a (f b)) l k -> Forall2 P l (map f k).
Proof. induction 1; simpl; auto. Qed.

Lemma points_reported gm frame b st ps idxs st' : find_intersections gm frame b = Ok (st, ps) ->
  all_hit ps idxs -> select_geom gm st idxs = Ok st' ->
  exists pts, get_points st' = Ok pts /\ Forall2 (point_of b ps) idxs pts.
Proof.
  intros H Ha Hs. destruct (find_bundle _ _ _ _ _ H) as (vs & ds & Hb).
  destruct (find_state _ _ _ _ _ _ _ Hb H) as (dt & _ & Lp & _).
  destruct (all_picked vs ds ps idxs Lp (proj2 (proj2 Hb)) Ha) as (ks & F).
  exists (map pick_pt ks). split.
  - destruct (is_quad gm) eqn:Q.
    + rewrite (select_quad _ _ _ _ _ _ _ _ _ Hb Q H F) in Hs.
      destruct (normals _ _ _ _); [|discriminate]. cbn [bind] in Hs. injection Hs as <-. reflexivity.
    + rewrite (select_flat _ _ _ _ _ _ _ _ _ Hb Q H F) in Hs. injection Hs as <-. reflexivity.
  - apply Forall2_map_r. eapply Forall2_impl; [|exact F]. intros i k K.
    apply (point_of_picked b vs ds ps i k Hb K).
Qed.

Lemma gradient_ok gm q : exists c, c <> 0 /\ is_gradient (implicit gm) q (vscale c (gradient gm q)).
Proof.
  assert (Dx : forall x, derivable_pt_lim (fun x => x) x 1) by apply derivable_pt_lim_id.
  assert (Dc : forall c x, derivable_pt_lim (fun _ => c) x 0) by (intros; apply derivable_pt_lim_const).
  assert (Q : forall k a c x, derivable_pt_lim (fun x => k * (x * x) + a * x + c) x (2 * k * x + a)).
  { intros k a c x.
    replace (2 * k * x + a) with ((k * (1 * x + x * 1)) + (a * 1) + 0) by ring.
    apply (derivable_pt_lim_plus (fun x => k * (x * x) + a * x) (fun _ => c)); auto.
    apply (derivable_pt_lim_plus (fun x => k * (x * x)) (fun x => a * x)).
    - apply (derivable_pt_lim_scal (fun x => x * x)).
      apply (derivable_pt_lim_mult (fun x => x) (fun x => x)); auto.
    - apply (derivable_pt_lim_scal (fun x => x)); auto. }
  assert (E : forall f k a c x l, (forall x, f x = k * (x * x) + a * x + c) -> l = 2 * k * x + a ->
              derivable_pt_lim f x l).
  { intros f k a c x l Hf ->. intros eps He. destruct (Q k a c x eps He) as (dl & Hd).
    exists dl. intros h Hh Hl. rewrite !Hf. apply Hd; auto. }
  destruct q as [x y z].
  assert (P3 : forall gm c kx ax cx ky ay cy kz az cz,
     c <> 0 ->
     (forall u, implicit gm (V3 u y z) = kx * (u * u) + ax * u + cx) ->
     (forall u, implicit gm (V3 x u z) = ky * (u * u) + ay * u + cy) ->
     (forall u, implicit gm (V3 x y u) = kz * (u * u) + az * u + cz) ->
     c * vx (gradient gm (V3 x y z)) = 2 * kx * x + ax ->
     c * vy (gradient gm (V3 x y z)) = 2 * ky * y + ay ->
     c * vz (gradient gm (V3 x y z)) = 2 * kz * z + az ->
     exists c, c <> 0 /\ is_gradient (implicit gm) (V3 x y z) (vscale c (gradient gm (V3 x y z)))).
  { intros g c kx ax cx ky ay cy kz az cz Hc H1 H2 H3 G1 G2 G3. exists c. split; auto.
    unfold is_gradient. cbn [vscale vx vy vz]. repeat split; eapply E; eauto. }
  destruct gm; cbn [implicit gradient];
    match goal with
    | |- exists c, c <> 0 /\ is_gradient (implicit ?g) _ _ => idtac
    | _ => idtac
    end.
  1-5: apply (P3 Flat 1 0 0 z 0 0 z 0 1 0); simpl; intros; lra.
  1-3: apply (P3 (Sphere radius) 2 1 0 (y*y+z*z-radius*radius) 1 0 (x*x+z*z-radius*radius) 1 0 (x*x+y*y-radius*radius));
       cbn; intros; try lra; vunfold; ring.
  1-2: apply (P3 (Cylinder radius) 2 1 0 (y*y-radius*radius) 1 0 (x*x-radius*radius) 0 0 (x*x+y*y-radius*radius));
       cbn; intros; try lra; vunfold; ring.
  all: apply (P3 (Parab a b) 1 a 0 (b*(y*y)-z) b 0 (a*(x*x)-z) 0 (-1) (a*(x*x)+b*(y*y)));
       cbn; intros; try lra; vunfold; ring.
Qed.

Lemma good_normal_scale frame c g d n : c <> 0 -> good_normal frame g d n ->
  good_normal frame (vscale c g) d n.
Proof.
  intros Hc (U & (k & E) & Hd). split; auto. split; auto. exists (k / c).
  rewrite mv3_vscale. rewrite E. generalize (mv3 (rot_of frame) g). intros [? ? ?].
  vunfold. veq; field; auto.
Qed.

Lemma normals_reported gm frame b st ps idxs st' : rigid frame ->
  find_intersections gm frame b = Ok (st, ps) -> all_hit ps idxs -> select_geom gm st idxs = Ok st' ->
  exists ns, get_normals st' = Ok ns /\
    Forall2 (fun i n => exists d p q g, direction_of b i d /\ point_of b ps i p /\ p = app4 frame q /\
               is_gradient (implicit gm) q g /\ good_normal frame g d n) idxs ns.
Proof.
  intros (r & t & -> & O) H Ha Hs. destruct (find_bundle _ _ _ _ _ H) as (vs & ds & Hb).
  destruct (find_state _ _ _ _ _ _ _ Hb H) as (dt & _ & Lp & _).
  destruct (all_picked vs ds ps idxs Lp (proj2 (proj2 Hb)) Ha) as (ks & F).
  assert (Fin : forall ns, Forall2 (fun k n => good_normal (mk4 r t) (gradient gm (loc_pt r t (pick_pt k))) (pk_d k) n) ks ns ->
    Forall2 (fun i n => exists d p q g, direction_of b i d /\ point_of b ps i p /\ p = app4 (mk4 r t) q /\
               is_gradient (implicit gm) q g /\ good_normal (mk4 r t) g d n) idxs ns).
  { intros ns G. clear H Ha Hs. revert ns G. induction F as [|i k idxs ks K F IH]; intros ns G.
    - inversion G; constructor.
    - inversion G as [|? n ? ns' Gn G']; subst. constructor; auto.
      destruct (point_of_picked b vs ds ps i k Hb K) as (K1 & K2).
      destruct (gradient_ok gm (loc_pt r t (pick_pt k))) as (c & Hc & Hg).
      exists (pk_d k), (pick_pt k), (loc_pt r t (pick_pt k)), (vscale c (gradient gm (loc_pt r t (pick_pt k)))).
      repeat split; auto.
      + rewrite <- app4_inv, mk4_inverse'; auto.
      + apply Hg.
      + apply Hg.
      + apply Hg.
      + apply (good_normal_scale _ c _ _ _ Hc Gn).
      + apply (good_normal_scale _ c _ _ _ Hc Gn).
      + apply (good_normal_scale _ c _ _ _ Hc Gn). }
  destruct (is_quad gm) eqn:Q.
  - rewrite (select_quad _ _ _ _ _ _ _ _ _ Hb Q H F) in Hs.
    destruct (normals _ _ _ _) as [ns|] eqn:En; [|discriminate]. cbn [bind] in Hs. injection Hs as <-.
    exists ns. split; auto. apply Fin. apply normals_good; auto.
  - rewrite (select_flat _ _ _ _ _ _ _ _ _ Hb Q H F) in Hs. apply Ok_inj in Hs. subst st'.
    eexists. split; [reflexivity|].
    rewrite flat_normals by (eapply ListLemmas.Forall2_length; eauto).
    apply Fin. apply Forall2_map_r. clear - O Q. induction ks as [|k ks IH]; constructor; auto.
    assert (E : gradient gm (loc_pt r t (pick_pt k)) = V3 0 0 1) by (destruct gm; try discriminate; reflexivity).
    rewrite E. apply flat_normal_good; auto.
Qed.

Lemma select_total gm frame b st ps idxs : rigid frame ->
  find_intersections gm frame b = Ok (st, ps) -> all_hit ps idxs ->
  (forall i p q g, In i idxs -> point_of b ps i p -> p = app4 frame q ->
     is_gradient (implicit gm) q g -> norm2 g <> 0) ->
  exists st', select_geom gm st idxs = Ok st'.
Proof.
  intros (r & t & -> & O) H Ha Hg. destruct (find_bundle _ _ _ _ _ H) as (vs & ds & Hb).
  destruct (find_state _ _ _ _ _ _ _ Hb H) as (dt & _ & Lp & _).
  destruct (all_picked vs ds ps idxs Lp (proj2 (proj2 Hb)) Ha) as (ks & F).
  destruct (is_quad gm) eqn:Q.
  - rewrite (select_quad _ _ _ _ _ _ _ _ _ Hb Q H F).
    destruct (normals_total gm r t ks O Q) as (ns & ->); [|cbn [bind]; eauto].
    intros k Hk. destruct (In_nth_error _ _ Hk) as (j & Hj).
    assert (exists i, nth_error idxs j = Some i) as (i & Hi).
    { destruct (nth_error idxs j) eqn:E; eauto. apply nth_error_None in E.
      assert (j < length ks)%nat by (apply nth_error_Some; congruence).
      pose proof (ListLemmas.Forall2_length _ _ _ F). lia. }
    pose proof (proj2 (proj1 (Forall2_nth _ _ _) F) j i k Hi Hj) as K.
    destruct (gradient_ok gm (loc_pt r t (pick_pt k))) as (c & Hc & G).
    assert (N : norm2 (vscale c (gradient gm (loc_pt r t (pick_pt k)))) <> 0).
    { apply (Hg i (pick_pt k) (loc_pt r t (pick_pt k))); auto.
      - eapply nth_error_In; eauto.
      - apply (point_of_picked b vs ds ps i k Hb K).
      - rewrite <- app4_inv, mk4_inverse'; auto. }
    unfold has_normal. intros Z. apply N. apply norm2_zero in Z. rewrite Z.
    unfold norm2, dot, vscale, vzero. cbn [vx vy vz]. ring.
  - rewrite (select_flat _ _ _ _ _ _ _ _ _ Hb Q H F). eauto.
Qed.
