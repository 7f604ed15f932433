(** Flat geometry managers: one ray at a time, and what they find. *)
From Coq Require Import Reals List Arith Bool Lra Lia Psatz.
From Verif.Base Require Import Py Num Vec.
From Verif.Model Require Import RayBundle Boundary Geometry.
From Verif.Spec Require Import GeometrySpec.
From Verif.Proof Require Import ListLemmas NumLemmas VecLemmas.
Import ListNotations.
Local Open Scope R_scope.

(** Two equally long lists as one list of pairs. *)
Lemma combine_fst {A B} (l : list A) (k : list B) : length l = length k -> map fst (combine l k) = l.
Proof. revert k; induction l; intros [|b k] H; simpl in *; try discriminate; auto. f_equal; auto. Qed.
Lemma combine_snd {A B} (l : list A) (k : list B) : length l = length k -> map snd (combine l k) = k.
Proof. revert k; induction l; intros [|b k] H; simpl in *; try discriminate; auto. f_equal; auto. Qed.

Lemma repeat_map {A B} (x : B) (l : list A) : repeat x (length l) = map (fun _ => x) l.
Proof. induction l; simpl; congruence. Qed.

Lemma map3_map {A B C D E} (f : B -> C -> D -> E) (g : A -> B) (h : A -> C) (i : A -> D) l :
  map3 f (map g l) (map h l) (map i l) = map (fun a => f (g a) (h a) (i a)) l.
Proof. induction l; simpl; congruence. Qed.

(** The parameter found for one ray. *)
Definition flat_param (frame : mat4) (v d : vec) : num :=
  let z := zaxis frame in
  if Rltb (tenm 10) (Rabs (dot d z)) then
    let t := - dot z (vsub v (loc_of frame)) / dot d z in
    if Rltb t 0 then PInf else Fin t
  else PInf.

Lemma flat_find_map frame vs ds : length vs = length ds ->
  flat_find frame vs ds =
    (map2 (flat_param frame) vs ds, map (fun d => Rltb 0 (dot d (zaxis frame))) ds).
Proof.
  intros L. pose proof (combine_fst vs ds L) as E1. pose proof (combine_snd vs ds L) as E2.
  revert E1 E2. generalize (combine vs ds) as l. intros l <- <-. clear.
  unfold flat_find. rewrite !map_map, !map_length.
  rewrite (mask_select_map (fun x => vsub (fst x) (loc_of frame))).
  rewrite (mask_select_map (fun x => dot (snd x) (zaxis frame))).
  rewrite !map_map, map2_map, repeat_map, put_mask_pointwise, map_map, fill_mask_pointwise, map2_map.
  f_equal. apply map_ext. intros [v d]. unfold flat_param. cbn [fst snd].
  destruct (Rltb (tenm 10) (Rabs (dot d (zaxis frame)))); auto.
Qed.

Lemma flat_param_proper frame v d : proper_param (flat_param frame v d).
Proof. unfold flat_param. rdec; simpl; auto. Qed.

Lemma flat_param_cases frame v d :
  flat_param frame v d = PInf \/ exists t, flat_param frame v d = Fin t.
Proof. unfold flat_param. rdec; eauto. Qed.

Lemma zaxis_mk4 r t : zaxis (mk4 r t) = col3 r.
Proof. destruct r as [[? ? ?] [? ? ?] [? ? ?]], t. reflexivity. Qed.
Lemma z_of_mk4 r t : z_of (mk4 r t) = col3 r.
Proof.
  unfold z_of. rewrite rot_mk4. destruct r as [[? ? ?] [? ? ?] [? ? ?]]. vunfold. veq; ring.
Qed.

(** Local coordinates under a rigid frame. *)
Definition loc_pt (r : mat3) (t p : vec) : vec := mv3 (tr3 r) (vsub p t).

Lemma app4_inv r t p : app4 (mk4 (tr3 r) (vopp (mv3 (tr3 r) t))) p = loc_pt r t p.
Proof.
  unfold loc_pt. rewrite app4_mk4, mv3_vsub. generalize (mv3 (tr3 r) p) (mv3 (tr3 r) t).
  intros [? ? ?] [? ? ?]. vunfold. veq; ring.
Qed.

Lemma loc_pt_ray r t v d u : loc_pt r t (ray_at v d u) = ray_at (loc_pt r t v) (mv3 (tr3 r) d) u.
Proof. rewrite <- !app4_inv. apply app4_ray. Qed.

Lemma placed_loc r t s p : orthonormal r -> placed (mk4 r t) s p <-> s (loc_pt r t p).
Proof. intros H. rewrite placed_local, app4_inv by auto. tauto. Qed.

Lemma loc_pt_z r t p : vz (loc_pt r t p) = dot (col3 r) (vsub p t).
Proof. reflexivity. Qed.

Lemma loc_pt_back r t p : orthonormal r -> vsub p t = mv3 r (loc_pt r t p).
Proof. intros H. unfold loc_pt. rewrite mv3_tr3; auto. Qed.

(** The plane: [flat_param] is the parameter of the only point on the plane. *)
Lemma flat_param_plane r t v d : tenm 10 < Rabs (dot d (col3 r)) ->
  let lv := loc_pt r t v in let ld := mv3 (tr3 r) d in
  vz ld <> 0 /\
  flat_param (mk4 r t) v d = (if Rltb (- vz lv / vz ld) 0 then PInf else Fin (- vz lv / vz ld)).
Proof.
  intros H lv ld. pose proof (tenm_pos 10) as T.
  assert (E : dot d (col3 r) = vz ld).
  { unfold ld. destruct r as [[? ? ?] [? ? ?] [? ? ?]], d. vunfold. ring. }
  split.
  - intros Z. rewrite E, Z, Rabs_R0 in H. lra.
  - unfold flat_param. rewrite zaxis_mk4, loc_mk4.
    destruct (Rltb_spec (tenm 10) (Rabs (dot d (col3 r)))); [|lra].
    rewrite <- (loc_pt_z r t v), E. auto.
Qed.

Lemma plane_param_unique a b u : b <> 0 -> a + u * b = 0 <-> u = - a / b.
Proof.
  intros H; split; intros E.
  - replace a with (- (u * b)) by lra. field; auto.
  - subst u. field; auto.
Qed.

(** Trimming the plane by a test that recognises a part of it. *)
Definition trimmed (outside : nvec -> bool) (v d : vec) (p : num) : num :=
  if outside (along v d p) then PInf else p.

Lemma flat_first_hit r t (s : shape) (outside : nvec -> bool) v d :
  orthonormal r -> tenm 10 < Rabs (dot d (col3 r)) ->
  (forall q, s q -> vz q = 0) ->
  (forall p, vz (loc_pt r t p) = 0 -> outside (nfin p) = false <-> s (loc_pt r t p)) ->
  first_hit0 (placed (mk4 r t) s) v d (trimmed outside v d (flat_param (mk4 r t) v d)).
Proof.
  intros O H Hs Hout. destruct (flat_param_plane r t v d H) as (Hz & ->).
  set (lv := loc_pt r t v) in *. set (ld := mv3 (tr3 r) d) in *.
  assert (P : forall u, vz (loc_pt r t (ray_at v d u)) = vz lv + u * vz ld).
  { intros u. rewrite loc_pt_ray. reflexivity. }
  assert (U : forall u, placed (mk4 r t) s (ray_at v d u) -> u = - vz lv / vz ld).
  { intros u Hu. rewrite placed_loc in Hu by auto. apply Hs in Hu. rewrite P in Hu.
    apply plane_param_unique in Hu; auto. }
  unfold first_hit0, trimmed.
  destruct (Rltb_spec (- vz lv / vz ld) 0) as [N|N].
  - replace (if outside (along v d PInf) then PInf else PInf) with PInf by (destruct (outside _); auto).
    cbn [least]. intros u (H0 & Hu). apply U in Hu. lra.
  - set (t0 := - vz lv / vz ld) in *. rewrite along_fin.
    assert (Z : vz (loc_pt r t (ray_at v d t0)) = 0).
    { rewrite P. apply plane_param_unique; auto. }
    destruct (outside (nfin (ray_at v d t0))) eqn:Eo; cbn [least].
    + intros u (H0 & Hu). pose proof (U u Hu); subst u. rewrite placed_loc in Hu by auto.
      apply (Hout _ Z) in Hu. congruence.
    + split; [split; auto|].
      * rewrite placed_loc by auto. apply Hout; auto.
      * intros u (_ & Hu). apply U in Hu. lra.
Qed.

Lemma flat_no_hit r t v d : Rabs (dot d (col3 r)) <= tenm 10 -> flat_param (mk4 r t) v d = PInf.
Proof. intros H. unfold flat_param. rewrite zaxis_mk4. rdec; auto; lra. Qed.

Lemma trimmed_no_hit outside v d : trimmed outside v d PInf = PInf.
Proof. unfold trimmed. destruct (outside _); auto. Qed.

Lemma trimmed_false v d p : trimmed (fun _ => false) v d p = p.
Proof. reflexivity. Qed.

(** The tests of the finite plates, on finite points. *)
Lemma ndot4_inv r t p :
  let i := mk4 (tr3 r) (vopp (mv3 (tr3 r) t)) in
  ndot4 (q0 i) (nfin p) = Fin (vx (loc_pt r t p)) /\
  ndot4 (q1 i) (nfin p) = Fin (vy (loc_pt r t p)) /\
  ndot4 (q2 i) (nfin p) = Fin (vz (loc_pt r t p)).
Proof. intros i. rewrite !ndot4_fin, <- app4_inv. repeat split. Qed.

Lemma outside_rect_spec r t w h p :
  let i := mk4 (tr3 r) (vopp (mv3 (tr3 r) t)) in
  vz (loc_pt r t p) = 0 ->
  outside_rect i (w / 2) (h / 2) (nfin p) = false <-> rectangle w h (loc_pt r t p).
Proof.
  intros i Z. unfold outside_rect, rectangle. destruct (ndot4_inv r t p) as (E0 & E1 & _).
  fold i in E0, E1. rewrite E0, E1. cbn [nlt nabs nadd nmul].
  rewrite orb_false_iff, !Rltb_false. unfold Rabs.
  generalize (w / 2) (h / 2). intros a b.
  destruct (Rcase_abs (vx (loc_pt r t p))), (Rcase_abs (vy (loc_pt r t p)));
    (split; [intros (A & B); repeat split; try assumption; lra|intros (A & B & C); split; lra]).
Qed.

Lemma outside_round_spec r t rad p :
  let i := mk4 (tr3 r) (vopp (mv3 (tr3 r) t)) in
  vz (loc_pt r t p) = 0 ->
  outside_round i rad (nfin p) = false <-> disk rad (loc_pt r t p).
Proof.
  intros i Z. unfold outside_round, disk. destruct (ndot4_inv r t p) as (E0 & E1 & _).
  fold i in E0, E1. rewrite E0, E1. cbn [nlt nabs nadd nmul]. rewrite Rltb_false. tauto.
Qed.

(** Linear independence of two vectors of the XY plane. *)
Lemma outside_triangle_spec r t v0 v1 p : orthonormal r ->
  vz v0 = 0 -> vz v1 = 0 -> vx v0 * vy v1 - vx v1 * vy v0 <> 0 ->
  vz (loc_pt r t p) = 0 ->
  outside_triangle (mk4 r t) v0 v1 (nfin p) = false <-> triangle v0 v1 (loc_pt r t p).
Proof.
  intros O Z0 Z1 Hd Z. unfold outside_triangle. rewrite loc_mk4, !app4_mk4.
  set (q := loc_pt r t p) in *.
  assert (Eq : vsub p t = mv3 r q) by (apply loc_pt_back; auto).
  assert (R0 : forall v, vsub (vadd (mv3 r v) t) t = mv3 r v).
  { intros v. generalize (mv3 r v). intros [? ? ?]. destruct t. vunfold. veq; ring. }
  rewrite !R0.
  assert (W : forall u, nadd (nadd (nmul (nsub (Fin (vx p)) (Fin (vx t))) (Fin (vx u)))
                (nmul (nsub (Fin (vy p)) (Fin (vy t))) (Fin (vy u))))
                (nmul (nsub (Fin (vz p)) (Fin (vz t))) (Fin (vz u))) = Fin (dot (vsub p t) u)).
  { intros u. simpl. f_equal. }
  cbn [nx ny nz nfin]. rewrite !W, Eq, !orthonormal_dot by auto.
  assert (En : forall a b, nsub (Fin a) (Fin b) = Fin (a - b)) by (intros; simpl; f_equal; ring).
  cbn [nmul]. rewrite !En.
  set (D := vx v0 * vy v1 - vx v1 * vy v0) in *.
  assert (Ed : dot v0 v1 * dot v0 v1 - norm2 v0 * norm2 v1 = - (D * D)).
  { unfold D. destruct v0 as [x0 y0 z0], v1 as [x1 y1 z1]. simpl in Z0, Z1. subst. vunfold. ring. }
  assert (DD : - (D * D) <> 0) by nra.
  rewrite Ed. cbn [ndivf]. unfold fdiv. destruct (Reqb_spec (- (D * D)) 0); [contradiction|].
  set (b0 := (dot v0 v1 * dot q v1 - norm2 v1 * dot q v0) / - (D * D)).
  set (b1 := (dot v0 v1 * dot q v0 - norm2 v0 * dot q v1) / - (D * D)).
  assert (B0 : b0 = (vx q * vy v1 - vx v1 * vy q) / D).
  { unfold b0. replace (dot v0 v1 * dot q v1 - norm2 v1 * dot q v0)
      with (- D * (vx q * vy v1 - vx v1 * vy q)).
    - field; auto.
    - unfold D. destruct v0 as [x0 y0 z0], v1 as [x1 y1 z1]. simpl in Z0, Z1. subst. vunfold. ring. }
  assert (B1 : b1 = (vx v0 * vy q - vx q * vy v0) / D).
  { unfold b1. replace (dot v0 v1 * dot q v0 - norm2 v0 * dot q v1)
      with (- D * (vx v0 * vy q - vx q * vy v0)).
    - field; auto.
    - unfold D. destruct v0 as [x0 y0 z0], v1 as [x1 y1 z1]. simpl in Z0, Z1. subst. vunfold. ring. }
  cbn [nadd nlt]. rewrite !orb_false_iff, !Rltb_false.
  assert (Q : q = vadd (vscale b0 v0) (vscale b1 v1)).
  { rewrite B0, B1. apply vec_eq; cbn [vadd vscale vx vy vz].
    - unfold D. field. auto.
    - unfold D. field. auto.
    - rewrite Z0, Z1, Z. ring. }
  split.
  - intros ((H0 & H1) & H2). exists b0, b1. tauto.
  - intros (s & u & Hs & Hu & Hsu & E).
    assert (b0 = s /\ b1 = u) as (-> & ->); [|lra].
    rewrite B0, B1, E. cbn [vadd vscale vx vy vz]. unfold D. split; field; auto.
Qed.
