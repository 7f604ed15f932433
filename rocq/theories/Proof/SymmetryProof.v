(** What the symmetry of a scene keeps along every path of light. *)
From Coq Require Import Reals String List Arith Bool Lia Lra Psatz.
From Verif.Base Require Import Py Num Vec.
From Verif.Model Require Import RayBundle Geometry TraceTree Sources Optics OpticsCallables Engine Surface.
From Verif.Proof Require Import CallProof DrawProof ListLemmas NumLemmas VecLemmas BundleProof GeomTop SelectProof DishProof LibraryTop LawProof.
From Verif.Spec Require Import BundleSpec EngineSpec GeometrySpec GeomIface OpticsSpec LibrarySpec LawSpec.
Import ListNotations.
Local Open Scope R_scope.

Ltac open_vec := unfold norm2, tangential, vadd, vscale, vsub, cross, dot in *; cbn [vx vy vz] in *.

(** ** Directions *)
Lemma tangential_comb a b d n : is_unit n -> tangential (vadd (vscale a d) (vscale b n)) n = vscale a (tangential d n).
Proof.
  unfold is_unit. destruct n as [nx ny nz], d as [x y z]. open_vec. intros Un.
  assert (K : forall c, b * c * (1 - (nx * nx + ny * ny + nz * nz)) = 0) by (intros; rewrite Un; ring).
  pose proof (K nx). pose proof (K ny). pose proof (K nz). f_equal; lra.
Qed.

Lemma tangential_cross d n : is_unit n -> norm2 (cross d n) = norm2 (tangential d n).
Proof.
  unfold is_unit. destruct n as [nx ny nz], d as [x y z]. open_vec. intros Un.
  set (N := nx * nx + ny * ny + nz * nz) in *. set (D := x * nx + y * ny + z * nz).
  assert (K : (N - 1) * (x * x + y * y + z * z - D * D) = 0) by (rewrite Un; ring). unfold N, D in *. lra.
Qed.

Lemma norm2_pos v : 0 <= norm2 v.
Proof. destruct v; open_vec. nra. Qed.
Lemma norm2_zero v : norm2 v = 0 -> v = V3 0 0 0.
Proof. destruct v as [x y z]; open_vec. intros H. f_equal; nra. Qed.

Lemma snell_tangential k k' n d d' : 0 < k -> 0 < k' -> is_unit n -> snell k k' n d d' ->
  vscale k' (tangential d' n) = vscale k (tangential d n).
Proof.
  intros Pk Pk' Un (_ & (a & b & ->) & _ & _ & Hn & Ht).
  assert (Cr : cross (vadd (vscale a d) (vscale b n)) n = vscale a (cross d n)).
  { destruct n as [nx ny nz], d as [x y z]. open_vec. f_equal; ring. }
  rewrite Cr in Hn. rewrite (tangential_comb a b d n Un) in Ht |- *.
  pose proof (tangential_cross d n Un) as Nc. set (T := tangential d n) in *. set (C := cross d n) in *.
  assert (Ht' : 0 <= a * norm2 T). { destruct T; open_vec. lra. }
  destruct (Req_dec (norm2 T) 0) as [Z|Z].
  - rewrite (norm2_zero _ Z). open_vec. f_equal; ring.
  - pose proof (norm2_pos T). assert (0 <= a) by nra.
    assert (Na : norm (vscale a C) = a * norm C).
    { unfold norm. replace (norm2 (vscale a C)) with ((a * a) * norm2 C) by (destruct C; open_vec; ring).
      rewrite sqrt_mult_alt by nra. rewrite sqrt_square by auto. reflexivity. }
    assert (0 < norm C) by (apply sqrt_lt_R0; lra).
    assert (k = k' * a) as -> by (rewrite Na in Hn; nra).
    destruct T; open_vec. f_equal; ring.
Qed.

Lemma dot_tangential d n x : dot n x = 0 -> dot (tangential d n) x = dot d x.
Proof.
  intros H. replace (dot (tangential d n) x) with (dot d x - dot d n * dot n x) by (destruct d, n, x; open_vec; ring). rewrite H. ring.
Qed.

Lemma follows_kept w o z n d e m d' e' m' x : specular o -> is_unit n -> dot n x = 0 -> follows w o z n d e m d' e' m' ->
  index m' * dot d' x = index m * dot d x.
Proof.
  intros Sp Un Hx F. rewrite <- (dot_tangential d n x Hx), <- (dot_tangential d' n x Hx).
  assert (Mi : mirrored n d d' -> m' = m -> index m' * dot (tangential d' n) x = index m * dot (tangential d n) x).
  { intros (_ & ->) ->. reflexivity. }
  assert (Ab : forall ab, specular (Absorbing ab) -> follows w (Absorbing ab) z n d e m d' e' m' -> index m' * dot (tangential d' n) x = index m * dot (tangential d n) x).
  { intros [a|a|a] S H; [| |destruct S]; cbn in H; apply Mi; tauto. }
  destruct o as [ab|id ab|i1 i2]; [apply (Ab ab); auto|apply (Ab ab); destruct ab; auto|].
  cbn [follows] in F. destruct F as (k & k' & f & -> & Pk & Pk' & _ & _ & _ & _ & F). destruct w; [destruct F as (_ & Sn & _ & ->)|destruct F as (M & _ & ->); apply Mi; auto].
  cbn [index]. pose proof (snell_tangential k k' n d d' Pk Pk' Un Sn) as E.
    assert (L : forall c v, c * dot v x = dot (vscale c v) x) by (intros c v; destruct v, x; open_vec; ring).
    rewrite !L, E. reflexivity.
Qed.

(** ** Moving along a ray *)
Lemma motion_along u w v d t : dot d (motion u w (ray_at v d t)) = dot d (motion u w v).
Proof. unfold motion, ray_at. destruct u, w, v, d. open_vec. ring. Qed.

Lemma step_kept u w prev j s t nn thr lvl k v d v' d' : slides u w s -> specular (s_opt s) -> made_from prev j s t nn thr lvl k ->
  vert_at prev j = Some v -> dir_at prev j = Some d -> vert_at lvl k = Some v' -> dir_at lvl k = Some d' ->
  along u w (ref_at lvl k) v' d' = along u w (ref_at prev j) v d.
Proof.
  intros Sl Sp (v0 & d0 & e & q & g & d1 & e' & Hv & Hd & He & Hp & Hv' & Hd' & He' & Hq & Hg & Hn & F & _) Ev Ed Ev' Ed'.
  assert (v0 = v) as -> by congruence. assert (d0 = d) as -> by congruence. assert (d1 = d') as -> by congruence.
  assert (v' = ray_at v d t) as -> by congruence. unfold along.
  rewrite <- (motion_along u w v d t). eapply follows_kept; [exact Sp|apply Hn| |exact F]. rewrite Hq. eapply Sl; eauto.
Qed.

Lemma made_parts prev j s t nn thr lvl k : made_from prev j s t nn thr lvl k -> parent_at lvl k = Some j /\ exists v d, vert_at prev j = Some v /\ dir_at prev j = Some d.
Proof. intros (v0 & d0 & e & q & g & d1 & e' & Hv & Hd & He & Hp & _). eauto. Qed.

Lemma conserved_top : forall objs surfs, library_assembly objs surfs ->
  forall me g b n, library_source b n -> fair (g_rng g) -> forall reps vs ds st,
  ray_tracer surface_ops objs surfs g b reps me TreeTrue = Ok (vs, ds, st) ->
  forall L lvl k v d, nth_error (t_tree st) L = Some lvl -> vert_at lvl k = Some v -> dir_at lvl k = Some d ->
  (exists j, descends (t_tree st) L k j) /\
  forall j, descends (t_tree st) L k j -> exists v0 d0, vert_at b j = Some v0 /\ dir_at b j = Some d0 /\
  forall u w, (forall s, In s surfs -> slides u w s /\ specular (s_opt s)) ->
  along u w (ref_at lvl k) v d = along u w (ref_at b j) v0 d0.
Proof.
  intros objs surfs La me g b n Ls Fg reps vs ds st E.
  destruct (laws_top objs surfs La me g b n Ls Fg reps vs ds st E) as (ns & Ts & _ & _ & H).
  assert (E0 : nth_error (t_tree st) 0 = Some b).
  { destruct (library_trace objs surfs me La g b n reps vs ds st Ls E) as (ns' & Ts' & gs & C & _).
    apply (ct_source _ _ _ _ _ _ _ _ _ _ _ _ _ C). }
  induction L as [|L IH]; intros lvl k v d Hl Hv Hd.
  - assert (lvl = b) as -> by congruence. split. { exists k. eapply from_source; eauto. }
    intros j D. inversion D; subst; [|lia]. exists v, d. auto.
  - replace (S L) with (L + 1)%nat in * by lia.
    destruct (nth_lt (t_tree st) L) as (prev & Hp). { assert (L + 1 < length (t_tree st))%nat by (apply nth_error_Some; congruence). lia. }
    destruct (H L prev lvl Hp Hl) as (N & via & thr & A & _). destruct (A k v Hv) as (s & j0 & t & Es & M & Mk). clear A.
    destruct (made_parts _ _ _ _ _ _ _ _ Mk) as (Hpar & v1 & d1 & Hv1 & Hd1).
    destruct (IH prev j0 v1 d1 Hp Hv1 Hd1) as ((j1 & D1) & K). split. { exists j1. eapply from_parent; eauto. }
    intros j D. inversion D as [|L' lvl' k' p' j' A1 A2 A3]; [lia|]. subst.
    assert (L' = L) by lia. subst L'. assert (lvl' = lvl) by congruence. subst lvl'. assert (p' = j0) by congruence. subst p'.
    destruct (K j A3) as (v0 & d0 & Hv0 & Hd0 & Eq). exists v0, d0. split; auto. split; auto.
    intros u w Hs. rewrite <- (Eq u w Hs). destruct (Hs s (nth_error_In _ _ Es)) as (S1 & S2). eapply step_kept; eauto.
Qed.

(** ** The surfaces of the library *)
Lemma placed_local r t q : app4 (mk4 r t) q = vadd t (vadd (vadd (vscale (vx q) (col1 r)) (vscale (vy q) (col2 r))) (vscale (vz q) (col3 r))).
Proof. destruct r as [[a b c] [d e f] [g h i]], t, q. unfold app4, mk4, mv4, hom, v4_3, dot4, col1, col2, col3. open_vec. cbn. f_equal; ring. Qed.
Lemma turned_local r t q : mv3 (rot_of (mk4 r t)) q = vadd (vadd (vscale (vx q) (col1 r)) (vscale (vy q) (col2 r))) (vscale (vz q) (col3 r)).
Proof. destruct r as [[a b c] [d e f] [g h i]], t, q. unfold mk4, mv3, rot_of, v4_3, col1, col2, col3. open_vec. cbn. f_equal; ring. Qed.

(** Normals are made of the axis of the surface and the way from its centre. *)
Definition shares (gm : geom) (q : vec) (al be : R) : Prop :=
  match gm with
  | Base | Flat | RectPlate _ _ | RoundPlate _ | Triangle _ _ => al = 0
  | Sphere _ | Hemisphere _ | CutSphere _ _ => be = 0
  | Cylinder _ | FiniteCyl _ _ => be = - al * vz q
  | Parab a b | ParabDish a b _ _ | HexDish a b _ => True
  end.
Definition round_geom (gm : geom) : Prop :=
  match gm with Parab a b | ParabDish a b _ _ | HexDish a b _ => a = b | _ => True end.

Lemma normal_made s q g n d : rigid (s_frame s) -> round_geom (s_geom s) -> is_gradient (implicit (s_geom s)) q g -> good_normal (s_frame s) g d n ->
  exists al be, shares (s_geom s) q al be /\
    n = vadd (vscale al (vsub (app4 (s_frame s) q) (centre s))) (vscale be (z_of (s_frame s))).
Proof.
  intros (r & t & Ef & O) Rd Hg (_ & (k & ->) & _). destruct (gradient_ok (s_geom s) q) as (c & Nc & Hg').
  rewrite (gradient_unique _ _ _ _ Hg Hg'). unfold centre, z_of. rewrite Ef, !placed_local, !turned_local. clear Hg Hg' Ef.
  destruct q as [x y z], t as [t1 t2 t3]. generalize (col1 r), (col2 r), (col3 r). intros [a1 a2 a3] [b1 b2 b3] [c1 c2 c3].
  destruct (s_geom s) as [| | | | |rad|rad|rad bo|rad|rad hh|A B|A B rad h|A B rad]; cbn [gradient round_geom shares] in *; open_vec;
    try subst B.
  1-5: exists 0, (k * c); split; [reflexivity|f_equal; ring].
  1-3: exists (k * c), 0; split; [reflexivity|f_equal; ring].
  1-2: exists (k * c), (- (k * c) * z); split; [reflexivity|f_equal; ring].
  1-3: exists (k * c * 2 * A), (- (k * c * 2 * A) * z - k * c); split; [exact I|f_equal; ring].
Qed.

Lemma turns_about a c p : motion (vscale (- 1) (cross a c)) a p = cross a (vsub p c).
Proof. unfold motion. destruct a, c, p. open_vec. f_equal; ring. Qed.

Lemma coaxial_slides c a s : rigid (s_frame s) -> coaxial c a s -> slides (vscale (- 1) (cross a c)) a s.
Proof.
  intros Rf Co q g n d Hg Hn. rewrite turns_about.
  assert (Rd : round_geom (s_geom s)) by (unfold coaxial in Co; destruct (s_geom s); cbn [round_geom]; tauto).
  destruct (normal_made s q g n d Rf Rd Hg Hn) as (al & be & Sh & ->). set (p := app4 (s_frame s) q). set (z := z_of (s_frame s)) in *. set (o := centre s) in *.
  assert (E : dot (vadd (vscale al (vsub p o)) (vscale be z)) (cross a (vsub p c)) =
    al * dot (vsub p o) (cross a (vsub o c)) - be * dot (vsub p c) (cross a z)).
  { destruct a, p, o, z, c. open_vec. ring. }
  rewrite E. assert (Z : forall v, dot v (V3 0 0 0) = 0) by (intros [x y w]; open_vec; ring).
  unfold coaxial in Co. destruct (s_geom s); cbn [shares] in Sh; fold z o in Co;
    repeat match goal with H : _ /\ _ |- _ => destruct H end;
    repeat match goal with H : cross a _ = _ |- _ => rewrite H, Z; clear H end; subst; ring.
Qed.

Lemma wall_slides a s : rigid (s_frame s) -> wall a s -> slides a (V3 0 0 0) s.
Proof.
  intros Rf Wl q g n d Hg Hn.
  assert (Rd : round_geom (s_geom s)) by (unfold wall in Wl; destruct (s_geom s); cbn [round_geom]; tauto).
  destruct (normal_made s q g n d Rf Rd Hg Hn) as (al & be & Sh & ->).
  assert (Pz : dot (z_of (s_frame s)) (vsub (app4 (s_frame s) q) (centre s)) = vz q /\ dot (z_of (s_frame s)) (z_of (s_frame s)) = 1).
  { unfold centre. destruct Rf as (r & t & -> & O). unfold z_of. rewrite !rot_mk4.
    replace (vsub (app4 (mk4 r t) q) (app4 (mk4 r t) (V3 0 0 0))) with (mv3 r q).
    - rewrite !(orthonormal_dot r) by auto. destruct q; open_vec. split; ring.
    - rewrite <- (rot_mk4 r t) at 1. rewrite !placed_local, turned_local. destruct q, t, (col1 r), (col2 r), (col3 r). open_vec. f_equal; ring. }
  set (p := app4 (s_frame s) q) in *. set (z := z_of (s_frame s)) in *. set (o := centre s) in *. destruct Pz as (Pz & Uz).
  assert (E : dot (vadd (vscale al (vsub p o)) (vscale be z)) (motion a (V3 0 0 0) p) = al * dot a (vsub p o) + be * dot a z).
  { unfold motion. destruct a, p, o, z. open_vec. ring. }
  rewrite E. unfold wall in Wl.
  assert (Cy : cross a z = V3 0 0 0 -> be = - al * vz q -> al * dot a (vsub p o) + be * dot a z = 0).
  { intros C ->. assert (A : forall v, dot a v = dot a z * dot z v).
    { intros v. assert (K : dot (cross a z) (cross v z) = 0) by (rewrite C; destruct (cross v z); open_vec; ring).
      replace (dot (cross a z) (cross v z)) with (dot a v * dot z z - dot a z * dot z v) in K by (destruct a, z, v; open_vec; ring). rewrite Uz in K. lra. }
    rewrite (A (vsub p o)), Pz. ring. }
  destruct (s_geom s); cbn [shares] in Sh; fold z in Wl; try tauto; try (rewrite Wl, Sh; ring); auto.
Qed.

Lemma layer_slides a u s : rigid (s_frame s) -> is_unit a -> layer a s -> dot u a = 0 -> slides u (V3 0 0 0) s.
Proof.
  intros Rf Ua La Hu. apply wall_slides; auto. unfold layer in La. unfold wall.
  assert (K : cross a (z_of (s_frame s)) = V3 0 0 0 -> dot u (z_of (s_frame s)) = 0).
  { set (z := z_of (s_frame s)). intros C.
    assert (X : dot (cross a z) (cross a u) = 0) by (rewrite C; destruct (cross a u); open_vec; ring).
    replace (dot (cross a z) (cross a u)) with (dot a a * dot u z - dot u a * dot a z) in X by (destruct a, z, u; open_vec; ring).
    unfold is_unit, norm2 in Ua. rewrite Ua, Hu in X. lra. }
  destruct (s_geom s); auto; destruct La.
Qed.

Lemma mirror_or_same a d d0 : is_unit a -> is_unit d -> is_unit d0 -> tangential d a = tangential d0 a -> d = d0 \/ mirrored a d0 d.
Proof.
  intros Ua Ud U0 T.
  assert (P : forall v, v = vadd (tangential v a) (vscale (dot v a) a)) by (intros v; destruct v, a; open_vec; f_equal; ring).
  assert (N : forall v, norm2 v = norm2 (tangential v a) + dot v a * dot v a).
  { intros v. unfold is_unit in Ua. replace (norm2 (tangential v a)) with (norm2 v - 2 * (dot v a * dot v a) + dot v a * dot v a * norm2 a) by (destruct v, a; open_vec; ring). rewrite Ua. ring. }
  pose proof (N d) as Nd. pose proof (N d0) as N0. rewrite T in Nd. unfold is_unit in *.
  assert (S : (dot d a - dot d0 a) * (dot d a + dot d0 a) = 0) by lra. apply Rmult_integral in S as [S|S].
  - left. rewrite (P d), (P d0), T. f_equal. f_equal. lra.
  - right. split; [lra|auto].
Qed.

(** ** The theorems *)
Section Consequences.
Variables (objs : list obj) (surfs : list surface).
Hypothesis La : library_assembly objs surfs.
Hypothesis Sp : forall s, In s surfs -> specular (s_opt s).
Variables (me : R) (g : shared) (b : bundle) (n : nat).
Hypothesis Ls : library_source b n.
Hypothesis Fg : fair (g_rng g).
Variables (reps : nat) (vs ds : list vec) (st : tstate surface shared).
Hypothesis E : ray_tracer surface_ops objs surfs g b reps me TreeTrue = Ok (vs, ds, st).
Variables (L : nat) (lvl : bundle) (k : nat) (v d : vec) (j : nat) (v0 d0 : vec).
Hypothesis Hl : nth_error (t_tree st) L = Some lvl.
Hypothesis Hv : vert_at lvl k = Some v.
Hypothesis Hd : dir_at lvl k = Some d.
Hypothesis D : descends (t_tree st) L k j.
Hypothesis Hv0 : vert_at b j = Some v0.
Hypothesis Hd0 : dir_at b j = Some d0.

Lemma kept u w : (forall s, In s surfs -> slides u w s) -> along u w (ref_at lvl k) v d = along u w (ref_at b j) v0 d0.
Proof.
  intros Sl. destruct (conserved_top objs surfs La me g b n Ls Fg reps vs ds st E L lvl k v d Hl Hv Hd) as (_ & K).
  destruct (K j D) as (v1 & d1 & A & B & C). assert (v1 = v0) as -> by congruence. assert (d1 = d0) as -> by congruence.
  apply C. intros s Hs. split; auto.
Qed.

Lemma revolution c a : (forall s, In s surfs -> coaxial c a s) ->
  index (ref_at lvl k) * dot a (cross (vsub v c) d) = index (ref_at b j) * dot a (cross (vsub v0 c) d0).
Proof.
  intros Co. pose proof (kept (vscale (- 1) (cross a c)) a) as K. unfold along in K. rewrite !turns_about in K.
  assert (T : forall x y, dot a (cross x y) = dot y (cross a x)) by (intros x y; destruct a, x, y; open_vec; ring).
  rewrite !T. apply K. intros s Hs. apply coaxial_slides; auto. apply (proj1 (proj2 La) s Hs).
Qed.

Lemma pipe a : (forall s, In s surfs -> wall a s) -> index (ref_at lvl k) * dot d a = index (ref_at b j) * dot d0 a.
Proof.
  intros Wl. pose proof (kept a (V3 0 0 0)) as K. unfold along, motion in K.
  assert (Z : forall x, vadd a (cross (V3 0 0 0) x) = a) by (intros x; destruct a, x; open_vec; f_equal; ring). rewrite !Z in K.
  apply K. intros s Hs. apply wall_slides; auto. apply (proj1 (proj2 La) s Hs).
Qed.

Lemma units : is_unit d /\ is_unit d0 /\ 0 < index (ref_at b j).
Proof.
  destruct (trace_levels objs surfs me g b n reps vs ds st La Ls E) as (_ & K).
  destruct (K L lvl Hl) as (_ & m & _ & Tm & Am & _). split.
  - destruct (traceable_parts _ _ Tm) as (vs0 & ds0 & es0 & E1 & E2 & E3 & L1 & L2 & L3).
    destruct (nth_lt es0 k) as (e & He). { unfold dir_at, at_col in Hd. rewrite E2 in Hd. assert (k < length ds0)%nat by (apply nth_error_Some; congruence). lia. }
    apply (Am k d e); auto. unfold energy_at, at_col. rewrite E3. auto.
  - destruct Ls as (Tb & Ab). destruct (traceable_parts _ _ Tb) as (vs0 & ds0 & es0 & E1 & E2 & E3 & L1 & L2 & L3).
    destruct (nth_lt es0 j) as (e & He). { unfold dir_at, at_col in Hd0. rewrite E2 in Hd0. assert (j < length ds0)%nat by (apply nth_error_Some; congruence). lia. }
    destruct (Ab j d0 e) as (U & _ & P); auto. { unfold energy_at, at_col. rewrite E3. auto. }
    split; auto. unfold index. destruct (ref_at b j); auto. lra.
Qed.

Lemma layers a : is_unit a -> (forall s, In s surfs -> layer a s) ->
  vscale (index (ref_at lvl k)) (tangential d a) = vscale (index (ref_at b j)) (tangential d0 a) /\
  (index (ref_at lvl k) = index (ref_at b j) -> d = d0 \/ mirrored a d0 d).
Proof.
  intros Ua Ly. set (m := index (ref_at lvl k)). set (m0 := index (ref_at b j)).
  assert (K : forall u, dot u a = 0 -> m * dot d u = m0 * dot d0 u).
  { intros u Hu. pose proof (kept u (V3 0 0 0)) as K. unfold along, motion in K.
    assert (Z : forall x, vadd u (cross (V3 0 0 0) x) = u) by (intros x; destruct u, x; open_vec; f_equal; ring). rewrite !Z in K.
    apply K. intros s Hs. apply (layer_slides a); auto. apply (proj1 (proj2 La) s Hs). }
  assert (T : forall x, dot (tangential x a) a = 0).
  { intros x. unfold is_unit in Ua. replace (dot (tangential x a) a) with (dot x a * (1 - norm2 a)) by (destruct x, a; open_vec; ring). rewrite Ua. ring. }
  assert (F : vscale m (tangential d a) = vscale m0 (tangential d0 a)).
  { set (u := vsub (vscale m (tangential d a)) (vscale m0 (tangential d0 a))).
    assert (Hu : dot u a = 0).
    { unfold u. replace (dot _ a) with (m * dot (tangential d a) a - m0 * dot (tangential d0 a) a) by (destruct (tangential d a), (tangential d0 a), a; open_vec; ring). rewrite !T. ring. }
    assert (Z : norm2 u = 0).
    { pose proof (K u Hu) as Ku. assert (Sy : dot a u = 0) by (rewrite <- Hu; destruct a, u; open_vec; ring).
      rewrite <- (dot_tangential d a u Sy), <- (dot_tangential d0 a u Sy) in Ku. unfold u at 1.
      replace (norm2 (vsub (vscale m (tangential d a)) (vscale m0 (tangential d0 a)))) with (m * dot (tangential d a) u - m0 * dot (tangential d0 a) u).
      - lra.
      - unfold u. destruct (tangential d a), (tangential d0 a). open_vec. ring. }
    apply norm2_zero in Z. unfold u in Z. destruct (tangential d a), (tangential d0 a). open_vec. injection Z as Z1 Z2 Z3. f_equal; lra. }
  split; auto. intros Em. destruct units as (Ud & U0 & N). fold m0 in N. apply mirror_or_same; auto.
  rewrite Em in F. destruct (tangential d a), (tangential d0 a). open_vec. injection F as F1 F2 F3. f_equal; apply (Rmult_eq_reg_l m0); auto; lra.
Qed.
End Consequences.
