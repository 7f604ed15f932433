(** Traces in a pane of glass. *)
From Coq Require Import Reals List Arith Bool Lra Lia.
From Verif.Base Require Import Py Num Vec.
From Verif.Model Require Import RayBundle Boundary Geometry TraceTree Sources OpticsCallables Engine Objects Surface.
From Verif.Proof Require Import ListLemmas NumLemmas VecLemmas OpticsProof EngineTop TraceTop LibraryTop LawProof SymmetryProof DishProof GeomTop SelectProof BackProof OrderProof SightProof FoundProof KaleidoProof BoxWay DropProof GlassProof.
From Verif.Spec Require Import BundleSpec EngineSpec GeometrySpec GeomIface OpticsSpec LibrarySpec ModelSpec LawSpec BackSpec SightSpec FoundSpec ImageSpec GlassSpec.
Import ListNotations.
Local Open Scope R_scope.

Lemma height_along v d y u : dot (ray_at v d y) u = dot v u + y * dot d u.
Proof. unfold ray_at. destruct v, d, u. open_vec. ring. Qed.

Section Glass.
Variables (surfs : list surface) (i1 i2 : R) (u : vec) (a w : R).
Hypothesis (Lib : forall s, In s surfs -> lib_surface s) (Gl : glass i1 i2 u a w surfs).

Lemma glass_pos : 0 < i1 /\ 0 < i2.
Proof. destruct Gl as (_ & _ & (s & Is & (_ & Eo & _)) & _). destruct (Lib s Is) as (_ & Oo & _). rewrite Eo in Oo. exact Oo. Qed.

Section Ray.
Variables (k k' : R) (v d : vec).
Hypothesis (Fa : sides i1 i2 k k') (U : is_unit d) (En : enters u a w k k' v d).
Let x0 := dot d u.
Let x1 := inner_cos k k' u d.
Let p := ray_at v d (to_glass u a v d).
Let T := vscale (k / k') (tangential d u).
Definition sgn (q : nat) : R := if Nat.even q then -1 else 1.
Definition gD (q : nat) : vec := vadd T (vscale (- sgn q * x1) u).
Definition gP (q : nat) : vec := vadd (vadd p (vscale (INR q * (w / x1)) T)) (vscale (if Nat.even q then 0 else w) u).
Definition gOut (q : nat) : vec := match q with O => d | S q => gpass u k' k (sgn q) x1 x0 (gD q) end.

Lemma sgn_S q : sgn (S q) = - sgn q.
Proof. unfold sgn. rewrite Nat.even_succ, <- Nat.negb_even. destruct (Nat.even q); cbn; ring. Qed.
Lemma sgn_sq q : sgn q * sgn q = 1.
Proof. unfold sgn. destruct (Nat.even q); ring. Qed.
Lemma sgn_or q : sgn q = 1 \/ sgn q = -1.
Proof. unfold sgn. destruct (Nat.even q); auto. Qed.
Lemma cosines : 0 < k /\ 0 < k' /\ 0 < x0 /\ 0 < x1 /\ x1 * x1 = 1 - k / k' * (k / k') * (1 - x0 * x0) /\ k' * k' * (1 - x1 * x1) = k * k * (1 - x0 * x0).
Proof.
  destruct glass_pos as (Q1 & Q2). assert (Pk : 0 < k /\ 0 < k') by (destruct Fa as [(-> & ->)|(-> & ->)]; auto). destruct Pk as (Pk & Pk').
  destruct En as (E1 & E2 & _). pose proof (tenm_pos 10). fold x0 in E1. fold x1 in E2. split; [exact Pk|]. split; [exact Pk'|]. split; [lra|]. split; [lra|].
  assert (Sq : x1 * x1 = 1 - k / k' * (k / k') * (1 - x0 * x0)).
  { unfold x1, inner_cos. fold x0. apply sqrt_sqrt. destruct (Rle_or_lt 0 (1 - k / k' * (k / k') * (1 - x0 * x0))) as [L|L]; [exact L|].
    exfalso. assert (x1 = 0) by (unfold x1, inner_cos; fold x0; apply sqrt_neg_0; lra). lra. }
  split; [exact Sq|]. rewrite Sq. field. lra.
Qed.
Lemma T_flat : dot T u = 0.
Proof.
  destruct Gl as (_ & Uu & _). unfold is_unit in Uu. transitivity (k / k' * (dot d u - dot d u * norm2 u)); [|rewrite Uu; ring].
  unfold T, tangential. destruct d, u. open_vec. ring.
Qed.
Lemma T_norm : norm2 T = k / k' * (k / k') * (1 - x0 * x0).
Proof.
  destruct Gl as (_ & Uu & _). unfold is_unit in Uu, U. transitivity (k / k' * (k / k') * (norm2 d - 2 * (dot d u * dot d u) + dot d u * dot d u * norm2 u)); [|rewrite Uu, U; unfold x0; ring].
  unfold T, tangential. destruct d, u. open_vec. ring.
Qed.
Lemma gD_unit q : is_unit (gD q).
Proof.
  destruct Gl as (_ & Uu & _). unfold is_unit in *. destruct cosines as (_ & _ & _ & _ & Sq & _).
  transitivity (norm2 T + 2 * (- sgn q * x1) * dot T u + sgn q * sgn q * (x1 * x1) * norm2 u). { unfold gD. destruct T, u. open_vec. ring. }
  rewrite T_norm, T_flat, Uu, sgn_sq, Sq. ring.
Qed.
Lemma gD_dot q : dot (gD q) u = - sgn q * x1.
Proof.
  destruct Gl as (_ & Uu & _). unfold is_unit in *. transitivity (dot T u + - sgn q * x1 * norm2 u). { unfold gD. destruct T, u. open_vec. ring. }
  rewrite T_flat, Uu. ring.
Qed.
Lemma p_height : dot p u = a.
Proof.
  destruct cosines as (_ & _ & P0 & _). transitivity (dot v u + to_glass u a v d * dot d u). { unfold p, ray_at. destruct v, d, u. open_vec. ring. }
  unfold to_glass. fold x0. field. lra.
Qed.
Lemma gP_height q : dot (gP q) u = if Nat.even q then a else a + w.
Proof.
  destruct Gl as (_ & Uu & _). unfold is_unit in *.
  transitivity (dot p u + INR q * (w / x1) * dot T u + (if Nat.even q then 0 else w) * norm2 u). { unfold gP. destruct p, T, u. open_vec. ring. }
  rewrite p_height, T_flat, Uu. destruct (Nat.even q); ring.
Qed.
Lemma gP_next q : gP (S q) = ray_at (gP q) (gD q) (w / x1).
Proof.
  destruct cosines as (_ & _ & _ & P1 & _). unfold gP, gD, ray_at, sgn. rewrite S_INR, Nat.even_succ, <- Nat.negb_even. destruct p, T, u.
  destruct (Nat.even q); cbn [negb]; open_vec; f_equal; field; lra.
Qed.
Lemma gD_next q : gback u (sgn q) x1 (gD q) = gD (S q).
Proof. unfold gback, gD. rewrite sgn_S. destruct T, u. open_vec. f_equal; ring. Qed.
Lemma gOut_is q : gOut (S q) = vadd (tangential d u) (vscale (- sgn q * x0) u).
Proof.
  destruct cosines as (Pk & Pk' & _). cbn [gOut]. unfold gpass, gD, T. destruct (tangential d u), u. open_vec. f_equal; field; lra.
Qed.
Lemma gOut_through q : Nat.even q = true -> gOut (S q) = d.
Proof. intros E. rewrite gOut_is. unfold sgn. rewrite E. unfold tangential, x0. generalize (dot d u). intros z. destruct d, u. open_vec. f_equal; ring. Qed.
Lemma gOut_back q : Nat.even q = false -> mirrored u d (gOut (S q)).
Proof.
  intros E. rewrite gOut_is. unfold sgn. rewrite E. destruct Gl as (_ & Uu & _). unfold is_unit in *.
  assert (Td : dot (tangential d u) u = 0).
  { transitivity (dot d u - dot d u * norm2 u); [unfold tangential; destruct d, u; open_vec; ring|rewrite Uu; ring]. }
  assert (Dt : dot (vadd (tangential d u) (vscale (- (1) * x0) u)) u = - dot d u).
  { transitivity (dot (tangential d u) u + - x0 * norm2 u). { destruct (tangential d u), u. open_vec. ring. } rewrite Td, Uu. unfold x0. ring. }
  split; [exact Dt|]. unfold tangential at 1. rewrite Dt. unfold x0. generalize (dot d u) as z. intros z. destruct (tangential d u), u. open_vec. f_equal; ring.
Qed.

Lemma face_there q : exists s, In s surfs /\ face_at i1 i2 u (dot (gP q) u) s.
Proof. rewrite gP_height. destruct Gl as (_ & _ & F0 & F1 & _). destruct (Nat.even q); auto. Qed.

Variable f : R.
Hypothesis Rf : reflectance k k' d u f.
Lemma inside_share q : reflectance k' k (gD q) (gn u (sgn q)) f.
Proof.
  destruct cosines as (Pk & Pk' & P0 & P1 & _ & Eq). destruct Gl as (_ & Uu & (s & Is & Fs) & _).
  assert (Rn : reflectance k k' d (gn u (-1)) f).
  { apply (reflectance_like k k' d u); auto. replace (dot d (gn u (-1))) with (- dot d u) by (unfold gn; destruct d, u; open_vec; ring). apply Rabs_Ropp. }
  destruct (pane_lawful i1 i2 u f Uu _ s true k k' (-1) x0 x1 p d 1 (Lib s Is) Fs Fa (or_intror eq_refl) U p_height) as (Sn & _); auto. { fold x0. ring. }
  assert (Ug : is_unit (gn u (-1))). { unfold is_unit in *. transitivity (norm2 u); [unfold gn; destruct u; open_vec; ring|exact Uu]. }
  all: apply (reflectance_like k' k (vopp (gpass u k k' (-1) x0 x1 d)) (gn u (-1))); [|apply (reflectance_reversed k k' d); auto].
  all: assert (Dg : dot (gpass u k k' (-1) x0 x1 d) u = x1)
    by (unfold is_unit in Uu; transitivity (k / k' * dot d u + (-1) * (k / k' * x0 - x1) * norm2 u); [unfold gpass; destruct d, u; open_vec; ring|rewrite Uu; fold x0; ring]).
  all: replace (dot (vopp (gpass u k k' (-1) x0 x1 d)) (gn u (-1))) with (dot (gpass u k k' (-1) x0 x1 d) u) by (unfold gn; destruct (gpass u k k' (-1) x0 x1 d), u; unfold vopp; open_vec; ring).
  all: replace (dot (gD q) (gn u (sgn q))) with (sgn q * dot (gD q) u) by (unfold gn; destruct (gD q), u; open_vec; ring).
  all: rewrite Dg, gD_dot; replace (sgn q * (- sgn q * x1)) with (- (sgn q * sgn q * x1)) by ring; rewrite sgn_sq, Rabs_Ropp; f_equal; ring.
Qed.

Lemma glass_inside me thr : 0 <= f <= 1 -> forall n q e, 0 <= e -> ((1 <= n)%nat -> me < e * f ^ n) ->
  exists path, length path = S n /\
  seen_way surfs me (gP q) (gD q) e (Some k') path (gP (S (q + n))) (if thr : bool then gOut (S (q + n)) else gD (S (q + n)))
    (if thr then e * f ^ n * (1 - f) else e * f ^ S n) (Some (if thr then k else k')).
Proof.
  intros Bf. destruct cosines as (Pk & Pk' & P0 & P1 & _ & Eq). pose proof En as (E1 & E2 & E3 & E4). fold x0 in E1. fold x1 in E2, E4.
  pose proof Gl as (Pw & Uu & _ & _ & Only).
  assert (Fb : sides i1 i2 k' k) by (destruct Fa as [(-> & ->)|(-> & ->)]; [right|left]; auto).
  assert (Hd : forall q, tenm 10 < Rabs (dot (gD q) u)).
  { intros q. rewrite gD_dot. unfold sgn. destruct (Nat.even q); [rewrite Rabs_right|rewrite Rabs_left]; lra. }
  assert (Clear : forall q, clear_until surfs (gP q) (gD q) (w / x1)).
  { intros q s Is. assert (Z : exists h, face_at i1 i2 u h s /\ (h = a \/ h = a + w)) by (destruct (Only s Is); eauto). destruct Z as (h & Fs & Hh).
    eexists. split; [apply (face_in_way i1 i2 u Uu h s _ _ Fs (Hd q))|]. intros t Ht K. apply (face_point i1 i2 u Uu h s _ (Lib s Is) Fs) in K.
    assert (E : dot (ray_at (gP q) (gD q) t) u = dot (gP q) u + t * dot (gD q) u) by apply height_along.
    rewrite E, gP_height, gD_dot in K. assert (0 < t * x1) by (apply Rmult_lt_0_compat; lra).
    assert (t * x1 < w). { apply Rlt_le_trans with (w / x1 * x1); [apply Rmult_lt_compat_r; lra|right; field; lra]. }
    unfold sgn in K. destruct (Nat.even q), Hh as [-> | ->]; lra. }
  assert (Step : forall q th e, exists s, In s surfs /\ on_surface s (gP q) (gD q) (w / x1) /\ specular (s_opt s) /\
    lawful_meeting (at_pane u s th k' k (sgn q) x1 x0 (gP (S q)) (gD q)) e (e * (if th then 1 - f else f)) /\
    dot (gD q) (mt_normal (at_pane u s th k' k (sgn q) x1 x0 (gP (S q)) (gD q))) <> 0).
  { intros q th e. destruct (face_there (S q)) as (s & Is & Fs). exists s. split; [exact Is|]. split.
    { split; [exact E4|]. eexists. split; [apply (face_in_way i1 i2 u Uu _ s _ _ Fs (Hd q))|]. apply (face_point i1 i2 u Uu _ s _ (Lib s Is) Fs). rewrite <- gP_next. reflexivity. }
    split; [destruct Fs as (_ & -> & _); exact I|].
    apply (pane_lawful i1 i2 u f Uu _ s th k' k (sgn q) x1 x0 (gP (S q)) (gD q) e (Lib s Is) Fs Fb (sgn_or q) (gD_unit q) eq_refl (gD_dot q) P1 P0 (eq_sym Eq) (inside_share q)). }
  induction n as [|n IH]; intros q e He Hm.
  - destruct (Step q thr e) as (s & Is & On & Sp & Lw & Nz). rewrite Nat.add_0_r.
    exists [at_pane u s thr k' k (sgn q) x1 x0 (gP (S q)) (gD q)]. split; [reflexivity|].
    apply (seen_next surfs me (gP q) (gD q) e (Some k') (w / x1) (at_pane u s thr k' k (sgn q) x1 x0 (gP (S q)) (gD q)) (e * (if thr then 1 - f else f))); auto.
    + apply gP_next.
    + intros Np. destruct (Np eq_refl).
    + cbn [at_pane mt_point mt_out mt_after]. rewrite gD_next. cbn [pow].
      destruct thr; [replace (e * 1 * (1 - f)) with (e * (1 - f)) by ring|rewrite Rmult_1_r]; constructor.
  - destruct (Step q false e) as (s & Is & On & Sp & Lw & Nz).
    assert (Lim : me < e * f * f ^ n). { specialize (Hm ltac:(lia)). cbn [pow] in Hm. lra. }
    assert (Ee : 0 <= e * f) by (apply Rmult_le_pos; lra).
    destruct (IH (S q) (e * f) Ee) as (path & Lp & Sw); auto.
    exists (at_pane u s false k' k (sgn q) x1 x0 (gP (S q)) (gD q) :: path). split; [cbn; auto|].
    apply (seen_next surfs me (gP q) (gD q) e (Some k') (w / x1) (at_pane u s false k' k (sgn q) x1 x0 (gP (S q)) (gD q)) (e * f)); auto.
    + apply gP_next.
    + intros _. assert (f ^ n <= 1).
      { clear -Bf. induction n as [|j IHj]; cbn [pow]; [lra|]. assert (0 <= f ^ j) by (apply pow_le; lra). nra. }
      nra.
    + cbn [at_pane mt_point mt_out mt_after]. rewrite gD_next.
      replace (if thr then e * f ^ S n * (1 - f) else e * f ^ S (S n)) with (if thr then e * f * f ^ n * (1 - f) else e * f * f ^ S n) by (destruct thr; cbn [pow]; ring).
      replace (S (q + S n)) with (S (S q + n)) by lia. exact Sw.
Qed.
End Ray.

Variables (objs : list obj) (me : R) (g : shared) (b : bundle) (n reps : nat) (vs ds : list vec) (st : tstate surface shared).
Hypothesis (La : library_assembly objs surfs) (Df : forall ob, In ob objs -> exists k, ob = default_object k).
Hypothesis (Ls : library_source b n) (Fg : fair (g_rng g)).
Hypothesis Tr : ray_tracer surface_ops objs surfs g b reps me TreeTrue = Ok (vs, ds, st).

(** The normal is along the axis of the faces, whichever face it is. *)
Lemma face_normal s h q gr d nn sg : In s surfs -> face_at i1 i2 u h s -> is_gradient (implicit (s_geom s)) q gr -> good_normal (s_frame s) gr d nn ->
  sg = 1 \/ sg = -1 -> 0 < - sg * dot d u -> nn = gn u sg.
Proof.
  intros Is (Eg & _ & Ax & _) Gr (Un & (c & En) & Dn) Hs Hd. pose proof Gl as (_ & Uu & _). unfold is_unit in Uu.
  destruct (gradient_ok (s_geom s) q) as (k0 & Nk & G). rewrite (gradient_unique _ _ _ _ Gr G), Eg in En. cbn [gradient] in En.
  assert (Ez : exists y, nn = vscale y u).
  { unfold axis, z_of in Ax. destruct Ax as [Ax|Ax].
    - exists (c * k0). rewrite En, <- Ax. destruct (rot_of (s_frame s)) as [[] [] []]. vunfold. veq; ring.
    - exists (- (c * k0)). rewrite En. replace u with (vopp (mv3 (rot_of (s_frame s)) (V3 0 0 1))) by (rewrite Ax; destruct u; unfold vopp; open_vec; f_equal; ring).
      destruct (rot_of (s_frame s)) as [[] [] []]. unfold vopp. vunfold. veq; ring. }
  destruct Ez as (y & Ey). assert (Y2 : y * y = 1).
  { rewrite <- Un, Ey. transitivity (y * y * norm2 u); [rewrite Uu; ring|]. destruct u. open_vec. ring. }
  assert (Yd : y * dot d u <= 0). { replace (y * dot d u) with (dot nn d); [exact Dn|]. rewrite Ey. destruct d, u. open_vec. ring. }
  rewrite Ey. unfold gn. f_equal. assert (Z : (y - 1) * (y + 1) = 0) by lra. apply Rmult_integral in Z. assert (Y : y = 1 \/ y = -1) by (destruct Z; [left|right]; lra). destruct Y as [-> | ->], Hs as [-> | ->]; lra.
Qed.

(** A child starts where its parent first meets a face, and there is no choice but to go on or through. *)
Lemma child_of_pane L prev lvl p i v d e sg : nth_error (t_tree st) L = Some prev -> nth_error (t_tree st) (L + 1) = Some lvl -> parent_at lvl i = Some p ->
  vert_at prev p = Some v -> dir_at prev p = Some d -> energy_at prev p = Some e -> is_unit d -> sg = 1 \/ sg = -1 -> tenm 10 < - sg * dot d u ->
  exists t, 0 < t /\ (dot (ray_at v d t) u = a \/ dot (ray_at v d t) u = a + w) /\
  (forall y h, h = a \/ h = a + w -> 0 < y < t -> dot (ray_at v d y) u = h -> exists y0, 0 < y0 <= tenm 6 /\ dot (ray_at v d y0) u = h) /\
  exists thr, forall m m' x x' f, sides i1 i2 m m' -> ref_at prev p = Some m -> dot d u = - sg * x -> 0 < x -> 0 < x' -> m' * m' * (1 - x' * x') = m * m * (1 - x * x) ->
    reflectance m m' d (gn u sg) f ->
    ray_is lvl i (ray_at v d t) (if thr : bool then gpass u m m' sg x x' d else gback u sg x d) (e * (if thr then 1 - f else f)) (if thr then m' else m).
Proof.
  intros Hp Hl Hi Hv Hd He Ud Hs Hx. pose proof Gl as (_ & Uu & (f0 & If0 & F0) & (f1 & If1 & F1) & Only).
  destruct (laws_top objs surfs La me g b n Ls Fg reps vs ds st Tr) as (ns & Ts & _ & Tc & H).
  destruct (bounded_trace objs surfs La me g b n Ls reps vs ds st Tr) as (B1 & _ & B3 & _).
  destruct (H L prev lvl Hp Hl) as (N & via & thr & A & _). destruct (B3 (L + 1)%nat lvl ltac:(lia) Hl) as (mm & Tm & _).
  destruct (parent_vert lvl mm i p Tm Hi) as (x & Hx'). destruct (A i x Hx') as (s0 & j0 & t & Es & Mf & (v1 & d1 & e1 & q & g1 & d2 & e2 & Mk)).
  destruct Mk as (V1 & D1 & E1 & Pa & V2 & D2 & E2 & Eq & Gr & Gn & Fo & _).
  assert (j0 = p) by congruence. subst j0. assert (v1 = v) by congruence. assert (d1 = d) by congruence. assert (e1 = e) by congruence. subst v1 d1 e1.
  assert (Lr : (L < reps)%nat) by (assert (L + 1 < length (t_tree st))%nat by (apply nth_error_Some; congruence); lia).
  assert (Ht : is_traced me L prev p) by (apply (Tc L prev Hp); apply Mf).
  destruct (sight_plain objs surfs La Df me g b n Ls reps vs ds st Tr L prev p v d Hp Lr Ht Hv Hd) as (Cs & _).
  destruct (Cs lvl i Hl Hi) as (i0 & s1 & t2 & Es1 & _ & Pt & V3' & On & Fr). apply nth_error_In in Es, Es1 as Is1.
  assert (Ha : tenm 10 < Rabs (dot d u)). { pose proof (tenm_pos 10). destruct Hs as [-> | ->]; [rewrite Rabs_left|rewrite Rabs_right]; lra. }
  exists t2. split; [exact Pt|]. split.
  { destruct (Only s1 Is1) as [Fs|Fs]; [left|right]; apply (face_point i1 i2 u Uu _ s1 _ (Lib s1 Is1) Fs), On, (face_in_way i1 i2 u Uu _ s1 _ _ Fs Ha). }
  split.
  { intros y h Hh Hy K. assert (Z : exists s', In s' surfs /\ face_at i1 i2 u h s') by (destruct Hh as [-> | ->]; eauto). destruct Z as (s' & Is' & Fs').
    destruct (In_nth_error _ _ Is') as (i' & Ei'). apply (face_point i1 i2 u Uu _ s' _ (Lib s' Is') Fs') in K.
    destruct (Fr i' s' _ Ei' Logic.I (face_in_way i1 i2 u Uu _ s' v d Fs' Ha) y (proj1 Hy)) as (y0 & Y1 & _ & Y2); [intros t0 E0; assert (t0 = t2) by congruence; subst; apply Hy|exact K|].
    exists y0. split; [exact Y1|]. apply (face_point i1 i2 u Uu _ s' _ (Lib s' Is') Fs'). exact Y2. }
  exists (thr i). intros m m' x0 x1 f Fa Em Dx P0 P1 Eqq Rf.
  assert (Z : exists h, face_at i1 i2 u h s0) by (destruct (Only s0 Es); eauto). destruct Z as (h & Fs).
  assert (En : N (via i) p = gn u sg). { apply (face_normal s0 h q g1 d _ sg Es Fs Gr Gn Hs). pose proof (tenm_pos 10). lra. }
  rewrite En in Fo. destruct Fs as (_ & Eo & _). rewrite Eo, Em in Fo.
  destruct (pane_lawful i1 i2 u f Uu a f0 (thr i) m m' sg x0 x1 (vscale a u) d e (Lib f0 If0) F0 Fa Hs Ud) as (_ & _ & Lw & _); auto.
  { unfold is_unit in Uu. transitivity (a * norm2 u); [destruct u; open_vec; ring|rewrite Uu; ring]. }
  destruct Lw as (_ & _ & Fx). cbn [at_pane mt_surf mt_point mt_normal mt_in mt_through mt_before mt_out mt_after] in Fx. destruct F0 as (_ & Eo0 & _). rewrite Eo0 in Fx.
  assert (Unn : is_unit (gn u sg)). { unfold is_unit in *. transitivity (sg * sg * norm2 u); [unfold gn; destruct u; open_vec; ring|rewrite Uu; destruct Hs as [-> | ->]; ring]. }
  destruct (follows_once (thr i) (Refractive i1 i2) (z_of (s_frame s0)) (gn u sg) d e _ d2 e2 _ _ _ _ Logic.I Ud Unn Fo Fx) as (X1 & X2 & X3).
  split; [exact V3'|]. split; [rewrite D2, X1; reflexivity|]. split; [rewrite E2, X2; reflexivity|exact X3].
Qed.

Lemma glass_rays : forall j v d e k k', vert_at b j = Some v -> dir_at b j = Some d -> energy_at b j = Some e -> ref_at b j = Some k ->
  sides i1 i2 k k' -> enters u a w k k' v d ->
  exists f P D Out, to_and_fro u a w k k' v d f P D Out /\ 0 <= f <= 1 /\
  ((1 <= reps)%nat -> exists d', mirrored u d d' /\ found_at (t_tree st) 1 j (P 0%nat) d' (e * f) k) /\
  (forall q, (q + 1 <= reps)%nat -> ((1 <= q)%nat -> me < e * (1 - f) * f ^ (q - 1)) -> found_at (t_tree st) (q + 1) j (P q) (D q) (e * (1 - f) * f ^ q) k') /\
  (forall q, (q + 2 <= reps)%nat -> me < e * (1 - f) * f ^ q -> found_at (t_tree st) (q + 2) j (P (S q)) (Out (S q)) (e * (1 - f) * f ^ q * (1 - f)) k) /\
  (forall L i lvl, (1 <= L)%nat -> nth_error (t_tree st) L = Some lvl -> descends (t_tree st) L i j -> one_of_them u k k' d e f P D Out L lvl i).
Proof.
  intros j v d e k k' Hv Hd He Hk Fa En. destruct (proj2 Ls j _ e Hd He) as (U & Pe & _).
  destruct (cosines k k' v d Fa En) as (Pk & Pk' & P0 & P1 & Sq & Eq). pose proof Gl as (Pw & Uu & (s & Is & Fs) & _ & Only). pose proof En as (E1 & E2 & E3 & E4).
  set (x0 := dot d u) in *. set (x1 := inner_cos k k' u d) in *. set (t := to_glass u a v d) in *. set (p := ray_at v d t).
  assert (Ug : is_unit (gn u (-1))). { unfold is_unit in *. transitivity (norm2 u); [unfold gn; destruct u; open_vec; ring|exact Uu]. }
  assert (Dn : dot d (gn u (-1)) = - x0) by (unfold x0, gn; destruct d, u; open_vec; ring).
  assert (Cr : can_refract k k' d (gn u (-1))).
  { apply (snell_made k k' (gn u (-1)) d (- x1) Pk Pk' Ug U); [lra|lra|]. rewrite Dn. transitivity (k' * k' * (1 - x1 * x1)); [ring|]. rewrite Eq. ring. }
  destruct (fresnel_lawful k k' d (gn u (-1)) Pk Pk' U Ug Cr) as (f & _ & Rn); [left; lra|].
  pose proof (reflectance_bounds k k' d (gn u (-1)) f Pk Pk' Rn) as Bf.
  assert (Rf : reflectance k k' d u f). { apply (reflectance_like k k' d (gn u (-1))); auto. rewrite Dn, Rabs_Ropp. reflexivity. }
  assert (Hp : dot p u = a) by (apply (p_height k k' v d Fa U En)).
  assert (Face : forall thr, snell k k' (gn u (-1)) d (gpass u k k' (-1) x0 x1 d) /\ mirrored (gn u (-1)) d (gback u (-1) x0 d) /\
    lawful_meeting (at_pane u s thr k k' (-1) x0 x1 p d) e (e * (if thr then 1 - f else f)) /\ dot d (mt_normal (at_pane u s thr k k' (-1) x0 x1 p d)) <> 0).
  { intros thr. apply (pane_lawful i1 i2 u f Uu a s thr k k' (-1) x0 x1 p d e (Lib s Is) Fs Fa); auto. fold x0. ring. }
  assert (Eg0 : gpass u k k' (-1) x0 x1 d = gD k k' d 0).
  { unfold gpass, gD, sgn, tangential. cbn [Nat.even]. fold x0 x1. destruct d, u. open_vec. f_equal; ring. }
  assert (Ep0 : p = gP k k' v d 0).
  { unfold gP. cbn [Nat.even INR]. fold t. fold p. destruct p, (vscale (k / k') (tangential d u)), u. open_vec. f_equal; ring. }
  assert (Mu : forall sg x y, sg = 1 \/ sg = -1 -> mirrored (gn u sg) x y -> mirrored u x y).
  { intros sg x y Hs M. apply (mirrored_scaled sg u x y); [destruct Hs as [-> | ->]; ring|exact M]. }
  assert (Way : clear_until surfs v d t /\ on_surface s v d t).
  { assert (Ha : tenm 10 < Rabs (dot d u)) by (fold x0; rewrite Rabs_right; lra). split.
    - intros s' Is'. assert (Z : exists h, face_at i1 i2 u h s' /\ a <= h) by (destruct (Only s' Is'); eexists; split; eauto; lra). destruct Z as (h & Fs' & Hh).
      eexists. split; [apply (face_in_way i1 i2 u Uu h s' _ _ Fs' Ha)|]. intros y Hy K. apply (face_point i1 i2 u Uu h s' _ (Lib s' Is') Fs') in K.
      assert (E : dot (ray_at v d y) u = dot v u + y * x0) by apply height_along.
      assert (E' : dot p u = dot v u + t * x0) by apply height_along. rewrite E in K. nra.
    - split; [exact E3|]. eexists. split; [apply (face_in_way i1 i2 u Uu _ s _ _ Fs Ha)|]. apply (face_point i1 i2 u Uu _ s _ (Lib s Is) Fs). exact Hp. }
  destruct Way as (Way & On). assert (Sp : specular (s_opt s)) by (destruct Fs as (_ & -> & _); exact I).
  assert (Ei : 0 <= e * (1 - f)) by (apply Rmult_le_pos; lra).
  assert (Weak : forall q, me < e * (1 - f) * f ^ q -> me < e * (1 - f)).
  { intros q L. assert (f ^ q <= 1). { clear -Bf. induction q as [|i IHi]; cbn [pow]; [lra|]. assert (0 <= f ^ i) by (apply pow_le; lra). nra. } nra. }
  assert (Into : forall path v' d' e' m', (path <> [] -> me < e * (1 - f)) -> seen_way surfs me p (gD k k' d 0) (e * (1 - f)) (Some k') path v' d' e' (Some m') ->
    (S (length path) <= reps)%nat -> found_at (t_tree st) (S (length path)) j v' d' e' m').
  { intros path v' d' e' m' Lm Sw Hr. destruct (Face true) as (_ & _ & Lw & Nz). rewrite <- Eg0 in Sw.
    assert (Sw' : seen_way surfs me v d e (ref_at b j) (at_pane u s true k k' (-1) x0 x1 p d :: path) v' d' e' (Some m')).
    { rewrite Hk. apply (seen_next surfs me v d e (Some k) t (at_pane u s true k k' (-1) x0 x1 p d) (e * (1 - f))); auto. }
    destruct (found_top objs surfs La Df me g b n Ls Fg reps vs ds st Tr j _ _ e Hv Hd He _ _ _ _ _ Sw' Hr) as (lvl & i & A1 & A2 & A3). exists lvl, i. split; [exact A1|split; [exact A2|exact A3]]. }
  pose proof (gD_unit k k' v d Fa U En) as Du.
  exists f, (gP k k' v d), (gD k k' d), (gOut k k' d). split; [|split; [exact Bf|split; [|split; [|split]]]].
  - constructor; fold x0 x1.
    + rewrite <- Ep0. reflexivity.
    + exact Rf.
    + rewrite <- Eg0. destruct (Face true) as (Sn & _). assert (Hg : forall z, dot z (gn u (-1)) = - dot z u) by (intros z; unfold gn; destruct z, u; open_vec; ring).
      assert (Hc : forall z, norm (cross z (gn u (-1))) = norm (cross z u)) by (intros z; unfold norm; f_equal; unfold gn; destruct z, u; open_vec; ring).
      assert (Ht : forall z, tangential z (gn u (-1)) = tangential z u) by (intros z; unfold tangential; rewrite Hg; unfold gn; generalize (dot z u); intros y; destruct z, u; open_vec; f_equal; ring).
      destruct Sn as (S1 & (al & be & S2) & S3 & S4 & S5 & S6). rewrite !Hc in S5. rewrite !Ht in S6. rewrite !Hg in S3, S4. fold x0 in S3, S4.
      split; [exact S1|]. split; [exists al, (- be); rewrite S2; unfold gn; destruct d, u; open_vec; f_equal; ring|]. fold x0. split; [intros _; specialize (S4 ltac:(lra)); lra|]. split; [intros; lra|]. split; [exact S5|exact S6].
    + intros q. apply (gP_next k k' v d Fa En).
    + intros q. apply (Mu (sgn q) _ _ (sgn_or q)). rewrite <- (gD_next k k' v d En).
      destruct (face_there k k' v d Fa U En q) as (s' & Is' & Fs'). assert (Fb : sides i1 i2 k' k) by (destruct Fa as [(-> & ->)|(-> & ->)]; [right|left]; auto).
      apply (pane_lawful i1 i2 u f Uu _ s' true k' k (sgn q) x1 x0 (gP k k' v d q) (gD k k' d q) e (Lib s' Is') Fs' Fb (sgn_or q) (Du q) eq_refl (gD_dot k k' v d U En q) P1 P0 (eq_sym Eq) (inside_share k k' v d Fa U En f Rf q)).
    + intros q. apply (gP_height k k' v d Fa U En).
    + intros q. apply (gOut_through k k' v d Fa U En).
    + intros q. apply (gOut_back k k' v d Fa U En).
    + intros q. unfold gP. rewrite !S_INR. fold x1. change (Nat.even (S (S q))) with (Nat.even q). destruct (ray_at v d _), (tangential d u), u. open_vec. f_equal; ring.
  - intros Hr. exists (gback u (-1) x0 d). rewrite <- Ep0. destruct (Face false) as (_ & M & Lw & Nz). split; [apply (Mu (-1)); auto|].
    assert (Sw : seen_way surfs me v d e (ref_at b j) [at_pane u s false k k' (-1) x0 x1 p d] p (gback u (-1) x0 d) (e * f) (Some k)).
    { rewrite Hk. apply (seen_next surfs me v d e (Some k) t (at_pane u s false k k' (-1) x0 x1 p d) (e * f)); auto.
      - intros X. destruct (X eq_refl).
      - constructor. }
    destruct (found_top objs surfs La Df me g b n Ls Fg reps vs ds st Tr j _ _ e Hv Hd He _ _ _ _ _ Sw Hr) as (lvl & i & A1 & A2 & A3). exists lvl, i. split; [exact A1|split; [exact A2|exact A3]].
  - intros q Hq Lm. destruct q as [|q].
    + replace (e * (1 - f) * f ^ 0) with (e * (1 - f)) by (cbn; ring). rewrite <- Ep0. apply (Into [] p (gD k k' d 0) (e * (1 - f)) k'); [intros X; destruct (X eq_refl)|constructor|exact Hq].
    + specialize (Lm ltac:(lia)). replace (S q - 1)%nat with q in Lm by lia.
      destruct (glass_inside k k' v d Fa U En f Rf me false Bf q 0 (e * (1 - f)) Ei) as (path & Lp & Sw); auto.
      rewrite <- Ep0 in Sw. replace (S q + 1)%nat with (S (length path)) in * by lia. apply (Into path); auto. intros _. exact (Weak q Lm).
  - intros q Hq Lm.
    destruct (glass_inside k k' v d Fa U En f Rf me true Bf q 0 (e * (1 - f)) Ei) as (path & Lp & Sw); auto.
    rewrite <- Ep0 in Sw. replace (q + 2)%nat with (S (length path)) in * by lia. apply (Into path); auto. intros _. exact (Weak q Lm).
  - (* no other rays *)
    assert (Gone : forall L prev lvl pa i v' d' e' sg, is_unit d' -> sg = 1 \/ sg = -1 -> tenm 10 < - sg * dot d' u -> dot v' u = (if Rltb 0 sg then a else a + w) ->
      nth_error (t_tree st) L = Some prev -> nth_error (t_tree st) (L + 1) = Some lvl -> parent_at lvl i = Some pa ->
      vert_at prev pa = Some v' -> dir_at prev pa = Some d' -> energy_at prev pa = Some e' -> False).
    { intros L prev lvl pa i v' d' e' sg Ud' Hs Hx Hh Hq Hl Hi A1 A2 A3. destruct (child_of_pane L prev lvl pa i v' d' e' sg Hq Hl Hi A1 A2 A3 Ud' Hs Hx) as (y & Py & Onn & _).
      rewrite height_along, Hh in Onn. pose proof (tenm_pos 10). assert (0 < y * (- sg * dot d' u)) by (apply Rmult_lt_0_compat; lra).
      destruct Hs as [-> | ->]; [rewrite (proj2 (Rltb_true 0 1)) in Onn by lra|rewrite (proj2 (Rltb_false 0 (-1))) in Onn by lra]; destruct Onn; lra. }
    destruct (bounded_trace objs surfs La me g b n Ls reps vs ds st Tr) as (_ & B0 & _).
    assert (Fb : sides i1 i2 k' k) by (destruct Fa as [(-> & ->)|(-> & ->)]; [right|left]; auto).
    induction L as [|L IH]; intros i lvl HL Hl De; [lia|].
    inversion De as [|L1 lvl1 k1 pa j1 A1 A2 A3 Qx]. assert (L1 = L) by lia. subst L1 k1 j1. assert (lvl1 = lvl) by (replace (L + 1)%nat with (S L) in A1 by lia; congruence). subst lvl1. clear De.
    destruct (nth_lt (t_tree st) L) as (prev & Hq). { assert (L + 1 < length (t_tree st))%nat by (apply nth_error_Some; congruence). lia. }
    destruct L as [|L].
    + assert (prev = b) by congruence. subst prev. assert (pa = j) by (inversion A3; [congruence|lia]). subst pa.
      destruct (child_of_pane 0 b lvl j i v d e (-1) Hq A1 A2 Hv Hd He U (or_intror eq_refl) ltac:(fold x0; lra)) as (y & Py & Onn & Bef & thr & Ch).
      assert (Et : t * x0 = a - dot v u) by (unfold t, to_glass; fold x0; field; lra).
      assert (Ey : y = t).
      { rewrite height_along in Onn. fold x0 in Onn. destruct Onn as [Onn|Onn]; [apply (Rmult_eq_reg_r x0); lra|]. exfalso.
        assert (t < y) by (apply (Rmult_lt_reg_r x0); lra).
        destruct (Bef t a (or_introl eq_refl)) as (y0 & Y1 & Y2); [split; [pose proof (tenm_pos 6); lra|lra]|exact Hp|].
        rewrite height_along in Y2. fold x0 in Y2. assert (y0 = t) by (apply (Rmult_eq_reg_r x0); lra). lra. }
      specialize (Ch k k' x0 x1 f Fa Hk ltac:(fold x0; ring) P0 P1 Eq Rn). rewrite Ey in Ch. fold p in Ch. rewrite Ep0 in Ch. destruct thr.
      * right; left. exists 0%nat. split; [reflexivity|]. rewrite Eg0 in Ch. replace (e * (1 - f) * f ^ 0) with (e * (1 - f)) by (cbn; ring). exact Ch.
      * left. split; [reflexivity|]. exists (gback u (-1) x0 d). split; [apply (Mu (-1)); auto; apply (Face false)|exact Ch].
    + destruct (IH pa prev ltac:(lia) Hq A3) as [(Z1 & d' & M & R1 & R2 & R3 & R4)|[(q & Z1 & R1 & R2 & R3 & R4)|(q & Z1 & R1 & R2 & R3 & R4)]].
      * exfalso. assert (U' : is_unit d') by exact (mirrored_unit _ _ _ U Uu M). destruct M as (Md & _). fold x0 in Md.
        apply (Gone (S L) prev lvl pa i (gP k k' v d 0) d' (e * f) 1); auto; [rewrite Md; lra|]. rewrite (proj2 (Rltb_true 0 1)) by lra. rewrite <- Ep0. exact Hp.
      * destruct (child_of_pane _ prev lvl pa i _ _ _ (sgn q) Hq A1 A2 R1 R2 R3 (Du q) (sgn_or q)) as (y & Py & Onn & _ & thr & Ch).
        { rewrite (gD_dot k k' v d U En). fold x1. replace (- sgn q * (- sgn q * x1)) with (sgn q * sgn q * x1) by ring. rewrite sgn_sq. lra. }
        assert (Ey : y = w / x1).
        { rewrite height_along, (gP_height k k' v d Fa U En), (gD_dot k k' v d U En) in Onn. fold x1 in Onn. apply (Rmult_eq_reg_r x1); [|lra]. replace (w / x1 * x1) with w by (field; lra).
          assert (0 < y * x1) by (apply Rmult_lt_0_compat; lra). unfold sgn in Onn. destruct (Nat.even q), Onn; lra. }
        specialize (Ch k' k x1 x0 f Fb R4 (gD_dot k k' v d U En q) P1 P0 (eq_sym Eq) (inside_share k k' v d Fa U En f Rf q)). rewrite Ey in Ch.
        unfold x1 in Ch at 1. rewrite <- (gP_next k k' v d Fa En) in Ch. destruct thr.
        -- right; right. exists q. split; [lia|]. exact Ch.
        -- right; left. exists (S q). split; [lia|]. unfold x1 in Ch. rewrite (gD_next k k' v d En) in Ch. replace (e * (1 - f) * f ^ S q) with (e * (1 - f) * f ^ q * f) by (cbn [pow]; ring). exact Ch.
      * exfalso. destruct (Nat.even q) eqn:Ev.
        -- rewrite (gOut_through k k' v d Fa U En q Ev) in R2. apply (Gone (S L) prev lvl pa i (gP k k' v d (S q)) d (e * (1 - f) * f ^ q * (1 - f)) (-1)); auto; [fold x0; lra|].
           rewrite (gP_height k k' v d Fa U En), Nat.even_succ, <- Nat.negb_even, Ev. rewrite (proj2 (Rltb_false 0 (-1))) by lra. reflexivity.
        -- pose proof (gOut_back k k' v d Fa U En q Ev) as M. assert (U' : is_unit (gOut k k' d (S q))) by exact (mirrored_unit _ _ _ U Uu M). destruct M as (Md & _). fold x0 in Md.
           apply (Gone (S L) prev lvl pa i (gP k k' v d (S q)) (gOut k k' d (S q)) (e * (1 - f) * f ^ q * (1 - f)) 1); auto; [rewrite Md; lra|].
           rewrite (gP_height k k' v d Fa U En), Nat.even_succ, <- Nat.negb_even, Ev. rewrite (proj2 (Rltb_true 0 1)) by lra. reflexivity.
Qed.
End Glass.

Lemma pane_top : forall surfs i1 i2 u a w, glass i1 i2 u a w surfs -> forall objs me g b n reps vs ds st,
  library_assembly objs surfs -> (forall ob, In ob objs -> exists k, ob = default_object k) ->
  library_source b n -> fair (g_rng g) -> ray_tracer surface_ops objs surfs g b reps me TreeTrue = Ok (vs, ds, st) ->
  forall j v d e k k', vert_at b j = Some v -> dir_at b j = Some d -> energy_at b j = Some e -> ref_at b j = Some k ->
  sides i1 i2 k k' -> enters u a w k k' v d ->
  exists f P D Out, to_and_fro u a w k k' v d f P D Out /\ 0 <= f <= 1 /\
    ((1 <= reps)%nat -> exists d', mirrored u d d' /\ found_at (t_tree st) 1 j (P 0%nat) d' (e * f) k) /\
    (forall q, (q + 1 <= reps)%nat -> ((1 <= q)%nat -> me < e * (1 - f) * f ^ (q - 1)) ->
      found_at (t_tree st) (q + 1) j (P q) (D q) (e * (1 - f) * f ^ q) k') /\
    (forall q, (q + 2 <= reps)%nat -> me < e * (1 - f) * f ^ q ->
      found_at (t_tree st) (q + 2) j (P (S q)) (Out (S q)) (e * (1 - f) * f ^ q * (1 - f)) k) /\
    (forall L i lvl, (1 <= L)%nat -> nth_error (t_tree st) L = Some lvl -> descends (t_tree st) L i j ->
      one_of_them u k k' d e f P D Out L lvl i).
Proof.
  intros surfs i1 i2 u a w Gl objs me g b n reps vs ds st La Df Ls Fg Tr.
  exact (glass_rays surfs i1 i2 u a w (proj1 (proj2 La)) Gl objs me g b n reps vs ds st La Df Ls Fg Tr).
Qed.
