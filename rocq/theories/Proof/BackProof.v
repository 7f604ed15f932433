(** Light can be sent back the way it came. *)
From Coq Require Import Reals String List Arith Bool Lia Lra Psatz.
From Verif.Base Require Import Py Num Vec.
From Verif.Model Require Import RayBundle Geometry TraceTree Sources Optics OpticsCallables Engine Surface.
From Verif.Proof Require Import CallProof DrawProof ListLemmas NumLemmas VecLemmas BundleProof ProcessProof OpticsProof OpticsTop IterProof GeomTop SelectProof DishProof LibraryTop EngineTop TraceTop LawProof SymmetryProof.
From Verif.Spec Require Import BundleSpec EngineSpec GeometrySpec GeomIface OpticsSpec LibrarySpec LawSpec BackSpec.
Import ListNotations.
Local Open Scope R_scope.

Lemma vopp_twice v : vopp (vopp v) = v.
Proof. destruct v. unfold vopp. cbn. f_equal; ring. Qed.
Lemma vopp_unit v : is_unit v -> is_unit (vopp v).
Proof. unfold is_unit. destruct v. unfold vopp. open_vec. intros <-. ring. Qed.
Lemma dot_opp_r a b : dot a (vopp b) = - dot a b.
Proof. destruct a, b. unfold vopp. open_vec. ring. Qed.
Lemma ray_back v d t : ray_at (ray_at v d t) (vopp d) t = v.
Proof. destruct v, d. unfold ray_at, vopp. open_vec. f_equal; ring. Qed.

Lemma mirrored_opp n d d' : mirrored n d d' -> mirrored n (vopp d') (vopp d).
Proof.
  intros (A & B). unfold mirrored. rewrite !dot_vopp_l. split; [lra|].
  assert (T : forall x, tangential (vopp x) n = vopp (tangential x n)) by (intros x; destruct x, n; unfold vopp; open_vec; f_equal; ring).
  rewrite !T, B. reflexivity.
Qed.

Lemma incidence_opp d n t : incidence d n t -> incidence (vopp d) n t.
Proof. intros (A & B). split; auto. rewrite dot_vopp_l, Rabs_Ropp. auto. Qed.
Lemma incidence_opp_n d n t : incidence d n t -> incidence d (vopp n) t.
Proof. intros (A & B). split; auto. rewrite dot_opp_r, Rabs_Ropp. auto. Qed.

Lemma can_opp_n k k' d n : can_refract k k' d n -> can_refract k k' d (vopp n).
Proof. intros (t & I & L). exists t. split; auto. apply incidence_opp_n; auto. Qed.
Lemma reflectance_opp_n k k' d n f : reflectance k k' d n f -> reflectance k k' d (vopp n) f.
Proof. intros (t & u & I & H). exists t, u. split; auto. apply incidence_opp_n; auto. Qed.

(** A mirrored ray comes in at the same angle. *)
Lemma incidence_mirrored n d d' t : mirrored n d d' -> incidence d n t -> incidence (vopp d') n t.
Proof. intros (A & _) (B & C). split; auto. rewrite dot_vopp_l, A, Ropp_involutive. auto. Qed.
Lemma can_mirrored k k' n d d' : mirrored n d d' -> can_refract k k' d n -> can_refract k k' (vopp d') n.
Proof. intros M (t & I & L). exists t. split; auto. eapply incidence_mirrored; eauto. Qed.
Lemma reflectance_mirrored k k' n d d' f : mirrored n d d' -> reflectance k k' d n f -> reflectance k k' (vopp d') n f.
Proof. intros M (t & u & I & H). exists t, u. split; auto. eapply incidence_mirrored; eauto. Qed.

Lemma can_reversed k k' n d d' : 0 < k -> 0 < k' -> is_unit d -> is_unit n -> snell k k' n d d' -> can_refract k k' d n ->
  can_refract k' k (vopp d') n.
Proof.
  intros H1 H2 D N S (t & I & L). destruct (snell_angle _ _ _ _ _ _ H2 D N S I) as (t2 & J & E).
  exists t2. split; [apply incidence_opp; auto|]. rewrite <- E. pose proof (SIN_bound t). nra.
Qed.

(** Snell's law backwards, with the normal on the other side. *)
Lemma snell_back k k' n d d' : 0 < k -> 0 < k' -> is_unit d -> is_unit n -> snell k k' n d d' ->
  dot d n < 0 -> dot d' n <> 0 -> snell k' k (vopp n) (vopp d') (vopp d).
Proof.
  intros H1 H2 D N S Dn Dn'. pose proof (snell_tangential k k' n d d' H1 H2 N S) as T.
  destruct S as (U & _ & _ & M & C & F). specialize (M Dn).
  split; [apply vopp_unit; auto|]. split.
  { exists (k' / k), (dot d n - (k' / k) * dot d' n).
    assert (T' : tangential d n = vscale (k' / k) (tangential d' n)).
    { replace (vscale (k' / k) (tangential d' n)) with (vscale (/ k) (vscale k' (tangential d' n))) by (destruct (tangential d' n); open_vec; f_equal; field; lra).
      rewrite T. destruct (tangential d n). open_vec. f_equal; field; lra. }
    rewrite (mirrored_decomp d n) at 1. rewrite T'. generalize (dot d n). intros c. unfold tangential.
    generalize (dot d' n). intros c'. destruct d', n. unfold vopp. open_vec. f_equal; ring. }
  split. { rewrite !dot_vopp_l, !dot_opp_r. lra. }
  split. { rewrite !dot_vopp_l, !dot_opp_r. lra. }
  assert (Cr : forall x, norm (cross (vopp x) (vopp n)) = norm (cross x n)).
  { intros x. f_equal. destruct x, n. unfold vopp. open_vec. f_equal; ring. }
  rewrite !Cr. split; [auto|].
  assert (Tn : forall x, tangential (vopp x) (vopp n) = vopp (tangential x n)) by (intros x; destruct x, n; unfold vopp; open_vec; f_equal; ring).
  rewrite !Tn, dot_vopp_l, dot_opp_r, Ropp_involutive. rewrite dot_comm. exact F.
Qed.

Lemma unit_after w o z n d e m d' e' m' : is_unit d -> is_unit n -> follows w o z n d e m d' e' m' -> is_unit d'.
Proof.
  intros D N F. assert (M : mirrored n d d' -> is_unit d') by (intros M; unfold is_unit in *; rewrite (mirrored_norm n d d' N M); auto).
  destruct o as [[a|a|a]|k [a|a|a]|i1 i2]; cbn in F; try tauto.
  destruct F as (k & k' & f & _ & _ & _ & _ & _ & _ & _ & F). destruct w; [apply F|tauto].
Qed.

(** A meeting backwards: the same fraction of the energy, whatever the energy. *)
Lemma meeting_back x e e' : optics_ok (s_opt (mt_surf x)) -> lawful_meeting x e e' -> works_back x ->
  exists f, 0 <= f <= 1 /\ e' = e * f /\
    forall e0, lawful_meeting x e0 (e0 * f) /\ lawful_meeting (turned_back x) e0 (e0 * f).
Proof.
  destruct x as [s thr p n d d' m m']. unfold lawful_meeting, turned_back, works_back.
  cbn [mt_surf mt_through mt_point mt_normal mt_in mt_out mt_before mt_after].
  intros Ok (D & (q & g & Ep & Gr & (Un & (c & En) & Dn)) & F) W.
  assert (Du : is_unit d') by exact (unit_after _ _ _ _ _ _ _ _ _ _ D Un F).
  assert (Gm : mirrored n d d' -> good_normal (s_frame s) g (vopp d') n).
  { intros (A & _). split; auto. split; [eauto|]. rewrite dot_opp_r, dot_comm, A, dot_comm. lra. }
  assert (Fw : good_normal (s_frame s) g d n) by (split; auto; split; eauto).
  assert (R1 : forall a, (s_opt s = Absorbing (Reflective a) \/ exists id, s_opt s = Accountant id (Reflective a)) ->
    exists f, 0 <= f <= 1 /\ e' = e * f /\ forall e0,
    (is_unit d /\ (exists q g, p = app4 (s_frame s) q /\ is_gradient (implicit (s_geom s)) q g /\ good_normal (s_frame s) g d n) /\
     follows thr (s_opt s) (z_of (s_frame s)) n d e0 m d' (e0 * f) m') /\
    is_unit (vopp d') /\ (exists q g, p = app4 (s_frame s) q /\ is_gradient (implicit (s_geom s)) q g /\ good_normal (s_frame s) g (vopp d') (if thr then vopp n else n)) /\
     follows thr (s_opt s) (z_of (s_frame s)) (if thr then vopp n else n) (vopp d') e0 m' (vopp d) (e0 * f) m).
  { intros a Ho. assert (F' : thr = false /\ mirrored n d d' /\ e' = e * (1 - a) /\ m' = m).
    { destruct Ho as [Ho|(id & Ho)]; rewrite Ho in F; exact F. }
    destruct F' as (-> & M & Ee & ->). exists (1 - a).
    assert (0 <= a <= 1) by (destruct Ho as [Ho|(id & Ho)]; rewrite Ho in Ok; exact Ok).
    split; [lra|]. split; [auto|]. intros e0. cbv iota. split; (split; [auto using vopp_unit|split; [eauto 8|]]);
      destruct Ho as [Ho|(id & Ho)]; rewrite Ho; cbn [follows]; (split; [auto|split; [auto using mirrored_opp|split; auto]]). }
  assert (R2 : forall a, (s_opt s = Absorbing (AbsorberReflector a) \/ exists id, s_opt s = Accountant id (AbsorberReflector a)) ->
    dot d (z_of (s_frame s)) <= 0 /\ 0 <= dot d' (z_of (s_frame s)) ->
    exists f, 0 <= f <= 1 /\ e' = e * f /\ forall e0,
    (is_unit d /\ (exists q g, p = app4 (s_frame s) q /\ is_gradient (implicit (s_geom s)) q g /\ good_normal (s_frame s) g d n) /\
     follows thr (s_opt s) (z_of (s_frame s)) n d e0 m d' (e0 * f) m') /\
    is_unit (vopp d') /\ (exists q g, p = app4 (s_frame s) q /\ is_gradient (implicit (s_geom s)) q g /\ good_normal (s_frame s) g (vopp d') (if thr then vopp n else n)) /\
     follows thr (s_opt s) (z_of (s_frame s)) (if thr then vopp n else n) (vopp d') e0 m' (vopp d) (e0 * f) m).
  { intros a Ho (Z1 & Z2).
    assert (F' : thr = false /\ mirrored n d d' /\ (dot d (z_of (s_frame s)) <= 0 -> e' = e * (1 - a)) /\ (0 < dot d (z_of (s_frame s)) -> e' = 0) /\ m' = m).
    { destruct Ho as [Ho|(id & Ho)]; rewrite Ho in F; exact F. }
    destruct F' as (-> & M & Ee & _ & ->). exists (1 - a).
    assert (0 <= a <= 1) by (destruct Ho as [Ho|(id & Ho)]; rewrite Ho in Ok; exact Ok).
    split; [lra|]. split; [auto|]. intros e0. cbv iota. assert (Z3 : dot (vopp d') (z_of (s_frame s)) <= 0) by (rewrite dot_vopp_l; lra).
    split; (split; [auto using vopp_unit|split; [eauto 8|]]);
      destruct Ho as [Ho|(id & Ho)]; rewrite Ho; cbn [follows]; (split; [auto|split; [auto using mirrored_opp|split; [auto|split; [intros; exfalso; lra|auto]]]]). }
  destruct (s_opt s) as [[a|a|a]|id [a|a|a]|i1 i2] eqn:Eo.
  - apply (R1 a); auto.
  - apply (R2 a); auto.
  - destruct W.
  - apply (R1 a); eauto.
  - apply (R2 a); eauto.
  - destruct W.
  - clear R1 R2. destruct Ok as (P1 & P2). cbn [follows] in F.
    destruct F as (k & k' & f & -> & Pk & Pk' & Os & Hf & Rf & Nr & F). destruct W as (Wi & Wt).
    assert (Os' : other_side i1 i2 k' k).
    { destruct Os as (O1 & O2). unfold other_side. destruct Wi as [Wi|Wi]; injection Wi as ->.
      - rewrite (O1 eq_refl). auto.
      - destruct (Req_dec i2 i1) as [->|Ne]; [rewrite (O1 eq_refl); auto|]. rewrite (O2 Ne). split; [auto|congruence]. }
    destruct thr.
    + destruct F as (Cr & Sn & -> & ->). destruct (Wt eq_refl) as (N1 & N2). assert (Dlt : dot d n < 0) by (rewrite dot_comm in Dn; lra).
      exists (1 - f). split; [lra|]. split; [auto|]. intros e0. split.
      * split; [auto|]. split; [eauto|]. exists k, k', f. repeat (split; auto).
      * split; [apply vopp_unit; auto|].
        assert (Dlt' : dot d' n <= 0) by (apply Sn; auto).
        split. { exists q, g. split; auto. split; auto. split; [apply vopp_unit; exact Un|]. split.
          - exists (- c). rewrite En. destruct (mv3 (rot_of (s_frame s)) g). unfold vopp. open_vec. f_equal; ring.
          - rewrite dot_vopp_l, dot_opp_r, Ropp_involutive, dot_comm. auto. }
        assert (Cb : can_refract k' k (vopp d') (vopp n)) by (apply can_opp_n; exact (can_reversed k k' n d d' Pk Pk' D Un Sn Cr)).
        exists k', k, f. split; [auto|]. split; [auto|]. split; [auto|]. split; [auto|]. split; [auto|]. split.
        { intros _. apply reflectance_opp_n. apply (reflectance_reversed k k' d n d' f); auto. }
        split; [intros Hn; contradiction|]. split; [auto|]. split; [apply snell_back; auto|auto].
    + destruct F as (M & -> & ->). exists f. split; [auto|]. split; [auto|]. intros e0. split.
      * split; [auto|]. split; [eauto|]. exists k, k', f. repeat (split; auto).
      * split; [apply vopp_unit; auto|]. split; [eauto 8|].
        assert (Mo : mirrored n (vopp d') (vopp d)) by (apply mirrored_opp; auto).
        assert (Cb : can_refract k k' (vopp d') n -> can_refract k k' d n).
        { intros Cr. rewrite <- (vopp_twice d). exact (can_mirrored k k' n (vopp d') (vopp d) Mo Cr). }
        exists k, k', f. split; [auto|]. split; [auto|]. split; [auto|]. split; [auto|]. split; [auto|]. split.
        { intros Cr. eapply reflectance_mirrored; eauto. }
        split. { intros Ncr. apply Nr. intros Cr. apply Ncr. eapply can_mirrored; eauto. }
        auto.
Qed.

Lemma way_app surfs v d e m p1 v1 d1 e1 m1 : way surfs v d e m p1 v1 d1 e1 m1 ->
  forall p2 v2 d2 e2 m2, way surfs v1 d1 e1 m1 p2 v2 d2 e2 m2 -> way surfs v d e m (p1 ++ p2) v2 d2 e2 m2.
Proof.
  intros H. induction H as [v d e m t Pt|v d e m t x ex path v' d' e' m' Pt Hs Ep Ei Eb Lx H IH]; intros p2 v2 d2 e2 m2 H2.
  - cbn. inversion H2 as [? ? ? ? t2 Pt2|? ? ? ? t2 x e1 path ? ? ? ? Pt2 Hs Ep Ei Eb Lx H]; subst.
    + replace (ray_at (ray_at v d2 t) d2 t2) with (ray_at v d2 (t + t2)) by (destruct v, d2; unfold ray_at; open_vec; f_equal; ring). constructor. lra.
    + apply (way_meets surfs v (mt_in x) e (mt_before x) (t + t2) x e1); auto; [lra|]. rewrite Ep. destruct v, (mt_in x); unfold ray_at; open_vec; f_equal; ring.
  - cbn. econstructor; eauto.
Qed.

Lemma way_back_top surfs : (forall s, In s surfs -> optics_ok (s_opt s)) ->
  forall v d e m path v' d' e' m', way surfs v d e m path v' d' e' m' -> Forall works_back path ->
  exists f, 0 <= f <= 1 /\ e' = e * f /\
    forall e0, way surfs v d e0 m path v' d' (e0 * f) m' /\
               way surfs v' (vopp d') e0 m' (rev (map turned_back path)) v (vopp d) (e0 * f) m.
Proof.
  intros Ok v d e m path v' d' e' m' H. induction H as [v d e m t Pt|v d e m t x ex path v' d' e' m' Pt Hs Ep Ei Eb Lx H IH]; intros W.
  - exists 1. split; [lra|]. split; [ring|]. intros e0. rewrite Rmult_1_r. split; [constructor; auto|]. cbn.
    rewrite <- (ray_back v d t) at 2. constructor. auto.
  - inversion W as [|? ? Wx Wp]; subst. destruct (IH Wp) as (f & Bf & -> & B).
    destruct (meeting_back x e ex (Ok _ Hs) Lx Wx) as (f1 & Bf1 & -> & B1).
    exists (f1 * f). split. { split; [apply Rmult_le_pos; lra|]. rewrite <- (Rmult_1_r 1). apply Rmult_le_compat; lra. }
    split; [ring|]. intros e0. split.
    + rewrite <- Rmult_assoc. econstructor; eauto; [apply B1|apply B].
    + cbn [map rev]. replace (e0 * (f1 * f)) with (e0 * f * f1) by ring. eapply way_app; [apply B|].
      eapply (way_meets surfs (mt_point x) (vopp (mt_out x)) (e0 * f) (mt_after x) 0 (turned_back x)); cbn; auto; [lra| |apply B1|].
      * destruct (mt_point x), (mt_out x). unfold ray_at, vopp. open_vec. f_equal; ring.
      * rewrite Ep. rewrite <- (ray_back v (mt_in x) t) at 2. constructor. auto.
Qed.

(** ** The law leaves no choice *)
Lemma scaled_unit a b v : is_unit (vscale a v) -> is_unit (vscale b v) -> vscale b v = vscale a v \/ vscale b v = vopp (vscale a v).
Proof.
  unfold is_unit. intros A B. assert (Q : (b - a) * (b + a) * norm2 v = 0).
  { destruct v. open_vec. lra. }
  assert (Nv : norm2 v <> 0). { intros Z. rewrite (norm2_zero _ Z) in A. open_vec. lra. }
  apply Rmult_integral in Q as [Q|Q]; [|contradiction]. apply Rmult_integral in Q as [Q|Q].
  - left. replace b with a by lra. auto.
  - right. replace b with (- a) by lra. destruct v. unfold vopp. open_vec. f_equal; ring.
Qed.

Lemma meeting_determined x y e ex ey : lawful_meeting x e ex -> lawful_meeting y e ey ->
  mt_surf x = mt_surf y -> mt_through x = mt_through y -> mt_point x = mt_point y -> mt_in x = mt_in y -> mt_before x = mt_before y ->
  rigid (s_frame (mt_surf x)) -> specular (s_opt (mt_surf x)) -> dot (mt_in x) (mt_normal x) <> 0 -> y = x /\ ey = ex.
Proof.
  destruct x as [s thr p n d d1 m m1], y as [s' thr' p' n' d' d2 m' m2]. unfold lawful_meeting.
  cbn [mt_surf mt_through mt_point mt_normal mt_in mt_out mt_before mt_after].
  intros (D & (q & g & Ep & Gr & (Un & (c & En) & Dn)) & F) (_ & (q' & g' & Ep' & Gr' & (Un' & (c' & En') & Dn')) & F') <- <- <- <- <- RT Sp Nz.
  assert (q' = q) by (apply (app4_inj (s_frame s)); auto; congruence). subst q'.
  assert (g' = g) by (eapply gradient_unique; eauto). subst g'.
  assert (n' = n).
  { subst n n'. destruct (scaled_unit c c' (mv3 (rot_of (s_frame s)) g) Un Un') as [E|E]; auto. exfalso.
    rewrite E, dot_vopp_l in Dn'. apply Nz. rewrite dot_comm. lra. }
  clear En'. subst n'.
  assert (Mu : mirrored n d d1 -> mirrored n d d2 -> d2 = d1) by (intros; eapply mirrored_unique; eauto).
  assert (Ab : forall ab, specular (Absorbing ab) -> follows thr (Absorbing ab) (z_of (s_frame s)) n d e m d1 ex m1 ->
    follows thr (Absorbing ab) (z_of (s_frame s)) n d e m d2 ey m2 -> d2 = d1 /\ ey = ex /\ m2 = m1).
  { intros [a|a|a] S Q Q'; [| |destruct S]; cbn in Q, Q'.
    - destruct Q as (_ & M & -> & ->), Q' as (_ & M' & -> & ->). auto.
    - destruct Q as (_ & M & A1 & A2 & ->), Q' as (_ & M' & B1 & B2 & ->). split; auto. split; auto.
      destruct (Rle_lt_dec (dot d (z_of (s_frame s))) 0) as [Z|Z]; [rewrite A1, B1|rewrite A2, B2]; auto. }
  assert (K : d2 = d1 /\ ey = ex /\ m2 = m1); [|destruct K as (-> & -> & ->); auto].
  destruct (s_opt s) as [ab|id ab|i1 i2] eqn:Eo; [apply (Ab ab); auto|apply (Ab ab); destruct ab; auto|].
  cbn [follows] in F, F'.
  destruct F as (k & k1 & f & -> & Pk & Pk1 & Os & Hf & Rf & Nr & F). destruct F' as (k0 & k2 & f' & Ek & _ & Pk2 & Os' & Hf' & Rf' & Nr' & F').
  injection Ek as <-.
  assert (k2 = k1). { destruct Os as (A & B), Os' as (A' & B'). destruct (Req_dec k i1) as [Z|Z]; [rewrite A, A'|rewrite B, B']; auto. } subst k2.
  assert (f' = f).
  { pose proof (can_refract_iff k k1 d n Pk Pk1 D Un) as Ci.
    destruct (is_refracted (k1 / k) d n) eqn:Ir.
    - assert (Cr : can_refract k k1 d n) by (apply Ci; auto). exact (reflectance_unique k k1 d n _ _ Pk1 (Rf' Cr) (Rf Cr)).
    - assert (Cr : ~ can_refract k k1 d n) by (intros Cr; apply Ci in Cr; congruence). rewrite Nr, Nr'; auto. }
  subst f'. destruct thr.
  - destruct F as (_ & Sn & -> & ->), F' as (_ & Sn' & -> & ->). split; auto. exact (snell_unique k k1 n d _ _ Pk Pk1 D Un Sn' Sn).
  - destruct F as (M & -> & ->), F' as (M' & -> & ->). auto.
Qed.

(** ** The rays of a trace *)
Lemma trace_ways : forall objs surfs, library_assembly objs surfs ->
  forall me g b n, library_source b n -> fair (g_rng g) -> forall reps vs ds st,
  ray_tracer surface_ops objs surfs g b reps me TreeTrue = Ok (vs, ds, st) ->
  forall L lvl k v d e, nth_error (t_tree st) L = Some lvl -> vert_at lvl k = Some v -> dir_at lvl k = Some d -> energy_at lvl k = Some e ->
  exists j v0 d0 e0 path, descends (t_tree st) L k j /\
    vert_at b j = Some v0 /\ dir_at b j = Some d0 /\ energy_at b j = Some e0 /\ length path = L /\
    way surfs v0 d0 e0 (ref_at b j) path v d e (ref_at lvl k).
Proof.
  intros objs surfs La me g b n Ls Fg reps vs ds st E.
  destruct (laws_top objs surfs La me g b n Ls Fg reps vs ds st E) as (ns & Ts & _ & _ & H).
  assert (E0 : nth_error (t_tree st) 0 = Some b).
  { destruct (library_trace objs surfs me La g b n reps vs ds st Ls E) as (ns' & Ts' & gs & C & _).
    apply (ct_source _ _ _ _ _ _ _ _ _ _ _ _ _ C). }
  enough (K : forall L lvl k v d e, nth_error (t_tree st) L = Some lvl -> vert_at lvl k = Some v -> dir_at lvl k = Some d -> energy_at lvl k = Some e ->
    is_unit d /\ exists j v0 d0 e0 path, descends (t_tree st) L k j /\
    vert_at b j = Some v0 /\ dir_at b j = Some d0 /\ energy_at b j = Some e0 /\ length path = L /\
    way surfs v0 d0 e0 (ref_at b j) path v d e (ref_at lvl k)).
  { intros L lvl k v d e A1 A2 A3 A4. apply (K L lvl k v d e A1 A2 A3 A4). }
  induction L as [|L IH]; intros lvl k v d e Hl Hv Hd He.
  - assert (lvl = b) as -> by congruence. destruct Ls as (Tr & Al). split; [apply (Al k d e Hd He)|].
    exists k, v, d, e, []. split; [eapply from_source; eauto|]. repeat (split; auto).
    replace v with (ray_at v d 0) at 2 by (destruct v, d; unfold ray_at; open_vec; f_equal; ring). constructor. lra.
  - replace (S L) with (L + 1)%nat in * by lia.
    destruct (nth_lt (t_tree st) L) as (prev & Hp). { assert (L + 1 < length (t_tree st))%nat by (apply nth_error_Some; congruence). lia. }
    destruct (H L prev lvl Hp Hl) as (N & via & thr & A & _).
    destruct (A k v Hv) as (s & j0 & t & Es & M & (v1 & d1 & e1 & q & gr & d' & e' & Hv1 & Hd1 & He1 & Hpar & Hv' & Hd' & He' & Hq & Hg & Hn & F & X)). clear A.
    assert (d' = d) by congruence. subst d'. assert (e' = e) by congruence. subst e'. assert (v = ray_at v1 d1 t) by congruence. subst v.
    destruct (IH prev j0 v1 d1 e1 Hp Hv1 Hd1 He1) as (Ud & j & v0 & d0 & e0 & path & D & B1 & B2 & B3 & Lp & Wy).
    split; [eapply unit_after; [exact Ud|apply Hn|exact F]|].
    pose (x := mkMeeting s (thr k) (ray_at v1 d1 t) (N (via k) j0) d1 d (ref_at prev j0) (ref_at lvl k)).
    exists j, v0, d0, e0, (path ++ [x])%list. split; [eapply from_parent; eauto|]. repeat (split; auto).
    { rewrite app_length, Lp. reflexivity. }
    eapply way_app; [exact Wy|]. apply (way_meets surfs v1 d1 e1 (ref_at prev j0) t x e); auto.
    + pose proof (meets_first_pos _ _ _ _ _ _ M). pose proof (tenm_pos 10). lra.
    + eapply nth_error_In; eauto.
    + split; [exact Ud|]. split; [|exact F]. exists q, gr. auto.
    + cbn. replace (ray_at v1 d1 t) with (ray_at (ray_at v1 d1 t) d 0) at 2 by (destruct v1, d1, d; unfold ray_at; open_vec; f_equal; ring). constructor. lra.
Qed.

(** ** Light sent back in a trace *)
Lemma normal_same s p q g n q' g' n' d : rigid (s_frame s) -> p = app4 (s_frame s) q -> p = app4 (s_frame s) q' ->
  is_gradient (implicit (s_geom s)) q g -> is_gradient (implicit (s_geom s)) q' g' ->
  good_normal (s_frame s) g d n -> good_normal (s_frame s) g' d n' -> dot d n <> 0 -> n' = n.
Proof.
  intros RT Ep Ep' Gr Gr' (Un & (c & En) & Dn) (Un' & (c' & En') & Dn') Nz.
  assert (q' = q) by (apply (app4_inj (s_frame s)); auto; congruence). subst q'.
  assert (g' = g) by (eapply gradient_unique; eauto). subst g' n n'.
  destruct (scaled_unit c c' (mv3 (rot_of (s_frame s)) g) Un Un') as [E|E]; auto. exfalso.
  rewrite E, dot_vopp_l in Dn'. apply Nz. rewrite dot_comm. lra.
Qed.

Lemma parent_vert lvl m k j : traceable lvl m -> parent_at lvl k = Some j -> exists p, vert_at lvl k = Some p.
Proof.
  intros T P. assert (Lk : (k < m)%nat) by (eapply rays_parent_lt; [apply T|exact P]).
  destruct (traceable_vert lvl m k T Lk) as (p & Hp). eauto.
Qed.

Lemma sent_back surfs T ns prev N via thr lvl m : sent_on surfs T ns prev N via thr lvl -> traceable lvl m ->
  forall x e e' i j t v e0, lawful_meeting x e e' -> works_back x -> dot (mt_in x) (mt_normal x) <> 0 ->
  lib_surface (mt_surf x) -> nth_error surfs i = Some (mt_surf x) -> meets_first T (length surfs) ns i j t ->
  vert_at prev j = Some v -> dir_at prev j = Some (vopp (mt_out x)) -> energy_at prev j = Some e0 -> ref_at prev j = mt_after x ->
  mt_point x = ray_at v (vopp (mt_out x)) t ->
  exists f k, 0 <= f <= 1 /\ e' = e * f /\ parent_at lvl k = Some j /\ vert_at lvl k = Some (mt_point x) /\
    dir_at lvl k = Some (vopp (mt_in x)) /\ energy_at lvl k = Some (e0 * f) /\ ref_at lvl k = mt_before x.
Proof.
  intros (S1 & S2 & _) Tl x e e' i j t v e0 Lx Wx Nz (RT & Ok & _) Es M Hv Hd He Hr Hp.
  destruct (meeting_back x e e' Ok Lx Wx) as (f & Bf & Ee & B). destruct (B e0) as (_ & Lb). exists f.
  assert (Sp : specular (s_opt (mt_surf x))). { unfold works_back in Wx. destruct (s_opt (mt_surf x)) as [[]|? []|]; cbn; auto. }
  (* the normal seen from this side *)
  assert (Nb : dot (mt_in (turned_back x)) (mt_normal (turned_back x)) <> 0).
  { cbn [turned_back mt_in mt_normal]. rewrite dot_vopp_l. destruct Lx as (_ & _ & F). unfold works_back in Wx.
    assert (Mi : mirrored (mt_normal x) (mt_in x) (mt_out x) -> mt_through x = false -> - dot (mt_out x) (if mt_through x then vopp (mt_normal x) else mt_normal x) <> 0).
    { intros (A & _) ->. rewrite A. lra. }
    destruct (s_opt (mt_surf x)) as [[]|? []|i1 i2]; cbn [follows] in F; try (apply Mi; tauto).
    destruct F as (k & k' & f' & _ & _ & _ & _ & _ & _ & _ & F). destruct (mt_through x) eqn:Et; [|apply Mi; tauto].
    destruct Wx as (_ & W). destruct (W eq_refl) as (_ & W2). rewrite dot_opp_r. lra. }
  destruct (S2 i (mt_surf x) j t _ Es M Hd) as ((k0 & P0 & V0 & T0) & K2).
  (* what a ray made from the one sent back is *)
  assert (G : forall k, parent_at lvl k = Some j -> via k = i -> made_from prev j (mt_surf x) t (N i j) (thr k) lvl k).
  { intros k Pk Vk. destruct (parent_vert lvl m k j Tl Pk) as (p & Hpk).
    destruct (S1 k p Hpk) as (s & j' & t' & Es' & M' & Mk). rewrite Vk in *.
    assert (s = mt_surf x) by congruence. subst s.
    assert (j' = j). { destruct Mk as (? & ? & ? & ? & ? & ? & ? & _ & _ & _ & Pj & _). congruence. } subst j'.
    assert (t' = t). { destruct M as (_ & _ & A & _), M' as (_ & _ & A' & _). congruence. } subst t'. exact Mk. }
  assert (Gn : N i j = mt_normal (turned_back x)).
  { destruct (G k0 P0 V0) as (v1 & d1 & e1 & q & g & d' & e2 & Hv1 & Hd1 & _ & _ & _ & _ & _ & Hq & Hg & Hn & _).
    assert (v1 = v) by congruence. assert (d1 = vopp (mt_out x)) by congruence. subst v1 d1. destruct Lb as (_ & (q' & g' & Eq & Gq & Gg) & _).
    eapply (normal_same (mt_surf x) (mt_point x)); [exact RT|exact Eq|rewrite Hp; exact Hq|exact Gq|exact Hg|exact Gg|exact Hn|exact Nb]. }
  assert (Fin : forall k, parent_at lvl k = Some j -> via k = i -> thr k = mt_through x ->
    vert_at lvl k = Some (mt_point x) /\ dir_at lvl k = Some (vopp (mt_in x)) /\ energy_at lvl k = Some (e0 * f) /\ ref_at lvl k = mt_before x).
  { intros k Pk Vk Tk. destruct (G k Pk Vk) as (v1 & d1 & e1 & q & g & d' & e2 & Hv1 & Hd1 & He1 & _ & Hv2 & Hd2 & He2 & Hq & Hg & Hn & F & _).
    assert (v1 = v) by congruence. assert (d1 = vopp (mt_out x)) by congruence. assert (e1 = e0) by congruence. subst v1 d1 e1.
    pose (y := mkMeeting (mt_surf x) (thr k) (mt_point x) (N i j) (vopp (mt_out x)) d' (ref_at prev j) (ref_at lvl k)).
    assert (Ly : lawful_meeting y e0 e2).
    { split; [exact (proj1 Lb)|]. split; [|exact F]. exists q, g. split; [cbn; rewrite Hp; exact Hq|]. split; auto. }
    destruct (meeting_determined (turned_back x) y e0 (e0 * f) e2 Lb Ly) as (Ey & ->); auto.
    unfold y in Ey. assert (d' = mt_out (turned_back x)) as -> by (rewrite <- Ey; reflexivity).
    assert (R : ref_at lvl k = mt_after (turned_back x)) by (rewrite <- Ey; reflexivity).
    split; [rewrite Hp; auto|]. split; [exact Hd2|]. split; auto. }
  destruct (mt_through x) eqn:Et.
  - assert (Rf : refracts (s_opt (mt_surf x)) (N i j) (vopp (mt_out x)) (ref_at prev j)).
    { rewrite Gn, Hr. destruct Lb as (_ & _ & F). cbn [turned_back mt_through mt_surf mt_normal mt_in mt_before mt_after mt_out] in F |- *. rewrite Et in F |- *.
      destruct (s_opt (mt_surf x)) as [[]|? []|i1 i2]; cbn [follows] in F; try (destruct F; discriminate).
      destruct F as (k & k' & f' & A1 & _ & _ & A2 & _ & _ & _ & (A3 & _)). exists k, k'. auto. }
    apply K2 in Rf as (k & Pk & Vk & Tk). exists k. split; [exact Bf|]. split; [exact Ee|]. split; [exact Pk|]. apply Fin; auto.
  - exists k0. split; [exact Bf|]. split; [exact Ee|]. split; [exact P0|]. apply Fin; auto.
Qed.

Lemma sent_back_top : forall objs surfs, library_assembly objs surfs ->
  forall me g b n, library_source b n -> fair (g_rng g) -> forall reps vs ds st,
  ray_tracer surface_ops objs surfs g b reps me TreeTrue = Ok (vs, ds, st) ->
  exists (ns : nat -> nat) (Ts : nat -> reports),
  (forall L prev, nth_error (t_tree st) L = Some prev -> (L < reps)%nat -> (0 < ns L)%nat ->
     exists tb, reported surface_ops surfs prev (ns L) (Ts L) tb) /\
  (forall L prev, nth_error (t_tree st) L = Some prev -> forall j, (j < ns L)%nat <-> is_traced me L prev j) /\
  forall L prev lvl, nth_error (t_tree st) L = Some prev -> nth_error (t_tree st) (L + 1) = Some lvl ->
  forall x e e' i j t v e0, lawful_meeting x e e' -> works_back x -> dot (mt_in x) (mt_normal x) <> 0 ->
  nth_error surfs i = Some (mt_surf x) -> meets_first (Ts L) (length surfs) (ns L) i j t ->
  vert_at prev j = Some v -> dir_at prev j = Some (vopp (mt_out x)) -> energy_at prev j = Some e0 -> ref_at prev j = mt_after x ->
  mt_point x = ray_at v (vopp (mt_out x)) t ->
  exists f k, 0 <= f <= 1 /\ e' = e * f /\ parent_at lvl k = Some j /\ vert_at lvl k = Some (mt_point x) /\
    dir_at lvl k = Some (vopp (mt_in x)) /\ energy_at lvl k = Some (e0 * f) /\ ref_at lvl k = mt_before x.
Proof.
  intros objs surfs La me g b n Ls Fg reps vs ds st E.
  destruct (laws_top objs surfs La me g b n Ls Fg reps vs ds st E) as (ns & Ts & A1 & A2 & H).
  destruct (library_trace objs surfs me La g b n reps vs ds st Ls E) as (ns' & Ts' & gs & C & _).
  exists ns, Ts. split; [exact A1|]. split; [exact A2|]. intros L prev lvl Hp Hl x e e' i j t v e0 Lx Wx Nz Es.
  destruct (H L prev lvl Hp Hl) as (N & via & thr & So).
  destruct (ct_level _ _ _ _ _ _ _ _ _ _ _ _ _ C L prev lvl Hp Hl) as (tb' & rc & mm & ems & _ & _ & _ & _ & Tl & _).
  assert (Lb : lib_surface (mt_surf x)). { destruct La as (_ & Hs & _). apply Hs. eapply nth_error_In; eauto. }
  exact (sent_back surfs (Ts L) (ns L) prev N via thr lvl _ So Tl x e e' i j t v e0 Lx Wx Nz Lb Es).
Qed.

Lemma trace_back : forall objs surfs, library_assembly objs surfs ->
  forall me g b n, library_source b n -> fair (g_rng g) -> forall reps vs ds st,
  ray_tracer surface_ops objs surfs g b reps me TreeTrue = Ok (vs, ds, st) ->
  forall L lvl k v d e, nth_error (t_tree st) L = Some lvl -> vert_at lvl k = Some v -> dir_at lvl k = Some d -> energy_at lvl k = Some e ->
  exists j v0 d0 e0 path, descends (t_tree st) L k j /\
    vert_at b j = Some v0 /\ dir_at b j = Some d0 /\ energy_at b j = Some e0 /\ length path = L /\
    way surfs v0 d0 e0 (ref_at b j) path v d e (ref_at lvl k) /\
    (Forall works_back path -> exists f, 0 <= f <= 1 /\ e = e0 * f /\
       forall e1, way surfs v (vopp d) e1 (ref_at lvl k) (rev (map turned_back path)) v0 (vopp d0) (e1 * f) (ref_at b j)).
Proof.
  intros objs surfs La me g b n Ls Fg reps vs ds st E L lvl k v d e Hl Hv Hd He.
  destruct (trace_ways objs surfs La me g b n Ls Fg reps vs ds st E L lvl k v d e Hl Hv Hd He) as (j & v0 & d0 & e0 & path & D & A1 & A2 & A3 & Lp & W).
  exists j, v0, d0, e0, path. repeat (split; auto). intros Wb.
  assert (Ok : forall s, In s surfs -> optics_ok (s_opt s)) by (intros s Hs; destruct La as (_ & Hs' & _); apply (Hs' s Hs)).
  destruct (way_back_top surfs Ok _ _ _ _ _ _ _ _ _ W Wb) as (f & Bf & Ef & B). exists f. split; auto. split; auto. intros e1. apply B.
Qed.
