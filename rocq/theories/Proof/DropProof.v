(** Light in a drop. *)
From Coq Require Import Reals List Arith Bool Lra Lia.
From Verif.Base Require Import Py Num Vec.
From Verif.Model Require Import RayBundle Boundary Geometry TraceTree Sources OpticsCallables Engine Objects Surface.
From Verif.Proof Require Import ListLemmas NumLemmas VecLemmas FlatProof SelectProof GeomProof GeomTop OpticsProof DishProof MeshProof EngineTop TraceTop LawProof SymmetryProof BackProof AnswerProof OrderProof SightProof FoundProof BallProof.
From Verif.Spec Require Import BundleSpec EngineSpec GeometrySpec GeomIface OpticsSpec LibrarySpec LawSpec BackSpec OrderSpec SightSpec FoundSpec BallSpec DropSpec.
Import ListNotations.
Local Open Scope R_scope.

(** ** Refraction *)
Lemma snell_made k k' n d g : 0 < k -> 0 < k' -> is_unit n -> is_unit d -> dot d n < 0 -> g < 0 ->
  k' * k' * (1 - g * g) = k * k * (1 - dot d n * dot d n) ->
  let d' := vadd (vscale (k / k') d) (vscale (g - k / k' * dot d n) n) in snell k k' n d d' /\ dot d' n = g /\ can_refract k k' d n.
Proof.
  intros Pk Pk' Un Ud Dn Pg E d'. unfold is_unit in *. set (C := dot d n) in *. set (q := k / k') in *.
  assert (Pq : 0 < q) by (apply Rdiv_lt_0_compat; auto).
  assert (Q : q * q * (1 - C * C) = 1 - g * g).
  { apply (Rmult_eq_reg_l (k' * k')); [|nra]. rewrite E. unfold q. field. lra. }
  assert (Dg : dot d' n = g).
  { transitivity (q * dot d n + (g - q * C) * norm2 n). { unfold d'. destruct d, n. open_vec. ring. } rewrite Un. fold C. ring. }
  assert (U' : norm2 d' = 1).
  { transitivity (q * q * norm2 d + 2 * q * (g - q * C) * dot d n + (g - q * C) * (g - q * C) * norm2 n). { unfold d'. destruct d, n. open_vec. ring. }
    rewrite Ud, Un. fold C. nra. }
  assert (Tn : tangential d' n = vscale q (tangential d n)).
  { unfold tangential. rewrite Dg. fold C. unfold d'. clearbody C. destruct d, n. open_vec. f_equal; ring. }
  split; [|split; [exact Dg|]].
  - split; [exact U'|]. split; [exists q, (g - q * C); reflexivity|]. split; [fold C; lra|]. split; [intros _; lra|]. split.
    + assert (Cr : cross d' n = vscale q (cross d n)) by (unfold d'; clearbody C; destruct d, n; open_vec; f_equal; ring).
      assert (Nq : norm (vscale q (cross d n)) = q * norm (cross d n)).
      { unfold norm. replace (norm2 (vscale q (cross d n))) with (q * q * norm2 (cross d n)) by (destruct (cross d n); open_vec; ring).
        rewrite sqrt_mult_alt by nra. rewrite sqrt_square by lra. reflexivity. }
      rewrite Cr, Nq. unfold q. field. lra.
    + rewrite Tn. replace (dot (tangential d n) (vscale q (tangential d n))) with (q * norm2 (tangential d n)) by (destruct (tangential d n); open_vec; ring).
      apply Rmult_le_pos; [lra|]. destruct (tangential d n). open_vec. nra.
  - pose proof (incidence_acos d n Ud Un) as (I1 & I2). eexists. split; [split; [exact I1|exact I2]|].
    set (t := acos _) in *. pose proof (sin2_cos2 t) as S2. unfold Rsqr in S2.
    assert (Cc : cos t * cos t = C * C) by (rewrite I2; fold C; rewrite <- Rabs_mult; apply Rabs_right; nra).
    apply Rsqr_incr_0_var; [|lra]. unfold Rsqr. assert (0 <= g * g) by nra. nra.
Qed.

Lemma reflectance_like k k' d n d1 n1 f : Rabs (dot d1 n1) = Rabs (dot d n) -> reflectance k k' d n f -> reflectance k k' d1 n1 f.
Proof. intros E (t & u & (I1 & I2) & H). exists t, u. split; [split; [exact I1|rewrite E; exact I2]|exact H]. Qed.

Section Drop.
Variables (s : surface) (r i1 i2 k k' f : R).
Hypothesis (Ms : drop r i1 i2 s) (Ls : lib_surface s).
Let c := centre s.

Lemma drop_pos : 0 < r. Proof. apply Ms. Qed.
Lemma drop_shape p : placed (s_frame s) (ball_surface r) p <-> norm2 (vsub p c) = r * r.
Proof. apply ball_point. apply Ls. Qed.
Lemma drop_in_way v d : in_the_way s v d (placed (s_frame s) (ball_surface r)).
Proof.
  exists (ball_surface r), (fun _ _ => True). split; [|auto]. destruct Ms as (-> & Pr & _). apply as_sphere.
  unfold new_sphere, check_radius. rewrite (proj2 (Rleb_false _ _) Pr). reflexivity.
Qed.
Lemma indices_pos : 0 < i1 /\ 0 < i2.
Proof. destruct Ls as (_ & Oo & _). destruct Ms as (_ & _ & E); rewrite E in Oo. exact Oo. Qed.

(** The normal on the side the light comes from: [sg] is 1 outside and -1 inside. *)
Definition nrm (sg : R) (p : vec) : vec := vscale (sg / r) (vsub p c).
Definition passed (k k' sg x x' : R) (p d : vec) : vec := vadd (vscale (k / k') d) (vscale (sg * (k / k' * x - x') / (r * r)) (vsub p c)).
Definition thrown (sg x : R) (p d : vec) : vec := vadd d (vscale (sg * (2 * x) / (r * r)) (vsub p c)).

Definition at_face (thr : bool) (m m' sg x x' : R) (p d : vec) : meeting :=
  mkMeeting s thr p (nrm sg p) d (if thr then passed m m' sg x x' p d else thrown sg x p d) (Some m) (Some (if thr then m' else m)).

Lemma face_lawful thr m m' sg x x' p d e : faces i1 i2 m m' -> sg = 1 \/ sg = -1 -> is_unit d -> norm2 (vsub p c) = r * r ->
  dot (vsub p c) d = - sg * x -> 0 < x -> 0 < x' -> m' * m' * (r * r - x' * x') = m * m * (r * r - x * x) ->
  reflectance m m' d (nrm sg p) f ->
  snell m m' (nrm sg p) d (passed m m' sg x x' p d) /\ dot d (nrm sg p) = - (x / r) /\ dot (vsub p c) (passed m m' sg x x' p d) = - sg * x' /\
  lawful_meeting (at_face thr m m' sg x x' p d) e (e * (if thr then 1 - f else f)) /\ dot d (mt_normal (at_face thr m m' sg x x' p d)) <> 0.
Proof.
  intros Fa Hs U N H Px Px' Eq Rf. pose proof drop_pos as Pr. destruct indices_pos as (Q1 & Q2).
  assert (Pm : 0 < m /\ 0 < m') by (destruct Fa as [(-> & ->)|(-> & ->)]; auto). destruct Pm as (Pm & Pm').
  assert (Ss : sg * sg = 1) by (destruct Hs as [-> | ->]; ring).
  assert (Nn : is_unit (nrm sg p)).
  { unfold is_unit. transitivity (sg * sg * (/ r * / r) * norm2 (vsub p c)). { unfold nrm. destruct (vsub p c). open_vec. field. lra. } rewrite N, Ss. field. lra. }
  assert (Dn : dot d (nrm sg p) = - (x / r)).
  { transitivity (sg / r * dot (vsub p c) d). { unfold nrm. destruct (vsub p c), d. open_vec. ring. } rewrite H. replace (sg / r * (- sg * x)) with (- (sg * sg * (x / r))) by (field; lra). rewrite Ss. ring. }
  assert (Hx : 0 < x / r) by (apply Rdiv_lt_0_compat; lra). assert (Hx' : 0 < x' / r) by (apply Rdiv_lt_0_compat; lra).
  destruct (snell_made m m' (nrm sg p) d (- (x' / r)) Pm Pm' Nn U) as (Sn & Dg & Cr); try lra.
  { rewrite Dn. apply (Rmult_eq_reg_l (r * r)); [|nra]. transitivity (m' * m' * (r * r - x' * x')); [field; lra|]. rewrite Eq. field. lra. }
  assert (Ep : vadd (vscale (m / m') d) (vscale (- (x' / r) - m / m' * dot d (nrm sg p)) (nrm sg p)) = passed m m' sg x x' p d).
  { rewrite Dn. unfold passed, nrm. destruct (vsub p c), d. open_vec. f_equal; field; lra. }
  rewrite Ep in Sn, Dg. split; [exact Sn|]. split; [exact Dn|]. split.
  { transitivity (m / m' * dot (vsub p c) d + sg * (m / m' * x - x') / (r * r) * norm2 (vsub p c)). { unfold passed. destruct (vsub p c), d. open_vec. ring. }
    rewrite H, N. field. lra. }
  split; [|cbn [at_face mt_normal]; rewrite Dn; lra].
  split; [exact U|]. cbn [at_face mt_surf mt_point mt_normal mt_in mt_through mt_before mt_out mt_after]. split.
  - apply drop_shape in N. destruct N as (q & Hq & Eq'). destruct (gradient_ok (s_geom s) q) as (k0 & Nk & G).
    exists q. eexists. split; [exact Eq'|]. split; [exact G|].
    split; [exact Nn|]. split.
    + destruct Ls as ((m0 & t0 & Ef & O) & _). exists (sg / r / k0).
      assert (Epc : vsub p c = mv3 (rot_of (s_frame s)) q) by (rewrite Eq'; unfold c, centre; rewrite Ef; apply from_centre).
      unfold nrm. rewrite Epc. destruct Ms as (-> & _). cbn [gradient].
      destruct (rot_of (s_frame s)) as [[] [] []], q. vunfold. veq; field; lra.
    + rewrite dot_comm, Dn. lra.
  - assert (Os : other_side i1 i2 m m') by (destruct Fa as [(-> & ->)|(-> & ->)]; split; intros; congruence).
    pose proof (reflectance_bounds m m' d (nrm sg p) f Pm Pm' Rf) as Bf.
    assert (Mi : mirrored (nrm sg p) d (thrown sg x p d)).
    { assert (Et : thrown sg x p d = vadd d (vscale (2 * (x / r)) (nrm sg p))).
      { unfold thrown, nrm. destruct (vsub p c), d. open_vec. f_equal; field; lra. }
      assert (Dt : dot (thrown sg x p d) (nrm sg p) = x / r).
      { rewrite Et. transitivity (dot d (nrm sg p) + 2 * (x / r) * norm2 (nrm sg p)). { destruct (nrm sg p), d. open_vec. ring. } rewrite Dn, Nn. ring. }
      split; [rewrite Dt, Dn; ring|]. unfold tangential. rewrite Dt, Dn, Et. generalize (x / r). intros y. destruct (nrm sg p), d. open_vec. f_equal; ring. }
    destruct Ms as (_ & _ & ->). cbn [follows]. exists m, m', f. split; [reflexivity|]. split; [exact Pm|]. split; [exact Pm'|]. split; [exact Os|]. split; [exact Bf|].
    split; [auto|]. split; [intros X; destruct (X Cr)|]. destruct thr; auto.
Qed.

(** ** Inside *)
Section Inside.
Variables (h h0 : R).
Hypothesis (Fa : faces i1 i2 k k') (Ph : 0 < h) (Ph0 : 0 < h0) (Eq : k * k * (r * r - h0 * h0) = k' * k' * (r * r - h * h)).
Hypothesis Rf : forall p d, is_unit d -> norm2 (vsub p c) = r * r -> dot (vsub p c) d = h -> reflectance k' k d (nrm (-1) p) f.

Lemma faces_back : faces i1 i2 k' k.
Proof. destruct Fa as [(-> & ->)|(-> & ->)]; [right|left]; auto. Qed.
Lemma thrown_bent p d : thrown (-1) h p d = bent c r h p d.
Proof. pose proof drop_pos. unfold thrown, bent. destruct (vsub p c), d. open_vec. f_equal; field; lra. Qed.

Definition leaving (v d : vec) (n : nat) : vec := passed k' k (-1) h h0 (fst (after c r h v d (S n))) (snd (after c r h v d n)).

Lemma inside_way me thr : 0 <= f <= 1 -> forall n v d e, runs c r h v d -> tenm 6 < h - dot (vsub v c) d -> 0 <= e -> ((1 <= n)%nat -> me < e * f ^ n) ->
  exists path, length path = S n /\
  seen_way [s] me v d e (Some k') path (fst (after c r h v d (S n))) (if thr : bool then leaving v d n else snd (after c r h v d (S n)))
    (if thr then e * f ^ n * (1 - f) else e * f ^ S n) (Some (if thr then k else k')).
Proof.
  pose proof drop_pos as Pr. intros Bf. induction n as [|n IH]; intros v d e Ru T He Hm.
  - destruct (end_of_chord c r h v d Ru) as (N & H & Nt & Cl). set (p := ray_at v d (h - dot (vsub v c) d)) in *.
    destruct (face_lawful thr k' k (-1) h h0 p d e faces_back (or_intror eq_refl) (ru_unit _ _ _ _ _ Ru) N) as (_ & _ & _ & Lw & Nz); auto; [lra|apply Rf; auto; apply Ru|].
    exists [at_face thr k' k (-1) h h0 p d]. split; [reflexivity|].
    apply (seen_next [s] me v d e (Some k') (h - dot (vsub v c) d) (at_face thr k' k (-1) h h0 p d) (e * (if thr then 1 - f else f))); auto.
    + left. reflexivity.
    + intros s0 [<-|[]]. eexists. split; [apply drop_in_way|]. intros u Hu K. apply (Cl u Hu). apply drop_shape. exact K.
    + split; [exact T|]. eexists. split; [apply drop_in_way|]. apply drop_shape. exact N.
    + cbn [at_face mt_surf]. destruct Ms as (_ & _ & ->); exact I.
    + intros Np. destruct (Np eq_refl).
    + cbn [at_face mt_point mt_out mt_after]. unfold leaving. cbn [after fst snd pow]. fold p. rewrite thrown_bent.
      destruct thr; [replace (e * 1 * (1 - f)) with (e * (1 - f)) by ring|rewrite Rmult_1_r]; constructor.
  - destruct (end_of_chord c r h v d Ru) as (N & H & Nt & Cl). destruct (chord_on c r Pr h v d Ru) as (Ru' & T'). set (p := ray_at v d (h - dot (vsub v c) d)) in *.
    destruct (face_lawful false k' k (-1) h h0 p d e faces_back (or_intror eq_refl) (ru_unit _ _ _ _ _ Ru) N) as (_ & _ & _ & Lw & Nz); auto; [lra|apply Rf; auto; apply Ru|].
    assert (T2 : tenm 6 < 2 * h). { destruct Ru as [_ _ Hi _]. assert (- h <= dot (vsub v c) d) by nra. lra. }
    assert (Lim : me < e * f * f ^ n). { specialize (Hm ltac:(lia)). cbn [pow] in Hm. lra. }
    assert (Ee : 0 <= e * f) by (apply Rmult_le_pos; lra).
    destruct (IH p (bent c r h p d) (e * f) Ru') as (path & Lp & Sw); auto. { rewrite T'. exact T2. }
    exists (at_face false k' k (-1) h h0 p d :: path). split; [cbn; auto|].
    apply (seen_next [s] me v d e (Some k') (h - dot (vsub v c) d) (at_face false k' k (-1) h h0 p d) (e * f)); auto.
    + left. reflexivity.
    + intros s0 [<-|[]]. eexists. split; [apply drop_in_way|]. intros u Hu K. apply (Cl u Hu). apply drop_shape. exact K.
    + split; [exact T|]. eexists. split; [apply drop_in_way|]. apply drop_shape. exact N.
    + cbn [at_face mt_surf]. destruct Ms as (_ & _ & ->); exact I.
    + intros _. assert (f ^ n <= 1).
      { clear -Bf. induction n as [|j IHj]; cbn [pow]; [lra|]. assert (0 <= f ^ j) by (apply pow_le; lra). nra. }
      nra.
    + cbn [at_face mt_point mt_out mt_after]. rewrite thrown_bent.
      replace (if thr then e * f ^ S n * (1 - f) else e * f ^ S (S n)) with (if thr then e * f * f ^ n * (1 - f) else e * f * f ^ S n) by (destruct thr; cbn [pow]; ring).
      exact Sw.
Qed.
End Inside.
End Drop.
