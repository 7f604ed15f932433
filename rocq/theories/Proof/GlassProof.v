(** Light in a pane of glass. *)
From Coq Require Import Reals List Arith Bool Lra Lia.
From Verif.Base Require Import Py Num Vec.
From Verif.Model Require Import RayBundle Boundary Geometry TraceTree Sources OpticsCallables Engine Objects Surface.
From Verif.Proof Require Import ListLemmas NumLemmas VecLemmas FlatProof SelectProof GeomProof GeomTop OpticsProof OpticsTop DishProof MeshProof EngineTop TraceTop LibraryTop LawProof SymmetryProof ImageProof SightProof FoundProof BallProof DropProof.
From Verif.Spec Require Import BundleSpec EngineSpec GeometrySpec GeomIface OpticsSpec LibrarySpec ModelSpec LawSpec BackSpec SightSpec FoundSpec ImageSpec GlassSpec.
Import ListNotations.
Local Open Scope R_scope.

Lemma plane_point F p : rigid F -> placed F xy_plane p <-> dot (vsub p (app4 F (V3 0 0 0))) (z_of F) = 0.
Proof.
  intros (m & t & -> & O).
  assert (N : forall q, dot (vsub (app4 (mk4 m t) q) (app4 (mk4 m t) (V3 0 0 0))) (z_of (mk4 m t)) = vz q).
  { intros q. rewrite from_centre. unfold z_of. rewrite rot_mk4, dot_mv3, tr3_mv3 by auto. destruct q. open_vec. ring. }
  split.
  - intros (q & Hq & ->). rewrite N. exact Hq.
  - intros H. apply placed_loc; auto. unfold xy_plane. rewrite <- H.
    assert (Ep : p = app4 (mk4 m t) (loc_pt m t p)).
    { assert (E : vsub p t = mv3 m (loc_pt m t p)) by (apply loc_pt_back; auto).
      revert E. generalize (loc_pt m t p). intros q E. destruct q as [x y z], p, t, m as [[] [] []]. vunfold.
      injection E as E1 E2 E3. cbn. f_equal; lra. }
    rewrite Ep at 2. rewrite N. reflexivity.
Qed.

Section Face.
Variables (i1 i2 : R) (u : vec) (f : R).
Hypothesis Uu : is_unit u.

Lemma face_point h s p : lib_surface s -> face_at i1 i2 u h s -> placed (s_frame s) xy_plane p <-> dot p u = h.
Proof.
  intros Ls (_ & _ & Ax & <-). rewrite plane_point by apply Ls. fold (middle s) (axis s).
  assert (E : dot (vsub p (middle s)) u = dot p u - dot (middle s) u) by (destruct p, (middle s), u; open_vec; ring).
  destruct Ax as [-> | ->]; [lra|].
  replace (dot (vsub p (middle s)) (vopp u)) with (- dot (vsub p (middle s)) u) by (destruct (vsub p (middle s)), u; unfold vopp; open_vec; ring). lra.
Qed.
Lemma face_in_way h s v d : face_at i1 i2 u h s -> tenm 10 < Rabs (dot d u) -> in_the_way s v d (placed (s_frame s) xy_plane).
Proof.
  intros (G & _ & Ax & _) H. exists xy_plane, (fun _ d => inclined (s_frame s) d). split; [rewrite G; apply as_plane|]. split; [|reflexivity].
  unfold inclined. fold (axis s). destruct Ax as [-> | ->]; [exact H|].
  replace (dot d (vopp u)) with (- dot d u) by (destruct d, u; unfold vopp; open_vec; ring). rewrite Rabs_Ropp. exact H.
Qed.

(** The light comes against [sg] times [u]. *)
Definition gn (sg : R) : vec := vscale sg u.
Definition gpass (m m' sg x x' : R) (d : vec) : vec := vadd (vscale (m / m') d) (vscale (sg * (m / m' * x - x')) u).
Definition gback (sg x : R) (d : vec) : vec := vadd d (vscale (sg * (2 * x)) u).
Definition at_pane (s : surface) (thr : bool) (m m' sg x x' : R) (p d : vec) : meeting :=
  mkMeeting s thr p (gn sg) d (if thr then gpass m m' sg x x' d else gback sg x d) (Some m) (Some (if thr then m' else m)).

Lemma pane_lawful h s thr m m' sg x x' p d e : lib_surface s -> face_at i1 i2 u h s -> sides i1 i2 m m' -> sg = 1 \/ sg = -1 -> is_unit d -> dot p u = h ->
  dot d u = - sg * x -> 0 < x -> 0 < x' -> m' * m' * (1 - x' * x') = m * m * (1 - x * x) ->
  reflectance m m' d (gn sg) f ->
  snell m m' (gn sg) d (gpass m m' sg x x' d) /\ mirrored (gn sg) d (gback sg x d) /\
  lawful_meeting (at_pane s thr m m' sg x x' p d) e (e * (if thr then 1 - f else f)) /\ dot d (mt_normal (at_pane s thr m m' sg x x' p d)) <> 0.
Proof.
  intros Ls Fc Fa Hs U N H Px Px' Eq Rf.
  assert (Q : 0 < i1 /\ 0 < i2). { destruct Ls as (_ & Oo & _). destruct Fc as (_ & E & _); rewrite E in Oo. exact Oo. } destruct Q as (Q1 & Q2).
  assert (Pm : 0 < m /\ 0 < m') by (destruct Fa as [(-> & ->)|(-> & ->)]; auto). destruct Pm as (Pm & Pm').
  assert (Ss : sg * sg = 1) by (destruct Hs as [-> | ->]; ring).
  assert (Nn : is_unit (gn sg)).
  { unfold is_unit in *. transitivity (sg * sg * norm2 u). { unfold gn. destruct u. open_vec. ring. } rewrite Uu, Ss. ring. }
  assert (Dn : dot d (gn sg) = - x).
  { transitivity (sg * dot d u). { unfold gn. destruct u, d. open_vec. ring. } rewrite H. replace (sg * (- sg * x)) with (- (sg * sg * x)) by ring. rewrite Ss. ring. }
  destruct (snell_made m m' (gn sg) d (- x') Pm Pm' Nn U) as (Sn & Dg & Cr); try lra.
  { rewrite Dn. transitivity (m' * m' * (1 - x' * x')); [ring|]. rewrite Eq. ring. }
  assert (Ep : vadd (vscale (m / m') d) (vscale (- x' - m / m' * dot d (gn sg)) (gn sg)) = gpass m m' sg x x' d).
  { rewrite Dn. unfold gpass, gn. destruct u, d. open_vec. f_equal; ring. }
  rewrite Ep in Sn, Dg. split; [exact Sn|].
  assert (Mi : mirrored (gn sg) d (gback sg x d)).
  { assert (Et : gback sg x d = vadd d (vscale (2 * x) (gn sg))).
    { unfold gback, gn. destruct u, d. open_vec. f_equal; ring. }
    assert (Dt : dot (gback sg x d) (gn sg) = x).
    { rewrite Et. transitivity (dot d (gn sg) + 2 * x * norm2 (gn sg)). { destruct (gn sg), d. open_vec. ring. } rewrite Dn, Nn. ring. }
    split; [rewrite Dt, Dn; ring|]. unfold tangential. rewrite Dt, Dn, Et. destruct (gn sg), d. open_vec. f_equal; ring. }
  split; [exact Mi|].
  split; [|cbn [at_pane mt_normal]; rewrite Dn; lra].
  split; [exact U|]. cbn [at_pane mt_surf mt_point mt_normal mt_in mt_through mt_before mt_out mt_after]. split.
  - apply (face_point h s p Ls Fc) in N. destruct N as (q & Hq & Eq'). destruct (gradient_ok (s_geom s) q) as (k0 & Nk & G).
    exists q. eexists. split; [exact Eq'|]. split; [exact G|].
    split; [exact Nn|]. split; [|rewrite dot_comm, Dn; lra].
    destruct Fc as (Eg & _ & Ax & _). rewrite Eg. cbn [gradient]. unfold gn. unfold axis, z_of in Ax.
    destruct Ax as [Ax|Ax].
    + exists (sg / k0). rewrite <- Ax. destruct (rot_of (s_frame s)) as [[] [] []]. vunfold. veq; field; lra.
    + exists (- sg / k0). replace u with (vopp (mv3 (rot_of (s_frame s)) (V3 0 0 1))) by (rewrite Ax; destruct u; unfold vopp; open_vec; f_equal; ring).
      destruct (rot_of (s_frame s)) as [[] [] []]. unfold vopp. vunfold. veq; field; lra.
  - assert (Os : other_side i1 i2 m m') by (destruct Fa as [(-> & ->)|(-> & ->)]; split; intros; congruence).
    pose proof (reflectance_bounds m m' d (gn sg) f Pm Pm' Rf) as Bf.
    destruct Fc as (_ & -> & _). cbn [follows]. exists m, m', f. split; [reflexivity|]. split; [exact Pm|]. split; [exact Pm'|]. split; [exact Os|]. split; [exact Bf|].
    split; [auto|]. split; [intros X; destruct (X Cr)|]. destruct thr; auto.
Qed.
End Face.
