(** Linear algebra of rigid frames. *)
From Coq Require Import Reals List Bool Lra Lia Psatz.
From Verif.Base Require Import Py Num Vec.
From Verif.Spec Require Import GeometrySpec.
From Verif.Proof Require Import NumLemmas.
Import ListNotations.
Local Open Scope R_scope.

Arguments det3 _ /. Arguments mm3 _ _ /. Arguments of_cols _ _ _ /. Arguments tr3 _ /.
Arguments mv3 _ _ /. Arguments col1 _ /. Arguments col2 _ /. Arguments col3 _ /.
Arguments id3 /. Arguments norm2 _ /. Arguments vadd _ _ /. Arguments vsub _ _ /.
Arguments vscale _ _ /. Arguments vopp _ /. Arguments cross _ _ /. Arguments dot _ _ /.
Arguments app4 _ _ /. Arguments rot_of _ /. Arguments loc_of _ /. Arguments mv4 _ _ /.
Arguments v4_3 _ /. Arguments hom _ /. Arguments c4_3 _ /. Arguments mk4 _ _ /. Arguments dot4 _ _ /.

Ltac vunfold := cbn [det3 mm3 of_cols tr3 mv3 col1 col2 col3 id3 norm2 vadd vsub
  vscale vopp cross dot app4 rot_of loc_of mv4 v4_3 hom c4_3 mk4 dot4
  vx vy vz r1 r2 r3 w0 w1 w2 w3 q0 q1 q2 q3] in *.

(** Equality of vectors and matrices, entry by entry. *)
Ltac veq := repeat match goal with
  | |- V3 _ _ _ = V3 _ _ _ => f_equal
  | |- M3 _ _ _ = M3 _ _ _ => f_equal
  | |- V4 _ _ _ _ = V4 _ _ _ _ => f_equal
  | |- M4 _ _ _ _ = M4 _ _ _ _ => f_equal
  | |- NV _ _ _ = NV _ _ _ => f_equal
  | |- Fin _ = Fin _ => f_equal
  end.

Lemma vec_eta v : v = V3 (vx v) (vy v) (vz v).
Proof. destruct v; reflexivity. Qed.

Lemma vec_eq a b : vx a = vx b -> vy a = vy b -> vz a = vz b -> a = b.
Proof. destruct a, b; simpl; intros; subst; auto. Qed.

Lemma norm2_nonneg v : 0 <= norm2 v.
Proof. destruct v; vunfold; nra. Qed.

Lemma norm2_zero v : norm2 v = 0 -> v = vzero.
Proof.
  destruct v as [a b c]; vunfold; intros H.
  assert (a = 0) by nra. assert (b = 0) by nra. assert (c = 0) by nra. subst; reflexivity.
Qed.

Lemma dot_comm a b : dot a b = dot b a.
Proof. destruct a, b; vunfold; ring. Qed.
Lemma dot_vadd_l a b c : dot (vadd a b) c = dot a c + dot b c.
Proof. destruct a, b, c; vunfold; ring. Qed.
Lemma dot_vscale_l k a c : dot (vscale k a) c = k * dot a c.
Proof. destruct a, c; vunfold; ring. Qed.
Lemma dot_vopp_l a c : dot (vopp a) c = - dot a c.
Proof. destruct a, c; vunfold; ring. Qed.

(** ** Orthonormal matrices *)

(** The nine numeric facts. *)
Lemma orthonormal_eqs m : orthonormal m <->
  let '(M3 (V3 a b c) (V3 d e f) (V3 g h i)) := m in
  a*a + d*d + g*g = 1 /\ b*b + e*e + h*h = 1 /\ c*c + f*f + i*i = 1 /\
  a*b + d*e + g*h = 0 /\ a*c + d*f + g*i = 0 /\ b*c + e*f + h*i = 0.
Proof.
  destruct m as [[a b c] [d e f] [g h i]]. unfold orthonormal. vunfold. split.
  - intros H. injection H as H1 H2 H3 H4 H5 H6 H7 H8 H9. repeat split; lra.
  - intros (H1 & H2 & H3 & H4 & H5 & H6).
    veq; lra.
Qed.

Lemma orthonormal_det m : orthonormal m -> det3 m * det3 m = 1.
Proof.
  intros H. transitivity (det3 (mm3 (tr3 m) m)).
  - destruct m as [[a b c] [d e f] [g h i]]. vunfold. ring.
  - rewrite H. vunfold. ring.
Qed.

(** Adjugate of a 3x3 matrix. *)
Definition adj3 (m : mat3) : mat3 := tr3 (M3 (cross (r2 m) (r3 m)) (cross (r3 m) (r1 m)) (cross (r1 m) (r2 m))).

Lemma mm3_assoc a b c : mm3 a (mm3 b c) = mm3 (mm3 a b) c.
Proof.
  destruct a as [[? ? ?] [? ? ?] [? ? ?]], b as [[? ? ?] [? ? ?] [? ? ?]], c as [[? ? ?] [? ? ?] [? ? ?]].
  vunfold. veq; ring.
Qed.
Lemma mm3_id_l a : mm3 id3 a = a.
Proof. destruct a as [[? ? ?] [? ? ?] [? ? ?]]. vunfold. veq; ring. Qed.
Lemma mm3_id_r a : mm3 a id3 = a.
Proof. destruct a as [[? ? ?] [? ? ?] [? ? ?]]. vunfold. veq; ring. Qed.
Lemma mv3_mm3 a b v : mv3 (mm3 a b) v = mv3 a (mv3 b v).
Proof.
  destruct a as [[? ? ?] [? ? ?] [? ? ?]], b as [[? ? ?] [? ? ?] [? ? ?]], v as [? ? ?].
  vunfold. veq; ring.
Qed.
Lemma mv3_id v : mv3 id3 v = v.
Proof. destruct v; vunfold; veq; ring. Qed.
Lemma tr3_mm3 a b : tr3 (mm3 a b) = mm3 (tr3 b) (tr3 a).
Proof.
  destruct a as [[? ? ?] [? ? ?] [? ? ?]], b as [[? ? ?] [? ? ?] [? ? ?]].
  vunfold. veq; ring.
Qed.
Lemma tr3_tr3 a : tr3 (tr3 a) = a.
Proof. destruct a as [[? ? ?] [? ? ?] [? ? ?]]. reflexivity. Qed.
Lemma det3_mm3 a b : det3 (mm3 a b) = det3 a * det3 b.
Proof.
  destruct a as [[? ? ?] [? ? ?] [? ? ?]], b as [[? ? ?] [? ? ?] [? ? ?]]. vunfold. ring.
Qed.
Lemma det3_tr3 a : det3 (tr3 a) = det3 a.
Proof. destruct a as [[? ? ?] [? ? ?] [? ? ?]]. vunfold. ring. Qed.
Lemma dot_mv3 m a b : dot (mv3 m a) b = dot a (mv3 (tr3 m) b).
Proof. destruct m as [[? ? ?] [? ? ?] [? ? ?]], a, b. vunfold. ring. Qed.

Lemma mm3_adj m : mm3 m (adj3 m) = M3 (V3 (det3 m) 0 0) (V3 0 (det3 m) 0) (V3 0 0 (det3 m)).
Proof.
  destruct m as [[? ? ?] [? ? ?] [? ? ?]]. unfold adj3. vunfold. veq; ring.
Qed.

(** A left inverse is a right inverse. *)
Lemma orthonormal_tr m : orthonormal m -> mm3 m (tr3 m) = id3.
Proof.
  intros H. pose proof (orthonormal_det m H) as D.
  assert (Hd : det3 m <> 0) by (intros E; rewrite E in D; lra).
  assert (E : tr3 m = mm3 (mm3 (tr3 m) m) (M3 (vscale (/ det3 m) (r1 (adj3 m)))
                (vscale (/ det3 m) (r2 (adj3 m))) (vscale (/ det3 m) (r3 (adj3 m))))).
  { rewrite <- mm3_assoc.
    assert (X : mm3 m (M3 (vscale (/ det3 m) (r1 (adj3 m)))
                (vscale (/ det3 m) (r2 (adj3 m))) (vscale (/ det3 m) (r3 (adj3 m)))) = id3).
    { transitivity (mscale3 (/ det3 m) (mm3 m (adj3 m))).
      - generalize (/ det3 m) (adj3 m). intros k [[? ? ?] [? ? ?] [? ? ?]].
        destruct m as [[? ? ?] [? ? ?] [? ? ?]]. unfold mscale3. vunfold. veq; ring.
      - rewrite mm3_adj. unfold mscale3, vscale, id3. cbn [vx vy vz r1 r2 r3].
        veq; try ring; field; auto. }
    rewrite X, mm3_id_r; auto. }
  rewrite H, mm3_id_l in E. rewrite E.
  transitivity (mscale3 (/ det3 m) (mm3 m (adj3 m))).
  - generalize (/ det3 m) (adj3 m). intros k [[? ? ?] [? ? ?] [? ? ?]].
    destruct m as [[? ? ?] [? ? ?] [? ? ?]]. unfold mscale3. vunfold. veq; ring.
  - rewrite mm3_adj. unfold mscale3, vscale, id3. cbn [vx vy vz r1 r2 r3].
    veq; try ring; field; auto.
Qed.

Lemma orthonormal_transpose m : orthonormal m -> orthonormal (tr3 m).
Proof. intros H. unfold orthonormal. rewrite tr3_tr3. apply orthonormal_tr; auto. Qed.

Lemma orthonormal_mm3 a b : orthonormal a -> orthonormal b -> orthonormal (mm3 a b).
Proof.
  unfold orthonormal. intros Ha Hb. rewrite tr3_mm3, mm3_assoc, <- (mm3_assoc (tr3 b)), Ha, mm3_id_r; auto.
Qed.

Lemma orthonormal_dot m a b : orthonormal m -> dot (mv3 m a) (mv3 m b) = dot a b.
Proof. intros H. rewrite dot_mv3, <- mv3_mm3, H, mv3_id; auto. Qed.

Lemma orthonormal_norm2 m a : orthonormal m -> norm2 (mv3 m a) = norm2 a.
Proof. intros; unfold norm2; apply orthonormal_dot; auto. Qed.

Lemma tr3_mv3 m a : orthonormal m -> mv3 (tr3 m) (mv3 m a) = a.
Proof. intros H; rewrite <- mv3_mm3, H, mv3_id; auto. Qed.
Lemma mv3_tr3 m a : orthonormal m -> mv3 m (mv3 (tr3 m) a) = a.
Proof. intros H; rewrite <- mv3_mm3, orthonormal_tr, mv3_id; auto. Qed.

Lemma mv3_vadd m a b : mv3 m (vadd a b) = vadd (mv3 m a) (mv3 m b).
Proof. destruct m as [[? ? ?] [? ? ?] [? ? ?]], a, b. vunfold. veq; ring. Qed.
Lemma mv3_vscale m k a : mv3 m (vscale k a) = vscale k (mv3 m a).
Proof. destruct m as [[? ? ?] [? ? ?] [? ? ?]], a. vunfold. veq; ring. Qed.
Lemma mv3_vopp m a : mv3 m (vopp a) = vopp (mv3 m a).
Proof. destruct m as [[? ? ?] [? ? ?] [? ? ?]], a. vunfold. veq; ring. Qed.
Lemma mv3_vsub m a b : mv3 m (vsub a b) = vsub (mv3 m a) (mv3 m b).
Proof. destruct m as [[? ? ?] [? ? ?] [? ? ?]], a, b. vunfold. veq; ring. Qed.

(** ** Homogeneous transforms *)
Lemma app4_mk4 r t q : app4 (mk4 r t) q = vadd (mv3 r q) t.
Proof. destruct r as [[? ? ?] [? ? ?] [? ? ?]], t, q. vunfold. veq; ring. Qed.
Lemma rot_mk4 r t : rot_of (mk4 r t) = r.
Proof. destruct r as [[? ? ?] [? ? ?] [? ? ?]], t. reflexivity. Qed.
Lemma loc_mk4 r t : loc_of (mk4 r t) = t.
Proof. destruct r as [[? ? ?] [? ? ?] [? ? ?]], t. reflexivity. Qed.
Lemma mm4_mk4 r t r' t' : mm4 (mk4 r t) (mk4 r' t') = mk4 (mm3 r r') (vadd (mv3 r t') t).
Proof.
  destruct r as [[? ? ?] [? ? ?] [? ? ?]], t, r' as [[? ? ?] [? ? ?] [? ? ?]], t'.
  unfold mm4, tr4, c4_0, c4_1, c4_2. vunfold. veq; ring.
Qed.

Lemma det4_mk4 r t : det4 (mk4 r t) = det3 r.
Proof.
  destruct r as [[? ? ?] [? ? ?] [? ? ?]], t. unfold det4, cof4, minor3. vunfold. simpl. ring.
Qed.

Lemma inv4_mk4 r t : orthonormal r ->
  inv4 (mk4 r t) = Ok (mk4 (tr3 r) (vopp (mv3 (tr3 r) t))).
Proof.
  intros H. pose proof (orthonormal_det r H) as D.
  assert (Hd : det3 r <> 0) by (intros E; rewrite E in D; lra).
  unfold inv4. rewrite det4_mk4. destruct (Reqb_spec (det3 r) 0) as [E|_]; [contradiction|].
  f_equal.
  assert (Hadj : tr3 r = mscale3 (/ det3 r) (adj3 r)).
  { rewrite <- (mm3_id_r (tr3 r)).
    replace id3 with (mm3 r (mscale3 (/ det3 r) (adj3 r))).
    - rewrite mm3_assoc, H, mm3_id_l; auto.
    - transitivity (mscale3 (/ det3 r) (mm3 r (adj3 r))).
      + generalize (/ det3 r) (adj3 r). intros k [[? ? ?] [? ? ?] [? ? ?]].
        destruct r as [[? ? ?] [? ? ?] [? ? ?]]. unfold mscale3. vunfold. veq; ring.
      + rewrite mm3_adj. unfold mscale3, vscale, id3. cbn [vx vy vz r1 r2 r3].
        veq; try ring; field; auto. }
  rewrite Hadj.
  assert (X : / det3 r * det3 r = 1) by (field; auto).
  revert X. generalize (/ det3 r) as k. intros k X.
  destruct r as [[a b c] [d e f] [g h i]], t as [x y z].
  unfold adj3, mscale3, adj4, sc4, cof4, minor3.
  vunfold. simpl. vunfold. veq; try ring.
  etransitivity; [|exact X]. ring.
Qed.

Lemma mk4_inverse r t p : orthonormal r ->
  app4 (mk4 (tr3 r) (vopp (mv3 (tr3 r) t))) (app4 (mk4 r t) p) = p.
Proof.
  intros H. rewrite !app4_mk4, mv3_vadd, tr3_mv3 by auto.
  generalize (mv3 (tr3 r) t). intros [? ? ?]. destruct p. vunfold. veq; ring.
Qed.
Lemma mk4_inverse' r t p : orthonormal r ->
  app4 (mk4 r t) (app4 (mk4 (tr3 r) (vopp (mv3 (tr3 r) t))) p) = p.
Proof.
  intros H. rewrite !app4_mk4, mv3_vadd, mv3_vopp, !mv3_tr3 by auto.
  destruct t, p. vunfold. veq; ring.
Qed.

(** Every invertible frame: the inverse undoes the frame. *)
Lemma inv4_sound m i : inv4 m = Ok i -> forall x, mv4 i (mv4 m x) = x.
Proof.
  unfold inv4. destruct (Reqb_spec (det4 m) 0) as [E|Hd]; [discriminate|].
  intros E x. injection E as <-.
  assert (X : / det4 m * det4 m = 1) by (field; auto).
  revert X. generalize (/ det4 m) as k. intros k.
  destruct m as [[a b c d] [e f g h] [i j l n] [o p q r]], x as [x y z w].
  unfold det4, adj4, sc4, cof4, minor3, mv4, dot4. simpl. intros X.
  veq.
  - match type of X with ?L = 1 => transitivity (x * L); [|rewrite X]; ring end.
  - match type of X with ?L = 1 => transitivity (y * L); [|rewrite X]; ring end.
  - match type of X with ?L = 1 => transitivity (z * L); [|rewrite X]; ring end.
  - match type of X with ?L = 1 => transitivity (w * L); [|rewrite X]; ring end.
Qed.

Lemma inv4_sound' m i : inv4 m = Ok i -> forall x, mv4 m (mv4 i x) = x.
Proof.
  unfold inv4. destruct (Reqb_spec (det4 m) 0) as [E|Hd]; [discriminate|].
  intros E x. injection E as <-.
  assert (X : / det4 m * det4 m = 1) by (field; auto).
  revert X. generalize (/ det4 m) as k. intros k.
  destruct m as [[a b c d] [e f g h] [i j l n] [o p q r]], x as [x y z w].
  unfold det4, adj4, sc4, cof4, minor3, mv4, dot4. simpl. intros X.
  veq.
  - match type of X with ?L = 1 => transitivity (x * L); [|rewrite X]; ring end.
  - match type of X with ?L = 1 => transitivity (y * L); [|rewrite X]; ring end.
  - match type of X with ?L = 1 => transitivity (z * L); [|rewrite X]; ring end.
  - match type of X with ?L = 1 => transitivity (w * L); [|rewrite X]; ring end.
Qed.

(** ** Rigid frames and rays *)
Lemma ray_at_coords v d t :
  vx (ray_at v d t) = vx v + t * vx d /\ vy (ray_at v d t) = vy v + t * vy d /\
  vz (ray_at v d t) = vz v + t * vz d.
Proof. repeat split. Qed.

(** A point is in a placed set when its local coordinates are in the set. *)
Lemma placed_local r t s p : orthonormal r ->
  placed (mk4 r t) s p <-> s (app4 (mk4 (tr3 r) (vopp (mv3 (tr3 r) t))) p).
Proof.
  intros H; split.
  - intros (q & Hq & ->). rewrite mk4_inverse; auto.
  - intros Hs. eexists; split; [exact Hs|]. rewrite mk4_inverse'; auto.
Qed.

(** Local coordinates of the points of a ray. *)
Lemma app4_ray r t v d u :
  app4 (mk4 r t) (ray_at v d u) = ray_at (app4 (mk4 r t) v) (mv3 r d) u.
Proof.
  unfold ray_at. rewrite !app4_mk4, mv3_vadd, mv3_vscale.
  generalize (mv3 r v) (mv3 r d). intros [? ? ?] [? ? ?]. destruct t. vunfold. veq; ring.
Qed.

Lemma along_fin v d t : along v d (Fin t) = nfin (ray_at v d t).
Proof. unfold along, nfin, ray_at; simpl. veq; ring. Qed.

Lemma ndot4_fin row p : ndot4 row (nfin p) = Fin (dot4 row (hom p)).
Proof. unfold ndot4, nfin, dot4, hom; simpl. veq; ring. Qed.

Lemma fin_vec_nfin p : fin_vec (nfin p) = Some p.
Proof. destruct p; reflexivity. Qed.
