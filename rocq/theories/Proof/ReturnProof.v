(** A trace sends light back to where it came from. *)
From Coq Require Import Reals String List Arith Bool Lra Lia.
From Verif.Base Require Import Py Num Vec.
From Verif.Model Require Import RayBundle Boundary Geometry TraceTree Sources Optics OpticsCallables Engine Objects Surface.
From Verif.Proof Require Import ListLemmas NumLemmas VecLemmas GeomProof GeomTop SymmetryProof EngineTop TraceTop LibraryTop BackProof SightProof FoundProof.
From Verif.Spec Require Import BundleSpec EngineSpec GeometrySpec GeomIface OpticsSpec LibrarySpec LawSpec BackSpec SightSpec FoundSpec ReturnSpec.
Import ListNotations.
Local Open Scope R_scope.

Lemma mv3_opp M l : mv3 M (vopp l) = vopp (mv3 M l).
Proof. unfold vopp. vunfold. f_equal; ring. Qed.
Lemma app4_along F q l t : ray_at (app4 F q) (mv3 (rot_of F) l) t = app4 F (ray_at q l t).
Proof. unfold app4, ray_at, rot_of. vunfold. f_equal; ring. Qed.

(** Who runs along a line back does not run almost parallel either. *)
Lemma made_reversed frame gm B c v d t : made_as frame gm B c -> c v d -> c (ray_at v d t) (vopp d).
Proof.
  assert (I : forall d, inclined frame d -> inclined frame (vopp d)).
  { intros d0. unfold inclined. rewrite dot_vopp_l, Rabs_Ropp. auto. }
  assert (S : forall D, cylinder_safe frame D v d -> cylinder_safe frame D (ray_at v d t) (vopp d)).
  { intros D (l & q & -> & -> & H). exists (vopp l), (ray_at q l t). split; [symmetry; apply mv3_opp|]. split; [apply app4_along|].
    destruct H as [H|(H1 & H2 & H3)]; [left|right].
    - revert H. destruct l. unfold vopp. open_vec. intros H. match goal with |- _ < ?x => replace x with (vx * vx + vy * vy) by ring end. auto.
    - split; [|split].
      + destruct l. unfold vopp. revert H1. open_vec. intros ->. ring.
      + destruct l. unfold vopp. revert H2. open_vec. intros ->. ring.
      + intros K. apply H3. revert K H1 H2. unfold round_wall, ray_at. destruct q, l. vunfold. intros K -> ->. rewrite <- K. ring. }
  assert (P : forall a b, bowl_safe frame a b d -> bowl_safe frame a b (vopp d)).
  { intros a b (l & -> & H). exists (vopp l). split; [symmetry; apply mv3_opp|].
    destruct l as [x y z]. unfold vopp. revert H. open_vec. intros [H|(H1 & H2 & H3)]; [left|right].
    - unfold Rdiv in *. match goal with |- _ < ?w => replace w with (x * / a * (x * / a) + y * / b * (y * / b)) by ring end. auto.
    - subst. repeat split; try ring. intros K. apply H3. lra. }
  intros M. destruct M; auto.
Qed.

Section Ways.
Variables (surfs : list surface) (B : surface -> shape) (c : surface -> vec -> vec -> Prop).
Hypothesis Sh : shaped_as surfs B c.

Lemma open_seen me v d e m path v' d' e' m' : open_way surfs B c me v d e m path v' d' e' m' ->
  seen_way surfs me v d e m path v' d' e' m'.
Proof.
  intros H. induction H as [v d e m|v d e m t x e1 path v' d' e' m' Hi Op Ft On Ep Ed Eb Lx Sp Ng Str H IH]; [constructor|].
  apply (seen_next surfs me v d e m t x e1); auto.
  - intros s Hs. destruct (Op s Hs) as (C & F). exists (placed (s_frame s) (B s)). split; auto. exists (B s), (c s). auto.
  - split; [exact Ft|]. exists (placed (s_frame (mt_surf x)) (B (mt_surf x))). split.
    + exists (B (mt_surf x)), (c (mt_surf x)). split; auto. split; auto. apply Op; auto.
    + rewrite <- Ep. exact On.
Qed.

Lemma open_back_leg v d t : open_until surfs B c v d t -> open_until surfs B c (ray_at v d t) (vopp d) t.
Proof.
  intros Op s Hs. destruct (Op s Hs) as (C & F). split; [eapply made_reversed; [apply Sh, Hs|exact C]|].
  intros u Hu. replace (ray_at (ray_at v d t) (vopp d) u) with (ray_at v d (t - u)). { apply F. lra. }
  destruct v, d. unfold ray_at, vopp. open_vec. f_equal; ring.
Qed.

Lemma open_app me v d e m p1 v1 d1 e1 m1 : open_way surfs B c me v d e m p1 v1 d1 e1 m1 -> me < e1 ->
  forall p2 v2 d2 e2 m2, open_way surfs B c me v1 d1 e1 m1 p2 v2 d2 e2 m2 -> open_way surfs B c me v d e m (p1 ++ p2) v2 d2 e2 m2.
Proof.
  intros H Hm. induction H as [v d e m|v d e m t x ex path v' d' e' m' Hi Op Ft On Ep Ed Eb Lx Sp Ng Str H IH]; intros p2 v2 d2 e2 m2 H2; [exact H2|].
  cbn. apply (open_next surfs B c me v d e m t x ex); auto. intros Np. destruct path as [|y path]; [|apply Str; discriminate].
  inversion H; subst. exact Hm.
Qed.

Lemma nongrazing_back x e e1 : lawful_meeting x e e1 -> works_back x -> dot (mt_in x) (mt_normal x) <> 0 ->
  dot (mt_in (turned_back x)) (mt_normal (turned_back x)) <> 0.
Proof.
  destruct x as [s thr p n d d' m m']. unfold lawful_meeting, turned_back, works_back.
  cbn [mt_surf mt_through mt_point mt_normal mt_in mt_out mt_before mt_after].
  intros (_ & _ & F) W Nz.
  assert (M : mirrored n d d' -> dot (vopp d') n <> 0) by (intros (A & _); rewrite dot_vopp_l, A; lra).
  destruct thr.
  - destruct (s_opt s) as [[a|a|a]|id [a|a|a]|i1 i2]; cbn [follows] in F; try (destruct F; discriminate).
    destruct W as (_ & W). destruct (W eq_refl) as (_ & W2). rewrite dot_vopp_l, dot_opp_r. lra.
  - apply M. destruct (s_opt s) as [[a|a|a]|id [a|a|a]|i1 i2]; cbn [follows] in F; try tauto.
    destruct F as (k & k' & f & _ & _ & _ & _ & _ & _ & _ & F). tauto.
Qed.

Hypothesis Ok : forall s, In s surfs -> optics_ok (s_opt s).

(** The way back. *)
Lemma open_back me0 v d e m path v' d' e' m' : open_way surfs B c me0 v d e m path v' d' e' m' -> Forall works_back path ->
  forall t', tenm 6 < t' -> open_until surfs B c v' d' t' ->
  exists f, 0 <= f <= 1 /\ e' = e * f /\ (path = [] -> f = 1) /\ forall me e0, 0 <= e0 -> me < e0 * f -> forall x rest, path = x :: rest ->
    open_way surfs B c me (ray_at v' d' t') (vopp d') e0 m' (rev (map turned_back path)) (mt_point x) (vopp d) (e0 * f) m.
Proof.
  intros H. induction H as [v d e m|v d e m t x ex path v' d' e' m' Hi Op Ft On Ep Ed Eb Lx Sp Ng Str H IH]; intros W t' Ft' Op'.
  - exists 1. split; [lra|]. split; [ring|]. split; [auto|]. intros; discriminate.
  - inversion W as [|? ? Wx Wp]; subst. destruct (IH Wp t' Ft' Op') as (f & Bf & -> & F1 & K).
    destruct (meeting_back x e ex (Ok _ Hi) Lx Wx) as (f1 & Bf1 & -> & B1).
    exists (f1 * f). split. { split; [apply Rmult_le_pos; lra|]. rewrite <- (Rmult_1_r 1). apply Rmult_le_compat; lra. }
    split; [ring|]. split; [discriminate|]. intros me e0 He0 Hm x0 rest E. injection E as <- <-.
    assert (Q : e0 * (f1 * f) <= e0 * f). { apply Rmult_le_compat_l; auto. rewrite <- (Rmult_1_l f) at 2. apply Rmult_le_compat_r; lra. }
    assert (Last : forall w u e2, tenm 6 < u -> open_until surfs B c (mt_point x) (mt_out x) u -> w = ray_at (mt_point x) (mt_out x) u ->
      open_way surfs B c me w (vopp (mt_out x)) e2 (mt_after x) [turned_back x] (mt_point x) (vopp (mt_in x)) (e2 * f1) (mt_before x)).
    { intros w u e2 Hu Ou ->. apply (open_next surfs B c me _ _ _ _ u (turned_back x) (e2 * f1)); auto.
      - apply open_back_leg; auto.
      - cbn. rewrite ray_back. reflexivity.
      - apply B1.
      - exact (nongrazing_back x e (e * f1) Lx Wx Ng).
      - intros Np. destruct (Np eq_refl).
      - cbn. constructor. }
    cbn [map rev]. replace (e0 * (f1 * f)) with (e0 * f * f1) by ring.
    destruct path as [|y rest].
    + rewrite (F1 eq_refl), Rmult_1_r. inversion H; subst. cbn. apply (Last _ t'); auto.
    + inversion H as [|? ? ? ? t2 ? e2 ? ? ? ? ? Hi2 Op2 Ft2 On2 Ep2 Ed2 Eb2 Lx2 Sp2 Ng2 Str2 H2]; subst.
      eapply (open_app me); [apply (K me e0 He0 ltac:(lra) y rest eq_refl)|lra|].
      apply (Last _ t2); auto; congruence.
Qed.
End Ways.

(** Light goes there in one trace, and comes back in another. *)
Lemma there_and_back : forall objs surfs, library_assembly objs surfs -> (forall ob, In ob objs -> exists k, ob = default_object k) ->
  forall B c, shaped_as surfs B c ->
  forall me v d e m x path v' d' e' m', open_way surfs B c me v d e m (x :: path) v' d' e' m' -> Forall works_back (x :: path) ->
  forall t, tenm 6 < t -> open_until surfs B c v' d' t ->
  exists f, 0 <= f <= 1 /\ e' = e * f /\
  (forall g b n, library_source b n -> fair (g_rng g) -> forall reps vs ds st,
   ray_tracer surface_ops objs surfs g b reps me TreeTrue = Ok (vs, ds, st) -> (length (x :: path) <= reps)%nat ->
   forall j, vert_at b j = Some v -> dir_at b j = Some d -> energy_at b j = Some e -> ref_at b j = m ->
   exists lvl k, nth_error (t_tree st) (length (x :: path)) = Some lvl /\ descends (t_tree st) (length (x :: path)) k j /\
     vert_at lvl k = Some v' /\ dir_at lvl k = Some d' /\ energy_at lvl k = Some (e * f) /\ ref_at lvl k = m') /\
  (forall g b n, library_source b n -> fair (g_rng g) -> forall me' reps vs ds st,
   ray_tracer surface_ops objs surfs g b reps me' TreeTrue = Ok (vs, ds, st) -> (length (x :: path) <= reps)%nat ->
   forall j e0, vert_at b j = Some (ray_at v' d' t) -> dir_at b j = Some (vopp d') -> energy_at b j = Some e0 -> ref_at b j = m' ->
   0 <= e0 -> me' < e0 * f ->
   exists lvl k, nth_error (t_tree st) (length (x :: path)) = Some lvl /\ descends (t_tree st) (length (x :: path)) k j /\
     vert_at lvl k = Some (mt_point x) /\ dir_at lvl k = Some (vopp d) /\ energy_at lvl k = Some (e0 * f) /\ ref_at lvl k = m).
Proof.
  intros objs surfs La Df B c Sh me v d e m x path v' d' e' m' Ow Wb t Ht Ou.
  assert (Ok : forall s, In s surfs -> optics_ok (s_opt s)) by (intros s Hs; apply (proj1 (proj2 La) s Hs)).
  destruct (open_back surfs B c Sh Ok me v d e m (x :: path) v' d' e' m' Ow Wb t Ht Ou) as (f & Bf & -> & _ & K).
  exists f. split; auto. split; auto. split.
  - intros g b n Ls Fg reps vs ds st E Len j Hv Hd He Hm.
    apply (found_top objs surfs La Df me g b n Ls Fg reps vs ds st E j v d e Hv Hd He (x :: path) v' d' (e * f) m'); auto.
    rewrite Hm. apply (open_seen surfs B c Sh). exact Ow.
  - intros g b n Ls Fg me' reps vs ds st E Len j e0 Hv Hd He Hm P0 Lm.
    assert (Ll : length (rev (map turned_back (x :: path))) = length (x :: path)) by (rewrite rev_length, map_length; reflexivity).
    rewrite <- Ll in Len |- *.
    apply (found_top objs surfs La Df me' g b n Ls Fg reps vs ds st E j (ray_at v' d' t) (vopp d') e0 Hv Hd He (rev (map turned_back (x :: path))) (mt_point x) (vopp d) (e0 * f) m); auto.
    rewrite Hm. apply (open_seen surfs B c Sh). exact (K me' e0 P0 Lm x path eq_refl).
Qed.
