(** Moving a whole scene: the statements. *)
From Coq Require Import Reals List Arith Bool Lra Lia.
From Verif.Base Require Import Py Num Vec.
From Verif.Model Require Import RayBundle Boundary Geometry Spatial Sources Optics OpticsCallables TraceTree Engine Surface Objects.
From Verif.Proof Require Import ListLemmas NumLemmas VecLemmas SimProof SpatialProof PlaceProof MoveBundle MoveGeom MoveOptics.
From Verif.Spec Require Import GeometrySpec LibrarySpec ModelSpec MoveSpec.
Import ListNotations.
Local Open Scope R_scope.

Lemma mv_bundle r t c b : moved_bundle (mk4 r t) c b = mvb (mp r t) (md r) (hc c) b.
Proof. unfold moved_bundle, mvb, turned, mp, md, hc. rewrite rot_mk4. reflexivity. Qed.

Lemma affine_mk4 f : affine f -> f = mk4 (rot_of f) (loc_of f).
Proof. destruct f as [[] [] [] q]. unfold affine. cbn [q3]. intros ->. reflexivity. Qed.

Lemma outcome_rel {A B} (P Q : A -> B -> Prop) x y : (forall a b, P a b -> Q a b) -> rel_res P x y -> same_outcome Q x y.
Proof. destruct x, y; simpl; auto. Qed.

Theorem moved_top T c objs surfs g g' b reps me ta : rigid T -> 0 < c ->
  (forall s, In s surfs -> idle s /\ affine (s_frame s) /\ may_turn T s) ->
  (forall ob, In ob objs -> indifferent T c ob) -> moved_shared T c g g' ->
  same_outcome (moved_trace T c) (ray_tracer surface_ops objs surfs g b reps me ta)
    (ray_tracer surface_ops objs (map (moved_surface T) surfs) g' (moved_bundle T c b) reps (c * me) ta).
Proof.
  intros (r & t & -> & O) Hc Hs Ho Hg. rewrite mv_bundle.
  eapply outcome_rel; [|apply (ray_tracer_mv (mp r t) (md r) (hc c) me (c * me)) with (Rl := SR r t c) (Rg := RG r t c)].
  - intros [[vs ds] st] [[vs' ds'] st'] (E & A & B & C & _ & _ & F & _). cbn [fst snd] in *. injection E as -> ->.
    unfold moved_trace. split; [reflexivity|]. split.
    { unfold turned. rewrite rot_mk4. reflexivity. }
    split; [|split; [|split]].
    + clear - A. induction A as [|s s' l l' (Eg & Eo & _ & Ef & _ & _ & Es & _) A IH]; constructor; auto.
      unfold stands_moved. auto.
    + exact B.
    + rewrite mv_bundle. exact C.
    + rewrite F. apply map_ext. intros x. symmetry. apply mv_bundle.
  - intros x. unfold hc. rdec; auto; exfalso; nra.
  - apply surface_msim. exact O.
  - intros ob k bb Hi. rewrite <- mv_bundle. apply Ho; auto.
  - intros ob k bb Hi. rewrite <- mv_bundle. apply Ho; auto.
  - clear - Hs. induction surfs as [|s l IH]; cbn [map]; constructor.
    + destruct (Hs s (or_introl eq_refl)) as ((Ei & Eb) & A & M). unfold SR, moved_surface.
      cbn [s_geom s_opt s_frame s_gstate s_bundle s_selected]. rewrite Ei, Eb. repeat split; auto.
      * exists (rot_of (s_frame s)), (loc_of (s_frame s)). apply affine_mk4; auto.
      * constructor.
      * unfold may_turn in M. rewrite rot_mk4 in M. auto.
    + apply IH. intros; apply Hs; right; auto.
  - exact Hg.
Qed.

Lemma moved_num T c b : get_num_rays (moved_bundle T c b) = get_num_rays b.
Proof. unfold get_num_rays, get_vertices, moved_bundle. destruct (b_vert b); cbn [b_vert option_map]; auto. rewrite map_length. auto. Qed.

Lemma standard_indifferent T c n : indifferent T c (default_object n) /\ indifferent T c (one_sided_object n).
Proof.
  split; intros b k; cbn [own_rays surfaces_for_next default_object one_sided_object];
  unfold default_own_rays, default_surfaces_for_next, no_surfaces_for_next; rewrite moved_num; auto.
Qed.

Lemma nonempty_map {A B} (f : A -> B) l : filter nonempty (map (map f) l) = map (map f) (filter nonempty l).
Proof.
  induction l as [|x l IH]; cbn [map filter]; auto. replace (nonempty (map f x)) with (nonempty x) by (unfold nonempty; rewrite map_length; auto).
  destruct (nonempty x); cbn [map]; rewrite IH; auto.
Qed.
Lemma hstack_map {A B} (f : A -> B) l : hstack (map (map f) l) = rmap (map f) (hstack l).
Proof. destruct l; auto. unfold hstack. cbn [rmap]. rewrite concat_map. reflexivity. Qed.

Theorem moved_hits T c a :
  match get_all_hits a with
  | Ok (es, ps) => get_all_hits (moved_account T c a) = Ok (map (Rmult c) es, map (app4 T) ps)
  | Err e => get_all_hits (moved_account T c a) = Err e
  end.
Proof.
  unfold get_all_hits, moved_account. cbn [a_absorbed a_hits]. rewrite map_length.
  destruct (length (a_absorbed a) =? 0)%nat; auto. rewrite !nonempty_map, !hstack_map.
  destruct (hstack (filter nonempty (a_absorbed a))) as [x|]; cbn [bind rmap]; auto.
  destruct (hstack (filter nonempty (a_hits a))) as [y|]; cbn [bind rmap]; auto.
Qed.

Theorem moved_local T s pts : rigid T ->
  global_to_local (moved_surface T s) (map (app4 T) pts) = global_to_local s pts.
Proof.
  intros (r & t & -> & O). unfold global_to_local, moved_surface. cbn [s_frame].
  pose proof (inv_moved r t O (s_frame s)) as H. destruct (inv4 (s_frame s)) as [i|e], (inv4 (mm4 (mk4 r t) (s_frame s))) as [i'|e'];
    cbn [rel_res] in H; try contradiction; cbn [bind]; [|congruence].
  f_equal. rewrite map_map. apply map_ext. intros p. exact (H p).
Qed.
