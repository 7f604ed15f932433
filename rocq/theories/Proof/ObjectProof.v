(** The objects of the library answer the engine. *)
From Coq Require Import Reals List Arith ZArith Bool Lia.
From Verif.Base Require Import Py Num Vec.
From Verif.Model Require Import RayBundle TraceTree Engine Objects.
From Verif.Spec Require Import BundleSpec EngineSpec.
From Verif.Proof Require Import ListLemmas NumLemmas BundleProof IntersectProof ProcessProof IterProof.
Import ListNotations.

Lemma constant_object nsurf (x : bool) f :
  (forall b n ri, rays b n -> f b ri = Ok (repeat (repeat x n) nsurf)) ->
  object_contract (mkObj nsurf default_own_rays f) /\ object_answers (mkObj nsurf default_own_rays f).
Proof.
  intros Hf. split.
  - intros b n ri owns Hr E. cbn [own_rays] in E. unfold default_own_rays in E. rewrite (rays_num _ _ Hr) in E.
    cbn [bind] in E. injection E as <-. apply repeat_length.
  - intros b n ri Hr _. exists (repeat false n), (repeat (repeat x n) nsurf). cbn [own_rays surfaces_for_next o_nsurf].
    unfold default_own_rays. rewrite (rays_num _ _ Hr), (Hf b n ri Hr). cbn [bind]. rewrite !repeat_length.
    repeat split; auto. apply Forall_forall. intros r H. apply repeat_spec in H. subst r. apply repeat_length.
Qed.

Lemma default_object_ok nsurf : object_contract (default_object nsurf) /\ object_answers (default_object nsurf).
Proof.
  apply (constant_object nsurf true). intros b n ri Hr. unfold default_surfaces_for_next.
  rewrite (rays_num _ _ Hr). reflexivity.
Qed.
Lemma one_sided_object_ok nsurf : object_contract (one_sided_object nsurf) /\ object_answers (one_sided_object nsurf).
Proof.
  apply (constant_object nsurf false). intros b n ri Hr. unfold no_surfaces_for_next.
  rewrite (rays_num _ _ Hr). reflexivity.
Qed.

(** What the two kinds of objects let a ray meet next. *)
Lemma repeat_at2 (x : bool) n k i r : i < k -> r < n -> at2 (repeat (repeat x n) k) i r = Some x.
Proof. intros Hi Hr. unfold at2. rewrite nth_error_repeat by auto. apply nth_error_repeat; auto. Qed.

Lemma default_object_next objs oi nsurf e n ri owns next : nth_error objs oi = Some (default_object nsurf) ->
  get_num_rays e = Ok n -> own_rays (default_object nsurf) e ri = Ok owns ->
  surfaces_for_next (default_object nsurf) e ri = Ok next ->
  forall r i, r < n -> i < length (surf_ownership objs) ->
    nth_error owns r = Some false /\ next_surfaces objs oi owns next r i.
Proof.
  intros Ho Hr E1 E2 r i Lr Li. cbn in E1, E2. unfold default_own_rays, default_surfaces_for_next in *.
  rewrite Hr in E1, E2. cbn [bind] in E1, E2. injection E1 as <-. injection E2 as <-.
  assert (F : nth_error (repeat false n) r = Some false) by (apply nth_error_repeat; auto).
  split; auto. destruct (nth_error (surf_ownership objs) i) as [oj|] eqn:Ej; [|apply nth_error_None in Ej; lia].
  exists oj. split; auto. split; [rewrite F; discriminate|]. intros ->.
  apply surf_ownership_nth in Ej. destruct Ej as (o & Eo & Hu). rewrite Ho in Eo. injection Eo as <-. cbn in Hu.
  apply repeat_at2; lia.
Qed.

Lemma one_sided_object_next objs oi nsurf e n ri owns next : nth_error objs oi = Some (one_sided_object nsurf) ->
  get_num_rays e = Ok n -> own_rays (one_sided_object nsurf) e ri = Ok owns ->
  surfaces_for_next (one_sided_object nsurf) e ri = Ok next ->
  forall r i, r < n -> i < length (surf_ownership objs) ->
    nth_error owns r = Some false /\
    (next_surfaces objs oi owns next r i <-> nth_error (surf_ownership objs) i <> Some oi).
Proof.
  intros Ho Hr E1 E2 r i Lr Li. cbn in E1, E2. unfold default_own_rays, no_surfaces_for_next in *.
  rewrite Hr in E1, E2. cbn [bind] in E1, E2. injection E1 as <-. injection E2 as <-.
  assert (F : nth_error (repeat false n) r = Some false) by (apply nth_error_repeat; auto).
  split; auto. destruct (nth_error (surf_ownership objs) i) as [oj|] eqn:Ej; [|apply nth_error_None in Ej; lia].
  split.
  - intros (ok & Ek & _ & N). rewrite Ej in Ek. injection Ek as <-. intros E. injection E as ->. specialize (N eq_refl).
    apply surf_ownership_nth in Ej. destruct Ej as (o & Eo & Hu). rewrite Ho in Eo. injection Eo as <-. cbn in Hu.
    rewrite repeat_at2 in N by lia. discriminate.
  - intros N. exists oj. split; auto. split; [rewrite F; discriminate|]. intros ->. congruence.
Qed.
