(** Which surfaces a ray leaving one of the library's objects is put to. *)
From Coq Require Import Reals List Arith ZArith Bool Lia.
From Verif.Base Require Import Py Num Vec.
From Verif.Model Require Import RayBundle TraceTree Engine Objects Surface.
From Verif.Spec Require Import BundleSpec EngineSpec LibrarySpec.
From Verif.Proof Require Import ListLemmas BundleProof ObjectProof TraceTop.
Import ListNotations.

Lemma emitted_num objs i oi owns next b j r nsurf f :
  emitted_by objs i oi owns next b j r -> nth_error objs oi = Some (mkObj nsurf default_own_rays f) ->
  exists ri e n, get_num_rays e = Ok n /\ r < n /\ own_rays (mkObj nsurf default_own_rays f) e ri = Ok owns /\
    surfaces_for_next (mkObj nsurf default_own_rays f) e ri = Ok next.
Proof.
  intros (ob & ri & e & _ & Eo & _ & Ow & Nx & P) Ho. rewrite Ho in Eo. injection Eo as <-.
  exists ri, e. pose proof Ow as Ow'. cbn in Ow'. unfold default_own_rays in Ow'.
  destruct (get_num_rays e) as [n|] eqn:En; [|discriminate]. exists n. split; auto. split; [|auto].
  specialize (P Vertices). unfold get_num_rays in En. cbn [prop] in P. destruct (b_vert e) as [l|]; [|discriminate].
  injection En as <-. destruct (b_vert b); simpl in P; [|tauto]. destruct P as (_ & P). rewrite map_length in P. auto.
Qed.

Lemma objects_trace : forall objs surfs, library_assembly objs surfs ->
  forall me g b n, library_source b n -> forall reps vs ds st,
  ray_tracer surface_ops objs surfs g b reps me TreeTrue = Ok (vs, ds, st) ->
  exists (ns : nat -> nat) (Ts : nat -> reports),
  (forall L prev, nth_error (t_tree st) L = Some prev -> L < reps -> 0 < ns L ->
     exists tb, reported surface_ops surfs prev (ns L) (Ts L) tb) /\
  (forall L prev, nth_error (t_tree st) L = Some prev -> forall j, j < ns L <-> is_traced me L prev j) /\
  (forall L lvl, nth_error (t_tree st) (L + 1) = Some lvl -> L + 1 < reps ->
     forall j, is_traced me (L + 1) lvl j -> exists i oi owns next r,
       emitted_by objs i oi owns next lvl j r /\
       (forall nsurf, nth_error objs oi = Some (default_object nsurf) ->
          forall i', i' < length surfs -> Ts (L + 1) i' j <> None) /\
       (forall nsurf, nth_error objs oi = Some (one_sided_object nsurf) ->
          forall i', i' < length surfs ->
            (Ts (L + 1) i' j <> None <-> nth_error (surf_ownership objs) i' <> Some oi))).
Proof.
  intros objs surfs La me g b n Ls reps vs ds st E.
  destruct (tests_right_surfaces objs surfs La me g b n Ls reps vs ds st E) as (ns & Ts & A & B & _ & D).
  exists ns, Ts. split; auto. split; auto. intros L lvl EL Hr j Hj.
  destruct (D L lvl EL Hr j Hj) as (i & oi & owns & next & r & Em & N). exists i, oi, owns, next, r. split; auto.
  assert (Ll : length surfs = length (surf_ownership objs)) by (apply La).
  split; intros nsurf Ho i' Li; (destruct (emitted_num _ _ _ _ _ _ _ _ _ _ Em Ho) as (ri & e & n' & En & Lr & Ow & Nx)).
  - apply N; auto. eapply default_object_next; eauto. lia.
  - rewrite N by auto. eapply one_sided_object_next; eauto. lia.
Qed.
