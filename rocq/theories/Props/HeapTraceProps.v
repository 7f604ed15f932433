(** Properties of the storage of traces. *)
From Coq Require Import Reals String List Arith ZArith Bool Lia Lra.
From Verif.Base Require Import Py Num Vec.
From Verif.Model Require Import RayBundle BundleHeap TraceTree Geometry Spatial Sources Optics
  OpticsCallables Engine Objects Surface HeapTrace.
From Verif.Proof Require Import EngineTop TraceTop HeapTraceProof HeapTraceCase.
From Verif.Spec Require Import HeapSpec HeapTraceSpec.
Import ListNotations.
Local Open Scope R_scope.

(** C83: the trace with identities of arrays gives what the trace on values gives, changes
    nothing that was there before, and records levels with arrays of their own. *)
Theorem c83_trace : forall objs qs ss g vg h src reps me ta,
  made h src -> Forall2 (ready h) qs ss -> same_shared h g vg ->
  let '(h', r) := h_ray_tracer objs qs g src reps me ta h in
  untouched h h' /\
  match r, ray_tracer surface_ops objs ss vg (contents h src) reps me ta with
  | Ok (va, da, st), Ok (v, d, vst) =>
      rd KVec h' va = v /\ rd KVec h' da = d /\
      map (contents h') (ht_tree st) = t_tree vst /\ Forall (made h') (ht_tree st) /\
      Forall2 (ready h') (ht_surfs st) (t_surfs vst) /\ same_shared h' (ht_g st) (t_g vst) /\
      separate h h' src reps va da st
  | Err e, Err e' => e = e'
  | _, _ => False
  end.
Proof.
  intros objs qs ss g vg h src reps me ta M F S. pose proof (trace_ok objs qs ss g vg h src reps me ta M F S) as T.
  unfold HeapProof.agrees in T. destruct (h_ray_tracer _ _ _ _ _ _ _ _) as [h' [[[va da] st]|e]];
    destruct (ray_tracer _ _ _ _ _ _ _ _) as [[[v d] vst]|e']; exact T.
Qed.
Print Assumptions c83_trace.

(** Several traces with the same assembly: at the end every tree holds what was recorded
    in it, and any two levels are independent but for source bundles. *)
Theorem c83_history : forall objs h js qs ss g vg, Forall (fun j => made h (j_src j)) js ->
  Forall2 (ready h) qs ss -> same_shared h g vg ->
  let '(h', r) := h_jobs objs qs g js h in
  untouched h h' /\
  match r, v_jobs objs ss vg (contents h) js with
  | Ok sts, Ok vsts =>
      Forall2 (fun st vst => map (contents h') (ht_tree st) = t_tree vst) sts vsts /\
      forall n m i j st st' o o', nth_error sts n = Some st -> nth_error sts m = Some st' ->
        nth_error (ht_tree st) i = Some o -> nth_error (ht_tree st') j = Some o' -> (n, i) <> (m, j) ->
        In o (map j_src js) /\ In o' (map j_src js) \/ independent h' o o'
  | Err e, Err e' => e = e'
  | _, _ => False
  end.
Proof. exact jobs_history. Qed.
Print Assumptions c83_history.

(** The first level of the tree is the source bundle, not a copy. *)
Theorem c83_source : forall objs qs g src reps me h h' va da st,
  h_ray_tracer objs qs g src reps me TreeTrue h = (h', Ok (va, da, st)) ->
  nth_error (ht_tree st) 0 = Some src.
Proof. exact source_first. Qed.
Print Assumptions c83_source.

(** Two rays falling on a mirror, once and twice. *)
Example c83_example : forall r reps ta, (1 <= reps)%nat ->
  made drop_heap 0 /\ Forall2 (ready drop_heap) [drop_mirror] one_mirror /\
  same_shared drop_heap (no_accounts r) (mkG r (fun _ => mkAcc [] [])) /\ contents drop_heap 0 = drops [1; 2] /\
  exists h' va da st, h_ray_tracer [default_object 1] [drop_mirror] (no_accounts r) 0 reps (1/10) ta drop_heap = (h', Ok (va, da, st)).
Proof. exact drop_case. Qed.

Example c83_twice : forall r reps, (1 <= reps)%nat ->
  let js := [mkJob 0 reps (1/10) TreeTrue; mkJob 0 reps (1/10) TreeTrue] in
  Forall (fun j => made drop_heap (j_src j)) js /\
  exists h' st st', h_jobs [default_object 1] [drop_mirror] (no_accounts r) js drop_heap = (h', Ok [st; st']) /\
    (2 <= length (ht_tree st))%nat /\ (2 <= length (ht_tree st'))%nat.
Proof. exact drop_jobs. Qed.

(** So the record changes when the source bundle is changed after the trace. *)
Theorem c83_source_refuted : exists objs qs g src reps me h h' va da st c, made h src /\
  h_ray_tracer objs qs g src reps me TreeTrue h = (h', Ok (va, da, st)) /\
  map (contents (make_change src c h')) (ht_tree st) <> map (contents h') (ht_tree st).
Proof.
  set (r := mkRng (fun _ => 0) 0).
  destruct (source_changes r 1 (le_n 1)) as (h' & va & da & st & c & E & N).
  exists [default_object 1], [drop_mirror], (no_accounts r), 0%nat, 1%nat, (1/10), drop_heap, h', va, da, st, c.
  split; [apply (drop_case r 1 TreeTrue (le_n 1))|]. now split.
Qed.
Print Assumptions c83_source_refuted.
