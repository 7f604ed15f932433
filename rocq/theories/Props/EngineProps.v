(** C07-C20, C73: the tracer engine and the ray tree (tracer/tracer_engine.py,
    tracer/trace_tree.py). *)
From Coq Require Import Reals List Arith ZArith Bool Lra Lia Permutation.
From Verif.Base Require Import Py Num Vec.
From Verif.Model Require Import RayBundle TraceTree Geometry OpticsCallables Engine Objects Surface.
From Verif.Spec Require Import BundleSpec EngineSpec GeometrySpec OpticsSpec LibrarySpec.
From Verif.Proof Require Import NumLemmas IntersectProof EngineMore TreeArgProof GeomProof LibraryTop AnswerProof EngineTop
  TraceTop ObjectTrace EngineExamples.
Import ListNotations.

(** C07: for any surfaces whatsoever.  [T i j] is what surface [i] reported for ray
    [j], [None] if it was not asked. *)
Theorem c07_first_surface : forall (S G : Type) (ops : surf_ops S G) b n surfs sown own rel ss fr owned,
  rays b n -> names_ok b ->
  intersect_ray ops b surfs sown own rel = Ok (ss, fr, owned) ->
  exists T : reports,
    (forall i j, i < length surfs -> j < n -> (T i j <> None <-> may_test sown own rel i j)) /\
    (forall i j, at2 owned i j = Some true <-> i < length surfs /\ j < n /\ T i j <> None) /\
    (forall i s, nth_error surfs i = Some s -> exists s', nth_error ss i = Some s' /\ answers ops b n T i s s') /\
    (forall i j, at2 fr i j = Some true <-> exists t, meets_first T (length surfs) n i j t).
Proof. exact @first_surface. Qed.
Print Assumptions c07_first_surface.

(** The nearer of two mirrors is marked although it comes second in the list. *)
Example c07_example : exists ss fr ow,
  rays (drops [2%R]) 1 /\ names_ok (drops [2%R]) /\
  intersect_ray surface_ops (drops [2%R]) [mirror 0; mirror 1] [0; 1] [(-1)%Z] [[true]; [true]] = Ok (ss, fr, ow) /\
  at2 fr 0 0 <> Some true /\ at2 fr 1 0 = Some true.
Proof.
  destruct nearer_met as (ss & fr & ow & H). exists ss, fr, ow.
  split; [apply (drops_traceable [2%R])|]. split; [apply (drops_traceable [2%R])|]. exact H.
Qed.

(** C08: at most one surface, unless two report the same parameter. *)
Theorem c08_one_surface_without_ties : forall (S G : Type) (ops : surf_ops S G) b n surfs sown own rel ss fr owned,
  rays b n -> names_ok b ->
  intersect_ray ops b surfs sown own rel = Ok (ss, fr, owned) ->
  forall i i' j, at2 fr i j = Some true -> at2 fr i' j = Some true ->
    exists T t, (forall i s, nth_error surfs i = Some s -> exists s', nth_error ss i = Some s' /\ answers ops b n T i s s') /\
      T i j = Some (Fin t) /\ T i' j = Some (Fin t).
Proof. exact @marked_twice. Qed.
Print Assumptions c08_one_surface_without_ties.

(** C08 fails: two mirrors in the same place both get the ray. *)
Theorem c08_one_surface_refuted : exists surfs b ss fr ow,
  (forall s, In s surfs -> lib_surface s) /\ library_source b 1 /\
  intersect_ray surface_ops b surfs [0; 1] [(-1)%Z] [[true]; [true]] = Ok (ss, fr, ow) /\
  at2 fr 0 0 = Some true /\ at2 fr 1 0 = Some true.
Proof. exact one_surface_refuted. Qed.
Print Assumptions c08_one_surface_refuted.

(** C09 *)
Theorem c09_tree_geometry : forall objs surfs, library_assembly objs surfs ->
  forall me g b n, library_source b n -> forall reps vs ds st,
  ray_tracer surface_ops objs surfs g b reps me TreeTrue = Ok (vs, ds, st) ->
  nth_error (t_tree st) 0 = Some b /\
  forall L prev lvl, nth_error (t_tree st) L = Some prev -> nth_error (t_tree st) (L + 1) = Some lvl ->
  exists m, traceable lvl m /\ forall k, k < m -> exists j v d s t,
    parent_at lvl k = Some j /\ is_traced me L prev j /\ vert_at prev j = Some v /\ dir_at prev j = Some d /\
    (0 < t)%R /\ In s surfs /\ reports_hit s prev j t /\ vert_at lvl k = Some (vadd v (vscale t d)).
Proof. exact tree_geometry. Qed.
Print Assumptions c09_tree_geometry.

(** C09: nothing is missing.  A traced ray that meets a surface has a child there,
    and the tree ends only when no traced ray meets any surface. *)
Theorem c09_tree_complete : forall objs surfs, library_assembly objs surfs ->
  forall me g b n, library_source b n -> forall reps vs ds st,
  ray_tracer surface_ops objs surfs g b reps me TreeTrue = Ok (vs, ds, st) ->
  exists Ts : nat -> reports,
  forall L prev, nth_error (t_tree st) L = Some prev -> L < reps -> (exists j, is_traced me L prev j) ->
  exists ns tb, reported surface_ops surfs prev ns (Ts L) tb /\ (forall j, j < ns <-> is_traced me L prev j) /\
    match nth_error (t_tree st) (L + 1) with
    | None => forall i j t, ~ meets_first (Ts L) (length surfs) ns i j t
    | Some lvl => forall i j t, meets_first (Ts L) (length surfs) ns i j t ->
        exists k v d, parent_at lvl k = Some j /\ vert_at prev j = Some v /\ dir_at prev j = Some d /\
          vert_at lvl k = Some (vadd v (vscale t d))
    end.
Proof. exact tree_complete. Qed.
Print Assumptions c09_tree_complete.

(** A mirror and two rays: both are found on the mirror. *)
Example c09_example : forall g, exists vs ds st lvl,
  library_assembly [default_object 1] one_mirror /\ library_source (drops [1; 2]%R) 2 /\
  ray_tracer surface_ops [default_object 1] one_mirror g (drops [1; 2]%R) 3 (1/10)%R TreeTrue = Ok (vs, ds, st) /\
  nth_error (t_tree st) 1 = Some lvl /\
  (exists k, parent_at lvl k = Some 0 /\ vert_at lvl k = Some (V3 0 0 0)) /\
  (exists k, parent_at lvl k = Some 1 /\ vert_at lvl k = Some (V3 0 0 0)).
Proof.
  intros g. destruct (mirror_trace g 3 TreeTrue ltac:(lia)) as (vs & ds & st & E).
  destruct (mirror_level g 3 vs ds st ltac:(lia) E) as (lvl & H). exists vs, ds, st, lvl.
  split; [apply one_mirror_library|]. split; [apply (drops_source [1; 2]%R)|]. split; [exact E|]. exact H.
Qed.

(** C10: each level holds everything the surfaces emitted, once, the rays that
    continue first; those are what the next iteration traces (the state after
    [L + 1] iterations). *)
Theorem c10_levels_ordered : forall objs surfs, library_assembly objs surfs ->
  forall me g b n, library_source b n -> forall reps vs ds st,
  ray_tracer surface_ops objs surfs g b reps me TreeTrue = Ok (vs, ds, st) ->
  forall L prev lvl, nth_error (t_tree st) L = Some prev -> nth_error (t_tree st) (L + 1) = Some lvl ->
  exists nprev T tb gl ems rc m ns vs1 ds1 st1,
    reported surface_ops surfs prev nprev T tb /\ (forall j, j < nprev <-> is_traced me L prev j) /\
    emissions surface_ops surfs tb nprev T gl ems (t_g st1) /\ (L = 0 -> gl = g) /\ concatenate_rays (map snd ems) = Ok rc /\
    traceable rc m /\ traceable lvl m /\ level_order rc m me lvl ns /\
    (forall k e, energy_at lvl k = Some e -> (k < ns <-> (me < e)%R)) /\
    ray_tracer surface_ops objs surfs g b (L + 1) me TreeTrue = Ok (vs1, ds1, st1) /\
    traceable (t_bund st1) ns /\ rays_picked lvl (seq 0 ns) (t_bund st1).
Proof. exact level_contents. Qed.
Print Assumptions c10_levels_ordered.

Example c10_example : forall g, exists vs ds st lvl,
  library_assembly [default_object 1] one_mirror /\ library_source (drops [1; 2]%R) 2 /\
  ray_tracer surface_ops [default_object 1] one_mirror g (drops [1; 2]%R) 1 (1/10)%R TreeTrue = Ok (vs, ds, st) /\
  nth_error (t_tree st) 0 = Some (drops [1; 2]%R) /\ nth_error (t_tree st) (0 + 1) = Some lvl.
Proof.
  intros g. destruct (mirror_trace g 1 TreeTrue ltac:(lia)) as (vs & ds & st & E).
  destruct (mirror_level g 1 vs ds st ltac:(lia) E) as (lvl & H & _). exists vs, ds, st, lvl.
  split; [apply one_mirror_library|]. split; [apply (drops_source [1; 2]%R)|]. split; [exact E|]. split; [|exact H].
  apply (tree_geometry _ _ one_mirror_library _ _ _ _ (drops_source [1; 2]%R) _ _ _ _ E).
Qed.

(** C11: the returned rays, and the rays any surface is asked about from the second
    iteration on, have more than the limiting energy. *)
Theorem c11_weak_rays_not_traced : forall objs surfs, library_assembly objs surfs ->
  forall me g b n, library_source b n -> forall reps vs ds st,
  ray_tracer surface_ops objs surfs g b reps me TreeTrue = Ok (vs, ds, st) ->
  (1 <= reps -> b_vert (t_bund st) = Some vs /\ b_dir (t_bund st) = Some ds /\ traceable (t_bund st) (length vs) /\
     forall k e, energy_at (t_bund st) k = Some e -> (me < e)%R) /\
  exists (ns : nat -> nat) (Ts : nat -> reports),
    forall L prev, nth_error (t_tree st) L = Some prev ->
      (forall lvl, nth_error (t_tree st) (L + 1) = Some lvl ->
         (exists tb, reported surface_ops surfs prev (ns L) (Ts L) tb) /\
         forall k j, parent_at lvl k = Some j -> j < ns L) /\
      (nth_error (t_tree st) (L + 1) = None -> L < reps -> ns L <> 0 ->
         exists tb, reported surface_ops surfs prev (ns L) (Ts L) tb) /\
      forall j, j < ns L -> 1 <= L -> exists e, energy_at prev j = Some e /\ (me < e)%R.
Proof. exact only_strong_traced. Qed.
Print Assumptions c11_weak_rays_not_traced.

Example c11_example : forall g, exists vs ds st,
  library_assembly [default_object 1] one_mirror /\ library_source (drops [1; 2]%R) 2 /\
  ray_tracer surface_ops [default_object 1] one_mirror g (drops [1; 2]%R) 1 (1/10)%R TreeTrue = Ok (vs, ds, st).
Proof.
  intros g. destruct (mirror_trace g 1 TreeTrue ltac:(lia)) as (vs & ds & st & E). exists vs, ds, st.
  split; [apply one_mirror_library|]. split; [apply (drops_source [1; 2]%R)|]. exact E.
Qed.

(** C12 *)
Theorem c12_bounded : forall objs surfs, library_assembly objs surfs ->
  forall me g b n, library_source b n -> forall reps vs ds st,
  ray_tracer surface_ops objs surfs g b reps me TreeTrue = Ok (vs, ds, st) ->
  length (t_tree st) <= reps + 1 /\ nth_error (t_tree st) 0 = Some b /\
  (forall L lvl, 1 <= L -> nth_error (t_tree st) L = Some lvl -> exists m, traceable lvl m /\ 0 < m) /\
  b_vert (t_bund st) = Some vs /\ b_dir (t_bund st) = Some ds /\ length ds = length vs /\
  (length (t_tree st) < reps + 1 -> vs = [] /\ ds = []) /\
  (forall lvl, nth_error (t_tree st) reps = Some lvl -> exists ns,
     rays_picked lvl (seq 0 ns) (t_bund st) /\ forall j, j < ns <-> is_traced me reps lvl j) /\
  (forall L prev, nth_error (t_tree st) L = Some prev -> (forall j, ~ is_traced me L prev j) ->
     nth_error (t_tree st) (L + 1) = None) /\
  (1 <= reps -> vs = [] -> forall more,
     ray_tracer surface_ops objs surfs g b (reps + more) me TreeTrue = Ok (vs, ds, st)).
Proof. exact bounded_trace. Qed.
Print Assumptions c12_bounded.

(** The mirror's rays leave the scene: the trace ends before the 10th iteration. *)
Example c12_example : forall g, exists vs ds st,
  ray_tracer surface_ops [default_object 1] one_mirror g (drops [1; 2]%R) 10 (1/10)%R TreeTrue = Ok (vs, ds, st).
Proof. intros g. exact (mirror_trace g 10 TreeTrue ltac:(lia)). Qed.

(** C13: with library surfaces, what is reported for a ray depends on the ray alone;
    which surface it meets depends on the rest of the bundle only through the
    cut-off. *)
Theorem c13_independent_given_cutoff : forall surfs sown b b' n n' own own' rel rel' ss ss' fr fr' ow ow',
  (forall s, In s surfs -> regular (s_geom s) = true) -> traceable b n -> traceable b' n' ->
  intersect_ray surface_ops b surfs sown own rel = Ok (ss, fr, ow) ->
  intersect_ray surface_ops b' surfs sown own' rel' = Ok (ss', fr', ow') ->
  exists T T',
    (forall i j, i < length surfs -> j < n -> (T i j <> None <-> may_test sown own rel i j)) /\
    (forall i j, i < length surfs -> j < n' -> (T' i j <> None <-> may_test sown own' rel' i j)) /\
    reported surface_ops surfs b n T b /\ reported surface_ops surfs b' n' T' b' /\
    forall j j' v d, vert_at b j = Some v -> dir_at b j = Some d -> vert_at b' j' = Some v -> dir_at b' j' = Some d ->
      (forall i, may_test sown own rel i j <-> may_test sown own' rel' i j') ->
      (forall i, i < length surfs -> T i j = T' i j') /\
      ((cutoff_on T (length surfs) n <-> cutoff_on T' (length surfs) n') ->
       forall i, at2 fr i j = Some true <-> at2 fr' i j' = Some true).
Proof. exact independent_given_cutoff. Qed.
Print Assumptions c13_independent_given_cutoff.

(** C13 fails: a ray that starts half a micron above a mirror meets it when traced
    alone, and misses it when a ray starting on the mirror is in the bundle. *)
Theorem c13_independence_refuted : exists surfs b b' ss fr ow ss' fr' ow',
  (forall s, In s surfs -> lib_surface s) /\ library_source b 1 /\ library_source b' 2 /\
  rays_picked b' [0] b /\
  intersect_ray surface_ops b surfs [0] [(-1)%Z] [[true]] = Ok (ss, fr, ow) /\
  intersect_ray surface_ops b' surfs [0] [(-1)%Z; (-1)%Z] [[true; true]] = Ok (ss', fr', ow') /\
  at2 fr 0 0 = Some true /\ at2 fr' 0 0 <> Some true.
Proof. exact independence_refuted. Qed.
Print Assumptions c13_independence_refuted.

(** C14: the source rays are put to every surface; a later ray [j], emitted by
    surface [i] of object [oi], to exactly the surfaces [next_surfaces] allows. *)
Theorem c14_ownership : forall objs surfs, library_assembly objs surfs ->
  forall me g b n, library_source b n -> forall reps vs ds st,
  ray_tracer surface_ops objs surfs g b reps me TreeTrue = Ok (vs, ds, st) ->
  exists (ns : nat -> nat) (Ts : nat -> reports),
  (forall L prev, nth_error (t_tree st) L = Some prev -> L < reps -> 0 < ns L ->
     exists tb, reported surface_ops surfs prev (ns L) (Ts L) tb) /\
  (forall L prev, nth_error (t_tree st) L = Some prev -> forall j, j < ns L <-> is_traced me L prev j) /\
  (0 < reps -> forall i j, i < length surfs -> j < n -> Ts 0 i j <> None) /\
  (forall L lvl, nth_error (t_tree st) (L + 1) = Some lvl -> L + 1 < reps ->
     forall j, is_traced me (L + 1) lvl j -> exists i oi owns next r,
       emitted_by objs i oi owns next lvl j r /\
       forall i', i' < length surfs -> (Ts (L + 1) i' j <> None <-> next_surfaces objs oi owns next r i')).
Proof. exact tests_right_surfaces. Qed.
Print Assumptions c14_ownership.

(** For a ray leaving an ordinary object all surfaces are tried; for one leaving a
    one-sided object all but those of that object. *)
Theorem c14_library_objects : forall objs surfs, library_assembly objs surfs ->
  forall me g b n, library_source b n -> forall reps vs ds st,
  ray_tracer surface_ops objs surfs g b reps me TreeTrue = Ok (vs, ds, st) ->
  exists (ns : nat -> nat) (Ts : nat -> reports),
  (forall L prev, nth_error (t_tree st) L = Some prev -> L < reps -> 0 < ns L ->
     exists tb, reported surface_ops surfs prev (ns L) (Ts L) tb) /\
  (forall L prev, nth_error (t_tree st) L = Some prev -> forall j, j < ns L <-> is_traced me L prev j) /\
  (forall L lvl, nth_error (t_tree st) (L + 1) = Some lvl -> L + 1 < reps ->
     forall j, is_traced me (L + 1) lvl j -> exists i oi owns next r,
       emitted_by objs i oi owns next lvl j r /\
       (forall nsurf, nth_error objs oi = Some (default_object nsurf) ->
          forall i', i' < length surfs -> Ts (L + 1) i' j <> None) /\
       (forall nsurf, nth_error objs oi = Some (one_sided_object nsurf) ->
          forall i', i' < length surfs ->
            (Ts (L + 1) i' j <> None <-> nth_error (surf_ownership objs) i' <> Some oi))).
Proof. exact objects_trace. Qed.
Print Assumptions c14_library_objects.

(** A ray reflected by an ordinary object may be put to its surfaces again, one
    reflected by a one-sided mirror may not. *)
Example c14_example : forall g, exists vs ds st,
  library_assembly [default_object 1] one_mirror /\ library_source (drops [1; 2]%R) 2 /\
  ray_tracer surface_ops [default_object 1] one_mirror g (drops [1; 2]%R) 2 (1/10)%R TreeTrue = Ok (vs, ds, st) /\
  (forall b n i, rays b n -> 0 < n -> exists next, surfaces_for_next (default_object 1) b i = Ok next /\
     next_surfaces [default_object 1] 0 [false] next 0 0) /\
  (forall b n i, rays b n -> 0 < n -> exists next, surfaces_for_next (one_sided_object 1) b i = Ok next /\
     ~ next_surfaces [one_sided_object 1] 0 [false] next 0 0).
Proof.
  intros g. destruct (mirror_trace g 2 TreeTrue ltac:(lia)) as (vs & ds & st & E). exists vs, ds, st.
  split; [apply one_mirror_library|]. split; [apply (drops_source [1; 2]%R)|]. split; [exact E|]. exact may_meet_again.
Qed.

(** C15 *)
Theorem c15_energy_not_created : forall objs surfs, library_assembly objs surfs ->
  forall me g b n, library_source b n -> forall reps vs ds st,
  ray_tracer surface_ops objs surfs g b reps me TreeTrue = Ok (vs, ds, st) ->
  forall L prev lvl, nth_error (t_tree st) L = Some prev -> nth_error (t_tree st) (L + 1) = Some lvl ->
  never_ties surfs prev ->
  (forall j e, energy_at prev j = Some e -> (0 <= energy_from lvl j <= e)%R) /\
  (total_energy lvl <= total_energy prev)%R.
Proof. exact energy_not_created. Qed.
Print Assumptions c15_energy_not_created.

Example c15_example : forall g, exists vs ds st lvl,
  library_assembly [default_object 1] one_mirror /\ library_source (drops [1; 2]%R) 2 /\
  ray_tracer surface_ops [default_object 1] one_mirror g (drops [1; 2]%R) 1 (1/10)%R TreeTrue = Ok (vs, ds, st) /\
  nth_error (t_tree st) (0 + 1) = Some lvl /\ never_ties one_mirror (drops [1; 2]%R).
Proof.
  intros g. destruct (mirror_trace g 1 TreeTrue ltac:(lia)) as (vs & ds & st & E).
  destruct (mirror_level g 1 vs ds st ltac:(lia) E) as (lvl & H & _). exists vs, ds, st, lvl.
  split; [apply one_mirror_library|]. split; [apply (drops_source [1; 2]%R)|]. split; [exact E|]. split; [exact H|].
  apply one_mirror_never_ties.
Qed.

(** C16, engine part: for surfaces that answer [T], ValueError exactly when some
    answer is below -1e-16. *)
Theorem c16_engine_raises : forall (S G : Type) (ops : surf_ops S G) b n surfs sown own rel T,
  rays b n -> names_ok b -> surfs <> [] -> fits (length surfs) n sown own rel ->
  (forall i j, T i j <> None -> i < length surfs /\ j < n) ->
  (forall i j, i < length surfs -> j < n -> (T i j <> None <-> may_test sown own rel i j)) ->
  (forall i s, nth_error surfs i = Some s -> will_answer ops b n T i s) ->
  ((exists i j x, T i j = Some x /\ nlt x (Fin (- tenm 16)) = true) ->
     intersect_ray ops b surfs sown own rel = Err ValueError) /\
  ((forall i j x, T i j = Some x -> nlt x (Fin (- tenm 16)) = false) ->
     exists r, intersect_ray ops b surfs sown own rel = Ok r).
Proof. exact @intersect_ray_outcome. Qed.
Print Assumptions c16_engine_raises.

(** Surfaces that answer a constant: both cases occur. *)
Example c16_engine_example : forall x : num,
  rays (drops [1%R]) 1 /\ fits 1 1 [0] [(-1)%Z] [[true]] /\
  (forall i j, i < 1 -> j < 1 -> (constant_report x i j <> None <-> may_test [0] [(-1)%Z] [[true]] i j)) /\
  will_answer (constant_ops x) (drops [1%R]) 1 (constant_report x) 0 tt /\
  (intersect_ray (constant_ops (Fin (-1))) (drops [1%R]) [tt] [0] [(-1)%Z] [[true]] = Err ValueError).
Proof. exact constant_case. Qed.

(** C17 *)
Theorem c17_tree_false : forall objs surfs, library_assembly objs surfs ->
  forall me g b n reps vs ds st, library_source b n -> 1 <= reps ->
  ray_tracer surface_ops objs surfs g b reps me TreeTrue = Ok (vs, ds, st) ->
  exists st' rc m, ray_tracer surface_ops objs surfs g b reps me TreeFalse = Ok (vs, ds, st') /\
    t_tree st' = [rc] /\ traceable rc m /\
    (m = 0 \/ exists before lvl idx, t_tree st = before ++ [lvl] /\ before <> [] /\
       rays_picked rc idx lvl /\ Permutation idx (seq 0 m)).
Proof. exact tree_false_top. Qed.
Print Assumptions c17_tree_false.

(** The last iteration executed is the one that recorded [lvl], or one in which
    nothing was met ([m = 0]); a trace without a tree succeeds only if the one with
    a tree does. *)
Theorem c17_tree_true : forall objs surfs, library_assembly objs surfs ->
  forall me g b n reps vs ds st, library_source b n ->
  ray_tracer surface_ops objs surfs g b reps me TreeFalse = Ok (vs, ds, st) ->
  exists st', ray_tracer surface_ops objs surfs g b reps me TreeTrue = Ok (vs, ds, st').
Proof. exact tree_true_top. Qed.
Print Assumptions c17_tree_true.

Theorem c17_no_iteration_raises : forall (S G : Type) (ops : surf_ops S G) objs me surfs g b n, rays b n ->
  ray_tracer ops objs surfs g b 0 me TreeFalse = Err UnboundLocalError.
Proof. exact @false_unbound. Qed.
Print Assumptions c17_no_iteration_raises.

(** With a true value other than [True] the trace is the same, exceptions included,
    but the source is missing from the tree. *)
Theorem c17_truthy : forall (S G : Type) (ops : surf_ops S G) objs me surfs g b reps,
  ray_tracer ops objs surfs g b reps me TreeTrue =
  ('(vs, ds, st) <- ray_tracer ops objs surfs g b reps me TreeTruthy ;;
   Ok (vs, ds, mkT (t_surfs st) (t_g st) (t_bund st) (t_own st) (t_rel st) (b :: t_tree st) (t_record st))).
Proof. exact @truthy. Qed.
Print Assumptions c17_truthy.

Example c17_example : forall g,
  (exists vs ds st, ray_tracer surface_ops [default_object 1] one_mirror g (drops [1; 2]%R) 1 (1/10)%R TreeTrue = Ok (vs, ds, st)) /\
  (exists vs ds st, ray_tracer surface_ops [default_object 1] one_mirror g (drops [1; 2]%R) 1 (1/10)%R TreeFalse = Ok (vs, ds, st)).
Proof. intros g. split; apply mirror_trace; lia. Qed.

(** C18: surfaces are left as they were but for the indices selected last, and a
    second trace of the same bundle gives the same tree and arrays: with the same
    random numbers, or whatever the shared state if no optics manager is random. *)
Theorem c18_surfaces_restored : forall objs surfs me, library_assembly objs surfs ->
  forall g b n reps ta vs ds st, library_source b n ->
  ray_tracer surface_ops objs surfs g b reps me ta = Ok (vs, ds, st) -> ta <> TreeTruthy ->
  Forall2 same_surface surfs (t_surfs st).
Proof. exact library_surfs. Qed.
Print Assumptions c18_surfaces_restored.

Theorem c18_trace_again : forall objs surfs me g g' b n reps ta vs ds st,
  library_assembly objs surfs -> library_source b n -> ta <> TreeTruthy ->
  ray_tracer surface_ops objs surfs g b reps me ta = Ok (vs, ds, st) ->
  (g' = g \/ forall s, In s surfs -> not_random (s_opt s)) ->
  exists st', ray_tracer surface_ops objs (t_surfs st) g' b reps me ta = Ok (vs, ds, st') /\
    t_tree st' = t_tree st.
Proof. exact trace_again. Qed.
Print Assumptions c18_trace_again.

Example c18_example : forall g, exists vs ds st,
  ray_tracer surface_ops [default_object 1] one_mirror g (drops [1; 2]%R) 2 (1/10)%R TreeTrue = Ok (vs, ds, st) /\
  forall s, In s one_mirror -> not_random (s_opt s).
Proof.
  intros g. destruct (mirror_trace g 2 TreeTrue ltac:(lia)) as (vs & ds & st & E). exists vs, ds, st.
  split; [exact E|]. intros s [<-|[]]. exact I.
Qed.

(** C19 *)
Theorem c19_ordered_parents : forall t, (forall b, In b (tl t) -> b_parents b <> None) ->
  exists pss, ordered_parents t = Ok pss /\ length pss = num_bunds t - 1 /\
    forall k b, nth_error t (k + 1) = Some b -> exists ps, nth_error pss k = Some ps /\ b_parents b = Some ps.
Proof. exact ordered_parents_spec. Qed.
Print Assumptions c19_ordered_parents.

(** Without parents in some level but the first, it raises. *)
Theorem c19_parents_missing : forall t b, In b (tl t) -> b_parents b = None -> exists e, ordered_parents t = Err e.
Proof. exact ordered_parents_raises. Qed.
Print Assumptions c19_parents_missing.

(** The levels a trace records all have parents. *)
Theorem c19_traced_levels : forall objs surfs, library_assembly objs surfs ->
  forall me g b n, library_source b n -> forall reps vs ds st,
  ray_tracer surface_ops objs surfs g b reps me TreeTrue = Ok (vs, ds, st) ->
  forall c, In c (tl (t_tree st)) -> b_parents c <> None.
Proof. exact traced_levels_parents. Qed.
Print Assumptions c19_traced_levels.

Example c19_example : ordered_parents [drops [1; 2]%R; set_parents [1; 0] (drops [1; 2]%R)] = Ok [[1; 0]] /\
  ordered_parents [] = Ok [].
Proof. split; reflexivity. Qed.

(** C20: every call raises. *)
Theorem c20_history_refuted : forall t args, exists e, ray_history t args = Err e.
Proof. exact ray_history_raises. Qed.
Print Assumptions c20_history_refuted.

(** With the missing parameter restored: without a level it raises IndexError, and
    with a level it leaves out the source ray. *)
Theorem c20_default_level_refuted : forall t i, 2 <= num_bunds t -> ray_history_body t i None = Err IndexError.
Proof. exact history_default. Qed.
Print Assumptions c20_default_level_refuted.

Theorem c20_source_left_out : forall t L i l, ancestors t (L + 1) i l ->
  ray_history_body t i (Some (L + 1)) = Ok (removelast l).
Proof. exact history_explicit. Qed.
Print Assumptions c20_source_left_out.

Example c20_example :
  ancestors [drops [1; 2]%R; set_parents [1; 0] (drops [1; 2]%R); set_parents [0] (drops [1%R])] 2 0 [0; 0; 1].
Proof.
  eapply anc_step; [reflexivity|reflexivity|]. eapply anc_step; [reflexivity|reflexivity|]. constructor.
Qed.

(** C73 *)
Theorem c73_tracing_answers : forall objs surfs, answering_assembly objs surfs ->
  forall g b n reps me ta, library_source b n -> knows_media surfs b ->
  1 <= reps \/ ta <> TreeFalse ->
  exists vs ds st, ray_tracer surface_ops objs surfs g b reps me ta = Ok (vs, ds, st).
Proof. exact tracing_answers. Qed.
Print Assumptions c73_tracing_answers.

(** The library's own objects qualify. *)
Theorem c73_objects_answer : forall nsurf,
  (object_contract (default_object nsurf) /\ object_answers (default_object nsurf)) /\
  (object_contract (one_sided_object nsurf) /\ object_answers (one_sided_object nsurf)).
Proof. exact library_objects_answer. Qed.
Print Assumptions c73_objects_answer.

Example c73_example : answering_assembly [default_object 1] one_mirror /\ library_source (drops [1; 2]%R) 2 /\
  knows_media one_mirror (drops [1; 2]%R).
Proof. split; [apply one_mirror_answers|]. split; [apply (drops_source [1; 2]%R)|apply no_media]. Qed.
