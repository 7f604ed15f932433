(** C70, C71: the picture of a trace, the scene. *)
From Coq Require Import Reals List Arith ZArith Bool Lra Permutation.
From Verif.Base Require Import Py Num Vec.
From Verif.Model Require Import RayBundle TraceTree Geometry OpticsCallables Engine Surface Mesh View.
From Verif.Proof Require Import SurfaceProof TraceTop LibraryTop EngineTop DrawProof SceneViewProof.
From Verif.Spec Require Import BundleSpec EngineSpec LibrarySpec ViewSpec SceneViewSpec.
Import ListNotations.
Local Open Scope R_scope.

(** Whatever the tree and whatever rays are chosen, there is one line from each ray's
    parent to the ray and one into the open for each shown ray without children, and no
    other; lines into the open end at the right point, but start at the ray whose number
    is the rank of their own among the shown rays. *)
Theorem c70_drawn : forall esc sel t, drawable t -> answers_all sel t ->
  exists pts cs ss, show_rays t esc sel = Ok (pts, cs) /\ lines_of t (chosen sel) ss /\
    depicts pts cs ss (starts_by_count t (chosen sel) esc).
Proof. exact drawn. Qed.
Print Assumptions c70_drawn.

(** So the picture is right if hidden rays come after the shown childless ones. *)
Theorem c70_faithful : forall esc sel t, drawable t -> answers_all sel t -> hidden_last t (chosen sel) ->
  exists pts cs, show_rays t esc sel = Ok (pts, cs) /\ faithful t (chosen sel) esc pts cs.
Proof. exact drawn_faithfully. Qed.
Print Assumptions c70_faithful.
Example c70_faithful_example : exists pts cs, show_rays [falling; leaving (1 / 10)] 1 None = Ok (pts, cs) /\
  faithful [falling; leaving (1 / 10)] (fun _ _ => True) 1 pts cs.
Proof. exact well_drawn_case. Qed.

(** That is so for each trace with the energy threshold zero whose source has no ray
    without energy. *)
Theorem c70_trace : forall objs surfs g b n reps vs ds st esc, library_assembly objs surfs -> library_source b n ->
  (forall j, energy_at b j <> Some 0) ->
  ray_tracer surface_ops objs surfs g b reps 0 TreeTrue = Ok (vs, ds, st) ->
  exists pts cs, show_rays (t_tree st) esc None = Ok (pts, cs) /\ faithful (t_tree st) (fun _ _ => True) esc pts cs.
Proof. exact trace_drawn. Qed.
Print Assumptions c70_trace.

(** In general it is not: a line starts at another ray. *)
Theorem c70_refuted : exists t pts cs, drawable t /\ show_rays t 1 None = Ok (pts, cs) /\ ~ faithful t (fun _ _ => True) 1 pts cs.
Proof. exact misdrawn. Qed.
Print Assumptions c70_refuted.

(** Nor does the selector hide lines that end at a next ray. *)
Theorem c70_selector_refuted : exists t sel pts cs, drawable t /\ answers_all sel t /\ (forall b j, ~ chosen sel b j) /\
  show_rays t 1 sel = Ok (pts, cs) /\ cs <> [].
Proof. exact drawn_though_not_chosen. Qed.
Print Assumptions c70_selector_refuted.

(** C71: after any orderly sequence of calls, with whatever happens to assemblies and
    surfaces in between, the scene shows exactly one picture of each surface that the
    assembly had at the last update, made when the surface was last drawn, and the
    rays of the last trace; and it is rendered. *)
Theorem c71_history : forall order w v s ids pic rs, some_order order -> history order w v s ids pic rs ->
  shows v ids pic rs /\ has_settings v s /\ v_disabled v = false.
Proof. exact history_shows. Qed.
Print Assumptions c71_history.

(** And [trace_control] tells the numbers that the next trace uses: those last set. *)
Theorem c71_control : forall order w v s ids pic rs, some_order order -> history order w v s ids pic rs ->
  trace_control v = (st_iters s, st_min_energy s).
Proof. exact control_kept. Qed.
Print Assumptions c71_control.

(** [update_surfaces] always succeeds then if the new surfaces have meshes; surfaces
    that were there before keep their pictures, new ones get a picture as they are
    now, and the pictures of others go. *)
Theorem c71_update : forall order w v s ids pic rs, some_order order -> history order w v s ids pic rs ->
  (forall sid, In sid (w_surfaces w (st_asm s)) -> ~ In sid ids -> exists d, plain_portrait w sid d) ->
  exists v' pic', update_surfaces order w v = Ok v' /\ history order w v' s (each (w_surfaces w (st_asm s))) pic' rs /\
    (forall sid, In sid (w_surfaces w (st_asm s)) -> In sid ids -> pic' sid = pic sid) /\
    (forall sid, In sid (w_surfaces w (st_asm s)) -> ~ In sid ids -> plain_portrait w sid (pic' sid)).
Proof. exact update_goes_on. Qed.
Print Assumptions c71_update.
Example c71_example : forall g order, some_order order -> exists v v' pic pic',
  history order (plates [0; 1]%nat g) v (mkSet 0 None 1 None (Z.to_nat 200000000) (5 / 100)) [0; 1]%nat pic [] /\
  update_surfaces order (plates [2; 1]%nat g) v = Ok v' /\
  history order (plates [2; 1]%nat g) v' (mkSet 0 None 1 None (Z.to_nat 200000000) (5 / 100)) [2; 1]%nat pic' [] /\
  Permutation (in_scene v) [pic 0; pic 1]%nat /\ Permutation (in_scene v') [pic' 2; pic 1]%nat.
Proof. exact plates_case. Qed.

(** Not so if the assembly is replaced without clearing the scene: all the old pictures
    stay. *)
Theorem c71_replace_refuted : forall order w v s ids pic rs a v', some_order order -> history order w v s ids pic rs ->
  set_assembly order w a v = Ok v' ->
  exists pic', (forall sid, In sid (w_surfaces w a) -> plain_portrait w sid (pic' sid)) /\
    Permutation (in_scene v') (map pic ids ++ map pic' (each (w_surfaces w a)) ++ rs).
Proof. exact replaced_uncleared. Qed.
Print Assumptions c71_replace_refuted.

(** Nor if the scene is updated just after it was cleared: an exception is raised if a
    surface has left the assembly, and surfaces that have not are not drawn again. *)
Theorem c71_cleared_refuted : forall order w v s ids pic rs sid, some_order order -> history order w v s ids pic rs ->
  In sid ids -> ~ In sid (w_surfaces w (st_asm s)) -> update_surfaces order w (clear_scene v) = Err AttributeError.
Proof. exact cleared_vanished. Qed.
Print Assumptions c71_cleared_refuted.
Theorem c71_undrawn_refuted : forall order w v s ids pic rs v', some_order order -> history order w v s ids pic rs ->
  update_surfaces order w (clear_scene v) = Ok v' -> (forall sid, In sid (w_surfaces w (st_asm s)) -> In sid ids) -> in_scene v' = [].
Proof. exact cleared_undrawn. Qed.
Print Assumptions c71_undrawn_refuted.

(** Rays stay when the source is taken away. *)
Theorem c71_source_refuted : forall w v, exists v', set_source w None v = Ok v' /\ in_scene v' = in_scene v.
Proof. exact source_removed. Qed.
Print Assumptions c71_source_refuted.
