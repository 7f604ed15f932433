(** C50-C58: rotations, frames and assemblies. *)
From Coq Require Import Reals List Arith Bool Lia Lra.
From Verif.Base Require Import Py Num Vec.
From Verif.Model Require Import Spatial RayBundle Engine Objects Surface Assembly.
From Verif.Spec Require Import GeometrySpec OpticsSpec SpatialSpec FrameSpec.
From Verif.Proof Require Import VecLemmas SpatialProof FrameProof FrameHistory PlaceProof PlaceTop FrameTop FrameExample.
Import ListNotations.

(** C50: the rotation about a unit axis by an angle, and no other matrix. *)
Theorem c50_general_axis : forall axis angle, is_unit axis ->
  is_rotation (general_axis_rotation axis angle) /\
  turns axis angle (general_axis_rotation axis angle) /\
  mv3 (general_axis_rotation axis angle) axis = axis /\
  (forall b, mm3 (general_axis_rotation axis angle) (general_axis_rotation axis b) =
             general_axis_rotation axis (angle + b)) /\
  (forall m, turns axis angle m -> m = general_axis_rotation axis angle).
Proof. exact general_axis_top. Qed.
Print Assumptions c50_general_axis.

Theorem c50_main_axes : forall a,
  (exists m, turns (V3 1 0 0) a m /\ is_rotation m /\ moves (rotx a) m vzero) /\
  (exists m, turns (V3 0 1 0) a m /\ is_rotation m /\ moves (roty a) m vzero) /\
  (exists m, turns (V3 0 0 1) a m /\ is_rotation m /\ moves (rotz a) m vzero).
Proof. exact rot_axis_top. Qed.
Print Assumptions c50_main_axes.

(** A quarter turn about z takes x to y. *)
Example c50_example : is_unit (V3 0 0 1) /\
  mv3 (general_axis_rotation (V3 0 0 1) (PI / 2)) (V3 1 0 0) = V3 0 1 0.
Proof.
  split; [apply z_unit|]. destruct (c50_general_axis (V3 0 0 1) (PI / 2) z_unit) as (_ & T & _).
  specialize (T 0%R (V3 1 0 0)). unfold dot in T. cbn [vx vy vz] in T.
  replace (V3 1 0 0) with (vadd (vscale 0 (V3 0 0 1)) (V3 1 0 0)) by (vunfold; veq; ring).
  rewrite T by ring. rewrite cos_PI2, sin_PI2. vunfold. veq; ring.
Qed.

(** C51 *)
Theorem c51_generate_transform : forall axis angle t, is_unit axis ->
  exists m, turns axis angle m /\ is_rotation m /\ moves (generate_transform axis angle t) m t.
Proof. exact generate_transform_top. Qed.
Print Assumptions c51_generate_transform.

Theorem c51_translate : forall x y z,
  moves (translate x y z) id3 (V3 x y z) /\ forall p, app4 (translate x y z) p = vadd p (V3 x y z).
Proof. exact translate_top. Qed.
Print Assumptions c51_translate.

Theorem c51_products : forall fs, Forall proper_motion fs ->
  proper_motion (fold_right mm4 id4 fs) /\ keeps_distances (fold_right mm4 id4 fs) /\
  forall p, app4 (fold_right mm4 id4 fs) p = fold_right (fun f q => app4 f q) p fs.
Proof. exact proper_product_top. Qed.
Print Assumptions c51_products.

Example c51_example : Forall proper_motion [translate 1 2 3; rotx 1; generate_transform (V3 0 1 0) 2 (V3 4 5 6)].
Proof.
  assert (P : forall f m t, is_rotation m /\ moves f m t -> proper_motion f) by (intros f m t H; exists m, t; exact H).
  repeat constructor.
  - eapply P. split; [apply id_rotation|]. apply c51_translate.
  - destruct (c50_main_axes 1) as ((m & _ & H) & _). eapply P. exact H.
  - destruct (c51_generate_transform (V3 0 1 0) 2 (V3 4 5 6) y_unit) as (m & _ & H). eapply P. exact H.
Qed.

(** C52: [rotation_to_z v] turns z into [v], and keeps x horizontal, to the right of
    someone looking along [v]. *)
Theorem c52_rotation_to_z : forall v, is_unit v ->
  is_rotation (rotation_to_z v) /\ mv3 (rotation_to_z v) (V3 0 0 1) = v /\
  vz (mv3 (rotation_to_z v) (V3 1 0 0)) = 0%R /\
  (v = V3 0 0 1 -> rotation_to_z v = id3).
Proof. exact rotation_to_z_top. Qed.
Print Assumptions c52_rotation_to_z.

Theorem c52_first_column : forall v, is_unit v ->
  exists k, (0 <= k)%R /\ V3 (vy v) (- vx v) 0 = vscale k (mv3 (rotation_to_z v) (V3 1 0 0)).
Proof. exact rotation_to_z_x. Qed.
Print Assumptions c52_first_column.

Example c52_example : is_unit (V3 (3/5) 0 (4/5)).
Proof. unfold is_unit, norm2, dot; cbn [vx vy vz]. field. Qed.

(** C53: after every history of calls (those that raise included) by a careful
    program, location and rotation are those of the transform. *)
Theorem c53_in_sync : forall limit es w, history limit es w -> in_sync w.
Proof. exact history_sync. Qed.
Print Assumptions c53_in_sync.

(** Each setter changes its own part of its own node, and no other node; this holds
    whether or not the propagation to children then succeeds. *)
Theorem c53_set_location : forall limit es w, history limit es w ->
  forall n b v w' o, sole w n -> kind_of w n <> None -> b < w_next w -> w_arr w b = A3 v ->
  set_location limit n (Whole b) w = (w', o) -> sets w n (moved_to v) w'.
Proof. exact reached_set_location. Qed.
Print Assumptions c53_set_location.

Theorem c53_set_rotation : forall limit es w, history limit es w ->
  forall n b s w' o, sole w n -> kind_of w n <> None -> b < w_next w -> w_arr w b = A33 s ->
  set_rotation limit n (Whole b) w = (w', o) -> sets w n (turned_to s) w'.
Proof. exact reached_set_rotation. Qed.
Print Assumptions c53_set_rotation.

Theorem c53_set_transform : forall limit es w, history limit es w ->
  forall n r w' o, kind_of w n <> None -> usable_transform w n r ->
  set_transform limit n r w = (w', o) -> exists t, read w r = A44 t /\ sets w n (fun _ m' => m' = t) w'.
Proof. exact reached_set_transform. Qed.
Print Assumptions c53_set_transform.

(** A location or rotation of wrong shape raises ValueError and changes nothing, in
    every state. *)
Theorem c53_bad_location : forall limit n r w, kind_of w n <> None -> (forall v, read w r <> A3 v) ->
  set_location limit n r w = (w, Err ValueError).
Proof. exact set_location_bad. Qed.
Print Assumptions c53_bad_location.

Theorem c53_bad_rotation : forall limit n r w, kind_of w n <> None -> (forall v, read w r <> A33 v) ->
  set_rotation limit n r w = (w, Err ValueError).
Proof. exact set_rotation_bad. Qed.
Print Assumptions c53_bad_rotation.

(** The constructors. *)
Theorem c53_new_frame : forall limit es w, history limit es w ->
  forall k em loc rot w' o, plain_opt w loc -> plain_opt w rot ->
  init_frame limit k em loc rot w = (w', o) -> in_sync w' /\
  (forall j, j <> w_size w -> same_node w w' j) /\
  (forall n, o = Ok n -> n = w_size w /\ kind_of w' n = Some k /\
     exists v s, given_location w loc v /\ given_rotation w rot s /\ transform_of w' n = Some (mk4 s v)).
Proof. exact reached_new_frame. Qed.
Print Assumptions c53_new_frame.

Theorem c53_new_object : forall limit es w, history limit es w ->
  forall ss bs tr w' o, usable_opt w (w_size w) tr ->
  new_object limit ss bs tr w = (w', o) -> in_sync w' /\
  (forall j, j <> w_size w -> same_node w w' j) /\
  (forall n, o = Ok n -> n = w_size w /\ kind_of w' n = Some (KObj ss bs) /\
     exists t, given w tr t /\ transform_of w' n = Some t).
Proof. exact reached_new_object. Qed.
Print Assumptions c53_new_object.

(** A transform of wrong shape raises IndexError, and the old transform is gone. *)
Theorem c53_bad_transform_refuted : let w := run 5 bad_events in let w' := fst (set_transform 5 0 (Whole 1) w) in
  history 5 bad_events w /\ snd (set_transform 5 0 (Whole 1) w) = Err IndexError /\
  transform_of w 0 = Some id4 /\ transform_of w' 0 = None.
Proof. exact bad_transform. Qed.
Print Assumptions c53_bad_transform_refuted.

(** Two nodes given the same array as transform get out of step. *)
Theorem c53_shared_transform_refuted : ~ in_sync (run 5 shared_events).
Proof. exact shared_desync. Qed.
Print Assumptions c53_shared_transform_refuted.

(** The arrays given are kept: writing into the location given to a surface changes what
    [get_location] says but not the transform, *)
Theorem c53_written_location_refuted : forall v v', v <> v' ->
  history 5 [New (A3 v); MkSurface id4 (Some (Whole 0)) None] (run 5 [New (A3 v); MkSurface id4 (Some (Whole 0)) None]) /\
  transform_of (run 5 (written_events v v')) 0 = Some (mk4 id3 v) /\
  location_of (run 5 (written_events v v')) 0 = Some v' /\ ~ in_sync (run 5 (written_events v v')).
Proof. exact written_desync. Qed.
Print Assumptions c53_written_location_refuted.

(** and writing into the transform given to an object moves the object, without a call. *)
Theorem c53_written_transform : forall t t',
  transform_of (run 5 [New (A44 t); MkObject [] [] (Some (Whole 0))]) 0 = Some t /\
  transform_of (run 5 (rewritten_events t t')) 0 = Some t' /\ synchronised (run 5 (rewritten_events t t')) 0.
Proof. exact rewritten_moves. Qed.
Print Assumptions c53_written_transform.

(** A surface in an object in an assembly; the assembly has been put to [t2], and an
    array holding [t1] is at hand. *)
Example c53_example : forall t1 t2, history 5 (ex_events t1 t2) (ex_world t1 t2) /\
  kind_of (ex_world t1 t2) 2 <> None /\ transform_of (ex_world t1 t2) 2 = Some t2 /\
  usable_transform (ex_world t1 t2) 1 (Whole 12) /\ sole (ex_world t1 t2) 2.
Proof.
  intros t1 t2. split; [apply ex_history|]. destruct (ex_nodes t1 t2) as (_ & _ & -> & _).
  split; [discriminate|]. split; [apply ex_transforms|]. split; [apply ex_own|apply ex_sole].
Qed.

(** C54: [transform_children] puts every surface and boundary below the node to the
    product of the transforms on the way to it, after [t], and changes nothing
    else. *)
Theorem c54_transform_children : forall limit es w, history limit es w ->
  forall n t w', transform_children limit n t w = (w', Ok tt) ->
  (forall l, (exists T, path w n l T) -> exists T, path w n l T /\ placed_by w' l (mm4 t T)) /\
  (forall l, ~ (exists T, path w n l T) -> placed_array w' l = placed_array w l) /\
  (forall k, same_node w w' k).
Proof. exact reached_children. Qed.
Print Assumptions c54_transform_children.

(** It succeeds exactly for assemblies that are complete and not too deep. *)
Theorem c54_succeeds : forall limit es w, history limit es w ->
  forall d n t, snd (transform_children d n t w) = Ok tt <-> built w d n.
Proof. exact reached_children_succeeds. Qed.
Print Assumptions c54_succeeds.

Theorem c54_set_location : forall limit es w, history limit es w ->
  forall n b v w', sole w n -> composite w n -> b < w_next w -> w_arr w b = A3 v ->
  set_location limit n (Whole b) w = (w', Ok tt) -> well_placed w' n /\
  forall l, l <> n -> ~ (exists T, path w' n l T) -> apart w n l -> placed_array w' l = placed_array w l.
Proof. exact reached_place_location. Qed.
Print Assumptions c54_set_location.

Theorem c54_set_rotation : forall limit es w, history limit es w ->
  forall n b v w', sole w n -> composite w n -> b < w_next w -> w_arr w b = A33 v ->
  set_rotation limit n (Whole b) w = (w', Ok tt) -> well_placed w' n /\
  forall l, l <> n -> ~ (exists T, path w' n l T) -> apart w n l -> placed_array w' l = placed_array w l.
Proof. exact reached_place_rotation. Qed.
Print Assumptions c54_set_rotation.

Theorem c54_set_transform : forall limit es w, history limit es w ->
  forall n r w', composite w n -> usable_transform w n r ->
  set_transform limit n r w = (w', Ok tt) -> well_placed w' n /\
  forall l, ~ (exists T, path w' n l T) -> placed_array w' l = placed_array w l.
Proof. exact reached_place_transform. Qed.
Print Assumptions c54_set_transform.

Theorem c54_setters_succeed : forall limit es w, history limit es w -> forall n, composite w n ->
  (forall b v, sole w n -> b < w_next w -> w_arr w b = A3 v -> (snd (set_location limit n (Whole b) w) = Ok tt <-> built w limit n)) /\
  (forall b s, sole w n -> b < w_next w -> w_arr w b = A33 s -> (snd (set_rotation limit n (Whole b) w) = Ok tt <-> built w limit n)) /\
  (forall r, usable_transform w n r -> (snd (set_transform limit n r w) = Ok tt <-> built w limit n)).
Proof. exact reached_succeed. Qed.
Print Assumptions c54_setters_succeed.

Theorem c54_add_surface : forall limit es w, history limit es w ->
  forall o s ss bs w', kind_of w o = Some (KObj ss bs) ->
  add_surface limit o s w = (w', Ok tt) -> member_added w o (KObj (ss ++ [s]) bs) w'.
Proof. exact reached_add_surface. Qed.
Print Assumptions c54_add_surface.

Theorem c54_add_boundary : forall limit es w, history limit es w ->
  forall o b ss bs w', kind_of w o = Some (KObj ss bs) ->
  add_boundary limit o b w = (w', Ok tt) -> member_added w o (KObj ss (bs ++ [b])) w'.
Proof. exact reached_add_boundary. Qed.
Print Assumptions c54_add_boundary.

(** [well_placed] fixes the frame of a surface that is reached in one way only. *)
Theorem c54_well_placed_unique : forall w n l T, well_placed w n -> path w n l T ->
  (forall T', path w n l T' -> T' = T) -> placed_by w l T.
Proof. exact well_placed_unique. Qed.
Print Assumptions c54_well_placed_unique.

Example c54_example : forall t1 t2, let w := ex_world t1 t2 in
  history 5 (ex_events t1 t2) w /\ composite w 2 /\ built w 5 2 /\ path w 2 0 (mm4 t2 id4) /\
  placed_array w 0 = Some (A44 (mm4 (mm4 (mm4 id4 t2) id4) (mk4 id3 vzero))).
Proof.
  intros t1 t2 w. split; [apply ex_history|]. destruct (ex_nodes t1 t2) as (_ & _ & K & _).
  split; [unfold composite, w; rewrite K; exact I|]. split; [apply ex_built|]. split; [exact (ex_path t1 t2)|exact (proj1 (ex_frames t1 t2))].
Qed.

(** C55: a nested object that is moved leaves its surfaces where its own transform
    alone puts them, without those above it. *)
Theorem c55_nested_refuted : exists limit es w top n r w', history limit es w /\
  composite w n /\ composite w top /\ built w limit top /\ usable_transform w n r /\
  well_placed w top /\ set_transform limit n r w = (w', Ok tt) /\ well_placed w' n /\ ~ well_placed w' top.
Proof. exact nested_lost. Qed.
Print Assumptions c55_nested_refuted.

(** Calling [transform_children] of the top with the identity repairs it. *)
Theorem c55_repaired : forall limit es w, history limit es w ->
  forall top w', transform_children limit top id4 w = (w', Ok tt) -> well_placed w' top.
Proof. exact reached_repair. Qed.
Print Assumptions c55_repaired.

(** C56: [get_objects] returns the objects of the subassemblies, then the own ones,
    for every assembly without cycles, given recursion depth enough. *)
Theorem c56_get_objects : forall w n l,
  (forall limit, get_objects limit n w = (w, Ok l) -> objects w n l) /\
  (objects w n l -> exists d, forall limit, d <= limit -> get_objects limit n w = (w, Ok l)).
Proof. intros w n l. split; [intros limit; apply get_objects_sound|apply get_objects_complete]. Qed.
Print Assumptions c56_get_objects.

Theorem c56_get_surfaces : forall w n os sss, objects w n os -> Forall2 (surfaces_of w) os sss ->
  exists d, forall limit, d <= limit ->
    get_surfaces limit n w = (w, match os with [] => Err TypeError | _ => Ok (concat sss) end).
Proof. exact get_surfaces_top. Qed.
Print Assumptions c56_get_surfaces.

(** The engine's table: surface [i] of the list belongs to object [k] and is the
    [i - surfs_until k]-th there. *)
Theorem c56_ownership : forall (objs : list obj) (sss : list (list nat)),
  map o_nsurf objs = map (@length nat) sss ->
  length (surf_ownership objs) = length (concat sss) /\
  forall i s, nth_error (concat sss) i = Some s ->
    exists k ss, nth_error (surf_ownership objs) i = Some k /\ nth_error sss k = Some ss /\
      surfs_until objs k <= i /\ nth_error ss (i - surfs_until objs k) = Some s.
Proof. exact ownership_top. Qed.
Print Assumptions c56_ownership.

Example c56_example : forall t1 t2, objects (ex_world t1 t2) 2 [1] /\
  Forall2 (surfaces_of (ex_world t1 t2)) [1] [[0]] /\ map o_nsurf [default_object 1] = map (@length nat) [[0]].
Proof.
  intros t1 t2. destruct (ex_nodes t1 t2) as (_ & K1 & K2 & _). split; [|split; [|reflexivity]].
  - apply (objects_of _ 2 [1] [] []); auto.
  - constructor; [exists []; auto|constructor].
Qed.

(** C57 *)
Theorem c57_add_object : forall limit es w, history limit es w ->
  forall a o tr os ms w', kind_of w a = Some (KAsm os ms) -> usable_opt w o tr ->
  add_object limit a o tr w = (w', Ok tt) ->
  exists t, given w tr t /\ child_added w a o (KAsm (os ++ [o]) ms) t w'.
Proof. exact reached_add_object. Qed.
Print Assumptions c57_add_object.

Theorem c57_add_assembly : forall limit es w, history limit es w ->
  forall a b tr os ms w', kind_of w a = Some (KAsm os ms) -> usable_opt w b tr ->
  add_assembly limit a b tr w = (w', Ok tt) ->
  exists t, given w tr t /\ child_added w a b (KAsm os (ms ++ [b])) t w'.
Proof. exact reached_add_assembly. Qed.
Print Assumptions c57_add_assembly.

Example c57_example : forall t1 t2, let w := ex_world t1 t2 in
  history 5 (ex_events t1 t2) w /\ kind_of w 2 = Some (KAsm [1] []) /\ usable_opt w 1 (Some (Whole 12)) /\
  snd (add_object 5 2 1 (Some (Whole 12)) w) = Ok tt.
Proof.
  intros t1 t2 w. split; [apply ex_history|]. split; [exact (proj1 (proj2 (proj2 (ex_nodes t1 t2))))|]. split; [exact (ex_own t1 t2)|]. vm_compute. reflexivity.
Qed.

(** C58 *)
Theorem c58_global_to_local : forall s points,
  match global_to_local s points with
  | Ok qs => invertible (s_frame s) /\
      Forall2 (fun p q => mv4 (s_frame s) q = hom p /\
                          forall q', mv4 (s_frame s) q' = hom p -> q' = q) points qs
  | Err e => e = LinAlgError /\ ~ invertible (s_frame s)
  end.
Proof. exact global_to_local_top. Qed.
Print Assumptions c58_global_to_local.

Example c58_example : invertible (translate 1 2 3).
Proof.
  exists (translate (-1) (-2) (-3)). cbv -[Rplus Rmult Rminus Ropp IZR]. repeat match goal with |- M4 _ _ _ _ = _ => f_equal | |- V4 _ _ _ _ = _ => f_equal end; ring.
Qed.
