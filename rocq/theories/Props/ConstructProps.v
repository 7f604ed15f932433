(** C74, C75: constructors put everything in its place; moving a surface itself. *)
From Coq Require Import Reals List Arith Bool Lia Lra.
From Verif.Base Require Import Py Num Vec.
From Verif.Model Require Import Spatial Assembly.
From Verif.Spec Require Import FrameSpec.
From Verif.Proof Require Import FrameExample ConstructProof ConstructTop.
Import ListNotations.

(** C74: a new surface or boundary is where its location and rotation put it. *)
Theorem c74_surface : forall limit es w, history limit es w -> forall em loc rot v s,
  plain_opt w loc -> plain_opt w rot -> given_location w loc v -> given_rotation w rot s ->
  exists w' n, new_surface limit em loc rot w = (w', Ok n) /\ created w n KSurf (mk4 s v) w' /\ others_stay w n w' /\
    global_frame w' n = Some (mk4 s v).
Proof. exact made_surface. Qed.
Print Assumptions c74_surface.

Theorem c74_boundary : forall limit es w, history limit es w -> forall em loc rot v s,
  plain_opt w loc -> plain_opt w rot -> given_location w loc v -> given_rotation w rot s ->
  exists w' n, new_boundary limit em loc rot w = (w', Ok n) /\ created w n KBound (mk4 s v) w' /\ others_stay w n w' /\
    global_frame w' n = Some (mk4 s v).
Proof. exact made_boundary. Qed.
Print Assumptions c74_boundary.

Theorem c74_sphere : forall limit es w, history limit es w -> forall em loc v,
  plain_opt w loc -> given_location w loc v ->
  exists w' n, new_sphere limit em loc w = (w', Ok n) /\ created w n KSphere (mk4 id3 v) w' /\ others_stay w n w' /\
    global_centre w' n = Some v.
Proof. exact made_sphere. Qed.
Print Assumptions c74_sphere.

(** A new object places its surfaces and boundaries. *)
Theorem c74_object : forall limit es w, history limit es w -> forall ss bs tr t,
  usable_opt w (w_size w) tr -> given w tr t -> Forall (fun l => kind_of w l <> None) (ss ++ bs) -> 0 < limit ->
  exists w' n, new_object limit ss bs tr w = (w', Ok n) /\ created w n (KObj ss bs) t w' /\ well_placed w' n /\
    forall l, l <> n -> ~ In l (ss ++ bs) -> placed_array w' l = placed_array w l.
Proof. exact made_object. Qed.
Print Assumptions c74_object.

(** A new assembly places everything below it; what [N.empty] returned ([em]) does
    not matter. *)
Theorem c74_assembly : forall limit es w, history limit es w -> forall em os ms loc rot v s d,
  plain_opt w loc -> plain_opt w rot -> given_location w loc v -> given_rotation w rot s ->
  Forall (built w d) (os ++ ms) -> d < limit ->
  exists w' n, new_assembly limit em os ms loc rot w = (w', Ok n) /\ created w n (KAsm os ms) (mk4 s v) w' /\ well_placed w' n /\
    forall l, l <> n -> ~ (exists T, path w' n l T) -> placed_array w' l = placed_array w l.
Proof. exact made_assembly. Qed.
Print Assumptions c74_assembly.

(** Around the assembly of [c54_example], and a surface with a given location. *)
Example c74_example : forall t1 t2, let w := ex_world t1 t2 in
  history 5 (ex_events t1 t2) w /\ Forall (built w 4) ([] ++ [2]) /\ 4 < 5 /\
  Forall (fun l => kind_of w l <> None) ([0] ++ []) /\ usable_opt w (w_size w) (Some (Whole 12)) /\ given w (Some (Whole 12)) t1.
Proof.
  intros t1 t2 w. destruct (ex_nodes t1 t2) as (K0 & K1 & K2 & _). fold w in K0, K1, K2. split; [apply ex_history|]. split.
  - constructor; [|constructor]. eapply built_asm; [exact K2|]. constructor; [|constructor].
    eapply built_obj; [exact K1|]. constructor; [rewrite K0; discriminate|constructor].
  - split; [lia|]. split; [constructor; [rewrite K0; discriminate|constructor]|]. split; [|reflexivity].
    exists 12, t1. split; [reflexivity|]. split; [lazy; lia|]. split; [reflexivity|].
    intros [|[|[|?]]] x ? E; lazy in E; try discriminate E; injection E as <-; let T := fresh in lazy; intros T; discriminate T.
Qed.
Example c74_location_example : let w := run 5 [New (A3 (V3 1 2 3)); New (A33 id3)] in
  history 5 [New (A3 (V3 1 2 3)); New (A33 id3)] w /\ plain_opt w (Some (Whole 0)) /\ plain_opt w (Some (Whole 1)) /\
  given_location w (Some (Whole 0)) (V3 1 2 3) /\ given_rotation w (Some (Whole 1)) id3.
Proof.
  intros w. split; [apply careful_history; cbn; auto|]. split; [exists 0; split; [reflexivity|lazy; lia]|].
  split; [exists 1; split; [reflexivity|lazy; lia]|]. split; reflexivity.
Qed.

(** C75: [set_transform] on a surface or boundary itself never changes the frame
    that tracing uses. *)
Theorem c75_set_transform : forall limit es w, history limit es w -> forall n r, leaf w n -> usable_transform w n r ->
  exists w' t, set_transform limit n r w = (w', Ok tt) /\ read w r = A44 t /\ transform_of w' n = Some t /\
    forall l, placed_array w' l = placed_array w l.
Proof. exact leaf_set_transform. Qed.
Print Assumptions c75_set_transform.

Theorem c75_set_transform_refuted : exists limit es w n r w', history limit es w /\ kind_of w n = Some KSurf /\
  traced_by_transform w n /\ usable_transform w n r /\ set_transform limit n r w = (w', Ok tt) /\
  transform_of w' n <> global_frame w' n.
Proof. exact leaf_example. Qed.
Print Assumptions c75_set_transform_refuted.

(** [set_location] and [set_rotation] do, but only until an object or assembly has placed it. *)
Theorem c75_set_location : forall limit es w, history limit es w -> forall n b v, kind_of w n = Some KSurf -> sole w n ->
  b < w_next w -> w_arr w b = A3 v ->
  exists w' m, set_location limit n (Whole b) w = (w', Ok tt) /\ transform_of w n = Some m /\
    transform_of w' n = Some (with_loc m v) /\
    (traced_by_transform w n -> traced_by_transform w' n /\ global_frame w' n = Some (with_loc m v)) /\
    (apart w n n -> placed_array w' n = placed_array w n).
Proof. exact leaf_set_location. Qed.
Print Assumptions c75_set_location.

Theorem c75_set_rotation : forall limit es w, history limit es w -> forall n b v, kind_of w n = Some KSurf -> sole w n ->
  b < w_next w -> w_arr w b = A33 v ->
  exists w' m, set_rotation limit n (Whole b) w = (w', Ok tt) /\ transform_of w n = Some m /\
    transform_of w' n = Some (with_rot m v) /\
    (traced_by_transform w n -> traced_by_transform w' n /\ global_frame w' n = Some (with_rot m v)) /\
    (apart w n n -> placed_array w' n = placed_array w n).
Proof. exact leaf_set_rotation. Qed.
Print Assumptions c75_set_rotation.

Theorem c75_new_surface : forall limit es w, history limit es w -> forall em loc rot v s,
  plain_opt w loc -> plain_opt w rot -> given_location w loc v -> given_rotation w rot s ->
  forall w' n, new_surface limit em loc rot w = (w', Ok n) -> traced_by_transform w' n.
Proof. exact made_surface_traced. Qed.
Print Assumptions c75_new_surface.

Example c75_example : let es := [MkSurface id4 None None; New (A3 (V3 1 2 3))] in let w := run 5 es in
  history 5 es w /\ kind_of w 0 = Some KSurf /\ sole w 0 /\ 3 < w_next w /\ w_arr w 3 = A3 (V3 1 2 3) /\ traced_by_transform w 0.
Proof.
  intros es w. split; [apply careful_history; cbn; auto|]. split; [reflexivity|]. split.
  - intros [|n] x x' N E E'; [lia|]. lazy in E'. destruct n; discriminate E'.
  - split; [lazy; lia|]. split; [reflexivity|]. eexists. split; reflexivity.
Qed.
