(** Frames and assemblies as their users see them. *)
From Coq Require Import Reals List Arith Bool.
From Verif.Base Require Import Py Num Vec.
From Verif.Model Require Import Assembly.
Import ListNotations.

(** ** What can be observed *)

Definition kind_of (w : world) (n : nat) : option kind :=
  match w_node w n with Some x => Some (n_kind x) | None => None end.
(** [get_transform()], [get_location()], [get_rotation()]; [None] for a missing
    node or an array of another shape. *)
Definition transform_of (w : world) (n : nat) : option mat4 :=
  match w_node w n with
  | Some x => match read w (f_tr (n_fr x)) with A44 m => Some m | _ => None end
  | None => None
  end.
Definition location_of (w : world) (n : nat) : option vec :=
  match w_node w n with
  | Some x => match read w (f_loc (n_fr x)) with A3 v => Some v | _ => None end
  | None => None
  end.
Definition rotation_of (w : world) (n : nat) : option mat3 :=
  match w_node w n with
  | Some x => match read w (f_rot (n_fr x)) with A33 r => Some r | _ => None end
  | None => None
  end.
(** The frame a surface or boundary uses when tracing ([_temp_frame]); for a
    sphere, its centre in global coordinates ([_temp_loc]). *)
Definition placed_array (w : world) (n : nat) : option arr :=
  match w_node w n with
  | Some x => match f_temp (n_fr x) with Some r => Some (read w r) | None => None end
  | None => None
  end.
Definition global_frame (w : world) (n : nat) : option mat4 :=
  match placed_array w n with Some (A44 m) => Some m | _ => None end.
Definition global_centre (w : world) (n : nat) : option vec :=
  match placed_array w n with
  | Some (A4 v) => Some (v4_3 v) | Some (A3 v) => Some v | _ => None
  end.

(** Location and rotation agree with the transform. *)
Definition synchronised (w : world) (n : nat) : Prop :=
  exists m, transform_of w n = Some m /\
    location_of w n = Some (loc_of m) /\ rotation_of w n = Some (rot_of m).
Definition in_sync (w : world) : Prop :=
  forall n, kind_of w n <> None -> synchronised w n.

(** Same transform, location, rotation and kind. *)
Definition same_node (w w' : world) (n : nat) : Prop :=
  kind_of w' n = kind_of w n /\ transform_of w' n = transform_of w n /\
  location_of w' n = location_of w n /\ rotation_of w' n = rotation_of w n.

(** ** Careful programs *)

Definition base (r : ref) : nat := match r with Whole a | Col a | Block a => a end.
(** An existing array, and not a view of one. *)
Definition plain (w : world) (r : ref) : Prop := exists b, r = Whole b /\ b < w_next w.
Definition plain_opt (w : world) (r : option ref) : Prop :=
  match r with Some r => plain w r | None => True end.
(** Location and rotation are views of the transform, as [set_transform] makes
    them. *)
Definition views (f : frame) : Prop :=
  exists a, f_tr f = Whole a /\ f_loc f = Col a /\ f_rot f = Block a.
(** No other node has the transform of [n]. *)
Definition sole (w : world) (n : nat) : Prop :=
  forall n' x x', n' <> n -> w_node w n = Some x -> w_node w n' = Some x' ->
    f_tr (n_fr x') <> f_tr (n_fr x).
(** An existing 4x4 array; other nodes that have it as their transform got it by
    [set_transform]. *)
Definition usable_transform (w : world) (n : nat) (r : ref) : Prop :=
  exists b m, r = Whole b /\ b < w_next w /\ w_arr w b = A44 m /\
    forall n' x, n' <> n -> w_node w n' = Some x -> f_tr (n_fr x) = Whole b -> views (n_fr x).
Definition usable_opt (w : world) (n : nat) (r : option ref) : Prop :=
  match r with Some r => usable_transform w n r | None => True end.
(** No node refers to the array. *)
Definition unused (w : world) (a : nat) : Prop :=
  forall n x, w_node w n = Some x ->
    base (f_tr (n_fr x)) <> a /\ base (f_loc (n_fr x)) <> a /\ base (f_rot (n_fr x)) <> a.

(** A call by a program that does not write into arrays it has given away, gives
    nobody views, does not set location or rotation of a node that shares its
    transform with another one, and uses 4x4 arrays as transforms.  Arrays of
    wrong shape for a location or rotation are allowed. *)
Definition careful (w : world) (e : event) : Prop :=
  match e with
  | New _ => True
  | Write r _ => base r < w_next w /\ unused w (base r)
  | MkSurface _ l r | MkBoundary _ l r | MkAssembly _ _ _ l r => plain_opt w l /\ plain_opt w r
  | MkSphere _ l => plain_opt w l
  | MkObject _ _ t => usable_opt w (w_size w) t
  | SetLocation n r | SetRotation n r => plain w r /\ sole w n
  | SetTransform n r => usable_transform w n r
  | AddObject _ o t | AddAssembly _ o t => usable_opt w o t
  | AddSurface _ _ | AddBoundary _ _ | TransformChildren _ _ => True
  end.

(** A history of calls; those that raise are caught. *)
Inductive history (limit : nat) : list event -> world -> Prop :=
  | h_start : history limit [] nothing
  | h_call es w e : history limit es w -> careful w e ->
      history limit (es ++ [e]) (fst (perform limit e w)).

(** ** Assemblies *)

(** [l] is a surface or boundary below [n], and [T] the product of the transforms
    from [n] down to the object that holds [l]. *)
Inductive path (w : world) : nat -> nat -> mat4 -> Prop :=
  | path_obj n l ss bs T : kind_of w n = Some (KObj ss bs) -> In l (ss ++ bs) ->
      transform_of w n = Some T -> path w n l T
  | path_asm n c l os ms T T' : kind_of w n = Some (KAsm os ms) -> In c (os ++ ms) ->
      transform_of w n = Some T -> path w c l T' -> path w n l (mm4 T T').

(** In [w'], [l] is placed by [P] after its own transform. *)
Definition placed_by (w' : world) (l : nat) (P : mat4) : Prop :=
  match kind_of w' l with
  | Some KSphere => exists c, location_of w' l = Some c /\ placed_array w' l = Some (A4 (mv4 P (hom c)))
  | Some _ => exists m, transform_of w' l = Some m /\ placed_array w' l = Some (A44 (mm4 P m))
  | None => False
  end.

(** Assemblies of depth at most [d] with no missing parts. *)
Inductive built (w : world) : nat -> nat -> Prop :=
  | built_obj d n ss bs : kind_of w n = Some (KObj ss bs) ->
      Forall (fun l => kind_of w l <> None) (ss ++ bs) -> built w (S d) n
  | built_asm d n os ms : kind_of w n = Some (KAsm os ms) ->
      Forall (built w d) (os ++ ms) -> built w (S d) n.

(** All surfaces and boundaries below [n] are where the transforms on the way from
    [n] put them. *)
Definition well_placed (w : world) (n : nat) : Prop :=
  forall l, (exists T, path w n l T) -> exists T, path w n l T /\ placed_by w l T.

(** The placement of [l] is not kept in the array that is the transform of [n]. *)
Definition apart (w : world) (n l : nat) : Prop :=
  forall x y r, w_node w n = Some x -> w_node w l = Some y ->
    f_temp (n_fr y) = Some r -> base r <> base (f_tr (n_fr x)).

(** Objects and assemblies. *)
Definition composite (w : world) (n : nat) : Prop :=
  match kind_of w n with Some (KObj _ _) | Some (KAsm _ _) => True | _ => False end.

(** The transform given, or the identity. *)
Definition given (w : world) (tr : option ref) (t : mat4) : Prop :=
  match tr with Some r => read w r = A44 t | None => t = id4 end.

(** The location or rotation given to a constructor, or the default. *)
Definition given_location (w : world) (r : option ref) (v : vec) : Prop :=
  match r with Some r => read w r = A3 v | None => v = vzero end.
Definition given_rotation (w : world) (r : option ref) (s : mat3) : Prop :=
  match r with Some r => read w r = A33 s | None => s = id3 end.

(** Same transform, location and rotation. *)
Definition same_frame (w w' : world) (n : nat) : Prop :=
  transform_of w' n = transform_of w n /\
  location_of w' n = location_of w n /\ rotation_of w' n = rotation_of w n.

(** Node [n] got a transform [m'] related to its old one [m] by [f]; no kind and no
    other node changed, and everything is still in sync. *)
Definition sets (w : world) (n : nat) (f : mat4 -> mat4 -> Prop) (w' : world) : Prop :=
  in_sync w' /\ kind_of w' n = kind_of w n /\
  (exists m m', transform_of w n = Some m /\ transform_of w' n = Some m' /\ f m m') /\
  forall k, k <> n -> same_node w w' k.
Definition moved_to (v : vec) (m m' : mat4) : Prop :=
  loc_of m' = v /\ rot_of m' = rot_of m /\ q3 m' = q3 m.
Definition turned_to (s : mat3) (m m' : mat4) : Prop :=
  loc_of m' = loc_of m /\ rot_of m' = s /\ q3 m' = q3 m.

(** [a] got the kind [k], its new child [c] the transform [t], and everything below
    [a] is in its place; nothing else changed. *)
Definition child_added (w : world) (a c : nat) (k : kind) (t : mat4) (w' : world) : Prop :=
  kind_of w' a = Some k /\ (forall j, j <> a -> kind_of w' j = kind_of w j) /\
  transform_of w' c = Some t /\ (forall j, j <> c -> same_frame w w' j) /\
  well_placed w' a /\
  (forall l, ~ (exists T, path w' a l T) -> placed_array w' l = placed_array w l).

(** [o] got the kind [k] and everything in it is in its place; nothing else changed. *)
Definition member_added (w : world) (o : nat) (k : kind) (w' : world) : Prop :=
  kind_of w' o = Some k /\ (forall j, j <> o -> kind_of w' j = kind_of w j) /\
  (forall j, same_frame w w' j) /\
  well_placed w' o /\
  (forall l, ~ (exists T, path w' o l T) -> placed_array w' l = placed_array w l).

(** The objects below an assembly: those of the subassemblies first. *)
Inductive objects (w : world) : nat -> list nat -> Prop :=
  | objects_of n os ms ls : kind_of w n = Some (KAsm os ms) ->
      Forall2 (objects w) ms ls -> objects w n (concat ls ++ os).

Definition surfaces_of (w : world) (o : nat) (ss : list nat) : Prop :=
  exists bs, kind_of w o = Some (KObj ss bs).

(** A 4x4 matrix with a left inverse. *)
Definition invertible (m : mat4) : Prop := exists g, mm4 g m = id4.

(** A call that started in [w] made the node [n] of kind [k] with transform [m] and
    changed the transform, location, rotation and kind of no other. *)
Definition created (w : world) (n : nat) (k : kind) (m : mat4) (w' : world) : Prop :=
  kind_of w n = None /\ kind_of w' n = Some k /\ transform_of w' n = Some m /\ in_sync w' /\
  forall j, j <> n -> same_node w w' j.
(** Nor did it move any other surface or boundary. *)
Definition others_stay (w : world) (n : nat) (w' : world) : Prop :=
  forall l, l <> n -> placed_array w' l = placed_array w l.
(** Tracing uses the array that is the transform of [n] (true of a surface until an
    object or assembly places it). *)
Definition traced_by_transform (w : world) (n : nat) : Prop :=
  exists x, w_node w n = Some x /\ f_temp (n_fr x) = Some (f_tr (n_fr x)).
(** Surfaces and boundaries. *)
Definition leaf (w : world) (n : nat) : Prop :=
  kind_of w n = Some KSurf \/ kind_of w n = Some KSphere \/ kind_of w n = Some KBound.
