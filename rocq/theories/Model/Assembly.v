(** Model of tracer/has_frame.py, tracer/assembly.py, the structural part of
    tracer/object.py, and the frames of tracer/surface.py and
    tracer/boundary_shape.py.

    Arrays have identities, because a frame keeps references to the arrays it is
    given, takes views of them and writes into them.  Objects have identities, and
    may be shared.  The Python lists of children are values.  A call that raises
    keeps the changes made before the exception. *)
From Coq Require Import Reals List Arith Bool.
From Verif.Base Require Import Py Num Vec.
Import ListNotations.

(** The contents of a numpy array of floats: 3 or 4 components, 3x3, 4x4, or a
    shape for which [a[:3,3]] fails. *)
Inductive arr : Type :=
  | A3 (v : vec) | A33 (m : mat3) | A4 (v : vec4) | A44 (m : mat4) | AOther.

(** An array, or the view [a[:3,3]] or [a[:3,:3]] of it. *)
Inductive ref : Type := Whole (a : nat) | Col (a : nat) | Block (a : nat).

(** The attributes [_transform], [_loc], [_rot] and [_temp_frame] (for a
    BoundarySphere, [_temp_loc]). *)
Record frame : Type := mkF { f_tr : ref; f_loc : ref; f_rot : ref; f_temp : option ref }.

(** Surface, BoundarySphere, other boundary shapes, AssembledObject with its
    surfaces and boundaries, Assembly with its objects and subassemblies. *)
Inductive kind : Type :=
  | KSurf | KSphere | KBound
  | KObj (surfs bounds : list nat)
  | KAsm (objs asms : list nat).

Record node : Type := mkN { n_kind : kind; n_fr : frame }.

Record world : Type := mkW {
  w_arr : nat -> arr; w_next : nat;
  w_node : nat -> option node; w_size : nat }.

(** ** Computations that change the world *)

Definition M (A : Type) : Type := world -> world * res A.
Definition ret {A : Type} (x : A) : M A := fun w => (w, Ok x).
Definition raise {A : Type} (e : exn) : M A := fun w => (w, Err e).
Definition mbind {A B : Type} (m : M A) (f : A -> M B) : M B := fun w =>
  let '(w', r) := m w in
  match r with Ok x => f x w' | Err e => (w', Err e) end.
Notation "x <~ m ;~ f" := (mbind m (fun x => f))
  (at level 61, m at next level, right associativity).
Definition mthen {A B : Type} (m : M A) (f : M B) : M B := mbind m (fun _ => f).
Notation "m ~> f" := (mthen m f) (at level 61, right associativity).

Fixpoint each (f : nat -> M unit) (l : list nat) : M unit :=
  match l with
  | [] => ret tt
  | x :: r => f x ~> each f r
  end.

Fixpoint collect {A : Type} (f : nat -> M A) (l : list nat) : M (list A) :=
  match l with
  | [] => ret []
  | x :: r => y <~ f x ;~ ys <~ collect f r ;~ ret (y :: ys)
  end.

Definition upd {A : Type} (f : nat -> A) (k : nat) (v : A) : nat -> A :=
  fun j => if Nat.eqb j k then v else f j.

(** ** Arrays *)

Definition read (w : world) (r : ref) : arr :=
  match r with
  | Whole a => w_arr w a
  | Col a => match w_arr w a with A44 m => A3 (loc_of m) | _ => AOther end
  | Block a => match w_arr w a with A44 m => A33 (rot_of m) | _ => AOther end
  end.

Definition new_arr (x : arr) : M ref := fun w =>
  (mkW (upd (w_arr w) (w_next w) x) (S (w_next w)) (w_node w) (w_size w), Ok (Whole (w_next w))).

Definition put_arr (a : nat) (x : arr) : M unit := fun w =>
  (mkW (upd (w_arr w) a x) (w_next w) (w_node w) (w_size w), Ok tt).

(** [m[:3,3] = v] and [m[:3,:3] = r] *)
Definition with_loc (m : mat4) (v : vec) : mat4 :=
  M4 (V4 (w0 (q0 m)) (w1 (q0 m)) (w2 (q0 m)) (vx v))
     (V4 (w0 (q1 m)) (w1 (q1 m)) (w2 (q1 m)) (vy v))
     (V4 (w0 (q2 m)) (w1 (q2 m)) (w2 (q2 m)) (vz v)) (q3 m).
Definition with_rot (m : mat4) (r : mat3) : mat4 :=
  M4 (V4 (vx (r1 r)) (vy (r1 r)) (vz (r1 r)) (w3 (q0 m)))
     (V4 (vx (r2 r)) (vy (r2 r)) (vz (r2 r)) (w3 (q1 m)))
     (V4 (vx (r3 r)) (vy (r3 r)) (vz (r3 r)) (w3 (q2 m))) (q3 m).

(** Assignment into the array or view [r] of new contents of the same shape.  (Numpy
    repeats contents of some smaller shapes; this is left out.) *)
Definition assign_into (r : ref) (x : arr) : M unit := fun w =>
  match r, x with
  | Whole a, _ =>
      match w_arr w a, x with
      | A3 _, A3 _ | A33 _, A33 _ | A4 _, A4 _ | A44 _, A44 _ => put_arr a x w
      | _, _ => (w, Err OutOfModel)
      end
  | Col a, A3 v =>
      match w_arr w a with A44 m => put_arr a (A44 (with_loc m v)) w | _ => (w, Err IndexError) end
  | Block a, A33 s =>
      match w_arr w a with A44 m => put_arr a (A44 (with_rot m s)) w | _ => (w, Err IndexError) end
  | _, _ => (w, Err OutOfModel)
  end.

(** [self._transform[:3,3] = location], [self._transform[:3,:3] = rotation] *)
Definition put_col (t : ref) (v : vec) : M unit := fun w =>
  match t with
  | Whole a => assign_into (Col a) (A3 v) w
  | _ => (w, Err IndexError)
  end.
Definition put_block (t : ref) (s : mat3) : M unit := fun w =>
  match t with
  | Whole a => assign_into (Block a) (A33 s) w
  | _ => (w, Err IndexError)
  end.

(** ** Nodes *)

Definition get_node (n : nat) : M node := fun w =>
  match w_node w n with Some x => (w, Ok x) | None => (w, Err NameError) end.
Definition put_node (n : nat) (x : node) : M unit := fun w =>
  (mkW (w_arr w) (w_next w) (upd (w_node w) n (Some x)) (w_size w), Ok tt).
Definition new_node (x : node) : M nat := fun w =>
  (mkW (w_arr w) (w_next w) (upd (w_node w) (w_size w) (Some x)) (S (w_size w)), Ok (w_size w)).

Definition put_frame (n : nat) (f : frame -> frame) : M unit :=
  x <~ get_node n ;~ put_node n (mkN (n_kind x) (f (n_fr x))).

(** ** has_frame.py *)

(** has_frame.py:42-47 *)
Definition frame_set_location (n : nat) (r : ref) : M unit := fun w =>
  match read w r with
  | A3 v =>
      (put_frame n (fun f => mkF (f_tr f) r (f_rot f) (f_temp f)) ~>
       x <~ get_node n ;~ put_col (f_tr (n_fr x)) v) w
  | _ => (w, Err ValueError)
  end.

(** has_frame.py:49-54 *)
Definition frame_set_rotation (n : nat) (r : ref) : M unit := fun w =>
  match read w r with
  | A33 s =>
      (put_frame n (fun f => mkF (f_tr f) (f_loc f) r (f_temp f)) ~>
       x <~ get_node n ;~ put_block (f_tr (n_fr x)) s) w
  | _ => (w, Err ValueError)
  end.

(** has_frame.py:56-64.  [_transform] is replaced before the slices are taken. *)
Definition frame_set_transform (n : nat) (r : ref) : M unit :=
  put_frame n (fun f => mkF r (f_loc f) (f_rot f) (f_temp f)) ~>
  (fun w =>
     match r, read w r with
     | Whole a, A44 _ => put_frame n (fun f => mkF (f_tr f) (Col a) (Block a) (f_temp f)) w
     | _, _ => (w, Err IndexError)
     end).

(** has_frame.py:69-74, boundary_shape.py:78-83 *)
Definition transform_frame (n : nat) (t : mat4) : M unit := fun w =>
  (x <~ get_node n ;~
   fun w =>
   match n_kind x with
   | KSphere =>
       match read w (f_loc (n_fr x)) with
       | A3 v =>
           (r <~ new_arr (A4 (mv4 t (hom v))) ;~
            put_frame n (fun f => mkF (f_tr f) (f_loc f) (f_rot f) (Some r))) w
       | _ => (w, Err OutOfModel)
       end
   | _ =>
       match read w (f_tr (n_fr x)) with
       | A44 m =>
           (r <~ new_arr (A44 (mm4 t m)) ;~
            put_frame n (fun f => mkF (f_tr f) (f_loc f) (f_rot f) (Some r))) w
       | _ => (w, Err OutOfModel)
       end
   end) w.

(** ** assembly.py and object.py *)

(** [N.dot(assembly_transform, const_t)] *)
Definition dot_tr (t : mat4) (r : ref) : M mat4 := fun w =>
  match read w r with A44 m => (w, Ok (mm4 t m)) | _ => (w, Err OutOfModel) end.

(** assembly.py:123-133, object.py:61-65.  Surfaces and boundaries have no such
    method.  [limit] is the recursion depth left. *)
Fixpoint transform_children (limit : nat) (n : nat) (t : mat4) : M unit :=
  match limit with
  | O => raise RecursionLimit
  | S limit' =>
      x <~ get_node n ;~
      let const_t := f_tr (n_fr x) in
      match n_kind x with
      | KObj ss bs => each (fun c => p <~ dot_tr t const_t ;~ transform_frame c p) (ss ++ bs)
      | KAsm os ms => each (fun c => p <~ dot_tr t const_t ;~ transform_children limit' c p) (ms ++ os)
      | _ => raise AttributeError
      end
  end.

(** The methods, found through the class of the node: surfaces and boundaries use
    those of HasFrame, objects and assemblies those of assembly.py:95-121. *)
Definition is_leaf (k : kind) : bool :=
  match k with KSurf | KSphere | KBound => true | _ => false end.

Definition then_children (limit : nat) (n : nat) (m : M unit) : M unit :=
  x <~ get_node n ;~
  if is_leaf (n_kind x) then m else m ~> transform_children limit n id4.

Definition set_location (limit : nat) (n : nat) (r : ref) : M unit :=
  then_children limit n (frame_set_location n r).
Definition set_rotation (limit : nat) (n : nat) (r : ref) : M unit :=
  then_children limit n (frame_set_rotation n r).
Definition set_transform (limit : nat) (n : nat) (r : ref) : M unit :=
  then_children limit n (frame_set_transform n r).

(** An optional argument with a newly made default. *)
Definition default (r : option ref) (x : arr) : M ref :=
  match r with Some r => ret r | None => new_arr x end.

(** Another value for the kind of a node. *)
Definition put_kind (n : nat) (k : kind) : M unit :=
  x <~ get_node n ;~ put_node n (mkN k (n_fr x)).

(** assembly.py:66-79 *)
Definition add_object (limit : nat) (a o : nat) (tr : option ref) : M unit :=
  tr <~ default tr (A44 id4) ;~
  x <~ get_node a ;~
  match n_kind x with
  | KAsm os ms =>
      put_kind a (KAsm (os ++ [o]) ms) ~>
      set_transform limit o tr ~> transform_children limit a id4
  | _ => raise AttributeError
  end.

(** assembly.py:81-93 *)
Definition add_assembly (limit : nat) (a b : nat) (tr : option ref) : M unit :=
  tr <~ default tr (A44 id4) ;~
  x <~ get_node a ;~
  match n_kind x with
  | KAsm os ms =>
      put_kind a (KAsm os (ms ++ [b])) ~>
      set_transform limit b tr ~> transform_children limit a id4
  | _ => raise AttributeError
  end.

(** object.py:43-48 *)
Definition add_surface (limit : nat) (o s : nat) : M unit :=
  x <~ get_node o ;~
  match n_kind x with
  | KObj ss bs => put_kind o (KObj (ss ++ [s]) bs) ~> transform_children limit o id4
  | _ => raise AttributeError
  end.

(** object.py:50-56 *)
Definition add_boundary (limit : nat) (o b : nat) : M unit :=
  x <~ get_node o ;~
  match n_kind x with
  | KObj ss bs => put_kind o (KObj ss (bs ++ [b])) ~> transform_children limit o id4
  | _ => raise AttributeError
  end.

(** A constructor that raises leaves no object behind. *)
Definition or_forget (n : nat) (m : M unit) : M nat := fun w =>
  let '(w', r) := m w in
  match r with
  | Ok _ => (w', Ok n)
  | Err e => (mkW (w_arr w') (w_next w') (upd (w_node w') n None) (w_size w'), Err e)
  end.

(** has_frame.py:23-34.  [empty] is what [N.empty] returns; [set_location] and
    [set_rotation] are those of the class being made, so an assembly transforms
    its children twice, the first time with an unset rotation.  [_loc] and [_rot]
    are not read before they are set. *)
Definition init_frame (limit : nat) (k : kind) (empty : mat4) (loc rot : option ref) : M nat :=
  l <~ default loc (A3 vzero) ;~
  r <~ default rot (A33 id3) ;~
  t <~ new_arr (A44 (M4 (q0 empty) (q1 empty) (q2 empty) (V4 0 0 0 1))) ;~
  n <~ new_node (mkN k (mkF t l r None)) ;~
  or_forget n
    (set_location limit n l ~> set_rotation limit n r ~>
     put_frame n (fun f => mkF (f_tr f) (f_loc f) (f_rot f)
                               (Some (match k with KSphere => f_loc f | _ => f_tr f end)))).

(** surface.py:16-28 *)
Definition new_surface (limit : nat) (empty : mat4) (loc rot : option ref) : M nat :=
  init_frame limit KSurf empty loc rot.
(** boundary_shape.py:56-68 *)
Definition new_sphere (limit : nat) (empty : mat4) (loc : option ref) : M nat :=
  init_frame limit KSphere empty loc None.
(** boundary_shape.py:15-22, 104-110 (a cylinder's rotation is not passed on) *)
Definition new_boundary (limit : nat) (empty : mat4) (loc rot : option ref) : M nat :=
  init_frame limit KBound empty loc rot.
(** assembly.py:17-34 *)
Definition new_assembly (limit : nat) (empty : mat4) (objs asms : list nat) (loc rot : option ref) : M nat :=
  init_frame limit (KAsm objs asms) empty loc rot.

(** object.py:15-38: the frame is made by [set_transform] alone, there is no
    [_temp_frame]. *)
Definition new_object (limit : nat) (surfs bounds : list nat) (tr : option ref) : M nat :=
  t <~ default tr (A44 id4) ;~
  n <~ new_node (mkN (KObj surfs bounds) (mkF t t t None)) ;~
  or_forget n (set_transform limit n t).

(** [reduce(operator.add, l)] *)
Definition reduce_add {A : Type} (l : list (list A)) : res (list A) :=
  match l with [] => Err TypeError | _ => Ok (concat l) end.
Definition lift {A : Type} (r : res A) : M A := fun w => (w, r).

(** assembly.py:46-52; AssembledObject inherits it but has no [_assemblies]. *)
Fixpoint get_objects (limit : nat) (n : nat) : M (list nat) :=
  match limit with
  | O => raise RecursionLimit
  | S limit' =>
      x <~ get_node n ;~
      match n_kind x with
      | KAsm os ms =>
          l <~ collect (get_objects limit') ms ;~
          lift (reduce_add (l ++ [os]))
      | _ => raise AttributeError
      end
  end.

(** assembly.py:54-64, object.py:40-41 *)
Fixpoint get_surfaces (limit : nat) (n : nat) : M (list nat) :=
  match limit with
  | O => raise RecursionLimit
  | S limit' =>
      x <~ get_node n ;~
      match n_kind x with
      | KObj ss _ => ret ss
      | KAsm _ _ =>
          os <~ get_objects limit' n ;~
          l <~ collect (get_surfaces limit') os ;~
          lift (reduce_add l)
      | _ => raise AttributeError
      end
  end.

(** ** What a program using these classes can do *)

Inductive event : Type :=
  | New (x : arr)                       (** make an array *)
  | Write (r : ref) (x : arr)           (** assign into an array *)
  | MkSurface (empty : mat4) (loc rot : option ref)
  | MkSphere (empty : mat4) (loc : option ref)
  | MkBoundary (empty : mat4) (loc rot : option ref)
  | MkObject (surfs bounds : list nat) (tr : option ref)
  | MkAssembly (empty : mat4) (objs asms : list nat) (loc rot : option ref)
  | SetLocation (n : nat) (r : ref)
  | SetRotation (n : nat) (r : ref)
  | SetTransform (n : nat) (r : ref)
  | AddSurface (o s : nat)
  | AddBoundary (o b : nat)
  | AddObject (a o : nat) (tr : option ref)
  | AddAssembly (a b : nat) (tr : option ref)
  | TransformChildren (n : nat) (t : mat4).

Definition ignore {A : Type} (m : M A) : M unit := m ~> ret tt.

Definition perform (limit : nat) (e : event) : M unit :=
  match e with
  | New x => ignore (new_arr x)
  | Write r x => assign_into r x
  | MkSurface em l r => ignore (new_surface limit em l r)
  | MkSphere em l => ignore (new_sphere limit em l)
  | MkBoundary em l r => ignore (new_boundary limit em l r)
  | MkObject ss bs t => ignore (new_object limit ss bs t)
  | MkAssembly em os ms l r => ignore (new_assembly limit em os ms l r)
  | SetLocation n r => set_location limit n r
  | SetRotation n r => set_rotation limit n r
  | SetTransform n r => set_transform limit n r
  | AddSurface o s => add_surface limit o s
  | AddBoundary o b => add_boundary limit o b
  | AddObject a o t => add_object limit a o t
  | AddAssembly a b t => add_assembly limit a b t
  | TransformChildren n t => transform_children limit n t
  end.

Definition nothing : world := mkW (fun _ => AOther) 0 (fun _ => None) 0.
