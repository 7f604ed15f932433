(** Programs that make surfaces, objects and assemblies together with their
    geometry and optics managers, as tracer/models/*.py do, and the view the
    tracer engine has of an assembly. *)
From Coq Require Import Reals List Arith Bool.
From Verif.Base Require Import Py Num Vec.
From Verif.Model Require Import RayBundle Geometry OpticsCallables Engine Objects Surface Assembly.
Import ListNotations.
Local Open Scope R_scope.

(** [sc_junk k] is what [N.empty] returns to the constructor of node [k].  Each
    AbsorptionAccountant gets a number of its own. *)
Record scene : Type := mkSc {
  sc_w : world;
  sc_geom : nat -> geom;       (** [_geom] of a surface *)
  sc_opt : nat -> optics;      (** [_opt] of a surface *)
  sc_sided : nat -> bool;      (** objects with a replaced [surfaces_for_next_iteration] *)
  sc_acc : nat;                (** accountants made so far *)
  sc_junk : nat -> mat4 }.

Definition B (A : Type) : Type := scene -> scene * res A.
Definition bret {A : Type} (x : A) : B A := fun sc => (sc, Ok x).
Definition bbind {A C : Type} (m : B A) (f : A -> B C) : B C := fun sc =>
  let '(sc', r) := m sc in
  match r with Ok x => f x sc' | Err e => (sc', Err e) end.
Notation "x <+ m ;+ f" := (bbind m (fun x => f))
  (at level 61, m at next level, right associativity).
Notation "' p <+ m ;+ f" := (bbind m (fun p => f))
  (at level 61, p pattern, m at next level, right associativity).
(** Something that only computes or raises. *)
Definition calc {A : Type} (r : res A) : B A := fun sc => (sc, r).
(** Something that only changes frames. *)
Definition frames {A : Type} (m : M A) : B A := fun sc =>
  let '(w', r) := m (sc_w sc) in
  (mkSc w' (sc_geom sc) (sc_opt sc) (sc_sided sc) (sc_acc sc) (sc_junk sc), r).

(** [l] in turn, with the results. *)
Fixpoint bmap {A C : Type} (f : A -> B C) (l : list A) : B (list C) :=
  match l with
  | [] => bret []
  | x :: r => y <+ f x ;+ ys <+ bmap f r ;+ bret (y :: ys)
  end.

(** An array made by an expression. *)
Definition literal (x : arr) : B ref := frames (new_arr x).

(** surface.py:16-28 *)
Definition make_surface (limit : nat) (g : geom) (o : optics) (loc rot : option ref) : B nat := fun sc =>
  let '(w', r) := Assembly.new_surface limit (sc_junk sc (w_size (sc_w sc))) loc rot (sc_w sc) in
  match r with
  | Ok n => (mkSc w' (upd (sc_geom sc) n g) (upd (sc_opt sc) n o) (sc_sided sc) (sc_acc sc) (sc_junk sc), Ok n)
  | Err e => (mkSc w' (sc_geom sc) (sc_opt sc) (sc_sided sc) (sc_acc sc) (sc_junk sc), Err e)
  end.

(** object.py:15-38; a new object has the methods of its class. *)
Definition make_object (limit : nat) (surfs bounds : list nat) (tr : option ref) : B nat := fun sc =>
  let '(w', r) := new_object limit surfs bounds tr (sc_w sc) in
  match r with
  | Ok n => (mkSc w' (sc_geom sc) (sc_opt sc) (upd (sc_sided sc) n false) (sc_acc sc) (sc_junk sc), Ok n)
  | Err e => (mkSc w' (sc_geom sc) (sc_opt sc) (sc_sided sc) (sc_acc sc) (sc_junk sc), Err e)
  end.

(** [obj.surfaces_for_next_iteration = types.MethodType(...)] *)
Definition make_sided (n : nat) : B unit := fun sc =>
  (mkSc (sc_w sc) (sc_geom sc) (sc_opt sc) (upd (sc_sided sc) n true) (sc_acc sc) (sc_junk sc), Ok tt).

(** assembly.py:17-34 *)
Definition make_assembly (limit : nat) (objs asms : list nat) (loc rot : option ref) : B nat := fun sc =>
  frames (new_assembly limit (sc_junk sc (w_size (sc_w sc))) objs asms loc rot) sc.

(** optics_callables.py:34-49: a new accountant around an optics manager. *)
Definition accountant (o : absorbing) : B optics := fun sc =>
  (mkSc (sc_w sc) (sc_geom sc) (sc_opt sc) (sc_sided sc) (S (sc_acc sc)) (sc_junk sc), Ok (Accountant (sc_acc sc) o)).

Definition place (limit : nat) (n : nat) (r : ref) : B unit := frames (set_transform limit n r).
Definition put_location (limit : nat) (n : nat) (r : ref) : B unit := frames (set_location limit n r).

(** ** The engine's view: tracer_engine.py:108-113 *)

(** A surface as the trace protocol finds it; its global frame is that of
    [_temp_frame] at the time. *)
Definition surface_now (n : nat) : B surface := fun sc =>
  match w_node (sc_w sc) n with
  | Some x =>
      match f_temp (n_fr x) with
      | Some r =>
          match read (sc_w sc) r with
          | A44 m => (sc, Ok (Surface.new_surface (sc_geom sc n) (sc_opt sc n) m))
          | _ => (sc, Err OutOfModel)
          end
      | None => (sc, Err AttributeError)
      end
  | None => (sc, Err NameError)
  end.

(** Its methods, and [len(obj.get_surfaces())]. *)
Definition object_now (limit : nat) (n : nat) : B obj :=
  ss <+ frames (get_surfaces limit n) ;+
  fun sc => (sc, Ok (if sc_sided sc n then one_sided_object (length ss) else default_object (length ss))).

Definition engine_view (limit : nat) (n : nat) : B (list obj * list surface) :=
  ss <+ frames (get_surfaces limit n) ;+
  os <+ frames (get_objects limit n) ;+
  objs <+ bmap (object_now limit) os ;+
  surfs <+ bmap surface_now ss ;+
  bret (objs, surfs).
