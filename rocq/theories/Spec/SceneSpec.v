(** Objects and assemblies with geometry and optics managers, described by value,
    and what the engine is to see of them. *)
From Coq Require Import Reals List Arith Bool.
From Verif.Base Require Import Py Num Vec.
From Verif.Model Require Import RayBundle Geometry OpticsCallables Engine Objects Surface Assembly Scene.
From Verif.Spec Require Import FrameSpec.
Import ListNotations.

(** A scene some careful program can have made. *)
Definition reached (limit : nat) (sc : scene) : Prop := exists es, history limit es (sc_w sc).
Definition exists_in (sc : scene) (n : nat) : Prop := kind_of (sc_w sc) n <> None.

(** Node [n] is as it was. *)
Definition same_in (sc sc' : scene) (n : nat) : Prop :=
  same_node (sc_w sc) (sc_w sc') n /\ sc_geom sc' n = sc_geom sc n /\ sc_opt sc' n = sc_opt sc n /\
  sc_sided sc' n = sc_sided sc n.

(** ** Descriptions *)

(** A surface with its own transform. *)
Record part : Type := mkPart { p_geom : geom; p_opt : optics; p_own : mat4 }.
(** An object: one-sided or not, its transform, its surfaces. *)
Record odesc : Type := mkO { o_sided : bool; o_tr : mat4; o_parts : list part }.
(** An assembly: its transform, objects, subassemblies. *)
Inductive adesc : Type := mkA (t : mat4) (os : list odesc) (ms : list adesc).

Inductive Forall3 {A C D : Type} (P : A -> C -> D -> Prop) : list A -> list C -> list D -> Prop :=
  | F3_nil : Forall3 P [] [] []
  | F3_cons x y z l m n : P x y z -> Forall3 P l m n -> Forall3 P (x :: l) (y :: m) (z :: n).

Definition is_part (sc : scene) (s : nat) (p : part) : Prop :=
  kind_of (sc_w sc) s = Some KSurf /\ transform_of (sc_w sc) s = Some (p_own p) /\
  sc_geom sc s = p_geom p /\ sc_opt sc s = p_opt p.

(** Node [n] is an object as described; its surfaces are [ss]. *)
Definition is_object (sc : scene) (n : nat) (d : odesc) (ss : list nat) : Prop :=
  kind_of (sc_w sc) n = Some (KObj ss []) /\ transform_of (sc_w sc) n = Some (o_tr d) /\
  sc_sided sc n = o_sided d /\ Forall2 (is_part sc) ss (o_parts d).

(** Node [n] is an assembly as described; its surfaces are [ls], those of the
    subassemblies first. *)
Inductive is_assembly (sc : scene) : nat -> adesc -> list nat -> Prop :=
  | is_asm n t os ms ods mds oss mss :
      kind_of (sc_w sc) n = Some (KAsm os ms) -> transform_of (sc_w sc) n = Some t ->
      Forall3 (is_object sc) os ods oss -> Forall3 (is_assembly sc) ms mds mss ->
      is_assembly sc n (mkA t ods mds) (concat mss ++ concat oss).

(** ** What the engine is to see *)

(** One surface of an object placed by [T]. *)
Definition seen_part (T : mat4) (p : part) : surface :=
  Surface.new_surface (p_geom p) (p_opt p) (mm4 T (p_own p)).
Definition seen_object (d : odesc) : obj :=
  if o_sided d then one_sided_object (length (o_parts d)) else default_object (length (o_parts d)).

(** All objects, those of the subassemblies first. *)
Fixpoint flat_objs (d : adesc) : list odesc :=
  match d with mkA t os ms => concat (map flat_objs ms) ++ os end.

(** Objects and surfaces of an assembly placed by [T]. *)
Fixpoint seen_objects (d : adesc) : list obj :=
  match d with mkA t os ms => concat (map seen_objects ms) ++ map seen_object os end.
Fixpoint seen_surfaces (T : mat4) (d : adesc) : list surface :=
  match d with
  | mkA t os ms =>
      concat (map (seen_surfaces (mm4 T t)) ms) ++
      concat (map (fun o => map (seen_part (mm4 (mm4 T t) (o_tr o))) (o_parts o)) os)
  end.

(** Depth and whether there is anything in it. *)
Fixpoint depth (d : adesc) : nat := match d with mkA _ _ ms => S (fold_right max 0 (map depth ms)) end.
Definition has_objects (d : adesc) : Prop := seen_objects d <> [].

(** The same assembly elsewhere. *)
Definition moved (t : mat4) (d : adesc) : adesc := match d with mkA _ os ms => mkA t os ms end.
