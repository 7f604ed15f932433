(** What the tree of an assembly should show, and what naming its items should do. *)
From Coq Require Import String List Arith Bool DecimalString.
From Verif.Base Require Import Py.
From Verif.Model Require Import AssemblyTree.
Import ListNotations.
Local Open Scope string_scope.

(** Captions and what is under them, with the object each stands for. *)
Inductive picture : Type := Pic (caption : string) (who : option nat) (under : list picture).
Fixpoint picture_of (it : item) : picture := match it with Item _ c x kids => Pic c x (map picture_of kids) end.

(** The right picture, given the captions of the objects. *)
Definition object_picture (cap : nat -> string) (o : nat * list nat) : picture :=
  Pic (cap (fst o)) (Some (fst o)) (map (fun s => Pic (cap s) (Some s) []) (snd o)).
Fixpoint parts_picture (cap : nat -> string) (p : parts) : list picture :=
  match p with
  | Parts subs objs =>
      ((match subs with [] => [] | _ =>
         [Pic "Subassemblies" None (map (fun q => Pic (cap (fst q)) (Some (fst q)) (parts_picture cap (snd q))) subs)] end) ++
       (match objs with [] => [] | _ => [Pic "Optical objects" None (map (object_picture cap) objs)] end))%list
  end.
Definition tree_picture (cap : nat -> string) (x : nat) (p : parts) : picture := Pic "Top assembly" (Some x) (parts_picture cap p).

(** The parts below the top with the captions their position would give them, in the
    order of the listing with objects before subassemblies. *)
Definition positioned {A : Type} (kind : string) (l : list A) : list (A * string) :=
  map (fun q => (snd q, kind ++ " " ++ NilEmpty.string_of_uint (Nat.to_uint (fst q)))) (combine (seq 0 (length l)) l).
Fixpoint members (p : parts) : list (nat * string) :=
  match p with
  | Parts subs objs =>
      (flat_map (fun q => (fst (fst q), snd q) :: positioned "Surface" (snd (fst q))) (positioned "Object" objs) ++
       concat (map (fun q => (fst (fst q), snd q) :: snd (fst q)) (positioned "Assembly" (map (fun s => (fst s, members (snd s))) subs))))%list
  end.

(** The caption of an object, if it has one. *)
Definition caption (t : tags) (x : nat) : option string := match t x with None => None | Some d => lookup "caption" d end.
(** [c] is the first caption that [l] gives to [x]. *)
Definition first_for (l : list (nat * string)) (x : nat) (c : string) : Prop :=
  exists l1 l2, l = (l1 ++ (x, c) :: l2)%list /\ ~ In x (map fst l1).

(** The other tags are the same. *)
Definition other_tags_same (t t' : tags) : Prop :=
  forall x name, name <> "caption" ->
    match t' x with None => None | Some d => lookup name d end = match t x with None => None | Some d => lookup name d end.

(** Captions after a listing: old ones are kept, members without one get one by the
    first position at which they are listed, other objects get none. *)
Definition captioned (t t' : tags) (p : parts) : Prop :=
  (forall x c, caption t x = Some c -> caption t' x = Some c) /\
  (forall x c, caption t x = None -> first_for (members p) x c -> caption t' x = Some c) /\
  (forall x, caption t x = None -> ~ In x (map fst (members p)) -> caption t' x = None) /\
  other_tags_same t t'.

(** What may happen to a widget: assemblies are listed, items renamed (by their number),
    tags set elsewhere. *)
Inductive used : widget -> Prop :=
  | u_new t : used (new_widget t)
  | u_show x p w : used w -> used (show_tree x p w)
  | u_rename i text w w' : used w -> rename i text w = Ok w' -> used w'
  | u_tag x name v w : used w -> used (mkWidget (set_tag (wg_tags w) x name v) (wg_top w) (wg_connected w) (wg_made w)).

Definition in_tree (w : widget) (it : item) : Prop := exists top, wg_top w = Some top /\ In it (all_items top).

(** A tree with the text of one item changed. *)
Inductive retexted (i : nat) (text : string) : item -> item -> Prop :=
  | rt j c x kids kids' : Forall2 (retexted i text) kids kids' ->
      retexted i text (Item j c x kids) (Item j (if Nat.eq_dec j i then text else c) x kids').
