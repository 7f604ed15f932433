(** Model of tracer/qt/assembly_tree.py: the tree widget that lists the parts of an
    assembly and lets the user name them. *)
From Coq Require Import String List Arith Bool DecimalString.
From Verif.Base Require Import Py.
Import ListNotations.
Local Open Scope string_scope.

(** An assembly as the widget sees it: its subassemblies and local objects, in order,
    the objects with their surfaces.  Numbers tell which Python objects these are; the
    same one may occur several times. *)
Inductive parts : Type := Parts (subs : list (nat * parts)) (objs : list (nat * list nat)).

(** The attribute [_tree_tags] of each object: absent, or a dictionary. *)
Definition dict := list (string * string).
Definition tags := nat -> option dict.

Fixpoint lookup (k : string) (d : dict) : option string :=
  match d with
  | [] => None
  | (x, y) :: r => if String.eqb x k then Some y else lookup k r
  end.
Fixpoint store (k v : string) (d : dict) : dict :=
  match d with
  | [] => [(k, v)]
  | (x, y) :: r => if String.eqb x k then (x, v) :: r else (x, y) :: store k v r
  end.
Definition set_at (t : tags) (x : nat) (d : dict) : tags := fun i => if Nat.eqb i x then Some d else t i.

(** assembly_tree.py:126-137 *)
Definition get_tag (t : tags) (x : nat) (name : string) : option string :=
  match t x with None => None | Some d => lookup name d end.

(** assembly_tree.py:139-151 *)
Definition set_tag (t : tags) (x : nat) (name value : string) : tags :=
  match t x with None => set_at t x (store name value []) | Some d => set_at t x (store name value d) end.

(** An item of the tree: which one, its text, the object it stands for, its children. *)
Inductive item : Type := Item (id : nat) (text : string) (who : option nat) (kids : list item).

(** The widget: the top item, the connections of the signal [itemChanged] with the
    [update_caption] of items (and their objects), and the number of items made. *)
Record widget : Type := mkWidget {
  wg_tags : tags;
  wg_top : option item;
  wg_connected : list (nat * nat);
  wg_made : nat }.

(** While the tree is filled. *)
Record filling : Type := mkF { f_tags : tags; f_connected : list (nat * nat); f_made : nat }.

(** A category item (assembly_tree.py:72, 77). *)
Definition category (s : filling) : nat * filling :=
  (f_made s, mkF (f_tags s) (f_connected s) (S (f_made s))).

(** assembly_tree.py:10-17 and the connection of the signal (52, 89, 108, 122) *)
Definition new_item (x : nat) (s : filling) : nat * filling :=
  let t := match f_tags s x with None => set_at (f_tags s) x [] | Some _ => f_tags s end in
  (f_made s, mkF t (f_connected s ++ [(f_made s, x)])%list (S (f_made s))).

Definition number (n : nat) : string := NilEmpty.string_of_uint (Nat.to_uint n).

(** assembly_tree.py:82-85, 101-104, 115-118 *)
Definition caption_for (x : nat) (kind : string) (n : nat) (s : filling) : string * filling :=
  match get_tag (f_tags s) x "caption" with
  | Some c => (c, s)
  | None => let c := kind ++ " " ++ number n in (c, mkF (set_tag (f_tags s) x "caption" c) (f_connected s) (f_made s))
  end.

(** assembly_tree.py:113-124 *)
Fixpoint add_surfaces (six : nat) (surfs : list nat) (s : filling) : list item * filling :=
  match surfs with
  | [] => ([], s)
  | x :: r =>
      let '(c, s) := caption_for x "Surface" six s in
      let '(i, s) := new_item x s in
      let '(rest, s) := add_surfaces (S six) r s in
      (Item i c (Some x) [] :: rest, s)
  end.

(** assembly_tree.py:94-124 *)
Fixpoint add_objects (oix : nat) (objs : list (nat * list nat)) (s : filling) : list item * filling :=
  match objs with
  | [] => ([], s)
  | (x, surfs) :: r =>
      let '(c, s) := caption_for x "Object" oix s in
      let '(i, s) := new_item x s in
      let '(kids, s) := add_surfaces 0 surfs s in
      let '(rest, s) := add_objects (S oix) r s in
      (Item i c (Some x) kids :: rest, s)
  end.


(** assembly_tree.py:61-92: the children of the item of an assembly *)
Fixpoint add_subassembly (p : parts) (s : filling) {struct p} : list item * filling :=
  match p with
  | Parts subs objs =>
      let '(sc, s) := match subs with [] => (None, s) | _ => let '(i, s) := category s in (Some i, s) end in
      let '(objects, s) :=
        match objs with
        | [] => ([], s)
        | _ => let '(i, s) := category s in
               let '(os, s) := add_objects 0 objs s in
               ([Item i "Optical objects" None os], s)
        end in
      let '(ss, s) :=
        (fix loop (six : nat) (l : list (nat * parts)) (s : filling) {struct l} : list item * filling :=
           match l with
           | [] => ([], s)
           | (x, q) :: r =>
               let '(c, s) := caption_for x "Assembly" six s in
               let '(i, s) := new_item x s in
               let '(kids, s) := add_subassembly q s in
               let '(rest, s) := loop (S six) r s in
               (Item i c (Some x) kids :: rest, s)
           end) 0 subs s in
      ((match sc with Some i => [Item i "Subassemblies" None ss] | None => [] end ++ objects)%list, s)
  end.

(** assembly_tree.py:45-56; [x] is the assembly itself.  Connections of items that were
    shown before are not undone. *)
Definition show_tree (x : nat) (p : parts) (w : widget) : widget :=
  let s := mkF (wg_tags w) (wg_connected w) (wg_made w) in
  let '(i, s) := new_item x s in
  let '(kids, s) := add_subassembly p s in
  mkWidget (f_tags s) (Some (Item i "Top assembly" (Some x) kids)) (f_connected s) (f_made s).

(** The items of a tree. *)
Fixpoint all_items (it : item) : list item :=
  it :: match it with Item _ _ _ kids => flat_map all_items kids end.
Definition item_id (it : item) : nat := match it with Item i _ _ _ => i end.
Fixpoint set_text (i : nat) (text : string) (it : item) : item :=
  match it with Item j c x kids => Item j (if Nat.eqb j i then text else c) x (map (set_text i text) kids) end.

(** assembly_tree.py:19-30, called for each connection when item [i] has got [text] *)
Fixpoint update_captions (i : nat) (text : string) (conns : list (nat * nat)) (t : tags) : res tags :=
  match conns with
  | [] => Ok t
  | (j, x) :: r =>
      if negb (Nat.eqb j i) then update_captions i text r t else
      match t x with
      | None => Err AttributeError
      | Some d => update_captions i text r (set_at t x (store "caption" text d))
      end
  end.

(** The user changes the text of item [i]; nothing if there is no such item. *)
Definition rename (i : nat) (text : string) (w : widget) : res widget :=
  match wg_top w with
  | None => Ok w
  | Some top =>
      if existsb (fun it => Nat.eqb (item_id it) i) (all_items top) then
        t <- update_captions i text (wg_connected w) (wg_tags w) ;;
        Ok (mkWidget t (Some (set_text i text top)) (wg_connected w) (wg_made w))
      else Ok w
  end.

Definition new_widget (t : tags) : widget := mkWidget t None [] 0.
