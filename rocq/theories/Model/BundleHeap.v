(** Model of tracer/ray_bundle.py with identities: bundles are objects whose
    attributes refer to arrays, so that two bundles can hold the same array and a
    write is seen through both.

    Arrays of all kinds are numbered together.  [array[..., :]] is another array
    object with the storage and the shape of the first, and is given the same number.
    Other slices are not modelled as selectors.  The functions follow those of
    Model/RayBundle.v. *)
From Coq Require Import Reals String List Arith Bool.
From Verif.Base Require Import Py Num Vec.
From Verif.Model Require Import RayBundle.
Import ListNotations.

(** What an array has in its last axis: vectors, numbers, indices of rays, or columns
    of an additional property. *)
Inductive kind : Type := KVec | KNum | KIdx | KCell.
Definition elt (k : kind) : Type :=
  match k with KVec => vec | KNum => R | KIdx => nat | KCell => cell end.

(** ray_bundle.py:27-64: the attributes of a bundle, [None] if not set. *)
Record hbundle : Type := mkHB {
  hb_vert : option nat;
  hb_dir : option nat;
  hb_energy : option nat;
  hb_parents : option nat;
  hb_ref : option nat;
  hb_extra : list (string * option nat) }.

Record heap : Type := mkH {
  h_vec : nat -> list vec;
  h_num : nat -> list R;
  h_idx : nat -> list nat;
  h_cell : nat -> list cell;
  h_next : nat;                  (** arrays made so far *)
  h_obj : nat -> hbundle;
  h_onext : nat }.               (** bundles made so far *)

Definition hupd {A : Type} (f : nat -> A) (i : nat) (x : A) : nat -> A :=
  fun j => if Nat.eqb j i then x else f j.

(** The contents of an array, and a write into it. *)
Definition rd (k : kind) (h : heap) (a : nat) : list (elt k) :=
  match k return list (elt k) with
  | KVec => h_vec h a
  | KNum => h_num h a
  | KIdx => h_idx h a
  | KCell => h_cell h a
  end.
Definition wr (k : kind) (a : nat) (l : list (elt k)) (h : heap) : heap :=
  match k return list (elt k) -> heap with
  | KVec => fun l => mkH (hupd (h_vec h) a l) (h_num h) (h_idx h) (h_cell h) (h_next h) (h_obj h) (h_onext h)
  | KNum => fun l => mkH (h_vec h) (hupd (h_num h) a l) (h_idx h) (h_cell h) (h_next h) (h_obj h) (h_onext h)
  | KIdx => fun l => mkH (h_vec h) (h_num h) (hupd (h_idx h) a l) (h_cell h) (h_next h) (h_obj h) (h_onext h)
  | KCell => fun l => mkH (h_vec h) (h_num h) (h_idx h) (hupd (h_cell h) a l) (h_next h) (h_obj h) (h_onext h)
  end l.

(** Computations that may raise; what they did before raising stays. *)
Definition H (A : Type) : Type := heap -> heap * res A.
Definition hret {A : Type} (x : A) : H A := fun h => (h, Ok x).
Definition hlift {A : Type} (r : res A) : H A := fun h => (h, r).
Definition hbind {A C : Type} (m : H A) (f : A -> H C) : H C := fun h =>
  let '(h', r) := m h in
  match r with Ok x => f x h' | Err e => (h', Err e) end.
Notation "x <! m ;! f" := (hbind m (fun x => f))
  (at level 61, m at next level, right associativity).
Notation "' p <! m ;! f" := (hbind m (fun p => f))
  (at level 61, p pattern, m at next level, right associativity).
Definition hread {A : Type} (f : heap -> A) : H A := fun h => (h, Ok (f h)).

Fixpoint hmap {A C : Type} (f : A -> H C) (l : list A) : H (list C) :=
  match l with
  | [] => hret []
  | x :: r => y <! f x ;! ys <! hmap f r ;! hret (y :: ys)
  end.

(** An array made by an expression. *)
Definition array (k : kind) (l : list (elt k)) : H nat := fun h =>
  (wr k (h_next h) l
     (mkH (h_vec h) (h_num h) (h_idx h) (h_cell h) (S (h_next h)) (h_obj h) (h_onext h)),
   Ok (h_next h)).

(** [a[..., sel] = vals]; nothing is written if it raises. *)
Definition write_sel (k : kind) (a : nat) (sel : selector) (vals : list (elt k)) : H unit := fun h =>
  match assign_sel (rd k h a) sel vals with
  | Ok l => (wr k a l h, Ok tt)
  | Err e => (h, Err e)
  end.

(** ray_bundle.py:54-64: a bundle with the given attributes; the arrays are kept, not
    copied (lines 91-92). *)
Definition new_bundle (b : hbundle) : H nat := fun h =>
  (mkH (h_vec h) (h_num h) (h_idx h) (h_cell h) (h_next h) (hupd (h_obj h) (h_onext h) b) (S (h_onext h)),
   Ok (h_onext h)).
Definition put_obj (o : nat) (b : hbundle) : H unit := fun h =>
  (mkH (h_vec h) (h_num h) (h_idx h) (h_cell h) (h_next h) (hupd (h_obj h) o b) (h_onext h), Ok tt).

(** What is read from a bundle: the values of its properties. *)
Definition values (h : heap) (b : hbundle) : bundle :=
  mkB (option_map (rd KVec h) (hb_vert b)) (option_map (rd KVec h) (hb_dir b))
      (option_map (rd KNum h) (hb_energy b)) (option_map (rd KIdx h) (hb_parents b))
      (option_map (rd KNum h) (hb_ref b))
      (map (fun nv => (fst nv, option_map (rd KCell h) (snd nv))) (hb_extra b)).
Definition contents (h : heap) (o : nat) : bundle := values h (h_obj h o).

(** The names of properties. *)
Inductive prop : Type :=
  | PVertices | PDirections | PEnergy | PParents | PRefIndex | PExtra (name : string).
Definition kind_of (p : prop) : kind :=
  match p with
  | PVertices | PDirections => KVec
  | PEnergy | PRefIndex => KNum
  | PParents => KIdx
  | PExtra _ => KCell
  end.

(** The attribute of a property; [None] if the bundle was not made with it. *)
Definition slot (p : prop) (b : hbundle) : option (option nat) :=
  match p with
  | PVertices => Some (hb_vert b)
  | PDirections => Some (hb_dir b)
  | PEnergy => Some (hb_energy b)
  | PParents => Some (hb_parents b)
  | PRefIndex => Some (hb_ref b)
  | PExtra n => lookup n (hb_extra b)
  end.
Definition set_slot (p : prop) (a : nat) (b : hbundle) : hbundle :=
  match p with
  | PVertices => mkHB (Some a) (hb_dir b) (hb_energy b) (hb_parents b) (hb_ref b) (hb_extra b)
  | PDirections => mkHB (hb_vert b) (Some a) (hb_energy b) (hb_parents b) (hb_ref b) (hb_extra b)
  | PEnergy => mkHB (hb_vert b) (hb_dir b) (Some a) (hb_parents b) (hb_ref b) (hb_extra b)
  | PParents => mkHB (hb_vert b) (hb_dir b) (hb_energy b) (Some a) (hb_ref b) (hb_extra b)
  | PRefIndex => mkHB (hb_vert b) (hb_dir b) (hb_energy b) (hb_parents b) (Some a) (hb_extra b)
  | PExtra n => mkHB (hb_vert b) (hb_dir b) (hb_energy b) (hb_parents b) (hb_ref b)
                  (replace n (Some a) (hb_extra b))
  end.

(** The array of a property; it must be set. *)
Definition the_array (p : prop) (o : nat) : H nat :=
  b <! hread (fun h => h_obj h o) ;!
  match slot p b with
  | None => hlift (Err AttributeError)
  | Some None => hlift (Err KeyError)
  | Some (Some a) => hret a
  end.

(** ray_bundle.py:88: [array[..., selector]]; index arrays and masks make a copy. *)
Definition get_array (k : kind) (a : nat) (sel : selector) : H nat :=
  match sel with
  | SAll => hret a
  | _ => l <! hread (fun h => rd k h a) ;! l' <! hlift (select sel l) ;! array k l'
  end.

(** ray_bundle.py:84-88, without and with a selector. *)
Definition get_p (p : prop) (o : nat) : H nat := the_array p o.
Definition get_p_sel (p : prop) (o : nat) (sel : selector) : H nat :=
  a <! the_array p o ;! get_array (kind_of p) a sel.

(** ray_bundle.py:90-92: the attribute now refers to the given array. *)
Definition set_p (p : prop) (a : nat) (o : nat) : H unit :=
  b <! hread (fun h => h_obj h o) ;!
  match slot p b with
  | None => hlift (Err AttributeError)
  | Some _ => put_obj o (set_slot p a b)
  end.
(** ray_bundle.py:93-94: a write into the array of the bundle. *)
Definition set_p_sel (p : prop) (vals : list (elt (kind_of p))) (sel : selector) (o : nat) : H unit :=
  a <! the_array p o ;! write_sel (kind_of p) a sel vals.

(** ray_bundle.py:111-116 *)
Definition num_rays (o : nat) : H nat :=
  b <! hread (fun h => h_obj h o) ;!
  match hb_vert b with
  | None => hlift (Err AttributeError)
  | Some a => hread (fun h => length (rd KVec h a))
  end.

(** ray_bundle.py:141-143 *)
Definition inherit_slot (k : kind) (sel : selector) (given own : option nat) : H (option nat) :=
  match given with
  | Some a => hret (Some a)
  | None =>
      match own with
      | None => hret None
      | Some a => a' <! get_array k a sel ;! hret (Some a')
      end
  end.
Definition given_slot (name : string) (given : list (string * option nat)) : option nat :=
  match lookup name given with Some v => v | None => None end.
Fixpoint inherit_slots (sel : selector) (given own : list (string * option nat))
    : H (list (string * option nat)) :=
  match own with
  | [] => hret []
  | (n, v) :: r =>
      v' <! inherit_slot KCell sel (given_slot n given) v ;!
      r' <! inherit_slots sel given r ;!
      hret ((n, v') :: r')
  end.

(** ray_bundle.py:118-145 *)
Definition h_inherit (o : nat) (sel : selector) (ov : hbundle) : H nat :=
  b <! hread (fun h => h_obj h o) ;!
  v <! inherit_slot KVec sel (hb_vert ov) (hb_vert b) ;!
  d <! inherit_slot KVec sel (hb_dir ov) (hb_dir b) ;!
  e <! inherit_slot KNum sel (hb_energy ov) (hb_energy b) ;!
  p <! inherit_slot KIdx sel (hb_parents ov) (hb_parents b) ;!
  n <! inherit_slot KNum sel (hb_ref ov) (hb_ref b) ;!
  x <! inherit_slots sel (hb_extra ov) (hb_extra b) ;!
  new_bundle (mkHB v d e p n
    (x ++ filter (fun nv => match lookup (fst nv) (hb_extra b) with Some _ => false | None => true end)
            (hb_extra ov))).

(** ray_bundle.py:157-166 *)
Definition add_slot (k : kind) (x y : option nat) : H (option nat) :=
  match x, y with
  | Some a, Some b => l <! hread (fun h => rd k h a ++ rd k h b) ;! c <! array k l ;! hret (Some c)
  | _, _ => hret None
  end.
Fixpoint add_slots (x y : list (string * option nat)) : H (list (string * option nat)) :=
  match x with
  | [] => hret []
  | (n, v) :: r =>
      match v, lookup n y with
      | Some a, Some (Some b) =>
          c <! add_slot KCell (Some a) (Some b) ;! r' <! add_slots r y ;! hret ((n, c) :: r')
      | _, _ => add_slots r y
      end
  end.

(** ray_bundle.py:147-168 *)
Definition h_add (o1 o2 : nat) : H nat :=
  a <! hread (fun h => h_obj h o1) ;!
  b <! hread (fun h => h_obj h o2) ;!
  v <! add_slot KVec (hb_vert a) (hb_vert b) ;!
  d <! add_slot KVec (hb_dir a) (hb_dir b) ;!
  e <! add_slot KNum (hb_energy a) (hb_energy b) ;!
  p <! add_slot KIdx (hb_parents a) (hb_parents b) ;!
  n <! add_slot KNum (hb_ref a) (hb_ref b) ;!
  x <! add_slots (hb_extra a) (hb_extra b) ;!
  new_bundle (mkHB v d e p n x).

(** ray_bundle.py:170-183: one array for vertices and directions. *)
Definition h_empty : H nat :=
  a <! array KVec [] ;!
  e <! array KNum [] ;!
  p <! array KIdx [] ;!
  n <! array KNum [] ;!
  new_bundle (mkHB (Some a) (Some a) (Some e) (Some p) (Some n) []).

Definition no_slots : hbundle := mkHB None None None None None [].

(** ray_bundle.py:185-194 *)
Definition h_delete (o : nat) (sel : list nat) : H nat :=
  n <! num_rays o ;! h_inherit o (SIdx (delete_idx n sel)) no_slots.

(** ray_bundle.py:219-221 *)
Definition concat_slot (k : kind) (get : hbundle -> option nat) (first : hbundle) (os : list nat)
    : H (option nat) :=
  match get first with
  | None => hret None
  | Some _ =>
      ls <! hmap (fun o => b <! hread (fun h => h_obj h o) ;!
                           match get b with
                           | None => hlift (Err KeyError)
                           | Some a => hread (fun h => rd k h a)
                           end) os ;!
      c <! array k (concat ls) ;! hret (Some c)
  end.
Definition extra_slot (n : string) (b : hbundle) : option nat :=
  match lookup n (hb_extra b) with Some v => v | None => None end.
Fixpoint concat_slots (x : list (string * option nat)) (os : list nat)
    : H (list (string * option nat)) :=
  match x with
  | [] => hret []
  | (n, v) :: r =>
      match v with
      | None => concat_slots r os
      | Some _ =>
          ls <! hmap (fun o => b <! hread (fun h => h_obj h o) ;!
                               match extra_slot n b with
                               | None => hlift (Err KeyError)
                               | Some a => hread (fun h => rd KCell h a)
                               end) os ;!
          c <! array KCell (concat ls) ;!
          r' <! concat_slots r os ;! hret ((n, Some c) :: r')
      end
  end.

(** ray_bundle.py:196-223 *)
Definition h_concatenate (os : list nat) : H nat :=
  match os with
  | [] => h_empty
  | o :: _ =>
      b <! hread (fun h => h_obj h o) ;!
      v <! concat_slot KVec hb_vert b os ;!
      d <! concat_slot KVec hb_dir b os ;!
      e <! concat_slot KNum hb_energy b os ;!
      p <! concat_slot KIdx hb_parents b os ;!
      n <! concat_slot KNum hb_ref b os ;!
      x <! concat_slots (hb_extra b) os ;!
      new_bundle (mkHB v d e p n x)
  end.
