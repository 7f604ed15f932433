(** Python and numpy vocabulary: exceptions as values, and list versions of the
    numpy array operations the code uses.  An array whose last axis ranges over
    rays is a list with one entry per ray. *)
From Coq Require Import List Arith ZArith Bool.
Import ListNotations.
Set Implicit Arguments.

(** Exceptions.  [OutOfModel] marks points where Python would continue with
    uninitialised memory or NaN data that this model does not represent;
    [RecursionLimit] is Python's recursion limit. *)
Inductive exn : Type :=
  | ValueError | TypeError | KeyError | IndexError | AttributeError
  | NameError | LinAlgError | UnboundLocalError | RuntimeError
  | RecursionLimit | ZeroDivisionError | OutOfModel.

Inductive res (A : Type) : Type :=
  | Ok (a : A)
  | Err (e : exn).
Arguments Ok {A} a.
Arguments Err {A} e.

Definition bind {A B : Type} (m : res A) (f : A -> res B) : res B :=
  match m with
  | Ok a => f a
  | Err e => Err e
  end.

Notation "x <- m ;; f" := (bind m (fun x => f))
  (at level 61, m at next level, right associativity).
Notation "' p <- m ;; f" := (bind m (fun p => f))
  (at level 61, p pattern, m at next level, right associativity).

Definition guard (b : bool) (e : exn) : res unit := if b then Ok tt else Err e.

(** Evaluate a list of computations left to right, stop at the first error. *)
Fixpoint sequence {A : Type} (l : list (res A)) : res (list A) :=
  match l with
  | [] => Ok []
  | m :: r => a <- m ;; t <- sequence r ;; Ok (a :: t)
  end.

Definition mapM {A B : Type} (f : A -> res B) (l : list A) : res (list B) :=
  sequence (map f l).

Definition is_ok {A : Type} (m : res A) : bool :=
  match m with Ok _ => true | Err _ => false end.

(** [a[idx]] with an array of (non-negative) indices. *)
Definition take1 {A : Type} (l : list A) (i : nat) : res A :=
  match nth_error l i with
  | Some a => Ok a
  | None => Err IndexError
  end.

Definition take {A : Type} (l : list A) (idx : list nat) : res (list A) :=
  mapM (take1 l) idx.

(** [a[mask]] with a boolean mask: entries where the mask is true. *)
Fixpoint mask_select {A : Type} (m : list bool) (l : list A) : list A :=
  match m, l with
  | b :: m', a :: l' => if b then a :: mask_select m' l' else mask_select m' l'
  | _, _ => []
  end.

(** [N.nonzero(mask)[0]] *)
Fixpoint nonzero_from (k : nat) (m : list bool) : list nat :=
  match m with
  | [] => []
  | b :: m' => if b then k :: nonzero_from (S k) m' else nonzero_from (S k) m'
  end.
Definition nonzero (m : list bool) : list nat := nonzero_from 0 m.

(** [a[mask] = vals], one value per true entry.  Running out of values leaves
    the rest unchanged; callers check the lengths first. *)
Fixpoint put_mask {A : Type} (m : list bool) (base vals : list A) : list A :=
  match m, base with
  | b :: m', x :: base' =>
      if b then
        match vals with
        | v :: vals' => v :: put_mask m' base' vals'
        | [] => x :: put_mask m' base' []
        end
      else x :: put_mask m' base' vals
  | _, _ => base
  end.

(** [a[mask] = scalar] *)
Fixpoint fill_mask {A : Type} (m : list bool) (base : list A) (v : A) : list A :=
  match m, base with
  | b :: m', x :: base' => (if b then v else x) :: fill_mask m' base' v
  | _, _ => base
  end.

Definition count_true (m : list bool) : nat := length (nonzero m).
Definition any (m : list bool) : bool := existsb (fun b => b) m.

(** [N.delete(N.arange(n), sel)] *)
Definition delete_idx (n : nat) (sel : list nat) : list nat :=
  filter (fun i => negb (existsb (Nat.eqb i) sel)) (seq 0 n).

(** Element-wise binary operation, as numpy does on equally long arrays. *)
Fixpoint map2 {A B C : Type} (f : A -> B -> C) (l : list A) (k : list B) : list C :=
  match l, k with
  | a :: l', b :: k' => f a b :: map2 f l' k'
  | _, _ => []
  end.

Fixpoint map3 {A B C D : Type} (f : A -> B -> C -> D)
    (l : list A) (k : list B) (j : list C) : list D :=
  match l, k, j with
  | a :: l', b :: k', c :: j' => f a b c :: map3 f l' k' j'
  | _, _, _ => []
  end.

(** Replace entry [i] of a list. *)
Fixpoint set_nth {A : Type} (i : nat) (v : A) (l : list A) : list A :=
  match l, i with
  | [], _ => []
  | _ :: l', 0 => v :: l'
  | a :: l', S i' => a :: set_nth i' v l'
  end.

Definition same_len {A B : Type} (l : list A) (k : list B) : bool :=
  Nat.eqb (length l) (length k).
