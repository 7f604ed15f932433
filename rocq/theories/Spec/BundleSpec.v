(** What a user sees of a ray bundle: a partial map from property names to
    columns, one entry per ray. *)
From Coq Require Import Reals String List Arith Bool.
From Verif.Base Require Import Py Num Vec.
From Verif.Model Require Import RayBundle.
Import ListNotations.

Inductive pname : Type :=
  | Vertices | Directions | Energy | Parents | RefIndex | Extra (name : string).
Inductive pval : Type :=
  | PVec (v : vec) | PReal (r : R) | PNat (n : nat) | PCell (c : cell).

(** The value of a property, as returned by its getter; [None] when unset. *)
Definition prop (b : bundle) (p : pname) : option (list pval) :=
  match p with
  | Vertices => option_map (map PVec) (b_vert b)
  | Directions => option_map (map PVec) (b_dir b)
  | Energy => option_map (map PReal) (b_energy b)
  | Parents => option_map (map PNat) (b_parents b)
  | RefIndex => option_map (map PReal) (b_ref b)
  | Extra n => match lookup n (b_extra b) with
               | Some (Some l) => Some (map PCell l)
               | _ => None
               end
  end.

(** Property names are distinct (they are the keys of a Python dict). *)
Definition names_ok (b : bundle) : Prop := NoDup (map fst (b_extra b)).

(** Positions a selector denotes in an array of [n] entries. *)
Definition positions (sel : selector) (n : nat) : list nat :=
  match sel with
  | SAll => seq 0 n
  | SIdx idx => idx
  | SMask m => filter (fun i => nth i m false) (seq 0 n)
  end.

(** A selector numpy accepts for an array of [n] entries. *)
Definition sel_ok (sel : selector) (n : nat) : Prop :=
  match sel with
  | SAll => True
  | SIdx idx => forall i, In i idx -> i < n
  | SMask m => length m = n
  end.

(** [l'] lists the entries of [l] at positions [idx], in that order. *)
Definition picks {A : Type} (l : list A) (idx : list nat) (l' : list A) : Prop :=
  Forall2 (fun i a => nth_error l i = Some a) idx l'.

(** All set properties have [n] entries, and the mandatory one is set. *)
Definition rays (b : bundle) (n : nat) : Prop :=
  (exists l, prop b Vertices = Some l) /\
  forall p l, prop b p = Some l -> length l = n.

(** Bundles that agree on every property. *)
Definition same_props (a b : bundle) : Prop := forall p, prop a p = prop b p.

(** In-order concatenation of columns, undefined if one of them is. *)
Fixpoint concat_columns (cols : list (option (list pval))) : option (list pval) :=
  match cols with
  | [] => Some []
  | Some x :: r => option_map (app x) (concat_columns r)
  | None :: _ => None
  end.

Fixpoint sum_of (ns : list nat) : nat :=
  match ns with [] => 0 | n :: r => n + sum_of r end.

(** [made b n]: [b] is obtained from equal-length bundles by any history of
    bundle operations, and is supposed to have [n] rays. *)
Inductive made : bundle -> nat -> Prop :=
  | made_given b n : names_ok b -> rays b n -> made b n
  | made_inherit b n sel ov b' :
      made b n -> names_ok ov ->
      (forall p l, prop ov p = Some l -> length l = length (positions sel n)) ->
      inherit b sel ov = Ok b' -> made b' (length (positions sel n))
  | made_add a n b m : made a n -> made b m -> made (add_bundles a b) (n + m)
  | made_concat bns r :
      (forall b n, In (b, n) bns -> made b n) ->
      concatenate_rays (map fst bns) = Ok r -> made r (sum_of (map snd bns))
  | made_delete b n sel b' :
      made b n -> delete_rays b sel = Ok b' ->
      made b' (length (filter (fun i => negb (existsb (Nat.eqb i) sel)) (seq 0 n))).

(** A selector that picks no place twice. *)
Definition nodup_sel (sel : selector) : Prop :=
  match sel with SIdx idx => NoDup idx | _ => True end.

(** [r] is a correct answer to writing [vals] at the places [sel] of property [p]. *)
Definition writes (b : bundle) (p : pname) (sel : selector) (vals : list pval) (r : res bundle) : Prop :=
  match r with
  | Ok b' =>
      (exists l l', prop b p = Some l /\ prop b' p = Some l' /\
        sel_ok sel (length l) /\ picks l' (positions sel (length l)) vals /\ length l' = length l /\
        forall i, ~ In i (positions sel (length l)) -> nth_error l' i = nth_error l i) /\
      forall q, q <> p -> prop b' q = prop b q
  | Err _ =>
      forall l, prop b p = Some l ->
        ~ sel_ok sel (length l) \/ length vals <> length (positions sel (length l))
  end.

(** [r] is a correct answer to reading the places [sel] of property [p]. *)
Definition reads {A : Type} (f : A -> pval) (b : bundle) (p : pname) (sel : selector) (r : res (list A)) : Prop :=
  match r with
  | Ok vals => exists l, prop b p = Some l /\ sel_ok sel (length l) /\
      picks l (positions sel (length l)) (map f vals)
  | Err _ => forall l, prop b p = Some l -> ~ sel_ok sel (length l)
  end.

(** How the properties are called. *)
Definition property_name (p : pname) : string :=
  match p with
  | Vertices => "vertices" | Directions => "directions" | Energy => "energy"
  | Parents => "parents" | RefIndex => "ref_index" | Extra n => n
  end%string.
