(** Model of tracer/ray_bundle.py.

    A bundle is a record of optional arrays (an unset property is [None]) and a
    list of additional named properties.  Entry [i] of every array belongs to ray
    [i].  Arrays are values here; arrays shared between bundles, and writes into them,
    are in Model/BundleHeap.v.  Getters and setters are those that
    [_create_property] makes (ray_bundle.py:66-102). *)
From Coq Require Import Reals String List Arith Bool.
From Verif.Base Require Import Py Num Vec.
Import ListNotations.

(** One column of an additional property (its shape apart from the last axis is
    arbitrary). *)
Definition cell := list R.
Definition extras := list (string * option (list cell)).

(** ray_bundle.py:27-64: the five basic properties and [**kwds]. *)
Record bundle : Type := mkB {
  b_vert : option (list vec);
  b_dir : option (list vec);
  b_energy : option (list R);
  b_parents : option (list nat);
  b_ref : option (list R);
  b_extra : extras }.

(** [RayBundle()] *)
Definition no_bundle : bundle := mkB None None None None None [].

(** Index expressions used as selectors: the full slice, an index array, a
    boolean mask. *)
Inductive selector : Type :=
  | SAll
  | SIdx (idx : list nat)
  | SMask (m : list bool).

(** ray_bundle.py:88 [array[..., selector]] *)
Definition select {A : Type} (sel : selector) (l : list A) : res (list A) :=
  match sel with
  | SAll => Ok l
  | SIdx idx => take l idx
  | SMask m => if same_len m l then Ok (mask_select m l) else Err IndexError
  end.

(** ray_bundle.py:84-88: the getters; an unset property is a KeyError. *)
Definition get_prop {A : Type} (p : option (list A)) (sel : selector) : res (list A) :=
  match p with
  | None => Err KeyError
  | Some l => select sel l
  end.
Definition get_vertices (b : bundle) := get_prop (b_vert b) SAll.
Definition get_directions (b : bundle) := get_prop (b_dir b) SAll.
Definition get_energy (b : bundle) := get_prop (b_energy b) SAll.
Definition get_parents (b : bundle) := get_prop (b_parents b) SAll.
Definition get_ref_index (b : bundle) := get_prop (b_ref b) SAll.

Fixpoint lookup {A : Type} (name : string) (l : list (string * A)) : option A :=
  match l with
  | [] => None
  | (n, v) :: r => if String.eqb n name then Some v else lookup name r
  end.

Definition get_extra (name : string) (b : bundle) (sel : selector) : res (list cell) :=
  match lookup name (b_extra b) with
  | Some (Some l) => select sel l
  | _ => Err KeyError
  end.

(** ray_bundle.py:90-94: setters without selector. *)
Definition set_vertices (v : list vec) (b : bundle) :=
  mkB (Some v) (b_dir b) (b_energy b) (b_parents b) (b_ref b) (b_extra b).
Definition set_directions (v : list vec) (b : bundle) :=
  mkB (b_vert b) (Some v) (b_energy b) (b_parents b) (b_ref b) (b_extra b).
Definition set_energy (v : list R) (b : bundle) :=
  mkB (b_vert b) (b_dir b) (Some v) (b_parents b) (b_ref b) (b_extra b).
Definition set_parents (v : list nat) (b : bundle) :=
  mkB (b_vert b) (b_dir b) (b_energy b) (Some v) (b_ref b) (b_extra b).
Definition set_ref_index (v : list R) (b : bundle) :=
  mkB (b_vert b) (b_dir b) (b_energy b) (b_parents b) (Some v) (b_extra b).

(** ray_bundle.py:94 [array[..., selector] = new_val]: sequential element
    assignment for an index array, masked assignment for a mask. The number of
    values must match (scalar broadcasting is not modelled). *)
Fixpoint assign {A : Type} (l : list A) (idx : list nat) (vals : list A) : res (list A) :=
  match idx, vals with
  | [], [] => Ok l
  | i :: idx', v :: vals' =>
      if Nat.ltb i (length l) then assign (set_nth i v l) idx' vals' else Err IndexError
  | _, _ => Err ValueError
  end.
Definition assign_sel {A : Type} (l : list A) (sel : selector) (vals : list A) : res (list A) :=
  match sel with
  | SAll => if same_len vals l then Ok vals else Err ValueError
  | SIdx idx => assign l idx vals
  | SMask m =>
      if same_len m l then
        if Nat.eqb (length vals) (count_true m) then Ok (put_mask m l vals)
        else Err ValueError
      else Err IndexError
  end.
Definition set_prop_sel {A : Type} (p : option (list A)) (sel : selector) (vals : list A)
  : res (option (list A)) :=
  match p with
  | None => Err KeyError
  | Some l => l' <- assign_sel l sel vals ;; Ok (Some l')
  end.
Definition set_energy_sel (vals : list R) (sel : selector) (b : bundle) : res bundle :=
  e <- set_prop_sel (b_energy b) sel vals ;;
  Ok (mkB (b_vert b) (b_dir b) e (b_parents b) (b_ref b) (b_extra b)).
Definition set_vertices_sel (vals : list vec) (sel : selector) (b : bundle) : res bundle :=
  v <- set_prop_sel (b_vert b) sel vals ;;
  Ok (mkB v (b_dir b) (b_energy b) (b_parents b) (b_ref b) (b_extra b)).

Definition set_directions_sel (vals : list vec) (sel : selector) (b : bundle) : res bundle :=
  d <- set_prop_sel (b_dir b) sel vals ;;
  Ok (mkB (b_vert b) d (b_energy b) (b_parents b) (b_ref b) (b_extra b)).
Definition set_parents_sel (vals : list nat) (sel : selector) (b : bundle) : res bundle :=
  q <- set_prop_sel (b_parents b) sel vals ;;
  Ok (mkB (b_vert b) (b_dir b) (b_energy b) q (b_ref b) (b_extra b)).
Definition set_ref_index_sel (vals : list R) (sel : selector) (b : bundle) : res bundle :=
  n <- set_prop_sel (b_ref b) sel vals ;;
  Ok (mkB (b_vert b) (b_dir b) (b_energy b) (b_parents b) n (b_extra b)).

(** The accessors of an additional property exist only if the bundle was made with
    it (ray_bundle.py:96-99). *)
Fixpoint replace {A : Type} (name : string) (v : A) (l : list (string * A)) : list (string * A) :=
  match l with
  | [] => []
  | (n, x) :: r => if String.eqb n name then (n, v) :: r else (n, x) :: replace name v r
  end.
Definition with_extra (name : string) (v : option (list cell)) (b : bundle) : bundle :=
  mkB (b_vert b) (b_dir b) (b_energy b) (b_parents b) (b_ref b) (replace name v (b_extra b)).
Definition get_named (name : string) (b : bundle) (sel : selector) : res (list cell) :=
  match lookup name (b_extra b) with
  | None => Err AttributeError
  | Some p => get_prop p sel
  end.
Definition set_named (name : string) (vals : list cell) (b : bundle) : res bundle :=
  match lookup name (b_extra b) with
  | None => Err AttributeError
  | Some _ => Ok (with_extra name (Some vals) b)
  end.
Definition set_named_sel (name : string) (vals : list cell) (sel : selector) (b : bundle) : res bundle :=
  match lookup name (b_extra b) with
  | None => Err AttributeError
  | Some p => v <- set_prop_sel p sel vals ;; Ok (with_extra name v b)
  end.

(** ray_bundle.py:104-109 *)
Definition has_property (name : string) (b : bundle) : bool :=
  existsb (String.eqb name) ["vertices"; "directions"; "energy"; "parents"; "ref_index"]%string
  || match lookup name (b_extra b) with Some _ => true | None => false end.

(** ray_bundle.py:111-116 *)
Definition get_num_rays (b : bundle) : res nat :=
  match b_vert b with
  | None => Err AttributeError
  | Some l => Ok (length l)
  end.

(** ray_bundle.py:141-143: a property keeps the given value, else is copied at
    the selected places if this bundle has it. *)
Definition inherit_prop {A : Type} (sel : selector) (given own : option (list A))
  : res (option (list A)) :=
  match given with
  | Some v => Ok (Some v)
  | None =>
      match own with
      | None => Ok None
      | Some l => l' <- select sel l ;; Ok (Some l')
      end
  end.

Definition given_extra (name : string) (given : extras) : option (list cell) :=
  match lookup name given with Some v => v | None => None end.

Fixpoint inherit_extras (sel : selector) (given own : extras) : res extras :=
  match own with
  | [] => Ok []
  | (n, v) :: r =>
      v' <- inherit_prop sel (given_extra n given) v ;;
      r' <- inherit_extras sel given r ;;
      Ok ((n, v') :: r')
  end.

Definition new_extras (given own : extras) : extras :=
  filter (fun nv => match lookup (fst nv) own with Some _ => false | None => true end) given.

(** ray_bundle.py:118-145.  [ov] holds the values passed as keyword arguments
    (the keyword for directions is called [direction]). *)
Definition inherit (b : bundle) (sel : selector) (ov : bundle) : res bundle :=
  v <- inherit_prop sel (b_vert ov) (b_vert b) ;;
  d <- inherit_prop sel (b_dir ov) (b_dir b) ;;
  e <- inherit_prop sel (b_energy ov) (b_energy b) ;;
  p <- inherit_prop sel (b_parents ov) (b_parents b) ;;
  n <- inherit_prop sel (b_ref ov) (b_ref b) ;;
  x <- inherit_extras sel (b_extra ov) (b_extra b) ;;
  Ok (mkB v d e p n (x ++ new_extras (b_extra ov) (b_extra b))).

(** ray_bundle.py:157-166: only properties set in both bundles survive. *)
Definition add_prop {A : Type} (a b : option (list A)) : option (list A) :=
  match a, b with
  | Some x, Some y => Some (x ++ y)
  | _, _ => None
  end.

Fixpoint add_extras (a b : extras) : extras :=
  match a with
  | [] => []
  | (n, v) :: r =>
      match v, lookup n b with
      | Some x, Some (Some y) => (n, Some (x ++ y)) :: add_extras r b
      | _, _ => add_extras r b
      end
  end.

(** ray_bundle.py:147-168 [__add__] *)
Definition add_bundles (a b : bundle) : bundle :=
  mkB (add_prop (b_vert a) (b_vert b)) (add_prop (b_dir a) (b_dir b))
      (add_prop (b_energy a) (b_energy b)) (add_prop (b_parents a) (b_parents b))
      (add_prop (b_ref a) (b_ref b)) (add_extras (b_extra a) (b_extra b)).

(** ray_bundle.py:170-183 *)
Definition empty_bund : bundle := mkB (Some []) (Some []) (Some []) (Some []) (Some []) [].

(** ray_bundle.py:185-194 *)
Definition delete_rays (b : bundle) (sel : list nat) : res bundle :=
  n <- get_num_rays b ;;
  inherit b (SIdx (delete_idx n sel)) no_bundle.

(** ray_bundle.py:219-221: [hstack] of the getters' results. *)
Definition concat_prop {A : Type} (get : bundle -> option (list A)) (bs : list bundle)
  : res (option (list A)) :=
  match bs with
  | [] => Ok None
  | b :: _ =>
      match get b with
      | None => Ok None
      | Some _ =>
          ls <- mapM (fun c => get_prop (get c) SAll) bs ;;
          Ok (Some (concat ls))
      end
  end.

Fixpoint concat_extras (own : extras) (bs : list bundle) : res extras :=
  match own with
  | [] => Ok []
  | (n, v) :: r =>
      match v with
      | None => concat_extras r bs
      | Some _ =>
          ls <- mapM (fun c => get_extra n c SAll) bs ;;
          r' <- concat_extras r bs ;;
          Ok ((n, Some (concat ls)) :: r')
      end
  end.

(** ray_bundle.py:196-223 *)
Definition concatenate_rays (bs : list bundle) : res bundle :=
  match bs with
  | [] => Ok empty_bund
  | b :: _ =>
      v <- concat_prop b_vert bs ;;
      d <- concat_prop b_dir bs ;;
      e <- concat_prop b_energy bs ;;
      p <- concat_prop b_parents bs ;;
      n <- concat_prop b_ref bs ;;
      x <- concat_extras (b_extra b) bs ;;
      Ok (mkB v d e p n x)
  end.
