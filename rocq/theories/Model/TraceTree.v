(** Model of tracer/trace_tree.py: a tree is the list of recorded bundles. *)
From Coq Require Import Reals List Arith.
From Verif.Base Require Import Py Num Vec.
From Verif.Model Require Import RayBundle.
Import ListNotations.

(** trace_tree.py:7-8 *)
Definition tree := list bundle.
Definition new_tree : tree := [].

(** trace_tree.py:16-25 *)
Definition append (t : tree) (b : bundle) : tree := t ++ [b].

(** trace_tree.py:13-14 *)
Definition num_bunds (t : tree) : nat := length t.

(** trace_tree.py:10-11 *)
Definition get_bundle (t : tree) (i : nat) : res bundle := take1 t i.

(** trace_tree.py:27-32 *)
Definition ordered_parents (t : tree) : res (list (list nat)) :=
  mapM get_parents (tl t).

(** trace_tree.py:34-55: the body of [ray_history], with the tree supplied as
    [self]; [level] is the value after line 46.  The array of line 48 holds floats,
    used as indices at line 53; versions of numpy that refuse that are not modelled. *)
Fixpoint history_from (t : tree) (level pix count : nat) (last : nat) : res (list nat) :=
  match count with
  | O => Ok []
  | S count' =>
      b <- get_bundle t (level - pix + 1) ;;
      ps <- get_parents b ;;
      q <- take1 ps last ;;
      r <- history_from t level (S pix) count' q ;;
      Ok (q :: r)
  end.
Definition ray_history_body (t : tree) (ray_index : nat) (level : option nat) : res (list nat) :=
  let level := match level with None => num_bunds t | Some l => l end in
  match level with
  | O => Err IndexError                            (* parents[0] of an empty array *)
  | S k => r <- history_from t level 1 k ray_index ;; Ok (ray_index :: r)
  end.

(** trace_tree.py:34: [def ray_history(ray_index, level=None)] is a method without
    a [self] parameter, so in [tree.ray_history(args)] the tree itself is bound to
    [ray_index] and the first argument to [level].
    - no argument: [self.num_bunds()] at line 46 is an unbound name;
    - one argument: line 49 stores the tree in a float array (which exception this
      raises depends on the version of numpy);
    - more arguments, or [level] as a keyword in addition: too many values. *)
Definition ray_history (t : tree) (args : list nat) : res (list nat) :=
  match args with
  | [] => Err NameError
  | [0] => Err IndexError
  | [_] => Err ValueError
  | _ => Err TypeError
  end.
