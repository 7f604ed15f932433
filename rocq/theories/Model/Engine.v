(** Model of tracer/tracer_engine.py.

    The engine is written against any surface objects: [S] is the state of one
    surface between calls of the surface protocol, [G] is state shared between
    surfaces (energy accounts, random numbers).  Objects are represented by the
    two methods the engine calls on them.  When an exception is raised the
    partial effect on the surfaces is not represented. *)
From Coq Require Import Reals List Arith ZArith Bool.
From Verif.Base Require Import Py Num Vec.
From Verif.Model Require Import RayBundle TraceTree.
Import ListNotations.

Section Engine.
Variables S G : Type.

(** The surface protocol, surface.py:44-93. *)
Record surf_ops : Type := mkOps {
  register_incoming : S -> bundle -> res (S * list num);
  select_rays : S -> list nat -> res S;
  get_outgoing : S -> G -> res (bundle * G);
  done : S -> S }.

(** The object protocol, object.py:40-41, 67-98. *)
Record obj : Type := mkObj {
  o_nsurf : nat;
  own_rays : bundle -> nat -> res (list bool);
  surfaces_for_next : bundle -> nat -> res (list (list bool)) }.

Variable ops : surf_ops.

(** tracer_engine.py:51-52 *)
Definition owned_row (ray_own : list Z) (so : nat) (rel : list bool) : list bool :=
  map2 (fun o r => (Z.eqb o (-1) || Z.eqb o (Z.of_nat so)) && r) ray_own rel.

(** tracer_engine.py:51-60: one row of the parameter matrix. *)
Definition test_surface (b : bundle) (n : nat) (ray_own : list Z) (s : S) (so : nat)
    (rel : list bool) : res (S * list num * list bool) :=
  if negb (Nat.eqb (length ray_own) n && Nat.eqb (length rel) n) then Err ValueError else
  let owned := owned_row ray_own so rel in
  if negb (any owned) then Ok (s, repeat (Fin 0) n, owned) else
  in_rays <- (if any (map negb owned) then inherit b (SMask owned) no_bundle else Ok b) ;;
  '(s', params) <- register_incoming ops s in_rays ;;
  if Nat.eqb (length params) (count_true owned)
  then Ok (s', put_mask owned (repeat (Fin 0) n) params, owned)
  else Err ValueError.

(** tracer_engine.py:50-60: all rows. *)
Fixpoint test_surfaces (b : bundle) (n : nat) (ray_own : list Z) (surfs : list S)
    (sown : list nat) (rel : list (list bool))
    : res (list S * list (list num) * list (list bool)) :=
  match surfs, sown, rel with
  | [], _, _ => Ok ([], [], [])
  | s :: surfs', so :: sown', r :: rel' =>
      '(s', row, owned) <- test_surface b n ray_own s so r ;;
      '(ss, rows, owneds) <- test_surfaces b n ray_own surfs' sown' rel' ;;
      Ok (s' :: ss, row :: rows, owned :: owneds)
  | _, _, _ => Err IndexError
  end.

Definition any2 (f : num -> bool) (m : list (list num)) : bool := existsb (existsb f) m.

(** tracer_engine.py:68-70 *)
Definition clear_zeros (stack : list (list num)) : list (list num) :=
  if any2 (fun x => nle x (Fin (tenm 10))) stack
  then map (map (fun x => if nle x (Fin (tenm 6)) then PInf else x)) stack
  else stack.

(** [stack.min(axis=0)].  Without surfaces it raises, except that numpy returns an
    empty array if there are no rays either; the model raises then too. *)
Definition col_min (m : list (list num)) : res (list num) :=
  match m with
  | [] => Err ValueError
  | r :: rs => Ok (fold_left (map2 nmin2) rs r)
  end.

(** tracer_engine.py:75 *)
Definition front (stack : list (list num)) (mins : list num) : list (list bool) :=
  map (fun row => map2 (fun x m => neqb x m && negb (nisinf x)) row mins) stack.

(** tracer_engine.py:29-77 [intersect_ray].  Returns also the surfaces' new
    states. *)
Definition intersect_ray (b : bundle) (surfs : list S) (sown : list nat)
    (ray_own : list Z) (rel : list (list bool))
    : res (list S * list (list bool) * list (list bool)) :=
  n <- get_num_rays b ;;
  '(ss, stack, owned) <- test_surfaces b n ray_own surfs sown rel ;;
  if any2 (fun x => nlt x (Fin (- tenm 16))) stack then Err ValueError else
  let stack := clear_zeros stack in
  mins <- col_min stack ;;
  Ok (ss, front stack mins, owned).

(** What one surface contributes in an iteration. *)
Record block : Type := mkBlock {
  k_strong : bundle;             (** [outg] entry *)
  k_rec : bundle;                (** [record] entry *)
  k_weak : list bool;            (** [weak_ray_pos] entry *)
  k_own : list Z;                (** [out_ray_own] entry *)
  k_rel : list (list bool) }.    (** [new_surfs_relevancy] entry *)

(** tracer_engine.py:114: surfaces before object [k]. *)
Definition surfs_until (objs : list obj) (k : nat) : nat :=
  fold_left Nat.add (map o_nsurf (firstn k objs)) 0.

(** tracer_engine.py:115 *)
Definition surf_ownership (objs : list obj) : list nat :=
  concat (map (fun ko => repeat (fst ko) (o_nsurf (snd ko)))
              (combine (seq 0 (length objs)) objs)).

(** tracer_engine.py:161-163: the relevancy of all surfaces to [n] rays emitted
    by object [k]. *)
Definition relevancy_block (sown : list nat) (k n : nat) (next : list (list bool))
    : res (list (list bool)) :=
  let mask := map (Nat.eqb k) sown in
  if Nat.eqb (length next) (count_true mask) && forallb (fun r => Nat.eqb (length r) n) next
  then Ok (put_mask mask (repeat (repeat true n) (length sown)) next)
  else Err ValueError.

(** tracer_engine.py:129-164: the body of the loop over surfaces. *)
Definition process_surface (objs : list obj) (min_energy : R) (idx : nat) (s : S) (g : G)
    (fr owned : list bool) : res (S * G * option block) :=
  let inters := mask_select owned fr in
  if negb (any inters) then Ok (done ops s, g, None) else
  s1 <- select_rays ops s (nonzero inters) ;;
  '(o, g1) <- get_outgoing ops s1 g ;;
  ps <- get_parents o ;;
  parents <- take (nonzero owned) ps ;;
  let o := set_parents parents o in
  e <- get_energy o ;;
  let delete := map (fun x => Rleb x min_energy) e in
  strong <- (if any delete then delete_rays o (nonzero delete) else Ok o) ;;
  let s2 := done ops s1 in
  obj_idx <- take1 (surf_ownership objs) idx ;;
  ob <- take1 objs obj_idx ;;
  let rel_idx := idx - surfs_until objs obj_idx in
  owns <- own_rays ob strong rel_idx ;;
  n <- get_num_rays strong ;;
  next <- surfaces_for_next ob strong rel_idx ;;
  rel <- relevancy_block (surf_ownership objs) obj_idx n next ;;
  Ok (s2, g1, Some (mkBlock strong o delete
        (map (fun b : bool => if b then Z.of_nat obj_idx else (-1)%Z) owns) rel)).

(** tracer_engine.py:128-164 *)
Fixpoint process_surfaces (objs : list obj) (min_energy : R) (idx : nat) (surfs : list S) (g : G)
    (frs owneds : list (list bool)) : res (list S * G * list block) :=
  match surfs, frs, owneds with
  | [], _, _ => Ok ([], g, [])
  | s :: surfs', f :: frs', o :: owneds' =>
      '(s', g', k) <- process_surface objs min_energy idx s g f o ;;
      '(ss, g'', ks) <- process_surfaces objs min_energy (Datatypes.S idx) surfs' g' frs' owneds' ;;
      Ok (s' :: ss, g'', match k with Some k => k :: ks | None => ks end)
  | _, _, _ => Err IndexError
  end.

(** [N.hstack] of matrices with one row per surface. *)
Fixpoint hstack_rows (nrows : nat) (ms : list (list (list bool))) : list (list bool) :=
  match ms with
  | [] => repeat [] nrows
  | m :: r => map2 (@app bool) m (hstack_rows nrows r)
  end.

(** The argument [tree]: [True], another true value, or a false value
    (tracer_engine.py:105 tests identity, 167 and 183 test truth). *)
Inductive tree_arg : Type := TreeTrue | TreeTruthy | TreeFalse.

(** Variables of [ray_tracer] that live across iterations. *)
Record tstate : Type := mkT {
  t_surfs : list S;
  t_g : G;
  t_bund : bundle;
  t_own : list Z;
  t_rel : list (list bool);
  t_tree : tree;
  t_record : option (list bundle) }.   (** [record], unbound before the loop *)

(** tracer_engine.py:120-178: one iteration; the boolean says whether to go on. *)
Definition iteration (objs : list obj) (min_energy : R) (ta : tree_arg) (st : tstate)
    : res (tstate * bool) :=
  '(ss, fr, owned) <- intersect_ray (t_bund st) (t_surfs st) (surf_ownership objs)
                        (t_own st) (t_rel st) ;;
  '(ss, g, blocks) <- process_surfaces objs min_energy 0 ss (t_g st) fr owned ;;
  bund <- concatenate_rays (map k_strong blocks) ;;
  tr <- (match ta with
         | TreeFalse => Ok (t_tree st)
         | _ =>
             rec <- concatenate_rays (map k_rec blocks) ;;
             k <- get_num_rays rec ;;
             if Nat.eqb k 0 then Ok (t_tree st) else
             weak <- inherit rec (SIdx (nonzero (concat (map k_weak blocks)))) no_bundle ;;
             Ok (append (t_tree st) (add_bundles bund weak))
         end) ;;
  n <- get_num_rays bund ;;
  let st' := mkT ss g bund (t_own st) (t_rel st) tr (Some (map k_rec blocks)) in
  if Nat.eqb n 0 then Ok (st', false)
  else Ok (mkT ss g bund (concat (map k_own blocks))
             (hstack_rows (length (t_surfs st)) (map k_rel blocks)) tr
             (Some (map k_rec blocks)), true).

(** tracer_engine.py:119-181 *)
Fixpoint iterate (objs : list obj) (min_energy : R) (ta : tree_arg) (reps : nat) (st : tstate)
    : res tstate :=
  match reps with
  | O => Ok st
  | Datatypes.S reps' =>
      '(st', go) <- iteration objs min_energy ta st ;;
      if go then iterate objs min_energy ta reps' st' else Ok st'
  end.

(** tracer_engine.py:103-117 *)
Definition start (objs : list obj) (surfs : list S) (g : G) (b : bundle) (ta : tree_arg)
    : res tstate :=
  n <- get_num_rays b ;;
  Ok (mkT surfs g b (repeat (-1)%Z n) (repeat (repeat true n) (length surfs))
        (match ta with TreeTrue => append new_tree b | _ => new_tree end) None).

(** tracer_engine.py:79-188 [ray_tracer]: the returned vertices and directions, and
    the final state (with the tree). *)
Definition ray_tracer (objs : list obj) (surfs : list S) (g : G) (b : bundle)
    (reps : nat) (min_energy : R) (ta : tree_arg)
    : res (list vec * list vec * tstate) :=
  st0 <- start objs surfs g b ta ;;
  st <- iterate objs min_energy ta reps st0 ;;
  st <- (match ta with
         | TreeFalse =>
             match t_record st with
             | None => Err UnboundLocalError
             | Some bs =>
                 rec <- concatenate_rays bs ;;
                 Ok (mkT (t_surfs st) (t_g st) (t_bund st) (t_own st) (t_rel st)
                       (append (t_tree st) rec) (t_record st))
             end
         | _ => Ok st
         end) ;;
  v <- get_vertices (t_bund st) ;;
  d <- get_directions (t_bund st) ;;
  Ok (v, d, st).

End Engine.

Arguments mkOps {S G}.
Arguments register_incoming {S G}.
Arguments select_rays {S G}.
Arguments get_outgoing {S G}.
Arguments done {S G}.
Arguments test_surface {S G}.
Arguments test_surfaces {S G}.
Arguments intersect_ray {S G}.
Arguments process_surface {S G}.
Arguments process_surfaces {S G}.
Arguments iteration {S G}.
Arguments iterate {S G}.
Arguments start {S G}.
Arguments ray_tracer {S G}.
Arguments mkT {S G}.
Arguments t_surfs {S G}.
Arguments t_g {S G}.
Arguments t_bund {S G}.
Arguments t_own {S G}.
Arguments t_rel {S G}.
Arguments t_tree {S G}.
Arguments t_record {S G}.
