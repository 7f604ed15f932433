(** Model of tracer/tracer_engine.py and tracer/surface.py with surfaces and geometry
    managers as objects: the engine keeps references to surfaces, a surface keeps
    references to its geometry manager and its optics manager.  What a call changes
    is changed for everyone who holds the same object.  Model/Engine.v and
    Model/Surface.v say the same for surfaces that each have their own state.
    Exceptions lose the state, as there. *)
From Coq Require Import Reals List Arith ZArith Bool.
From Verif.Base Require Import Py Num Vec.
From Verif.Model Require Import RayBundle TraceTree Geometry OpticsCallables Engine.
Import ListNotations.

Section SharingEngine.
Variables H G : Type.

(** The surface protocol, surface.py:44-93, called on surface number [k]. *)
Record heap_ops : Type := mkHops {
  at_register : H -> nat -> bundle -> res (H * list num);
  at_select : H -> nat -> list nat -> res H;
  at_outgoing : H -> nat -> G -> res (bundle * G);
  at_done : H -> nat -> H }.

Variable ops : heap_ops.

(** tracer_engine.py:51-60 *)
Definition test_at (b : bundle) (n : nat) (ray_own : list Z) (h : H) (k so : nat)
    (rel : list bool) : res (H * list num * list bool) :=
  if negb (Nat.eqb (length ray_own) n && Nat.eqb (length rel) n) then Err ValueError else
  let owned := owned_row ray_own so rel in
  if negb (any owned) then Ok (h, repeat (Fin 0) n, owned) else
  in_rays <- (if any (map negb owned) then inherit b (SMask owned) no_bundle else Ok b) ;;
  '(h', params) <- at_register ops h k in_rays ;;
  if Nat.eqb (length params) (count_true owned)
  then Ok (h', put_mask owned (repeat (Fin 0) n) params, owned)
  else Err ValueError.

(** tracer_engine.py:50-60: all surfaces register before any is asked again. *)
Fixpoint test_all (b : bundle) (n : nat) (ray_own : list Z) (h : H) (ks sown : list nat)
    (rel : list (list bool)) : res (H * list (list num) * list (list bool)) :=
  match ks, sown, rel with
  | [], _, _ => Ok (h, [], [])
  | k :: ks', so :: sown', r :: rel' =>
      '(h1, row, owned) <- test_at b n ray_own h k so r ;;
      '(h2, rows, owneds) <- test_all b n ray_own h1 ks' sown' rel' ;;
      Ok (h2, row :: rows, owned :: owneds)
  | _, _, _ => Err IndexError
  end.

(** tracer_engine.py:29-77 *)
Definition intersect_at (b : bundle) (h : H) (ks sown : list nat) (ray_own : list Z)
    (rel : list (list bool)) : res (H * list (list bool) * list (list bool)) :=
  n <- get_num_rays b ;;
  '(h', stack, owned) <- test_all b n ray_own h ks sown rel ;;
  if any2 (fun x => nlt x (Fin (- tenm 16))) stack then Err ValueError else
  let stack := clear_zeros stack in
  mins <- col_min stack ;;
  Ok (h', front stack mins, owned).

(** tracer_engine.py:129-164 *)
Definition process_at (objs : list obj) (min_energy : R) (idx : nat) (h : H) (k : nat) (g : G)
    (fr owned : list bool) : res (H * G * option block) :=
  let inters := mask_select owned fr in
  if negb (any inters) then Ok (at_done ops h k, g, None) else
  h1 <- at_select ops h k (nonzero inters) ;;
  '(o, g1) <- at_outgoing ops h1 k g ;;
  ps <- get_parents o ;;
  parents <- take (nonzero owned) ps ;;
  let o := set_parents parents o in
  e <- get_energy o ;;
  let delete := map (fun x => Rleb x min_energy) e in
  strong <- (if any delete then delete_rays o (nonzero delete) else Ok o) ;;
  let h2 := at_done ops h1 k in
  obj_idx <- take1 (surf_ownership objs) idx ;;
  ob <- take1 objs obj_idx ;;
  let rel_idx := idx - surfs_until objs obj_idx in
  owns <- own_rays ob strong rel_idx ;;
  n <- get_num_rays strong ;;
  next <- surfaces_for_next ob strong rel_idx ;;
  rel <- relevancy_block (surf_ownership objs) obj_idx n next ;;
  Ok (h2, g1, Some (mkBlock strong o delete
        (map (fun b : bool => if b then Z.of_nat obj_idx else (-1)%Z) owns) rel)).

(** tracer_engine.py:128-164 *)
Fixpoint process_all (objs : list obj) (min_energy : R) (idx : nat) (h : H) (ks : list nat) (g : G)
    (frs owneds : list (list bool)) : res (H * G * list block) :=
  match ks, frs, owneds with
  | [], _, _ => Ok (h, g, [])
  | k :: ks', f :: frs', o :: owneds' =>
      '(h', g', b) <- process_at objs min_energy idx h k g f o ;;
      '(h'', g'', bs) <- process_all objs min_energy (S idx) h' ks' g' frs' owneds' ;;
      Ok (h'', g'', match b with Some b => b :: bs | None => bs end)
  | _, _, _ => Err IndexError
  end.

(** tracer_engine.py:120-178; the surfaces are the same objects throughout. *)
Definition iteration_at (objs : list obj) (min_energy : R) (ta : tree_arg) (h : H) (st : tstate nat G)
    : res (H * tstate nat G * bool) :=
  '(h1, fr, owned) <- intersect_at (t_bund st) h (t_surfs st) (surf_ownership objs)
                        (t_own st) (t_rel st) ;;
  '(h2, g, blocks) <- process_all objs min_energy 0 h1 (t_surfs st) (t_g st) fr owned ;;
  bund <- concatenate_rays (map k_strong blocks) ;;
  tr <- (match ta with
         | TreeFalse => Ok (t_tree st)
         | _ =>
             rec <- concatenate_rays (map k_rec blocks) ;;
             k <- get_num_rays rec ;;
             if Nat.eqb k 0 then Ok (t_tree st) else
             weak <- inherit rec (SIdx (nonzero (concat (map k_weak blocks)))) no_bundle ;;
             Ok (append (t_tree st) (add_bundles bund weak))
         end) ;;
  n <- get_num_rays bund ;;
  let st' := mkT (t_surfs st) g bund (t_own st) (t_rel st) tr (Some (map k_rec blocks)) in
  if Nat.eqb n 0 then Ok (h2, st', false)
  else Ok (h2, mkT (t_surfs st) g bund (concat (map k_own blocks))
             (hstack_rows (length (t_surfs st)) (map k_rel blocks)) tr
             (Some (map k_rec blocks)), true).

(** tracer_engine.py:119-181 *)
Fixpoint iterate_at (objs : list obj) (min_energy : R) (ta : tree_arg) (reps : nat) (h : H)
    (st : tstate nat G) : res (H * tstate nat G) :=
  match reps with
  | O => Ok (h, st)
  | S reps' =>
      '(h', st', go) <- iteration_at objs min_energy ta h st ;;
      if go then iterate_at objs min_energy ta reps' h' st' else Ok (h', st')
  end.

(** tracer_engine.py:79-188 *)
Definition ray_tracer_at (objs : list obj) (h : H) (ks : list nat) (g : G) (b : bundle)
    (reps : nat) (min_energy : R) (ta : tree_arg) : res (list vec * list vec * (H * tstate nat G)) :=
  st0 <- start objs ks g b ta ;;
  '(h', st) <- iterate_at objs min_energy ta reps h st0 ;;
  st <- (match ta with
         | TreeFalse =>
             match t_record st with
             | None => Err UnboundLocalError
             | Some bs =>
                 rec <- concatenate_rays bs ;;
                 Ok (mkT (t_surfs st) (t_g st) (t_bund st) (t_own st) (t_rel st)
                       (append (t_tree st) rec) (t_record st))
             end
         | _ => Ok st
         end) ;;
  v <- get_vertices (t_bund st) ;;
  d <- get_directions (t_bund st) ;;
  Ok (v, d, (h', st)).

End SharingEngine.

Arguments mkHops {H G}.
Arguments at_register {H G}.
Arguments at_select {H G}.
Arguments at_outgoing {H G}.
Arguments at_done {H G}.
Arguments test_at {H G}.
Arguments test_all {H G}.
Arguments intersect_at {H G}.
Arguments process_at {H G}.
Arguments process_all {H G}.
Arguments iteration_at {H G}.
Arguments iterate_at {H G}.
Arguments ray_tracer_at {H G}.

(** ** The objects *)

(** A surface object: [_geom] (which one), [_opt], [_temp_frame], [_current_bundle],
    [_selected].  Optics managers are told apart by the accounts they keep. *)
Record surf_obj : Type := mkSO {
  so_geom : nat; so_opt : optics; so_frame : mat4;
  so_bundle : option bundle; so_selected : option (list nat) }.

(** A geometry manager: its class and parameters, and its data during a trace. *)
Record geom_obj : Type := mkGO { go_geom : geom; go_state : gstate }.

Record heap : Type := mkHp { hp_surf : nat -> surf_obj; hp_geom : nat -> geom_obj }.

Definition put_surf (h : heap) (k : nat) (s : surf_obj) : heap :=
  mkHp (upd (hp_surf h) k s) (hp_geom h).
Definition put_geom (h : heap) (k : nat) (gs : gstate) : heap :=
  mkHp (hp_surf h) (upd (hp_geom h) k (mkGO (go_geom (hp_geom h k)) gs)).

(** surface.py:44-59 *)
Definition obj_register (h : heap) (k : nat) (b : bundle) : res (heap * list num) :=
  let s := hp_surf h k in
  let h := put_surf h k (mkSO (so_geom s) (so_opt s) (so_frame s) (Some b) (so_selected s)) in
  '(gs, ps) <- find_intersections (go_geom (hp_geom h (so_geom s))) (so_frame s) b ;;
  Ok (put_geom h (so_geom s) gs, ps).

(** surface.py:61-71 *)
Definition obj_select (h : heap) (k : nat) (idxs : list nat) : res heap :=
  let s := hp_surf h k in
  let h := put_surf h k (mkSO (so_geom s) (so_opt s) (so_frame s) (so_bundle s) (Some idxs)) in
  let g := hp_geom h (so_geom s) in
  gs <- select_geom (go_geom g) (go_state g) idxs ;;
  Ok (put_geom h (so_geom s) gs).

(** surface.py:73-83 *)
Definition obj_outgoing (h : heap) (k : nat) (g : shared) : res (bundle * shared) :=
  let s := hp_surf h k in
  match so_bundle s, so_selected s with
  | Some b, Some sel => call_optics (so_opt s) (go_state (hp_geom h (so_geom s))) b sel g
  | _, _ => Err AttributeError
  end.

(** surface.py:85-93 *)
Definition obj_done (h : heap) (k : nat) : heap :=
  let s := hp_surf h k in
  let h := put_surf h k (mkSO (so_geom s) (so_opt s) (so_frame s) None (so_selected s)) in
  put_geom h (so_geom s) (done_geom (go_state (hp_geom h (so_geom s)))).

Definition object_ops : heap_ops heap shared := mkHops obj_register obj_select obj_outgoing obj_done.
