(** Model of tracer/mayavi_ui/scene_view.py: the drawing of rays, and the scene that
    shows an assembly and a ray bundle. *)
From Coq Require Import Reals List Arith ZArith Bool.
From Verif.Base Require Import Py Num Vec.
From Verif.Model Require Import RayBundle TraceTree Geometry OpticsCallables Engine Surface Mesh.
Import ListNotations.
Local Open Scope R_scope.

(** The optional function that chooses rays to show. *)
Definition ray_selector := option (bundle -> list bool).

(** scene_view.py:239-243.  A single value from the selector would be used for every
    ray; this is left out. *)
Definition non_degenerate (sel : ray_selector) (b : bundle) : res (list bool) :=
  se <- get_energy b ;;
  let nd := map (fun e => negb (Reqb e 0)) se in
  match sel with
  | None => Ok nd
  | Some f => if same_len (f b) nd then Ok (map2 andb nd (f b))
              else Err (if Nat.eqb (length (f b)) 1 then OutOfModel else ValueError)
  end.

(** scene_view.py:250, 256 *)
Definition ends (esc : R) (sv sd : list vec) : list vec := map2 (fun v d => vadd v (vscale esc d)) sv sd.

(** scene_view.py:238-259: the endpoints [ev] and the numbers [parents] of the rays
    they belong to; [next] is absent at the last level. *)
Definition level_ends (esc : R) (sel : ray_selector) (b : bundle) (next : option bundle) : res (list vec * list nat) :=
  nd <- non_degenerate sel b ;;
  v <- get_vertices b ;;
  sv <- select (SMask nd) v ;;
  d <- get_directions b ;;
  sd <- select (SMask nd) d ;;
  match next with
  | None => let ev := ends esc sv sd in Ok (ev, seq 0 (length ev))
  | Some end_rays =>
      ps <- get_parents end_rays ;;
      let escaping := map (fun j => negb (existsb (Nat.eqb j) ps)) (nonzero nd) in
      ev <- get_vertices end_rays ;;
      Ok (ev ++ ends esc (mask_select escaping sv) (mask_select escaping sd), ps ++ nonzero escaping)
  end.

(** scene_view.py:237-265: the loop over the levels that are left, where [here] and
    [next] are [accum_points[level]] and [accum_points[level + 1]]. *)
Fixpoint draw_levels (esc : R) (sel : ray_selector) (here next : nat) (t : tree) : res (list vec * list (nat * nat)) :=
  match t with
  | [] => Ok ([], [])
  | b :: rest =>
      '(ev, ps) <- level_ends esc sel b (hd_error rest) ;;
      if negb (same_len ps ev) then Err ValueError else
      '(pts, cs) <- draw_levels esc sel next (next + length ev) rest ;;
      Ok (ev ++ pts, combine (map (Nat.add here) ps) (map (Nat.add next) (seq 0 (length ev))) ++ cs)
  end.

(** scene_view.py:216-272 [show_rays]: the points and the connections handed to
    the plotting library. *)
Definition show_rays (t : tree) (esc : R) (sel : ray_selector) : res (list vec * list (nat * nat)) :=
  first <- get_bundle t 0 ;;
  v <- get_vertices first ;;
  n <- get_num_rays first ;;
  '(pts, cs) <- draw_levels esc sel 0 n t ;;
  Ok (v ++ pts, cs).

(** What the plotting library shows. *)
Inductive drawing : Type :=
  | MeshOf (points : list (list vec)) (colour : vec) (opacity : R)
  | Lines (points : list vec) (connections : list (nat * nat)).

(** The state of a [TracerScene].  The plotting library is a list of drawings, known by
    a number once drawn; [clf] empties it, [remove] takes out one drawing, if it is
    there.  [v_meshes] is the dictionary [_meshes]: the identity of a surface and the
    number of its drawing, or None. *)
Record viewer : Type := mkV {
  v_drawn : list (nat * drawing);
  v_next : nat;
  v_asm : nat;
  v_meshes : list (nat * option nat);
  v_lines : option nat;
  v_source : option bundle;
  v_esc : R;
  v_selector : ray_selector;
  v_iters : nat;
  v_min_energy : R;
  v_disabled : bool }.                     (** [disable_render] *)

(** Assemblies and surfaces, known by numbers, as they are when a method is called;
    annotations of a surface may be missing. *)
Record world : Type := mkW {
  w_surface : nat -> surface;
  w_resolution : nat -> option R;
  w_colour : nat -> option vec;
  w_opacity : nat -> option R;
  w_surfaces : nat -> list nat;            (** [get_surfaces()] of an assembly *)
  w_objects : nat -> list obj;             (** [get_objects()] *)
  w_shared : shared }.

Definition with_drawn (v : viewer) (d : list (nat * drawing)) : viewer :=
  mkV d (v_next v) (v_asm v) (v_meshes v) (v_lines v) (v_source v) (v_esc v) (v_selector v) (v_iters v) (v_min_energy v) (v_disabled v).
Definition with_meshes (v : viewer) (m : list (nat * option nat)) : viewer :=
  mkV (v_drawn v) (v_next v) (v_asm v) m (v_lines v) (v_source v) (v_esc v) (v_selector v) (v_iters v) (v_min_energy v) (v_disabled v).
Definition with_lines (v : viewer) (l : option nat) : viewer :=
  mkV (v_drawn v) (v_next v) (v_asm v) (v_meshes v) l (v_source v) (v_esc v) (v_selector v) (v_iters v) (v_min_energy v) (v_disabled v).
Definition with_asm (v : viewer) (a : nat) : viewer :=
  mkV (v_drawn v) (v_next v) a (v_meshes v) (v_lines v) (v_source v) (v_esc v) (v_selector v) (v_iters v) (v_min_energy v) (v_disabled v).
Definition with_source (v : viewer) (s : option bundle) : viewer :=
  mkV (v_drawn v) (v_next v) (v_asm v) (v_meshes v) (v_lines v) s (v_esc v) (v_selector v) (v_iters v) (v_min_energy v) (v_disabled v).
Definition with_disabled (v : viewer) (d : bool) : viewer :=
  mkV (v_drawn v) (v_next v) (v_asm v) (v_meshes v) (v_lines v) (v_source v) (v_esc v) (v_selector v) (v_iters v) (v_min_energy v) d.

(** Drawing, and [remove()] of a drawing. *)
Definition draw (v : viewer) (d : drawing) : viewer * nat :=
  (mkV (v_drawn v ++ [(v_next v, d)]) (S (v_next v)) (v_asm v) (v_meshes v) (v_lines v) (v_source v) (v_esc v) (v_selector v)
     (v_iters v) (v_min_energy v) (v_disabled v), v_next v).
Definition remove (v : viewer) (h : nat) : viewer :=
  with_drawn v (filter (fun x => negb (Nat.eqb (fst x) h)) (v_drawn v)).

(** Dictionary access. *)
Fixpoint find (k : nat) (m : list (nat * option nat)) : option (option nat) :=
  match m with
  | [] => None
  | (x, y) :: r => if Nat.eqb x k then Some y else find k r
  end.
Fixpoint put (k : nat) (y : option nat) (m : list (nat * option nat)) : list (nat * option nat) :=
  match m with
  | [] => [(k, y)]
  | (x, z) :: r => if Nat.eqb x k then (x, y) :: r else (x, z) :: put k y r
  end.
Definition del (k : nat) (m : list (nat * option nat)) : list (nat * option nat) :=
  filter (fun x => negb (Nat.eqb (fst x) k)) m.
Definition mem (k : nat) (l : list nat) : bool := existsb (Nat.eqb k) l.

Fixpoint foldM {A B : Type} (f : A -> B -> res A) (a : A) (l : list B) : res A :=
  match l with
  | [] => Ok a
  | x :: r => a' <- f a x ;; foldM f a' r
  end.

Section Viewer.
(** The order in which a dictionary with the given keys is gone through. *)
Variable order : list nat -> list nat.
Variable w : world.

Definition or_else {A : Type} (o : option A) (d : A) : A := match o with Some x => x | None => d end.

(** scene_view.py:188-214: one surface.  After an exception the partial effect is not
    represented, here and below. *)
Definition show_surface (colour : vec) (resolution opacity : R) (update : option (list nat)) (v : viewer) (sid : nat) : res viewer :=
  if match update with Some l => negb (mem sid l) | None => false end then Ok v else
  let sres := or_else (w_resolution w sid) resolution in
  let scol := or_else (w_colour w sid) colour in
  let sop := or_else (w_opacity w sid) opacity in
  let v := match find sid (v_meshes v) with Some (Some h) => remove v h | _ => v end in
  m <- surf_mesh (w_surface w sid) sres ;;
  let '(v, h) := draw v (MeshOf m scol sop) in
  Ok (with_meshes v (put sid (Some h) (v_meshes v))).

(** scene_view.py:172-214 *)
Definition show_assembly (colour : vec) (resolution : R) (update : option (list nat)) (opacity : R) (v : viewer) : res viewer :=
  foldM (show_surface colour resolution opacity update) v (order (map fst (v_meshes v))).
Definition grey : vec := V3 (1 / 2) (1 / 2) (1 / 2).

(** scene_view.py:63-72 *)
Definition set_assembly (a : nat) (v : viewer) : res viewer :=
  let v := with_asm v a in
  let v := with_meshes v (map (fun s => (s, None)) (nodup Nat.eq_dec (w_surfaces w a))) in
  show_assembly grey 10 None 1 v.

(** scene_view.py:51-61 *)
Definition clear_scene (v : viewer) : viewer :=
  let v := with_drawn v [] in
  let v := with_lines v None in
  let v := fold_left (fun v x => match snd x with Some h => remove v h | None => v end) (v_meshes v) v in
  with_meshes v (map (fun x => (fst x, None)) (v_meshes v)).

(** scene_view.py:85-88 *)
Definition drop_vanished (ids : list nat) (v : viewer) (sid : nat) : res viewer :=
  if mem sid ids then Ok v else
  match find sid (v_meshes v) with
  | None => Err KeyError
  | Some None => Err AttributeError
  | Some (Some h) => let v := remove v h in Ok (with_meshes v (del sid (v_meshes v)))
  end.

(** scene_view.py:91-95 *)
Fixpoint add_new (ids : list nat) (m : list (nat * option nat)) : list (nat * option nat) * list nat :=
  match ids with
  | [] => (m, [])
  | sid :: r =>
      match find sid m with
      | Some _ => add_new r m
      | None => let '(m', new) := add_new r (put sid None m) in (m', sid :: new)
      end
  end.

(** scene_view.py:74-96 *)
Definition update_surfaces (v : viewer) : res viewer :=
  let ids := w_surfaces w (v_asm v) in
  v <- foldM (drop_vanished ids) v (order (map fst (v_meshes v))) ;;
  let '(m, new) := add_new ids (v_meshes v) in
  show_assembly grey 10 (Some new) 1 (with_meshes v m).

(** scene_view.py:134-158.  What the trace does to surfaces and accounts is not kept. *)
Definition plot_ray_trace (v : viewer) : res viewer :=
  match v_source v with
  | None => Ok v
  | Some b =>
      let v := with_disabled v true in
      let v := match v_lines v with Some h => with_lines (remove v h) None | None => v end in
      '(_, _, st) <- ray_tracer surface_ops (w_objects w (v_asm v)) (map (w_surface w) (w_surfaces w (v_asm v))) (w_shared w) b
                       (v_iters v) (v_min_energy v) TreeTrue ;;
      '(pts, cs) <- show_rays (t_tree st) (v_esc v) (v_selector v) ;;
      let '(v, h) := draw v (Lines pts cs) in
      Ok (with_disabled (with_lines v (Some h)) false)
  end.

(** scene_view.py:98-106 *)
Definition set_source (s : option bundle) (v : viewer) : res viewer := plot_ray_trace (with_source v s).

(** scene_view.py:117-132 *)
Definition trace_control (v : viewer) : nat * R := (v_iters v, v_min_energy v).
Definition set_trace_control (max_iter : option nat) (min_energy : option R) (v : viewer) : viewer :=
  mkV (v_drawn v) (v_next v) (v_asm v) (v_meshes v) (v_lines v) (v_source v) (v_esc v) (v_selector v)
    (or_else max_iter (v_iters v)) (or_else min_energy (v_min_energy v)) (v_disabled v).

(** scene_view.py:20-46 *)
Definition new_viewer (a : nat) (source : option bundle) (escaping : R) (sel : ray_selector) : res viewer :=
  v <- set_assembly a (mkV [] 0 a [] None source escaping sel (Z.to_nat 200000000) (5 / 100) false) ;;
  plot_ray_trace v.
End Viewer.
