(** Model of the geometry managers: tracer/geometry_manager.py, flat_surface.py,
    triangular_face.py, quadric.py, sphere_surface.py, cylinder.py and
    paraboloid.py.

    A geometry manager is its class with constructor parameters ([geom]) and the
    data it holds during the trace protocol ([gstate]).  Attributes left behind
    by [done] that no later call can read before it overwrites them are not
    represented. *)
From Coq Require Import Reals List Arith Bool.
From Verif.Base Require Import Py Num Vec.
From Verif.Model Require Import RayBundle Boundary.
Import ListNotations.
Local Open Scope R_scope.

(** Classes and the attributes set by their constructors. *)
Inductive geom : Type :=
  | Base                                   (** geometry_manager.py:8 *)
  | Flat                                   (** flat_surface.py:11 *)
  | RectPlate (hw hh : R)                  (** [_half_dims] *)
  | RoundPlate (radius : R)                (** [_R] *)
  | Triangle (v0 v1 : vec)                 (** columns of [_verts] *)
  | Sphere (radius : R)                    (** [_rad] *)
  | Hemisphere (radius : R)
  | CutSphere (radius : R) (bound : option bshape)
  | Cylinder (radius : R)                  (** [_R] *)
  | FiniteCyl (radius half_h : R)          (** [_R], [_half_h] *)
  | Parab (a b : R)                        (** [a], [b] *)
  | ParabDish (a b radius h : R)           (** [a], [b], [_R], [_h] *)
  | HexDish (a b radius : R).              (** [a], [b], [_R] *)

(** flat_surface.py:170-182 *)
Definition new_rect_plate (width height : R) : res geom :=
  if Rleb width 0 then Err ValueError else
  if Rleb height 0 then Err ValueError else
  Ok (RectPlate (width / 2) (height / 2)).

(** flat_surface.py:220-229 *)
Definition new_round_plate (radius : R) : res geom :=
  if Rleb radius 0 then Err ValueError else Ok (RoundPlate radius).

(** triangular_face.py:20-33 *)
Definition new_triangle (v0 v1 : vec) : geom := Triangle v0 v1.

(** sphere_surface.py:30-33 *)
Definition check_radius (radius : R) : res R :=
  if Rleb radius 0 then Err ValueError else Ok radius.

(** sphere_surface.py:16-25, 149-157 *)
Definition new_sphere (radius : R) : res geom := r <- check_radius radius ;; Ok (Sphere r).
Definition new_hemisphere (radius : R) : res geom := r <- check_radius radius ;; Ok (Hemisphere r).
Definition new_cut_sphere (radius : R) (bound : option bshape) : res geom :=
  r <- check_radius radius ;; Ok (CutSphere r bound).

(** cylinder.py:15-17, 66-68 *)
Definition new_cylinder (diameter : R) : geom := Cylinder (diameter / 2).
Definition new_finite_cylinder (diameter height : R) : geom :=
  FiniteCyl (diameter / 2) (height / 2).

(** paraboloid.py:12-23; [1./(a**2)] of a Python float *)
Definition new_parab (a b : R) : res geom :=
  if Reqb (a * a) 0 then Err ZeroDivisionError else
  if Reqb (b * b) 0 then Err ZeroDivisionError else
  Ok (Parab (1 / (a * a)) (1 / (b * b))).

(** paraboloid.py:79-80, 153-154: [math.sqrt] of a negative number raises
    ValueError. *)
Definition par_param (focal_length : R) : res R :=
  if Rltb focal_length 0 then Err ValueError else Ok (2 * sqrt focal_length).

(** paraboloid.py:72-82 *)
Definition new_dish (diameter focal_length : R) : res geom :=
  p <- par_param focal_length ;;
  if Reqb (p * p) 0 then Err ZeroDivisionError else
  Ok (ParabDish (1 / (p * p)) (1 / (p * p)) (diameter / 2)
        ((diameter / 2 / p) * (diameter / 2 / p))).

(** paraboloid.py:146-155 *)
Definition new_hex_dish (diameter focal_length : R) : res geom :=
  p <- par_param focal_length ;;
  if Reqb (p * p) 0 then Err ZeroDivisionError else
  Ok (HexDish (1 / (p * p)) (1 / (p * p)) (diameter / 2)).

(** The local Z axis in global coordinates, [frame[:3,2]]. *)
Definition zaxis (frame : mat4) : vec := v4_3 (c4_2 frame).

(** What [find_intersections] leaves for [select_rays]. *)
Inductive gdata : Type :=
  | DParams (ps : list num) (back : list bool)        (** [_params], [_backside] *)
  | DGlobal (glob : list nvec) (back : list bool)     (** [_global], [_backside] *)
  | DVerts (verts : list (option nvec)).              (** [_vertices]; [None] is
                                                          uninitialised memory *)

(** ** Flat surfaces *)

(** flat_surface.py:33-56 *)
Definition flat_find (frame : mat4) (vs ds : list vec) : list num * list bool :=
  let z := zaxis frame in
  let rel := map (fun v => vsub v (loc_of frame)) vs in
  let dt := map (fun d => dot d z) ds in
  let unparallel := map (fun x => Rltb (tenm 10) (Rabs x)) dt in
  let vt := map (dot z) (mask_select unparallel rel) in
  let params := put_mask unparallel (repeat PInf (length vs))
                  (map2 (fun a b => Fin (- a / b)) vt (mask_select unparallel dt)) in
  let negative := map (fun x => nlt x (Fin 0)) params in
  (fill_mask negative params PInf, map (fun x => Rltb 0 x) dt).

(** flat_surface.py:134-143 *)
Definition finite_global (vs ds : list vec) (ps : list num) : list nvec :=
  map3 (fun v d p => along v d p) vs ds ps.

(** Parameters with those of trimmed points replaced by inf. *)
Definition trim (outside : nvec -> bool) (glob : list nvec) (ps : list num) : list num :=
  fill_mask (map outside glob) ps PInf.

(** flat_surface.py:146-148, 190 *)
Definition outside_rect (inv : mat4) (hw hh : R) (p : nvec) : bool :=
  nlt (Fin hw) (nabs (ndot4 (q0 inv) p)) || nlt (Fin hh) (nabs (ndot4 (q1 inv) p)).

(** flat_surface.py:146-148, 237 *)
Definition outside_round (inv : mat4) (r : R) (p : nvec) : bool :=
  let x := ndot4 (q0 inv) p in let y := ndot4 (q1 inv) p in
  nlt (Fin (r * r)) (nadd (nmul x x) (nmul y y)).

(** triangular_face.py:58-72 *)
Definition outside_triangle (frame : mat4) (v0 v1 : vec) (p : nvec) : bool :=
  let c := loc_of frame in
  let rel0 := vsub (app4 frame v0) c in
  let rel1 := vsub (app4 frame v1) c in
  let w := NV (nsub (nx p) (Fin (vx c))) (nsub (ny p) (Fin (vy c))) (nsub (nz p) (Fin (vz c))) in
  let wdot r := nadd (nadd (nmul (nx w) (Fin (vx r))) (nmul (ny w) (Fin (vy r))))
                     (nmul (nz w) (Fin (vz r))) in
  let uv := dot v0 v1 in
  let n0 := norm2 v0 in let n1 := norm2 v1 in
  let den := uv * uv - n0 * n1 in
  let bc0 := ndivf (nsub (nmul (Fin uv) (wdot rel1)) (nmul (Fin n1) (wdot rel0))) den in
  let bc1 := ndivf (nsub (nmul (Fin uv) (wdot rel0)) (nmul (Fin n0) (wdot rel1))) den in
  (nlt bc0 (Fin 0) || nlt bc1 (Fin 0)) || nlt (Fin 1) (nadd bc0 bc1).

(** ** Quadrics *)

(** [N.nonzero(m.T)[1]] and [N.nonzero(m)[0]] for a 2 x n boolean array given by
    columns. *)
Definition true_rows (m : list (bool * bool)) : list nat :=
  concat (map (fun pq : bool * bool =>
     ((if fst pq then [0] else []) ++ (if snd pq then [1] else []))%nat) m).
Definition rows_major (m : list (bool * bool)) : list nat :=
  repeat 0%nat (count_true (map fst m)) ++ repeat 1%nat (count_true (map snd m)).

Definition por (pq : bool * bool) : bool := fst pq || snd pq.
Definition pand (pq : bool * bool) : bool := fst pq && snd pq.
Definition pxor (pq : bool * bool) : bool := xorb (fst pq) (snd pq).

(** [select[one_hit] = values], for index arrays [select] with [None] for nan. *)
Definition assign_sel (mask : list bool) (sel : list (option nat)) (vals : list nat)
    : res (list (option nat)) :=
  if Nat.eqb (length vals) (count_true mask)
  then Ok (put_mask mask sel (map Some vals)) else Err ValueError.

(** quadric.py:112-126: the default [_select_coords]; [N.empty] is overwritten
    everywhere, represented by [None]. *)
Definition positive2 (prm : list (num * num)) : list (bool * bool) :=
  map (fun h : num * num => (nlt (Fin 0) (fst h), nlt (Fin 0) (snd h))) prm.
Definition select_default (prm : list (num * num)) : res (list (option nat)) :=
  let pos := positive2 prm in
  let sel := repeat (@None nat) (length prm) in
  let sel := fill_mask (map (fun p => negb (por p)) pos) sel None in
  let sel := fill_mask (map pand pos) sel (Some 0%nat) in
  assign_sel (map pxor pos) sel (true_rows (mask_select (map pxor pos) pos)).

(** The common end of the overriding [_select_coords]: [valid] says which of the
    two points may be used; [vals] is how the code reads off the valid rows. *)
Definition select_valid (vals : list (bool * bool) -> list nat) (sel : list (option nat))
    (valid : list (bool * bool)) : res (list (option nat)) :=
  let sel := fill_mask (map (fun p => negb (por p)) valid) sel None in
  assign_sel (map pxor valid) sel (vals (mask_select (map pxor valid) valid)).

Definition and_positive (ok : nvec -> bool) (coords : list (nvec * nvec)) (prm : list (num * num))
    : list (bool * bool) :=
  map2 (fun (c : nvec * nvec) (h : num * num) =>
          (ok (fst c) && nlt (Fin 0) (fst h), ok (snd c) && nlt (Fin 0) (snd h))) coords prm.

(** paraboloid.py:178-182 *)
Definition in_hexagon (inv : mat4) (r : R) (p : nvec) : bool :=
  let ax := nabs (ndot4 (q0 inv) p) in
  let ay := nabs (ndot4 (q1 inv) p) in
  negb (nlt (Fin (sqrt 3 * r / 2)) ax
        || nlt (nsub (Fin r) (nmul (Fin (tan (PI / 6))) ax)) ay).

(** [_select_coords]: quadric.py:94-126, sphere_surface.py:100-117, 164-180,
    cylinder.py:70-98, paraboloid.py:84-110, 157-188.  For the finite cylinder the
    array starts out as nan instead of the defaults, and both-hitting entries are
    set to 0.  The bounding volume of a cut sphere is placed at the start of
    [find_intersections] (sphere_surface.py:159-162). *)
Definition select_coords (gm : geom) (frame : mat4) (coords : list (nvec * nvec))
    (prm : list (num * num)) : res (list (option nat)) :=
  match gm with
  | Hemisphere _ =>
      sel <- select_default prm ;;
      inv <- inv4 frame ;;
      select_valid rows_major sel
        (and_positive (fun p => nle (ndot4 (q2 inv) p) (Fin 0)) coords prm)
  | CutSphere _ None => select_default prm
  | CutSphere _ (Some bd) =>
      sel <- select_default prm ;;
      flags <- mapM (fun c : nvec * nvec =>
                       in_bounds (transform_frame_b bd frame) [fst c; snd c]) coords ;;
      select_valid rows_major sel
        (map2 (fun (f : list bool) (h : num * num) =>
                 (nth 0 f false && nlt (Fin 0) (fst h), nth 1 f false && nlt (Fin 0) (snd h)))
              flags prm)
  | FiniteCyl _ half_h =>
      inv <- inv4 frame ;;
      let hitting := and_positive (fun p => nle (nabs (ndot4 (q2 inv) p)) (Fin half_h)) coords prm in
      let sel := fill_mask (map pand hitting) (repeat None (length prm)) (Some 0%nat) in
      assign_sel (map pxor hitting) sel (true_rows (mask_select (map pxor hitting) hitting))
  | ParabDish _ _ _ h =>
      sel <- select_default prm ;;
      inv <- inv4 frame ;;
      select_valid true_rows sel
        (and_positive (fun p => nle (ndot4 (q2 inv) p) (Fin h)) coords prm)
  | HexDish _ _ r =>
      sel <- select_default prm ;;
      inv <- inv4 frame ;;
      select_valid true_rows sel (and_positive (in_hexagon inv r) coords prm)
  | _ => select_default prm
  end.

(** [get_ABC] for one ray: sphere_surface.py:53-68, cylinder.py:19-42,
    paraboloid.py:48-62. *)
Definition abc_sphere (frame : mat4) (r : R) (v d : vec) : R * R * R :=
  let c := loc_of frame in
  (norm2 d, 2 * dot d (vsub v c), norm2 (vsub v c) - r * r).
Definition abc_cylinder (r : R) (v d : vec) : R * R * R :=
  (vx d * vx d + vy d * vy d, 2 * (vx d * vx v + vy d * vy v),
   vx v * vx v + vy v * vy v - r * r).
Definition abc_parab (a b : R) (v d : vec) : R * R * R :=
  (a * (vx d * vx d) + b * (vy d * vy d),
   2 * a * vx d * vx v + 2 * b * vy d * vy v - vz d,
   a * (vx v * vx v) + b * (vy v * vy v) - vz v).

(** Rays in the surface's frame: the transposed rotation block is applied to the
    directions, the inverse frame to the vertices. *)
Definition to_local (frame inv : mat4) (f : vec -> vec -> R * R * R) (v d : vec) : R * R * R :=
  f (app4 inv v) (mv3 (tr3 (rot_of frame)) d).

Definition get_ABC (gm : geom) (frame : mat4) (vs ds : list vec) : res (list (R * R * R)) :=
  match gm with
  | Sphere r | Hemisphere r | CutSphere r _ => Ok (map2 (abc_sphere frame r) vs ds)
  | Cylinder r | FiniteCyl r _ =>
      inv <- inv4 frame ;; Ok (map2 (to_local frame inv (abc_cylinder r)) vs ds)
  | Parab a b | ParabDish a b _ _ | HexDish a b _ =>
      inv <- inv4 frame ;; Ok (map2 (to_local frame inv (abc_parab a b)) vs ds)
  | _ => Err AttributeError
  end.

(** quadric.py:69-77: the two parameters for one ray with [delta >= 0]. *)
Definition roots (abc : R * R * R) : num * num :=
  let '(A, B, C) := abc in
  if Rleb A (tenm 10) then (fdiv (- C) B, fdiv (- C) B)
  else (Fin ((- B - sqrt (B * B - 4 * A * C)) / (2 * A)),
        Fin ((- B + sqrt (B * B - 4 * A * C)) / (2 * A))).

Definition has_roots (abc : R * R * R) : bool :=
  let '(A, B, C) := abc in Rleb 0 (B * B - 4 * A * C).

(** [N.choose(select, choices)] for one column. *)
Definition choose2 {A : Type} (s : nat) (c : A * A) : A :=
  match s with O => fst c | _ => snd c end.

(** quadric.py:47-92 *)
Definition quad_find (gm : geom) (frame : mat4) (vs ds : list vec)
    : res (list num * list (option nvec)) :=
  let n := length vs in
  abc <- get_ABC gm frame vs ds ;;
  let any_inters := map has_roots abc in
  if Nat.eqb (count_true any_inters) 0 then Ok (repeat PInf n, repeat None n) else
  let hits := map roots (mask_select any_inters abc) in
  let coords := map3 (fun v d (h : num * num) => (along v d (fst h), along v d (snd h)))
                  (mask_select any_inters vs) (mask_select any_inters ds) hits in
  select <- select_coords gm frame coords hits ;;
  let not_missed := map (fun s : option nat => match s with Some _ => true | None => false end) select in
  let any_inters := put_mask any_inters any_inters not_missed in
  let sel := concat (map (fun s : option nat => match s with Some k => [k] | None => [] end) select) in
  Ok (put_mask any_inters (repeat PInf n) (map2 choose2 sel (mask_select not_missed hits)),
      put_mask any_inters (repeat None n)
        (map Some (map2 choose2 sel (mask_select not_missed coords)))).

(** ** The protocol *)

Inductive gstate : Type :=
  | GIdle
  | GFound (frame : mat4) (b : bundle) (d : gdata)
  | GSelFlat (frame : mat4) (b : bundle) (idxs : list nat) (back : list nat) (pts : list vec)
  | GSelQuad (frame : mat4) (b : bundle) (idxs : list nat) (pts : list vec) (norms : list vec).

(** [find_intersections] of each class. *)
Definition find_intersections (gm : geom) (frame : mat4) (b : bundle) : res (gstate * list num) :=
  match gm with
  | Base => Err TypeError
  | _ =>
    ds <- get_directions b ;;
    vs <- get_vertices b ;;
    if negb (same_len ds vs) then Err ValueError else
    match gm with
    | Flat =>
        let '(ps, back) := flat_find frame vs ds in
        Ok (GFound frame b (DParams ps back), ps)
    | RectPlate _ _ | RoundPlate _ | Triangle _ _ =>
        let '(ps, back) := flat_find frame vs ds in
        let glob := finite_global vs ds ps in
        inv <- inv4 frame ;;
        let outside := match gm with
                       | RectPlate hw hh => outside_rect inv hw hh
                       | RoundPlate r => outside_round inv r
                       | Triangle v0 v1 => outside_triangle frame v0 v1
                       | _ => fun _ => false
                       end in
        Ok (GFound frame b (DGlobal glob back), trim outside glob ps)
    | _ =>
        '(ps, verts) <- quad_find gm frame vs ds ;;
        Ok (GFound frame b (DVerts verts), ps)
    end
  end.

(** Points with a coordinate that is not a finite number are outside the model. *)
Definition finite_point (p : nvec) : res vec :=
  match fin_vec p with Some v => Ok v | None => Err OutOfModel end.

(** [x / sqrt(sum(x**2))] *)
Definition normalised (v : vec) : res vec :=
  if Reqb (norm2 v) 0 then Err OutOfModel else Ok (vscale (/ sqrt (norm2 v)) v).

(** [_normals] for one point: sphere_surface.py:35-50 *)
Definition normal_sphere (frame : mat4) (hit d : vec) : res vec :=
  let c := loc_of frame in
  let side := dot (vsub c hit) d in
  let n := vsub hit c in
  normalised (if Rltb side 0 then vopp n else n).

(** cylinder.py:44-58 *)
Definition normal_cylinder (frame inv : mat4) (hit d : vec) : res vec :=
  let h := app4 inv hit in
  let dl := mv3 (tr3 (rot_of frame)) d in
  n <- normalised (V3 (vx h) (vy h) 0) ;;
  let n := if Rltb 0 (vx n * vx dl + vy n * vy dl) then vopp n else n in
  Ok (mv3 (rot_of frame) n).

(** paraboloid.py:25-46 *)
Definition normal_parab (a b : R) (frame inv : mat4) (hit d : vec) : res vec :=
  let h := app4 inv hit in
  let dl := mv3 (tr3 (rot_of frame)) d in
  n <- normalised (V3 (- (2 * vx h * a)) (- (2 * vy h * b)) 1) ;;
  let n := if Rltb 0 (dot dl n) then vopp n else n in
  Ok (mv3 (rot_of frame) n).

Definition normals (gm : geom) (frame : mat4) (hits ds : list vec) : res (list vec) :=
  match gm with
  | Sphere _ | Hemisphere _ | CutSphere _ _ => sequence (map2 (normal_sphere frame) hits ds)
  | Cylinder _ | FiniteCyl _ _ =>
      inv <- inv4 frame ;; sequence (map2 (normal_cylinder frame inv) hits ds)
  | Parab a b | ParabDish a b _ _ | HexDish a b _ =>
      inv <- inv4 frame ;; sequence (map2 (normal_parab a b frame inv) hits ds)
  | _ => Err AttributeError
  end.

(** [select_rays]: flat_surface.py:58-76, 152-163, quadric.py:128-144.  A
    selection without a new [find_intersections] before it is outside the model: what
    the code raises, if anything, then depends on what an earlier bundle has left
    behind ([_backside] is never deleted, flat_surface.py:54, 96-105) and the base
    class raises nothing (geometry_manager.py:44-48). *)
Definition select_geom (gm : geom) (st : gstate) (idxs : list nat) : res gstate :=
  match st with
  | GIdle => Err OutOfModel
  | GFound frame b (DParams ps back) =>
      bk <- take back idxs ;;
      vs <- get_vertices b ;; vs <- take vs idxs ;;
      ds <- get_directions b ;; ds <- take ds idxs ;;
      ps <- take ps idxs ;;
      pts <- mapM finite_point (map3 (fun v d p => along v d p) vs ds ps) ;;
      Ok (GSelFlat frame b idxs (nonzero bk) pts)
  | GFound frame b (DGlobal glob back) =>
      bk <- take back idxs ;;
      g <- take glob idxs ;;
      pts <- mapM finite_point g ;;
      Ok (GSelFlat frame b idxs (nonzero bk) pts)
  | GFound frame b (DVerts verts) =>
      vs <- take verts idxs ;;
      pts <- mapM (fun o : option nvec => match o with Some p => finite_point p | None => Err OutOfModel end) vs ;;
      ds <- get_directions b ;; ds <- take ds idxs ;;
      norms <- normals gm frame pts ds ;;
      Ok (GSelQuad frame b idxs pts norms)
  | _ => Err OutOfModel
  end.

(** [get_normals]: flat_surface.py:78-85, quadric.py:146-151.  Asked before
    [select_rays] it is outside the model. *)
Definition get_normals (st : gstate) : res (list vec) :=
  match st with
  | GSelFlat frame _ idxs back _ =>
      Ok (map (fun k => if existsb (Nat.eqb k) back then vopp (zaxis frame) else zaxis frame)
              (seq 0 (length idxs)))
  | GSelQuad _ _ _ _ norms => Ok norms
  | _ => Err OutOfModel
  end.

(** [get_intersection_points_global]: flat_surface.py:87-94, quadric.py:153-160.  Asked
    before [select_rays] it is outside the model: quadrics and finite flat surfaces
    answer with the points of the whole bundle, infinite flat ones raise. *)
Definition get_points (st : gstate) : res (list vec) :=
  match st with
  | GSelFlat _ _ _ _ pts => Ok pts
  | GSelQuad _ _ _ pts _ => Ok pts
  | _ => Err OutOfModel
  end.

(** geometry_manager.py:28-33 [up] *)
Definition up (st : gstate) : res vec :=
  match st with
  | GIdle => Err AttributeError
  | GFound frame _ _ | GSelFlat frame _ _ _ _ | GSelQuad frame _ _ _ _ => Ok (zaxis frame)
  end.

(** [done]: geometry_manager.py:35-42, flat_surface.py:96-105, quadric.py:162-172 *)
Definition done_geom (st : gstate) : gstate := GIdle.
