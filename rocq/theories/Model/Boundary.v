(** Model of tracer/boundary_shape.py: bounding volumes. *)
From Coq Require Import Reals List Arith Bool.
From Verif.Base Require Import Py Num Vec.
Import ListNotations.
Local Open Scope R_scope.

(** A boundary shape as built: [BSphere] keeps the location of its centre in the
    containing frame, the others their whole transform (has_frame.py:23-34).
    [BBase] is a direct instance of [BoundaryShape]. *)
Inductive bshape : Type :=
  | BSphere (loc : vec) (radius : R)
  | BCylinder (radius : R) (tr : mat4)
  | BPlane (tr : mat4)
  | BBase (tr : mat4).

(** boundary_shape.py:104-110: the rotation given is not passed on, so the
    transform of a cylinder is a pure translation. *)
Definition new_bcylinder (diameter : R) (loc : vec) (rot : mat3) : bshape :=
  BCylinder (diameter / 2) (mk4 id3 loc).

(** has_frame.py:69-74 and boundary_shape.py:78-83 [transform_frame]: the state
    after it is kept in a separate value, either the centre ([_temp_loc]) or the
    frame ([_temp_frame]) in global coordinates. *)
Inductive bplaced : Type :=
  | PSphere (centre : vec) (radius : R)
  | PCylinder (radius : R) (frame : mat4)
  | PPlane (frame : mat4)
  | PBase.

Definition transform_frame_b (b : bshape) (tr : mat4) : bplaced :=
  match b with
  | BSphere loc r => PSphere (app4 tr loc) r
  | BCylinder r t => PCylinder r (mm4 tr t)
  | BPlane t => PPlane (mm4 tr t)
  | BBase _ => PBase
  end.

(** boundary_shape.py:76 *)
Definition in_sphere (centre : vec) (radius : R) (p : nvec) : bool :=
  let x := nsub (nx p) (Fin (vx centre)) in
  let y := nsub (ny p) (Fin (vy centre)) in
  let z := nsub (nz p) (Fin (vz centre)) in
  nle (nadd (nadd (nmul x x) (nmul y y)) (nmul z z)) (Fin (radius * radius)).

(** boundary_shape.py:70-76, 112-122, 125-135, 24-37 [in_bounds] for an (n,3)
    array.  The cylinder stacks [vertices.shape[1]] = 3 ones under n columns,
    which fails unless n = 3, and multiplies by the frame instead of its
    inverse. *)
Definition in_bounds (b : bplaced) (ps : list nvec) : res (list bool) :=
  match b with
  | PSphere c r => Ok (map (in_sphere c r) ps)
  | PCylinder r fr =>
      if Nat.eqb (length ps) 3 then
        Ok (map (fun p => let x := ndot4 (q0 fr) p in let y := ndot4 (q1 fr) p in
                          nle (nadd (nmul x x) (nmul y y)) (Fin (r * r))) ps)
      else Err ValueError
  | PPlane fr =>
      i <- inv4 fr ;; Ok (map (fun p => nle (Fin 0) (ndot4 (q2 i) p)) ps)
  | PBase => Err TypeError
  end.

(** boundary_shape.py:98-101: [bounding_rect_for_plane] of a sphere.  After
    [transform_frame], [_temp_loc] has four components and appending a fifth makes
    the product with the 4x4 matrix fail. *)
Definition bounding_rect (transformed : bool) (centre : vec) (radius : R) (tr : mat4)
    : res (R * R * R * R) :=
  i <- inv4 tr ;;
  if transformed then Err ValueError else
  let c := app4 i centre in
  let r2 := radius * radius - (vz centre - vz c) * (vz centre - vz c) in
  if Rltb r2 0 then Err OutOfModel else
  let reff := sqrt r2 in
  Ok (vx c - reff, vx c + reff, vy c - reff, vy c + reff).
