(** Model of tracer/models/spherical_lens.py. *)
From Coq Require Import Reals List Arith Bool.
From Verif.Base Require Import Py Num Vec.
From Verif.Model Require Import RayBundle Spatial Boundary Geometry OpticsCallables Assembly Scene.
Import ListNotations.
Local Open Scope R_scope.

(** A radius argument: [None] is Python's None.  Lengths and the index are floats;
    Python 2 would divide integers otherwise. *)
Definition radius_arg : Type := option num.

(** spherical_lens.py:43, 60: [R in [0, None, N.inf, -N.inf]] *)
Definition is_planar (r : radius_arg) : bool :=
  match r with
  | None | Some PInf | Some NInf => true
  | Some (Fin r) => Reqb r 0
  | Some NaN => false
  end.

(** spherical_lens.py:40 *)
Definition flip_side : mat3 := rot_of (rotx PI).

(** spherical_lens.py:49-53, 67-71: the bounding plane of a curved face with the Z
    coordinate of its location.  The square root of a negative number or of NaN
    would be NaN. *)
Definition cut_plane (diameter : R) (r : num) : res (bshape * R) :=
  match r with
  | Fin r =>
      let s := r * r - diameter * diameter / 4 in
      if Rltb s 0 then Err OutOfModel else
      let z := sqrt s in
      Ok (if Rltb 0 r then (BPlane (mk4 id3 (V3 0 0 z)), z)
          else (BPlane (mk4 flip_side (V3 0 0 (- z))), - z))
  | _ => Err OutOfModel
  end.

(** spherical_lens.py:48-57, 66-75; the surface, its radius and where it is cut. *)
Definition curved_face (limit : nat) (diameter : R) (r : num) (refr_idx : R) : B (nat * (R * R)) :=
  ' (sect, cut) <+ calc (cut_plane diameter r) ;+
  r <+ calc (match r with Fin r => Ok r | _ => Err OutOfModel end) ;+
  sphere <+ calc (new_cut_sphere (Rabs r) (Some sect)) ;+
  n <+ make_surface limit sphere (Refractive 1 refr_idx) None None ;+
  bret (n, (r, cut)).

(** spherical_lens.py:43-47.  The name [B] in line 47 is not defined. *)
Definition flat_front (limit : nat) (diameter refr_idx : R) : B (nat * (R * R)) :=
  g <+ calc (new_round_plate (diameter / 2)) ;+
  n <+ make_surface limit g (Refractive 1 refr_idx) None None ;+
  calc (Err NameError).
(** spherical_lens.py:43-57 *)
Definition front_face (limit : nat) (diameter : R) (r : radius_arg) (refr_idx : R) : B (nat * (R * R)) :=
  match r with
  | Some x =>
      if is_planar r then flat_front limit diameter refr_idx else curved_face limit diameter x refr_idx
  | None => flat_front limit diameter refr_idx
  end.

(** spherical_lens.py:60-65 *)
Definition flat_back (limit : nat) (diameter refr_idx : R) : B (nat * option (R * R)) :=
  g <+ calc (new_round_plate (diameter / 2)) ;+
  rot <+ literal (A33 flip_side) ;+
  n <+ make_surface limit g (Refractive 1 refr_idx) None (Some rot) ;+
  bret (n, None).
(** spherical_lens.py:60-75; [None] for the infinite radius. *)
Definition back_face (limit : nat) (diameter : R) (r : radius_arg) (refr_idx : R) : B (nat * option (R * R)) :=
  match r with
  | Some x =>
      if is_planar r then flat_back limit diameter refr_idx
      else
        ' (n, rc) <+ curved_face limit diameter x refr_idx ;+
        bret (n, Some rc)
  | None => flat_back limit diameter refr_idx
  end.

(** spherical_lens.py:85: [1./R2] and the product with it are zero for an infinite
    radius; the index divides a float. *)
Definition optical_power (depth r1 : R) (r2 : option R) (refr_idx : R) : res R :=
  if Reqb refr_idx 0 then Err ZeroDivisionError else
  Ok ((refr_idx - 1) *
      (1 / r1 - match r2 with Some r => 1 / r | None => 0 end +
       match r2 with Some r => depth * (refr_idx - 1) / r1 / r / refr_idx | None => 0 end)).

(** spherical_lens.py:20-116 *)
Record lens : Type := mkLens {
  l_node : nat; l_front : nat; l_back : nat; l_cyl : option nat; l_f : R }.

Definition spherical_lens (limit : nat) (diameter depth : R) (radius1 radius2 : radius_arg) (refr_idx : R)
    (tr : option ref) : B lens :=
  ' (front, (r1, cut1)) <+ front_face limit diameter radius1 refr_idx ;+
  ' (back, b) <+ back_face limit diameter radius2 refr_idx ;+
  opt_power <+ calc (optical_power depth r1 (option_map fst b) refr_idx) ;+
  f <+ calc (if Reqb opt_power 0 then Err ZeroDivisionError else Ok (1 / opt_power)) ;+
  let pd := f * depth * (refr_idx - 1) / refr_idx / r1 in
  ' (loc, height) <+
    match b with
    | Some (r2, cut2) =>
        let locb := pd - r2 in
        at_b <+ literal (A3 (V3 0 0 locb)) ;+
        u <+ put_location limit back at_b ;+
        bret ((locb + cut2) / 2, - (locb + cut2))
    | None => bret (0, 0)
    end ;+
  let locf := pd + depth - r1 in
  at_f <+ literal (A3 (V3 0 0 locf)) ;+
  u <+ put_location limit front at_f ;+
  let loc := loc + (locf + cut1) / 2 in
  let height := height + (locf + cut1) in
  if Rltb 0 height then
    at_c <+ literal (A3 (V3 0 0 loc)) ;+
    cyl <+ make_surface limit (new_finite_cylinder diameter height) (Refractive refr_idx 1) (Some at_c) None ;+
    n <+ make_object limit [front; back; cyl] [] tr ;+
    bret (mkLens n front back (Some cyl) f)
  else
    n <+ make_object limit [front; back] [] tr ;+
    bret (mkLens n front back None f).

(** spherical_lens.py:118-123 *)
Definition focal_length (l : lens) : R := l_f l.
