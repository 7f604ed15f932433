(** Model of the [mesh] methods of the geometry managers and of Surface.  The three
    arrays of equal shape returned are one list of rows of points here. *)
From Coq Require Import Reals List Arith ZArith Bool.
From Verif.Base Require Import Py Num Vec.
From Verif.Model Require Import RayBundle Boundary Geometry OpticsCallables Surface.
Import ListNotations.
Local Open Scope R_scope.

Definition ceil (x : R) : Z := (- Int_part (- x))%Z.

(** [N.r_[start:stop:step]], and each axis of [N.ogrid]; no element when the
    count is not positive. *)
Definition steps (start stop step : R) : list R :=
  map (fun i => start + INR i * step) (seq 0 (Z.to_nat (ceil ((stop - start) / step)))).

(** [N.linspace(lo, hi, n)] for [n >= 2] *)
Definition linspace (lo hi : R) (n : nat) : list R :=
  map (fun i => lo + INR i * ((hi - lo) / INR (n - 1))) (seq 0 n).

(** All pairs, one row for each of [us]. *)
Definition grid (f : R -> R -> vec) (us vs : list R) : list (list vec) :=
  map (fun u => map (f u) vs) us.

(** flat_surface.py:206-207: the number of points for one half dimension. *)
Definition edge_points (resolution half : R) : nat :=
  Z.to_nat (let p := ceil (resolution * half * 2) in if Z.ltb p 2 then 2%Z else p).

(** flat_surface.py:206-213 *)
Definition rect_mesh (hw hh resolution : R) : res (list (list vec)) :=
  let xs := linspace (- hw) hw (edge_points resolution hw) in
  let ys := linspace (- hh) hh (edge_points resolution hh) in
  Ok (grid (fun x y => V3 x y 0) xs ys).

(** flat_surface.py:255-264.  Division of Python floats. *)
Definition round_mesh (radius resolution : R) : res (list (list vec)) :=
  if Reqb resolution 0 then Err ZeroDivisionError else
  let r_end := radius + 1 / 100 / resolution in
  let rs := steps 0 r_end (1 / resolution) in
  if Reqb (radius * resolution) 0 then Err ZeroDivisionError else
  let angs := steps 0 (2 * PI) (1 / (radius * resolution)) in
  Ok (grid (fun r a => V3 (r * cos a) (r * sin a) 0) rs angs).

(** triangular_face.py:90-100; [alpha] runs along the rows.  The number of points of
    [linspace] is the integer part. *)
Definition triangle_mesh (v0 v1 : vec) (resolution : R) : res (list (list vec)) :=
  if Rltb resolution 2 then Err ValueError else
  let line := linspace 0 1 (Z.to_nat (Int_part resolution)) in
  Ok (grid (fun beta alpha => vadd (vscale (alpha * (1 - beta)) v1) (vscale (alpha * beta) v0)) line line).

(** sphere_surface.py:84-93, 133-142: from polar angle [first] on. *)
Definition sphere_mesh (radius first resolution : R) : res (list (list vec)) :=
  if Reqb (radius * resolution) 0 then Err ZeroDivisionError else
  let rng := PI + 1 / (radius * resolution) in
  let theta := steps first rng (1 / (radius * resolution)) in
  let phi := steps 0 (2 * rng) (1 / (radius * resolution)) in
  Ok (grid (fun t p => V3 (radius * sin t * cos p) (radius * sin t * sin p) (radius * cos t)) theta phi).

(** cylinder.py:114-122 *)
Definition cylinder_mesh (radius half_h resolution : R) : res (list (list vec)) :=
  if Reqb resolution 0 then Err ZeroDivisionError else
  let h := steps (- half_h) (half_h + 1 / 2 / resolution) (1 / resolution) in
  if Reqb (radius * resolution) 0 then Err ZeroDivisionError else
  let ang_end := 2 * PI + 1 / (radius * resolution) in
  let angs := steps 0 ang_end (1 / (radius * resolution)) in
  Ok (grid (fun z a => V3 (radius * cos a) (radius * sin a) z) h angs).

(** paraboloid.py:126-137 *)
Definition dish_mesh (a b radius resolution : R) : res (list (list vec)) :=
  if Reqb resolution 0 then Err ZeroDivisionError else
  let r_end := radius + 1 / 100 / resolution in
  let rs := steps 0 r_end (1 / resolution) in
  if Reqb (radius * resolution) 0 then Err ZeroDivisionError else
  let ang_end := 2 * PI + 1 / (radius * resolution) in
  let angs := steps 0 ang_end (1 / (radius * resolution)) in
  Ok (grid (fun r t => let x := r * cos t in let y := r * sin t in V3 x y (a * (x * x) + b * (y * y))) rs angs).

(** The method that the class of the geometry manager has or inherits; the cut
    sphere inherits that of the sphere. *)
Definition geom_mesh (g : geom) (resolution : R) : res (list (list vec)) :=
  match g with
  | RectPlate hw hh => rect_mesh hw hh resolution
  | RoundPlate radius => round_mesh radius resolution
  | Triangle v0 v1 => triangle_mesh v0 v1 resolution
  | Sphere radius | CutSphere radius _ => sphere_mesh radius 0 resolution
  | Hemisphere radius => sphere_mesh radius (PI / 2) resolution
  | FiniteCyl radius half_h => cylinder_mesh radius half_h resolution
  | ParabDish a b radius _ => dish_mesh a b radius resolution
  | Base | Flat | Cylinder _ | Parab _ _ | HexDish _ _ _ => Err AttributeError
  end.

(** surface.py:121-126 *)
Definition surf_mesh (s : surface) (resolution : R) : res (list (list vec)) :=
  m <- geom_mesh (s_geom s) resolution ;;
  Ok (map (map (app4 (s_frame s))) m).
