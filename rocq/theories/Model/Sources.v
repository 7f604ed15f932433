(** Model of tracer/sources.py.

    Random numbers come from a given sequence; [fair] says they are in [0, 1), as
    numpy documents.  Each [random.uniform] call consumes as many as it returns. *)
From Coq Require Import Reals List Arith ZArith Bool.
From Verif.Base Require Import Py Num Vec.
From Verif.Model Require Import RayBundle Spatial.
Import ListNotations.
Local Open Scope R_scope.

Record rng : Type := mkRng { draws : nat -> R; drawn : nat }.
Definition fair (g : rng) : Prop := forall k, 0 <= draws g k < 1.

(** [random.uniform(high=high, size=n)] *)
Definition uniform (high : R) (n : nat) (g : rng) : list R * rng :=
  (map (fun k => high * draws g k) (seq (drawn g) n), mkRng (draws g) (drawn g + n)).

(** sources.py:35-37, for one ray. *)
Definition pillbox_direction (ang_range xi1 xi2 : R) : vec :=
  let theta := asin (sin ang_range * sqrt xi2) in
  let sin_th := sin theta in
  V3 (cos xi1 * sin_th) (sin xi1 * sin_th) (cos theta).

(** sources.py:16-38 [pillbox_sunshape_directions] *)
Definition pillbox_sunshape_directions (num_rays : nat) (ang_range : R) (g : rng)
    : list vec * rng :=
  let '(xi1, g) := uniform (2 * PI) num_rays g in
  let '(xi2, g) := uniform 1 num_rays g in
  (map2 (pillbox_direction ang_range) xi1 xi2, g).

(** sources.py:70-76, for one ray. *)
Definition disk_point (rot : mat3) (radius xi theta : R) : vec :=
  let r := radius * sqrt xi in
  mv3 rot (V3 (r * cos theta) (r * sin theta) 0).

(** sources.py:40-82 [solar_disk_bundle].  Dividing by [num_rays = 0] raises. *)
Definition solar_disk_bundle (num_rays : nat) (center direction : vec) (radius ang_range : R)
    (flux : option R) (g : rng) : res (bundle * rng) :=
  let '(a, g) := pillbox_sunshape_directions num_rays ang_range g in
  let rot := rotation_to_z direction in
  let directions := map (mv3 rot) a in
  let '(xi1, g) := uniform 1 num_rays g in
  let '(thetas, g) := uniform (2 * PI) num_rays g in
  let vertices := map2 (fun x t => vadd (disk_point rot radius x t) center) xi1 thetas in
  let b := mkB (Some vertices) (Some directions) None None None [] in
  match flux with
  | None => Ok (b, g)
  | Some f =>
      if Nat.eqb num_rays 0 then Err ZeroDivisionError else
      Ok (set_energy (repeat (PI * (radius * radius) / INR num_rays * f) num_rays) b, g)
  end.

(** The least integer not below [x]. *)
Definition ceil (x : R) : Z := (- (up (- x) - 1))%Z.

(** [N.s_[start:stop:step]] in [N.mgrid], for a positive step. *)
Definition grid_range (start stop step : R) : list R :=
  map (fun k => start + INR k * step) (seq 0 (Z.to_nat (ceil ((stop - start) / step)))).

(** sources.py:84-108 [square_bundle].  No rays make the step infinite and the
    grid empty; [width = 0] makes the step zero and numpy fails to size the
    grid.  A negative width gives a negative step. *)
Definition square_bundle (num_rays : nat) (center direction : vec) (width : R) : res bundle :=
  let rot := rotation_to_z direction in
  let directions := repeat direction num_rays in
  if Reqb width 0 then Err ValueError else
  let range := if Nat.eqb num_rays 0 then []
               else grid_range (- width) width (2 * width / sqrt (INR num_rays)) in
  let verts := concat (map (fun x => map (fun y => V3 x y 0) range) range) in
  let vertices := map (fun p => vadd (mv3 rot p) center) verts in
  Ok (set_directions directions (set_vertices vertices no_bundle)).
