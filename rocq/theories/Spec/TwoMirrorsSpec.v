(** What should be seen of two rays and two mirrors (examples/gui.py).  The first mirror
    is 10 by 10 in the plane y = z, centred at the origin; it reflects on the side where
    z is less than y.  The second is 10 by 10 in the plane z = 0, centred at the origin,
    and reflects on its upper side.  The first ray leaves the source towards the first
    mirror at a right angle, the second falls down. *)
From Coq Require Import Reals List Arith Permutation.
From Verif.Base Require Import Py Num Vec.
From Verif.Model Require Import RayBundle Geometry Engine Surface View TwoMirrors.
From Verif.Spec Require Import SceneViewSpec PathSpec.
Import ListNotations.
Local Open Scope R_scope.

Definition at_yz (y z : R) : vec := V3 0 y z.

(** The lines of the first ray: they lead to the first mirror, to the second, and away at
    45 degrees; a ray that meets no mirror is shown with the length 1. *)
Inductive first_path (y z : R) : list (vec * vec) -> Prop :=
  | first_behind : y < z -> first_path y z [(at_yz y z, at_yz (y - 1 / sqrt 2) (z + 1 / sqrt 2))]
  | first_over : z < y -> 5 * sqrt 2 < y + z -> first_path y z [(at_yz y z, at_yz (y - 1 / sqrt 2) (z + 1 / sqrt 2))]
  | first_once : z < y -> 5 < y + z <= 5 * sqrt 2 -> let m := (y + z) / 2 in
      first_path y z [(at_yz y z, at_yz m m); (at_yz m m, at_yz (m + 1 / sqrt 2) (m - 1 / sqrt 2))]
  | first_twice : z < y -> y + z <= 5 -> let m := (y + z) / 2 in
      first_path y z [(at_yz y z, at_yz m m); (at_yz m m, at_yz (y + z) 0); (at_yz (y + z) 0, at_yz (y + z + 1 / sqrt 2) (1 / sqrt 2))].

(** The lines of the second ray: they lead to the second mirror, up to the first and away
    along y, unless the first mirror is in the way. *)
Inductive second_path (y z : R) : list (vec * vec) -> Prop :=
  | second_stopped : y < z -> y * sqrt 2 <= 5 -> second_path y z [(at_yz y z, at_yz y y)]
  | second_outside : 5 < y * sqrt 2 -> second_path y z [(at_yz y z, at_yz y 0); (at_yz y 0, at_yz y 1)]
  | second_twice : z < y -> y * sqrt 2 <= 5 ->
      second_path y z [(at_yz y z, at_yz y 0); (at_yz y 0, at_yz y y); (at_yz y y, at_yz (y + 1) y)].

(** Positions of the sliders with the source clear of both mirrors by more than the
    tolerance of the engine. *)
Definition clear_source (y z : R) : Prop := 0 < y <= 5 /\ tenm 6 < z <= 5 /\ sqrt 2 * tenm 6 < Rabs (y - z).

(** A world in which [assembly] has the given objects and surfaces. *)
Definition shows_assembly (w : View.world) (assembly : nat) (objs : list obj) (surfs : list surface) : Prop :=
  w_objects w assembly = objs /\ NoDup (w_surfaces w assembly) /\ map (w_surface w) (w_surfaces w assembly) = surfs.

(** A scene opened with the sliders somewhere, and moved by them, now at the given
    position. *)
Inductive played (order : list nat -> list nat) (w : View.world) (assembly : nat) : viewer -> R -> R -> Prop :=
  | played_open y z v : open_scene order w assembly y z = Ok v -> played order w assembly v y z
  | played_move y z y' z' v v' : played order w assembly v y z -> bundle_move w y' z' v = Ok v' -> played order w assembly v' y' z'.
