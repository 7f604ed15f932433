(** Model of examples/parabolic_dish_gui.py: a dish with a homogenizer in a scene, made
    anew when its measures are changed.  (The layout of the window and the colour of the
    background are left out.) *)
From Coq Require Import Reals List Arith Bool.
From Verif.Base Require Import Py Num Vec.
From Verif.Model Require Import RayBundle Spatial Geometry TraceTree Sources OpticsCallables Engine Objects Surface Mesh View Assembly Scene Models.
Import ListNotations.
Local Open Scope R_scope.

(** What a scene finds when it asks assemblies and surfaces as they are now.  Annotations
    other than colours do not occur. *)
Definition present (limit : nat) (sc : scene) (colour : nat -> option vec) (g : shared) : View.world :=
  View.mkW
    (fun s => match surface_now s sc with (_, Ok x) => x | _ => Surface.new_surface Base (Absorbing (Reflective 0)) id4 end)
    (fun _ => None) colour (fun _ => None)
    (fun a => match frames (get_surfaces limit a) sc with (_, Ok l) => l | _ => [] end)
    (fun a => match engine_view limit a sc with (_, Ok (os, _)) => os | _ => [] end)
    g.

(** Assigning to the attribute [colour] of surfaces. *)
Definition paint (colour : nat -> option vec) (ss : list nat) (c : vec) : nat -> option vec :=
  fold_left (fun m s => upd m s (Some c)) ss colour.

(** examples/parabolic_dish_gui.py:34-50: the dish, the source, the colours and the state in which
    the random numbers are left. *)
Definition create_dish_source (limit : nat) (refl concent : R) (rays : nat) (colour : nat -> option vec) (rnd : rng)
    : B (receiver * bundle * (nat -> option vec) * rng) :=
  ' (dish, (f, _, H)) <+ standard_minidish limit 1 concent refl 1 1 ;+
  walls <+ frames (get_surfaces limit (hr_hom dish)) ;+
  let colour := paint colour walls (V3 1 0 0) in
  let colour := paint colour [hr_main dish] (V3 0 0 1) in
  ' (source, rnd) <+ calc (solar_disk_bundle rays (V3 0 0 (f + H + 1 / 2)) (V3 0 0 (- 1)) (1 / 2) (465 / 100000) None rnd) ;+
  let source := set_energy (repeat (1 * 1000 / INR rays) rays) source in
  bret (dish, source, colour, rnd).

(** examples/parabolic_dish_gui.py:29-31 *)
Definition open_dish (limit : nat) (order : list nat -> list nat) (refl concent : R) (rays : nat) (colour : nat -> option vec) (g : shared)
    : B (viewer * receiver * bundle * (nat -> option vec)) :=
  ' (dish, source, colour, rnd) <+ create_dish_source limit refl concent rays colour (g_rng g) ;+
  fun sc =>
    let w := present limit sc colour (mkG rnd (g_acc g)) in
    (sc, v <- new_viewer order w (hr_node dish) (Some source) 1 None ;; Ok (v, dish, source, colour)).

(** examples/parabolic_dish_gui.py:52-60 *)
Definition recreate_dish (limit : nat) (order : list nat -> list nat) (refl concent : R) (rays : nat) (colour : nat -> option vec) (g : shared)
    (v : viewer) : B (viewer * receiver * bundle * (nat -> option vec)) :=
  ' (dish, source, colour, rnd) <+ create_dish_source limit refl concent rays colour (g_rng g) ;+
  fun sc =>
    let w := present limit sc colour (mkG rnd (g_acc g)) in
    (sc, v <- set_assembly order w (hr_node dish) (clear_scene v) ;;
         v <- set_source w (Some source) v ;;
         Ok (v, dish, source, colour)).
