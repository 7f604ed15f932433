(** Model of the window of examples/tower_gui.py: the plant in a scene, aimed anew when the
    sun is moved and made anew when its distances are changed.  (The layout of the window,
    the camera and the colour of the background are left out; for the flux map see
    Model/Tower.v.) *)
From Coq Require Import Reals List Arith Bool.
From Verif.Base Require Import Py Num Vec.
From Verif.Model Require Import RayBundle Spatial Geometry TraceTree Sources OpticsCallables Engine Objects Surface Mesh View Assembly Scene Models DishGui Tower.
Import ListNotations.
Local Open Scope R_scope.

(** No surface of the example is annotated. *)
Definition uncoloured : nat -> option vec := fun _ => None.

(** examples/tower_gui.py:68-75.  [g] is what surfaces have noted before; drawing leaves
    it to the world around the scene to note more. *)
Definition aim_window (limit : nat) (order : list nat -> list nat) (t : tower) (sun_az sun_elev : R) (g : shared) (v : viewer) : B viewer :=
  let v := clear_scene v in
  let rays := gen_rays (hf_pos (tw_field t)) sun_az sun_elev in
  _ <+ aim_to_sun limit (tw_field t) (sun_az * degree) (sun_elev * degree) ;+
  fun sc =>
    let w := present limit sc uncoloured g in
    (sc, v <- set_assembly order w (tw_plant t) v ;; set_source w (Some rays) v).

(** examples/tower_gui.py:41-45.  The field is drawn once before it is aimed; [g'] is what
    surfaces have noted after that. *)
Definition open_tower (limit : nat) (order : list nat -> list nat) (radial_res ang_res sun_az sun_elev : R) (g g' : shared)
    : B (viewer * tower) :=
  t <+ gen_plant limit radial_res ang_res ;+
  v <+ (fun sc => (sc, new_viewer order (present limit sc uncoloured g) (tw_plant t)
                         (Some (gen_rays (hf_pos (tw_field t)) sun_az sun_elev)) 1 None)) ;+
  v <+ aim_window limit order t sun_az sun_elev g' v ;+
  bret (v, t).

(** examples/tower_gui.py:77-80 *)
Definition replace_in_window (limit : nat) (order : list nat -> list nat) (radial_res ang_res sun_az sun_elev : R) (g : shared) (v : viewer)
    : B (viewer * tower) :=
  t <+ gen_plant limit radial_res ang_res ;+
  v <+ aim_window limit order t sun_az sun_elev g v ;+
  bret (v, t).
