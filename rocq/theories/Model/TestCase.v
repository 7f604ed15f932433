(** Model of examples/test_case.py: sunlight on a tilted minidish, and the map of the
    energy on its receiver.  (Drawing the map and the command line are left out.) *)
From Coq Require Import Reals List Arith Bool.
From Verif.Base Require Import Py Num Vec.
From Verif.Model Require Import RayBundle Spatial Geometry TraceTree Sources OpticsCallables Engine Objects Surface Assembly Scene Models.
Import ListNotations.
Local Open Scope R_scope.

(** test_case.py:31-33 *)
Definition sun_center : vec := V3 0 7 7.
Definition sun_direction : vec := let x := - 1 / sqrt 2 in V3 0 x x.

(** test_case.py:27-53, up to drawing: the array given to [plot_hits], with the state in
    which the trace leaves the random numbers and the recorded hits.  Dividing by the
    area of a bin makes infinities if [side] is 0; that is left out. *)
Definition test_case (limit : nat) (focus : R) (num_rays : nat) (h_depth side : R) (g : shared) : B (list (list R) * shared) :=
  assembly <+ minidish limit 5 focus (9 / 10) (focus + h_depth) side h_depth (9 / 10) 1 ;+
  _ <+ (rot <+ literal (A44 (rotx (- PI / 4))) ;+ place limit (hr_node assembly) rot) ;+
  ' (sun, rnd) <+ calc (solar_disk_bundle num_rays sun_center sun_direction (5 / 2) (5 / 1000) (Some 1000) (g_rng g)) ;+
  ' (objs, surfs) <+ engine_view limit (hr_node assembly) ;+
  ' (_, _, st) <+ calc (ray_tracer surface_ops objs surfs (mkG rnd (g_acc g)) sun 100 (tenm 6) TreeTrue) ;+
  ' (hist, _, _) <+ histogram_hits assembly 50 (t_g st) ;+
  calc (if Req_EM_T side 0 then Err OutOfModel else
        Ok (map (map (fun h => h / (side / 50 * (side / 50)) / 1000)) hist, t_g st)).
