(** Model of tracer/surface.py: the trace protocol of a surface.  The global
    frame ([_temp_frame]) is given; frames themselves are in Model/Assembly.v. *)
From Coq Require Import Reals List Arith Bool.
From Verif.Base Require Import Py Num Vec.
From Verif.Model Require Import RayBundle Geometry OpticsCallables Engine.
Import ListNotations.
Local Open Scope R_scope.

Record surface : Type := mkS {
  s_geom : geom;                   (** [_geom], its class and parameters *)
  s_opt : optics;                  (** [_opt] *)
  s_frame : mat4;                  (** [_temp_frame] *)
  s_gstate : gstate;               (** [_geom], its data during a trace *)
  s_bundle : option bundle;        (** [_current_bundle] *)
  s_selected : option (list nat) }. (** [_selected] *)

(** surface.py:16-28 *)
Definition new_surface (g : geom) (o : optics) (frame : mat4) : surface :=
  mkS g o frame GIdle None None.

(** surface.py:44-59 *)
Definition surf_register (s : surface) (b : bundle) : res (surface * list num) :=
  '(gs, ps) <- find_intersections (s_geom s) (s_frame s) b ;;
  Ok (mkS (s_geom s) (s_opt s) (s_frame s) gs (Some b) (s_selected s), ps).

(** surface.py:61-71 *)
Definition surf_select (s : surface) (idxs : list nat) : res surface :=
  gs <- select_geom (s_geom s) (s_gstate s) idxs ;;
  Ok (mkS (s_geom s) (s_opt s) (s_frame s) gs (s_bundle s) (Some idxs)).

(** surface.py:73-83 *)
Definition surf_outgoing (s : surface) (g : shared) : res (bundle * shared) :=
  match s_bundle s, s_selected s with
  | Some b, Some sel => call_optics (s_opt s) (s_gstate s) b sel g
  | _, _ => Err AttributeError
  end.

(** surface.py:85-93; [_selected] stays. *)
Definition surf_done (s : surface) : surface :=
  mkS (s_geom s) (s_opt s) (s_frame s) (done_geom (s_gstate s)) None (s_selected s).

(** surface.py:95-107: the inverse of the frame times the homogeneous points (a
    4 x n array; the last row is ones). *)
Definition global_to_local (s : surface) (points : list vec) : res (list vec4) :=
  inv <- inv4 (s_frame s) ;;
  Ok (map (fun p => mv4 inv (hom p)) points).

(** The surface protocol as used by the engine. *)
Definition surface_ops : surf_ops surface shared :=
  mkOps surf_register surf_select surf_outgoing surf_done.
