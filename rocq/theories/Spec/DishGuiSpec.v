(** What should be seen of a dish with a homogenizer (examples/parabolic_dish_gui.py). *)
From Coq Require Import Reals List Arith Bool Permutation.
From Verif.Base Require Import Py Num Vec.
From Verif.Model Require Import RayBundle Geometry TraceTree Sources OpticsCallables Engine Objects Surface Mesh View Assembly Scene Models DishGui.
From Verif.Spec Require Import BundleSpec SourceSpec SceneSpec ModelSpec ViewSpec SceneViewSpec.
Import ListNotations.
Local Open Scope R_scope.

(** The measures can be built: a dish of diameter 1 is wider than all the images of the
    aperture side by side. *)
Definition feasible (refl concent : R) : Prop :=
  0 < concent /\ -1 < refl /\ (refl + 1) * (1 / 2 * sqrt (PI / concent)) < 1.

(** Focal length, side of the receiver and depth of the homogenizer. *)
Definition design (refl concent f W H : R) : Prop :=
  0 < f /\ rim_angle 1 f (PI / 4) /\ 0 < W /\ W * W * concent = PI * (1 / 2 * (1 / 2)) /\ 0 < H /\ H = (refl + 1) * W * (f + H).

(** Nothing that is still to be made has a colour. *)
Definition unpainted (sc : scene) (colour : nat -> option vec) : Prop := forall k, ~ exists_in sc k -> colour k = None.

(** [n] rays falling from a disk of radius 1/2 at the height [h], with the spread of the sun
    and 1000 in all. *)
Definition sun_from (h : R) (n : nat) (b : bundle) : Prop :=
  (exists vs, b_vert b = Some vs /\ length vs = n /\ Forall (in_disk (V3 0 0 h) (V3 0 0 (- 1)) (1 / 2)) vs) /\
  (exists ds, b_dir b = Some ds /\ length ds = n /\ Forall (deviates (V3 0 0 (- 1)) (465 / 100000)) ds) /\
  (exists es, b_energy b = Some es /\ es = repeat (1000 / INR n) n /\ ((0 < n)%nat -> total es = 1000)) /\
  b_parents b = None /\ b_ref b = None /\ b_extra b = [].

(** The colours of the walls, of both sides of the receiver and of the dish. *)
Definition dish_colours : list vec :=
  repeat (V3 1 0 0) 4 ++ repeat (V3 (1 / 2) (1 / 2) (1 / 2)) 2 ++ [V3 0 0 1].

(** The scene shows one mesh of each of the surfaces [ss] in its colour, and the lines of
    a trace of [b] among them, and nothing else. *)
Definition pictured (objs : list obj) (ss : list surface) (colours : list vec) (g : shared) (b : bundle) (reps : nat) (v : viewer) : Prop :=
  exists ms vs ds st pts cs,
    Forall2 (fun s m => surf_mesh s 10 = Ok m) ss ms /\
    ray_tracer surface_ops objs ss g b reps (5 / 100) TreeTrue = Ok (vs, ds, st) /\
    faithful (t_tree st) (fun _ _ => True) 1 pts cs /\
    Permutation (in_scene v) (map (fun mc => MeshOf (fst mc) (snd mc) 1) (combine ms colours) ++ [Lines pts cs]).

(** The scene [v] shows the dish [r] of [sc'], newly made in [sc] with the given measures,
    and light of the source [b]. *)
Definition shows_dish (limit : nat) (refl concent : R) (n : nat) (sc sc' : scene) (acc : nat -> account) (reps : nat)
    (v : viewer) (r : receiver) (b : bundle) : Prop :=
  exists f W H objs ss rnd, design refl concent f W H /\
    collector limit sc sc' r (f + H) W W H 1 (fun _ => False) (round_reflector 1 f 1) /\
    engine_view limit (hr_node r) sc' = (sc', Ok (objs, ss)) /\
    box_receiver id4 (f + H) W W H 1 (round_reflector 1 f 1 id4) ss /\
    sun_from (f + H + 1 / 2) n b /\ fair rnd /\ pictured objs ss dish_colours (mkG rnd acc) b reps v.

(** A window that was opened and in which the measures were then changed any number of
    times, to anything; attempts that raise an exception leave the window as it is. *)
Inductive dish_played (limit : nat) (order : list nat -> list nat) (n : nat) : scene -> viewer -> (nat -> option vec) -> Prop :=
  | dp_open refl concent colour g sc sc' v r b colour' : reached limit sc -> unpainted sc colour -> fair (g_rng g) ->
      open_dish limit order refl concent n colour g sc = (sc', Ok (v, r, b, colour')) -> dish_played limit order n sc' v colour'
  | dp_change refl concent colour g sc sc' v v' r b colour' : dish_played limit order n sc v colour -> fair (g_rng g) ->
      recreate_dish limit order refl concent n colour g v sc = (sc', Ok (v', r, b, colour')) -> dish_played limit order n sc' v' colour'
  | dp_refused refl concent colour g sc sc' v e : dish_played limit order n sc v colour -> fair (g_rng g) ->
      recreate_dish limit order refl concent n colour g v sc = (sc', Err e) -> dish_played limit order n sc' v colour.
