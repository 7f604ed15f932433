(** What should be seen of a tower plant (the window of examples/tower_gui.py). *)
From Coq Require Import Reals List Arith Bool Permutation.
From Verif.Base Require Import Py Num Vec.
From Verif.Model Require Import RayBundle Geometry TraceTree Sources OpticsCallables Engine Objects Surface Mesh View Assembly Scene Models DishGui Tower TowerGui.
From Verif.Spec Require Import BundleSpec SourceSpec FrameSpec SceneSpec ModelSpec ViewSpec SceneViewSpec PathSpec DishGuiSpec TowerSpec.
Import ListNotations.
Local Open Scope R_scope.

Definition top : vec := V3 0 0 10.
Definition grey : vec := V3 (1 / 2) (1 / 2) (1 / 2).

(** One ray for each of the points [ps], from one unit before it in the direction of the
    sun, with one unit of energy. *)
Definition one_each (ps : list vec) (sun : vec) : bundle :=
  mkB (Some (map (fun p => vadd p sun) ps)) (Some (map (fun _ => vopp sun) ps)) (Some (map (fun _ => 1) ps)) None None [].

(** Lines from there to the points and on to the top of the tower. *)
Definition relay_lines (ps : list vec) (sun : vec) : list (vec * vec) :=
  flat_map (fun p => [(vadd p sun, p); (p, top)]) ps.

(** The scene [v] shows the plant [t]: mirrors at [ps], each turned so that it sends light
    from the direction [sun] to the top, both sides of the receiver, and one trace of one
    ray for each mirror.  If nothing is in the way, its lines are those from the
    direction of the sun to the mirrors and on to the top. *)
Definition shows_plant (limit : nat) (sc : scene) (t : tower) (ps : list vec) (sun : vec) (g : shared) (reps : nat) (v : viewer) : Prop :=
  exists ms front back,
    let objs := repeat (one_sided_object 1) (length ps) ++ [one_sided_object 2] in
    let ss := ms ++ [front; back] in
    engine_view limit (tw_plant t) sc = (sc, Ok (objs, ss)) /\
    Forall2 (fun p s => aims s p sun top (1 / 2) (1 / 2) 1) ps ms /\
    flat_mirror front (fun q => vx q = 0 /\ - (1 / 2) <= vy q <= 1 / 2 /\ - (1 / 2) <= vz q - 10 <= 1 / 2) (V3 1 0 0) 0 /\
    flat_mirror back (fun q => vx q = - tenm 10 /\ - (1 / 2) <= vy q <= 1 / 2 /\ - (1 / 2) <= vz q - 10 <= 1 / 2) (V3 1 0 0) 0 /\
    pictured objs ss (repeat grey (length ps + 2)) g (one_each ps sun) reps v /\
    (free_ways ps top sun (1 / 2) (1 / 2) 1 1 ->
       exists pts cs, In (Lines pts cs) (in_scene v) /\ draws pts cs (relay_lines ps sun)).

(** Positions of the sliders. *)
Definition sliders (az el : R) : Prop := 0 <= az <= 180 /\ 0 <= el <= 90.

(** A window that was opened, in which then the sun was moved and the distances were
    changed any number of times.  Distances of zero raise an exception and leave the
    window as it is. *)
Inductive tower_played (limit : nat) (order : list nat -> list nat) : scene -> viewer -> tower -> list vec -> R -> R -> Prop :=
  | tp_open rr ar ps az el g g' sc sc' v t : reached limit sc -> 0 < rr -> 0 < ar -> sliders az el -> tower_positions rr ar = Ok ps ->
      open_tower limit order rr ar az el g g' sc = (sc', Ok (v, t)) -> tower_played limit order sc' v t ps az el
  | tp_sun az el az' el' ps g sc sc' v v' t : tower_played limit order sc v t ps az el -> sliders az' el' ->
      aim_window limit order t az' el' g v sc = (sc', Ok v') -> tower_played limit order sc' v' t ps az' el'
  | tp_replace rr ar ps ps' az el g sc sc' v v' t t' : tower_played limit order sc v t ps az el -> 0 < rr -> 0 < ar ->
      tower_positions rr ar = Ok ps' -> replace_in_window limit order rr ar az el g v sc = (sc', Ok (v', t')) ->
      tower_played limit order sc' v' t' ps' az el
  | tp_refused rr ar ps az el g sc sc' v t e : tower_played limit order sc v t ps az el -> rr = 0 \/ ar = 0 ->
      replace_in_window limit order rr ar az el g v sc = (sc', Err e) -> tower_played limit order sc' v t ps az el.
