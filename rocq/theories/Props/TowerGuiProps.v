(** The window of examples/tower_gui.py: a field of heliostats that follows the sun. *)
From Coq Require Import Reals ZArith String List Arith Bool Lia Lra Permutation.
From Verif.Base Require Import Py Num Vec.
From Verif.Model Require Import RayBundle Geometry TraceTree Sources OpticsCallables Engine Objects Surface Mesh View Assembly Scene Models DishGui Tower TowerGui.
From Verif.Proof Require Import ModelExamples TestCaseTop TowerGuiProof.
From Verif.Spec Require Import BundleSpec SourceSpec LibrarySpec SceneSpec ModelSpec ViewSpec SceneViewSpec PathSpec DishGuiSpec TowerSpec TowerGuiSpec.
Import ListNotations.
Local Open Scope R_scope.

(** C94: the window opens and shows the field aimed at the receiver, although it was first
    drawn facing down. *)
Theorem c94_open : forall limit order rr ar az el g g' sc, reached limit sc -> (3 <= limit)%nat -> some_order order -> 0 < rr -> 0 < ar -> sliders az el ->
  exists ps sc' v t, tower_positions rr ar = Ok ps /\ open_tower limit order rr ar az el g g' sc = (sc', Ok (v, t)) /\
    shows_plant limit sc' t ps (solar_vector (az * degree) (el * degree)) g' (Z.to_nat 200000000) v.
Proof. exact tower_opened. Qed.
Print Assumptions c94_open.

(** The field follows the sun, whatever was done before, *)
Theorem c94_sun : forall limit order sc v t ps az el az' el' g, tower_played limit order sc v t ps az el -> (3 <= limit)%nat -> some_order order -> sliders az' el' ->
  exists sc' v', aim_window limit order t az' el' g v sc = (sc', Ok v') /\
    shows_plant limit sc' t ps (solar_vector (az' * degree) (el' * degree)) g (Z.to_nat 200000000) v'.
Proof. exact tower_moved. Qed.
Print Assumptions c94_sun.

(** and is replaced by another one when a distance is changed; a distance of zero raises
    an exception before anything is done. *)
Theorem c94_replace : forall limit order sc v t ps az el rr ar g, tower_played limit order sc v t ps az el -> (3 <= limit)%nat -> some_order order ->
  (0 < rr -> 0 < ar -> exists ps' sc' v' t', tower_positions rr ar = Ok ps' /\ replace_in_window limit order rr ar az el g v sc = (sc', Ok (v', t')) /\
     shows_plant limit sc' t' ps' (solar_vector (az * degree) (el * degree)) g (Z.to_nat 200000000) v') /\
  (rr = 0 \/ ar = 0 -> replace_in_window limit order rr ar az el g v sc = (sc, Err ZeroDivisionError)).
Proof. exact tower_changed. Qed.
Print Assumptions c94_replace.

(** So at any time the window shows the plant as it is, aimed from where the sun is, and
    nothing else. *)
Theorem c94_always : forall limit order sc v t ps az el, tower_played limit order sc v t ps az el -> (3 <= limit)%nat -> some_order order ->
  exists g, shows_plant limit sc t ps (solar_vector (az * degree) (el * degree)) g (Z.to_nat 200000000) v.
Proof. exact tower_always. Qed.
Print Assumptions c94_always.

(** With the distances of the example, or larger ones, two lines are shown for each
    heliostat: from the sun to its middle, and from there to the middle of the receiver. *)
Theorem c94_lines : forall limit order sc v t rr ar ps az el, tower_played limit order sc v t ps az el -> (3 <= limit)%nat -> some_order order ->
  1 <= rr -> PI / 8 <= ar -> tower_positions rr ar = Ok ps ->
  exists pts cs, In (Lines pts cs) (in_scene v) /\ draws pts cs (relay_lines ps (solar_vector (az * degree) (el * degree))).
Proof. exact tower_lines. Qed.
Print Assumptions c94_lines.

(** The button for the flux map works at any time. *)
Theorem c94_map : forall limit order sc v t rr ar ps az el per bins g, tower_played limit order sc v t ps az el -> (3 <= limit)%nat -> some_order order ->
  1 <= rr -> PI / 8 <= ar -> tower_positions rr ar = Ok ps -> fair (g_rng g) -> (0 < bins)%nat ->
  exists H xe ye g', flux_map limit t az el per (465 / 100000) (1 / 4) 1000 (5 / 100) bins (1 / 2) (1 / 2) g sc = (sc, Ok (H, xe, ye, g')) /\
    0 <= total (concat H) <= INR (per * length ps).
Proof. exact tower_flux. Qed.
Print Assumptions c94_map.

(** Cases: the program as it starts, and then with the sun moved. *)
Example c94_start : reached 5 start /\ some_order (fun l => l) /\ 0 < 1 /\ 0 < PI / 8 /\ sliders 90 45 /\ fair case_numbers.
Proof. pose proof PI_RGT_0. split; [apply start_reached|]. split; [intros l; apply Permutation_refl|]. split; [lra|]. split; [lra|]. split; [split; lra|exact case_fair]. Qed.
Example c94_played : exists sc v t ps sc' v', tower_played 5 (fun l => l) sc v t ps 90 45 /\ tower_positions 1 (PI / 8) = Ok ps /\ ps <> [] /\
  aim_window 5 (fun l => l) t 0 0 (mkG case_numbers (fun _ => mkAcc [] [])) v sc = (sc', Ok v') /\ tower_played 5 (fun l => l) sc' v' t ps 0 0.
Proof. exact tower_example_played. Qed.
