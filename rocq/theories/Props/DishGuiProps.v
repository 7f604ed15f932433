(** examples/parabolic_dish_gui.py: a dish and its homogenizer, redrawn when their measures
    are changed. *)
From Coq Require Import Reals ZArith String List Arith Bool Lia Lra Permutation.
From Verif.Base Require Import Py Num Vec.
From Verif.Model Require Import RayBundle Geometry TraceTree Sources OpticsCallables Engine Objects Surface Mesh View Assembly Scene Models DishGui.
From Verif.Proof Require Import ModelExamples TestCaseTop DishScene DishGuiProof.
From Verif.Spec Require Import BundleSpec SourceSpec LibrarySpec SceneSpec ModelSpec ViewSpec SceneViewSpec DishGuiSpec.
Import ListNotations.
Local Open Scope R_scope.

(** C93: a window opens exactly if the measures can be built, and then shows that dish in
    its colours and one trace of the sun.  (With 20000 rays or more each would be too weak
    to be traced on.) *)
Theorem c93_open : forall limit order refl concent n colour g sc, reached limit sc -> (3 <= limit)%nat -> some_order order -> 5 / 100 < 1000 / INR n ->
  unpainted sc colour -> fair (g_rng g) ->
  (feasible refl concent -> exists sc' v r b colour', open_dish limit order refl concent n colour g sc = (sc', Ok (v, r, b, colour')) /\
     shows_dish limit refl concent n sc sc' (g_acc g) (Z.to_nat 200000000) v r b) /\
  (~ feasible refl concent -> exists sc' e, open_dish limit order refl concent n colour g sc = (sc', Err e) /\ (e = ZeroDivisionError \/ e = ValueError)).
Proof. exact dish_opened. Qed.
Print Assumptions c93_open.

(** So it is when the measures are changed, whatever was done before. *)
Theorem c93_change : forall limit order refl concent n colour g sc v, dish_played limit order n sc v colour -> (3 <= limit)%nat -> some_order order ->
  5 / 100 < 1000 / INR n -> fair (g_rng g) ->
  (feasible refl concent -> exists sc' v' r b colour', recreate_dish limit order refl concent n colour g v sc = (sc', Ok (v', r, b, colour')) /\
     shows_dish limit refl concent n sc sc' (g_acc g) (Z.to_nat 200000000) v' r b) /\
  (~ feasible refl concent -> exists sc' e, recreate_dish limit order refl concent n colour g v sc = (sc', Err e) /\ (e = ZeroDivisionError \/ e = ValueError)).
Proof. exact dish_changed. Qed.
Print Assumptions c93_change.

(** At any time the window shows one dish and one trace, and nothing else. *)
Theorem c93_always : forall limit order n sc v colour, dish_played limit order n sc v colour -> (3 <= limit)%nat -> some_order order ->
  5 / 100 < 1000 / INR n ->
  exists refl concent sc0 sc1 acc r b, feasible refl concent /\ shows_dish limit refl concent n sc0 sc1 acc (Z.to_nat 200000000) v r b.
Proof. exact dish_always. Qed.
Print Assumptions c93_always.

(** The measures can be built exactly if there are such. *)
Theorem c93_measures : forall refl concent, feasible refl concent <-> exists f W H, design refl concent f W H.
Proof. exact feasible_design. Qed.
Print Assumptions c93_measures.

(** Cases: the program as it starts, and a window that was first played with in vain. *)
Example c93_default : reached 5 start /\ some_order (fun l => l) /\ unpainted start (fun _ => None) /\ fair case_numbers /\ feasible 1 450 /\ 5 / 100 < 1000 / INR 1000.
Proof. split; [apply start_reached|]. split; [intros l; apply Permutation_refl|]. split; [intros k _; reflexivity|]. split; [exact case_fair|exact default_feasible]. Qed.
Example c93_refused : ~ feasible 30 450 /\ ~ feasible 1 0.
Proof. split; [exact many_images|apply no_concentration]. Qed.
Example c93_played : exists sc v colour sc' e, dish_played 5 (fun l => l) 1000 sc v colour /\
  recreate_dish 5 (fun l => l) 30 450 1000 colour (mkG case_numbers (fun _ => mkAcc [] [])) v sc = (sc', Err e) /\
  dish_played 5 (fun l => l) 1000 sc' v colour.
Proof. exact played_example. Qed.
