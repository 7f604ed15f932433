(** Scenes for the examples. *)
From Coq Require Import Reals List Arith Bool Lia Lra.
From Verif.Base Require Import Py Num Vec.
From Verif.Model Require Import RayBundle Spatial Geometry TraceTree Engine Objects OpticsCallables Surface Assembly Scene Models.
From Verif.Proof Require Import SpatialProof SceneProof ActProof ModelProof ModelTop.
From Verif.Spec Require Import BundleSpec EngineSpec LibrarySpec GeometrySpec FrameSpec SceneSpec ModelSpec.
Import ListNotations.
Local Open Scope R_scope.

Definition start : scene := mkSc nothing (fun _ => RectPlate 1 1) (fun _ => Absorbing (Reflective 0)) (fun _ => false) 0 (fun _ => id4).
Lemma start_reached limit : reached limit start.
Proof. exists []. constructor. Qed.

Lemma sided_example : exists sc n ls, let d := mkA id4 (walls 1 2 3 (9 / 10)) [] in
  is_assembly sc n d ls /\ NoDup ls /\ has_objects d /\ well_placed (sc_w sc) n /\ (S (depth d) <= 5)%nat /\
  (forall s, In s (seen_surfaces id4 d) -> lib_surface s) /\ forall o, In o (flat_objs d) -> o_sided o = true.
Proof.
  destruct (homogenizer_step 5 1 2 3 (9 / 10) start (start_reached 5)) as (sc & n & ls & _ & _ & A & ND & _ & W); try lra; try lia.
  exists sc, n, ls. intros d. split; auto. split; auto. split; [unfold has_objects; cbn; discriminate|]. split; auto. split; [cbn; lia|]. split.
  - intros s I. cbn [d seen_surfaces map concat walls o_tr o_parts mirror_of app] in I.
    repeat destruct I as [<-|I]; [..|destruct I]; (split; [|split; [cbn; lra|split; reflexivity]]); unfold seen_part; cbn [s_frame Surface.new_surface p_own mirror_part];
    repeat apply rigid_mm4; auto using rigid_id, rigid_translate, rigid_rotx, rigid_roty.
  - intros o I. cbn in I. repeat destruct I as [<-|I]; [..|destruct I]; reflexivity.
Qed.
