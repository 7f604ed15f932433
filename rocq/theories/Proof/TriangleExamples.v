(** Triangulated surfaces for the examples. *)
From Coq Require Import Reals List Arith ZArith Bool Lia Lra.
From Verif.Base Require Import Py Num Vec.
From Verif.Model Require Import RayBundle Spatial Geometry OpticsCallables Engine Objects Surface Assembly Scene Models Triangulated.
From Verif.Proof Require Import NumLemmas VecLemmas SceneProof ModelProof ModelTop ModelExamples TriangleProof.
From Verif.Proof Require EngineTop.
From Verif.Spec Require Import BundleSpec EngineSpec GeometrySpec OpticsSpec FrameSpec SceneSpec ModelSpec TriangleSpec.
Import ListNotations.
Local Open Scope R_scope.

Lemma big_norm v : 1 <= norm2 v -> / 10 ^ 8 < norm v.
Proof.
  intros H. apply Rlt_le_trans with 1; [rewrite <- Rinv_1; apply Rinv_lt_contravar; lra|].
  unfold norm. rewrite <- sqrt_1. apply sqrt_le_1_alt. auto.
Qed.

Definition corners : list vec := [V3 50 0 0; V3 (-1) (-1) 0; V3 3 (-1) 0; V3 (-1) 3 0; V3 3 3 2].
Definition lower_face : tri := mkTri (V3 (-1) (-1) 0) (V3 3 (-1) 0) (V3 (-1) 3 0).
Definition upper_face : tri := mkTri (V3 3 3 2) (V3 (-1) 3 0) (V3 3 (-1) 0).
Definition no_face : tri := mkTri (V3 50 0 0) (V3 50 0 0) (V3 50 0 0).

Ltac proper_tac := split; [apply big_norm; vunfold; cbn; lra|]; split; [apply big_norm; vunfold; cbn; lra|];
  unfold vzero; vunfold; cbn; intros H; injection H; lra.
Lemma lower_proper : proper lower_face.
Proof. proper_tac. Qed.
Lemma upper_proper : proper upper_face.
Proof. proper_tac. Qed.
Lemma no_proper : ~ proper no_face.
Proof. intros (_ & _ & H). apply H. unfold vzero. vunfold. cbn. veq; ring. Qed.

Ltac index k := exists k; split; [reflexivity|(left; reflexivity) || (right; reflexivity)].

Lemma some_faces : exists vertices faces good bad,
  Forall2 (names_corners vertices) faces (good ++ bad) /\ Forall proper good /\ Forall (fun x => ~ proper x) bad /\
  length good = 2%nat /\ length bad = 1%nat.
Proof.
  exists corners, [mkRow 1 2 3; mkRow (-1) 3 2; mkRow 0 0 (-5)], [lower_face; upper_face], [no_face].
  split; [|split; [|split; [|auto]]].
  - apply Forall2_cons; [|apply Forall2_cons; [|apply Forall2_cons; [|constructor]]]; (split; [|split]).
    + index 1%nat.
    + index 2%nat.
    + index 3%nat.
    + index 4%nat.
    + index 3%nat.
    + index 2%nat.
    + index 0%nat.
    + index 0%nat.
    + index 0%nat.
  - constructor; [apply lower_proper|]. constructor; [apply upper_proper|]. constructor.
  - constructor; [apply no_proper|]. constructor.
Qed.

(** The triangle is reported missing where it is, and not by accident of the
    direction. *)
Lemma moved_away o p : shows o (carried (V3 50 0 0) lower_face) p -> ~ shows o lower_face p.
Proof.
  intros (_ & z & (_ & k & K & Ez) & A) (_ & z' & (U' & k' & K' & Ez') & A').
  destruct (A id4 rigid_id) as (C & _). destruct (A' id4 rigid_id) as (C' & _).
  set (b := EngineTop.drops [1]).
  assert (T : traceable b 1) by (apply (EngineTop.drops_traceable [1])).
  destruct (C b 1%nat T) as (s1 & ps & E & L & H). destruct (C' b 1%nat T) as (s1' & ps' & E' & L' & H').
  rewrite E in E'. injection E' as <- <-. destruct ps as [|x [|]]; try discriminate.
  destruct (H 0%nat (V3 0 0 1) (V3 0 0 (-1)) x eq_refl eq_refl eq_refl) as (M & N).
  destruct (H' 0%nat (V3 0 0 1) (V3 0 0 (-1)) x eq_refl eq_refl eq_refl) as (M' & N').
  assert (P : points_of lower_face (ray_at (V3 0 0 1) (V3 0 0 (-1)) 1)).
  { exists (1 / 2), (1 / 4), (1 / 4). repeat split; try lra. unfold lower_face, ray_at. cbn [t0 t1 t2]. vunfold. cbn. veq; lra. }
  assert (Q : forall t, ~ points_of (carried (V3 50 0 0) lower_face) (ray_at (V3 0 0 1) (V3 0 0 (-1)) t)).
  { intros t (a & b' & c & Ha & Hb & Hc & Hs & Hp). apply (f_equal vx) in Hp. cbn in Hp. lra. }
  destruct (Rlt_dec (tenm 10) (Rabs (dot (V3 0 0 (-1)) (turned id4 z')))) as [D'|D'].
  - specialize (M' D'). destruct x as [t| | |]; cbn in M'; try tauto.
    + destruct (Rlt_dec (tenm 10) (Rabs (dot (V3 0 0 (-1)) (turned id4 z)))) as [D|D].
      * specialize (M D). destruct M as ((_ & X) & _). rewrite placed_id in X. exact (Q _ X).
      * specialize (N D). discriminate.
    + apply (M' 1). split; [lra|]. rewrite placed_id. exact P.
  - exfalso. apply D'. rewrite turned_id. assert (Zx : vx z' = 0) by (rewrite Ez'; cbn; ring). assert (Zy : vy z' = 0) by (rewrite Ez'; cbn; ring).
    assert (Zz : 0 < vz z') by (rewrite Ez'; cbn; lra).
    assert (Z1 : vz z' = 1). { unfold is_unit, norm2, dot in U'. rewrite Zx, Zy in U'. nra. }
    replace (dot (V3 0 0 (-1)) z') with (-1) by (unfold dot; cbn [vx vy vz]; rewrite Z1; ring).
    rewrite Rabs_left by lra. unfold tenm. rewrite <- Ropp_involutive, Ropp_involutive. replace (- -1) with (/ 1) by lra.
    apply Rinv_lt_contravar; lra.
Qed.

Lemma misplaced : exists vertices faces ts t, Forall2 (names_corners vertices) faces ts /\ In t ts /\ proper t /\
  forall limit o sc, reached limit sc -> (0 < limit)%nat ->
  exists p, makes_surface limit vertices faces o None id4 sc [p] /\ ~ shows o t p.
Proof.
  exists corners, [mkRow 0 0 0; mkRow 1 2 3], [no_face; lower_face], lower_face.
  assert (F : Forall2 (names_corners corners) [mkRow 0 0 0; mkRow 1 2 3] [no_face; lower_face]).
  { apply Forall2_cons; [|apply Forall2_cons; [|constructor]]; (split; [|split]).
    - index 0%nat.
    - index 0%nat.
    - index 0%nat.
    - index 1%nat.
    - index 2%nat.
    - index 3%nat. }
  split; auto. split; [simpl; auto|]. split; [apply lower_proper|]. intros limit o sc R L.
  assert (Sl : selection proper [no_face; lower_face] [lower_face]).
  { apply sel_out; [apply no_proper|]. apply sel_in; [apply lower_proper|]. constructor. }
  destruct (triangulated_any limit corners _ _ _ o None id4 sc R L Logic.I eq_refl F Sl) as (parts & M & Lp & H).
  destruct parts as [|p [|]]; try discriminate. exists p. split; auto. apply moved_away.
  exact (H 0%nat no_face lower_face p eq_refl eq_refl eq_refl).
Qed.
