(** The boundary cylinder where its answers are right, and its ignored rotation. *)
From Coq Require Import Reals List Arith Bool Lra.
From Verif.Base Require Import Py Num Vec.
From Verif.Model Require Import RayBundle Boundary Geometry.
From Verif.Spec Require Import GeometrySpec GeomIface.
From Verif.Proof Require Import NumLemmas VecLemmas GeomProof GeomTop GeomCases.
Import ListNotations.
Local Open Scope R_scope.

(** [frame] moves along the axis only. *)
Lemma cylinder_along_axis D z z' rot ps : length ps = 3%nat -> exists flags,
  in_bounds (transform_frame_b (new_bcylinder D (V3 0 0 z) rot) (mk4 id3 (V3 0 0 z'))) (map nfin ps) = Ok flags /\
  Forall2 (fun p (f : bool) => f = true <-> vx p * vx p + vy p * vy p <= (D / 2) * (D / 2)) ps flags.
Proof.
  intros L. unfold new_bcylinder, transform_frame_b, in_bounds. rewrite map_length, L. cbn [Nat.eqb].
  eexists. split; [reflexivity|]. rewrite mm4_mk4, map_map. clear L. induction ps as [|p ps IH]; cbn [map]; constructor; auto.
  rewrite !ndot4_fin. cbn [nmul nadd nle]. rewrite Rleb_true.
  destruct p as [x y w]. unfold dot4, hom, mk4, id3. cbn.
  split; intros H; eapply Rle_trans; try exact H; apply Req_le; ring.
Qed.

(** What the cylinder answers anywhere: it moves each point as its own location and then as
    the frame, instead of back, and looks how far from the global Z axis it gets. *)
Lemma cylinder_answer D loc rot frame ps : rigid frame -> length ps = 3%nat -> exists flags,
  in_bounds (transform_frame_b (new_bcylinder D loc rot) frame) (map nfin ps) = Ok flags /\
  Forall2 (fun p (f : bool) => f = true <->
    let q := app4 frame (vadd p loc) in vx q * vx q + vy q * vy q <= (D / 2) * (D / 2)) ps flags.
Proof.
  intros (r & t & -> & _) L. unfold new_bcylinder, transform_frame_b, in_bounds. rewrite map_length, L. cbn [Nat.eqb].
  eexists. split; [reflexivity|]. rewrite mm4_mk4, map_map. clear L. induction ps as [|p ps IH]; cbn [map]; constructor; auto.
  rewrite !ndot4_fin. cbn [nmul nadd nle]. rewrite Rleb_true.
  destruct p as [x y w], loc as [lx ly lz], t as [tx ty tz], r as [[a b c] [a' b' c'] [a'' b'' c'']]. unfold dot4, hom, mk4, id3. cbn.
  split; intros H; eapply Rle_trans; try exact H; apply Req_le; ring.
Qed.
Lemma answer_case : rigid frame1 /\ length [V3 0 0 0; V3 2 0 0; V3 (-5) 0 2] = 3%nat /\
  let q := app4 frame1 (vadd (V3 (-5) 0 2) (V3 4 1 0)) in vx q * vx q + vy q * vy q <= (4 / 2) * (4 / 2).
Proof. split; [apply frame1_rigid|]. split; [reflexivity|]. unfold frame1, turn_x. vunfold. cbn. lra. Qed.

(** The volume does not turn with the rotation given. *)
Lemma cylinder_rotation D loc rot p : placed (mk4 id3 loc) (solid_cylinder (D / 2)) p <-> volume (new_bcylinder D loc rot) p.
Proof. reflexivity. Qed.
Lemma cylinder_rotation_refuted : exists D loc rot p, orthonormal rot /\ 0 < D /\
  placed (mk4 rot loc) (solid_cylinder (D / 2)) p /\ ~ volume (new_bcylinder D loc rot) p.
Proof.
  exists 2, vzero, (M3 (V3 0 0 1) (V3 0 1 0) (V3 (-1) 0 0)), (V3 5 0 0).
  split; [unfold orthonormal; vunfold; veq; ring|]. split; [lra|]. split.
  - exists (V3 0 0 5). split; [unfold solid_cylinder; cbn; lra|]. rewrite app4_mk4. unfold vzero. vunfold. veq; ring.
  - intros (q & A & B). rewrite app4_mk4 in B. unfold solid_cylinder, vzero in *. destruct q. vunfold. injection B as B1 B2 B3. nra.
Qed.
