(** Heliostat fields that were moved, and the compass. *)
From Coq Require Import Reals List Arith Bool Lia Lra.
From Verif.Base Require Import Py Num Vec.
From Verif.Model Require Import RayBundle Spatial Geometry TraceTree Engine Objects OpticsCallables Surface Assembly Scene Models.
From Verif.Proof Require Import VecLemmas SpatialProof SceneProof ViewProof ActProof ModelProof ModelTop AimProof HelioProof StaggerProof ModelExamples.
From Verif.Spec Require Import BundleSpec EngineSpec LibrarySpec GeometrySpec OpticsSpec FrameSpec SceneSpec ModelSpec.
Import ListNotations.
Local Open Scope R_scope.

Definition reachable_target (az el height : R) (p : vec) : Prop :=
  p <> V3 0 0 height /\
  forall tw k, 0 < k -> V3 0 0 height = vadd p (vscale k tw) -> is_unit tw -> vadd (solar_vector az el) tw <> vzero.

Lemma one_reachable p : p = V3 10 0 0 -> reachable_target 0 0 20 p.
Proof.
  intros ->. split.
  - intros E. injection E. lra.
  - intros tw k Hk E _ Z. apply (f_equal vz) in E. apply (f_equal vz) in Z. revert E Z. unfold solar_vector. vunfold. cbn [vz]. rewrite cos_0.
    intros E Z. assert (vz tw = -1) by (unfold vzero in Z; cbn in Z; lra). rewrite H in E. lra.
Qed.

Lemma field_example : exists sc f ss, reached 5 sc /\ heliostat_field 5 [V3 10 0 0] 1 1 0 20 start = (sc, Ok f) /\
  is_field sc f id4 [with_loc (rotx PI) (V3 10 0 0)] 1 1 0 ss /\ hf_pos f = [V3 10 0 0] /\ hf_height f = 20 /\
  forall p, In p (hf_pos f) -> reachable_target 0 0 (hf_height f) p.
Proof.
  destruct (field_built 5 1 1 0 [V3 10 0 0] 20 start (start_reached 5)) as (sc & f & ss & surfs & E & R & _ & _ & F & Ep & Eh & _); try lra; try lia; [discriminate|].
  exists sc, f, ss. split; auto. split; auto. split; [exact F|]. split; auto. split; auto. intros p. rewrite Ep, Eh.
  intros [<-|[]]. apply one_reachable. auto.
Qed.

Lemma moved_refuted : exists sc f sc1 sc2, reached 5 sc /\ heliostat_field 5 [V3 10 0 0] 1 1 0 20 start = (sc, Ok f) /\
  put_at 5 (hf_node f) (translate 1 0 0) sc = (sc1, Ok tt) /\ well_placed (sc_w sc1) (hf_node f) /\
  aim_to_sun 5 f 0 0 sc1 = (sc2, Ok tt) /\ ~ well_placed (sc_w sc2) (hf_node f).
Proof.
  destruct field_example as (sc & f & ss & R & E & F & Ep & Eh & Re).
  destruct (field_put 5 sc f _ _ _ _ _ _ (translate 1 0 0) R F) as (sc1 & E1 & R1 & F1 & W1); [discriminate|lia|].
  destruct (field_aimed 5 sc1 f _ _ _ _ _ _ 0 0 R1 F1) as (sc2 & ts & surfs & E2 & R2 & F2 & Rg & G & _); [rewrite Ep; discriminate|lra|lra|lia|exact Re|].
  exists sc, f, sc1, sc2. repeat (split; auto). intros W.
  destruct F2 as (A & _ & L & D & _). rewrite Ep in L. pose proof (well_placed_frames _ _ _ _ A D W) as P.
  destruct ts as [|t [|]]; try discriminate. rewrite Ep in Rg. inversion Rg as [|? ? ? ? (Rt & _) _]; subst. inversion G as [|l ? ls ? G1 G2]; subst. inversion G2; subst.
  unfold mirrors in P. cbn [spots map concat app o_tr o_parts] in P. inversion P as [|? ? ? ? (_ & P1) _]; subst. cbn [fst snd p_own] in P1.
  rewrite P1 in G1. injection G1 as G1. apply (f_equal (fun M => app4 M vzero)) in G1.
  rewrite PlaceProof.mm4_id_l, mm4_id_r, app4_mm4, translate_eq in G1; auto using rigid_translate. apply (f_equal vx) in G1. revert G1.
  rewrite app4_mk4. generalize (app4 t vzero). intros v. vunfold. unfold id3. cbn. lra.
Qed.

(** ** Angles *)

Lemma clockwise_refuted : exists l x y, radial_stagger 1 2 2 1 2 1 = Ok l /\ In (x, y) l /\
  ~ exists r a, 1 <= r < 2 /\ 1 <= a < 2 /\ (x, y) = clockwise_position r a.
Proof.
  destruct (stagger_ok 1 2 2 1 2 1) as (idx & E & _ & I); try lra.
  exists (map (stagger_position 1 2 1 1) idx), (1 * cos 1), (1 * sin 1). split; auto. split.
  - apply in_map_iff. exists (0, 0)%nat. split; [unfold stagger_position; cbn; f_equal; f_equal; try lra; f_equal; lra|].
    apply I. split; [cbn; lra|]. split; [cbn; lra|tauto].
  - intros (r & a & (Hr & _) & (Ha & Ha') & E1). injection E1 as _ Ey. pose proof PI2_3_2.
    assert (0 < sin 1) by (apply sin_gt_0; lra). assert (0 < sin a) by (apply sin_gt_0; lra). nra.
Qed.

Lemma from_east_eq az el : from_east az el = V3 (sin el * sin az) (- (sin el * cos az)) (cos el).
Proof. unfold from_east. vunfold. f_equal; ring. Qed.

Lemma solar_clockwise az el : 0 <= el <= PI -> solar_vector az el = from_east (- az) el.
Proof. intros H. rewrite solar_ok, from_east_eq, sin_neg, cos_neg by auto. f_equal; ring. Qed.
Lemma solar_refuted : exists az el, 0 <= el <= PI / 2 /\ solar_vector az el <> from_east az el.
Proof.
  exists (PI / 2), (PI / 2). pose proof PI_RGT_0. split; [lra|]. rewrite solar_ok, from_east_eq, sin_PI2 by lra.
  intros E. injection E. lra.
Qed.
