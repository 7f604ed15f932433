(** Turning an object that was just made. *)
From Coq Require Import Reals String List Arith Bool Lia Lra.
From Verif.Base Require Import Py Num Vec.
From Verif.Model Require Import RayBundle Spatial Geometry TraceTree OpticsCallables Engine Objects Surface View Assembly Scene Models TwoMirrors.
From Verif.Proof Require Import NumLemmas VecLemmas SpatialProof FlatProof FrameProof FrameHistory PlaceProof PlaceTop ConstructProof ConstructTop
  GrowProof ListLemmas ViewProof SceneProof ActProof ModelProof ModelTop ObjectProof.
From Verif.Spec Require Import BundleSpec GeometrySpec GeomIface OpticsSpec FrameSpec SceneSpec ModelSpec.
Import ListNotations.

(** The object made last has its transform to itself. *)
Lemma object_sole limit P ss sc sc' : reached limit sc -> step limit P sc sc' -> make_object limit ss [] None sc = (sc', Ok (w_size (sc_w sc))) ->
  (forall l, In l ss -> kind_of (sc_w sc) l <> None) -> 0 < limit -> sole (sc_w sc') (w_size (sc_w sc)).
Proof.
  intros R S E F Ll n' x x' N En E'. pose proof (reached_inv _ _ R) as I. destruct (st_grown _ _ _ _ S) as ((L & A & Q) & G).
  destruct (new_object_placed limit ss [] None id4 (sc_w sc) I Logic.I eq_refl) as (w' & Ew & _ & _ & _ & _ & Sm & _); [rewrite app_nil_r; apply Forall_forall; auto|auto|].
  unfold make_object in E. rewrite Ew in E. injection E as E. assert (W : sc_w sc' = w') by (rewrite <- E; reflexivity). clear E.
  assert (N0 : w_node (sc_w sc) (w_size (sc_w sc)) = None).
  { destruct (w_node (sc_w sc) (w_size (sc_w sc))) eqn:E0; auto. exfalso.
    assert (exists_in sc (w_size (sc_w sc))) by (apply exists_node; congruence). apply (exists_size _ _ _ R) in H. lia. }
  destruct (G _ _ N0 En) as (a & Ea & La).
  destruct (Sm n' N) as (Kn & _). rewrite <- W in Kn. unfold kind_of in Kn. rewrite E' in Kn.
  destruct (w_node (sc_w sc) n') as [y|] eqn:Ey; [|discriminate].
  assert (En' : w_node (sc_w sc) n' <> None) by congruence. specialize (Q _ En'). rewrite Ey, E' in Q. destruct Q as (_ & T & _).
  destruct I as (I & _). destruct (I _ _ Ey) as (_ & (a' & m & Ea' & La' & _) & _). rewrite T, Ea', Ea. intros X. injection X. lia.
Qed.

(** A mirror, just made. *)
Lemma lone_mirror limit w h a sc : reached limit sc -> (0 < w)%R -> (0 < h)%R -> 0 < limit ->
  exists sc' n s, rect_one_sided_mirror limit w h a sc = (sc', Ok n) /\ step limit none sc sc' /\
    is_object sc' n (mirror_of id4 w h a) [s] /\ newer sc [n; s] /\ s < n < w_size (sc_w sc') /\ sole (sc_w sc') n.
Proof.
  intros R Hw Hh Ll. unfold rect_one_sided_mirror.
  erewrite bbind_ok by (apply calc_ok, rect_ok; auto).
  destruct (surface_step limit (RectPlate (w / 2) (h / 2)) (Absorbing (AbsorberReflector a)) None None vzero id3 sc R
    Logic.I Logic.I eq_refl eq_refl) as (sc1 & E1 & S1 & P1 & Z1 & A1).
  rewrite id_mk4 in P1. bstep.
  set (s := w_size (sc_w sc)) in *.
  destruct (object_step limit [s] [mirror_part w h a] sc1 (st_reached _ _ _ _ S1)) as (sc2 & E2 & S2 & O2 & Z2 & A2); auto.
  assert (So : sole (sc_w sc2) (w_size (sc_w sc1))).
  { eapply object_sole; [apply S1|exact S2|exact E2| |auto]. intros l [<-|[]]. destruct P1 as (K & _). congruence. }
  bstep. set (n := w_size (sc_w sc1)) in *.
  assert (S02 : step limit none sc sc2).
  { eapply step_trans; eauto. intros l [<-|[]] El. exfalso. eapply new_not_exists; eauto. }
  assert (Ln : w_size (sc_w sc) <= n) by apply S1.
  destruct (sided_step limit none sc n _ _ sc2 R S02 Ln O2) as (sc3 & E3 & S3 & O3 & Z3 & A3).
  pose proof E3 as E3'. unfold make_sided in E3'. injection E3' as E3'.
  bstep. exists sc3, n, s. split; [reflexivity|]. split; auto. split; auto. split; [repeat constructor; auto|].
  split; [lia|]. rewrite <- E3'. exact So.
Qed.

(** What [turn] does to an object. *)
Lemma turn_step limit n b s d ss m sc : reached limit sc -> is_object sc n d ss -> 0 < limit -> sole (sc_w sc) n ->
  b < w_next (sc_w sc) -> w_arr (sc_w sc) b = A33 s -> transform_of (sc_w sc) n = Some m ->
  exists sc', turn limit n (Whole b) sc = (sc', Ok tt) /\ reached limit sc' /\
    is_object sc' n (mkO (o_sided d) (with_rot m s) (o_parts d)) ss /\ w_size (sc_w sc') = w_size (sc_w sc).
Proof.
  intros R O Ll So Lb Eb Tm. pose proof (reached_inv _ _ R) as I.
  assert (C : composite (sc_w sc) n) by (destruct O as (K & _); unfold composite; rewrite K; exact Logic.I).
  assert (Bu : built (sc_w sc) limit n) by (eapply built_up; [eapply object_built; eauto|lia]).
  pose proof (proj2 (set_rotation_succeeds limit n b s _ I So C Lb Eb) Bu) as Su.
  destruct (set_rotation limit n (Whole b) (sc_w sc)) as [w' r] eqn:E. cbn in Su. subst r.
  assert (Kn : kind_of (sc_w sc) n <> None) by (destruct O as (K & _); congruence).
  destruct (set_rotation_changes limit n b s (sc_w sc) w' (Ok tt) I So Kn Lb Eb E) as ((I' & Sz & K & (m' & Tm' & Tn) & Oth) & _).
  assert (R' : exists es, history limit es w').
  { eapply (reached_step limit sc (SetRotation n (Whole b))); auto; [split; [exists b; auto|exact So]|]. cbn. rewrite E. reflexivity. }
  unfold turn. rewrite (frames_ok _ _ _ _ E). eexists. split; [reflexivity|]. split; [exact R'|]. split; [|exact Sz].
  apply (placed_object sc); auto.
  - intros j J. split; [apply Oth; auto|]. cbn. auto.
  - cbn. rewrite Tn. congruence.
Qed.

(** The transform of the first mirror. *)
Definition first_turn : mat4 := mk4 (mm3 (rot_of (rotx (PI / 4))) (rot_of (roty PI))) vzero.
Definition two_desc : adesc := mkA id4 [mirror_of first_turn 10 10 0; mirror_of id4 10 10 0] [].

Lemma two_step limit sc : reached limit sc -> 2 <= limit ->
  exists sc' n ls, two_mirrors limit sc = (sc', Ok n) /\ reached limit sc' /\ is_assembly sc' n two_desc ls /\ NoDup ls /\ well_placed (sc_w sc') n.
Proof.
  intros R Ll. assert (L0 : 0 < limit) by lia. unfold two_mirrors.
  set (r := mm3 _ _). assert (P10 : (0 < 10)%R) by lra.
  destruct (literal_step limit (A33 r) sc R) as (sc0 & E0 & S0 & V0 & X0 & _). bstep.
  destruct (lone_mirror limit 10 10 0 sc0 (st_reached _ _ _ _ S0) P10 P10 L0) as (sc1 & n1 & s1 & E1 & S1 & O1 & N1 & B1 & So1). bstep.
  destruct (st_grown _ _ _ _ S1) as ((L1 & A1 & _) & _).
  destruct (turn_step limit n1 (w_next (sc_w sc)) r _ _ id4 sc1 (st_reached _ _ _ _ S1) O1 L0 So1) as (sc2 & E2 & R2 & O2 & Z2); [lia|rewrite A1; auto; lia|apply O1|].
  bstep.
  destruct (lone_mirror limit 10 10 0 sc2 R2 P10 P10 L0) as (sc3 & n3 & s3 & E3 & S3 & O3 & N3 & B3 & _). bstep.
  assert (Ft : with_rot id4 r = first_turn) by reflexivity.
  assert (F : Forall3 (is_object sc3) [n1; n3] [mirror_of first_turn 10 10 0; mirror_of id4 10 10 0] [[s1]; [s3]]).
  { apply F3_cons; [|apply F3_cons; [exact O3|apply F3_nil]]. rewrite Ft in O2. eapply step_object; eauto. }
  destruct (assembly_step limit _ [] _ [] _ [] sc3 (st_reached _ _ _ _ S3) F (F3_nil _)) as (sc4 & E4 & S4 & A4 & W4 & Z4 & _); [simpl; lia|].
  rewrite E4. cbn [concat app] in *. eexists _, _, [s1; s3]. split; [reflexivity|]. split; [apply S4|]. split; [exact A4|]. split; [|exact W4].
  inversion N3 as [|? ? _ N3']; inversion N3'; subst. repeat constructor; simpl; lia.
Qed.
