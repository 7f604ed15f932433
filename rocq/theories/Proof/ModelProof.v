(** The constructors of the optical models. *)
From Coq Require Import Reals List Arith Bool Lia Lra.
From Verif.Base Require Import Py Num Vec.
From Verif.Model Require Import RayBundle Spatial Geometry OpticsCallables Engine Objects Surface Assembly Scene Models.
From Verif.Proof Require Import NumLemmas VecLemmas FrameProof FrameHistory PlaceProof PlaceTop ConstructProof ConstructTop GrowProof ListLemmas ViewProof SceneProof.
From Verif.Spec Require Import FrameSpec SceneSpec ModelSpec.
Import ListNotations.

Local Open Scope R_scope.
Definition mirror_part (w h a : R) : part := mkPart (RectPlate (w / 2) (h / 2)) (Absorbing (AbsorberReflector a)) id4.
Definition mirror_of (t : mat4) (w h a : R) : odesc := mkO true t [mirror_part w h a].
Definition receiver_of (id : nat) (t : mat4) (w h a : R) : odesc :=
  mkO true t [mkPart (RectPlate (w / 2) (h / 2)) (Accountant id (Reflective a)) id4;
              mkPart (RectPlate (w / 2) (h / 2)) (Absorbing (Reflective 1)) (translate 0 0 (- tenm 10))].
Lemma rect_ok w h : 0 < w -> 0 < h -> new_rect_plate w h = Ok (RectPlate (w / 2) (h / 2)).
Proof. intros. unfold new_rect_plate. rewrite !(proj2 (Rleb_false _ _)) by lra. reflexivity. Qed.
Local Close Scope R_scope.

Lemma calc_ok {A} (r : res A) sc x : r = Ok x -> calc r sc = (sc, Ok x).
Proof. intros ->. reflexivity. Qed.
Lemma id_mk4 : mk4 id3 vzero = id4.
Proof. reflexivity. Qed.

Ltac bstep := erewrite bbind_ok by eassumption.

(** [ss] are new since [sc]. *)
Definition newer (sc : scene) (ss : list nat) : Prop := Forall (fun s => w_size (sc_w sc) <= s) ss.
Lemma newer_not limit sc ss l : reached limit sc -> newer sc ss -> In l ss -> exists_in sc l -> False.
Proof. intros R N I E. apply (exists_size _ _ _ R) in E. unfold newer in N. rewrite Forall_forall in N. specialize (N _ I). lia. Qed.
Lemma newer_step limit P a b ss : step limit P a b -> newer b ss -> newer a ss.
Proof. intros S N. eapply Forall_impl; [|exact N]. intros s Hs. cbv beta in *. pose proof (st_size _ _ _ _ S). lia. Qed.

Lemma mirror_step limit w h a sc : reached limit sc -> (0 < w)%R -> (0 < h)%R -> 0 < limit ->
  exists sc' n s, rect_one_sided_mirror limit w h a sc = (sc', Ok n) /\ step limit none sc sc' /\
    is_object sc' n (mirror_of id4 w h a) [s] /\ newer sc [n; s] /\ sc_acc sc' = sc_acc sc.
Proof.
  intros R Hw Hh Ll. unfold rect_one_sided_mirror.
  erewrite bbind_ok by (apply calc_ok, rect_ok; auto).
  destruct (surface_step limit (RectPlate (w / 2) (h / 2)) (Absorbing (AbsorberReflector a)) None None vzero id3 sc R
    Logic.I Logic.I eq_refl eq_refl) as (sc1 & E1 & S1 & P1 & Z1 & A1).
  rewrite id_mk4 in P1. bstep.
  set (s := w_size (sc_w sc)) in *.
  destruct (object_step limit [s] [mirror_part w h a] sc1 (st_reached _ _ _ _ S1)) as (sc2 & E2 & S2 & O2 & Z2 & A2); auto.
  bstep. set (n := w_size (sc_w sc1)) in *.
  assert (S02 : step limit none sc sc2).
  { eapply step_trans; eauto. intros l [<-|[]] El. exfalso. eapply new_not_exists; eauto. }
  assert (Ln : w_size (sc_w sc) <= n) by apply S1.
  destruct (sided_step limit none sc n _ _ sc2 R S02 Ln O2) as (sc3 & E3 & S3 & O3 & Z3 & A3).
  bstep. exists sc3, n, s. split; [reflexivity|]. split; auto. split; auto. split; [|congruence].
  repeat constructor; auto.
Qed.

Lemma receiver_step limit w h a sc : reached limit sc -> (0 < w)%R -> (0 < h)%R -> 0 < limit ->
  exists sc' n s1 s2, one_sided_receiver limit w h a sc = (sc', Ok (s1, n)) /\ step limit none sc sc' /\
    is_object sc' n (receiver_of (sc_acc sc) id4 w h a) [s1; s2] /\ newer sc [n; s1; s2] /\ s1 <> s2 /\ sc_acc sc' = S (sc_acc sc).
Proof.
  intros R Hw Hh Ll. unfold one_sided_receiver.
  erewrite bbind_ok by (apply calc_ok, rect_ok; auto).
  destruct (accountant_step limit (Reflective a) sc R) as (sc0 & E0 & S0 & Z0 & A0). bstep.
  destruct (surface_step limit (RectPlate (w / 2) (h / 2)) (Accountant (sc_acc sc) (Reflective a)) None None vzero id3 sc0 (st_reached _ _ _ _ S0)
    Logic.I Logic.I eq_refl eq_refl) as (sc1 & E1 & S1 & P1 & Z1 & A1).
  rewrite id_mk4 in P1. bstep. set (s1 := w_size (sc_w sc0)) in *.
  erewrite bbind_ok by (apply calc_ok, rect_ok; auto).
  destruct (literal_step limit (A3 (V3 0 0 (- tenm 10))) sc1 (st_reached _ _ _ _ S1)) as (sc2 & E2 & S2 & V2 & N2 & _ & Z2 & A2). bstep.
  set (b := w_next (sc_w sc1)) in *.
  destruct (surface_step limit (RectPlate (w / 2) (h / 2)) (Absorbing (Reflective 1)) (Some (Whole b)) None (V3 0 0 (- tenm 10)) id3 sc2 (st_reached _ _ _ _ S2))
    as (sc3 & E3 & S3 & P3 & Z3 & A3'); [exists b; split; auto; lia|exact Logic.I|exact V2|reflexivity|].
  bstep. set (s2 := w_size (sc_w sc2)) in *.
  destruct (object_step limit [s1; s2] (o_parts (receiver_of (sc_acc sc) id4 w h a)) sc3 (st_reached _ _ _ _ S3)) as (sc4 & E4 & S4 & O4 & Z4 & A4); auto.
  { constructor; [|constructor; [|constructor]].
    - eapply step_part; [exact (st_reached _ _ _ _ S2)|exact S3|]. eapply step_part; [exact (st_reached _ _ _ _ S1)|exact S2|]. exact P1.
    - exact P3. }
  bstep. set (n := w_size (sc_w sc3)) in *.
  assert (S03 : step limit none sc sc3) by (repeat (eapply step_then; [|eassumption]); auto; apply step_refl; auto).
  assert (L1 : w_size (sc_w sc) <= s1) by (unfold s1; lia).
  assert (L2 : w_size (sc_w sc) <= s2) by (unfold s2; lia).
  assert (S04 : step limit none sc sc4).
  { eapply step_trans; eauto. intros l Il El. apply (exists_size _ _ _ R) in El. destruct Il as [<-|[<-|[]]]; lia. }
  assert (Ln : w_size (sc_w sc) <= n) by (unfold n; lia).
  destruct (sided_step limit none sc n _ _ sc4 R S04 Ln O4) as (sc5 & E5 & S5 & O5 & Z5 & A5).
  bstep. exists sc5, n, s1, s2. split; [reflexivity|]. split; auto. split; auto. split; [|unfold s1, s2; split; lia].
  repeat constructor; auto.
Qed.

(** A mirror put in place by a literal. *)
Lemma wall_step limit w h a t sc : reached limit sc -> (0 < w)%R -> (0 < h)%R -> 0 < limit ->
  exists sc' n s, wall limit w h a t sc = (sc', Ok n) /\ step limit none sc sc' /\
    is_object sc' n (mirror_of t w h a) [s] /\ newer sc [n; s] /\ n < w_size (sc_w sc') /\ s < w_size (sc_w sc').
Proof.
  intros R Hw Hh Ll. unfold wall.
  destruct (mirror_step limit w h a sc R Hw Hh Ll) as (sc1 & n & s & E1 & S1 & O1 & N1 & A1). bstep.
  destruct (literal_step limit (A44 t) sc1 (st_reached _ _ _ _ S1)) as (sc2 & E2 & S2 & V2 & Nx2 & _ & Z2 & A2). bstep.
  destruct (literal_frame limit t sc1 _ _ (st_reached _ _ _ _ S1) E2) as (_ & F2).
  assert (S02 : step limit none sc sc2) by (eapply step_then; eauto).
  pose proof (step_object _ _ _ _ _ _ _ (st_reached _ _ _ _ S1) S2 O1) as O2.
  pose proof N1 as N1'. inversion N1' as [|? ? Ln N1'']; subst. inversion N1'' as [|? ? Ls _]; subst.
  destruct (place_step limit none n (w_next (sc_w sc1)) t sc sc2 R S02 Ln (composite_object _ _ _ _ O2)) as (sc3 & E3 & S3 & F3 & T3 & K3 & Oth & Sd3 & Z3 & A3); auto.
  { eapply built_up; [eapply object_built; eauto|lia]. }
  { apply (st_grown _ _ _ _ S1). }
  { intros l T P El. eapply object_path in P; [|exact O2]. exact (newer_not limit sc [n; s] l R N1 (or_intror P) El). }
  bstep. pose proof (placed_object _ _ _ _ _ _ O2 Oth T3 K3 Sd3) as O3. cbn [mirror_of o_sided o_parts] in O3.
  exists sc3, n, s. split; [reflexivity|]. split; auto. split; auto. split; auto.
  pose proof (st_reached _ _ _ _ S3) as R3. split; [eapply exists_size; eauto; eapply object_exists; eauto|].
  destruct (object_parts _ _ _ _ s O3) as (p & _ & Hp); [simpl; auto|]. eapply part_size; eauto.
Qed.

(** ** homogenizer.py *)

Local Open Scope R_scope.
Definition walls (X Y H eff : R) : list odesc :=
  [mirror_of (mm4 (translate (X / 2) 0 (H / 2)) (roty (- PI / 2))) H Y (1 - eff);
   mirror_of (mm4 (translate (- X / 2) 0 (H / 2)) (roty (PI / 2))) H Y (1 - eff);
   mirror_of (mm4 (translate 0 (Y / 2) (H / 2)) (rotx (PI / 2))) X H (1 - eff);
   mirror_of (mm4 (translate 0 (- Y / 2) (H / 2)) (rotx (- PI / 2))) X H (1 - eff)].
Local Close Scope R_scope.

Lemma homogenizer_step limit X Y H eff sc : reached limit sc -> (0 < X)%R -> (0 < Y)%R -> (0 < H)%R -> 2 <= limit ->
  exists sc' n ls, rect_homogenizer limit X Y H eff sc = (sc', Ok n) /\ step limit none sc sc' /\
    is_assembly sc' n (mkA id4 (walls X Y H eff) []) ls /\ NoDup ls /\ newer sc (n :: ls) /\ well_placed (sc_w sc') n.
Proof.
  intros R HX HY HH Ll. assert (L0 : 0 < limit) by lia. unfold rect_homogenizer. cbv zeta.
  destruct (wall_step limit H Y (1 - eff) (mm4 (translate (X / 2) 0 (H / 2)) (roty (- PI / 2))) sc R HH HY L0)
    as (sc1 & n1 & s1 & E1 & S1 & O1 & N1 & Bn1 & Bs1). bstep.
  destruct (wall_step limit H Y (1 - eff) (mm4 (translate (- X / 2) 0 (H / 2)) (roty (PI / 2))) sc1 (st_reached _ _ _ _ S1) HH HY L0)
    as (sc2 & n2 & s2 & E2 & S2 & O2 & N2 & Bn2 & Bs2). bstep.
  destruct (wall_step limit X H (1 - eff) (mm4 (translate 0 (Y / 2) (H / 2)) (rotx (PI / 2))) sc2 (st_reached _ _ _ _ S2) HX HH L0)
    as (sc3 & n3 & s3 & E3 & S3 & O3 & N3 & Bn3 & Bs3). bstep.
  destruct (wall_step limit X H (1 - eff) (mm4 (translate 0 (- Y / 2) (H / 2)) (rotx (- PI / 2))) sc3 (st_reached _ _ _ _ S3) HX HH L0)
    as (sc4 & n4 & s4 & E4 & S4 & O4 & N4 & Bn4 & Bs4). bstep.
  assert (S04 : step limit none sc sc4) by (repeat (eapply step_then; [|eassumption]); auto; apply step_refl; auto).
  assert (F : Forall3 (is_object sc4) [n1; n2; n3; n4] (walls X Y H eff) [[s1]; [s2]; [s3]; [s4]]).
  { pose proof (st_reached _ _ _ _ S1). pose proof (st_reached _ _ _ _ S2). pose proof (st_reached _ _ _ _ S3).
    apply F3_cons; [eauto using step_object|]. apply F3_cons; [eauto using step_object|].
    apply F3_cons; [eauto using step_object|]. apply F3_cons; [exact O4|]. apply F3_nil. }
  destruct (assembly_step limit _ [] _ [] _ [] sc4 (st_reached _ _ _ _ S4) F (F3_nil _)) as (sc5 & E5 & S5 & A5 & W5 & Z5 & _); [simpl; lia|].
  rewrite E5. cbn [concat app] in *.
  assert (B : (w_size (sc_w sc) <= s1 < s2 /\ s2 < s3 /\ s3 < s4 /\ w_size (sc_w sc) <= w_size (sc_w sc4))%nat).
  { unfold newer in *. pose proof (st_size _ _ _ _ S04).
    inversion N1 as [|? ? _ N1']; inversion N1'; inversion N2 as [|? ? _ N2']; inversion N2'; inversion N3 as [|? ? _ N3']; inversion N3'; inversion N4 as [|? ? _ N4']; inversion N4'; subst. lia. }
  exists sc5, (w_size (sc_w sc4)), [s1; s2; s3; s4]. split; auto. split; [|split; auto; split; [|split; auto]].
  - eapply step_trans; eauto. intros l Il El. apply (exists_size _ _ _ R) in El. simpl in Il. decompose [or] Il; subst; lia.
  - repeat constructor; simpl; lia.
  - repeat constructor; lia.
Qed.
