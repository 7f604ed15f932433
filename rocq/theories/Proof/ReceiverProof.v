(** The homogenized receiver and the dishes built around it. *)
From Coq Require Import Reals List Arith Bool Lia Lra.
From Verif.Base Require Import Py Num Vec.
From Verif.Model Require Import RayBundle Spatial Geometry TraceTree Engine Objects OpticsCallables Surface Assembly Scene Models.
From Verif.Proof Require Import NumLemmas VecLemmas SpatialProof FlatProof FrameProof FrameHistory PlaceProof PlaceTop ConstructProof ConstructTop
  GrowProof ListLemmas ViewProof SceneProof ActProof ModelProof ModelTop.
From Verif.Spec Require Import BundleSpec EngineSpec LibrarySpec GeometrySpec OpticsSpec FrameSpec SceneSpec ModelSpec.
Import ListNotations.

Local Open Scope R_scope.
Definition receiver_frame (pos : R) : mat4 := mm4 (translate 0 0 pos) (rotx PI).
Definition receiver_desc (id : nat) (p : part) (pos X Y depth eff : R) : adesc :=
  mkA id4 [receiver_of id (receiver_frame pos) X Y 1; mkO false id4 [p]] [mkA (receiver_frame pos) (walls X Y depth eff) []].
Local Close Scope R_scope.

Definition only (m l : nat) : Prop := l = m.

Lemma nodup_app {A} (l m : list A) : NoDup l -> NoDup m -> (forall x, In x l -> ~ In x m) -> NoDup (l ++ m).
Proof. induction l; simpl; auto. intros K1 K2 K. inversion K1; subst. constructor; auto. rewrite in_app_iff. intros [|]; [auto|]. eapply K; eauto. Qed.

(** Which array is the transform of a node. *)
Definition tr_ref (w : world) (n : nat) : option ref := option_map (fun x => f_tr (n_fr x)) (w_node w n).
Lemma quiet_ref a b : quiet_node a b -> option_map (fun x => f_tr (n_fr x)) b = option_map (fun x => f_tr (n_fr x)) a.
Proof. destruct a, b; cbn; try tauto. intros (_ & T & _). congruence. Qed.
Lemma step_ref limit P sc sc' n : step limit P sc sc' -> exists_in sc n -> tr_ref (sc_w sc') n = tr_ref (sc_w sc) n.
Proof. intros S E. apply exists_node in E. destruct (st_grown _ _ _ _ S) as ((_ & _ & Q) & _). apply quiet_ref, Q, E. Qed.
Lemma step_ref_new limit P sc sc' n b : step limit P sc sc' -> b < w_next (sc_w sc) -> tr_ref (sc_w sc') n = Some (Whole b) ->
  tr_ref (sc_w sc) n = Some (Whole b).
Proof.
  intros S L E. destruct (w_node (sc_w sc) n) as [x|] eqn:Ex.
  - rewrite <- E. symmetry. apply (step_ref _ _ _ _ _ S). apply exists_node. congruence.
  - exfalso. unfold tr_ref in E. destruct (w_node (sc_w sc') n) as [y|] eqn:Ey; [|discriminate]. injection E as E.
    destruct (proj2 (st_grown _ _ _ _ S) n y Ex Ey) as (a & Ea & La). rewrite Ea in E. injection E as ->. lia.
Qed.
Lemma place_ref limit n b sc sc' : exists_in sc n -> place limit n (Whole b) sc = (sc', Ok tt) ->
  tr_ref (sc_w sc') n = Some (Whole b) /\ forall j, j <> n -> tr_ref (sc_w sc') j = tr_ref (sc_w sc) j.
Proof.
  intros E H. unfold place, frames in H. destruct (set_transform limit n (Whole b) (sc_w sc)) as [w' r] eqn:Es. injection H as <- ->. cbn [sc_w].
  apply exists_node in E. destruct (set_transform_ext _ _ _ _ _ E Es) as (b' & Eb & (_ & _ & Q) & x & x' & _ & Ex' & _ & T & _).
  injection Eb as <-. split; [unfold tr_ref; rewrite Ex'; cbn; congruence|]. intros j J. apply quiet_ref, Q, J.
Qed.

Lemma homogenized_step limit main pm pos X Y dp eff sc : reached limit sc -> is_part sc main pm ->
  (0 < X)%R -> (0 < Y)%R -> (0 < dp)%R -> 3 <= limit ->
  exists sc' r ls s2, homogenized_receiver limit main pos (X, Y) dp eff sc = (sc', Ok r) /\ step limit (only main) sc sc' /\
    is_assembly sc' (hr_node r) (receiver_desc (sc_acc sc) pm pos X Y dp eff) (ls ++ [hr_rec r; s2; main]) /\
    NoDup (ls ++ [hr_rec r; s2; main]) /\ newer sc (hr_node r :: hr_hom r :: ls ++ [hr_rec r; s2]) /\
    well_placed (sc_w sc') (hr_node r) /\ hr_main r = main /\ hr_sides r = (X, Y) /\ sc_acc sc < sc_acc sc' /\
    exists n1 rn b, kind_of (sc_w sc') (hr_node r) = Some (KAsm [n1; rn] [hr_hom r]) /\
      kind_of (sc_w sc') n1 = Some (KObj [hr_rec r; s2] []) /\ kind_of (sc_w sc') rn = Some (KObj [main] []) /\
      is_assembly sc' (hr_hom r) (mkA (receiver_frame pos) (walls X Y dp eff) []) ls /\
      transform_of (sc_w sc') n1 = Some (receiver_frame pos) /\ n1 <> hr_hom r /\
      tr_ref (sc_w sc') n1 = Some (Whole b) /\ tr_ref (sc_w sc') (hr_hom r) = Some (Whole b) /\
      (forall j, j <> n1 -> j <> hr_hom r -> tr_ref (sc_w sc') j <> Some (Whole b)).
Proof.
  intros R Pm HX HY HD L. unfold homogenized_receiver. cbn [fst snd].
  destruct (receiver_step limit X Y 1 sc R HX HY ltac:(lia)) as (sc1 & n1 & s1 & s2 & E1 & S1 & O1 & N1 & Ns & A1). bstep.
  fold (receiver_frame pos). set (F := receiver_frame pos).
  destruct (literal_step limit (A44 F) sc1 (st_reached _ _ _ _ S1)) as (sc2 & E2 & S2 & V2 & Nx2 & Nd2 & Z2 & A2). bstep.
  destruct (literal_frame limit F sc1 _ _ (st_reached _ _ _ _ S1) E2) as (_ & Fa2). set (b := w_next (sc_w sc1)) in *.
  assert (S02 : step limit none sc sc2) by (eapply step_then; eauto).
  pose proof (step_object _ _ _ _ _ _ _ (st_reached _ _ _ _ S1) S2 O1) as O2.
  assert (Ln : w_size (sc_w sc) <= n1) by (inversion N1; auto).
  assert (Lb : w_next (sc_w sc) <= b) by (apply (st_grown _ _ _ _ S1)).
  destruct (place_step limit none n1 b F sc sc2 R S02 Ln (composite_object _ _ _ _ O2)) as (sc3 & E3 & S3 & Fa3 & T3 & K3 & Oth & Sd3 & Z3 & A3); auto.
  { eapply built_up; [eapply object_built; eauto|lia]. }
  { intros l T P El. eapply object_path in P; [|exact O2]. exact (newer_not limit sc [n1; s1; s2] l R N1 (or_intror P) El). }
  bstep. pose proof (placed_object _ _ _ _ _ _ O2 Oth T3 K3 Sd3) as O3. cbn [receiver_of o_sided o_parts] in O3.
  change (mkO true F _) with (receiver_of (sc_acc sc) F X Y 1) in O3.
  pose proof (st_reached _ _ _ _ S3) as R3.
  destruct (homogenizer_step limit X Y dp eff sc3 R3 HX HY HD ltac:(lia)) as (sc4 & hn & hl & E4 & S4 & A4 & ND4 & N4 & W4). bstep.
  pose proof (step_frame _ _ _ _ _ _ S4 Fa3) as Fa4. pose proof (st_reached _ _ _ _ S4) as R4.
  assert (S04 : step limit none sc sc4) by (eapply step_then; eauto).
  assert (Lh : w_size (sc_w sc) <= hn) by (inversion N4; subst; pose proof (st_size _ _ _ _ S3); lia).
  assert (N4' : newer sc (hn :: hl)) by exact (newer_step _ _ _ _ _ S3 N4).
  destruct (place_step limit none hn b F sc sc4 R S04 Lh (composite_assembly _ _ _ _ A4)) as (sc5 & E5 & S5 & Fa5 & T5 & K5 & Oth5 & Sd5 & Z5 & A5); auto.
  { eapply built_up; [eapply assembly_built; eauto|cbn; lia]. }
  { intros l T P El. eapply path_leaf in P; [|exact A4]. exact (newer_not limit sc (hn :: hl) l R N4' (or_intror P) El). }
  bstep. pose proof (placed_assembly _ _ _ _ _ F A4 Oth5 T5 K5) as A6. cbn [moved] in A6.
  pose proof (step_object _ _ _ _ _ _ _ R3 S4 O3) as O4.
  assert (Nh : n1 <> hn).
  { intros ->. inversion A4; subst. destruct O4 as (K & _). congruence. }
  pose proof (other_object _ _ _ _ _ _ O4 Oth5 Nh (composite_assembly _ _ _ _ A4)) as O5.
  pose proof (st_reached _ _ _ _ S5) as R5. pose proof (step_part _ _ _ _ _ _ R S5 Pm) as Pm5.
  destruct (object_step limit [main] [pm] sc5 R5 (Forall2_cons _ _ Pm5 (Forall2_nil _)) ltac:(lia)) as (sc6 & E6 & S6 & O6 & Z6 & A6').
  bstep. set (rn := w_size (sc_w sc5)) in *. pose proof (st_reached _ _ _ _ S6) as R6.
  assert (S06 : step limit (only main) sc sc6).
  { eapply step_trans; [eapply step_weaken; [exact S5|intros l _ []]|exact S6|]. intros l [<-|[]] _. reflexivity. }
  assert (Fo : Forall3 (is_object sc6) [n1; rn] [receiver_of (sc_acc sc) F X Y 1; mkO false id4 [pm]] [[s1; s2]; [main]]).
  { apply F3_cons; [exact (step_object _ _ _ _ _ _ _ R5 S6 O5)|]. apply F3_cons; [exact O6|]. apply F3_nil. }
  assert (Fm : Forall3 (is_assembly sc6) [hn] [mkA F (walls X Y dp eff) []] [hl]).
  { apply F3_cons; [exact (step_assembly _ _ _ _ _ _ _ R5 S6 A6)|]. apply F3_nil. }
  destruct (assembly_step limit _ _ _ _ _ _ sc6 R6 Fo Fm) as (sc7 & E7 & S7 & A7 & W7 & Z7 & Ac7 & K7); [cbn; lia|].
  bstep. set (n := w_size (sc_w sc6)) in *.
  assert (El : concat [hl] ++ concat [[s1; s2]; [main]] = hl ++ [s1; s2; main]) by (cbn; rewrite app_nil_r; reflexivity).
  rewrite El in *.
  exists sc7, (mkRec n (X, Y) s1 hn main), hl, s2. cbn [hr_node hr_rec hr_hom hr_main hr_sides]. split; [reflexivity|].
  assert (Old : forall l, newer sc l -> forall x, In x l -> ~ exists_in sc x) by (intros l Nl x Ix Ex; exact (newer_not limit sc l x R Nl Ix Ex)).
  assert (Nr : newer sc [s1; s2]) by (inversion N1; auto).
  assert (Nhl : newer sc hl) by (inversion N4'; auto).
  assert (Em : exists_in sc main) by (eapply part_exists; eauto).
  split.
  { eapply step_trans; [exact S06|exact S7|]. intros l Il Ex. apply in_app_or in Il as [Il|Il]; [destruct (Old _ Nhl _ Il Ex)|].
    change [s1; s2; main] with ([s1; s2] ++ [main]) in Il. apply in_app_or in Il as [Il|[<-|[]]]; [destruct (Old _ Nr _ Il Ex)|reflexivity]. }
  split; [exact A7|]. split.
  { apply nodup_app; auto.
    - constructor; [|constructor; [|repeat constructor; auto]].
      + intros [->|[<-|[]]]; [congruence|]. apply (Old _ Nr main); simpl; auto.
      + intros [<-|[]]. apply (Old _ Nr main); simpl; auto.
    - intros x Ix [<-|[<-|[<-|[]]]].
      + assert (exists_in sc3 s1).
        { destruct (object_parts _ _ _ _ s1 O3) as (q & _ & Q); [simpl; auto|]. eapply part_exists; eauto. }
        exact (newer_not limit sc3 (hn :: hl) _ R3 N4 (or_intror Ix) H).
      + assert (exists_in sc3 s2).
        { destruct (object_parts _ _ _ _ s2 O3) as (q & _ & Q); [simpl; auto|]. eapply part_exists; eauto. }
        exact (newer_not limit sc3 (hn :: hl) _ R3 N4 (or_intror Ix) H).
      + exact (Old _ Nhl _ Ix Em). }
  split; [|split; [exact W7|split; [reflexivity|split; [reflexivity|]]]].
  { unfold newer in *. constructor; [unfold n; apply (st_size _ _ _ _ S06)|]. constructor; [auto|]. apply Forall_app. split; auto. }
  split; [pose proof (st_acc _ _ _ _ S7); pose proof (st_acc _ _ _ _ S6); pose proof (st_acc _ _ _ _ S4); lia|].
  exists n1, rn, b.
  pose proof (step_object _ _ _ _ _ _ _ R6 S7 (step_object _ _ _ _ _ _ _ R5 S6 O5)) as O7.
  pose proof (step_object _ _ _ _ _ _ _ R6 S7 O6) as Or7.
  pose proof (step_assembly _ _ _ _ _ _ _ R6 S7 (step_assembly _ _ _ _ _ _ _ R5 S6 A6)) as Ah7.
  split; [exact K7|]. split; [apply O7|]. split; [apply Or7|]. split; [exact Ah7|]. split; [apply O7|]. split; [exact Nh|].
  destruct (place_ref limit n1 b sc2 sc3 (object_exists _ _ _ _ O2) E3) as (P1 & P2).
  assert (Eh4 : exists_in sc4 hn) by (apply composite_exists; eapply composite_assembly; eauto).
  destruct (place_ref limit hn b sc4 sc5 Eh4 E5) as (P3 & P4).
  assert (Up : forall j, exists_in sc5 j -> tr_ref (sc_w sc7) j = tr_ref (sc_w sc5) j).
  { intros j Ej. rewrite (step_ref _ _ _ _ _ S7), (step_ref _ _ _ _ _ S6); auto. exact (step_exists _ _ _ _ _ S6 Ej). }
  assert (E1' : tr_ref (sc_w sc5) n1 = Some (Whole b)).
  { rewrite P4 by auto. rewrite (step_ref _ _ _ _ _ S4) by (eapply object_exists; eauto). exact P1. }
  assert (L3 : b < w_next (sc_w sc3)) by apply Fa3. assert (L5 : b < w_next (sc_w sc5)) by apply Fa5.
  assert (L6 : b < w_next (sc_w sc6)) by (destruct (st_grown _ _ _ _ S6) as ((? & _) & _); lia).
  split; [rewrite Up; [exact E1'|eapply object_exists; eauto]|].
  split; [rewrite Up; [exact P3|apply composite_exists; eapply composite_assembly; eauto]|].
  intros j J1 J2 Ej. apply (step_ref_new _ _ _ _ _ _ S7 L6) in Ej. apply (step_ref_new _ _ _ _ _ _ S6 L5) in Ej.
  rewrite P4 in Ej by auto. apply (step_ref_new _ _ _ _ _ _ S4 L3) in Ej. rewrite P2 in Ej by auto.
  unfold tr_ref in Ej. rewrite Nd2 in Ej. destruct (w_node (sc_w sc1) j) as [x|] eqn:Ex; [|discriminate]. injection Ej as Ej.
  destruct (proj1 (reached_inv _ _ (st_reached _ _ _ _ S1)) _ _ Ex) as (_ & (a & m & Ea & La & _) & _).
  rewrite Ea in Ej. injection Ej as ->. unfold b in La. lia.
Qed.
