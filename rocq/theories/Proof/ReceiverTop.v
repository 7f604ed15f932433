(** What the engine sees of a homogenized receiver. *)
From Coq Require Import Reals List Arith Bool Lia Lra.
From Verif.Base Require Import Py Num Vec.
From Verif.Model Require Import RayBundle Spatial Geometry TraceTree Engine Objects OpticsCallables Surface Assembly Scene Models.
From Verif.Proof Require Import NumLemmas VecLemmas SpatialProof FlatProof ShapeProof GeomTop FrameProof FrameHistory PlaceProof PlaceTop ConstructProof ConstructTop
  GrowProof ListLemmas ViewProof SceneProof ActProof ModelProof ModelTop DishProof ReceiverProof ObjectProof.
From Verif.Spec Require Import BundleSpec EngineSpec LibrarySpec GeometrySpec OpticsSpec FrameSpec SceneSpec ModelSpec.
Import ListNotations.
Local Open Scope R_scope.

Lemma frame_rigid pos : rigid (receiver_frame pos).
Proof. apply rigid_mm4; [apply rigid_translate|apply rigid_rotx]. Qed.

Lemma frame_app pos q : app4 (receiver_frame pos) q = V3 (vx q) (- vy q) (pos - vz q).
Proof.
  unfold receiver_frame. rewrite app4_mm4; [|apply rigid_translate|apply rigid_rotx].
  unfold app4, translate, rotx. destruct q. cbn. rewrite cos_PI, sin_PI. veq; ring.
Qed.
Lemma frame_z T pos : rigid T -> z_of (mm4 T (receiver_frame pos)) = turned T (V3 0 0 (-1)).
Proof.
  intros RT. rewrite z_of_mm4 by auto using frame_rigid. f_equal. unfold receiver_frame.
  rewrite z_of_mm4 by auto using rigid_translate, rigid_rotx. unfold turned, z_of, rotx, translate. cbn. rewrite cos_PI, sin_PI. veq; ring.
Qed.

Lemma front_shape pos X Y p : placed (receiver_frame pos) (rectangle X Y) p <->
  vz p = pos /\ - (X / 2) <= vx p <= X / 2 /\ - (Y / 2) <= vy p <= Y / 2.
Proof.
  split.
  - intros ([x y z] & (A & B & C) & ->). rewrite frame_app. cbn in *. repeat split; lra.
  - destruct p as [x y z]. cbn. intros (A & B & C). exists (V3 x (- y) 0). split; [unfold rectangle; cbn; repeat split; lra|].
    rewrite frame_app. cbn. veq; lra.
Qed.
Lemma back_shape pos X Y p : placed (receiver_frame pos) (placed (translate 0 0 (- / 10 ^ 10)) (rectangle X Y)) p <->
  vz p = pos + / 10 ^ 10 /\ - (X / 2) <= vx p <= X / 2 /\ - (Y / 2) <= vy p <= Y / 2.
Proof.
  set (e := / 10 ^ 10).
  assert (Q : forall q, placed (translate 0 0 (- e)) (rectangle X Y) q <-> vz q = - e /\ - (X / 2) <= vx q <= X / 2 /\ - (Y / 2) <= vy q <= Y / 2).
  { intros q. split.
    - intros ([x y z] & (A & B & C) & ->). unfold app4, translate. cbn in *. repeat split; lra.
    - destruct q as [x y z]. cbn. intros (A & B & C). exists (V3 x y 0). split; [unfold rectangle; cbn; repeat split; lra|].
      unfold app4, translate. cbn. veq; lra. }
  rewrite (placed_ext _ _ _ _ Q). split.
  - intros ([x y z] & (A & B & C) & ->). rewrite frame_app. cbn in *. repeat split; lra.
  - destruct p as [x y z]. cbn. intros (A & B & C). exists (V3 x (- y) (- e)). split; [cbn; repeat split; lra|].
    rewrite frame_app. cbn. veq; lra.
Qed.

Definition box_surfaces (T : mat4) (id : nat) (pm : part) (pos X Y H eff : R) : list surface :=
  seen_surfaces id4 (moved T (receiver_desc id pm pos X Y H eff)).

Lemma box_sees T id pm pos X Y H eff (Q : surface -> Prop) : rigid T -> 0 < X -> 0 < Y -> 0 < H -> Q (seen_part T pm) ->
  box_receiver T pos X Y H eff Q (box_surfaces T id pm pos X Y H eff).
Proof.
  intros RT HX HY HH HQ. unfold box_receiver, box_surfaces, receiver_desc, moved. fold (receiver_frame pos).
  pose proof (frame_rigid pos) as RF. set (F := receiver_frame pos) in *.
  destruct (sided_surfaces (mm4 T F) X Y 1 id (rigid_mm4 _ _ RT RF) HX HY) as (_ & Fr & Ba).
  exists (seen_surfaces id4 (mkA (mm4 T F) (walls X Y H eff) [])),
    (seen_part (mm4 T F) (mkPart (RectPlate (X / 2) (Y / 2)) (Accountant id (Reflective 1)) id4)),
    (seen_part (mm4 T F) (mkPart (RectPlate (X / 2) (Y / 2)) (Absorbing (Reflective 1)) (translate 0 0 (- / 10 ^ 10)))), (seen_part T pm).
  split.
  - cbn [seen_surfaces map concat app o_tr o_parts receiver_of]. rewrite !mm4_id_l, !mm4_id_r, !app_nil_r.
    rewrite translate_eq. reflexivity.
  - split; [apply box_acts; auto using rigid_mm4|]. split; [|split; auto].
    + eapply flat_ext; [| | |exact Fr]; [|apply frame_z; auto|ring].
      intros p. rewrite placed_mm4 by auto. apply placed_ext. apply front_shape.
    + eapply flat_ext; [| | |exact Ba]; [|apply frame_z; auto|ring].
      intros p. rewrite placed_mm4 by auto. apply placed_ext. apply back_shape.
Qed.
Lemma box_front T id pm pos X Y H eff : nth_error (box_surfaces T id pm pos X Y H eff) 4 =
  Some (seen_part (mm4 T (receiver_frame pos)) (mkPart (RectPlate (X / 2) (Y / 2)) (Accountant id (Reflective 1)) id4)).
Proof.
  unfold box_surfaces, receiver_desc, moved. cbn [seen_surfaces map concat app o_tr o_parts receiver_of walls mirror_of nth_error].
  rewrite !mm4_id_l. reflexivity.
Qed.

Lemma box_receives T id pm pos X Y H eff : rigid T -> 0 < X -> 0 < Y -> 0 < H ->
  receives (repeat (one_sided_object 1) 4 ++ [one_sided_object 2; default_object 1]) id T pos X Y eff (box_surfaces T id pm pos X Y H eff).
Proof.
  intros RT HX HY HH. split.
  { rewrite box_front. unfold seen_part, front_of. cbn [p_geom p_opt p_own]. rewrite mm4_id_r. reflexivity. }
  intros He Hm. pose proof (rigid_mm4 _ _ RT (frame_rigid pos)) as RF.
  unfold box_surfaces, receiver_desc, moved in *. cbn [seen_surfaces map concat app o_tr o_parts receiver_of walls mirror_of nth_error] in *.
  rewrite !mm4_id_l in *. destruct (Hm _ eq_refl) as ((am & Eam) & Gm & Lm). specialize (Lm ltac:(lra)).
  match goal with |- answering_assembly _ ?l /\ _ => set (ss := l) end.
  assert (Al : forall s, In s ss -> lib_surface s /\ geom_ok (s_geom s) /\ match s_opt s with Refractive _ _ => False | _ => True end).
  { intros s Hs. unfold ss in Hs. cbn [In] in Hs.
    repeat (destruct Hs as [<-|Hs]); try contradiction; unfold seen_part, mirror_part, Surface.new_surface; cbn [p_geom p_opt p_own s_geom s_opt s_frame];
      try (split; [split; [|split; [cbn; lra|split; reflexivity]]|split; cbn; auto]; cbn [s_frame]);
      auto 8 using rigid_mm4, rigid_id, rigid_translate, rigid_rotx, rigid_roty.
    - split; [exact Lm|]. split; [exact Gm|]. cbn in Eam. rewrite Eam. exact Logic.I. }
  split; [|split].
  - split; [split; [|split]|].
    + intros ob Ho. cbn in Ho. repeat (destruct Ho as [<-|Ho]; [first [apply one_sided_object_ok|apply default_object_ok]|]). destruct Ho.
    + intros s Hs. apply Al; auto.
    + reflexivity.
    + split; [discriminate|]. split.
      * intros ob Ho. cbn in Ho. repeat (destruct Ho as [<-|Ho]; [first [apply one_sided_object_ok|apply default_object_ok]|]). destruct Ho.
      * intros s Hs. destruct (Al s Hs) as (_ & A & B). split; auto. destruct (s_opt s); cbn; auto.
  - intros i s o Hi Ho. unfold ss in Hi.
    do 7 (destruct i as [|i]; [cbn [nth_error] in Hi; injection Hi as <-; cbn in Ho; try discriminate; try reflexivity; cbn in Eam; congruence|]).
    destruct i; discriminate.
  - intros b (s & Hs & R). destruct (Al s Hs) as (_ & _ & B). destruct (s_opt s); cbn in *; contradiction.
Qed.

Lemma part_now sc l p F : is_part sc l p -> global_frame (sc_w sc) l = Some (mm4 F (p_own p)) ->
  surface_now l sc = (sc, Ok (seen_part F p)).
Proof.
  intros (_ & _ & Eg & Eo) G. unfold global_frame, placed_array in G. unfold surface_now.
  destruct (w_node (sc_w sc) l) as [x|]; [|discriminate]. destruct (f_temp (n_fr x)) as [r|]; [|discriminate].
  destruct (read (sc_w sc) r); try discriminate. injection G as ->. cbn. unfold seen_part. rewrite Eg, Eo. reflexivity.
Qed.

Lemma receiver_found sc n T id pm pos X Y H eff ls rec s2 main :
  is_assembly sc n (moved T (receiver_desc id pm pos X Y H eff)) (ls ++ [rec; s2; main]) -> NoDup (ls ++ [rec; s2; main]) ->
  well_placed (sc_w sc) n ->
  surface_now rec sc = (sc, Ok (front_of id T pos X Y)).
Proof.
  intros A ND W. pose proof (well_placed_frames _ _ _ _ A ND W) as P. unfold receiver_desc, moved in P.
  cbn [spots map concat app o_tr o_parts receiver_of walls mirror_of] in P. rewrite !mm4_id_l in P.
  assert (L : length ls = 4%nat). { apply Forall2_length in P. rewrite app_length in P. cbn in P. lia. }
  destruct ls as [|a [|b [|c [|d [|]]]]]; try discriminate. cbn [app] in P.
  do 4 (inversion P as [|? ? ? ? _ P']; subst; clear P; rename P' into P).
  inversion P as [|? ? ? ? (Pr & G) _]; subst. cbn [snd fst] in *.
  assert (Ef : seen_part (mm4 T (receiver_frame pos)) (mkPart (RectPlate (X / 2) (Y / 2)) (Accountant id (Reflective 1)) id4) = front_of id T pos X Y).
  { unfold seen_part, front_of. cbn [p_geom p_opt p_own]. rewrite mm4_id_r. reflexivity. }
  rewrite <- Ef. exact (part_now _ _ _ _ Pr G).
Qed.

Lemma receiver_top limit main pm pos X Y H eff sc (Q : mat4 -> surface -> Prop) : reached limit sc -> is_part sc main pm ->
  0 < X -> 0 < Y -> 0 < H -> (3 <= limit)%nat -> (forall T, rigid T -> Q T (seen_part T pm)) ->
  exists sc' r, homogenized_receiver limit main pos (X, Y) H eff sc = (sc', Ok r) /\ hr_main r = main /\
    collector limit sc sc' r pos X Y H eff (fun l => l = main) Q.
Proof.
  intros R Pm HX HY HH L HQ.
  destruct (homogenized_step limit main pm pos X Y H eff sc R Pm HX HY HH L) as (sc' & r & ls & s2 & E & S & A & ND & N & W & Em & Es & Ac & _).
  exists sc', r. split; auto. split; auto. unfold collector.
  assert (Nn : forall j, In j (hr_node r :: hr_hom r :: ls ++ [hr_rec r; s2]) -> ~ exists_in sc j) by (intros j Ij Ej; exact (newer_not limit sc _ j R N Ij Ej)).
  set (d := receiver_desc (sc_acc sc) pm pos X Y H eff) in *.
  assert (Ho : has_objects d) by (unfold has_objects; cbn; discriminate).
  split; [apply S|]. split.
  { intros n En. split; [exact (step_same _ _ _ _ _ R S En)|]. intros Nm. apply S; auto. }
  split; [apply Nn; simpl; auto|]. split; [apply Nn; right; right; apply in_or_app; simpl; auto|]. split; [apply Nn; simpl; auto|].
  split; auto.
  pose proof (receiver_found sc' _ id4 _ _ _ _ _ _ _ _ _ _ _ A ND W) as Ef.
  exists (sc_acc sc). split; [lia|]. split.
  - exists (box_surfaces id4 (sc_acc sc) pm pos X Y H eff). split; [|split; [apply box_sees; auto using rigid_id|split; [apply box_receives; auto using rigid_id|exact Ef]]].
    apply (well_placed_view sc' _ d _ A ND). all: auto. apply has_flat; auto.
  - intros T RT. destruct (put_view limit (hr_node r) T d _ sc' (st_reached _ _ _ _ S) A ND Ho) as (sc2 & E2 & R2 & A2 & W2 & V2 & _); [cbn; lia|].
    pose proof (receiver_found sc2 _ T _ _ _ _ _ _ _ _ _ _ _ A2 ND W2) as Ef2.
    exists sc2, (box_surfaces T (sc_acc sc) pm pos X Y H eff). split; auto. split; auto. split; [exact V2|]. split; [apply box_sees; auto|].
    split; [apply box_receives; auto|exact Ef2].
Qed.

(** ** Dishes with a receiver *)

Lemma collector_new limit sc sc1 sc' r pos X Y H eff main Q : reached limit sc -> step limit none sc sc1 -> ~ exists_in sc main ->
  collector limit sc1 sc' r pos X Y H eff (fun l => l = main) Q -> collector limit sc sc' r pos X Y H eff (fun _ => False) Q.
Proof.
  intros R S Nm (C1 & C2 & C3 & C4 & C5 & C6 & id & Li & C8).
  assert (Ex : forall n, exists_in sc n -> exists_in sc1 n) by (intros n; apply (step_exists _ _ _ _ _ S)).
  unfold collector. split; auto. split.
  { intros n En. destruct (C2 n (Ex n En)) as (((Y1 & Y2 & Y3 & Y4) & Y5 & Y6 & Y7) & Pl).
    pose proof (step_same _ _ _ _ _ R S En) as ((X1 & X2 & X3 & X4) & X5 & X6 & X7).
    split; [unfold same_in, same_node; repeat split; congruence|]. intros _.
    rewrite Pl by (intros ->; auto). apply S; auto. }
  split; auto. split; auto. split; auto. split; auto. exists id. split; [pose proof (st_acc _ _ _ _ S); lia|auto].
Qed.

Lemma reflector_step limit g o sc : reached limit sc ->
  exists sc', make_surface limit g o None None sc = (sc', Ok (w_size (sc_w sc))) /\ step limit none sc sc' /\
    is_part sc' (w_size (sc_w sc)) (mkPart g o id4).
Proof.
  intros R. destruct (surface_step limit g o None None vzero id3 sc R Logic.I Logic.I eq_refl eq_refl) as (sc1 & E1 & S1 & P1 & _).
  rewrite id_mk4 in P1. eauto.
Qed.

Lemma dish_workable g T eff : rigid T -> geom_ok g -> workable eff (Surface.new_surface g (Absorbing (Reflective (1 - eff))) T).
Proof.
  intros RT G. split; [eexists; reflexivity|]. split; auto. intros He. split; auto. split; [cbn; lra|]. split; reflexivity.
Qed.

Lemma dish_ok D f g : new_dish D f = Ok g \/ new_hex_dish D f = Ok g -> geom_ok g.
Proof.
  intros [E|E]; [unfold new_dish in E|unfold new_hex_dish in E]; apply bind_ok in E as (p & _ & E); destruct (Reqb (p * p) 0); try discriminate;
    injection E as <-; exact Logic.I.
Qed.

Lemma minidish_top limit D f eff pos side H heff aspect sc : reached limit sc -> 0 < f -> 0 < side -> 0 < aspect -> 0 < H -> (3 <= limit)%nat ->
  exists sc' r, minidish limit D f eff pos side H heff aspect sc = (sc', Ok r) /\
    collector limit sc sc' r pos side (side * aspect) H heff (fun _ => False) (round_reflector D f eff).
Proof.
  intros R Hf Hs Ha HH L. unfold minidish. destruct (proj2 (GeomCases.dish_accepted D f) Hf) as (g & Eg).
  erewrite bbind_ok by (apply calc_ok; exact Eg).
  destruct (reflector_step limit g (Absorbing (Reflective (1 - eff))) sc R) as (sc1 & E1 & S1 & P1). bstep.
  destruct (receiver_top limit _ _ pos side (side * aspect) H heff sc1 (round_reflector D f eff) (st_reached _ _ _ _ S1) P1)
    as (sc' & r & E & _ & C); auto; [apply Rmult_lt_0_compat; auto| |].
  - intros T RT. unfold seen_part. cbn [p_geom p_opt p_own]. rewrite mm4_id_r.
    pose proof (round_acts D f g T (1 - eff) Eg RT) as M. replace (1 - (1 - eff)) with eff in M by ring. split; [exact M|]. split; [apply dish_focuses; auto; intros q (B & _); auto|].
    apply dish_workable; auto. apply (dish_ok D f); auto.
  - exists sc', r. split; auto. eapply collector_new; eauto. apply (new_not_exists limit); auto.
Qed.
Lemma petal_top limit D f eff pos side H heff aspect sc : reached limit sc -> 0 < f -> 0 < side -> 0 < aspect -> 0 < H -> (3 <= limit)%nat ->
  exists sc' r, petal limit D f eff pos side H heff aspect sc = (sc', Ok r) /\
    collector limit sc sc' r pos side (side * aspect) H heff (fun _ => False) (hex_reflector D f eff).
Proof.
  intros R Hf Hs Ha HH L. unfold petal. destruct (proj2 (GeomCases.hex_accepted D f) Hf) as (g & Eg).
  erewrite bbind_ok by (apply calc_ok; exact Eg).
  destruct (reflector_step limit g (Absorbing (Reflective (1 - eff))) sc R) as (sc1 & E1 & S1 & P1). bstep.
  destruct (receiver_top limit _ _ pos side (side * aspect) H heff sc1 (hex_reflector D f eff) (st_reached _ _ _ _ S1) P1)
    as (sc' & r & E & _ & C); auto; [apply Rmult_lt_0_compat; auto| |].
  - intros T RT. unfold seen_part. cbn [p_geom p_opt p_own]. rewrite mm4_id_r.
    pose proof (hexagonal_acts D f g T (1 - eff) Eg RT) as M. replace (1 - (1 - eff)) with eff in M by ring. split; [exact M|]. split; [apply dish_focuses; auto; intros q (B & _); auto|].
    apply dish_workable; auto. apply (dish_ok D f); auto.
  - exists sc', r. split; auto. eapply collector_new; eauto. apply (new_not_exists limit); auto.
Qed.
