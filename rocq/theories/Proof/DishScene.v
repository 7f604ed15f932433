(** The dish of examples/parabolic_dish_gui.py and its source. *)
From Coq Require Import Reals String List Arith Bool Lia Lra Permutation.
From Verif.Base Require Import Py Num Vec.
From Verif.Model Require Import RayBundle Spatial Geometry TraceTree Sources OpticsCallables Engine Objects Surface Mesh View Assembly Scene Models DishGui.
From Verif.Proof Require Import ListLemmas NumLemmas VecLemmas FlatProof BundleProof ProcessProof LibraryTop SourceProof MeshProof
  GrowProof ViewProof SceneProof ModelProof ModelTop ReceiverProof ReceiverTop MeasureProof ObjectTrace RelayProof SurfaceProof.
From Verif.Proof Require GeomCases.
From Verif.Spec Require Import BundleSpec EngineSpec GeometrySpec OpticsSpec LibrarySpec SourceSpec MeshSpec SceneSpec ModelSpec ViewSpec SceneViewSpec DishGuiSpec.
Import ListNotations.
Local Open Scope R_scope.

(** ** Measures *)

Lemma design_measures refl concent : feasible refl concent ->
  exists f W H, standard_measures 1 concent refl = Ok (f, W, H) /\ design refl concent f W H.
Proof.
  intros (HC & Hv & L). destruct sqrt2 as (S2 & L2). pose proof PI_RGT_0 as HP.
  assert (Q : 0 < PI / concent) by (apply Rdiv_lt_0_compat; auto).
  pose proof (sqrt_lt_R0 _ Q) as Sq. pose proof (sqrt_sqrt _ (Rlt_le _ _ Q)) as SS.
  unfold standard_measures. set (W := 1 / 2 * sqrt (PI / concent)) in *. set (f := 1 / 4 / (sqrt 2 - 1)).
  assert (Hf : 0 < f) by (unfold f; apply Rdiv_lt_0_compat; lra).
  assert (HW : 0 < W) by (unfold W; nra).
  rewrite (proj2 (Reqb_false concent 0)), (proj2 (Rltb_false (PI / concent) 0)) by lra.
  cbv zeta. fold W. rewrite (proj2 (Reqb_false (1 - (refl + 1) * W) 0)) by lra.
  exists f, W, ((refl + 1) * W * f / (1 - (refl + 1) * W)). split; auto. split; auto.
  split; [|split; [auto|split; [|split]]].
  - assert (Ef : f = 1 * (sqrt 2 + 1) / 4).
    { unfold f. apply (Rmult_eq_reg_r (sqrt 2 - 1)); [|lra]. unfold Rdiv. rewrite (Rmult_assoc _ (/ (sqrt 2 - 1))), Rinv_l by lra. nra. }
    assert (Half : 1 / sqrt 2 * (1 / sqrt 2) = 1 / 2).
    { apply (Rmult_eq_reg_r (sqrt 2 * sqrt 2)); [|nra]. transitivity 1; [field; lra|]. rewrite S2. field. }
    exists (1 * (sqrt 2 - 1) / 4), (1 / sqrt 2). split.
    + unfold rim_height, focal_bowl. cbn. rewrite Ef. nra.
    + split; [apply Rdiv_lt_0_compat; lra|]. split; [lra|]. rewrite sin_PI4, cos_PI4. split.
      * rewrite Half. reflexivity.
      * rewrite Half, Ef. field.
  - unfold W. replace (1 / 2 * sqrt (PI / concent) * (1 / 2 * sqrt (PI / concent)) * concent) with (1 / 2 * (1 / 2) * (sqrt (PI / concent) * sqrt (PI / concent)) * concent) by ring.
    rewrite SS. field. lra.
  - apply Rdiv_lt_0_compat; [|lra]. apply Rmult_lt_0_compat; auto. apply Rmult_lt_0_compat; lra.
  - field. lra.
Qed.

Lemma measures_cases refl concent : feasible refl concent \/
  (exists e, standard_measures 1 concent refl = Err e /\ (e = ZeroDivisionError \/ e = ValueError)) \/
  exists f W H, standard_measures 1 concent refl = Ok (f, W, H) /\ 0 < f /\ 0 < W /\ H <= 0.
Proof.
  destruct sqrt2 as (S2 & L2). pose proof PI_RGT_0 as HP. unfold standard_measures, feasible. cbv zeta.
  destruct (Reqb_spec concent 0) as [|N0]; [right; left; eauto|].
  destruct (Rltb_spec (PI / concent) 0) as [Ng|Ng]; [right; left; eauto|].
  assert (HC : 0 < concent).
  { destruct (Rlt_dec concent 0) as [C0|]; [|lra]. exfalso. unfold Rdiv in Ng. pose proof (Rinv_lt_0_compat _ C0). nra. }
  assert (Q : 0 < PI / concent) by (apply Rdiv_lt_0_compat; auto). pose proof (sqrt_lt_R0 _ Q) as Sq.
  set (W := 1 / 2 * sqrt (PI / concent)) in *. assert (HW : 0 < W) by (unfold W; nra).
  destruct (Reqb_spec (1 - (refl + 1) * W) 0) as [|N1]; [right; left; eauto|].
  assert (Hf : 0 < 1 / 4 / (sqrt 2 - 1)) by (apply Rdiv_lt_0_compat; lra). set (f := 1 / 4 / (sqrt 2 - 1)) in *.
  destruct (Rlt_dec (-1) refl) as [Lr|Lr]; [destruct (Rlt_dec ((refl + 1) * W) 1) as [Lw|Lw]; [left; auto|]|].
  - right. right. do 3 eexists. split; [reflexivity|]. split; auto. split; auto.
    assert (D : 1 - (refl + 1) * W < 0) by lra. pose proof (Rinv_lt_0_compat _ D) as I.
    assert (0 < (refl + 1) * W * f) by (apply Rmult_lt_0_compat; auto; apply Rmult_lt_0_compat; lra). unfold Rdiv. nra.
  - right. right. do 3 eexists. split; [reflexivity|]. split; auto. split; auto.
    assert (E : (refl + 1) * W <= 0) by nra. assert (D : 0 < 1 - (refl + 1) * W) by lra. pose proof (Rinv_0_lt_compat _ D) as I.
    assert ((refl + 1) * W * f <= 0) by nra. unfold Rdiv. nra.
Qed.

(** ** The dish *)

Lemma dish_made limit f W H sc : reached limit sc -> 0 < f -> 0 < W -> 0 < H -> (3 <= limit)%nat ->
  exists sc' r ls s2 ss objs,
    minidish limit 1 f 1 (f + H) W H 1 1 sc = (sc', Ok r) /\ reached limit sc' /\
    collector limit sc sc' r (f + H) W W H 1 (fun _ => False) (round_reflector 1 f 1) /\
    NoDup (ls ++ [hr_rec r; s2; hr_main r]) /\ length ls = 4%nat /\
    Forall (fun k => ~ exists_in sc k /\ exists_in sc' k) (ls ++ [hr_rec r; s2; hr_main r]) /\ (forall k, exists_in sc k -> exists_in sc' k) /\
    frames (get_surfaces limit (hr_hom r)) sc' = (sc', Ok ls) /\
    frames (get_surfaces limit (hr_node r)) sc' = (sc', Ok (ls ++ [hr_rec r; s2; hr_main r])) /\
    engine_view limit (hr_node r) sc' = (sc', Ok (objs, ss)) /\
    box_receiver id4 (f + H) W W H 1 (round_reflector 1 f 1 id4) ss /\
    answering_assembly objs ss /\ (forall b, knows_media ss b) /\
    Forall2 (fun k s => surface_now k sc' = (sc', Ok s) /\ exists m, surf_mesh s 10 = Ok m) (ls ++ [hr_rec r; s2; hr_main r]) ss.
Proof.
  intros R Hf HW HH L. destruct (minidish_top limit 1 f 1 (f + H) W H 1 1 sc R Hf HW Rlt_0_1 HH L) as (sc' & r & E & C).
  rewrite Rmult_1_r in C. pose proof E as E0. unfold minidish in E. destruct (proj2 (GeomCases.dish_accepted 1 f) Hf) as (gm & Eg).
  erewrite bbind_ok in E by (apply calc_ok; exact Eg).
  destruct (reflector_step limit gm (Absorbing (Reflective (1 - 1))) sc R) as (sc1 & E1 & S1 & P1).
  erewrite bbind_ok in E by exact E1.
  destruct (homogenized_step limit _ _ (f + H) W (W * 1) H 1 sc1 (st_reached _ _ _ _ S1) P1 HW ltac:(lra) HH L)
    as (sc2 & r2 & ls & s2 & E2 & S2 & A & ND & N & Wp & Em & Es & Ac & n1 & rn & b & K1 & K2 & K3 & Ah & _).
  rewrite E2 in E. injection E as <- <-. rewrite <- Em in A, ND.
  set (d := receiver_desc (sc_acc sc1) (mkPart gm (Absorbing (Reflective (1 - 1))) id4) (f + H) W (W * 1) H 1) in *.
  pose proof (well_placed_view sc2 (hr_node r2) d _ A ND) as V. specialize (V ltac:(discriminate) Wp limit ltac:(cbn; lia)).
  exists sc2, r2, ls, s2, (seen_surfaces id4 d), (seen_objects d). split; [exact E0|]. split; [apply S2|]. split; [exact C|]. split; [exact ND|].
  destruct C as (_ & _ & _ & _ & _ & _ & id & _ & (ss & Vs & Bx & Rc & _) & _).
  rewrite V in Vs. assert (Xo : seen_objects d = repeat (one_sided_object 1) 4 ++ [one_sided_object 2; default_object 1]) by congruence.
  assert (Xs : seen_surfaces id4 d = ss) by congruence.
  assert (Ll : length ls = 4%nat) by (inversion Ah; subst; match goal with X : Forall3 (is_object _) _ (walls _ _ _ _) _ |- _ => idtac end;
    repeat match goal with X : Forall3 _ _ _ _ |- _ => inversion X; subst; clear X end; 
    repeat match goal with X : is_object _ _ _ ?l |- _ => destruct X as (_ & _ & _ & X); apply f2_length in X; cbn in X end; cbn; rewrite ?app_length; cbn; lia).
  split; [exact Ll|].
  assert (Pt : Forall (fun k => exists_in sc2 k) (ls ++ [hr_rec r2; s2; hr_main r2])).
  { apply Forall_forall. intros k Ik. pose proof (well_placed_frames sc2 _ d _ A ND Wp) as F. apply In_nth_error in Ik as (i & Ei).
    destruct (nth_error (spots id4 d) i) as [sp|] eqn:Esp.
    - pose proof (Forall2_at _ _ _ _ _ _ F Ei Esp) as (Pp & _). eapply part_exists; eauto.
    - apply nth_error_None in Esp. rewrite (f2_length F) in Esp. assert (i < length (ls ++ [hr_rec r2; s2; hr_main r2]))%nat by (apply nth_error_Some; congruence). lia. }
  split.
  { apply Forall_forall. intros k Ik. split; [|rewrite Forall_forall in Pt; auto]. intros Ek.
    pose proof (step_exists _ _ _ _ _ S1 Ek) as Ek1. pose proof (newer_not limit sc1 _ k (st_reached _ _ _ _ S1) N) as Nw.
    apply in_app_or in Ik as [Ik|Ik]; [apply Nw; auto; right; right; apply in_or_app; auto|].
    destruct Ik as [<-|[<-|[<-|[]]]].
    - apply Nw; auto. right. right. apply in_or_app. right. left. auto.
    - apply Nw; auto. right. right. apply in_or_app. right. right. left. auto.
    - rewrite Em in Ek. exact (new_not_exists limit sc R Ek). }
  split. { intros k Ek. exact (step_exists _ _ _ _ _ S2 (step_exists _ _ _ _ _ S1 Ek)). }
  split. { destruct (found_objects _ _ _ _ Ah) as (os & oss & Fo & Eo & Go). apply frames_same. apply (found_surfaces _ _ _ _ _ Ah Go _ Fo Eo); [discriminate|cbn; lia]. }
  split. { destruct (found_objects _ _ _ _ A) as (os & oss & Fo & Eo & Go). apply frames_same. apply (found_surfaces _ _ _ _ _ A Go _ Fo Eo); [discriminate|cbn; lia]. }
  split; [exact V|]. split; [rewrite Xs; exact Bx|].
  assert (Ww : forall s, nth_error ss 6 = Some s -> workable 1 s).
  { intros s E6. pose proof Bx as (ws & fr & bk & mn & -> & (w1 & w2 & w3 & w4 & -> & _) & _ & _ & (_ & _ & Wk)). cbn in E6. assert (s = mn) by congruence. subst. exact Wk. }
  destruct (proj2 Rc ltac:(lra) Ww) as (An & _ & Kn). rewrite Xo, Xs. split; [exact An|]. split; [exact Kn|].
  rewrite <- Xs. rewrite seen_spots. pose proof (well_placed_frames sc2 _ d _ A ND Wp) as F.
  assert (G : forall sp, In sp (spots id4 d) -> exists m, surf_mesh (seen_part (fst sp) (snd sp)) 10 = Ok m).
  { intros sp Isp. assert (X : (exists a c, p_geom (snd sp) = RectPlate a c) \/ p_geom (snd sp) = gm).
    { cbn in Isp. repeat (destruct Isp as [<-|Isp]; [cbn; eauto|]). destruct Isp. }
    unfold surf_mesh, seen_part, Surface.new_surface. cbn [s_geom s_frame]. destruct X as [(a & c & ->)| ->].
    - cbn [geom_mesh rect_mesh bind]. unfold rect_mesh. cbn [bind]. eauto.
    - destruct (dish_meshed 1 f gm 10 Eg ltac:(lra) ltac:(lra)) as (m & Emm & _). rewrite Emm. cbn [bind]. eauto. }
  revert F G. generalize (spots id4 d) (ls ++ [hr_rec r2; s2; hr_main r2]). clear. intros sps ks F.
  induction F as [|k sp ks sps (Pp & Gf) F IH]; intros G; [constructor|]. cbn [map]. constructor; [|apply IH; intros; apply G; right; auto].
  split; [|apply G; left; auto]. exact (part_now _ _ _ _ Pp Gf).
Qed.

(** ** A dish that cannot be made *)

Lemma dish_refused limit f W H sc : reached limit sc -> 0 < f -> 0 < W -> H <= 0 -> (3 <= limit)%nat ->
  exists sc', minidish limit 1 f 1 (f + H) W H 1 1 sc = (sc', Err ValueError) /\ reached limit sc' /\ forall k, exists_in sc k -> exists_in sc' k.
Proof.
  intros R0 Hf HW HH L. unfold minidish. destruct (proj2 (GeomCases.dish_accepted 1 f) Hf) as (gm & Eg).
  erewrite bbind_ok by (apply calc_ok; exact Eg).
  destruct (reflector_step limit gm (Absorbing (Reflective (1 - 1))) sc R0) as (sc0 & E0 & S0 & _).
  erewrite bbind_ok by exact E0. unfold homogenized_receiver. cbn [fst snd]. pose proof (st_reached _ _ _ _ S0) as R. rewrite Rmult_1_r.
  destruct (receiver_step limit W W 1 sc0 R HW HW ltac:(lia)) as (sc1 & n1 & s1 & s2 & E1 & S1 & O1 & N1 & Ns & A1). bstep.
  fold (receiver_frame (f + H)). set (F := receiver_frame (f + H)).
  destruct (literal_step limit (A44 F) sc1 (st_reached _ _ _ _ S1)) as (sc2 & E2 & S2 & V2 & Nx2 & Nd2 & Z2 & A2). bstep.
  destruct (literal_frame limit F sc1 _ _ (st_reached _ _ _ _ S1) E2) as (_ & Fa2). set (b := w_next (sc_w sc1)) in *.
  assert (S02 : step limit none sc0 sc2) by (eapply step_then; eauto).
  pose proof (step_object _ _ _ _ _ _ _ (st_reached _ _ _ _ S1) S2 O1) as O2.
  assert (Ln : (w_size (sc_w sc0) <= n1)%nat) by (inversion N1; auto).
  assert (Lb : (w_next (sc_w sc0) <= b)%nat) by (apply (st_grown _ _ _ _ S1)).
  destruct (place_step limit none n1 b F sc0 sc2 R S02 Ln (composite_object _ _ _ _ O2)) as (sc3 & E3 & S3 & _); auto.
  { eapply built_up; [eapply object_built; eauto|lia]. }
  { intros l T P El. eapply object_path in P; [|exact O2]. exact (newer_not limit sc0 [n1; s1; s2] l R N1 (or_intror P) El). }
  bstep. exists sc3. split; [|split; [apply S3|intros k Ek; exact (step_exists _ _ _ _ _ S3 (step_exists _ _ _ _ _ S0 Ek))]].
  unfold rect_homogenizer, wall, rect_one_sided_mirror, new_rect_plate. rewrite (proj2 (Rleb_true H 0) HH). reflexivity.
Qed.

(** ** Colours *)

Lemma paint_in ss c : forall colour k, In k ss -> paint colour ss c k = Some c.
Proof.
  unfold paint. induction ss as [|s ss IH]; intros colour k I; [destruct I|]. cbn [fold_left].
  destruct (in_dec Nat.eq_dec k ss) as [J|J]; [apply IH; auto|]. destruct I as [->|I]; [|contradiction].
  assert (X : forall m, ~ In k ss -> fold_left (fun m s => upd m s (Some c)) ss m k = m k).
  { clear. induction ss as [|s ss IH]; intros m N; auto. cbn [fold_left]. rewrite IH by (intros ?; apply N; right; auto).
    unfold upd. destruct (Nat.eqb_spec k s) as [->|]; auto. exfalso. apply N. left. auto. }
  rewrite X by auto. unfold upd. rewrite Nat.eqb_refl. auto.
Qed.
Lemma paint_out ss c : forall colour k, ~ In k ss -> paint colour ss c k = colour k.
Proof.
  unfold paint. induction ss as [|s ss IH]; intros m k N; auto. cbn [fold_left]. rewrite IH by (intros ?; apply N; right; auto).
  unfold upd. destruct (Nat.eqb_spec k s) as [->|]; auto. exfalso. apply N. left. auto.
Qed.
Lemma NoDup_app_parts {A} (l m : list A) : NoDup (l ++ m) -> NoDup l /\ NoDup m /\ forall x, In x l -> In x m -> False.
Proof.
  induction l as [|a l IH]; cbn; intros N; [split; [constructor|]; split; auto|]. inversion N as [|? ? Na Nl]; subst.
  destruct (IH Nl) as (X & Y & Z). split; [constructor; auto; intros I; apply Na, in_or_app; auto|]. split; auto.
  intros x [->|I] J; [apply Na, in_or_app; auto|eauto].
Qed.
Lemma total_repeat x n : total (repeat x n) = INR n * x.
Proof. unfold total. induction n; [cbn; lra|]. rewrite S_INR. cbn [repeat fold_right]. lra. Qed.

(** ** The dish and its source *)

Lemma created limit refl concent n colour rnd sc : reached limit sc -> unpainted sc colour -> fair rnd -> (3 <= limit)%nat -> feasible refl concent ->
  exists f W H sc' r ls s2 ss objs b colour' rnd',
    create_dish_source limit refl concent n colour rnd sc = (sc', Ok (r, b, colour', rnd')) /\ design refl concent f W H /\
    reached limit sc' /\ unpainted sc' colour' /\ fair rnd' /\ sun_from (f + H + 1 / 2) n b /\
    collector limit sc sc' r (f + H) W W H 1 (fun _ => False) (round_reflector 1 f 1) /\
    NoDup (ls ++ [hr_rec r; s2; hr_main r]) /\
    map (fun k => or_else (colour' k) (V3 (1 / 2) (1 / 2) (1 / 2))) (ls ++ [hr_rec r; s2; hr_main r]) = dish_colours /\
    frames (get_surfaces limit (hr_node r)) sc' = (sc', Ok (ls ++ [hr_rec r; s2; hr_main r])) /\
    engine_view limit (hr_node r) sc' = (sc', Ok (objs, ss)) /\
    box_receiver id4 (f + H) W W H 1 (round_reflector 1 f 1 id4) ss /\
    answering_assembly objs ss /\ (forall b, knows_media ss b) /\
    Forall2 (fun k s => surface_now k sc' = (sc', Ok s) /\ exists m, surf_mesh s 10 = Ok m) (ls ++ [hr_rec r; s2; hr_main r]) ss.
Proof.
  intros R Un Fr L Fe. destruct (design_measures refl concent Fe) as (f & W & H & Em & Ds). pose proof Ds as (Hf & _ & HW & _ & HH & _).
  destruct (dish_made limit f W H sc R Hf HW HH L) as (sc' & r & ls & s2 & ss & objs & E & R' & C & Nd & Ll & Nw & Ex & Gh & Gn & V & Bx & An & Kn & F2).
  unfold create_dish_source, standard_minidish.
  assert (Un' : forall k, In k (ls ++ [hr_rec r; s2; hr_main r]) -> colour k = None).
  { intros k Ik. rewrite Forall_forall in Nw. apply Un. apply (Nw k Ik). }
  pose proof (solar_disk_top n (V3 0 0 (f + H + 1 / 2)) (V3 0 0 (- 1)) (1 / 2) (465 / 100000) None rnd) as Sd.
  specialize (Sd ltac:(unfold is_unit; vunfold; lra) ltac:(pose proof PI2_3_2; pose proof PI_RGT_0; unfold PI2 in *; lra) Fr).
  destruct (solar_disk_bundle n (V3 0 0 (f + H + 1 / 2)) (V3 0 0 (- 1)) (1 / 2) (465 / 100000) None rnd) as [(b & rnd')|e] eqn:Es.
  2:{ destruct Sd as (_ & _ & X). congruence. }
  destruct Sd as (_ & Fr' & Hv & Hd & He & Hp & Hr & Hx).
  set (c1 := paint colour ls (V3 1 0 0)). set (c2 := paint c1 [hr_main r] (V3 0 0 1)).
  exists f, W, H, sc', r, ls, s2, ss, objs, (set_energy (repeat (1 * 1000 / INR n) n) b), c2, rnd'.
  split.
  { erewrite bbind_ok by (erewrite bbind_ok by (apply calc_ok; exact Em); cbv beta iota; erewrite bbind_ok by exact E; reflexivity).
    cbv beta iota. erewrite bbind_ok by exact Gh. cbv zeta. fold c1. fold c2. erewrite bbind_ok by (apply calc_ok; exact Es). reflexivity. }
  split; [exact Ds|]. split; [exact R'|].
  split.
  { intros k Nk. unfold c2. assert (Nl : ~ In k (ls ++ [hr_rec r; s2; hr_main r])).
    { intros I. rewrite Forall_forall in Nw. apply Nk. apply (Nw k I). }
    rewrite paint_out by (intros [<-|[]]; apply Nl; apply in_or_app; right; right; right; left; auto).
    unfold c1. rewrite paint_out by (intros I; apply Nl; apply in_or_app; auto). apply Un. intros Ek. apply Nk, Ex, Ek. }
  split; [exact Fr'|].
  split.
  { unfold sun_from, set_energy. cbn [b_vert b_dir b_energy b_parents b_ref b_extra]. split; [exact Hv|]. split; [exact Hd|]. split; [|auto].
    eexists. split; [reflexivity|]. rewrite Rmult_1_l. split; [reflexivity|]. intros Hn. rewrite total_repeat. field. apply not_0_INR. lia. }
  split; [exact C|]. split; [exact Nd|].
  split.
  { apply NoDup_app_parts in Nd. destruct Nd as (_ & Nr & Sep). rewrite map_app. unfold dish_colours. f_equal.
    - assert (X : forall k, In k ls -> c2 k = Some (V3 1 0 0)).
      { intros k Ik. unfold c2. rewrite paint_out by (intros [<-|[]]; exact (Sep _ Ik (or_intror (or_intror (or_introl eq_refl))))). apply paint_in. auto. }
      clear - X Ll. do 5 (destruct ls as [|? ls]; try discriminate Ll). cbn [map repeat]. rewrite !X by (simpl; auto). reflexivity.
    - cbn [map repeat app]. inversion Nr as [|? ? N1 Nr']; subst. inversion Nr' as [|? ? N2 _]; subst.
      assert (X : forall k, In k [hr_rec r; s2] -> c2 k = None).
      { intros k Ik. unfold c2. rewrite paint_out. 2:{ intros [J|[]]. destruct Ik as [K|[K|[]]]; [apply N1; right; left; congruence|apply N2; left; congruence]. }
        unfold c1. rewrite paint_out. 2:{ intros Il. apply (Sep _ Il). destruct Ik as [<-|[<-|[]]]; simpl; auto. }
        apply Un'. apply in_or_app. right. destruct Ik as [<-|[<-|[]]]; simpl; auto. }
      rewrite (X (hr_rec r)), (X s2) by (simpl; auto). unfold c2. rewrite paint_in by (left; auto). reflexivity. }
  auto 10.
Qed.

Lemma uncreated limit refl concent n colour rnd sc : reached limit sc -> (3 <= limit)%nat -> ~ feasible refl concent ->
  exists sc' e, create_dish_source limit refl concent n colour rnd sc = (sc', Err e) /\ (e = ZeroDivisionError \/ e = ValueError) /\
    reached limit sc' /\ forall k, exists_in sc k -> exists_in sc' k.
Proof.
  intros R L Nf. unfold create_dish_source, standard_minidish.
  destruct (measures_cases refl concent) as [Fe|[(e & E & He)|(f & W & H & E & Hf & HW & HH)]]; [contradiction| |].
  - exists sc, e. rewrite E. cbn. auto.
  - destruct (dish_refused limit f W H sc R Hf HW HH L) as (sc' & E' & R' & Ex). exists sc', ValueError.
    split; [|auto]. unfold bbind at 1. unfold bbind at 1. unfold calc at 1. rewrite E. unfold bbind at 1. rewrite E'. reflexivity.
Qed.
