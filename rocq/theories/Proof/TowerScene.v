(** The tower plant: how it is built and aimed. *)
From Coq Require Import Reals List Arith Bool Lia Lra.
From Verif.Base Require Import Py Num Vec.
From Verif.Model Require Import RayBundle Spatial Geometry TraceTree Engine Objects OpticsCallables Surface Assembly Scene Models Tower.
From Verif.Proof Require Import NumLemmas VecLemmas SpatialProof FlatProof FrameProof FrameHistory PlaceProof PlaceTop ConstructProof ConstructTop
  GrowProof ListLemmas SurfaceProof LibraryTop ViewProof SceneProof ActProof ModelProof ModelTop AimProof HelioProof ReceiverProof ObjectProof TowerProof.
From Verif.Spec Require Import BundleSpec EngineSpec LibrarySpec AccountSpec GeometrySpec OpticsSpec FrameSpec SceneSpec ModelSpec TowerSpec.
Import ListNotations.

Lemma receiver_frame_eq aim : with_loc (roty (PI / 2)) (V3 0 0 aim) = receiver_frame aim.
Proof. unfold with_loc, roty, receiver_frame. cbn. rewrite cos_PI2, sin_PI2. repeat f_equal; lra. Qed.

Lemma map2_app {A C D} (f : A -> C -> D) l m l' m' : length l = length l' -> map2 f (l ++ m) (l' ++ m') = map2 f l l' ++ map2 f m m'.
Proof. revert l'. induction l as [|x l IH]; intros [|y l'] E; try discriminate; auto. cbn. f_equal. apply IH. auto. Qed.
Lemma f2_tail {A C} (P : A -> C -> Prop) l m l' m' : Forall2 P (l ++ m) (l' ++ m') -> length m = length m' -> Forall2 P m m'.
Proof.
  intros F Lm. pose proof (Forall2_length _ _ _ F) as Lf. rewrite !app_length in Lf. assert (Ll : length l = length l') by lia. clear Lm Lf.
  revert l' Ll F. induction l as [|x l IH]; intros [|y l'] Ll F; try discriminate; auto. inversion F; subst. eapply IH; eauto.
Qed.

Lemma f2_head {A C} (P : A -> C -> Prop) l m l' m' : Forall2 P (l ++ m) (l' ++ m') -> length l = length l' -> Forall2 P l l'.
Proof.
  intros F. revert l' F. induction l as [|x l IH]; intros [|y l'] F Ll; try discriminate; auto. inversion F; subst. constructor; auto.
Qed.
Lemma down_frame p : rigid (with_loc (rotx PI) p) /\ app4 (with_loc (rotx PI) p) vzero = p.
Proof.
  rewrite rotx_eq, with_loc_mk4. split; [eexists _, _; split; [reflexivity|apply gar_orthonormal, x_unit]|].
  destruct p as [x y z]. unfold app4, mk4, mv4, dot4, hom, v4_3, vzero. cbn. veq; ring.
Qed.
Lemma spots_mirrors T ts w h a : spots id4 (mirrors T ts w h a) =
  map (fun t => (mm4 T t, mkPart (RectPlate (w / 2) (h / 2)) (Absorbing (AbsorberReflector a)) id4)) ts.
Proof. unfold mirrors. cbn. rewrite mm4_id_l. induction ts; cbn; congruence. Qed.

Lemma tower_step limit ps w h a aim X Y sc : reached limit sc -> (0 < w)%R -> (0 < h)%R -> (0 < X)%R -> (0 < Y)%R -> 3 <= limit ->
  exists sc' t id, tower_plant limit ps w h a aim X Y sc = (sc', Ok t) /\ step limit none sc sc' /\
    is_tower sc' t ps w h a aim X Y id /\ ~ exists_in sc (tw_plant t) /\ sc_acc sc <= id < sc_acc sc'.
Proof.
  intros R Hw Hh HX HY L. unfold tower_plant.
  destruct (field_step limit w h a ps aim sc R Hw Hh ltac:(lia)) as (sc1 & f & ss & E1 & S1 & F1 & Ep & Ea & N1 & W1). bstep.
  pose proof (st_reached _ _ _ _ S1) as R1.
  destruct (receiver_step limit X Y 1 sc1 R1 HX HY ltac:(lia)) as (sc2 & ro & s1 & s2 & E2 & S2 & O2 & N2 & D12 & A2). bstep.
  pose proof (st_reached _ _ _ _ S2) as R2.
  rewrite receiver_frame_eq. set (F := receiver_frame aim).
  destruct (literal_step limit (A44 F) sc2 R2) as (sc3 & E3 & S3 & V3 & Nx3 & _ & Z3 & A3). bstep.
  destruct (literal_frame limit F sc2 _ _ R2 E3) as (_ & Fa3). set (b := w_next (sc_w sc2)) in *.
  assert (S13 : step limit none sc1 sc3) by (eapply step_then; eauto).
  pose proof (step_object _ _ _ _ _ _ _ R2 S3 O2) as O3.
  assert (Ln : w_size (sc_w sc1) <= ro) by (inversion N2; auto).
  assert (Lb : w_next (sc_w sc1) <= b) by (apply (st_grown _ _ _ _ S2)).
  destruct (place_step limit none ro b F sc1 sc3 R1 S13 Ln (composite_object _ _ _ _ O3)) as (sc4 & E4 & S4 & Fa4 & T4 & K4 & Oth & Sd4 & Z4 & A4); auto.
  { eapply built_up; [eapply object_built; eauto|lia]. }
  { intros l T P El. eapply object_path in P; [|exact O3]. exact (newer_not limit sc1 [ro; s1; s2] l R1 N2 (or_intror P) El). }
  bstep. pose proof (placed_object _ _ _ _ _ _ O3 Oth T4 K4 Sd4) as O4. cbn [receiver_of o_sided o_parts] in O4.
  change (mkO true F _) with (receiver_of (sc_acc sc1) F X Y 1) in O4.
  pose proof (st_reached _ _ _ _ S4) as R4.
  destruct F1 as (Fa & Fk & Fl & Fs & Fh).
  pose proof (step_assembly _ _ _ _ _ _ _ R1 S4 Fa) as Fa4'.
  assert (Fo : Forall3 (is_object sc4) [ro] [receiver_of (sc_acc sc1) F X Y 1] [[s1; s2]]) by (apply F3_cons; [exact O4|apply F3_nil]).
  assert (Fm : Forall3 (is_assembly sc4) [hf_node f] [mirrors id4 (map (with_loc (rotx PI)) ps) w h a] [ss]) by (apply F3_cons; [exact Fa4'|apply F3_nil]).
  destruct (assembly_step limit _ _ _ _ _ _ sc4 R4 Fo Fm) as (sc5 & E5 & S5 & A5 & W5 & Z5 & Ac5 & K5); [cbn; lia|].
  bstep. set (n := w_size (sc_w sc4)) in *.
  assert (El : concat [ss] ++ concat [[s1; s2]] = ss ++ [s1; s2]) by (cbn; rewrite !app_nil_r; reflexivity).
  rewrite El in *.
  assert (S04 : step limit none sc sc4) by (eapply step_then; eauto).
  assert (N2' : newer sc [ro; s1; s2]) by exact (newer_step _ _ _ _ _ S1 N2).
  assert (ND : NoDup (ss ++ [s1; s2])).
  { apply nodup_app; auto; [constructor; [intros [X0|[]]; congruence|repeat constructor; auto]|].
    intros x Ix Ix'. assert (exists_in sc1 x).
    { apply (well_placed_frames _ _ _ _ Fa Fs) in W1. apply In_nth_error in Ix as (k & Ek).
      destruct (nth_lt (spots id4 (mirrors id4 (map (with_loc (rotx PI)) ps) w h a)) k) as (sp & Esp).
      { rewrite <- (Forall2_length _ _ _ W1). apply nth_error_Some. congruence. }
      destruct (Forall2_at _ _ _ _ _ _ W1 Ek Esp) as (Pt & _). eapply part_exists; eauto. }
    exact (newer_not limit sc1 [ro; s1; s2] x R1 N2 (or_intror Ix') H). }
  exists sc5, (mkTower n f s1), (sc_acc sc1). split; [reflexivity|]. split.
  { eapply step_trans; [exact S04|exact S5|]. intros l Il Ex. exfalso. apply in_app_or in Il as [Il|Il].
    - exact (newer_not limit sc _ l R N1 (or_intror (in_or_app _ _ _ (or_intror Il))) Ex).
    - exact (newer_not limit sc _ l R N2' (or_intror Il) Ex). }
  split; [|split].
  - exists (map (with_loc (rotx PI)) ps), ss, ro, s2, F. cbn [tw_plant tw_field tw_rec]. split; auto. split.
    { split; [exact (step_assembly _ _ _ _ _ _ _ R4 S5 Fa4')|]. split; [|auto].
      destruct (step_same _ _ _ _ (hf_node f) R1 S4) as ((K' & _) & _); [unfold exists_in; congruence|].
      destruct (step_same _ _ _ _ (hf_node f) R4 S5) as ((K'' & _) & _); [unfold exists_in; congruence|]. congruence. }
    split; auto. split; auto.
    split. { clear. induction ps; constructor; auto. apply down_frame. }
    pose proof (well_placed_frames _ _ _ _ A5 ND W5) as G. cbn [spots map concat app] in G.
    rewrite !app_nil_r in G. split.
    { clear - G. apply f2_head in G; [|pose proof (Forall2_length _ _ _ G) as Lg; rewrite !app_length in Lg; cbn in Lg |- *; lia].
      rewrite mm4_id_l, spots_mirrors in G. revert G. generalize (map (with_loc (rotx PI)) ps). intros ts G.
      remember (map _ ts) as m eqn:Em in G. revert ts Em. induction G as [|l x ls xs (_ & H) G IH]; intros [|u ts] Em; try discriminate; constructor.
      - injection Em as -> _. cbn [fst snd p_own] in H. rewrite mm4_id_r, mm4_id_l in H. exact H.
      - apply IH. injection Em as _ ->. reflexivity. }
    split; [exact (step_object _ _ _ _ _ _ _ R4 S5 O4)|]. split; [exact K5|].
    split; [inversion A5; subst; auto|]. apply f2_tail in G; [|reflexivity]. cbn [o_parts receiver_of map app o_tr] in G.
    inversion G as [|? ? ? ? (_ & G1) G']; subst. inversion G' as [|? ? ? ? (_ & G2) _]; subst. cbn [fst snd p_own] in G1, G2.
    rewrite !mm4_id_l in G1, G2. rewrite mm4_id_r in G1. auto.
  - intros Ex. apply (exists_size _ _ _ R) in Ex. cbn in Ex. pose proof (st_size _ _ _ _ S04). lia.
  - pose proof (st_acc _ _ _ _ S1). lia.
Qed.

(** ** Aiming *)

Local Open Scope R_scope.
Lemma receiver_rigid aim : rigid (receiver_frame aim).
Proof. rewrite <- receiver_frame_eq, roty_eq, with_loc_mk4. eexists _, _. split; [reflexivity|]. apply gar_orthonormal, y_unit. Qed.
Lemma back_rigid aim : rigid (mm4 (receiver_frame aim) (translate 0 0 (- tenm 10))).
Proof. apply rigid_mm4; [apply receiver_rigid|]. exists id3, (V3 0 0 (- tenm 10)). split; [reflexivity|]. apply orthonormal_eqs; cbn; repeat split; ring. Qed.
Lemma receiver_z aim : z_of (receiver_frame aim) = V3 1 0 0 /\ z_of (mm4 (receiver_frame aim) (translate 0 0 (- tenm 10))) = V3 1 0 0.
Proof. unfold z_of, receiver_frame, translate. cbn. split; veq; ring. Qed.
Lemma receiver_points aim X Y q : placed (receiver_frame aim) (rectangle X Y) q <->
  vx q = 0 /\ - (X / 2) <= vz q - aim <= X / 2 /\ - (Y / 2) <= vy q <= Y / 2.
Proof.
  destruct q as [x y z]. cbn. split.
  - intros ([qx qy qz] & (A & B & C) & E). unfold app4, receiver_frame in E. cbn in *. injection E as -> -> ->. lra.
  - intros (A & B & C). exists (V3 (aim - z) y 0). unfold rectangle, app4, receiver_frame. cbn. repeat split; try lra. veq; lra.
Qed.
Lemma back_points aim X Y q : placed (mm4 (receiver_frame aim) (translate 0 0 (- tenm 10))) (rectangle X Y) q ->
  vx q = - tenm 10 /\ - (X / 2) <= vz q - aim <= X / 2 /\ - (Y / 2) <= vy q <= Y / 2.
Proof.
  destruct q as [x y z]. cbn. intros ([qx qy qz] & (A & B & C) & E). unfold app4, receiver_frame, translate in E. cbn in *.
  injection E as -> -> ->. lra.
Qed.

Lemma can_aim ps aim sun w h X Y : is_unit sun -> free_ways ps (V3 0 0 aim) sun w h X Y ->
  forall p, In p ps -> p <> V3 0 0 aim /\
    forall tw k, 0 < k -> V3 0 0 aim = vadd p (vscale k tw) -> is_unit tw -> vadd sun tw <> vzero.
Proof.
  intros Us Fw p Ip. split.
  - intros ->. pose proof (fw_apart _ _ _ _ _ _ _ Fw _ Ip) as A. unfold distance in A.
    replace (norm2 (vsub (V3 0 0 aim) (V3 0 0 aim))) with 0 in A by (vunfold; ring). rewrite sqrt_0 in A. pose proof (tenm_pos 6). lra.
  - intros tw k K E Ut Z. pose proof (fw_tilt _ _ _ _ _ _ _ Fw _ Ip) as A.
    destruct (direction_to p (V3 0 0 aim) tw k Ut K) as (_ & Ed); [symmetry; exact E|]. rewrite <- Ed, Z in A.
    replace (norm2 vzero) with 0 in A by (unfold vzero; vunfold; ring). rewrite sqrt_0 in A. pose proof (tenm_pos 10). lra.
Qed.

Lemma tower_turned limit sc t ps w h a aim X Y id az el :
  reached limit sc -> is_tower sc t ps w h a aim X Y id -> ps <> [] -> 0 < w -> 0 < h -> (3 <= limit)%nat ->
  (forall p, In p ps -> p <> V3 0 0 aim /\
     forall tw k, 0 < k -> V3 0 0 aim = vadd p (vscale k tw) -> is_unit tw -> vadd (solar_vector az el) tw <> vzero) ->
  let F := receiver_frame aim in
  exists sc1 ts' ms, aim_to_sun limit (tw_field t) az el sc = (sc1, Ok tt) /\ reached limit sc1 /\ is_tower sc1 t ps w h a aim X Y id /\
    Forall2 (fun p T => rigid T /\ app4 T vzero = p) ps ts' /\
    ms = map (fun F => Surface.new_surface (RectPlate (w / 2) (h / 2)) (Absorbing (AbsorberReflector a)) F) ts' /\
    engine_view limit (tw_plant t) sc1 = (sc1, Ok (repeat (one_sided_object 1) (length ps) ++ [one_sided_object 2],
      ms ++ [Surface.new_surface (RectPlate (X / 2) (Y / 2)) (Accountant id (Reflective 1)) F;
             Surface.new_surface (RectPlate (X / 2) (Y / 2)) (Absorbing (Reflective 1)) (mm4 F (translate 0 0 (- tenm 10)))])) /\
    Forall2 (fun p s => aims s p (solar_vector az el) (V3 0 0 aim) w h (1 - a)) ps ms.
Proof.
  intros R (ts & ss & ro & s2 & F & EF & Fd & Ep & Ea & _ & _ & Or & K & Tp & G1 & G2 & ND) Np Hw Hh L Ca.
  set (sun := solar_vector az el) in *.
  set (f := tw_field t) in *.
  destruct (field_aimed limit sc f id4 ts w h a ss az el R Fd) as (sc1 & ts' & ms & E1 & R1 & Fd1 & Rg & Gl & Sm & Pl & Ev & Am); auto; try lia; try congruence.
  { rewrite Ep, Ea. fold sun. exact Ca. }
  rewrite Ep, Ea in *. fold sun in Am.
  assert (Nst : forall j, (forall d l, ~ is_object sc j d l) -> ~ In j (hf_stats f)).
  { intros j Nj Ij. destruct Fd as (A & Kf & _). inversion A as [n0 t0 os ms0 ods mds oss mss K0 T0 Fo Fm]; subst. rewrite Kf in K0. injection K0 as <- <-.
    destruct (F3_in _ _ _ _ _ Fo Ij) as (d & l & _ & _ & O). exact (Nj _ _ O). }
  assert (Sp : same_in sc sc1 (tw_plant t)).
  { apply Sm; [unfold exists_in; congruence|]. apply Nst. intros d l (K' & _). congruence. }
  assert (Nro : ~ In ro (hf_stats f)).
  { intros I. destruct Fd as (A & Kf & _). inversion A as [n0 t0 os ms0 ods mds oss mss K0 T0 Fo Fm]; subst. rewrite Kf in K0. injection K0 as <- <-.
    destruct (F3_in _ _ _ _ _ Fo I) as (d & l & Id & _ & O). destruct (object_fun _ _ _ _ _ _ O Or) as (Ed & _).
    unfold mirrors in *. apply in_map_iff in Id as (t1 & Et & _). rewrite <- Et in Ed. discriminate. }
  assert (Or1 : is_object sc1 ro (mkO true F
      [mkPart (RectPlate (X / 2) (Y / 2)) (Accountant id (Reflective 1)) id4;
       mkPart (RectPlate (X / 2) (Y / 2)) (Absorbing (Reflective 1)) (translate 0 0 (- tenm 10))]) [tw_rec t; s2]).
  { eapply same_object; [| |exact Or].
    - apply Sm; auto. eapply object_exists; eauto.
    - intros s Is. destruct (object_parts _ _ _ _ _ Or Is) as (p & _ & Kp). apply Sm; [eapply part_exists; eauto|]. apply Nst.
      intros d l (K' & _). destruct Kp as (Kp & _). congruence. }
  assert (Gs : forall s F0, In s [tw_rec t; s2] -> global_frame (sc_w sc) s = Some F0 -> global_frame (sc_w sc1) s = Some F0).
  { intros s F0 Is Eg. unfold global_frame. rewrite Pl; auto.
    - destruct (object_parts _ _ _ _ _ Or Is) as (p & _ & Kp). eapply part_exists; eauto.
    - intros I. clear - ND Is I. induction ss as [|x ss IH]; [destruct I|]. cbn in ND. inversion ND; subst. destruct I as [->|I]; auto.
      apply H1. apply in_or_app. auto. }
  assert (Tw : is_tower sc1 t ps w h a aim X Y id).
  { exists ts', ss, ro, s2, F. destruct Sp as ((K' & T' & _) & _). split; auto. split; auto. split; auto. split; auto. split; auto. split; auto. split; auto.
    split; [rewrite K'; exact K|]. split; [rewrite T'; exact Tp|]. split; [apply Gs; simpl; auto|]. split; [apply Gs; simpl; auto|auto]. }
  assert (Lts : length ts' = length ps) by (destruct Fd1 as (_ & _ & Lt & _); rewrite Lt, Ep; auto).
  set (front := Surface.new_surface (RectPlate (X / 2) (Y / 2)) (Accountant id (Reflective 1)) F).
  set (back := Surface.new_surface (RectPlate (X / 2) (Y / 2)) (Absorbing (Reflective 1)) (mm4 F (translate 0 0 (- tenm 10)))).
  assert (Ems : ms = map (fun F => Surface.new_surface (RectPlate (w / 2) (h / 2)) (Absorbing (AbsorberReflector a)) F) ts').
  { rewrite (field_view sc1 f id4 ts' w h a ss ts' Fd1) in Ev; auto; [|destruct ts'; [destruct ps; [congruence|discriminate]|discriminate]|lia].
    congruence. }
  assert (View : engine_view limit (tw_plant t) sc1 = (sc1, Ok (repeat (one_sided_object 1) (length ps) ++ [one_sided_object 2], ms ++ [front; back]))).
  { destruct Fd1 as (A1 & _ & _ & Ns & _). destruct Sp as ((K' & T' & _) & _).
    assert (A : is_assembly sc1 (tw_plant t) (mkA id4 [mkO true F
      [mkPart (RectPlate (X / 2) (Y / 2)) (Accountant id (Reflective 1)) id4;
       mkPart (RectPlate (X / 2) (Y / 2)) (Absorbing (Reflective 1)) (translate 0 0 (- tenm 10))]] [mirrors id4 ts' w h a])
       (concat [ss] ++ concat [[tw_rec t; s2]])).
    { apply is_asm with [ro] [hf_node f]; [congruence|congruence|apply F3_cons; [exact Or1|apply F3_nil]|apply F3_cons; [exact A1|apply F3_nil]]. }
    assert (Gf : Forall2 (fun l F => global_frame (sc_w sc1) l = Some F) (concat [ss] ++ concat [[tw_rec t; s2]]) (ts' ++ [F; mm4 F (translate 0 0 (- tenm 10))])).
    { cbn [concat]. rewrite !app_nil_r. apply Forall2_app; auto. constructor; [apply Gs; simpl; auto|]. constructor; [apply Gs; simpl; auto|constructor]. }
    rewrite (view_objects sc1 _ _ _ (ts' ++ [F; mm4 F (translate 0 0 (- tenm 10))]) A); auto; [|cbn; rewrite app_nil_r; intros Q; apply app_eq_nil in Q as (_ & Q); discriminate].
    do 3 f_equal.
    - cbn [seen_objects map concat mirrors]. rewrite app_nil_r, map_map. cbn. f_equal. rewrite <- Lts. clear. induction ts'; cbn; congruence.
    - cbn [concat]. rewrite !app_nil_r. rewrite map2_app by (apply (Forall2_length _ _ _ Gl)). f_equal.
      + rewrite (view_objects sc1 _ _ ss ts' A1) in Ev; auto; [congruence| |cbn; lia].
        unfold mirrors. cbn. destruct ts'; [destruct ps; [congruence|discriminate]|discriminate].
      + destruct Or1 as (_ & _ & _ & Fp). inversion Fp as [|? ? ? ? (_ & _ & P1 & P2) Fp']; subst. inversion Fp' as [|? ? ? ? (_ & _ & P3 & P4) _]; subst.
        cbn in P1, P2, P3, P4 |- *. rewrite P1, P2, P3, P4. reflexivity. }
  rewrite <- EF. exists sc1, ts', ms. repeat (split; [assumption|]). exact Am.
Qed.

Lemma tower_aimed limit sc t ps w h a aim X Y id az el reps me g :
  reached limit sc -> is_tower sc t ps w h a aim X Y id -> ps <> [] -> 0 < w -> 0 < h -> 0 < X -> 0 < Y -> 0 <= a -> (3 <= limit)%nat ->
  (2 <= reps)%nat -> 0 <= me < 1 - a ->
  free_ways ps (V3 0 0 aim) (solar_vector (az * degree) (el * degree)) w h X Y ->
  exists sc' st, aim_field limit t az el reps me g sc = (sc', Ok ([], [], st)) /\ reached limit sc' /\
    is_tower sc' t ps w h a aim X Y id /\ relays (t_tree st) (gen_rays ps az el) ps (V3 0 0 aim) (1 - a) /\
    a_absorbed (g_acc (t_g st) id) = a_absorbed (g_acc g id) ++ [map (fun _ => 1 - a) ps] /\
    a_hits (g_acc (t_g st) id) = a_hits (g_acc g id) ++ [map (fun _ => V3 0 0 aim) ps].
Proof.
  intros R T Np Hw Hh HX HY Ha L Hr Hme Fw. set (sun := solar_vector (az * degree) (el * degree)) in *.
  pose proof (solar_unit (az * degree) (el * degree) : is_unit sun) as Us.
  destruct (tower_turned limit sc t ps w h a aim X Y id (az * degree) (el * degree) R T Np Hw Hh L (can_aim _ _ _ _ _ _ _ Us Fw))
    as (sc1 & ts' & ms & E1 & R1 & Tw & Rg & Ems & View & Am).
  pose proof T as (_ & _ & _ & _ & F & EF & _ & Ep & _). rewrite <- EF in View. fold sun in Am. set (f := tw_field t) in *.
  set (front := Surface.new_surface (RectPlate (X / 2) (Y / 2)) (Accountant id (Reflective 1)) F) in *.
  set (back := Surface.new_surface (RectPlate (X / 2) (Y / 2)) (Absorbing (Reflective 1)) (mm4 F (translate 0 0 (- tenm 10)))) in *.
  unfold aim_field. fold f. rewrite Ep. erewrite bbind_ok by exact E1. erewrite bbind_ok by exact View. cbv beta iota.
  destruct (receiver_z aim) as (Z1 & Z2).
  assert (Rt : Forall (fun t => rigid t) ts').
  { clear - Rg. induction Rg as [|p t0 l m (H & _) F IH]; constructor; auto. }
  assert (Sf : forall s, In s (ms ++ [front; back]) -> lib_surface s /\ geom_ok (s_geom s) /\ media_differ (s_opt s) /\ ~ is_refractive (s_opt s)).
  { intros s Is. apply in_app_or in Is as [Is|[<-|[<-|[]]]].
    - rewrite Ems in Is. apply in_map_iff in Is as (t0 & <- & It). rewrite Forall_forall in Rt. repeat split; cbn; auto; lra.
    - repeat split; cbn; auto; try lra. subst F. apply receiver_rigid.
    - repeat split; cbn; auto; try lra. subst F. apply back_rigid. }
  destruct (relay ps ms front back (placed F (rectangle X Y)) (placed (mm4 F (translate 0 0 (- tenm 10))) (rectangle X Y))
    (fun p d e d' e' => mirrored (V3 1 0 0) d d' /\ e' = e * (1 - 1)) (V3 0 0 aim) sun w h X Y a id) with (g := g) (reps := reps) (me := me)
    as (st & Er & Rl & Ab & Ah); auto.
  - subst F. rewrite <- Z1. replace 0 with (1 - 1) by ring. apply flat_receiver; auto. apply receiver_rigid.
  - subst F. rewrite <- Z2. apply flat_rect; auto. apply back_rigid.
  - intros q. subst F. cbn. rewrite receiver_points. lra.
  - intros q Q. subst F. apply back_points in Q. cbn. lra.
  - split; [split; [|split]|].
    + intros ob Iob. apply in_app_or in Iob as [Iob|[<-|[]]]; [apply repeat_spec in Iob; subst|]; apply one_sided_object_ok.
    + intros s Is. apply Sf; auto.
    + rewrite ownership, !app_length, seq_length. rewrite <- (Forall2_length _ _ _ Am). reflexivity.
    + split; [destruct ms; discriminate|]. split; [intros ob Iob; apply in_app_or in Iob as [Iob|[<-|[]]]; [apply repeat_spec in Iob; subst|]; apply one_sided_object_ok|].
      intros s Is. destruct (Sf s Is) as (_ & B & C & _). auto.
  - intros b (s & Is & Rs). destruct (Sf s Is) as (_ & _ & _ & N). contradiction.
  - intros i s o Ei Eo. rewrite (Forall2_length _ _ _ Am). destruct (Nat.lt_ge_cases i (length ms)) as [Li|Gi].
    + rewrite nth_error_app1 in Ei by auto. apply nth_error_In in Ei. rewrite Ems in Ei. apply in_map_iff in Ei as (t0 & <- & _). discriminate.
    + rewrite nth_error_app2 in Ei by auto. destruct (i - length ms)%nat as [|[|k]] eqn:Ek; [lia| |destruct k; discriminate].
      injection Ei as <-. discriminate.
  - exists sc1, st. split; [|auto]. unfold calc. unfold source in Er. unfold gen_rays. fold sun. rewrite Er. reflexivity.
Qed.

Lemma tower_built limit ps w h a aim X Y sc : reached limit sc -> 0 < w -> 0 < h -> 0 < X -> 0 < Y -> (3 <= limit)%nat ->
  exists sc' t id, tower_plant limit ps w h a aim X Y sc = (sc', Ok t) /\ reached limit sc' /\ undisturbed sc sc' /\
    is_tower sc' t ps w h a aim X Y id /\ ~ exists_in sc (tw_plant t) /\ (sc_acc sc <= id < sc_acc sc')%nat.
Proof.
  intros R Hw Hh HX HY L. destruct (tower_step limit ps w h a aim X Y sc R Hw Hh HX HY L) as (sc' & t & id & E & S & T & N & A).
  exists sc', t, id. split; auto. split; [apply S|]. split; [eapply step_undisturbed; eauto|auto].
Qed.
