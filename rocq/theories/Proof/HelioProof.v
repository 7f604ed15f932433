(** The heliostat field. *)
From Coq Require Import Reals List Arith Bool Lia Lra.
From Verif.Base Require Import Py Num Vec.
From Verif.Model Require Import RayBundle Spatial Geometry TraceTree Engine Objects OpticsCallables Surface Assembly Scene Models.
From Verif.Proof Require Import NumLemmas VecLemmas SpatialProof FlatProof FrameProof FrameHistory PlaceProof PlaceTop ConstructProof ConstructTop
  GrowProof ListLemmas ViewProof SceneProof ActProof ModelProof ModelTop AimProof.
From Verif.Spec Require Import BundleSpec EngineSpec LibrarySpec GeometrySpec OpticsSpec FrameSpec SceneSpec ModelSpec.
Import ListNotations.

Definition singles (ss : list nat) : list (list nat) := map (fun s => [s]) ss.
Lemma concat_singles ss : concat (singles ss) = ss.
Proof. induction ss; simpl; congruence. Qed.

Lemma heliostats_step limit w h a : (0 < w)%R -> (0 < h)%R -> 0 < limit -> forall ps sc, reached limit sc ->
  exists sc' hs ss, bmap (heliostat limit w h a) ps sc = (sc', Ok hs) /\ step limit none sc sc' /\
    Forall3 (is_object sc') hs (map (fun p => mirror_of (with_loc (rotx PI) p) w h a) ps) (singles ss) /\
    newer sc (hs ++ ss) /\ Forall (fun j => j < w_size (sc_w sc')) (hs ++ ss) /\ NoDup hs /\ NoDup ss.
Proof.
  intros Hw Hh L. induction ps as [|p ps IH]; intros sc R.
  - exists sc, [], []. split; [reflexivity|]. split; [apply step_refl; auto|]. split; [apply F3_nil|].
    repeat split; constructor.
  - cbn [bmap].
    destruct (wall_step limit w h a (with_loc (rotx PI) p) sc R Hw Hh L) as (sc1 & n & s & E1 & S1 & O1 & N1 & Bn & Bs).
    change (wall limit w h a (with_loc (rotx PI) p)) with (heliostat limit w h a p) in E1. bstep.
    destruct (IH sc1 (st_reached _ _ _ _ S1)) as (sc2 & hs & ss & E2 & S2 & F2 & N2 & B2 & D1 & D2). bstep.
    exists sc2, (n :: hs), (s :: ss). split; [reflexivity|]. split; [eapply step_then; eauto|].
    split; [cbn [map singles]; apply F3_cons; [exact (step_object _ _ _ _ _ _ _ (st_reached _ _ _ _ S1) S2 O1)|exact F2]|].
    pose proof (st_size _ _ _ _ S1) as Z1. pose proof (st_size _ _ _ _ S2) as Z2. inversion N1 as [|? ? M1 N1']; subst. inversion N1' as [|? ? M2 _]; subst.
    unfold newer in *. rewrite Forall_app in N2, B2. destruct N2 as (N2 & N2'), B2 as (B2 & B2').
    assert (X : forall l, Forall (fun k => w_size (sc_w sc1) <= k) l -> forall j, j < w_size (sc_w sc1) -> ~ In j l).
    { intros l Fl j Lj Ij. rewrite Forall_forall in Fl. specialize (Fl _ Ij). lia. }
    split; [|split; [|split]].
    + rewrite Forall_app. split; constructor; auto; [eapply Forall_impl; [|exact N2]|eapply Forall_impl; [|exact N2']]; cbv beta; intros; lia.
    + rewrite Forall_app. split; constructor; auto; try lia.
    + constructor; auto.
    + constructor; auto.
Qed.

Lemma field_step limit w h a ps aim sc : reached limit sc -> (0 < w)%R -> (0 < h)%R -> 2 <= limit ->
  exists sc' f ss, heliostat_field limit ps w h a aim sc = (sc', Ok f) /\ step limit none sc sc' /\
    is_field sc' f id4 (map (with_loc (rotx PI)) ps) w h a ss /\ hf_pos f = ps /\ hf_height f = aim /\
    newer sc (hf_node f :: hf_stats f ++ ss) /\ well_placed (sc_w sc') (hf_node f).
Proof.
  intros R Hw Hh L. unfold heliostat_field.
  destruct (heliostats_step limit w h a Hw Hh ltac:(lia) ps sc R) as (sc1 & hs & ss & E1 & S1 & F1 & N1 & B1 & D1 & D2). bstep.
  destruct (assembly_step limit hs [] _ [] _ [] sc1 (st_reached _ _ _ _ S1) F1 (F3_nil _)) as (sc2 & E2 & S2 & A2 & W2 & Z2 & _ & K2); [simpl; lia|].
  bstep. simpl in A2. rewrite concat_singles in *.
  exists sc2, (mkField (w_size (sc_w sc1)) ps aim hs), ss. split; [reflexivity|]. split.
  - eapply step_trans; eauto. intros l Il El. simpl in Il. rewrite ?concat_singles in Il. eapply newer_not; eauto. apply in_or_app; auto.
  - split.
    + split; [|split; [|split; [cbn; rewrite map_length; auto|split; auto]]].
      * unfold mirrors. rewrite map_map. exact A2.
      * exact K2.
    + split; auto. split; auto. split; auto. cbn. constructor; auto. apply (st_size _ _ _ _ S1).
Qed.

(** ** Aiming *)

Lemma aim_one limit n d ss t sc : reached limit sc -> is_object sc n d ss -> 0 < limit ->
  exists sc', put_at limit n t sc = (sc', Ok tt) /\ reached limit sc' /\
    is_object sc' n (mkO (o_sided d) t (o_parts d)) ss /\
    Forall2 (fun s p => global_frame (sc_w sc') s = Some (mm4 t (p_own p))) ss (o_parts d) /\
    (forall j, exists_in sc j -> j <> n -> same_in sc sc' j) /\ (forall j, exists_in sc j -> exists_in sc' j) /\
    forall l, exists_in sc l -> ~ In l ss -> placed_array (sc_w sc') l = placed_array (sc_w sc) l.
Proof.
  intros R O L. unfold put_at.
  destruct (literal_step limit (A44 t) sc R) as (sc1 & E1 & S1 & _). bstep.
  destruct (literal_frame limit t sc _ _ R E1) as (_ & F1).
  pose proof (step_object _ _ _ _ _ _ _ R S1 O) as O1.
  assert (Bu : built (sc_w sc1) limit n) by (eapply built_up; [eapply object_built; eauto|lia]).
  destruct (place_any limit n (w_next (sc_w sc)) t sc1 (st_reached _ _ _ _ S1) (composite_object _ _ _ _ O1) Bu F1)
    as (sc2 & E2 & R2 & _ & _ & T2 & K2 & Oth & Sd & W2 & _ & _ & P2).
  exists sc2. split; [exact E2|]. split; auto.
  pose proof (placed_object _ _ _ _ _ t O1 Oth T2 K2 (proj2 (proj2 (Sd n)))) as O2. split; auto.
  assert (Sj : forall j, exists_in sc j -> j <> n -> same_in sc sc2 j).
  { intros j Ej Nj. pose proof (step_same _ _ _ _ _ R S1 Ej) as ((X1 & X2 & X3 & X4) & X5 & X6 & X7).
    destruct (Oth j Nj) as ((Y1 & Y2 & Y3 & Y4) & Y5 & Y6 & Y7). unfold same_in, same_node. repeat split; congruence. }
  split; [|split; [auto|split]].
  - destruct O2 as (K & T & _ & F). cbn [o_parts o_tr] in *. apply Forall2_and_in_l in F. eapply Forall2_impl; [|exact F]. cbv beta.
    intros s p (Is & (Ks & Ts & _)). assert (Pt : path (sc_w sc2) n s t) by (eapply path_obj; eauto; rewrite app_nil_r; auto).
    destruct (W2 s) as (T' & PT & Pl); [eauto|].
    assert (T' = t).
    { inversion PT; subst; congruence. }
    subst T'. unfold placed_by in Pl. rewrite Ks in Pl. destruct Pl as (m & Em & A). unfold global_frame. rewrite A. congruence.
  - intros j Ej. destruct (Nat.eq_dec j n) as [->|Nj]; [eapply object_exists; eauto|].
    destruct (Sj j Ej Nj) as ((X1 & _) & _). unfold exists_in in *. congruence.
  - intros l El Nl. rewrite P2; [apply S1; auto|]. intros (T & Pt). apply Nl. exact (object_path _ _ _ _ _ _ O1 Pt).
Qed.

Definition turned_objects (ods : list odesc) (ts : list mat4) : list odesc :=
  map2 (fun d t => mkO (o_sided d) t (o_parts d)) ods ts.
Definition own_frames (ods : list odesc) (ts : list mat4) : list mat4 :=
  concat (map2 (fun d t => map (fun p => mm4 t (p_own p)) (o_parts d)) ods ts).

Lemma aim_all_step limit : 0 < limit -> forall hs ods oss ts sc, reached limit sc -> Forall3 (is_object sc) hs ods oss ->
  NoDup hs -> NoDup (concat oss) -> length ts = length hs ->
  exists sc', aim_all limit hs ts sc = (sc', Ok tt) /\ reached limit sc' /\
    Forall3 (is_object sc') hs (turned_objects ods ts) oss /\
    Forall2 (fun s F => global_frame (sc_w sc') s = Some F) (concat oss) (own_frames ods ts) /\
    (forall j, exists_in sc j -> ~ In j hs -> same_in sc sc' j) /\
    forall l, exists_in sc l -> ~ In l (concat oss) -> placed_array (sc_w sc') l = placed_array (sc_w sc) l.
Proof.
  intros L hs. induction hs as [|n hs IH]; intros ods oss ts sc R F Dh Ds Lt.
  - inversion F; subst. destruct ts; [|discriminate]. exists sc. split; [reflexivity|]. split; auto. split; [constructor|].
    split; [constructor|]. split; auto. intros j _ _. unfold same_in, same_node. auto 10.
  - inversion F as [|x d ss l ods' oss' On F']; subst. destruct ts as [|t ts]; [discriminate|]. inversion Dh as [|? ? Nh Dh']; subst.
    simpl in Ds. pose proof (NoDup_app_remove_l _ _ Ds) as Ds'.
    destruct (aim_one limit n d ss t sc R On L) as (sc1 & E1 & R1 & O1 & G1 & S1 & Ex1 & P1).
    assert (F1 : Forall3 (is_object sc1) hs ods' oss').
    { eapply F3_impl_in; [|exact F']. intros m dm sm Im _ _ Om. cbv beta in *. assert (m <> n) by (intros ->; auto).
      apply same_object with sc; auto; [apply S1; auto; eapply object_exists; eauto|]. intros s Is.
      destruct (object_parts _ _ _ _ _ Om Is) as (p & _ & Kp). apply S1; [eapply part_exists; eauto|]. intros ->.
      destruct Kp as (Kp & _). destruct On as (Kn & _). congruence. }
    destruct (IH ods' oss' ts sc1 R1 F1 Dh' Ds' ltac:(simpl in Lt; lia)) as (sc2 & E2 & R2 & F2 & G2 & S2 & P2).
    assert (D1 : forall s, In s ss -> ~ In s (concat oss')).
    { clear - Ds. induction ss; simpl in *; [tauto|]. inversion Ds; subst. intros s [->|Is]; auto. intros I. apply H1. apply in_or_app; auto. }
    assert (Hss : forall s, In s ss -> exists_in sc1 s /\ ~ In s hs).
    { intros s Is. destruct (object_parts _ _ _ _ _ O1 Is) as (p & _ & Kp). split; [eapply part_exists; eauto|]. intros Ih.
      destruct (F3_in _ _ _ _ _ F1 Ih) as (d' & s' & _ & _ & (Kn & _)). destruct Kp as (Kp & _). congruence. }
    exists sc2. split.
    { unfold put_at in E1. cbn [aim_all]. destruct (literal_step limit (A44 t) sc R) as (sc0 & E0 & _). rewrite (bbind_ok _ _ _ _ _ E0) in E1. rewrite (bbind_ok _ _ _ _ _ E0).
      rewrite (bbind_ok _ _ _ _ _ E1). exact E2. }
    split; auto. split; [|split; [|split]].
    + cbn [turned_objects map2]. apply F3_cons; auto. apply same_object with sc1; auto; [apply S2; auto; eapply object_exists; eauto|].
      intros s Is. apply S2; apply Hss; auto.
    + cbn [own_frames map2 concat]. apply Forall2_app; [|exact G2]. cbn [o_parts] in *.
      apply Forall2_and_in_l in G1. clear - G1 P2 Hss D1. 
      assert (X : forall ss0 ps, Forall2 (fun x y => In x ss /\ global_frame (sc_w sc1) x = Some (mm4 t (p_own y))) ss0 ps ->
        Forall2 (fun s F => global_frame (sc_w sc2) s = Some F) ss0 (map (fun p => mm4 t (p_own p)) ps)); [|eapply X; eauto].
      intros ss0 ps H. induction H as [|x y ss0 ps (Ix & Gx)]; constructor; auto.
      unfold global_frame in *. rewrite P2; auto. apply Hss; auto.
    + intros j Ej Nj. assert (Nn : j <> n) by (intros ->; apply Nj; left; auto).
      assert (Nj' : ~ In j hs) by (intros ?; apply Nj; right; auto).
      destruct (S1 j Ej Nn) as ((X1 & X2 & X3 & X4) & X5 & X6 & X7).
      destruct (S2 j (Ex1 j Ej) Nj') as ((Y1 & Y2 & Y3 & Y4) & Y5 & Y6 & Y7). unfold same_in, same_node. repeat split; congruence.
    + intros l El Nl. simpl in Nl. rewrite in_app_iff in Nl. rewrite P2, P1; auto.
Qed.

(** ** The field as a whole *)

Lemma map2_map {A B C} (f : A -> B -> C) g l : forall ts, length ts = length l -> (forall a b, In a l -> f a b = g b) -> map2 f l ts = map g ts.
Proof.
  induction l as [|x l IH]; intros [|t ts] L H; simpl in *; try discriminate; auto. f_equal; auto.
Qed.
Lemma aimed_all sun height : is_unit sun -> forall ps,
  (forall p, In p ps -> p <> V3 0 0 height /\
     forall tw k, (0 < k)%R -> V3 0 0 height = vadd p (vscale k tw) -> is_unit tw -> vadd sun tw <> vzero) ->
  exists ts, mapM (fun p => aim_transform sun p height) ps = Ok ts /\
    Forall2 (fun p t => exists n tw k, t = facing n p /\ is_unit n /\ is_unit tw /\ (0 < k)%R /\
      ray_at p tw k = V3 0 0 height /\ mirrored n (vopp sun) tw /\ (dot (vopp sun) n < 0)%R) ps ts.
Proof.
  intros Us. induction ps as [|p ps IH]; intros H; [exists []; split; [reflexivity|constructor]|].
  destruct (H p (or_introl eq_refl)) as (A & B). destruct (aim_ok sun p height Us A B) as (n & tw & k & E & R).
  destruct IH as (ts & Em & F); [intros; apply H; right; auto|]. exists (facing n p :: ts). split.
  - rewrite mapM_cons, E. cbn [bind]. rewrite Em. reflexivity.
  - constructor; auto. exists n, tw, k. auto.
Qed.

Lemma field_view sc f T ts w h a ss Fs : is_field sc f T ts w h a ss -> ts <> [] ->
  Forall2 (fun s F => global_frame (sc_w sc) s = Some F) ss Fs -> forall limit, 2 <= limit ->
  engine_view limit (hf_node f) sc = (sc, Ok (repeat (one_sided_object 1) (length ts),
    map (fun F => Surface.new_surface (RectPlate (w / 2) (h / 2)) (Absorbing (AbsorberReflector a)) F) Fs)).
Proof.
  intros (A & K & Lt & D1 & D2) Ne G limit L.
  rewrite (view_objects sc _ _ ss Fs A); auto.
  - assert (Es : seen_objects (mirrors T ts w h a) = repeat (one_sided_object 1) (length ts)).
    { unfold mirrors. cbn. rewrite map_map. clear. induction ts as [|t ts IH]; cbn [map length repeat]; [reflexivity|f_equal; exact IH]. }
    rewrite Es. do 3 f_equal.
    inversion A as [n0 t0 os ms ods mds oss mss K0 T0 Fo Fm E1 E2 E3]; subst. unfold mirrors in *. inversion Fm; subst. simpl concat in *. simpl app in *.
    assert (P : Forall (fun s => is_part sc s (mkPart (RectPlate (w / 2) (h / 2)) (Absorbing (AbsorberReflector a)) id4)) (concat oss)).
    { clear - Fo. remember (map _ ts) as ods eqn:E. revert ts E. induction Fo as [|x y z l m n Ho F IH]; intros ts E; [constructor|].
      destruct ts as [|t ts]; [discriminate|]. injection E as -> E. simpl. apply Forall_app. split; eauto.
      destruct Ho as (_ & _ & _ & H). cbn in H. inversion H; subst. inversion H4; subst. auto. }
    clear - G P. induction G as [|s F ss Fs G' G IH]; simpl; auto. inversion P as [|? ? (P1 & P2 & P3 & P4) P']; subst.
    cbn in P3, P4. rewrite P3, P4, IH; auto.
  - unfold mirrors. cbn. destruct ts; [congruence|discriminate].
Qed.

Lemma field_aimed limit sc f T ts w h a ss az el : reached limit sc -> is_field sc f T ts w h a ss -> hf_pos f <> [] ->
  (0 < w)%R -> (0 < h)%R -> 2 <= limit ->
  (forall p, In p (hf_pos f) -> p <> V3 0 0 (hf_height f) /\
     forall tw k, (0 < k)%R -> V3 0 0 (hf_height f) = vadd p (vscale k tw) -> is_unit tw -> vadd (solar_vector az el) tw <> vzero) ->
  exists sc' ts' surfs, aim_to_sun limit f az el sc = (sc', Ok tt) /\ reached limit sc' /\ is_field sc' f T ts' w h a ss /\
    Forall2 (fun p t => rigid t /\ app4 t vzero = p) (hf_pos f) ts' /\
    Forall2 (fun l t => global_frame (sc_w sc') l = Some t) ss ts' /\
    (forall j, exists_in sc j -> ~ In j (hf_stats f) -> same_in sc sc' j) /\
    (forall l, exists_in sc l -> ~ In l ss -> placed_array (sc_w sc') l = placed_array (sc_w sc) l) /\
    engine_view limit (hf_node f) sc' = (sc', Ok (repeat (one_sided_object 1) (length (hf_pos f)), surfs)) /\
    Forall2 (fun p s => aims s p (solar_vector az el) (V3 0 0 (hf_height f)) w h (1 - a)) (hf_pos f) surfs.
Proof.
  intros R Fd Np Hw Hh L Ok_. pose proof Fd as (A & K & Lt & D1 & D2).
  destruct (aimed_all _ _ (solar_unit az el) _ Ok_) as (ts' & Em & Fa). unfold aim_to_sun.
  erewrite bbind_ok by (apply calc_ok; exact Em).
  inversion A as [n0 t0 os ms ods mds oss mss K0 T0 Fo Fm E1 E2 E3]; subst. unfold mirrors in *. inversion Fm; subst. clear Fm.
  rewrite K in K0. injection K0 as <-. simpl concat in *. simpl app in *.
  set (ods := map _ ts) in *. pose proof (f2_length Fa) as La. destruct (F3_length _ _ _ _ Fo) as (Lo & _). unfold ods in Lo. rewrite map_length in Lo.
  destruct (aim_all_step limit ltac:(lia) _ _ _ ts' sc R Fo D2 D1) as (sc' & E & R' & F' & G' & S' & P'); [lia|].
  assert (Eo : turned_objects ods ts' = map (fun t => mkO true t [mkPart (RectPlate (w / 2) (h / 2)) (Absorbing (AbsorberReflector a)) id4]) ts').
  { unfold turned_objects, ods. apply map2_map; [rewrite map_length; lia|]. intros d t I. apply in_map_iff in I as (t1 & <- & _). reflexivity. }
  assert (Ef : own_frames ods ts' = ts').
  { unfold own_frames, ods. rewrite (map2_map _ (fun t => [t])); [|rewrite map_length; lia|].
    - clear. induction ts'; simpl; congruence.
    - intros d t I. apply in_map_iff in I as (t1 & <- & _). cbn. rewrite mm4_id_r. reflexivity. }
  rewrite Eo in F'. rewrite Ef in G'.
  assert (En : exists_in sc (hf_node f)) by (unfold exists_in; congruence).
  assert (Nn : ~ In (hf_node f) (hf_stats f)).
  { intros I. destruct (F3_in _ _ _ _ _ Fo I) as (d' & s' & _ & _ & (Kn & _)). congruence. }
  destruct (S' _ En Nn) as ((K' & T' & _) & _).
  assert (Fd' : is_field sc' f T ts' w h a (concat oss)).
  { split; [|split; [congruence|split; [lia|split; auto]]].
    change (concat oss) with (concat (@nil (list nat)) ++ concat oss). unfold mirrors. apply is_asm with (hf_stats f) []; [congruence|congruence|exact F'|constructor]. }
  exists sc', ts', (map (fun F => Surface.new_surface (RectPlate (w / 2) (h / 2)) (Absorbing (AbsorberReflector a)) F) ts').
  split; [exact E|]. split; auto. split; auto. split.
  { eapply Forall2_impl; [|exact Fa]. cbv beta. intros p t (n & tw & k & -> & Un & _). destruct (facing_ok n p Un) as (Rf & Ap & _). auto. }
  split; auto. split; auto. split; auto. split.
  - rewrite <- La. eapply field_view; eauto. intros ->. simpl in La. destruct (hf_pos f); [congruence|discriminate].
  - clear - Fa Hw Hh. induction Fa as [|p t ps ts (n & tw & k & -> & Un & Ut & Hk & Er & M & D) F IH]; simpl; constructor; auto.
    destruct (facing_ok n p Un) as (Rf & Ap & Ez & Ey). exists (facing n p). split; auto. split; auto. split; auto.
    split; [apply one_way_rect; auto|]. rewrite Ez. split; auto. split; [eauto|]. intros d' M'.
    rewrite (mirrored_unique _ _ _ _ M' M). split; auto. eauto.
Qed.

(** ** Construction *)

Lemma down_acts w h a p : (0 < w)%R -> (0 < h)%R ->
  faces_down (Surface.new_surface (RectPlate (w / 2) (h / 2)) (Absorbing (AbsorberReflector a)) (with_loc (rotx PI) p)) p w h (1 - a).
Proof.
  intros Hw Hh. unfold faces_down.
  assert (E : with_loc (rotx PI) p = M4 (V4 1 0 0 (vx p)) (V4 0 (-1) 0 (vy p)) (V4 0 0 (-1) (vz p)) (V4 0 0 0 1)).
  { unfold with_loc, rotx. cbn. rewrite cos_PI, sin_PI, Ropp_0. reflexivity. }
  eapply one_way_ext; [| |apply one_way_rect; auto].
  - rewrite E. destruct p as [x y z]. intros [a' b' c']. cbn. split.
    + intros ([qx qy qz] & (A & B & C) & Q). unfold app4 in Q. cbn in *. injection Q as -> -> ->. repeat split; lra.
    + intros (A & B & C). exists (V3 (a' - x) (- (b' - y)) 0). unfold rectangle, app4. cbn. repeat split; try lra. veq; lra.
  - rewrite E. unfold z_of. cbn. veq; lra.
  - rewrite rotx_eq, with_loc_mk4. eexists _, _. split; [reflexivity|]. apply gar_orthonormal, x_unit.
Qed.

Lemma field_built limit w h a ps aim sc : reached limit sc -> (0 < w)%R -> (0 < h)%R -> 2 <= limit -> ps <> [] ->
  exists sc' f ss surfs, heliostat_field limit ps w h a aim sc = (sc', Ok f) /\ reached limit sc' /\ undisturbed sc sc' /\
    ~ exists_in sc (hf_node f) /\ is_field sc' f id4 (map (with_loc (rotx PI)) ps) w h a ss /\ hf_pos f = ps /\ hf_height f = aim /\
    (forall j, In j (hf_stats f ++ ss) -> ~ exists_in sc j) /\
    engine_view limit (hf_node f) sc' = (sc', Ok (repeat (one_sided_object 1) (length ps), surfs)) /\
    Forall2 (fun p s => faces_down s p w h (1 - a)) ps surfs.
Proof.
  intros R Hw Hh L Np. destruct (field_step limit w h a ps aim sc R Hw Hh L) as (sc' & f & ss & E & S & F & Ep & Ea & N & W).
  exists sc', f, ss, (map (fun F => Surface.new_surface (RectPlate (w / 2) (h / 2)) (Absorbing (AbsorberReflector a)) F) (map (with_loc (rotx PI)) ps)).
  split; auto. split; [apply S|]. split; [eapply step_undisturbed; eauto|].
  assert (Nn : forall j, In j (hf_node f :: hf_stats f ++ ss) -> ~ exists_in sc j) by (intros j Ij Ej; eapply newer_not; eauto).
  split; [apply Nn; left; auto|]. split; auto. split; auto. split; auto. split; [intros j I; apply Nn; right; auto|].
  split.
  - replace (length ps) with (length (map (with_loc (rotx PI)) ps)) by apply map_length.
    eapply field_view; eauto; [destruct ps; [congruence|discriminate]|].
    destruct F as (A & _ & _ & D & _). pose proof (well_placed_frames _ _ _ _ A D W) as G.
    assert (Es : map (fun s => mm4 (fst s) (p_own (snd s))) (spots id4 (mirrors id4 (map (with_loc (rotx PI)) ps) w h a)) = map (with_loc (rotx PI)) ps).
    { unfold mirrors. cbn [spots map concat app]. rewrite map_map. cbn [o_parts o_tr map]. clear.
      induction ps; cbn [map concat app]; auto. rewrite IHps. f_equal. cbn [fst snd p_own]. rewrite !mm4_id_l, mm4_id_r. auto. }
    rewrite <- Es. clear - G. induction G as [|l s ls sps (_ & G1) G IH]; simpl; constructor; auto.
  - clear - Hw Hh. rewrite map_map. induction ps; simpl; constructor; auto. apply down_acts; auto.
Qed.

(** Moving the field as a whole. *)
Lemma field_put limit sc f T ts w h a ss T' : reached limit sc -> is_field sc f T ts w h a ss -> ts <> [] -> 2 <= limit ->
  exists sc', put_at limit (hf_node f) T' sc = (sc', Ok tt) /\ reached limit sc' /\ is_field sc' f T' ts w h a ss /\
    well_placed (sc_w sc') (hf_node f).
Proof.
  intros R (A & K & Lt & D1 & D2) Ne L.
  assert (Ho : has_objects (mirrors T ts w h a)) by (apply has_flat; unfold mirrors; cbn; destruct ts; [congruence|discriminate]).
  destruct (put_view limit (hf_node f) T' _ ss sc R A D1 Ho L) as (sc' & E & R' & A' & W & _ & O & _ & K').
  exists sc'. split; auto. split; auto. split; auto. split; [exact A'|]. split; [congruence|auto].
Qed.
