(** The flux map of the tower plant. *)
From Coq Require Import Reals List Arith Bool Lia Lra.
From Verif.Base Require Import Py Num Vec.
From Verif.Model Require Import RayBundle Spatial Geometry TraceTree Engine Objects Sources OpticsCallables Surface Assembly Scene Models Tower.
From Verif.Proof Require Import NumLemmas VecLemmas SpatialProof CallProof SourceProof FlatProof FrameProof GeomTop PlaceTop
  GrowProof ListLemmas BundleProof ProcessProof TraceProof SurfaceProof LibraryTop TraceTop EngineTop ViewProof SceneProof ActProof ModelProof ModelTop AimProof HelioProof ReceiverProof ReceiverTop
  ObjectProof MeasureProof AccountProof FluxProof BoundLedger TowerProof TowerScene TowerField.
From Verif.Spec Require Import BundleSpec EngineSpec SourceSpec LibrarySpec AccountSpec GeometrySpec GeomIface OpticsSpec FrameSpec SceneSpec ModelSpec TowerSpec.
Import ListNotations.
Local Open Scope R_scope.

(** ** The rays *)
Lemma nth_tile {A} (l : list A) per k : (k < per * length l)%nat -> nth_error (concat (repeat l per)) k = nth_error l (k mod length l).
Proof.
  revert k. induction per as [|per IH]; intros k L; [lia|]. cbn [repeat concat].
  assert (Ll : length l <> 0%nat) by (destruct (length l); lia).
  destruct (Nat.lt_ge_cases k (length l)) as [Lt|Ge].
  - rewrite nth_error_app1 by auto. rewrite Nat.mod_small; auto.
  - rewrite nth_error_app2 by auto. rewrite IH by (cbn in L; lia).
    replace k with (k - length l + 1 * length l)%nat at 2 by lia. rewrite Nat.mod_add; auto.
Qed.
Lemma tile_length {A} (l : list A) per : length (concat (repeat l per)) = (per * length l)%nat.
Proof. induction per; cbn; rewrite ?app_length; auto. Qed.

Lemma nth_map2 {A C D} (f : A -> C -> D) l m k : nth_error (map2 f l m) k =
  match nth_error l k, nth_error m k with Some x, Some y => Some (f x y) | _, _ => None end.
Proof. revert m k. induction l as [|x l IH]; intros [|y m] [|k]; cbn; auto. destruct (nth_error l k); auto. Qed.
Lemma length_map2 {A C D} (f : A -> C -> D) l m : length l = length m -> length (map2 f l m) = length l.
Proof. revert m. induction l as [|x l IH]; intros [|y m] E; try discriminate; cbn; auto. Qed.

Lemma between_nth lo hi n g l g' : uniform_between lo hi n g = (l, g') ->
  length l = n /\ g' = mkRng (draws g) (drawn g + n) /\
  forall k, (k < n)%nat -> nth_error l k = Some (lo + (hi - lo) * draws g (drawn g + k)).
Proof.
  unfold uniform_between. destruct (uniform 1 n g) as (u & g1) eqn:E. intros Q. injection Q as <- <-.
  destruct (uniform_nth _ _ _ _ _ E) as (L & -> & N). rewrite map_length. split; auto. split; auto.
  intros k Lk. rewrite nth_error_map, (N k Lk). cbn. f_equal. ring.
Qed.

Lemma flux_rays_ok ps az el per ang half g : fair g -> 0 <= ang <= PI / 2 -> 0 <= half ->
  exists b, flux_rays ps (length ps) az el per ang half g = Ok (b, mkRng (draws g) (drawn g + 4 * (per * length ps))) /\
    sun_rays ps (solar_vector (az * degree) (el * degree)) per ang half g b.
Proof.
  intros Fg Ha Hh. unfold flux_rays. set (sun := solar_vector (az * degree) (el * degree)). set (n := (per * length ps)%nat).
  assert (U : is_unit (vopp sun)). { pose proof (solar_unit (az * degree) (el * degree) : is_unit sun) as Us. unfold is_unit in *. revert Us. vunfold. intros; lra. }
  destruct (pillbox_sunshape_directions n ang g) as (a & g1) eqn:E1.
  destruct (uniform_between (- half) half n g1) as (x & g2) eqn:E2. destruct (uniform_between (- half) half n g2) as (y & g3) eqn:E3.
  destruct (pillbox_nth _ _ _ _ _ E1) as (La & Eg1 & _). destruct (pillbox_top n ang g a g1 Ha Fg E1) as (_ & Da).
  destruct (pillbox_draws n ang g a g1 Ha Fg E1) as (_ & _ & Na).
  destruct (between_nth _ _ _ _ _ _ E2) as (Lx & Eg2 & Nx). destruct (between_nth _ _ _ _ _ _ E3) as (Ly & Eg3 & Ny).
  subst g1 g2 g3. cbn [draws drawn] in *. cbv zeta. rewrite tile_length, Nat.eqb_refl. cbn [negb].
  set (rot := rotation_to_z (vopp sun)) in *. set (base := concat (repeat ps per)).
  assert (Lb : length base = n) by apply tile_length.
  set (vs := map2 vsub _ _). eexists. split; [f_equal; f_equal; f_equal; lia|].
  assert (Lxy : length (map2 (fun x0 y0 => mv3 rot (V3 x0 y0 0)) x y) = n) by (rewrite length_map2; lia).
  assert (Lv : length vs = n). { unfold vs. rewrite length_map2; rewrite length_map2; rewrite ?map_length; lia. }
  exists (mv3 rot (V3 1 0 0)), (mv3 rot (V3 0 1 0)), vs, (map (mv3 rot) a).
  split; [apply to_z_frame; auto|]. split; [apply rotation_to_z_top; auto|].
  split. { do 3 f_equal. rewrite map_map, <- La. clear. induction a; cbn; congruence. }
  cbv zeta. fold n. rewrite map_length. split; auto. split; auto.
  intros k v d Ev Ed. assert (Lk : (k < n)%nat) by (rewrite <- Lv; apply nth_error_Some; congruence).
  rewrite nth_error_map in Ed. destruct (Na k Lk) as (d0 & Ed0 & _ & Pd). rewrite Ed0 in Ed. cbn [option_map] in Ed. assert (d = mv3 rot d0) by congruence. subst d. clear Ed.
  pose proof (rotation_to_z_orthonormal (vopp sun) U) as O. fold rot in O.
  cbv beta zeta.
  replace (drawn g + 1 * n + k)%nat with (drawn g + n + k)%nat by lia. replace (drawn g + 0 * n + k)%nat with (drawn g + k)%nat by lia.
  split. { apply turned_deviates; auto. rewrite Forall_forall in Da. apply Da. eapply nth_error_In; eauto. }
  rewrite !orthonormal_dot by auto.
  assert (Pd1 : vx d0 = sin ang * sqrt (draws g (drawn g + n + k)) * cos (2 * PI * draws g (drawn g + k))) by (apply (f_equal vx) in Pd; exact Pd).
  assert (Pd2 : vy d0 = sin ang * sqrt (draws g (drawn g + n + k)) * sin (2 * PI * draws g (drawn g + k))) by (apply (f_equal vy) in Pd; exact Pd).
  rewrite <- Pd1, <- Pd2. split; [vunfold; ring|]. split; [vunfold; ring|].
  unfold vs in Ev. rewrite !nth_map2, nth_error_map, Ed0 in Ev. cbn [option_map] in Ev.
  rewrite (Nx k Lk), (Ny k Lk) in Ev. unfold base in Ev. rewrite nth_tile in Ev by auto.
  destruct (nth_error ps (k mod length ps)) as [p|] eqn:Ep; [|discriminate]. set (v' := vsub _ _) in Ev. assert (Ev' : v' = v) by congruence. clear Ev.
  exists p. do 2 eexists. split; auto.
  replace (drawn g + 2 * n + k)%nat with (drawn g + 2 * n + k)%nat by lia. replace (drawn g + 3 * n + k)%nat with (drawn g + 2 * n + n + k)%nat by lia.
  pose proof (Fg (drawn g + 2 * n + k)%nat) as F1. pose proof (Fg (drawn g + 2 * n + n + k)%nat) as F2.
  assert (Rg : forall q, 0 <= q < 1 -> - half <= half * (2 * q - 1) <= half) by (intros; nra).
  split; [apply Rg, F1|]. split; [apply Rg, F2|]. split; [reflexivity|]. split; [reflexivity|]. rewrite <- Ev'. unfold v'.
  clear. set (q1 := draws g _). set (q2 := draws g (drawn g + 2 * n + n + k)%nat). destruct p, rot, d0; vunfold; unfold mv3; vunfold; veq; ring.
Qed.

Lemma sun_rays_source ps sun per ang half g b : sun_rays ps sun per ang half g b ->
  library_source b (per * length ps) /\ total_energy b = INR (per * length ps).
Proof.
  intros (x & y & vs & ds & _ & _ & -> & Lv & Ld & H). split; [split|].
  - split; [|split; [|split]].
    + unfold names_ok. cbn. constructor.
    + split; [cbn; eauto|]. intros [| | | | |nm] l; cbn; try discriminate; intros E; injection E as <-; rewrite ?map_length; auto.
    + cbn. discriminate.
    + cbn. discriminate.
  - intros k d e. unfold dir_at, energy_at, ref_at, at_col. cbn. intros Ed Ee.
    assert (Lk : (k < length vs)%nat) by (rewrite Lv, <- Ld; apply nth_error_Some; congruence).
    destruct (nth_lt vs k Lk) as (v & Ev). destruct (H k v d Ev Ed) as ((U & _) & _).
    rewrite nth_error_map, Ed in Ee. injection Ee as <-. split; auto. split; [lra|]. discriminate.
  - unfold total_energy. cbn [b_energy]. rewrite <- Ld. clear. induction ds as [|d ds IH]; [reflexivity|].
    cbn [map length]. rewrite S_INR, sum_R_cons, IH. ring.
Qed.

(** ** The plant as the engine sees it *)
Definition mirror_at (w h a : R) (T : mat4) : surface := Surface.new_surface (RectPlate (w / 2) (h / 2)) (Absorbing (AbsorberReflector a)) T.
Definition front_at (aim X Y : R) (id : nat) : surface := Surface.new_surface (RectPlate (X / 2) (Y / 2)) (Accountant id (Reflective 1)) (receiver_frame aim).
Definition back_at (aim X Y : R) : surface :=
  Surface.new_surface (RectPlate (X / 2) (Y / 2)) (Absorbing (Reflective 1)) (mm4 (receiver_frame aim) (translate 0 0 (- tenm 10))).

Lemma tower_view limit sc t ps w h a aim X Y id : is_tower sc t ps w h a aim X Y id -> (3 <= limit)%nat ->
  exists ts, Forall2 (fun p T => rigid T /\ app4 T vzero = p) ps ts /\
    engine_view limit (tw_plant t) sc = (sc, Ok (repeat (one_sided_object 1) (length ps) ++ [one_sided_object 2],
      map (mirror_at w h a) ts ++ [front_at aim X Y id; back_at aim X Y])) /\
    surface_now (tw_rec t) sc = (sc, Ok (front_at aim X Y id)) /\ length (hf_stats (tw_field t)) = length ps.
Proof.
  intros (ts & ss & ro & s2 & F & EF & Fd & Ep & Ea & Rg & Gl & Or & K & Tp & G1 & G2 & ND) L. exists ts. split; auto.
  pose proof (Forall2_length _ _ _ Rg) as Lt. set (f := tw_field t) in *.
  pose proof Fd as (A1 & Kf & _ & Ns & _).
  assert (Lst : length (hf_stats f) = length ts).
  { inversion A1 as [n0 t0 os ms0 ods mds oss mss K0 T0 Fo Fm]; subst. rewrite Kf in K0. injection K0 as <- <-.
    destruct (F3_length _ _ _ _ Fo) as (Lo & _). rewrite map_length in Lo. lia. }
  pose proof Or as (_ & _ & _ & Fp). inversion Fp as [|? ? ? ? P1 Fp']; subst. inversion Fp' as [|? ? ? ? P2 _]; subst.
  split; [|split; [|lia]].
  - assert (A : is_assembly sc (tw_plant t) (mkA id4 [mkO true (receiver_frame (hf_height f))
      [mkPart (RectPlate (X / 2) (Y / 2)) (Accountant id (Reflective 1)) id4;
       mkPart (RectPlate (X / 2) (Y / 2)) (Absorbing (Reflective 1)) (translate 0 0 (- tenm 10))]] [mirrors id4 ts w h a])
       (concat [ss] ++ concat [[tw_rec t; s2]])).
    { apply is_asm with [ro] [hf_node f]; auto; [apply F3_cons; [exact Or|apply F3_nil]|apply F3_cons; [exact A1|apply F3_nil]]. }
    set (F := receiver_frame (hf_height f)) in *.
    assert (Gf : Forall2 (fun l F => global_frame (sc_w sc) l = Some F) (concat [ss] ++ concat [[tw_rec t; s2]]) (ts ++ [F; mm4 F (translate 0 0 (- tenm 10))])).
    { cbn [concat]. rewrite !app_nil_r. apply Forall2_app; auto. }
    rewrite (view_objects sc _ _ _ (ts ++ [F; mm4 F (translate 0 0 (- tenm 10))]) A); auto; [|cbn; rewrite app_nil_r; intros Q; apply app_eq_nil in Q as (_ & Q); discriminate].
    do 3 f_equal.
    + cbn [seen_objects map concat mirrors]. rewrite app_nil_r, map_map. cbn. f_equal. rewrite Lt. clear. induction ts; cbn; congruence.
    + cbn [concat]. rewrite !app_nil_r. rewrite map2_app by (apply (Forall2_length _ _ _ Gl)). f_equal.
      * assert (Fm : Forall2 (fun l (_ : mat4) => sc_geom sc l = RectPlate (w / 2) (h / 2) /\ sc_opt sc l = Absorbing (AbsorberReflector a)) ss ts).
        { inversion A1 as [n0 t0 os ms0 ods mds oss mss K0 T0 Fo Fm E1 E2 E3]; subst. unfold mirrors in *. inversion Fm; subst.
          clear - Fo. cbn [concat app] in *. remember (map _ ts) as od eqn:Eo in Fo. revert ts Eo.
          induction Fo as [|n d l ns ds ls (_ & _ & _ & Fp) Fo IH]; intros [|u ts] Eo; try discriminate; [constructor|].
          injection Eo as -> ->. inversion Fp as [|? ? ? ? (_ & _ & Eg & Eo') Fp']; subst. inversion Fp'; subst. cbn. constructor; auto. }
        clear - Fm. induction Fm as [|l T ls ts (Eg & Eo) Fm IH]; cbn; [auto|]. rewrite Eg, Eo, IH. reflexivity.
      * destruct P1 as (_ & _ & P1 & P1'). destruct P2 as (_ & _ & P2 & P2'). cbn in P1, P1', P2, P2' |- *. rewrite P1, P1', P2, P2'. reflexivity.
  - pose proof (part_now sc (tw_rec t) _ (receiver_frame (hf_height f)) P1) as N. unfold seen_part in N. cbn [p_own p_geom p_opt] in N.
    rewrite mm4_id_r in N. apply N. exact G1.
Qed.

Lemma plates_find s w h : 0 < w -> 0 < h -> rigid (s_frame s) -> s_geom s = RectPlate (w / 2) (h / 2) ->
  finds (s_geom s) (s_frame s) (flat_answer (s_frame s) (rectangle w h)).
Proof. intros Hw Hh Rg ->. apply rect_finds; auto. apply ModelProof.rect_ok; auto. Qed.

(** Surface [i] of the plant is at its mirror, or at the receiver. *)

Section Plant.
Variables (ps : list vec) (ts : list mat4) (w h a aim X Y : R) (id : nat).
Hypotheses (Hw : 0 < w) (Hh : 0 < h) (HX : 0 < X) (HY : 0 < Y) (Ha : 0 <= a <= 1).
Hypothesis Rg : Forall2 (fun p T => rigid T /\ app4 T vzero = p) ps ts.
Notation objs := (repeat (one_sided_object 1) (length ps) ++ [one_sided_object 2]).
Notation ss := (map (mirror_at w h a) ts ++ [front_at aim X Y id; back_at aim X Y]).
Notation target := (V3 0 0 aim).

Lemma plant_surface i s : nth_error ss i = Some s ->
  (exists p T, nth_error ps i = Some p /\ rigid T /\ app4 T vzero = p /\ s = mirror_at w h a T) \/
  (i = length ps /\ s = front_at aim X Y id) \/ (i = S (length ps) /\ s = back_at aim X Y).
Proof.
  intros E. pose proof (Forall2_length _ _ _ Rg) as L. destruct (Nat.lt_ge_cases i (length ts)) as [Li|Gi].
  - left. rewrite nth_error_app1 in E by (rewrite map_length; auto). rewrite nth_error_map in E.
    destruct (nth_error ts i) as [T|] eqn:Et; [|discriminate]. destruct (nth_lt ps i) as (p & Ep); [lia|].
    exists p, T. destruct (Forall2_at _ _ _ _ _ _ Rg Ep Et) as (R & A). cbn in E. split; auto. split; auto. split; auto. congruence.
  - right. rewrite nth_error_app2 in E by (rewrite map_length; auto). rewrite map_length in E.
    destruct (i - length ts)%nat as [|[|k]] eqn:Ek; cbn in E; [left|right|destruct k; discriminate]; (split; [lia|congruence]).
Qed.

Lemma plant_ok s : In s ss -> lib_surface s /\ geom_ok (s_geom s) /\ media_differ (s_opt s) /\ ~ is_refractive (s_opt s).
Proof.
  intros Is. apply In_nth_error in Is as (i & E). destruct (plant_surface i s E) as [(p & T & _ & R & _ & ->)|[(_ & ->)|(_ & ->)]].
  - repeat split; cbn; auto; lra.
  - repeat split; cbn; auto; try lra. apply receiver_rigid.
  - repeat split; cbn; auto; try lra. apply back_rigid.
Qed.

Lemma plant_answers : answering_assembly objs ss /\ sole_account ss (length ps) id /\ forall b, knows_media ss b.
Proof.
  pose proof (Forall2_length _ _ _ Rg) as L. split; [|split].
  - split; [split; [|split]|].
    + intros ob Iob. apply in_app_or in Iob as [Iob|[<-|[]]]; [apply repeat_spec in Iob; subst|]; apply one_sided_object_ok.
    + intros s Is. apply plant_ok; auto.
    + rewrite ownership, !app_length, seq_length, map_length. cbn. lia.
    + split; [intros Q; apply app_eq_nil in Q as (_ & Q); discriminate|].
      split; [intros ob Iob; apply in_app_or in Iob as [Iob|[<-|[]]]; [apply repeat_spec in Iob; subst|]; apply one_sided_object_ok|].
      intros s Is. destruct (plant_ok s Is) as (_ & B & C & _). auto.
  - intros i s o E Eo. destruct (plant_surface i s E) as [(p & T & _ & _ & _ & ->)|[(-> & ->)|(_ & ->)]]; auto; discriminate.
  - intros b (s & Is & Rs). destruct (plant_ok s Is) as (_ & _ & _ & N). contradiction.
Qed.

(** Where rays meet surface [i]. *)
Lemma plant_meets i s b j t v d : nth_error ss i = Some s -> reports_hit s b j t -> vert_at b j = Some v -> dir_at b j = Some d ->
  let q := vadd v (vscale t d) in
  (exists p, nth_error ps i = Some p /\ norm2 (vsub q p) <= reach w h) \/
  (i = length ps /\ vx q = 0 /\ norm2 (vsub q target) <= reach X Y + tenm 10 * tenm 10) \/
  (i = S (length ps) /\ vx q = - tenm 10 /\ norm2 (vsub q target) <= reach X Y + tenm 10 * tenm 10).
Proof.
  intros E Rh Hv Hd q. pose proof (tenm_pos 10) as Tp. destruct (plant_surface i s E) as [(p & T & Ep & R & <- & ->)|[(-> & ->)|(-> & ->)]].
  - left. exists (app4 T vzero). split; auto.
    pose proof (register_flat (mirror_at w h a T) T (rectangle w h) eq_refl (plates_find (mirror_at w h a T) w h Hw Hh R eq_refl) b j t v d Rh Hv Hd) as P.
    apply plate_point in P; auto. apply P.
  - right. left. split; auto.
    pose proof (register_flat (front_at aim X Y id) _ (rectangle X Y) eq_refl (plates_find (front_at aim X Y id) X Y HX HY (receiver_rigid aim) eq_refl) b j t v d Rh Hv Hd) as P.
    apply receiver_points in P as (P1 & P2 & P3). fold q in P1, P2, P3. split; auto. destruct q as [qx qy qz]. cbn in P1, P2, P3. subst. unfold reach. vunfold. nra.
  - right. right. split; auto.
    pose proof (register_flat (back_at aim X Y) _ (rectangle X Y) eq_refl (plates_find (back_at aim X Y) X Y HX HY (back_rigid aim) eq_refl) b j t v d Rh Hv Hd) as P.
    apply back_points in P as (P1 & P2 & P3). fold q in P1, P2, P3. split; auto. destruct q as [qx qy qz]. cbn in P1, P2, P3. subst. unfold reach. vunfold. nra.
Qed.

Lemma near_both q p p' r r' : norm2 (vsub q p) <= r -> norm2 (vsub q p') <= r' -> norm2 (vsub p p') <= 2 * (r + r').
Proof.
  intros A B. destruct q, p, p'. revert A B. vunfold. intros.
  pose proof (Rle_0_sqr (vx - vx0 + (vx - vx1))). pose proof (Rle_0_sqr (vy - vy0 + (vy - vy1))). pose proof (Rle_0_sqr (vz - vz0 + (vz - vz1))).
  unfold Rsqr in *. lra.
Qed.

Lemma plant_ties b n : well_apart ps target w h X Y -> traceable b n -> never_ties ss b.
Proof.
  intros (W1 & W2) (_ & Rb & Hd & _) i i' s s' j t Es Es' Rh Rh'.
  pose proof (tenm_pos 10) as Tp.
  assert (D : exists v d, vert_at b j = Some v /\ dir_at b j = Some d).
  { destruct Rh as (sub & idx & q & s0 & pt & Pk & Hq & _). pose proof (Pk Vertices) as Pv. pose proof (Pk Directions) as Pd. cbn [prop] in Pv, Pd.
    destruct Rb as ((lv & Ev) & _). cbn [prop] in Ev. unfold vert_at, dir_at, at_col. destruct (b_vert b) as [vs|] eqn:Evs; [|discriminate].
    destruct (b_dir b) as [ds|] eqn:Eds; [|congruence]. cbn in Pv, Pd. destruct Pv as (l1 & _ & P1). destruct Pd as (l2 & _ & P2).
    assert (Q : forall (T : Type) (f : vec -> T) l k, picks (map f l) idx k -> exists x, nth_error l j = Some x).
    { intros T f l k P. destruct (nth_error l j) as [x|] eqn:Ex; [eauto|]. exfalso. revert P Hq Ex. clear. intros P.
      revert q. induction P as [|i0 x idx l' Hx P IH]; intros [|q] Hq Ex; try discriminate; [|eauto].
      injection Hq as ->. rewrite nth_error_map, Ex in Hx. discriminate. }
    destruct (Q _ _ _ _ P1) as (v & Hv). destruct (Q _ _ _ _ P2) as (d & Hd'). eauto. }
  destruct D as (v & d & Hv & Hd').
  pose proof (plant_meets i s b j t v d Es Rh Hv Hd') as P. pose proof (plant_meets i' s' b j t v d Es' Rh' Hv Hd') as P'. cbv zeta in P, P'.
  set (q := vadd v (vscale t d)) in *. destruct (Nat.eq_dec i i') as [|Ne]; auto. exfalso.
  destruct P as [(p & Ep & N)|[(E & Z & N)|(E & Z & N)]]; destruct P' as [(p' & Ep' & N')|[(E' & Z' & N')|(E' & Z' & N')]];
    try (subst; congruence); try lra.
  - pose proof (W1 i i' p p' Ep Ep' Ne). pose proof (near_both _ _ _ _ _ N N'). lra.
  - pose proof (W2 p (nth_error_In _ _ Ep)). pose proof (near_both _ _ _ _ _ N N'). lra.
  - pose proof (W2 p (nth_error_In _ _ Ep)). pose proof (near_both _ _ _ _ _ N N'). lra.
  - pose proof (W2 p' (nth_error_In _ _ Ep')). pose proof (near_both _ _ _ _ _ N' N). lra.
  - pose proof (W2 p' (nth_error_In _ _ Ep')). pose proof (near_both _ _ _ _ _ N' N). lra.
Qed.
End Plant.

(** ** The map *)
Lemma flux_map_top limit sc t ps w h a aim X Y id az el per ang half reps me bins g : is_tower sc t ps w h a aim X Y id ->
  0 < w -> 0 < h -> 0 < X -> 0 < Y -> 0 <= a <= 1 -> (3 <= limit)%nat -> fair (g_rng g) -> 0 <= ang <= PI / 2 -> 0 <= half -> (0 < bins)%nat ->
  exists rays objs ss vs ds st H xe ye,
    flux_map limit t az el per ang half reps me bins (X / 2) (Y / 2) g sc = (sc, Ok (H, xe, ye, t_g st)) /\
    sun_rays ps (solar_vector (az * degree) (el * degree)) per ang half (g_rng g) rays /\
    engine_view limit (tw_plant t) sc = (sc, Ok (objs, ss)) /\
    ray_tracer surface_ops objs ss (mkG (mkRng (draws (g_rng g)) (drawn (g_rng g) + 4 * (per * length ps))) (upd (g_acc g) id (mkAcc [] [])))
      rays reps me TreeTrue = Ok (vs, ds, st) /\
    nth_error ss (length ps) = Some (Surface.new_surface (RectPlate (X / 2) (Y / 2)) (Accountant id (Reflective 1)) (receiver_frame aim)) /\
    shows ss (length ps) (t_tree st) reps me X Y (receiver_frame aim) bins H /\
    xe = map (fun i => - (X / 2) + INR i * (X / INR bins)) (seq 0 (S bins)) /\
    ye = map (fun i => - (Y / 2) + INR i * (Y / INR bins)) (seq 0 (S bins)) /\
    (well_apart ps (V3 0 0 aim) w h X Y -> 0 <= total (concat H) <= INR (per * length ps)).
Proof.
  intros Tw Hw Hh HX HY Ha L Fg Han Hha Hb. destruct (tower_view limit sc t ps w h a aim X Y id Tw L) as (ts & Rg & Ev & Sn & Ls).
  destruct Tw as (_ & _ & _ & _ & _ & _ & _ & Ep & _).
  destruct (flux_rays_ok ps az el per ang half (g_rng g) Fg Han Hha) as (rays & Er & Sr).
  destruct (sun_rays_source _ _ _ _ _ _ _ Sr) as (So & To).
  destruct (plant_answers ps ts w h a aim X Y id Ha Rg) as (An & Sa & Km). pose proof (proj1 An) as La.
  set (objs := repeat (one_sided_object 1) (length ps) ++ [one_sided_object 2]) in *.
  set (ss := map (mirror_at w h a) ts ++ [front_at aim X Y id; back_at aim X Y]) in *.
  set (g1 := mkG (mkRng (draws (g_rng g)) (drawn (g_rng g) + 4 * (per * length ps))) (upd (g_acc g) id (mkAcc [] []))).
  assert (Fr : g_acc g1 id = mkAcc [] []) by (unfold g1, upd; cbn; rewrite Nat.eqb_refl; reflexivity).
  destruct (AnswerProof.tracing_answers objs ss An g1 rays _ reps me TreeTrue So (Km rays)) as (vs & ds & st & E); [right; discriminate|].
  destruct (accounts_top objs ss La me g1 rays _ So reps vs ds st E) as (ns & Ts & Rp & Tr & Ac).
  assert (Hf : nth_error ss (length ps) = Some (front_at aim X Y id)).
  { unfold ss. rewrite nth_error_app2; rewrite map_length, <- (Forall2_length _ _ _ Rg); [|lia]. rewrite Nat.sub_diag. reflexivity. }
  destruct (Ac (length ps) _ id _ Hf eq_refl Sa) as (ls & Ll & Nt & A & Hi). cbn [absorptivity] in Nt.
  set (F := receiver_frame aim). pose proof (receiver_rigid aim : rigid F) as RF.
  pose proof (plates_find (front_at aim X Y id) X Y HX HY RF eq_refl) as Fi.
  assert (Pt : Forall (placed F (rectangle X Y)) (map snd (concat ls))).
  { assert (Q : forall l, In l ls -> Forall (placed F (rectangle X Y)) (map snd l)).
    { intros l Hl. apply In_nth_error in Hl as (K & HK).
      assert (Lt : (K < length ls)%nat) by (apply nth_error_Some; congruence).
      destruct (nth_lt (t_tree st) K) as (prev & Hp); [lia|]. pose proof (Nt K prev l Hp HK) as N.
      destruct (Nat.eq_dec (ns K) 0) as [Z|Z]; [rewrite (noted_none _ _ _ _ _ _ _ N Z); constructor|].
      destruct (Rp K prev Hp) as (tb & R); [lia|lia|].
      apply (noted_reported _ _ _ _ _ _ _ ss _ tb _ N R Hf).
      intros j t0 v d Rh Hv Hd. exact (register_flat (front_at aim X Y id) F (rectangle X Y) eq_refl Fi prev j t0 v d Rh Hv Hd). }
    clear - Q. induction ls as [|l ls IH]; [constructor|]. cbn [concat]. rewrite map_app. apply Forall_app. split; [apply Q; left; auto|].
    apply IH. intros; apply Q; right; auto. }
  destruct (placed_points _ _ _ Pt) as (qs & Eq & Fq).
  assert (Gh : get_all_hits (g_acc (t_g st) id) = Ok (map fst (concat ls), map (app4 F) qs)).
  { rewrite <- Eq, <- hits_concat. f_equal. rewrite Fr in A, Hi. cbn [a_absorbed a_hits app] in A, Hi. destruct (g_acc (t_g st) id). cbn in A, Hi. congruence. }
  destruct (histogram_top (mkRec 0 (X, Y) (tw_rec t) 0 0) sc _ id _ X Y bins (t_g st) (map fst (concat ls)) qs Sn eq_refl RF eq_refl HX HY Hb Gh)
    as (H & xe & ye & Eh & Ex & Ey & Lh & Lr & Bi & _ & Tot).
  { rewrite map_length. rewrite <- (map_length (app4 F) qs), <- Eq, map_length. reflexivity. }
  exists rays, objs, ss, vs, ds, st, H, xe, ye. split.
  { unfold flux_map. rewrite Ep, Ls. erewrite bbind_ok by (apply calc_ok; exact Er). cbv beta iota.
    assert (Rs : reset_hits (tw_rec t) (mkG (mkRng (draws (g_rng g)) (drawn (g_rng g) + 4 * (per * length ps))) (g_acc g)) sc = (sc, Ok g1)).
    { unfold reset_hits. erewrite bbind_ok by exact Sn. reflexivity. }
    erewrite bbind_ok by exact Rs. erewrite bbind_ok by exact Ev. cbv beta iota.
    erewrite bbind_ok by (apply calc_ok; exact E). cbv beta iota. erewrite bbind_ok by exact Eh. reflexivity. }
  split; auto. split; auto. split; auto. split; auto. split.
  { exists ns, Ts, ls, qs. repeat (split; auto). }
  split; auto. split; auto. intros Wa. rewrite (Tot Fq). split.
  - assert (Q : Forall (fun e => 0 <= e) (map fst (concat ls))).
    { destruct (library_trace objs ss me La g1 rays _ reps vs ds st So E) as (ns' & Ts' & gs' & C & _ & _ & _ & _ & _ & _ & _ & _ & _ & Hlib).
      assert (Q : forall l, In l ls -> Forall (fun e => 0 <= e) (map fst l)).
      { intros l Hl. apply In_nth_error in Hl as (K & HK). assert (Lt : (K < length ls)%nat) by (apply nth_error_Some; congruence).
        destruct (nth_lt (t_tree st) K) as (prev & Hp); [lia|]. pose proof (Nt K prev l Hp HK) as N.
        apply (noted_energy _ _ _ _ _ _ _ N); [lra|]. exact (LedgerProof.tree_lib objs ss me g1 rays _ reps (t_tree st) ns' Ts' gs' (t_g st) C So Hlib K prev Hp). }
      clear - Q. induction ls as [|l ls IH]; [constructor|]. cbn [concat]. rewrite map_app. apply Forall_app. split; [apply Q; left; auto|].
      apply IH. intros; apply Q; right; auto. }
    clear - Q. induction Q; cbn; [lra|]. unfold total in *. lra.
  - destruct (receiver_bound objs ss La me g1 rays _ So reps vs ds st E) with (i := length ps) (s := front_at aim X Y id) (id := id) (o := Reflective 1)
      as (es & hs & Eg & Le); auto.
    { intros prev Ip. apply In_nth_error in Ip as (K & Hp).
      destruct (library_trace objs ss me La g1 rays _ reps vs ds st So E) as (ns' & Ts' & gs' & C & _).
      destruct (ct_traced _ _ _ _ _ _ _ _ _ _ _ _ _ C (proj1 So) K prev Hp) as (mp & T1 & _).
      apply (plant_ties ps ts w h a aim X Y id Hw Hh HX HY Rg prev mp Wa T1). }
    rewrite Gh in Eg. injection Eg as <- <-. rewrite To in Le. exact Le.
Qed.

Lemma example_apart rr ar ps : 1 <= rr -> PI / 8 <= ar -> tower_positions rr ar = Ok ps -> well_apart ps (V3 0 0 10) (1 / 2) (1 / 2) 1 1.
Proof.
  intros Hr Ha E. pose proof PI_RGT_0. destruct (plant_positions rr ar ltac:(lra) ltac:(lra)) as (idx & E' & Nd & M).
  rewrite E in E'. injection E' as ->. unfold reach. split.
  - intros i j p q Ei Ej N. rewrite nth_error_map in Ei, Ej.
    destruct (nth_error idx i) as [ij|] eqn:Ii; [|discriminate]. destruct (nth_error idx j) as [kl|] eqn:Ij; [|discriminate].
    cbn [option_map] in Ei, Ej.
    assert (2 <= norm2 (vsub (at_index rr ar ij) (at_index rr ar kl))).
    { apply plant_apart; auto; try (apply M; eapply nth_error_In; eauto).
      intros ->. apply N. rewrite NoDup_nth_error in Nd. apply Nd; [apply nth_error_Some; congruence|congruence]. }
    assert (p = at_index rr ar ij) as -> by congruence. assert (q = at_index rr ar kl) as -> by congruence. unfold reach. lra.
  - intros p Ip. apply in_map_iff in Ip as (ij & <- & I). destruct (TowerField.plant_point rr ar ij Hr Ha) as (_ & B & _); [apply M; auto|].
    pose proof (tenm_small 10 ltac:(lia)) as T. pose proof (tenm_pos 10).
    destruct (at_index rr ar ij) as [x y z]. cbn in B. subst z. unfold reach. vunfold. pose proof (Rle_0_sqr (x - 0)). pose proof (Rle_0_sqr (y - 0)). unfold Rsqr in *.
    assert (tenm 10 * tenm 10 <= 1) by nra. lra.
Qed.

(** A change of the resolution. *)
Lemma example_replaced limit rr ar sc az el reps me g : reached limit sc -> (3 <= limit)%nat -> 1 <= rr -> PI / 8 <= ar ->
  0 <= az <= 180 -> 0 <= el <= 90 -> (2 <= reps)%nat -> 0 <= me < 1 ->
  exists ps sc' t st id, tower_positions rr ar = Ok ps /\ replace_plant limit rr ar az el reps me g sc = (sc', Ok (t, ([], [], st))) /\ reached limit sc' /\
    is_tower sc' t ps (1 / 2) (1 / 2) 0 10 1 1 id /\ relays (t_tree st) (gen_rays ps az el) ps (V3 0 0 10) 1.
Proof.
  intros R L Hr Ha Az El Re Me. destruct (example_built limit rr ar sc R L Hr Ha) as (ps & sc1 & t & id & E & Np & Eg & R1 & _ & _ & _ & T1).
  destruct (example_aimed limit rr ar ps sc1 t id az el reps me g R1 L Hr Ha E T1 Az El Re Me) as (sc2 & st & Ea & R2 & T2 & Rl & _).
  exists ps, sc2, t, st, id. split; auto. split; [|auto]. unfold replace_plant. erewrite bbind_ok by exact Eg. erewrite bbind_ok by exact Ea. reflexivity.
Qed.

(** The map of the example. *)
Lemma example_flux limit rr ar ps sc t id az el reps me per bins g : (3 <= limit)%nat -> 1 <= rr -> PI / 8 <= ar -> tower_positions rr ar = Ok ps ->
  is_tower sc t ps (1 / 2) (1 / 2) 0 10 1 1 id -> fair (g_rng g) -> (0 < bins)%nat ->
  exists H xe ye g', flux_map limit t az el per (465 / 100000) (1 / 4) reps me bins (1 / 2) (1 / 2) g sc = (sc, Ok (H, xe, ye, g')) /\
    0 <= total (concat H) <= INR (per * length ps).
Proof.
  intros L Hr Ha E T Fg Hb.
  assert (A1 : 0 <= 0 <= 1) by lra. assert (A2 : 0 <= 465 / 100000 <= PI / 2) by (pose proof PI2_3_2; lra).
  destruct (flux_map_top limit sc t ps (1 / 2) (1 / 2) 0 10 1 1 id az el per (465 / 100000) (1 / 4) reps me bins g T) as
    (rays & objs & ss & vs & ds & st & H & xe & ye & Ef & _ & _ & _ & _ & _ & _ & _ & B); auto; try lra.
  exists H, xe, ye, (t_g st). split; auto. apply B. eapply example_apart; eauto.
Qed.

Lemma flux_example : exists ps sc t id, tower_positions 1 (PI / 8) = Ok ps /\ is_tower sc t ps (1 / 2) (1 / 2) 0 10 1 1 id /\
  fair (mkRng (fun _ => 1 / 3) 0) /\ 0 <= 465 / 100000 <= PI / 2 /\ well_apart ps (V3 0 0 10) (1 / 2) (1 / 2) 1 1.
Proof.
  destruct tower_example as (ps & sc & t & id & _ & E & _ & T & _). exists ps, sc, t, id. split; auto. split; auto.
  split; [intros k; cbn; lra|]. split; [pose proof PI2_3_2; lra|]. apply (example_apart 1 (PI / 8)); auto; lra.
Qed.
