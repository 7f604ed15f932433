(** What the engine sees of the optical models of tracer/models. *)
From Coq Require Import Reals List Arith Bool Lia Lra.
From Verif.Base Require Import Py Num Vec.
From Verif.Model Require Import RayBundle Spatial Geometry TraceTree Engine Objects OpticsCallables Surface Assembly Scene Models.
From Verif.Proof Require Import NumLemmas VecLemmas SpatialProof FlatProof FrameProof FrameHistory PlaceProof PlaceTop ConstructProof ConstructTop
  GrowProof ListLemmas ViewProof SceneProof ActProof ModelProof ObjectProof ObjectTrace.
From Verif.Spec Require Import BundleSpec EngineSpec LibrarySpec GeometrySpec FrameSpec SceneSpec ModelSpec.
Import ListNotations.

Lemma step_undisturbed limit sc sc' : reached limit sc -> step limit none sc sc' -> undisturbed sc sc'.
Proof. intros R S n E. split; [eapply step_same; eauto|]. apply S; auto. Qed.

(** ** Moving an assembly moves what the engine sees *)

Lemma flat_moved t d : flat_objs (moved t d) = flat_objs d.
Proof. destruct d. reflexivity. Qed.
Lemma seen_moved t d : seen_objects (moved t d) = seen_objects d.
Proof. destruct d. reflexivity. Qed.
Lemma depth_moved t d : depth (moved t d) = depth d.
Proof. destruct d. reflexivity. Qed.
Lemma has_flat d : has_objects d <-> flat_objs d <> [].
Proof. unfold has_objects. rewrite seen_flat. destruct (flat_objs d); simpl; split; congruence. Qed.

Lemma put_view limit n t d ls sc : reached limit sc -> is_assembly sc n d ls -> NoDup ls -> has_objects d ->
  S (depth d) <= limit ->
  exists sc', put_at limit n t sc = (sc', Ok tt) /\ reached limit sc' /\ is_assembly sc' n (moved t d) ls /\
    well_placed (sc_w sc') n /\ engine_view limit n sc' = (sc', Ok (seen_objects d, seen_surfaces id4 (moved t d))) /\
    (forall j, exists_in sc j -> j <> n -> same_in sc sc' j) /\
    (forall l, exists_in sc l -> ~ In l ls -> placed_array (sc_w sc') l = placed_array (sc_w sc) l) /\
    kind_of (sc_w sc') n = kind_of (sc_w sc) n.
Proof.
  intros R A ND Ho L. unfold put_at.
  destruct (literal_step limit (A44 t) sc R) as (sc1 & E1 & S1 & _). bstep.
  destruct (literal_frame limit t sc _ _ R E1) as (_ & F1).
  pose proof (step_assembly _ _ _ _ _ _ _ R S1 A) as A1.
  assert (Bu : built (sc_w sc1) limit n) by (eapply built_up; [eapply assembly_built; eauto|exact L]).
  destruct (place_any limit n (w_next (sc_w sc)) t sc1 (st_reached _ _ _ _ S1) (composite_assembly _ _ _ _ A1) Bu F1)
    as (sc2 & E2 & R2 & _ & _ & T2 & K2 & O2 & _ & W2 & _ & _ & P2).
  exists sc2. split; [exact E2|]. split; auto.
  pose proof (placed_assembly _ _ _ _ _ t A1 O2 T2 K2) as A2. split; auto. split; auto. split.
  - rewrite <- (seen_moved t d). apply (well_placed_view sc2 n (moved t d) ls); auto; [rewrite flat_moved; apply has_flat; auto|rewrite depth_moved; auto].
  - split.
    + intros j Ej Nj. pose proof (step_same _ _ _ _ _ R S1 Ej) as ((X1 & X2 & X3 & X4) & X5 & X6 & X7).
      destruct (O2 j Nj) as ((Y1 & Y2 & Y3 & Y4) & Y5 & Y6 & Y7).
      unfold same_in, same_node. repeat split; congruence.
    + split.
      * intros l El Nl. rewrite P2; [apply S1; auto|]. intros (T & Pt). apply Nl. exact (path_leaf _ _ _ _ _ _ A1 Pt).
      * rewrite K2. assert (En : exists_in sc n) by (inversion A; subst; unfold exists_in; congruence).
        destruct (step_same _ _ _ _ _ R S1 En) as ((X1 & _) & _). exact X1.
Qed.

(** ** One-sided mirrors *)

Lemma ownership_length objs : length (surf_ownership objs) = list_sum (map o_nsurf objs).
Proof.
  unfold surf_ownership. generalize 0. induction objs as [|o objs IH]; intros k; simpl; auto.
  rewrite app_length, repeat_length, IH. auto.
Qed.
Lemma list_sum_app l m : list_sum (l ++ m) = list_sum l + list_sum m.
Proof. induction l; simpl; auto. rewrite IHl. lia. Qed.
Lemma nsurf_seen d : o_nsurf (seen_object d) = length (o_parts d).
Proof. unfold seen_object. destruct (o_sided d); reflexivity. Qed.

Lemma seen_length : forall d T, length (seen_surfaces T d) = length (surf_ownership (seen_objects d)).
Proof.
  fix IH 1. intros [t os ms] T. simpl. rewrite !ownership_length, map_app, list_sum_app, app_length. f_equal.
  - induction ms as [|m ms E]; simpl; auto. rewrite app_length, IH, E, ownership_length, map_app, list_sum_app. reflexivity.
  - induction os as [|o os E]; simpl; auto. rewrite app_length, map_length, E, nsurf_seen. reflexivity.
Qed.

Lemma seen_contract d ob : In ob (seen_objects d) -> object_contract ob.
Proof.
  rewrite seen_flat. intros I. apply in_map_iff in I as (o & <- & _). unfold seen_object.
  destruct (o_sided o); [apply one_sided_object_ok|apply default_object_ok].
Qed.

Lemma sided_untested limit sc n d ls : is_assembly sc n d ls -> NoDup ls -> has_objects d -> well_placed (sc_w sc) n ->
  S (depth d) <= limit -> (forall s, In s (seen_surfaces id4 d) -> lib_surface s) ->
  engine_view limit n sc = (sc, Ok (seen_objects d, seen_surfaces id4 d)) /\
  forall me g b m, library_source b m -> forall reps vs ds st,
  ray_tracer surface_ops (seen_objects d) (seen_surfaces id4 d) g b reps me TreeTrue = Ok (vs, ds, st) ->
  exists (ns : nat -> nat) (Ts : nat -> reports),
  (forall L prev, nth_error (t_tree st) L = Some prev -> L < reps -> 0 < ns L ->
     exists tb, reported surface_ops (seen_surfaces id4 d) prev (ns L) (Ts L) tb) /\
  (forall L prev, nth_error (t_tree st) L = Some prev -> forall j, j < ns L <-> is_traced me L prev j) /\
  (forall L lvl, nth_error (t_tree st) (L + 1) = Some lvl -> L + 1 < reps ->
     forall j, is_traced me (L + 1) lvl j -> exists i oi owns next r,
       emitted_by (seen_objects d) i oi owns next lvl j r /\
       forall o, nth_error (flat_objs d) oi = Some o -> o_sided o = true ->
       forall i', nth_error (surf_ownership (seen_objects d)) i' = Some oi -> Ts (L + 1) i' j = None).
Proof.
  intros A ND Ho W L Ls. split; [eapply well_placed_view; eauto; apply has_flat; auto|].
  assert (La : library_assembly (seen_objects d) (seen_surfaces id4 d)).
  { split; [apply seen_contract|]. split; auto. apply seen_length. }
  intros me g b m Hb reps vs ds st E.
  destruct (objects_trace _ _ La me g b m Hb reps vs ds st E) as (ns & Ts & B & C & D). exists ns, Ts. split; auto. split; auto.
  intros L0 lvl E0 Lr j Tj. destruct (D L0 lvl E0 Lr j Tj) as (i & oi & owns & next & r & Em & _ & Os).
  exists i, oi, owns, next, r. split; auto. intros o Eo So i' Ei'.
  assert (Eo' : nth_error (seen_objects d) oi = Some (one_sided_object (length (o_parts o)))).
  { rewrite seen_flat, nth_error_map, Eo. simpl. unfold seen_object. rewrite So. reflexivity. }
  assert (Li : i' < length (seen_surfaces id4 d)).
  { rewrite seen_length. apply nth_error_Some. congruence. }
  specialize (Os _ Eo' i' Li). destruct (Ts (L0 + 1) i' j) eqn:Et; auto. exfalso.
  apply (proj1 Os); [discriminate|auto].
Qed.

(** ** The homogenizer *)

Local Open Scope R_scope.

Lemma first_hit_ext (A A' : shape) v d x : (forall p, A p <-> A' p) -> first_hit0 A v d x -> first_hit0 A' v d x.
Proof.
  intros H. unfold first_hit0, least. destruct x; auto.
  - intros ((B & C) & D). split; [split; auto; apply H; auto|]. intros t' (E & F). apply D. split; auto. apply H; auto.
  - intros N t (B & C). apply (N t). split; auto. apply H; auto.
Qed.
Lemma one_way_ext s A A' z z' eff : (forall p, A p <-> A' p) -> z = z' -> one_way_mirror s A z eff -> one_way_mirror s A' z' eff.
Proof.
  intros H <- M b n T. destruct (M b n T) as (s1 & ps & E & L & Hh & R). exists s1, ps. split; auto. split; auto. split; auto.
  intros j v d x Ev Ed Ex. destruct (Hh j v d x Ev Ed Ex) as (P & Q). split; auto. intros X. eapply first_hit_ext; eauto.
Qed.

Lemma rigid_mm4 a b : rigid a -> rigid b -> rigid (mm4 a b).
Proof.
  intros (r & t & -> & O) (r' & t' & -> & O'). rewrite mm4_mk4. eexists _, _. split; [reflexivity|]. apply orthonormal_mm3; auto.
Qed.
Lemma rigid_id : rigid id4.
Proof. exists id3, vzero. split; [reflexivity|]. apply id_rotation. Qed.
Lemma z_of_mm4 a b : rigid a -> rigid b -> z_of (mm4 a b) = turned a (z_of b).
Proof.
  intros (r & t & -> & O) (r' & t' & -> & O'). rewrite mm4_mk4. unfold turned, z_of. rewrite !rot_mk4, mv3_mm3. reflexivity.
Qed.
Lemma mm4_id_r a : mm4 a id4 = a.
Proof.
  unfold mm4, id4, tr4, c4_0, c4_1, c4_2, c4_3, mv4, dot4. cbn [Vec.w0 Vec.w1 Vec.w2 Vec.w3 q0 q1 q2 q3].
  destruct a as [[] [] [] []]. cbn [Vec.w0 Vec.w1 Vec.w2 Vec.w3 q0 q1 q2 q3]. veq; ring.
Qed.
Lemma placed_mm4 a b S p : rigid a -> rigid b -> placed (mm4 a b) S p <-> placed a (placed b S) p.
Proof.
  intros Ra Rb. split.
  - intros (q & Sq & ->). exists (app4 b q). split; [exists q; auto|apply app4_mm4; auto].
  - intros (q & (q' & Sq & ->) & ->). exists q'. split; auto. rewrite app4_mm4; auto.
Qed.
Lemma placed_ext a S S' p : (forall q, S q <-> S' q) -> placed a S p <-> placed a S' p.
Proof. intros H. split; intros (q & Sq & ->); exists q; split; auto; apply H; auto. Qed.

Lemma wall_acts T t w h eff (A : shape) z : rigid T -> rigid t -> 0 < w -> 0 < h ->
  (forall p, placed t (rectangle w h) p <-> A p) -> z_of t = z ->
  one_way_mirror (seen_part (mm4 T t) (mirror_part w h (1 - eff))) (placed T A) (turned T z) eff.
Proof.
  intros RT Rt Hw Hh HA <-. unfold seen_part, mirror_part. cbn [p_geom p_opt p_own]. rewrite mm4_id_r.
  replace eff with (1 - (1 - eff)) at 2 by ring.
  eapply one_way_ext; [| |apply one_way_rect; auto; apply rigid_mm4; auto].
  - intros p. rewrite placed_mm4 by auto. apply placed_ext. auto.
  - apply z_of_mm4; auto.
Qed.

Lemma half_pi_neg : - PI / 2 = - (PI / 2).
Proof. field. Qed.
Lemma rigid_translate x y z : rigid (translate x y z).
Proof. rewrite translate_eq. exists id3, (V3 x y z). split; auto. apply id_rotation. Qed.
Lemma rigid_rotx a : rigid (rotx a).
Proof. rewrite rotx_eq. eexists _, _. split; [reflexivity|]. apply gar_orthonormal, x_unit. Qed.
Lemma rigid_roty a : rigid (roty a).
Proof. rewrite roty_eq. eexists _, _. split; [reflexivity|]. apply gar_orthonormal, y_unit. Qed.
Lemma rigid_rotz a : rigid (rotz a).
Proof. rewrite rotz_eq. eexists _, _. split; [reflexivity|]. apply gar_orthonormal, z_unit. Qed.
Lemma turned_id v : turned id4 v = v.
Proof. unfold turned. destruct v. cbn. veq; ring. Qed.
Lemma placed_id S p : placed id4 S p <-> S p.
Proof.
  assert (I : forall q, app4 id4 q = q) by (intros []; unfold app4, id4; cbn; veq; ring).
  split; [intros (q & Sq & ->); rewrite I; auto|]. intros Sp. exists p. rewrite I. auto.
Qed.

Lemma wall_xp X Y H p : placed (mm4 (translate (X / 2) 0 (H / 2)) (roty (- PI / 2))) (rectangle H Y) p <-> across_x (X / 2) Y H p.
Proof.
  rewrite placed_mm4 by auto using rigid_translate, rigid_roty. rewrite half_pi_neg. unfold across_x.
  split.
  - intros (q & (q' & (A & B & C) & ->) & ->). unfold app4, roty, translate. cbn. rewrite cos_neg, sin_neg, cos_PI2, sin_PI2.
    destruct q'. cbn in *. repeat split; lra.
  - destruct p as [x y z]. cbn. intros (A & B & C). exists (V3 0 y (z - H / 2)). split.
    + exists (V3 (z - H / 2) y 0). unfold rectangle, app4, roty. cbn. rewrite cos_neg, sin_neg, cos_PI2, sin_PI2.
      repeat split; try lra. veq; lra.
    + unfold app4, translate. cbn. veq; lra.
Qed.
Lemma wall_xn X Y H p : placed (mm4 (translate (- X / 2) 0 (H / 2)) (roty (PI / 2))) (rectangle H Y) p <-> across_x (- (X / 2)) Y H p.
Proof.
  rewrite placed_mm4 by auto using rigid_translate, rigid_roty. unfold across_x.
  split.
  - intros (q & (q' & (A & B & C) & ->) & ->). unfold app4, roty, translate. cbn. rewrite cos_PI2, sin_PI2.
    destruct q'. cbn in *. repeat split; lra.
  - destruct p as [x y z]. cbn. intros (A & B & C). exists (V3 0 y (z - H / 2)). split.
    + exists (V3 (- (z - H / 2)) y 0). unfold rectangle, app4, roty. cbn. rewrite cos_PI2, sin_PI2.
      repeat split; try lra. veq; lra.
    + unfold app4, translate. cbn. veq; lra.
Qed.
Lemma wall_yp X Y H p : placed (mm4 (translate 0 (Y / 2) (H / 2)) (rotx (PI / 2))) (rectangle X H) p <-> across_y (Y / 2) X H p.
Proof.
  rewrite placed_mm4 by auto using rigid_translate, rigid_rotx. unfold across_y.
  split.
  - intros (q & (q' & (A & B & C) & ->) & ->). unfold app4, rotx, translate. cbn. rewrite cos_PI2, sin_PI2.
    destruct q'. cbn in *. repeat split; lra.
  - destruct p as [x y z]. cbn. intros (A & B & C). exists (V3 x 0 (z - H / 2)). split.
    + exists (V3 x (z - H / 2) 0). unfold rectangle, app4, rotx. cbn. rewrite cos_PI2, sin_PI2.
      repeat split; try lra. veq; lra.
    + unfold app4, translate. cbn. veq; lra.
Qed.
Lemma wall_yn X Y H p : placed (mm4 (translate 0 (- Y / 2) (H / 2)) (rotx (- PI / 2))) (rectangle X H) p <-> across_y (- (Y / 2)) X H p.
Proof.
  rewrite placed_mm4 by auto using rigid_translate, rigid_rotx. rewrite half_pi_neg. unfold across_y.
  split.
  - intros (q & (q' & (A & B & C) & ->) & ->). unfold app4, rotx, translate. cbn. rewrite cos_neg, sin_neg, cos_PI2, sin_PI2.
    destruct q'. cbn in *. repeat split; lra.
  - destruct p as [x y z]. cbn. intros (A & B & C). exists (V3 x 0 (z - H / 2)). split.
    + exists (V3 x (- (z - H / 2)) 0). unfold rectangle, app4, rotx. cbn. rewrite cos_neg, sin_neg, cos_PI2, sin_PI2.
      repeat split; try lra. veq; lra.
    + unfold app4, translate. cbn. veq; lra.
Qed.

Lemma box_acts T X Y H eff : rigid T -> 0 < X -> 0 < Y -> 0 < H ->
  mirror_box T X Y H eff (seen_surfaces id4 (mkA T (walls X Y H eff) [])).
Proof.
  intros RT HX HY HH. unfold mirror_box. cbn [seen_surfaces map concat walls o_tr o_parts mirror_of app]. rewrite !mm4_id_l.
  eexists _, _, _, _. split; [reflexivity|].
  split; [|split; [|split]]; apply wall_acts; auto using rigid_mm4, rigid_translate, rigid_rotx, rigid_roty.
  - intros; apply wall_xp.
  - rewrite z_of_mm4 by auto using rigid_translate, rigid_roty. rewrite half_pi_neg. unfold turned, z_of, roty, translate. cbn.
    rewrite cos_neg, sin_neg, cos_PI2, sin_PI2. veq; lra.
  - intros; apply wall_xn.
  - rewrite z_of_mm4 by auto using rigid_translate, rigid_roty. unfold turned, z_of, roty, translate. cbn.
    rewrite cos_PI2, sin_PI2. veq; lra.
  - intros; apply wall_yp.
  - rewrite z_of_mm4 by auto using rigid_translate, rigid_rotx. unfold turned, z_of, rotx, translate. cbn.
    rewrite cos_PI2, sin_PI2. veq; lra.
  - intros; apply wall_yn.
  - rewrite z_of_mm4 by auto using rigid_translate, rigid_rotx. rewrite half_pi_neg. unfold turned, z_of, rotx, translate. cbn.
    rewrite cos_neg, sin_neg, cos_PI2, sin_PI2. veq; lra.
Qed.

Lemma homogenizer_top limit X Y H eff sc : reached limit sc -> 0 < X -> 0 < Y -> 0 < H -> (2 <= limit)%nat ->
  exists sc' n ss, rect_homogenizer limit X Y H eff sc = (sc', Ok n) /\ reached limit sc' /\ undisturbed sc sc' /\ ~ exists_in sc n /\
    engine_view limit n sc' = (sc', Ok (repeat (one_sided_object 1) 4, ss)) /\ mirror_box id4 X Y H eff ss /\
    forall T, rigid T -> exists sc'' ss', put_at limit n T sc' = (sc'', Ok tt) /\ reached limit sc'' /\ undisturbed sc sc'' /\
      engine_view limit n sc'' = (sc'', Ok (repeat (one_sided_object 1) 4, ss')) /\ mirror_box T X Y H eff ss'.
Proof.
  intros R HX HY HH L. destruct (homogenizer_step limit X Y H eff sc R HX HY HH L) as (sc' & n & ls & E & S & A & ND & Nw & W).
  set (d := mkA id4 (walls X Y H eff) []) in *.
  exists sc', n, (seen_surfaces id4 d). split; auto. split; [apply S|]. split; [eapply step_undisturbed; eauto|].
  assert (Nn : forall j, In j (n :: ls) -> ~ exists_in sc j) by (intros j Ij Ej; eapply newer_not; eauto).
  split; [apply Nn; left; auto|].
  assert (Ho : has_objects d) by (unfold has_objects; cbn; discriminate).
  split; [change (repeat (one_sided_object 1) 4) with (seen_objects d); apply (well_placed_view sc' n d ls A ND); auto; apply has_flat; auto|].
  split; [apply box_acts; auto using rigid_id|].
  intros T RT. destruct (put_view limit n T d ls sc' (st_reached _ _ _ _ S) A ND Ho) as (sc2 & E2 & R2 & A2 & W2 & V2 & O2 & P2 & _); [cbn; lia|].
  exists sc2, (seen_surfaces id4 (moved T d)). split; auto. split; auto. split.
  - intros j Ej. pose proof (step_exists _ _ _ _ _ S Ej) as Ej'.
    pose proof (step_same _ _ _ _ _ R S Ej) as ((X1 & X2 & X3 & X4) & X5 & X6 & X7).
    assert (Nj : j <> n) by (intros ->; apply (Nn n); auto; left; auto).
    destruct (O2 j Ej' Nj) as ((Y1 & Y2 & Y3 & Y4) & Y5 & Y6 & Y7). split; [unfold same_in, same_node; repeat split; congruence|].
    rewrite P2; auto; [apply S; auto|]. intros Ij. apply (Nn j); auto. right; auto.
  - split; [exact V2|apply box_acts; auto].
Qed.

Lemma mirror_top limit sc w h a : reached limit sc -> 0 < w -> 0 < h -> (0 < limit)%nat ->
  exists sc' n s, rect_one_sided_mirror limit w h a sc = (sc', Ok n) /\ reached limit sc' /\ undisturbed sc sc' /\
    ~ exists_in sc n /\ ~ exists_in sc s /\
    is_object sc' n (mkO true id4 [mkPart (RectPlate (w / 2) (h / 2)) (Absorbing (AbsorberReflector a)) id4]) [s].
Proof.
  intros R Hw Hh L. destruct (mirror_step limit w h a sc R Hw Hh L) as (sc' & n & s & E & S & O & Nw & _).
  exists sc', n, s. split; auto. split; [apply S|]. split; [eapply step_undisturbed; eauto|].
  split; [|split; [|exact O]]; intros X; eapply newer_not; eauto; simpl; auto.
Qed.

Lemma receiver_top limit sc w h a : reached limit sc -> 0 < w -> 0 < h -> (0 < limit)%nat ->
  exists sc' n front back id, one_sided_receiver limit w h a sc = (sc', Ok (front, n)) /\ reached limit sc' /\ undisturbed sc sc' /\
    ~ exists_in sc n /\ ~ exists_in sc front /\ ~ exists_in sc back /\ front <> back /\ (sc_acc sc <= id < sc_acc sc')%nat /\
    is_object sc' n (mkO true id4 [mkPart (RectPlate (w / 2) (h / 2)) (Accountant id (Reflective a)) id4;
      mkPart (RectPlate (w / 2) (h / 2)) (Absorbing (Reflective 1)) (translate 0 0 (- / 10 ^ 10))]) [front; back].
Proof.
  intros R Hw Hh L. destruct (receiver_step limit w h a sc R Hw Hh L) as (sc' & n & s & s2 & E & S & O & Nw & Ns & Ac).
  exists sc', n, s, s2, (sc_acc sc). split; auto. split; [apply S|]. split; [eapply step_undisturbed; eauto|].
  split; [|split; [|split]]; try (intros X; eapply newer_not; eauto; simpl; auto; fail).
  split; auto. split; [lia|]. unfold receiver_of, tenm in O.
  replace (translate 0 0 (- / 10 ^ 10)) with (mk4 id3 (V3 0 0 (- / 10 ^ 10))) by (rewrite translate_eq; reflexivity). exact O.
Qed.

Lemma flat_ext s A A' z z' eff eff' : (forall p, A p <-> A' p) -> z = z' -> eff = eff' -> flat_mirror s A z eff -> flat_mirror s A' z' eff'.
Proof.
  intros H <- <- M b n T. destruct (M b n T) as (s1 & ps & E & L & Hh & R). exists s1, ps. split; auto. split; auto. split; auto.
  intros j v d x Ev Ed Ex. destruct (Hh j v d x Ev Ed Ex) as (P & Q). split; auto. intros X. eapply first_hit_ext; eauto.
Qed.

Lemma sided_surfaces T w h a id : rigid T -> 0 < w -> 0 < h ->
  one_way_mirror (seen_part T (mkPart (RectPlate (w / 2) (h / 2)) (Absorbing (AbsorberReflector a)) id4))
    (placed T (rectangle w h)) (z_of T) (1 - a) /\
  flat_mirror (seen_part T (mkPart (RectPlate (w / 2) (h / 2)) (Accountant id (Reflective a)) id4))
    (placed T (rectangle w h)) (z_of T) (1 - a) /\
  flat_mirror (seen_part T (mkPart (RectPlate (w / 2) (h / 2)) (Absorbing (Reflective 1)) (translate 0 0 (- / 10 ^ 10))))
    (placed T (placed (translate 0 0 (- / 10 ^ 10)) (rectangle w h))) (z_of T) 0.
Proof.
  intros RT Hw Hh. unfold seen_part. cbn [p_geom p_opt p_own]. rewrite !mm4_id_r.
  split; [apply one_way_rect; auto|]. split; [apply flat_receiver; auto|].
  eapply flat_ext; [| | |apply flat_rect; auto; apply rigid_mm4; auto using rigid_translate].
  - intros p. apply placed_mm4; auto using rigid_translate.
  - rewrite z_of_mm4 by auto using rigid_translate. unfold z_of at 1, turned, translate, z_of. f_equal. cbn. veq; ring.
  - ring.
Qed.
