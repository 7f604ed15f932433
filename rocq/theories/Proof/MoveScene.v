(** Moving the assembly that holds a whole scene. *)
From Coq Require Import Reals List Arith Bool Lra Lia.
From Verif.Base Require Import Py Num Vec.
From Verif.Model Require Import RayBundle Geometry OpticsCallables Engine Objects Surface Assembly Scene Models.
From Verif.Proof Require Import ListLemmas VecLemmas PlaceProof PlaceTop SceneProof ViewProof ModelProof ModelTop ModelExamples MoveTop.
From Verif.Spec Require Import GeometrySpec FrameSpec SceneSpec LibrarySpec ModelSpec MoveSpec.
Import ListNotations.
Local Open Scope R_scope.

Lemma seen_moved_by T : forall d U, seen_surfaces (mm4 T U) d = map (moved_surface T) (seen_surfaces U d).
Proof.
  fix IH 1. intros [t os ms] U. cbn [seen_surfaces]. rewrite map_app. f_equal.
  - induction ms as [|m ms E]; cbn [map concat]; auto. rewrite map_app, <- IH, E, mm4_assoc. reflexivity.
  - rewrite concat_map, map_map. f_equal. apply map_ext. intros o. rewrite map_map. apply map_ext. intros p.
    unfold seen_part, moved_surface, Surface.new_surface. cbn [s_geom s_opt s_frame s_gstate s_bundle s_selected].
    rewrite !mm4_assoc. reflexivity.
Qed.

Lemma seen_indifferent T c d ob : In ob (seen_objects d) -> indifferent T c ob.
Proof.
  rewrite seen_flat. intros I. apply in_map_iff in I as (o & <- & _). unfold seen_object.
  destruct (o_sided o); apply standard_indifferent.
Qed.
Lemma seen_idle d U s : In s (seen_surfaces U d) -> idle s.
Proof. rewrite seen_spots. intros I. apply in_map_iff in I as (p & <- & _). split; reflexivity. Qed.

Theorem moved_scene limit sc n d ls t T c : reached limit sc -> is_assembly sc n d ls -> NoDup ls -> has_objects d ->
  well_placed (sc_w sc) n -> (S (depth d) <= limit)%nat -> transform_of (sc_w sc) n = Some t -> rigid T -> 0 < c ->
  (forall s, In s (seen_surfaces id4 d) -> affine (s_frame s) /\ may_turn T s) ->
  exists sc' objs ss, put_at limit n (mm4 T t) sc = (sc', Ok tt) /\
    engine_view limit n sc = (sc, Ok (objs, ss)) /\
    engine_view limit n sc' = (sc', Ok (objs, map (moved_surface T) ss)) /\
    forall g g' b reps me ta, moved_shared T c g g' ->
    same_outcome (moved_trace T c) (ray_tracer surface_ops objs ss g b reps me ta)
      (ray_tracer surface_ops objs (map (moved_surface T) ss) g' (moved_bundle T c b) reps (c * me) ta).
Proof.
  intros R A ND Ho W L Et RT Hc Hs.
  destruct (put_view limit n (mm4 T t) d ls sc R A ND Ho L) as (sc' & E & _ & _ & _ & V & _).
  exists sc', (seen_objects d), (seen_surfaces id4 d). split; [exact E|]. split.
  { apply well_placed_view with (ls := ls); auto. apply has_flat; auto. }
  split.
  { rewrite V. do 3 f_equal. destruct d as [t0 os ms]. cbn [moved].
    assert (t0 = t) as -> by (inversion A; congruence). rewrite <- seen_moved_by. cbn [seen_surfaces].
    rewrite !mm4_assoc, !mm4_id_l. reflexivity. }
  intros g g' b reps me ta Hg. apply moved_top; auto.
  - intros s I. split; [eapply seen_idle; eauto|]. apply Hs; auto.
  - intros ob I. eapply seen_indifferent; eauto.
Qed.

Lemma rigid_affine f : rigid f -> affine f.
Proof. intros (r & t & -> & _). reflexivity. Qed.

Lemma moved_scene_example : exists sc n ls, let d := mkA id4 (walls 1 2 3 (9 / 10)) [] in
  reached 5 sc /\ is_assembly sc n d ls /\ NoDup ls /\ has_objects d /\ well_placed (sc_w sc) n /\ (S (depth d) <= 5)%nat /\
  transform_of (sc_w sc) n = Some id4 /\ forall T s, In s (seen_surfaces id4 d) -> affine (s_frame s) /\ may_turn T s.
Proof.
  destruct (homogenizer_step 5 1 2 3 (9 / 10) start (start_reached 5)) as (sc & n & ls & _ & S & A & ND & _ & W); try lra; try lia.
  exists sc, n, ls. intros d. split; [apply S|]. split; auto. split; auto. split; [unfold has_objects; cbn; discriminate|]. split; auto.
  split; [cbn; lia|]. split; [inversion A; auto|].
  intros T s I. cbn [d seen_surfaces map concat walls o_tr o_parts mirror_of app] in I.
  repeat destruct I as [<-|I]; [..|destruct I]; (split; [|left; exact Logic.I]); apply rigid_affine;
  unfold seen_part; cbn [s_frame Surface.new_surface p_own mirror_part];
    repeat apply rigid_mm4; auto using rigid_id, rigid_translate, rigid_rotx, rigid_roty.
Qed.

Lemma app4_id v : app4 id4 v = v.
Proof. destruct v as [a b c]. unfold app4, id4. cbn. assert (forall x y z x' y' z', x = x' -> y = y' -> z = z' -> V3 x y z = V3 x' y' z') as H by (intros; subst; auto). apply H; ring. Qed.
Lemma map_app4_id l : map (app4 id4) l = l.
Proof. rewrite <- (map_id l) at 2. apply map_ext. exact app4_id. Qed.
Lemma turned_id v : turned id4 v = v.
Proof. exact (mv3_id v). Qed.
Lemma map_turned_id l : map (turned id4) l = l.
Proof. rewrite <- (map_id l) at 2. apply map_ext. exact turned_id. Qed.
Lemma brighter_moved c b : moved_bundle id4 c b = brighter c b.
Proof.
  unfold moved_bundle, brighter. destruct (b_vert b), (b_dir b); cbn [option_map]; rewrite ?map_app4_id, ?map_turned_id; auto.
Qed.
Lemma brighter_acc c a : moved_account id4 c a = brighter_account c a.
Proof.
  unfold moved_account, brighter_account. f_equal. rewrite <- (map_id (a_hits a)) at 2. apply map_ext. exact map_app4_id.
Qed.
Lemma moved_id s : moved_surface id4 s = s.
Proof. destruct s as [gm o f gs bu se]. unfold moved_surface. cbn [s_geom s_opt s_frame s_gstate s_bundle s_selected]. rewrite mm4_id_l. auto. Qed.

Theorem brighter_top c objs surfs g g' b reps me ta : 0 < c ->
  (forall s, In s surfs -> idle s /\ affine (s_frame s)) ->
  (forall ob, In ob objs -> forall b k, own_rays ob (brighter c b) k = own_rays ob b k /\
     surfaces_for_next ob (brighter c b) k = surfaces_for_next ob b k) ->
  g_rng g' = g_rng g -> (forall id, g_acc g' id = brighter_account c (g_acc g id)) ->
  same_outcome (brighter_trace c) (ray_tracer surface_ops objs surfs g b reps me ta)
    (ray_tracer surface_ops objs surfs g' (brighter c b) reps (c * me) ta).
Proof.
  intros Hc Hs Ho Hr Ha.
  assert (M : same_outcome (moved_trace id4 c) (ray_tracer surface_ops objs surfs g b reps me ta)
    (ray_tracer surface_ops objs (map (moved_surface id4) surfs) g' (moved_bundle id4 c b) reps (c * me) ta)).
  { apply moved_top; auto using rigid_id.
    - intros s I. destruct (Hs s I). repeat split; try apply H; auto. right. reflexivity.
    - intros ob I x k. rewrite brighter_moved. apply Ho; auto.
    - split; auto. intros id. rewrite brighter_acc. apply Ha. }
  rewrite brighter_moved in M. replace (map (moved_surface id4) surfs) with surfs in M
    by (rewrite <- (map_id surfs) at 1; apply map_ext; intros; symmetry; apply moved_id).
  revert M. destruct (ray_tracer surface_ops objs surfs g b reps me ta) as [[[vs ds] st]|];
  destruct (ray_tracer surface_ops objs surfs g' (brighter c b) reps (c * me) ta) as [[[vs' ds'] st']|]; cbn [same_outcome]; auto.
  intros (A & B & _ & (C1 & C2) & _ & D). rewrite map_app4_id in A. rewrite map_turned_id in B. split; auto. split; auto.
  split; [|split; auto].
  - rewrite D. apply map_ext. apply brighter_moved.
  - intros id. rewrite C2. apply brighter_acc.
Qed.
