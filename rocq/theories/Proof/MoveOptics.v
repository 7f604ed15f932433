(** Optics managers and whole traces in a scene that is moved along with the light. *)
From Coq Require Import Reals List Arith Bool Lra Lia.
From Verif.Base Require Import Py Num Vec.
From Verif.Model Require Import RayBundle Boundary Geometry Spatial Sources Optics OpticsCallables TraceTree Engine Surface Objects.
From Verif.Proof Require Import ListLemmas NumLemmas VecLemmas SimProof MoveBundle MoveGeom.
From Verif.Spec Require Import GeometrySpec LibrarySpec ModelSpec MoveSpec.
Import ListNotations.
Local Open Scope R_scope.

Lemma mask_select_same {A B} (k : A -> B) m l : mask_select m (map k l) = map k (mask_select m l).
Proof. apply mask_select_map. Qed.

Section Move.
Variables (r : mat3) (t : vec) (c : R).
Hypothesis O : orthonormal r.
Notation T := (mk4 r t).
Notation mp := (mp r t).
Notation md := (md r).
Definition hc (e : R) : R := c * e.
Notation mb := (mvb mp md hc).
Notation GR := (GR r t hc).
Local Arguments MoveGeom.mp _ _ _ : simpl never.
Local Arguments MoveGeom.md _ _ : simpl never.

Lemma scaled_moved k es : scaled k (map hc es) = map hc (scaled k es).
Proof. unfold scaled, hc. rewrite !map_map. apply map_ext. intros. ring. Qed.
Lemma reflection_moved d n : reflection (md d) (md n) = md (reflection d n).
Proof.
  unfold reflection. rewrite (md_dot r O). unfold MoveGeom.md. rewrite mv3_vsub, !mv3_vscale. auto.
Qed.
Lemma reflections_moved ds ns : map2 reflection (map md ds) (map md ns) = map md (map2 reflection ds ns).
Proof.
  revert ns. induction ds as [|d ds IH]; intros [|n ns]; cbn [map map2]; auto. rewrite IH, reflection_moved. auto.
Qed.

Lemma inherit_moved b sel v d e p n x :
  inherit (mb b) sel (mkB (Some (map mp v)) (Some (map md d)) (Some (map hc e)) p n x) =
  rmap mb (inherit b sel (mkB (Some v) (Some d) (Some e) p n x)).
Proof. exact (mvb_inherit mp md hc b sel (mkB (Some v) (Some d) (Some e) p n x)). Qed.

Lemma call_reflective_moved a gs gs' b sel : GR gs gs' ->
  call_reflective a gs' (mb b) sel = rmap mb (call_reflective a gs b sel).
Proof.
  intros H. unfold call_reflective.
  rewrite (get_points_moved r t hc gs gs' H), (get_normals_moved r t O hc gs gs' H), mvb_directions, mvb_energy.
  rewrite bind_rmap, rmap_bind. apply bind_ext. intros pts _.
  rewrite bind_rmap, rmap_bind. apply bind_ext. intros ds _.
  rewrite take_rmap, bind_rmap, rmap_bind. apply bind_ext. intros ds1 _.
  rewrite bind_rmap, rmap_bind. apply bind_ext. intros ns _.
  rewrite same_len_map_l, same_len_map_r. destruct (negb (same_len ds1 ns)); auto.
  rewrite bind_rmap, rmap_bind. apply bind_ext. intros es _.
  rewrite take_rmap, bind_rmap, rmap_bind. apply bind_ext. intros es1 _.
  rewrite reflections_moved, scaled_moved. apply inherit_moved.
Qed.

Lemma hc_0 : hc 0 = 0. Proof. unfold hc. ring. Qed.

Lemma call_absorber_moved a gs gs' b sel : GR gs gs' ->
  call_absorber a gs' (mb b) sel = rmap mb (call_absorber a gs b sel).
Proof.
  intros H. unfold call_absorber. rewrite (call_reflective_moved a gs gs' b sel H).
  rewrite bind_rmap, rmap_bind. apply bind_ext. intros o _. rewrite mvb_energy.
  rewrite bind_rmap, rmap_bind. apply bind_ext. intros en _. rewrite mvb_directions.
  rewrite bind_rmap, rmap_bind. apply bind_ext. intros ds _.
  rewrite take_rmap, bind_rmap, rmap_bind. apply bind_ext. intros ds1 _.
  rewrite (up_moved r t O hc gs gs' H), bind_rmap, rmap_bind. apply bind_ext. intros u _.
  rewrite map_map, (map_ext (fun x => dot (md x) (md u)) (fun x => dot x u)) by (intros; apply md_dot; auto).
  rewrite same_len_map_r. destruct (negb (same_len (map (fun x => dot x u) ds1) en)); auto.
  cbn [rmap]. f_equal. rewrite <- mvb_set_energy. f_equal. rewrite <- (fill_mask_map hc), hc_0. auto.
Qed.

Lemma md_id v : r = id3 -> md v = v. Proof. intros ->. apply mv3_id. Qed.
Lemma map_md_id l : r = id3 -> map md l = l.
Proof. intros E. rewrite <- (map_id l) at 2. apply map_ext. intros v. apply md_id; auto. Qed.

Lemma call_lambertian_moved a gs gs' b sel g : r = id3 -> GR gs gs' ->
  call_lambertian a gs' (mb b) sel g = rmap (fun p => (mb (fst p), snd p)) (call_lambertian a gs b sel g).
Proof.
  intros E H. unfold call_lambertian. destruct (pillbox_sunshape_directions (length sel) (PI / 2) g) as [dd g1].
  rewrite (get_points_moved r t hc gs gs' H), (get_normals_moved r t O hc gs gs' H), mvb_energy.
  rewrite bind_rmap, rmap_bind. apply bind_ext. intros ns _. rewrite map_md_id by auto.
  destruct (negb (same_len ns dd)); auto.
  rewrite bind_rmap, rmap_bind. apply bind_ext. intros pts _.
  rewrite bind_rmap, rmap_bind. apply bind_ext. intros es _.
  rewrite take_rmap, bind_rmap, rmap_bind. apply bind_ext. intros es1 _.
  rewrite scaled_moved. set (dirs := map2 (fun n d => mv3 (rotation_to_z n) d) ns dd).
  replace (Some dirs) with (Some (map md dirs)) at 1 by (f_equal; apply map_md_id; auto).
  rewrite inherit_moved.
  rewrite bind_rmap, rmap_bind. apply bind_ext. intros o _. reflexivity.
Qed.

Lemma call_absorbing_moved o gs gs' b sel g : (not_random (Absorbing o) \/ r = id3) -> GR gs gs' ->
  call_absorbing o gs' (mb b) sel g = rmap (fun p => (mb (fst p), snd p)) (call_absorbing o gs b sel g).
Proof.
  intros N H. destruct o; cbn [call_absorbing].
  - rewrite (call_reflective_moved _ gs gs' b sel H), bind_rmap, rmap_bind. apply bind_ext. auto.
  - rewrite (call_absorber_moved _ gs gs' b sel H), bind_rmap, rmap_bind. apply bind_ext. auto.
  - apply call_lambertian_moved; auto. destruct N as [[]|]; auto.
Qed.

Lemma refracted_dir_moved n d k : refracted_dir n (md d) (md k) = rmap md (refracted_dir n d k).
Proof.
  unfold refracted_dir. rewrite (md_dot r O). destruct (Reqb n 0); auto. rewrite rmap_bind. apply bind_ext. intros cos2 _.
  cbn [rmap]. f_equal. unfold MoveGeom.md. rewrite mv3_vadd, !mv3_vscale, mv3_vsub, mv3_vscale. auto.
Qed.

Lemma refractions_moved n1 n2 ds ns :
  refractions n1 n2 (map md ds) (map md ns) = rmap (fun p => (fst p, map md (snd p))) (refractions n1 n2 ds ns).
Proof.
  unfold refractions. rewrite !same_len_map_r.
  destruct (negb (same_len n1 n2 && same_len n1 ds && same_len n1 ns)); auto.
  rewrite rmap_bind. apply bind_ext. intros n _.
  assert (E : map3 is_refracted n (map md ds) (map md ns) = map3 is_refracted n ds ns).
  { revert ds ns. induction n as [|x n IH]; intros [|d ds] [|k ns]; cbn [map map3]; auto. rewrite IH. f_equal.
    unfold is_refracted. rewrite (md_dot r O). auto. }
  rewrite E. set (m := map3 is_refracted n ds ns). rewrite !mask_select_map.
  assert (E3 : forall a b e, sequence (map3 refracted_dir a (map md b) (map md e)) = rmap (map md) (sequence (map3 refracted_dir a b e))).
  { induction a as [|x a IH]; intros [|d b] [|k e]; cbn [map map3 sequence]; auto. rewrite refracted_dir_moved, IH.
    destruct (refracted_dir x d k); auto. cbn [rmap bind]. destruct (sequence (map3 refracted_dir a b e)); auto. }
  rewrite E3, bind_rmap, rmap_bind. apply bind_ext. intros dirs _. reflexivity.
Qed.

Lemma call_refractive_moved i1 i2 gs gs' b sel : GR gs gs' ->
  call_refractive i1 i2 gs' (mb b) sel = rmap mb (call_refractive i1 i2 gs b sel).
Proof.
  intros H. unfold call_refractive. destruct (Nat.eqb (length sel) 0); auto.
  rewrite (get_points_moved r t hc gs gs' H), (get_normals_moved r t O hc gs gs' H), mvb_directions, mvb_energy, mvb_ref,
    (call_reflective_moved 0 gs gs' b sel H).
  rewrite rmap_bind. apply bind_ext. intros n1 _.
  rewrite rmap_bind. apply bind_ext. intros n1' _.
  rewrite bind_rmap, rmap_bind. apply bind_ext. intros ds _.
  rewrite take_rmap, bind_rmap, rmap_bind. apply bind_ext. intros ds1 _.
  rewrite bind_rmap, rmap_bind. apply bind_ext. intros ns _.
  rewrite refractions_moved, bind_rmap, rmap_bind. apply bind_ext. intros [refr out] _. cbn [fst snd].
  destruct (negb (any refr)); auto. rewrite !mask_select_map.
  assert (E3 : forall a b e, map3 (fun d n ii => fresnel d n (fst ii) (snd ii)) (map md a) (map md b) e =
                             map3 (fun d n (ii : R * R) => fresnel d n (fst ii) (snd ii)) a b e).
  { induction a as [|x a IH]; intros [|y b0] [|z e]; cbn [map map3]; auto. rewrite IH. f_equal.
    unfold fresnel. rewrite (md_dot r O). auto. }
  rewrite E3, rmap_bind. apply bind_ext. intros rf _.
  rewrite bind_rmap, rmap_bind. apply bind_ext. intros pts _.
  rewrite same_len_map_l, same_len_map_r. destruct (negb (same_len ds1 pts)); auto.
  rewrite bind_rmap, rmap_bind. apply bind_ext. intros es _.
  rewrite take_rmap, bind_rmap, rmap_bind. apply bind_ext. intros es1 _.
  set (q := put_mask refr (repeat 1 (length sel)) rf).
  rewrite reflections_moved, !mask_select_map.
  assert (E4 : forall a k (g : R -> R), map2 (fun e x => e * g x) (map hc a) k = map hc (map2 (fun e x => e * g x) a k)).
  { unfold hc. induction a as [|x a IH]; intros [|y k] g; cbn [map map2]; auto. rewrite IH. f_equal. ring. }
  assert (E5 : map2 Rmult (map hc es1) q = map hc (map2 Rmult es1 q)) by exact (E4 es1 q (fun y => y)). rewrite E5.
  rewrite (E4 (mask_select refr es1) (mask_select refr q) (fun x => 1 - x)).
  rewrite inherit_moved.
  rewrite bind_rmap, rmap_bind. apply bind_ext. intros o1 _.
  rewrite inherit_moved.
  rewrite bind_rmap, rmap_bind. apply bind_ext. intros o2 _. cbn [rmap]. f_equal. apply mvb_add.
Qed.

(** ** Surfaces *)
Definition mac (a : account) : account := mkAcc (map (map hc) (a_absorbed a)) (map (map mp) (a_hits a)).
Definition RG (g g' : shared) : Prop := g_rng g' = g_rng g /\ forall id, g_acc g' id = mac (g_acc g id).

Lemma record_hits_moved k gs gs' b sel a : GR gs gs' ->
  record_hits k gs' (mb b) sel (mac a) = rmap mac (record_hits k gs b sel a).
Proof.
  intros H. unfold record_hits. rewrite (get_points_moved r t hc gs gs' H), mvb_energy.
  rewrite bind_rmap, rmap_bind. apply bind_ext. intros es _.
  rewrite take_rmap, bind_rmap, rmap_bind. apply bind_ext. intros es1 _.
  rewrite bind_rmap, rmap_bind. apply bind_ext. intros pts _. cbn [rmap]. unfold mac. cbn [a_absorbed a_hits].
  rewrite !map_app. cbn [map]. rewrite scaled_moved. auto.
Qed.

Lemma call_optics_moved o gs gs' b sel g g' : (not_random o \/ r = id3) -> GR gs gs' -> RG g g' ->
  rel_res (fun p q => fst q = mb (fst p) /\ RG (snd p) (snd q)) (call_optics o gs b sel g) (call_optics o gs' (mb b) sel g').
Proof.
  intros N H (Er & Ea). destruct o as [o|id o|i1 i2]; cbn [call_optics].
  - rewrite Er, (call_absorbing_moved o gs gs' b sel (g_rng g) N H).
    eapply rel_bind; [apply rel_rmap|]. intros [o1 g1] ? ->. cbn [fst snd rel_res]. repeat split; auto.
  - rewrite Ea, (record_hits_moved _ gs gs' b sel _ H).
    eapply rel_bind; [apply rel_rmap|]. intros ac ? ->. rewrite Er, (call_absorbing_moved o gs gs' b sel (g_rng g) N H).
    eapply rel_bind; [apply rel_rmap|]. intros [o1 g1] ? ->. cbn [fst snd rel_res]. repeat split; auto.
    cbn [g_acc]. intros j. unfold upd. destruct (Nat.eqb j id); auto.
  - rewrite (call_refractive_moved i1 i2 gs gs' b sel H).
    eapply rel_bind; [apply rel_rmap|]. intros o1 ? ->. cbn [fst snd rel_res]. repeat split; auto.
Qed.

Definition SR (s s' : surface) : Prop :=
  s_geom s' = s_geom s /\ s_opt s' = s_opt s /\ (exists F l, s_frame s = mk4 F l) /\ s_frame s' = mm4 T (s_frame s) /\
  GR (s_gstate s) (s_gstate s') /\ s_bundle s' = option_map mb (s_bundle s) /\ s_selected s' = s_selected s /\
  (not_random (s_opt s) \/ r = id3).

Lemma surface_msim : msim mp md hc surface_ops surface_ops SR RG.
Proof.
  split; cbn [register_incoming select_rays get_outgoing done surface_ops].
  - intros s s' b (Eg & Eo & (F & l & Ef) & Ef' & HG & Eb & Es & N). unfold surf_register. rewrite Eg, Eo, Ef', Es, Ef.
    eapply rel_bind; [apply (find_moved r t O hc)|]. intros [gs ps] [gs' ps'] (G & E). cbn [fst snd] in *. subst ps'.
    cbn [rel_res fst snd]. split; auto. unfold SR. cbn [s_geom s_opt s_frame s_gstate s_bundle s_selected option_map].
    repeat split; auto. eauto.
  - intros s s' idx (Eg & Eo & Hf & Ef' & HG & Eb & Es & N). unfold surf_select. rewrite Eg, Eo, Ef', Eb.
    eapply rel_bind; [apply (select_moved r t O hc); eauto|]. intros gs gs' G. cbn [rel_res]. split.
    + intros g1 g2 Hg. unfold surf_outgoing. cbn [s_geom s_opt s_frame s_gstate s_bundle s_selected].
      destruct (s_bundle s); cbn [option_map]; [|reflexivity]. apply call_optics_moved; auto.
    + unfold surf_done, SR. cbn [s_geom s_opt s_frame s_gstate s_bundle s_selected option_map done_geom]. 
      repeat split; auto. constructor.
  - intros s s' (Eg & Eo & Hf & Ef' & HG & Eb & Es & N). unfold surf_done, SR.
    cbn [s_geom s_opt s_frame s_gstate s_bundle s_selected option_map done_geom]. repeat split; auto. constructor.
Qed.
End Move.
