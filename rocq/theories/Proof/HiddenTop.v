(** Surfaces of the library that are out of sight. *)
From Coq Require Import Reals List Arith Bool Lra Lia.
From Verif.Base Require Import Py Num Vec.
From Verif.Model Require Import RayBundle Boundary Geometry TraceTree OpticsCallables Engine Objects Surface.
From Verif.Proof Require Import ListLemmas NumLemmas VecLemmas GeomProof GeomTop EngineTop TraceTop LibraryTop SightProof HiddenRows HiddenProof.
From Verif.Spec Require Import BundleSpec EngineSpec GeometrySpec GeomIface OpticsSpec LibrarySpec LawSpec SightSpec HiddenSpec.
Import ListNotations.
Local Open Scope R_scope.

Lemma vert_back b ns b' q v : rays_picked b (seq 0 ns) b' -> vert_at b' q = Some v -> (q < ns)%nat /\ vert_at b q = Some v.
Proof.
  intros H Hv. specialize (H Vertices). unfold vert_at, at_col in *. simpl in H.
  destruct (b_vert b') as [l2|]; [|discriminate]. destruct (b_vert b) as [l|]; [|discriminate]. destruct H as (l' & E & P). injection E as <-.
  unfold picks in P. rewrite Forall2_nth in P. destruct P as (L & P). rewrite seq_length, map_length in L.
  assert (Hq : (q < ns)%nat) by (rewrite L; apply nth_error_Some; congruence). split; auto.
  specialize (P q q (PVec v)). rewrite !nth_error_map, Hv in P.
  assert (E : nth_error (seq 0 ns) q = Some q).
  { rewrite (nth_error_nth' _ 0%nat) by (rewrite seq_length; auto). rewrite seq_nth by auto. reflexivity. }
  specialize (P E eq_refl). destruct (nth_error l q); [|discriminate]. simpl in P. congruence.
Qed.
Lemma dir_back b ns b' q v : rays_picked b (seq 0 ns) b' -> dir_at b' q = Some v -> dir_at b q = Some v.
Proof.
  intros H Hv. specialize (H Directions). unfold dir_at, at_col in *. simpl in H.
  destruct (b_dir b') as [l2|]; [|discriminate]. destruct (b_dir b) as [l|]; [|discriminate]. destruct H as (l' & E & P). injection E as <-.
  unfold picks in P. rewrite Forall2_nth in P. destruct P as (L & P). rewrite seq_length, map_length in L.
  assert (Hq : (q < ns)%nat) by (rewrite L; apply nth_error_Some; congruence).
  specialize (P q q (PVec v)). rewrite !nth_error_map, Hv in P.
  assert (E : nth_error (seq 0 ns) q = Some q).
  { rewrite (nth_error_nth' _ 0%nat) by (rewrite seq_length; auto). rewrite seq_nth by auto. reflexivity. }
  specialize (P E eq_refl). destruct (nth_error l q); [|discriminate]. simpl in P. congruence.
Qed.

Definition placed_alike (a s : surface) : Prop := s_geom a = s_geom s /\ s_frame a = s_frame s.

(** What a surface answers about a ray that it may have in its way. *)
Lemma surface_answers s b vs ds s' ps : rigid (s_frame s) -> has_rays b vs ds -> register_incoming surface_ops s b = Ok (s', ps) ->
  forall j v d x A, nth_error vs j = Some v -> nth_error ds j = Some d -> nth_error ps j = Some x -> is_unit d -> in_the_way s v d A -> answer A v d x.
Proof.
  intros Rf Hb E j v d x A Hv Hd Hx U (B & c & M & Hc & ->).
  destruct (made_answers _ _ _ _ Rf M b vs ds Hb) as (gs & ps' & E' & L & H).
  cbn in E. unfold surf_register in E. rewrite E' in E. cbn [bind] in E. assert (ps' = ps) by congruence. subst ps'. eauto.
Qed.

Lemma hidden_top : forall objs surfs, library_assembly objs surfs -> (forall ob, In ob objs -> exists k, ob = default_object k) ->
  forall extra, (forall x, In x extra -> rigid (s_frame x)) ->
  forall me g b n, library_source b n -> forall reps vs ds st,
  ray_tracer surface_ops objs surfs g b reps me TreeTrue = Ok (vs, ds, st) ->
  (forall L lvl j v d, nth_error (t_tree st) L = Some lvl -> (L < reps)%nat -> is_traced me L lvl j ->
     vert_at lvl j = Some v -> dir_at lvl j = Some d -> forall x, In x extra -> out_of_sight surfs x v d) ->
  exists st', ray_tracer surface_ops (objs ++ [default_object (length extra)]) (surfs ++ extra) g b reps me TreeTrue = Ok (vs, ds, st') /\
    t_tree st' = t_tree st /\ t_g st' = t_g st /\ t_bund st' = t_bund st.
Proof.
  intros objs surfs La Df extra Rx me g b n Ls reps vs ds st E Hid.
  destruct (trace_more surface_ops objs me (length extra) Df placed_alike) with (surfs := surfs) (extra := extra) (g := g) (b := b) (reps := reps) (vs := vs) (ds := ds) (st := st)
    as (st' & E' & A1 & A2 & A3 & _); auto.
  - intros a s b0 s' ps (K1 & K2) H. cbn in H. unfold surf_register in H. apply bind_ok in H as ([gs q] & _ & H). injection H as <- _. split; auto.
  - intros a s i s' (K1 & K2) H. cbn in H. unfold surf_select in H. apply bind_ok in H as (gs & _ & H). injection H as <-. split; auto.
  - intros s. split; reflexivity.
  - apply La.
  - intros a s0 sa m Ha E0 Ea Hm Nz x s Ix (K1 & K2).
    pose proof E as Er. replace reps with (a + (reps - a))%nat in Er by lia.
    destruct (trace_prefix objs surfs me La g b n a _ _ _ _ Ls Er) as (vs1 & ds1 & st1 & more & E1 & T1).
    assert (st1 = sa).
    { unfold ray_tracer in E1. rewrite E0 in E1. cbn [bind] in E1. rewrite Ea in E1. cbn [bind] in E1.
      apply bind_ok in E1 as (v & _ & E1). apply bind_ok in E1 as (d & _ & E1). congruence. }
    subst st1. destruct (bounded_trace objs surfs La me g b n Ls a vs1 ds1 sa E1) as (B1 & B2 & _ & B3 & B4 & B5 & B6 & B7 & _).
    assert (Hb : has_rays (t_bund sa) vs1 ds1) by (split; auto).
    assert (Em : length vs1 = m) by (unfold get_num_rays in Hm; rewrite B3 in Hm; congruence).
    assert (Lt : length (t_tree sa) = (a + 1)%nat).
    { destruct (Nat.eq_dec (length (t_tree sa)) (a + 1)); auto. destruct (B6 ltac:(lia)) as (-> & _). cbn in Em. congruence. }
    destruct (nth_lt (t_tree sa) a ltac:(lia)) as (lvl & Hl). destruct (B7 lvl Hl) as (ns & Pk & Tr).
    assert (Hl' : nth_error (t_tree st) a = Some lvl) by (rewrite T1, nth_error_app1; [exact Hl|lia]).
    assert (Ray : forall j v d, nth_error vs1 j = Some v -> nth_error ds1 j = Some d -> is_unit d /\ out_of_sight surfs x v d).
    { intros j v d Hv Hd. destruct (vert_back _ _ _ j v Pk) as (Hj & Hv'). { unfold vert_at, at_col. rewrite B3. exact Hv. }
      assert (Hd' : dir_at lvl j = Some d) by (apply (dir_back _ _ _ j d Pk); unfold dir_at, at_col; rewrite B4; exact Hd).
      apply Tr in Hj. split; [|eapply Hid; eauto]. destruct Hj as (e & He & _).
      apply (level_units objs surfs me g b n reps vs ds st La Ls E a lvl j e d Hl' He Hd'). }
    destruct (nth_lt vs1 0%nat ltac:(lia)) as (v0 & Hv0). destruct (nth_lt ds1 0%nat ltac:(lia)) as (d0 & Hd0).
    destruct (Ray _ _ _ Hv0 Hd0) as (_ & _ & (B0 & c0 & M0 & _ & _) & _).
    assert (Rs : rigid (s_frame s)) by (rewrite <- K2; auto).
    rewrite K1, K2 in M0. destruct (made_answers _ _ _ _ Rs M0 _ _ _ Hb) as (gs & ps & Ef & Lp & _).
    assert (Eg : register_incoming surface_ops s (t_bund sa) = Ok (mkS (s_geom s) (s_opt s) (s_frame s) gs (Some (t_bund sa)) (s_selected s), ps)).
    { cbn. unfold surf_register. rewrite Ef. reflexivity. }
    eexists; exists ps. split; [exact Eg|]. split; [congruence|]. intros j y Hy.
    assert (Lj : (j < length vs1)%nat) by (rewrite <- Lp; apply nth_error_Some; congruence).
    destruct (nth_lt vs1 j Lj) as (v & Hv). destruct (nth_lt ds1 j ltac:(lia)) as (d & Hd).
    destruct (Ray _ _ _ Hv Hd) as (U & A & W & C).
    assert (W' : in_the_way s v d A). { destruct W as (B & c & M & Hc & ->). exists B, c. rewrite <- K1, <- K2. auto. }
    pose proof (surface_answers _ _ _ _ _ _ Rs Hb Eg j v d y A Hv Hd Hy U W') as An.
    destruct y as [t'| | |]; cbn in An; try contradiction; [|left; reflexivity]. destruct An as (P1 & P2 & P3). right. exists t'. split; [reflexivity|].
    destruct C as [C|(o & B & t & Io & Wo & Ht & HB & Far & C)]; [destruct (C t' P1 P2)|].
    assert (Lt' : t < t'). { apply Rnot_le_lt. intros Le. apply (C t'); auto. }
    split; [lra|]. exists o. split; [exact Io|]. intros o1 o2 ps2 (J1 & J2) Ho.
    assert (Ro : rigid (s_frame o1)) by (rewrite <- J2; apply (proj1 (proj2 La) o Io)).
    assert (Wo' : in_the_way o1 v d B). { destruct Wo as (B' & c & M & Hc & ->). exists B', c. rewrite <- J1, <- J2. auto. }
    destruct (nth_error ps2 j) as [y|] eqn:Ey.
    2:{ exfalso. destruct Wo' as (B' & c & M & _). destruct (made_answers _ _ _ _ Ro M _ _ _ Hb) as (gs2 & ps3 & Ef2 & Lp2 & _).
        cbn in Ho. unfold surf_register in Ho. rewrite Ef2 in Ho. cbn in Ho. assert (ps3 = ps2) by congruence. subst ps3. apply nth_error_None in Ey. lia. }
    pose proof (surface_answers _ _ _ _ _ _ Ro Hb Ho j v d y B Hv Hd Ey U Wo') as An.
    pose proof HiddenRows.tens as T6. destruct y as [t0| | |]; cbn in An; try contradiction.
    + destruct An as (Q1 & Q2 & Q3). exists t0. split; [reflexivity|]. destruct (Q3 t ltac:(lra) HB) as (_ & Q4). split; [|lra].
      apply Rnot_le_lt. intros Le. apply (Far t0); auto.
    + destruct (An t ltac:(lra) HB).
  - exists st'. auto.
Qed.
