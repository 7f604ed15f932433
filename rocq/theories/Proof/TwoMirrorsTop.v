(** The pictures of examples/gui.py. *)
From Coq Require Import Reals String List Arith Bool Lia Lra Permutation.
From Verif.Base Require Import Py Num Vec.
From Verif.Model Require Import RayBundle Spatial Geometry TraceTree OpticsCallables Engine Objects Surface Mesh View Assembly Scene Models TwoMirrors.
From Verif.Proof Require Import ListLemmas NumLemmas VecLemmas FlatProof BundleProof ProcessProof LibraryTop
  GrowProof ViewProof SceneProof ModelProof ModelTop ObjectProof SceneViewProof PathProof TwoScene TwoMirrorsProof.
From Verif.Spec Require Import BundleSpec EngineSpec GeometrySpec OpticsSpec LibrarySpec SceneSpec ModelSpec SceneViewSpec PathSpec TwoMirrorsSpec.
Import ListNotations.
Local Open Scope R_scope.

Lemma two_source y z : library_source (two_rays y z) 2.
Proof.
  destruct s2_facts as (A & B & _). split.
  - split; [constructor|]. split; [|split; discriminate]. split; [cbn; eauto|].
    intros p l E. destruct p; cbn in E; try discriminate; try (injection E as <-; reflexivity).
  - intros j d e D E. cbn in D, E. destruct j as [|[|j]]; [| |destruct j; discriminate];
      injection D as <-; injection E as <-; (split; [unfold is_unit; fold s2; vunfold; nra|]); (split; [lra|]); cbn; intros; congruence.
Qed.

Lemma first_exists y z : y <> z -> exists l, first_path y z l.
Proof.
  intros N. destruct (Rlt_dec y z) as [L|L]; [eexists; apply first_behind; auto|]. assert (L' : z < y) by lra.
  destruct (Rlt_dec (5 * sqrt 2) (y + z)) as [O|O]; [eexists; apply first_over; auto|].
  destruct (Rlt_dec 5 (y + z)); [eexists; apply first_once; lra|eexists; apply first_twice; lra].
Qed.
Lemma second_exists y z : y <> z -> exists l, second_path y z l.
Proof.
  intros N. destruct (Rlt_dec 5 (y * sqrt 2)) as [O|O]; [eexists; apply second_outside; auto|].
  destruct (Rlt_dec y z) as [L|L]; [eexists; apply second_stopped; lra|eexists; apply second_twice; lra].
Qed.
Lemma clear_apart y z : clear_source y z -> y <> z.
Proof. intros (_ & _ & D) ->. rewrite Rminus_diag_eq, Rabs_R0 in D by auto. pose proof small6. pose proof s2_facts. nra. Qed.

Lemma two_picture g y z l1 l2 reps : (2 < reps)%nat -> clear_source y z -> first_path y z l1 -> second_path y z l2 ->
  exists st pts cs, ray_tracer surface_ops two_objs two_surfs g (two_rays y z) reps (5 / 100) TreeTrue = Ok ([], [], st) /\
    show_rays (t_tree st) 1 None = Ok (pts, cs) /\ draws pts cs (l1 ++ l2).
Proof.
  intros Big Cl P1 P2. destruct two_answer as (Ans & Md).
  destruct (paths_drawn two_objs two_surfs (5 / 100) 1 hit out asks state Ans ltac:(lra) two_act (fun _ => Logic.I) two_next two_state
    g (two_rays y z) 2 reps (fun j => (2%nat, match j with O => l1 | _ => l2 end)) (two_source y z)) as (st & pts & cs & E & Sh & Dr).
  - lia.
  - apply Md.
  - intros j Hj. split; [exact Big|]. destruct j as [|[|j]]; [| |lia]; cbn [fst snd].
    + exists (at_yz y z), (V3 0 (- s2) s2), 1. repeat split. apply s_first; auto.
    + exists (at_yz y z), (V3 0 0 (- 1)), 1. repeat split. apply s_second; auto.
  - exists st, pts, cs. split; auto. split; auto. cbn [seq flat_map app] in Dr. rewrite app_nil_r in Dr. exact Dr.
Qed.

Section Scene.
Variables (order : list nat -> list nat) (w : View.world) (a : nat).
Variable far : nat.
Hypothesis Far : far = Z.to_nat 200000000.
Hypothesis Big : (2 < far)%nat.
Hypothesis Or : some_order order.
Hypothesis Sh : shows_assembly w a two_objs two_surfs.
Let set (y z : R) : settings := mkSet a (Some (two_rays y z)) 1 None far (5 / 100).

Lemma two_ids : exists i j, w_surfaces w a = [i; j] /\ each (w_surfaces w a) = [i; j].
Proof.
  destruct Sh as (_ & Nd & Es). unfold two_surfs in Es. destruct (w_surfaces w a) as [|i [|j [|k l]]] eqn:E; try discriminate.
  exists i, j. split; auto. unfold each. apply nodup_fixed_point. auto.
Qed.
Lemma two_portraits k : In k (w_surfaces w a) -> exists d, plain_portrait w k d.
Proof.
  intros Hk. destruct Sh as (_ & _ & Es).
  assert (G : s_geom (w_surface w k) = RectPlate (10 / 2) (10 / 2)).
  { apply (in_map (w_surface w)) in Hk. rewrite Es in Hk. unfold two_surfs in Hk. destruct Hk as [<-|[<-|[]]]; reflexivity. }
  eexists. unfold plain_portrait, portrait. eexists _, (or_else (w_resolution w k) 10), (or_else (w_colour w k) (V3 (1 / 2) (1 / 2) (1 / 2))), (or_else (w_opacity w k) 1).
  do 3 (split; [apply or_else_annotated|]). split; [unfold surf_mesh; rewrite G; cbn [geom_mesh rect_mesh bind]; reflexivity|reflexivity].
Qed.

Lemma two_traced y z d l1 l2 : clear_source y z -> first_path y z l1 -> second_path y z l2 -> trace_picture w (set y z) (two_rays y z) d ->
  exists pts cs, d = Lines pts cs /\ draws pts cs (l1 ++ l2).
Proof.
  intros Cl P1 P2 (vs & ds & st & pts & cs & E & Dr & ->). destruct Sh as (Eo & _ & Es). cbn [set st_asm st_iters st_min_energy st_esc st_selector] in *.
  rewrite Eo, Es in E. destruct (two_picture (w_shared w) y z l1 l2 far Big Cl P1 P2) as (st' & pts' & cs' & E' & Dr' & Dw).
  rewrite E' in E. assert (X : st = st') by congruence. subst st'. rewrite Dr' in Dr. assert (X : pts = pts') by congruence. assert (X' : cs = cs') by congruence. subst. eauto.
Qed.
Lemma two_plot v y z : v_asm v = a -> v_source v = Some (two_rays y z) -> v_esc v = 1 -> v_selector v = None -> v_iters v = far -> v_min_energy v = 5 / 100 ->
  clear_source y z -> exists v', plot_ray_trace w v = Ok v'.
Proof.
  intros E1 E2 E3 E4 E5 E6 Cl. unfold plot_ray_trace. rewrite E2. cbv zeta. set (u := match v_lines _ with Some h => _ | None => _ end).
  assert (U : v_asm u = a /\ v_esc u = 1 /\ v_selector u = None /\ v_iters u = far /\ v_min_energy u = 5 / 100).
  { unfold u. cbn [with_disabled v_lines]. destruct (v_lines v); (split; [exact E1|]); (split; [exact E3|]); (split; [exact E4|]); (split; [exact E5|]); exact E6. }
  destruct U as (-> & -> & -> & -> & ->). destruct Sh as (-> & _ & ->).
  destruct (first_exists y z (clear_apart _ _ Cl)) as (l1 & P1). destruct (second_exists y z (clear_apart _ _ Cl)) as (l2 & P2).
  destruct (two_picture (w_shared w) y z l1 l2 far Big Cl P1 P2) as (st & pts & cs & E & Dr & _). rewrite E. cbn [bind]. rewrite Dr. cbn [bind]. destruct (draw u (Lines pts cs)). eauto.
Qed.

Lemma moved_settings y z y' z' : set y' z' = mkSet (st_asm (set y z)) (Some (two_rays y' z')) (st_esc (set y z)) (st_selector (set y z)) (st_iters (set y z)) (st_min_energy (set y z)).
Proof. unfold set. cbn [st_asm st_esc st_selector st_iters st_min_energy]. reflexivity. Qed.
Lemma played_history v y z : played order w a v y z ->
  exists pic d, history order w v (set y z) (each (w_surfaces w a)) pic [d] /\ trace_picture w (set y z) (two_rays y z) d /\
    forall k, In k (w_surfaces w a) -> plain_portrait w k (pic k).
Proof.
  intros P. induction P as [y z v E|y z y' z' v v' P IH E].
  - unfold open_scene in E. pose proof E as E0. unfold new_viewer in E. rewrite <- Far in E. destruct (set_assembly _ _ _ _) as [v1|] eqn:E1; [|discriminate]. cbn [bind] in E.
    destruct (set_assembly_spec order Or w a (mkV [] 0 a [] None (Some (two_rays y z)) 1 None far (5 / 100) false) []) as (_ & B);
      [constructor|intros x []|constructor|].
    destruct (B v1 E1) as (pic1 & T1 & C1 & K1 & P1 & S1 & S2 & S3 & S4 & S5 & S6 & Sl & Sd). cbn [v_source v_esc v_selector v_iters v_min_energy v_lines v_disabled] in *.
    assert (Tl1 : only_rays v1 []) by (unfold only_rays; rewrite Sl; reflexivity).
    destruct (plot_spec w _ _ _ _ T1 Tl1 E) as (ls' & T2 & Tl2 & R2 & _).
    assert (Hs1 : has_settings v1 (set y z)) by (repeat split; auto).
    rewrite (settings_eta _ _ Hs1) in R2. pose proof R2 as (d & Dt & Ed). exists pic1, d. split; [|split; auto].
    unfold set. rewrite Far. apply h_new; auto. rewrite <- Far. exists d. auto.
  - destruct IH as (pic & d & H & Dt & Pp). pose proof (history_fits _ _ _ _ _ _ _ Or H) as (ls & T & Tl & L & C & K & S & Dz).
    unfold bundle_move in E. assert (Ev : v_source v = Some (two_rays y z)) by apply S. rewrite Ev in E.
    change (set_vertices (source_position y' z') (two_rays y z)) with (two_rays y' z') in E.
    assert (T0 : tracks (with_source v (Some (two_rays y' z'))) pic ls) by (constructor; apply T).
    assert (Tl0 : only_rays (with_source v (Some (two_rays y' z'))) ls) by exact Tl.
    destruct (plot_spec w _ _ _ _ T0 Tl0 E) as (ls' & T2 & Tl2 & R2 & _).
    assert (Hs : has_settings (with_source v (Some (two_rays y' z'))) (set y' z')).
    { destruct S as (X1 & X2 & X3 & X4 & X5 & X6). repeat split; auto. }
    rewrite (settings_eta _ _ Hs) in R2. pose proof R2 as (d' & Dt' & Ed'). exists pic, d'. split; [|split; auto].
    exact (h_source order w v v' (set y z) _ pic [d] [d'] (Some (two_rays y' z')) (set y' z') H E (moved_settings y z y' z') (ex_intro _ d' (conj Dt' eq_refl))).
Qed.

Theorem two_shown v y z : played order w a v y z -> clear_source y z ->
  exists i j m1 m2 pts cs l1 l2, w_surfaces w a = [i; j] /\ plain_portrait w i m1 /\ plain_portrait w j m2 /\
    Permutation (in_scene v) [m1; m2; Lines pts cs] /\ first_path y z l1 /\ second_path y z l2 /\ draws pts cs (l1 ++ l2).
Proof.
  intros P Cl. destruct (played_history v y z P) as (pic & d & H & Dt & Pp). destruct two_ids as (i & j & Ei & Ee). rewrite Ee in H. rewrite Ei in Pp.
  destruct (first_exists y z (clear_apart _ _ Cl)) as (l1 & P1). destruct (second_exists y z (clear_apart _ _ Cl)) as (l2 & P2).
  destruct (two_traced y z d l1 l2 Cl P1 P2 Dt) as (pts & cs & -> & Dw).
  destruct (history_shows _ _ _ _ _ _ _ Or H) as ((_ & Pm & _) & _).
  exists i, j, (pic i), (pic j), pts, cs, l1, l2. split; auto. split; [apply Pp; left; auto|]. split; [apply Pp; right; left; auto|]. auto.
Qed.
Theorem two_opens y z : clear_source y z -> exists v, open_scene order w a y z = Ok v.
Proof.
  intros Cl. unfold open_scene, new_viewer. rewrite <- Far.
  destruct (set_assembly_spec order Or w a (mkV [] 0 a [] None (Some (two_rays y z)) 1 None far (5 / 100) false) []) as (A & B);
    [constructor|intros x []|constructor|].
  destruct A as (v1 & E1); [apply two_portraits|]. rewrite E1. cbn [bind].
  destruct (B v1 E1) as (pic1 & _ & _ & _ & _ & S1 & S2 & S3 & S4 & S5 & S6 & _).
  eapply two_plot; eauto.
Qed.
Theorem two_moves v y z y' z' : played order w a v y z -> clear_source y' z' -> exists v', bundle_move w y' z' v = Ok v'.
Proof.
  intros P Cl. destruct (played_history v y z P) as (pic & d & H & _). pose proof (history_fits _ _ _ _ _ _ _ Or H) as (_ & _ & _ & _ & _ & _ & (S1 & S2 & S3 & S4 & S5 & S6) & _).
  unfold bundle_move. rewrite S2. cbn [set st_source]. change (set_vertices (source_position y' z') (two_rays y z)) with (two_rays y' z').
  unfold set in S1, S3, S4, S5, S6. cbn [st_asm st_esc st_selector st_iters st_min_energy] in S1, S3, S4, S5, S6.
  exact (two_plot (with_source v (Some (two_rays y' z'))) y' z' S1 eq_refl S3 S4 S5 S6 Cl).
Qed.
End Scene.

Theorem two_mirrors_top limit sc : reached limit sc -> (2 <= limit)%nat ->
  exists sc' a objs surfs, two_mirrors limit sc = (sc', Ok a) /\ engine_view limit a sc' = (sc', Ok (objs, surfs)) /\
  forall order w, some_order order -> shows_assembly w a objs surfs ->
    (forall y z, clear_source y z -> exists v, open_scene order w a y z = Ok v) /\
    (forall v y z y' z', played order w a v y z -> clear_source y' z' -> exists v', bundle_move w y' z' v = Ok v') /\
    forall v y z, played order w a v y z -> clear_source y z ->
    exists i j m1 m2 pts cs l1 l2, w_surfaces w a = [i; j] /\ plain_portrait w i m1 /\ plain_portrait w j m2 /\
      Permutation (in_scene v) [m1; m2; Lines pts cs] /\ first_path y z l1 /\ second_path y z l2 /\ draws pts cs (l1 ++ l2).
Proof.
  intros R L. destruct (two_step limit sc R L) as (sc' & a & ls & E & R' & A & Nd & W). destruct two_seen as (So & Ss).
  exists sc', a, two_objs, two_surfs. split; auto. split.
  { rewrite <- So, <- Ss. apply (well_placed_view sc' a two_desc ls); auto. discriminate. }
  intros order w Or Sh. set (far := Z.to_nat 200000000). assert (Far : far = Z.to_nat 200000000) by reflexivity.
  assert (Big : (2 < far)%nat) by (unfold far; lia). clearbody far. split; [intros; eapply two_opens; eauto|].
  split; [intros; eapply two_moves; eauto|]. intros. eapply two_shown; eauto.
Qed.

(** Cases. *)
Lemma two_world_example limit sc g : reached limit sc -> (2 <= limit)%nat ->
  exists sc' a objs surfs w, two_mirrors limit sc = (sc', Ok a) /\ engine_view limit a sc' = (sc', Ok (objs, surfs)) /\ shows_assembly w a objs surfs /\ w_shared w = g.
Proof.
  intros R L. destruct (two_step limit sc R L) as (sc' & a & ls & E & R' & A & Nd & W). destruct two_seen as (So & Ss).
  exists sc', a, two_objs, two_surfs, (View.mkW (fun k => nth k two_surfs (seen_part id4 (mirror_part 10 10 0))) (fun _ => None) (fun _ => None) (fun _ => None) (fun _ => [0; 1]%nat) (fun _ => two_objs) g).
  split; auto. split.
  { rewrite <- So, <- Ss. apply (well_placed_view sc' a two_desc ls); auto. discriminate. }
  split; auto. split; auto. split; [repeat constructor; simpl; intuition discriminate|reflexivity].
Qed.
Lemma two_default : clear_source 2 1 /\ first_path 2 1 [(at_yz 2 1, at_yz (3 / 2) (3 / 2)); (at_yz (3 / 2) (3 / 2), at_yz 3 0); (at_yz 3 0, at_yz (3 + 1 / sqrt 2) (1 / sqrt 2))] /\
  second_path 2 1 [(at_yz 2 1, at_yz 2 0); (at_yz 2 0, at_yz 2 2); (at_yz 2 2, at_yz 3 2)].
Proof.
  destruct s2_facts as (A & B & C & D). assert (E : sqrt 2 < 2) by lra. pose proof small6 as S.
  split; [split; [lra|]; split; [unfold tenm in *; simpl in *; lra|]; rewrite Rabs_right by lra; unfold tenm in *; simpl in *; nra|]. split.
  - replace 3 with (2 + 1) by lra. apply first_twice; lra.
  - replace 3 with (2 + 1) by lra. apply second_twice; [lra|]. assert (sqrt 2 <= 5 / 2) by lra. lra.
Qed.
Lemma two_above : clear_source 1 3 /\ first_path 1 3 [(at_yz 1 3, at_yz (1 - 1 / sqrt 2) (3 + 1 / sqrt 2))] /\ second_path 1 3 [(at_yz 1 3, at_yz 1 1)].
Proof.
  destruct s2_facts as (A & B & C & D). assert (E : sqrt 2 < 2) by lra. pose proof small6 as S.
  split; [split; [lra|]; split; [unfold tenm in *; simpl in *; lra|]; rewrite Rabs_left by lra; unfold tenm in *; simpl in *; nra|]. split.
  - apply first_behind; lra.
  - apply second_stopped; lra.
Qed.
Lemma two_far : clear_source 5 (3 / 2) /\ first_path 5 (3 / 2) [(at_yz 5 (3 / 2), at_yz (13 / 4) (13 / 4)); (at_yz (13 / 4) (13 / 4), at_yz (13 / 4 + 1 / sqrt 2) (13 / 4 - 1 / sqrt 2))] /\
  second_path 5 (3 / 2) [(at_yz 5 (3 / 2), at_yz 5 0); (at_yz 5 0, at_yz 5 1)].
Proof.
  destruct s2_facts as (A & B & C & D). assert (E : 7 / 5 < sqrt 2 < 2) by nra. pose proof small6 as S.
  split; [split; [lra|]; split; [unfold tenm in *; simpl in *; lra|]; rewrite Rabs_right by lra; unfold tenm in *; simpl in *; nra|]. split.
  - replace (13 / 4) with ((5 + 3 / 2) / 2) by lra. apply first_once; lra.
  - apply second_outside; lra.
Qed.
Lemma two_paths y z : clear_source y z -> (exists! l, first_path y z l) /\ exists! l, second_path y z l.
Proof.
  intros Cl. pose proof (clear_apart y z Cl) as N. assert (S : 1 < sqrt 2) by (destruct s2_facts as (_ & _ & -> & ?); lra). split.
  - destruct (first_exists y z N) as (l & P). exists l. split; auto. intros l' P'.
    destruct P, P'; try reflexivity; exfalso; lra.
  - destruct (second_exists y z N) as (l & P). exists l. split; auto. intros l' P'.
    destruct P, P'; try reflexivity; exfalso; lra.
Qed.
