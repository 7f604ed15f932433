(** A tube of diameter 10 and height 20 that keeps half of the light: a ray meets the wall
    twice on its way out. *)
From Coq Require Import Reals List Arith Bool Lra Lia.
From Verif.Base Require Import Py Num Vec.
From Verif.Model Require Import RayBundle Boundary Geometry TraceTree Sources OpticsCallables Engine Objects Surface.
From Verif.Proof Require Import ListLemmas NumLemmas VecLemmas GeomCases ObjectProof ProcessProof EngineTop TraceTop LibraryTop AnswerProof SymmetryProof TubeProof TubeTop.
From Verif.Spec Require Import BundleSpec EngineSpec GeometrySpec GeomIface OpticsSpec LibrarySpec ModelSpec LawSpec TubeSpec.
Import ListNotations.
Local Open Scope R_scope.

Definition bright_tube : surface := new_surface (new_finite_cylinder 10 20) (Absorbing (Reflective (1/2))) (mk4 id3 (V3 1 2 3)).
Definition slanting : bundle := mkB (Some [V3 4 2 3]) (Some [V3 0 (4/5) (3/5)]) (Some [1]) None None [].

Lemma tube_made : mirror_tube 10 (Some 20) (1/2) bright_tube.
Proof. split; [reflexivity|]. split; [lra|]. left. reflexivity. Qed.
Lemma tube_library : answering_assembly [default_object 1] [bright_tube].
Proof.
  split; [split; [|split; [|reflexivity]]|split; [discriminate|split]].
  - intros ob [<-|[]]. apply default_object_ok.
  - intros s [<-|[]]. split; [|split; [cbn; lra|split; reflexivity]]. exists id3, (V3 1 2 3). split; [reflexivity|apply id_ok].
  - intros ob [<-|[]]. apply default_object_ok.
  - intros s [<-|[]]. split; cbn; auto; lra.
Qed.
Lemma slanting_source : library_source slanting 1.
Proof.
  split.
  - split; [|split; [|split; discriminate]]. { constructor. }
    split; [eexists; reflexivity|]. intros p l H. destruct p; cbn in H; try discriminate; injection H as <-; reflexivity.
  - intros [|[|k]] d e D E; try discriminate. unfold dir_at, energy_at, at_col in D, E. cbn in D, E.
    assert (d = V3 0 (4/5) (3/5)) by congruence. assert (e = 1) by congruence. subst. split; [|split; [lra|discriminate]]. unfold is_unit. vunfold. lra.
Qed.

Lemma width : half_width (10/2) (V3 3 0 0) (V3 0 (4/5) (3/5)) = 16/5.
Proof. unfold half_width. match goal with |- sqrt ?x = _ => replace x with ((16/5) * (16/5)) end. { apply sqrt_square. lra. } unfold dot_across, cross_across. vunfold. field. Qed.
Lemma lengths : first_length (10/2) (V3 3 0 0) (V3 0 (4/5) (3/5)) = 5 /\ next_length (10/2) (V3 3 0 0) (V3 0 (4/5) (3/5)) = 10.
Proof. unfold first_length, next_length. rewrite width. unfold dot_across. vunfold. split; field. Qed.
Lemma slanting_in : in_tube (10/2) (V3 3 0 0) (V3 0 (4/5) (3/5)).
Proof. split; [unfold dot_across; vunfold; lra|]. split; [unfold dot_across, tenm; vunfold; lra|]. rewrite (proj1 lengths). unfold tenm. lra. Qed.

Lemma through_the_tube : forall g, fair (g_rng g) -> forall reps me, (3 <= reps)%nat -> me < 1/4 ->
  let objs := [default_object 1] in
  library_assembly objs [bright_tube] /\ mirror_tube 10 (Some 20) (1/2) bright_tube /\ library_source slanting 1 /\
  vert_at slanting 0 = Some (app4 (s_frame bright_tube) (V3 3 0 0)) /\ dir_at slanting 0 = Some (turned (s_frame bright_tube) (V3 0 (4/5) (3/5))) /\
  in_tube (10/2) (V3 3 0 0) (V3 0 (4/5) (3/5)) /\
  exists vs ds st lvl1 lvl2 k1 k2, ray_tracer surface_ops objs [bright_tube] g slanting reps me TreeTrue = Ok (vs, ds, st) /\
    nth_error (t_tree st) 1 = Some lvl1 /\ vert_at lvl1 k1 = Some (V3 4 6 6) /\
    nth_error (t_tree st) 2 = Some lvl2 /\ vert_at lvl2 k2 = Some (V3 (- (92/25)) (94/25) 12) /\ energy_at lvl2 k2 = Some (1/4) /\
    length (t_tree st) = 3%nat.
Proof.
  intros g Fg reps me Hr Hm objs. pose proof tube_library as An. pose proof slanting_source as Ls. pose proof (proj1 An) as La.
  split; [exact La|]. split; [exact tube_made|]. split; [exact Ls|].
  assert (Hv : vert_at slanting 0 = Some (app4 (s_frame bright_tube) (V3 3 0 0))).
  { unfold vert_at, at_col. cbn. f_equal. f_equal; ring. }
  assert (Hd : dir_at slanting 0 = Some (turned (s_frame bright_tube) (V3 0 (4/5) (3/5)))).
  { unfold dir_at, at_col, turned. cbn. f_equal. f_equal; ring. }
  split; [exact Hv|]. split; [exact Hd|]. split; [exact slanting_in|].
  destruct (tracing_answers _ _ An g slanting 1 reps me TreeTrue Ls) as (vs & ds & st & Tr). { intros (s & [<-|[]] & H). destruct H. } { left. lia. }
  assert (Df : forall ob, In ob objs -> exists k, ob = default_object k) by (intros ob [<-|[]]; eauto).
  destruct (tube_path objs bright_tube 10 (Some 20) (1/2) me g slanting 1 reps vs ds st La Df tube_made Ls Fg Tr 0%nat (V3 3 0 0) (V3 0 (4/5) (3/5)) 1 Hv Hd eq_refl slanting_in) as (P & E & W & Fnd & Lv).
  assert (P5 : 0 < 10/2) by lra.
  assert (P1 : P 1%nat = V3 3 4 3).
  { rewrite (wd_first _ _ _ _ _ W), (proj1 lengths). unfold ray_at. vunfold. f_equal; field. }
  assert (P2 : P 2%nat = V3 (- (117/25)) (44/25) 9).
  { rewrite (wd_next _ _ _ _ _ W 1%nat (le_n 1)), (wind_direction _ _ _ _ _ P5 W 1%nat (le_n 1)), P1, (proj2 lengths), width.
    unfold ray_at, cross_across. vunfold. f_equal; field. }
  assert (Z3 : vz (P 3%nat) = 15).
  { rewrite (wind_height _ _ _ _ _ W 2), (proj1 lengths), (proj2 lengths). cbn. field. }
  assert (In2 : forall i, (1 <= i <= 2)%nat -> walled (Some 20) (vz (P i))).
  { intros [|[|[|i]]] Hi; try lia; cbn [walled]; rewrite ?P1, ?P2; cbn [vz]; lra. }
  destruct (Fnd 1%nat) as (lvl1 & k1 & A1 & _ & _ & A2 & _); [lia|lia|intros i Hi; apply In2; lia|].
  destruct (Fnd 2%nat) as (lvl2 & k2 & B1 & _ & _ & B2 & _ & B3 & _); [lia|intros _; cbn; lra|exact In2|].
  assert (No : forall k, ~ descends (t_tree st) 3 k 0).
  { apply Lv; [lia|intros _; cbn; lra|exact In2|]. cbn [walled]. rewrite Z3. lra. }
  exists vs, ds, st, lvl1, lvl2, k1, k2. split; [exact Tr|]. split; [exact A1|]. split; [rewrite A2, P1; cbn; f_equal; f_equal; ring|].
  split; [exact B1|]. split; [rewrite B2, P2; cbn; f_equal; f_equal; field|]. split; [rewrite B3; f_equal; cbn; field|].
  assert (2 < length (t_tree st))%nat by (apply nth_error_Some; congruence).
  destruct (Nat.eq_dec (length (t_tree st)) 3) as [|Ne]; auto. exfalso.
  destruct (nth_lt (t_tree st) 3) as (lvl & Hl); [lia|].
  destruct (bounded_trace objs [bright_tube] La me g slanting 1 Ls reps vs ds st Tr) as (_ & _ & B & _). destruct (B 3%nat lvl ltac:(lia) Hl) as (m & Tm & Pm).
  destruct (traceable_vert lvl m 0 Tm Pm) as (v & Hv3). destruct (traceable_dir lvl m 0 Tm Pm) as (d & Hd3).
  destruct (conserved_top objs [bright_tube] La me g slanting 1 Ls Fg reps vs ds st Tr 3 lvl 0 v d Hl Hv3 Hd3) as ((j & Dj) & K).
  destruct (K j Dj) as (v0 & d0 & Hv0 & _). pose proof (traceable_vert_lt slanting 1 j v0 (proj1 Ls) Hv0). assert (j = O) by lia. subst j. apply (No O Dj).
Qed.
