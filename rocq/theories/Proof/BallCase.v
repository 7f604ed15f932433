(** A ball of radius 5 that keeps half of the light, and a ray that passes its centre at the
    distance 3. *)
From Coq Require Import Reals List Arith Bool Lra Lia.
From Verif.Base Require Import Py Num Vec.
From Verif.Model Require Import RayBundle Boundary Geometry TraceTree Sources OpticsCallables Engine Objects Surface.
From Verif.Proof Require Import ListLemmas NumLemmas VecLemmas GeomCases ObjectProof EngineTop TraceTop AnswerProof SymmetryProof BallProof BallTop.
From Verif.Spec Require Import BundleSpec EngineSpec GeometrySpec GeomIface OpticsSpec LibrarySpec AccountSpec LawSpec BallSpec.
Import ListNotations.
Local Open Scope R_scope.

Definition bright_ball : surface := new_surface (Sphere 5) (Accountant 0 (Reflective (1/2))) (mk4 id3 (V3 1 2 3)).
Definition beam_in : bundle := mkB (Some [V3 4 2 3]) (Some [V3 0 0 1]) (Some [1]) None None [].

Lemma ball_made : mirror_ball 5 (1/2) bright_ball.
Proof. split; [reflexivity|]. split; [lra|]. right. exists 0%nat. reflexivity. Qed.
Lemma ball_centre : centre bright_ball = V3 1 2 3.
Proof. unfold centre, bright_ball, new_surface. cbn. f_equal; ring. Qed.
Lemma ball_library : answering_assembly [default_object 1] [bright_ball].
Proof.
  split; [split; [|split; [|reflexivity]]|split; [discriminate|split]].
  - intros ob [<-|[]]. apply default_object_ok.
  - intros s [<-|[]]. split; [|split; [cbn; lra|split; reflexivity]]. exists id3, (V3 1 2 3). split; [reflexivity|apply id_ok].
  - intros ob [<-|[]]. apply default_object_ok.
  - intros s [<-|[]]. split; cbn; auto; lra.
Qed.
Lemma beam_source : library_source beam_in 1.
Proof.
  split.
  - split; [|split; [|split; discriminate]]. { constructor. }
    split; [eexists; reflexivity|]. intros p l H. destruct p; cbn in H; try discriminate; injection H as <-; reflexivity.
  - intros [|[|k]] d e D E; try discriminate. unfold dir_at, energy_at, at_col in D, E. cbn in D, E.
    assert (d = V3 0 0 1) by congruence. assert (e = 1) by congruence. subst. split; [|split; [lra|discriminate]]. unfold is_unit. vunfold. lra.
Qed.

Lemma four : half_chord (V3 1 2 3) 5 (V3 4 2 3) (V3 0 0 1) = 4.
Proof. unfold half_chord. match goal with |- sqrt ?x = _ => replace x with (4 * 4) end. { apply sqrt_square. lra. } vunfold. ring. Qed.
Lemma beam_in_ball : in_ball (V3 1 2 3) 5 (V3 4 2 3) (V3 0 0 1).
Proof. split; [vunfold; lra|]. unfold to_wall. rewrite four. unfold tenm. vunfold. lra. Qed.

Lemma round_the_ball : forall g, fair (g_rng g) -> g_acc g 0%nat = mkAcc [] [] -> forall reps me, (2 <= reps)%nat -> me < (1/2) ^ (reps - 1) ->
  let objs := [default_object 1] in
  library_assembly objs [bright_ball] /\ mirror_ball 5 (1/2) bright_ball /\ library_source beam_in 1 /\
  (forall j v d, vert_at beam_in j = Some v -> dir_at beam_in j = Some d -> in_ball (centre bright_ball) 5 v d) /\
  exists vs ds st lvl1 lvl2 k1 k2 es hs, ray_tracer surface_ops objs [bright_ball] g beam_in reps me TreeTrue = Ok (vs, ds, st) /\
    nth_error (t_tree st) 1 = Some lvl1 /\ descends (t_tree st) 1 k1 0 /\ vert_at lvl1 k1 = Some (V3 4 2 7) /\
    nth_error (t_tree st) 2 = Some lvl2 /\ descends (t_tree st) 2 k2 0 /\ vert_at lvl2 k2 = Some (V3 (- (92/25)) 2 (119/25)) /\
    get_all_hits (g_acc (t_g st) 0%nat) = Ok (es, hs) /\ sum_R es = 1 - (1/2) ^ reps.
Proof.
  intros g Fg Ea reps me Hr Hm objs. pose proof ball_library as An. pose proof beam_source as Ls. pose proof (proj1 An) as La.
  split; [exact La|]. split; [exact ball_made|]. split; [exact Ls|].
  assert (All : forall j v d, vert_at beam_in j = Some v -> dir_at beam_in j = Some d -> in_ball (centre bright_ball) 5 v d).
  { intros [|[|j]] v d Hv Hd; try discriminate. unfold vert_at, dir_at, at_col in Hv, Hd. cbn in Hv, Hd.
    assert (v = V3 4 2 3) by congruence. assert (d = V3 0 0 1) by congruence. subst. rewrite ball_centre. apply beam_in_ball. }
  split; [exact All|].
  destruct (tracing_answers _ _ An g beam_in 1 reps me TreeTrue Ls) as (vs & ds & st & Tr). { intros (s & [<-|[]] & H). destruct H. } { left. lia. }
  assert (Df : forall ob, In ob objs -> exists k, ob = default_object k) by (intros ob [<-|[]]; eauto).
  assert (St : (2 <= reps)%nat -> forall j e, energy_at beam_in j = Some e -> me < e * (1 - 1/2) ^ (reps - 1)).
  { intros _ [|[|j]] e He; try discriminate. unfold energy_at, at_col in He. cbn in He. assert (e = 1) by congruence. subst.
    replace (1 - 1/2) with (1/2) by lra. lra. }
  destruct (ball_path objs bright_ball 5 (1/2) me g beam_in 1 reps vs ds st La Df ball_made Ls Fg Tr 0%nat (V3 4 2 3) (V3 0 0 1) 1 eq_refl eq_refl eq_refl) as (P & D & Ch & K).
  { rewrite ball_centre. apply beam_in_ball. }
  destruct (ball_receiver objs bright_ball 5 (1/2) me g beam_in 1 reps vs ds st La Df ball_made Ls Fg Tr ltac:(lia) All St 0%nat eq_refl Ea) as (es & hs & G1 & G2).
  assert (Lo : forall q, (q <= reps - 1)%nat -> me < 1 * (1 - 1/2) ^ q).
  { intros q Hq. replace (1 - 1/2) with (1/2) by lra. apply Rlt_le_trans with ((1/2) ^ (reps - 1)); [exact Hm|].
    replace (reps - 1)%nat with (q + (reps - 1 - q))%nat by lia. rewrite pow_add. assert (0 < (1/2) ^ q) by (apply pow_lt; lra).
    assert ((1/2) ^ (reps - 1 - q) <= 1).
    { clear. induction (reps - 1 - q)%nat as [|k IH]; cbn [pow]; [lra|]. assert (0 < (1/2) ^ k) by (apply pow_lt; lra). lra. }
    nra. }
  destruct (K 1%nat ltac:(lia) ltac:(intros; lia)) as (lvl1 & k1 & A1 & A2 & _ & A3 & _).
  destruct (K 2%nat ltac:(lia) ltac:(intros; apply Lo; lia)) as (lvl2 & k2 & B1 & B2 & _ & B3 & _).
  assert (P1 : P 1%nat = V3 4 2 7).
  { rewrite (ch_first _ _ _ _ _ _ Ch), ball_centre. unfold to_wall. rewrite four. unfold ray_at. vunfold. f_equal; ring. }
  assert (P2 : P 2%nat = V3 (- (92/25)) 2 (119/25)).
  { assert (P5 : 0 < 5) by lra. rewrite (ch_next _ _ _ _ _ _ Ch 1%nat (le_n 1)), (chord_direction _ _ _ _ _ _ P5 Ch 1%nat (le_n 1)), P1, ball_centre, four.
    unfold ray_at. vunfold. f_equal; field. }
  exists vs, ds, st, lvl1, lvl2, k1, k2, es, hs. rewrite P1 in A3. rewrite P2 in B3.
  split; [exact Tr|]. split; [exact A1|]. split; [exact A2|]. split; [exact A3|]. split; [exact B1|]. split; [exact B2|]. split; [exact B3|].
  split; [exact G1|]. assert (T1 : total_energy beam_in = 1) by (cbn; ring). rewrite G2, T1. replace (1 - 1/2) with (1/2) by lra. ring.
Qed.
