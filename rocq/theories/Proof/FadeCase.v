(** Between two mirrors that take half of the light. *)
From Coq Require Import Reals List Arith Bool Lra Lia.
From Verif.Base Require Import Py Num Vec.
From Verif.Model Require Import RayBundle Boundary Geometry TraceTree Sources OpticsCallables Engine Objects Surface.
From Verif.Proof Require Import ListLemmas EngineTop TraceTop AnswerProof OrderCase FoundCase FadeProof.
From Verif.Spec Require Import BundleSpec EngineSpec GeometrySpec GeomIface OpticsSpec LibrarySpec LawSpec FadeSpec.
Import ListNotations.
Local Open Scope R_scope.

Lemma halves_taken s : In s (pair_of 0 1) -> takes (1/2) s.
Proof. intros [<-|[<-|[]]]; cbn; lra. Qed.
Lemma drops_dimmer hs : dimmer 1 (drops hs).
Proof. intros j x H. unfold energy_at, at_col, drops in H. cbn in H. rewrite nth_error_map in H. destruct (nth_error hs j); [|discriminate]. cbn in H. assert (x = 1) by congruence. lra. Qed.

Lemma just_enough : forall g, fair (g_rng g) -> forall r me reps, (1 <= r)%nat -> (r <= reps)%nat -> (1/2) ^ r <= me < (1/2) ^ (r - 1) ->
  let objs := [default_object 2] in let surfs := pair_of 0 1 in let b := drops [1/2; 3] in
  library_assembly objs surfs /\ (forall s, In s surfs -> takes (1/2) s) /\ library_source b 2 /\ dimmer 1 b /\ (1 - 1/2) ^ r * 1 <= me /\
  exists vs ds st, ray_tracer surface_ops objs surfs g b reps me TreeTrue = Ok (vs, ds, st) /\ length (t_tree st) = (r + 1)%nat.
Proof.
  intros g Fg r me reps Hr Lr Hm objs surfs b.
  destruct (between_mirrors g Fg me reps r ltac:(lia) Lr (fun _ => proj2 Hm)) as (La & Ls & vs & ds & st & E & lvl & k & Hl & _).
  split; auto. split; [exact halves_taken|]. split; auto. split; [apply drops_dimmer|].
  assert (Q : (1 - 1/2) ^ r * 1 <= me) by (replace (1 - 1/2) with (1/2) by lra; lra). split; auto.
  exists vs, ds, st. split; [exact E|].
  destruct (enough objs surfs La (1/2) ltac:(lra) halves_taken me g b 2 Ls Fg 1 ltac:(lra) (drops_dimmer _) r Hr Q reps vs ds st Lr E) as (_ & Len & _).
  assert (r < length (t_tree st))%nat by (apply nth_error_Some; congruence). lia.
Qed.

Lemma never_ends : forall g, fair (g_rng g) -> forall reps, (1 <= reps)%nat ->
  let objs := [default_object 2] in let surfs := pair_of 0 1 in let b := drops [1/2; 3] in
  exists vs ds st, ray_tracer surface_ops objs surfs g b reps 0 TreeTrue = Ok (vs, ds, st) /\ vs <> [].
Proof.
  intros g Fg reps Hr objs surfs b.
  destruct (between_mirrors g Fg 0 reps reps Hr (Nat.le_refl _)) as (La & Ls & vs & ds & st & E & lvl & k & Hl & _ & _ & _ & He).
  { intros _. apply pow_lt. lra. }
  exists vs, ds, st. split; [exact E|]. intros ->.
  destruct (bounded_trace objs surfs La 0 g b 2 Ls reps [] ds st E) as (_ & _ & _ & B4 & _ & _ & _ & B8 & _).
  destruct (B8 lvl Hl) as (m & Pk & Tr).
  assert (Km : (k < m)%nat). { apply Tr. eexists. split; [exact He|]. right. apply pow_lt. lra. }
  specialize (Pk Vertices). cbn [prop] in Pk. rewrite B4 in Pk. destruct (b_vert lvl) as [l|]; [|discriminate]. cbn [option_map] in Pk.
  destruct Pk as (l' & El & P). apply Forall2_length in P. rewrite seq_length in P. assert (l' = []) by (cbn in El; congruence). subst l'. cbn in P. lia.
Qed.

Lemma ten_enough : forall g, fair (g_rng g) ->
  let objs := [default_object 2] in let surfs := pair_of 0 1 in let b := drops [1/2; 3] in
  library_assembly objs surfs /\ (forall s, In s surfs -> takes (1/2) s) /\ library_source b 2 /\ dimmer 1 b /\ (1 - 1/2) ^ 10 * 1 <= 1/1000 /\
  exists vs ds st, ray_tracer surface_ops objs surfs g b 200 (1/1000) TreeTrue = Ok (vs, ds, st) /\ length (t_tree st) = 11%nat.
Proof. intros g Fg. apply (just_enough g Fg 10 (1/1000) 200); [lia|lia|]. cbn [Nat.sub pow]. lra. Qed.
