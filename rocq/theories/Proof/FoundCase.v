(** Light to and fro between two mirrors. *)
From Coq Require Import Reals List Arith Bool Lra Lia.
From Verif.Base Require Import Py Num Vec.
From Verif.Model Require Import RayBundle Boundary Geometry TraceTree Sources OpticsCallables Engine Objects Surface.
From Verif.Proof Require Import ListLemmas NumLemmas VecLemmas GeomProof GeomTop GeomCases EngineTop TraceTop AnswerProof OrderProof OrderCase SightProof SightCase FoundProof.
From Verif.Spec Require Import BundleSpec EngineSpec GeometrySpec GeomIface OpticsSpec LibrarySpec LawSpec BackSpec OrderSpec SightSpec FoundSpec.
Import ListNotations.
Local Open Scope R_scope.

Definition upward (b : bool) : vec := V3 0 0 (if b then 1 else -1).
Definition level_of (b : bool) : R := if b then 1 else 0.
(** Light meets the upper mirror on its way up, the lower one on its way down. *)
Definition bounce (b : bool) : meeting :=
  mkMeeting (mirror (level_of b)) false (V3 0 0 (level_of b)) (upward (negb b)) (upward b) (upward (negb b)) None None.
Fixpoint bounces (n : nat) (b : bool) : list meeting :=
  match n with O => [] | S n => bounce b :: bounces n (negb b) end.

Lemma bounce_lawful b e : lawful_meeting (bounce b) e (e * (1 - 1/2)).
Proof.
  split. { unfold is_unit, bounce, upward. cbn. destruct b; vunfold; lra. }
  split.
  - exists (V3 0 0 0), (V3 0 0 1). split; [|split].
    + unfold bounce, mirror, new_surface, app4, mk4, id3. cbn. f_equal; ring.
    + cbn. repeat split; cbn; [apply derivable_pt_lim_const|apply derivable_pt_lim_const|apply derivable_pt_lim_id].
    + split; [|split].
      * unfold bounce, upward. destruct b; cbn; vunfold; lra.
      * exists (if b then -1 else 1). unfold bounce, upward, mirror, new_surface, rot_of, mk4, id3. destruct b; cbn; vunfold; veq; ring.
      * unfold bounce, upward. destruct b; cbn; vunfold; lra.
  - cbn [bounce mt_surf mt_through mt_normal mt_in mt_out mt_before mt_after mirror new_surface s_opt follows].
    split; [reflexivity|]. split; [|split; reflexivity].
    unfold mirrored, tangential, upward. destruct b; cbn [negb]; split; vunfold; veq; ring.
Qed.

Lemma upright_in_the_way h v b : in_the_way (mirror h) v (upward b) (placed (mk4 id3 (V3 0 0 h)) xy_plane).
Proof.
  exists xy_plane, (fun _ d => inclined (mk4 id3 (V3 0 0 h)) d). split; [apply as_plane|]. split; [|reflexivity].
  unfold inclined, z_of, rot_of, mk4, id3, tenm, upward. destruct b; vunfold.
  - match goal with |- _ < Rabs ?x => replace x with 1 by ring end. rewrite Rabs_right by lra. lra.
  - match goal with |- _ < Rabs ?x => replace x with (-1) by ring end. rewrite Rabs_left by lra. lra.
Qed.

(** From a height [z] between the mirrors, or on the one it comes from. *)
Definition starts (z : R) (b : bool) : Prop := if b then 0 <= z <= 1/2 else 1/2 <= z <= 1.
Definition end_height (n : nat) (b : bool) (z : R) : R :=
  match n with O => z | S n => level_of (xorb b (Nat.odd n)) end.

Lemma to_and_fro me : forall n b z e, starts z b -> (n <> O -> me < e * (1/2) ^ (n - 1)) ->
  0 < e -> seen_way (pair_of 0 1) me (V3 0 0 z) (upward b) e None (bounces n b)
    (V3 0 0 (end_height n b z)) (upward (xorb b (Nat.odd n))) (e * (1/2) ^ n) None.
Proof.
  induction n as [|n IH]; intros b z e Sz Hm He.
  - cbn [bounces end_height pow]. change (Nat.odd 0) with false. rewrite xorb_false_r, Rmult_1_r. constructor.
  - cbn [bounces].
    assert (Od : xorb b (Nat.odd (S n)) = xorb (negb b) (Nat.odd n)).
    { rewrite Nat.odd_succ, <- Nat.negb_odd. destruct b, (Nat.odd n); reflexivity. }
    assert (T : tenm 6 < (if b then 1 - z else z)) by (unfold tenm; destruct b; cbn in Sz; lra).
    apply (seen_next (pair_of 0 1) me (V3 0 0 z) (upward b) e None (if b then 1 - z else z) (bounce b) (e * (1 - 1/2))).
    + destruct b; cbn; auto.
    + intros s Hs. assert (Ex : exists h, s = mirror h /\ (h = 0 \/ h = 1)).
      { destruct Hs as [<-|[<-|[]]]; eauto. }
      destruct Ex as (h & -> & Hh). eexists. split; [apply upright_in_the_way|].
      intros u Hu K. apply level_only in K. unfold ray_at, upward in K. revert K. destruct b; cbn in Sz; vunfold; intros K; destruct Hh; subst; lra.
    + split; [exact T|]. eexists. split; [apply (upright_in_the_way (level_of b))|].
      replace (ray_at (V3 0 0 z) (upward b) (if b then 1 - z else z)) with (V3 0 0 (level_of b)). { apply level_point. }
      unfold ray_at, upward, level_of. destruct b; vunfold; f_equal; ring.
    + cbn [bounce mt_point]. unfold ray_at, upward, level_of. destruct b; vunfold; f_equal; ring.
    + reflexivity.
    + reflexivity.
    + apply bounce_lawful.
    + exact I.
    + cbn [bounce mt_normal]. unfold upward. destruct b; cbn [negb]; vunfold; lra.
    + intros Np. destruct n as [|n]; [destruct (Np eq_refl)|].
      pose proof (Hm ltac:(discriminate)) as H. replace (S (S n) - 1)%nat with (S n) in H by lia. cbn [pow] in H.
      assert (0 < (1/2) ^ n <= 1).
      { split; [apply pow_lt; lra|]. clear. induction n as [|n IHn]; cbn [pow]; [lra|]. assert (0 < (1/2) ^ n) by (apply pow_lt; lra). lra. }
      assert (e * (1/2 * (1/2) ^ n) <= e * (1 - 1/2)) by (apply Rmult_le_compat_l; lra). lra.
    + cbn [bounce mt_point mt_out mt_after]. rewrite Od. cbn [pow].
      replace (e * (1/2 * (1/2) ^ n)) with (e * (1 - 1/2) * (1/2) ^ n) by field.
      replace (end_height (S n) b z) with (end_height n (negb b) (level_of b)).
      * apply IH; [destruct b; cbn; lra| |lra].
        intros Nn. pose proof (Hm ltac:(discriminate)) as H. destruct n as [|n]; [destruct (Nn eq_refl)|].
        replace (S (S n) - 1)%nat with (S n) in H by lia. replace (S n - 1)%nat with n by lia. cbn [pow] in H.
        replace (e * (1 - 1/2) * (1/2) ^ n) with (e * (1/2 * (1/2) ^ n)) by field. exact H.
      * cbn [end_height]. destruct n as [|n]; cbn [end_height]. { change (Nat.odd 0) with false. rewrite xorb_false_r. reflexivity. }
        rewrite Nat.odd_succ, <- Nat.negb_odd. destruct b, (Nat.odd n); reflexivity.
Qed.

Lemma bounces_length n : forall b, length (bounces n b) = n.
Proof. induction n as [|n IH]; intros b; cbn; auto. Qed.

(** A ray between two mirrors that keep half of its energy goes to and fro as often as the
    trace lets it. *)
Lemma between_mirrors : forall g, fair (g_rng g) -> forall me reps n, (1 <= reps)%nat -> (n <= reps)%nat -> (n <> O -> me < (1/2) ^ (n - 1)) ->
  let objs := [default_object 2] in let surfs := pair_of 0 1 in let b := drops [1/2; 3] in
  library_assembly objs surfs /\ library_source b 2 /\
  exists vs ds st, ray_tracer surface_ops objs surfs g b reps me TreeTrue = Ok (vs, ds, st) /\
  exists lvl k, nth_error (t_tree st) n = Some lvl /\ descends (t_tree st) n k 0 /\
    vert_at lvl k = Some (V3 0 0 (end_height n false (1/2))) /\
    dir_at lvl k = Some (V3 0 0 (if Nat.odd n then 1 else -1)) /\ energy_at lvl k = Some ((1/2) ^ n).
Proof.
  intros g Fg me reps n Hr Hn Hm objs surfs b.
  assert (La : library_assembly objs surfs) by (apply (pair_library joined 0 1); auto).
  assert (Ls : library_source b 2) by (apply (drops_source [1/2; 3])).
  split; auto. split; auto.
  destruct (tracing_answers _ _ (pair_answers joined 0 1 (or_introl eq_refl)) g b 2 reps me TreeTrue Ls) as (vs & ds & st & E); auto using pair_media.
  exists vs, ds, st. split; [exact E|].
  assert (Df : forall ob, In ob objs -> exists k, ob = default_object k) by (intros ob [<-|[]]; eauto).
  pose proof (to_and_fro me n false (1/2) 1 ltac:(cbn; lra) ltac:(intros Nn; rewrite Rmult_1_l; auto) ltac:(lra)) as Sw.
  rewrite Rmult_1_l in Sw. cbn [xorb] in Sw.
  destruct (found_top objs surfs La Df me g b 2 Ls Fg reps vs ds st E 0%nat (V3 0 0 (1/2)) (upward false) 1 eq_refl eq_refl eq_refl (bounces n false) _ _ _ _ Sw) as (lvl & k & A1 & A2 & A3 & A4 & A5 & _).
  { rewrite bounces_length. exact Hn. }
  rewrite bounces_length in A1, A2. exists lvl, k. split; [exact A1|]. split; [exact A2|]. split; [exact A3|]. split; [rewrite A4; destruct (Nat.odd n); reflexivity|exact A5].
Qed.
