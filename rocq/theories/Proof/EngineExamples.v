(** The engine's remaining facts in the form stated, and small surfaces for examples. *)
From Coq Require Import Reals List Arith ZArith Bool Permutation Lia Lra.
From Verif.Base Require Import Py Num Vec.
From Verif.Model Require Import RayBundle TraceTree Geometry OpticsCallables Engine Objects Surface.
From Verif.Spec Require Import BundleSpec EngineSpec GeometrySpec OpticsSpec LibrarySpec.
From Verif.Proof Require Import ListLemmas NumLemmas BundleProof IntersectProof ProcessProof EngineMore TreeArgProof LibraryTop AnswerProof ObjectProof
  EngineTop TraceTop.
Import ListNotations.

Lemma first_surface (S G : Type) (ops : surf_ops S G) b n surfs sown own rel ss fr owned :
  rays b n -> names_ok b ->
  intersect_ray ops b surfs sown own rel = Ok (ss, fr, owned) ->
  exists T : reports,
    (forall i j, i < length surfs -> j < n -> (T i j <> None <-> may_test sown own rel i j)) /\
    (forall i j, at2 owned i j = Some true <-> i < length surfs /\ j < n /\ T i j <> None) /\
    (forall i s, nth_error surfs i = Some s -> exists s', nth_error ss i = Some s' /\ answers ops b n T i s s') /\
    (forall i j, at2 fr i j = Some true <-> exists t, meets_first T (length surfs) n i j t).
Proof.
  intros Hr Hn E. destruct (intersect_ray_facts _ _ _ _ _ _ _ _ _ _ Hr Hn E) as (T & F). exists T.
  split; [exact (if_tested _ _ _ _ _ _ _ _ _ _ _ F)|]. split; [exact (if_owned _ _ _ _ _ _ _ _ _ _ _ F)|].
  split; [exact (if_answers _ _ _ _ _ _ _ _ _ _ _ F)|exact (if_first _ _ _ _ _ _ _ _ _ _ _ F)].
Qed.

Lemma marked_twice (S G : Type) (ops : surf_ops S G) b n surfs sown own rel ss fr owned :
  rays b n -> names_ok b ->
  intersect_ray ops b surfs sown own rel = Ok (ss, fr, owned) ->
  forall i i' j, at2 fr i j = Some true -> at2 fr i' j = Some true ->
    exists T t, (forall i s, nth_error surfs i = Some s -> exists s', nth_error ss i = Some s' /\ answers ops b n T i s s') /\
      T i j = Some (Fin t) /\ T i' j = Some (Fin t).
Proof.
  intros Hr Hn E i i' j H H'. destruct (intersect_ray_facts _ _ _ _ _ _ _ _ _ _ Hr Hn E) as (T & F).
  rewrite (if_first _ _ _ _ _ _ _ _ _ _ _ F) in H, H'.
  destruct H as (t & A1 & A2 & A3 & A4 & A5). destruct H' as (t' & B1 & B2 & B3 & B4 & B5).
  exists T, t. split; [exact (if_answers _ _ _ _ _ _ _ _ _ _ _ F)|]. split; auto.
  pose proof (A5 i' B1) as H1. rewrite B3 in H1. pose proof (B5 i A1) as H2. rewrite A3 in H2.
  destruct H1 as [H1|H1]; [contradiction|]. destruct H2 as [H2|H2]; [contradiction|]. rewrite B3. f_equal. f_equal. lra.
Qed.

Lemma one_surface_refuted : exists surfs b ss fr ow,
  (forall s, In s surfs -> lib_surface s) /\ library_source b 1 /\
  intersect_ray surface_ops b surfs [0; 1] [(-1)%Z] [[true]; [true]] = Ok (ss, fr, ow) /\
  at2 fr 0 0 = Some true /\ at2 fr 1 0 = Some true.
Proof.
  destruct tie_marks_both as (ss & fr & ow & H). exists [mirror 0; mirror 0], (drops [1%R]), ss, fr, ow.
  split; [intros s [<-|[<-|[]]]; apply mirror_lib|]. split; [apply (drops_source [1%R])|]. exact H.
Qed.

Lemma independence_refuted : exists surfs b b' ss fr ow ss' fr' ow',
  (forall s, In s surfs -> lib_surface s) /\ library_source b 1 /\ library_source b' 2 /\
  rays_picked b' [0] b /\
  intersect_ray surface_ops b surfs [0] [(-1)%Z] [[true]] = Ok (ss, fr, ow) /\
  intersect_ray surface_ops b' surfs [0] [(-1)%Z; (-1)%Z] [[true; true]] = Ok (ss', fr', ow') /\
  at2 fr 0 0 = Some true /\ at2 fr' 0 0 <> Some true.
Proof.
  destruct coupled as (ss & fr & ow & ss' & fr' & ow' & H).
  exists [mirror 0], (drops [(/ 2 * tenm 6)%R]), (drops [(/ 2 * tenm 6)%R; 0%R]), ss, fr, ow, ss', fr', ow'.
  split; [intros s [<-|[]]; apply mirror_lib|]. split; [apply (drops_source [(/ 2 * tenm 6)%R])|].
  split; [apply (drops_source [(/ 2 * tenm 6)%R; 0%R])|]. split; [|exact H].
  intros p. destruct p; simpl; auto; eexists; (split; [reflexivity|]); repeat constructor.
Qed.

Lemma may_meet_again :
  (forall b n (i : nat), rays b n -> 0 < n -> exists next, surfaces_for_next (default_object 1) b i = Ok next /\
     next_surfaces [default_object 1] 0 [false] next 0 0) /\
  (forall b n (i : nat), rays b n -> 0 < n -> exists next, surfaces_for_next (one_sided_object 1) b i = Ok next /\
     ~ next_surfaces [one_sided_object 1] 0 [false] next 0 0).
Proof.
  split; intros b n i Hr Hn.
  - exists (repeat (repeat true n) 1). split.
    + cbn. unfold default_surfaces_for_next. rewrite (rays_num _ _ Hr). reflexivity.
    + exists 0. split; [reflexivity|]. split; [discriminate|]. intros _. unfold at2. simpl. destruct n; [lia|reflexivity].
  - exists (repeat (repeat false n) 1). split.
    + cbn. unfold no_surfaces_for_next. rewrite (rays_num _ _ Hr). reflexivity.
    + intros (oj & E & _ & H). injection E as <-. specialize (H eq_refl). unfold at2 in H. simpl in H. destruct n; [lia|discriminate].
Qed.

(** A surface that reports the same for every ray. *)
Definition constant_ops (x : num) : surf_ops unit unit :=
  mkOps (fun s b => n <- get_num_rays b ;; Ok (s, repeat x n)) (fun s _ => Ok s) (fun _ g => Ok (no_bundle, g)) (fun s => s).
Definition constant_report (x : num) : reports := fun i j => match i, j with 0, 0 => Some x | _, _ => None end.

Lemma constant_case : forall x : num,
  rays (drops [1%R]) 1 /\ fits 1 1 [0] [(-1)%Z] [[true]] /\
  (forall i j, i < 1 -> j < 1 -> (constant_report x i j <> None <-> may_test [0] [(-1)%Z] [[true]] i j)) /\
  will_answer (constant_ops x) (drops [1%R]) 1 (constant_report x) 0 tt /\
  (intersect_ray (constant_ops (Fin (-1))) (drops [1%R]) [tt] [0] [(-1)%Z] [[true]] = Err ValueError).
Proof.
  pose proof (drops_traceable [1%R]) as Ht. cbn [length] in Ht.
  assert (HT : forall x i j, i < 1 -> j < 1 -> (constant_report x i j <> None <-> may_test [0] [(-1)%Z] [[true]] i j)).
  { intros x i j Hi Hj. assert (i = 0) by lia. assert (j = 0) by lia. subst. split; [|discriminate].
    intros _. exists 0, (-1)%Z. repeat split; auto. }
  assert (HW : forall x, will_answer (constant_ops x) (drops [1%R]) 1 (constant_report x) 0 tt).
  { intros x. right. intros sub Hn Hp. exists tt, [x]. split; [|repeat constructor].
    assert (Hs : traceable sub (length (asked (constant_report x) 1 0))) by (eapply picked_traceable; eauto).
    change (asked (constant_report x) 1 0) with [0] in Hs.
    cbn [register_incoming constant_ops]. rewrite (rays_num sub 1) by apply Hs. reflexivity. }
  assert (HF : fits 1 1 [0] [(-1)%Z] [[true]]) by (repeat split; auto).
  intros x. split; [apply Ht|]. split; [exact HF|]. split; [apply HT|]. split; [apply HW|].
  apply (intersect_ray_outcome (constant_ops (Fin (-1))) (drops [1%R]) 1 [tt] [0] [(-1)%Z] [[true]] (constant_report (Fin (-1)))); auto.
  - apply Ht.
  - apply Ht.
  - discriminate.
  - intros [|i] [|j] H; simpl in *; try congruence. lia.
  - intros [|i] s H; [injection H as <-; apply HW|destruct i; discriminate].
  - exists 0, 0, (Fin (-1)). split; auto. cbn. apply Rltb_true. unfold tenm. simpl. lra.
Qed.

Lemma tree_false_top : forall objs surfs, library_assembly objs surfs ->
  forall me g b n reps vs ds st, library_source b n -> 1 <= reps ->
  ray_tracer surface_ops objs surfs g b reps me TreeTrue = Ok (vs, ds, st) ->
  exists st' rc m, ray_tracer surface_ops objs surfs g b reps me TreeFalse = Ok (vs, ds, st') /\
    t_tree st' = [rc] /\ traceable rc m /\
    (m = 0 \/ exists before lvl idx, t_tree st = before ++ [lvl] /\ before <> [] /\
       rays_picked rc idx lvl /\ Permutation idx (seq 0 m)).
Proof. intros objs surfs HA me g b n reps vs ds st. exact (library_false objs surfs me HA g b n reps vs ds st). Qed.
Lemma tree_true_top : forall objs surfs, library_assembly objs surfs ->
  forall me g b n reps vs ds st, library_source b n ->
  ray_tracer surface_ops objs surfs g b reps me TreeFalse = Ok (vs, ds, st) ->
  exists st', ray_tracer surface_ops objs surfs g b reps me TreeTrue = Ok (vs, ds, st').
Proof. intros objs surfs HA me g b n reps vs ds st. exact (library_true objs surfs me HA g b n reps vs ds st). Qed.

Lemma traced_levels_parents : forall objs surfs, library_assembly objs surfs ->
  forall me g b n, library_source b n -> forall reps vs ds st,
  ray_tracer surface_ops objs surfs g b reps me TreeTrue = Ok (vs, ds, st) ->
  forall c, In c (tl (t_tree st)) -> b_parents c <> None.
Proof.
  intros objs surfs HA me g b n Hb reps vs ds st H c Hc. apply In_nth_error in Hc as (k & Hk).
  assert (Hk1 : nth_error (t_tree st) (k + 1) = Some c).
  { rewrite Nat.add_1_r. destruct (t_tree st); [destruct k; discriminate|exact Hk]. }
  assert (Hp : exists prev, nth_error (t_tree st) k = Some prev).
  { apply nth_lt. assert (k + 1 < length (t_tree st)) by (apply nth_error_Some; congruence). lia. }
  destruct Hp as (prev & Hp).
  destruct (bounded_trace objs surfs HA me g b n Hb reps vs ds st H) as (_ & _ & B & _).
  destruct (B (k + 1) c ltac:(lia) Hk1) as (m & Hm & Hpos).
  destruct (proj2 (tree_geometry objs surfs HA me g b n Hb reps vs ds st H) k prev c Hp Hk1) as (m' & Hm' & Hc).
  assert (m = m').
  { destruct Hm as (_ & ((l & El) & Hr) & _). destruct Hm' as (_ & (_ & Hr') & _).
    rewrite <- (Hr _ _ El). apply (Hr' _ _ El). }
  subst m'. destruct (Hc 0 Hpos) as (j & v & d & s & t & Hj & _). unfold parent_at, at_col in Hj.
  destruct (b_parents c); congruence.
Qed.

Lemma library_objects_answer : forall nsurf,
  (object_contract (default_object nsurf) /\ object_answers (default_object nsurf)) /\
  (object_contract (one_sided_object nsurf) /\ object_answers (one_sided_object nsurf)).
Proof. intros nsurf. split; [apply default_object_ok|apply one_sided_object_ok]. Qed.
