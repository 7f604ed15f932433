(** Two mirrors in one object and in two, in either order, met by two rays in either order. *)
From Coq Require Import Reals String List Arith Bool Lia Lra Permutation.
From Verif.Base Require Import Py Num Vec.
From Verif.Model Require Import RayBundle Geometry TraceTree Sources Optics OpticsCallables Engine Objects Surface.
From Verif.Proof Require Import ListLemmas NumLemmas VecLemmas BundleProof EngineTop AnswerProof ObjectProof EngineExamples LibraryTop TraceTop OrderProof.
From Verif.Spec Require Import BundleSpec EngineSpec GeometrySpec GeomIface OpticsSpec LibrarySpec AccountSpec LawSpec OrderSpec.
Import ListNotations.
Local Open Scope R_scope.

Definition pair_of (h h' : R) : list surface := [mirror h; mirror h'].
Definition joined : list (bool * nat) := [(false, 2%nat)].
Definition apart : list (bool * nat) := [(false, 1%nat); (false, 1%nat)].
Definition swapped (j : nat) : nat := (1 - j)%nat.

Lemma pair_library qs h h' : (qs = joined \/ qs = apart) -> library_assembly (map made qs) (pair_of h h').
Proof.
  intros Hq. split; [|split].
  - intros ob Ho. destruct Hq as [-> | ->]; cbn in Ho; [destruct Ho as [<-|[]]|destruct Ho as [<-|[<-|[]]]]; apply default_object_ok.
  - intros s [<-|[<-|[]]]; apply mirror_lib.
  - destruct Hq as [-> | ->]; reflexivity.
Qed.
Lemma pair_answers qs h h' : (qs = joined \/ qs = apart) -> answering_assembly (map made qs) (pair_of h h').
Proof.
  intros Hq. split; [apply pair_library; auto|]. split; [destruct Hq as [-> | ->]; discriminate|]. split.
  - intros ob Ho. destruct Hq as [-> | ->]; cbn in Ho; [destruct Ho as [<-|[]]|destruct Ho as [<-|[<-|[]]]]; apply default_object_ok.
  - intros s [<-|[<-|[]]]; split; exact I.
Qed.
Lemma pair_media h h' b : knows_media (pair_of h h') b.
Proof. intros (s & [<-|[<-|[]]] & H); destruct H. Qed.

Lemma pair_swap h h' : Permutation (pair_of h h') (pair_of h' h).
Proof. apply perm_swap. Qed.
Lemma pair_kind h h' s : In s (pair_of h h') -> geom_ok (s_geom s) /\ specular (s_opt s).
Proof. intros [<-|[<-|[]]]; split; exact I. Qed.

Lemma drops_swapped z z' : reordered 2 swapped swapped (drops [z; z']) (drops [z'; z]).
Proof.
  split; [apply (drops_source [z; z'])|]. split; [apply (drops_source [z'; z])|]. split.
  - split; intros [|[|j]] Hj; try lia; split; unfold swapped; lia.
  - intros [|[|j]] Hj; try lia; intros [] Hp; try reflexivity; congruence.
Qed.

Lemma pair_trace qs h h' g z z' reps ta : (qs = joined \/ qs = apart) -> (1 <= reps)%nat -> exists vs ds st,
  ray_tracer surface_ops (map made qs) (pair_of h h') g (drops [z; z']) reps (1/10) ta = Ok (vs, ds, st).
Proof.
  intros Hq Hr. apply (tracing_answers _ _ (pair_answers qs h h' Hq) g _ 2 reps); auto using pair_media.
  apply (drops_source [z; z']).
Qed.

(** The first ray meets the upper mirror. *)
Lemma pair_level g reps vs ds st : fair (g_rng g) -> (1 <= reps)%nat ->
  ray_tracer surface_ops (map made joined) (pair_of 0 (-1)) g (drops [1; 2]) reps (1/10) TreeTrue = Ok (vs, ds, st) ->
  exists lvl k, nth_error (t_tree st) 1 = Some lvl /\ parent_at lvl k = Some 0%nat.
Proof.
  intros Fg Hr E. pose proof (drops_source [1; 2]) as Hb.
  destruct (run_of joined (pair_of 0 (-1)) (1/10) g _ 2 reps vs ds st (pair_library _ _ _ (or_introl eq_refl)) (fun s H => proj1 (pair_kind _ _ s H)) Hb Fg E) as (ns & Ts & R & _).
  pose proof (r_source _ _ _ _ _ _ _ _ _ R) as R0.
  assert (N0 : (0 < ns 0)%nat).
  { apply (r_traced _ _ _ _ _ _ _ _ _ R 0%nat _ R0). exists 1. split; [reflexivity|]. auto. }
  assert (Q : forall i h, nth_error [0; -1] i = Some h -> Ts 0%nat i 0%nat = Some (Fin (1 - h))).
  { intros i h Hi. assert (Es : nth_error (pair_of 0 (-1)) i = Some (mirror h)).
    { change (pair_of 0 (-1)) with (map mirror [0; -1]). rewrite nth_error_map, Hi. reflexivity. }
    rewrite (r_reports _ _ _ _ _ _ _ _ _ R 0%nat _ i 0%nat (mirror h) (V3 0 0 1) (V3 0 0 (-1)) R0 ltac:(lia) N0 Es eq_refl eq_refl).
    - unfold the_param. cbn [s_geom s_frame mirror new_surface]. rewrite mirror_report.
      assert (h <= 0) by (destruct i as [|[|[|i]]]; cbn in Hi; try discriminate; injection Hi as <-; lra).
      assert (Rltb (1 - h) 0 = false) as -> by (apply Rltb_false; lra). reflexivity.
    - apply (r_first _ _ _ _ _ _ _ _ _ R); [lia| |exact N0]. apply nth_error_Some. rewrite Es. discriminate. }
  pose proof (Q 0%nat 0 eq_refl) as Q0. pose proof (Q 1%nat (-1) eq_refl) as Q1.
  assert (M : meets_first (Ts 0%nat) (length (pair_of 0 (-1))) (ns 0%nat) 0 0 (1 - 0)).
  { split; [cbn; lia|]. split; [exact N0|]. split; [exact Q0|]. split.
    - intros (_ & K). unfold tenm in K. simpl in K. lra.
    - intros [|[|i']] Hi; cbn in Hi; [rewrite Q0; right; lra|rewrite Q1; right; lra|lia]. }
  destruct (nth_error (t_tree st) 1) as [lvl|] eqn:El.
  2:{ exfalso. exact (r_end _ _ _ _ _ _ _ _ _ R 0%nat _ R0 El ltac:(lia) _ _ _ M). }
  destruct (r_level _ _ _ _ _ _ _ _ _ R 0%nat _ lvl R0 El) as (N & via & thr & (_ & S2 & _) & _).
  destruct (S2 0%nat (mirror 0) 0%nat _ (V3 0 0 (-1)) eq_refl M eq_refl) as ((k & Hk & _) & _).
  exists lvl, k. auto.
Qed.

(** A receiver and a mirror. *)
Definition receiver : surface := new_surface Flat (Accountant 0 (Reflective 1)) id4.
Definition watched : list surface := [receiver; mirror (-1)].
Definition watched' : list surface := [mirror (-1); receiver].

Lemma receiver_lib : lib_surface receiver.
Proof. split; [apply ModelTop.rigid_id|]. split; [cbn; lra|]. split; reflexivity. Qed.
Lemma watched_answers : answering_assembly (map made joined) watched /\ answering_assembly (map made apart) watched'.
Proof.
  split; (split; [split; [|split]|split; [discriminate|split]]).
  - intros ob [<-|[]]. apply default_object_ok.
  - intros s [<-|[<-|[]]]; [apply receiver_lib|apply mirror_lib].
  - reflexivity.
  - intros ob [<-|[]]. apply default_object_ok.
  - intros s [<-|[<-|[]]]; split; exact I.
  - intros ob [<-|[<-|[]]]; apply default_object_ok.
  - intros s [<-|[<-|[]]]; [apply mirror_lib|apply receiver_lib].
  - reflexivity.
  - intros ob [<-|[<-|[]]]; apply default_object_ok.
  - intros s [<-|[<-|[]]]; split; exact I.
Qed.
Lemma watched_media b : knows_media watched b /\ knows_media watched' b.
Proof. split; intros (s & [<-|[<-|[]]] & H); destruct H. Qed.
Lemma watched_kind s : In s watched -> geom_ok (s_geom s) /\ specular (s_opt s).
Proof. intros [<-|[<-|[]]]; split; exact I. Qed.
Lemma watched_sole : sole_account watched 0 0.
Proof. intros [|[|[|i]]] s o H E; cbn in H; try discriminate; auto. injection H as <-. discriminate. Qed.
Lemma watched_swapped : rearranged joined watched apart watched' swapped swapped.
Proof.
  split; [reflexivity|]. split; [|split].
  - split; intros [|[|j]] Hj; cbn in Hj; try lia; split; unfold swapped; cbn; lia.
  - intros [|[|i]] Hi; cbn in Hi; try lia; reflexivity.
  - intros i i' _ _. split; intros (o & n & E & _); destruct o as [|[|[|o]]]; discriminate.
Qed.
Lemma watched_open i i' : ~ shut joined i i'.
Proof. intros (o & n & E & _). destruct o as [|[|o]]; discriminate. Qed.
