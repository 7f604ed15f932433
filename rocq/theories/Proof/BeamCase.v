(** A dish of diameter 4 and focal length 1 with a lamp at its focus. *)
From Coq Require Import Reals List Arith Bool Lra Lia.
From Verif.Base Require Import Py Num Vec.
From Verif.Model Require Import RayBundle Boundary Geometry TraceTree Sources OpticsCallables Engine Objects Surface.
From Verif.Proof Require Import ListLemmas NumLemmas VecLemmas ShapeProof GeomTop GeomCases ObjectProof ProcessProof EngineTop TraceTop LibraryTop ReceiverTop AnswerProof SymmetryProof BeamProof.
From Verif.Spec Require Import BundleSpec EngineSpec GeometrySpec GeomIface OpticsSpec LibrarySpec ModelSpec LawSpec BeamSpec.
Import ListNotations.
Local Open Scope R_scope.

Definition lit_dish (gm : geom) : surface := new_surface gm (Absorbing (Reflective (1/2))) (mk4 id3 (V3 1 2 3)).
(** One ray towards the dish and one past it. *)
Definition lamp : bundle := mkB (Some [V3 1 2 4; V3 1 2 4]) (Some [V3 (4/5) 0 (- (3/5)); V3 (4/5) 0 (3/5)]) (Some [1; 1]) None None [].

Lemma lamp_source : library_source lamp 2.
Proof.
  split.
  - split; [|split; [|split; discriminate]]. { constructor. }
    split; [eexists; reflexivity|]. intros p l H. destruct p; cbn in H; try discriminate; injection H as <-; reflexivity.
  - intros [|[|[|k]]] d e D E; try discriminate; unfold dir_at, energy_at, at_col in D, E; cbn in D, E; assert (e = 1) by congruence.
    + assert (d = V3 (4/5) 0 (- (3/5))) by congruence. subst. split; [|split; [lra|discriminate]]. unfold is_unit. vunfold. lra.
    + assert (d = V3 (4/5) 0 (3/5)) by congruence. subst. split; [|split; [lra|discriminate]]. unfold is_unit. vunfold. lra.
Qed.

Lemma lit_library gm : new_dish 4 1 = Ok gm -> answering_assembly [default_object 1] [lit_dish gm].
Proof.
  intros E. pose proof (dish_ok 4 1 gm (or_introl E)) as Ok. apply new_dish_ok in E as (_ & ->).
  split; [split; [|split; [|reflexivity]]|split; [discriminate|split]].
  - intros ob [<-|[]]. apply default_object_ok.
  - intros s [<-|[]]. split; [|split; [cbn; lra|split; reflexivity]]. exists id3, (V3 1 2 3). split; [reflexivity|apply id_ok].
  - intros ob [<-|[]]. apply default_object_ok.
  - intros s [<-|[]]. split; cbn; auto; lra.
Qed.

Lemma lamp_lit : forall g, fair (g_rng g) -> exists gm, new_dish 4 1 = Ok gm /\ let objs := [default_object 1] in let s := lit_dish gm in
  library_assembly objs [s] /\ dish_mirror 1 (1/2) (round_dish 4 1) s /\ library_source lamp 2 /\
  (forall j, (j < 2)%nat -> vert_at lamp j = Some (app4 (s_frame s) (focus_at 1))) /\
  round_dish 4 1 (ray_at (focus_at 1) (V3 (4/5) 0 (- (3/5))) (5/4)) /\
  forall reps me, (2 <= reps)%nat -> me < 1/2 ->
  exists vs ds st lvl k, ray_tracer surface_ops objs [s] g lamp reps me TreeTrue = Ok (vs, ds, st) /\
    nth_error (t_tree st) 1 = Some lvl /\ descends (t_tree st) 1 k 0 /\ vert_at lvl k = Some (V3 2 2 (13/4)) /\ dir_at lvl k = Some (V3 0 0 1) /\
    energy_at lvl k = Some (1/2) /\ (forall k', ~ descends (t_tree st) 2 k' 0) /\ (forall k', ~ descends (t_tree st) 1 k' 1).
Proof.
  intros g Fg. destruct (proj2 (dish_accepted 4 1)) as (gm & E); [lra|]. exists gm. split; [exact E|]. intros objs s.
  pose proof (lit_library gm E) as An. pose proof (proj1 An) as La. pose proof lamp_source as Ls. split; [exact La|].
  assert (Ms : dish_mirror 1 (1/2) (round_dish 4 1) s).
  { split; [|left; reflexivity]. exists 4. left. auto. }
  split; [exact Ms|]. split; [exact Ls|].
  assert (Hv : forall j, (j < 2)%nat -> vert_at lamp j = Some (app4 (s_frame s) (focus_at 1))).
  { intros [|[|j]] Hj; try lia; unfold vert_at, at_col; cbn; f_equal; f_equal; ring. }
  split; [exact Hv|].
  assert (Hit : round_dish 4 1 (ray_at (focus_at 1) (V3 (4/5) 0 (- (3/5))) (5/4))).
  { split; unfold focal_bowl, focus_at, ray_at; vunfold; lra. }
  split; [exact Hit|]. intros reps me Hr Hm.
  destruct (tracing_answers _ _ An g lamp 2 reps me TreeTrue Ls) as (vs & ds & st & Tr). { intros (s0 & [<-|[]] & H). destruct H. } { left. lia. }
  assert (Df : forall ob, In ob objs -> exists k, ob = default_object k) by (intros ob [<-|[]]; eauto).
  assert (D0 : dir_at lamp 0 = Some (turned (s_frame s) (V3 (4/5) 0 (- (3/5))))).
  { unfold dir_at, at_col, turned. cbn. f_equal. f_equal; ring. }
  assert (D1 : dir_at lamp 1 = Some (turned (s_frame s) (V3 (4/5) 0 (3/5)))).
  { unfold dir_at, at_col, turned. cbn. f_equal. f_equal; ring. }
  assert (T6 : tenm 6 < 1) by (unfold tenm; lra).
  destruct (beam objs s 1 (1/2) _ me g lamp 2 reps vs ds st La Df Ms Ls Fg Tr 0%nat _ 1 (Hv 0%nat ltac:(lia)) D0 eq_refl) as (B & _); [left; unfold tenm; cbn [vx vy]; lra|exact T6|lia|].
  destruct (beam objs s 1 (1/2) _ me g lamp 2 reps vs ds st La Df Ms Ls Fg Tr 1%nat _ 1 (Hv 1%nat ltac:(lia)) D1 eq_refl) as (_ & C); [left; unfold tenm; cbn [vx vy]; lra|exact T6|lia|].
  destruct (B (5/4) ltac:(lra) Hit) as (_ & (lvl & k & A1 & A2 & _ & A3 & A4 & A5 & _) & Aw).
  exists vs, ds, st, lvl, k. split; [exact Tr|]. split; [exact A1|]. split; [exact A2|].
  split. { rewrite A3. f_equal. unfold s, focus_at, ray_at. cbn. f_equal; field. }
  split. { rewrite A4. f_equal. unfold turned. cbn. f_equal; ring. }
  split. { rewrite A5. f_equal. field. }
  split; [apply Aw; [lia|lra]|]. apply C. intros t Pt (K & R4). unfold focal_bowl, focus_at, ray_at in *. revert K R4. vunfold. intros K R4. nra.
Qed.
