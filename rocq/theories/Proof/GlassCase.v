(** A pane of glass from z = 0 to z = 4, and a ray that comes in at Brewster's angle. *)
From Coq Require Import Reals List Arith Bool Lra Lia.
From Verif.Base Require Import Py Num Vec.
From Verif.Model Require Import RayBundle Boundary Geometry TraceTree Sources OpticsCallables Engine Objects Surface.
From Verif.Proof Require Import ListLemmas NumLemmas VecLemmas GeomCases ObjectProof ProcessProof EngineTop TraceTop LibraryTop OpticsTop AnswerProof SymmetryProof DropProof DropCase GlassProof GlassTop.
From Verif.Spec Require Import BundleSpec EngineSpec GeometrySpec GeomIface OpticsSpec LibrarySpec ModelSpec LawSpec ImageSpec GlassSpec.
Import ListNotations.
Local Open Scope R_scope.

Definition near_face : surface := new_surface Flat (Refractive 1 (4/3)) (mk4 id3 (V3 0 0 0)).
Definition far_face : surface := new_surface Flat (Refractive 1 (4/3)) (mk4 id3 (V3 0 0 4)).
Definition slanting : bundle := mkB (Some [V3 (- 4) 0 (- 3)]) (Some [V3 (4/5) 0 (3/5)]) (Some [1]) None (Some [1]) [].

Lemma pane_library : answering_assembly [default_object 2] [near_face; far_face].
Proof.
  split; [split; [|split; [|reflexivity]]|split; [discriminate|split]].
  - intros ob [<-|[]]. apply default_object_ok.
  - intros s [<-|[<-|[]]]; (split; [|split; [cbn; lra|split; reflexivity]]).
    + exists id3, (V3 0 0 0). split; [reflexivity|apply id_ok].
    + exists id3, (V3 0 0 4). split; [reflexivity|apply id_ok].
  - intros ob [<-|[]]. apply default_object_ok.
  - intros s [<-|[<-|[]]]; (split; cbn; auto; try lra).
Qed.
Lemma slanting_source : library_source slanting 1.
Proof.
  split.
  - split; [|split; [|split; discriminate]]. { constructor. }
    split; [eexists; reflexivity|]. intros p l H. destruct p; cbn in H; try discriminate; injection H as <-; reflexivity.
  - intros [|[|k]] d e D E; try discriminate. unfold dir_at, energy_at, at_col in D, E. cbn in D, E.
    assert (d = V3 (4/5) 0 (3/5)) by congruence. assert (e = 1) by congruence. subst. split; [|split; [lra|]]. { unfold is_unit. vunfold. lra. }
    intros m Hm. unfold ref_at, at_col in Hm. cbn in Hm. assert (m = 1) by congruence. lra.
Qed.

Lemma the_pane : glass 1 (4/3) (V3 0 0 1) 0 4 [near_face; far_face].
Proof.
  assert (N : face_at 1 (4/3) (V3 0 0 1) 0 near_face).
  { split; [reflexivity|]. split; [reflexivity|]. split; [left; unfold axis, z_of; cbn; f_equal; ring|]. unfold middle. cbn. vunfold. ring. }
  assert (F : face_at 1 (4/3) (V3 0 0 1) (0 + 4) far_face).
  { split; [reflexivity|]. split; [reflexivity|]. split; [left; unfold axis, z_of; cbn; f_equal; ring|]. unfold middle. cbn. vunfold. ring. }
  split; [lra|]. split; [unfold is_unit; vunfold; ring|]. split; [exists near_face; split; [left; reflexivity|exact N]|].
  split; [exists far_face; split; [right; left; reflexivity|exact F]|]. intros s [<-|[<-|[]]]; auto.
Qed.
Lemma cos_in : inner_cos 1 (4/3) (V3 0 0 1) (V3 (4/5) 0 (3/5)) = 4/5.
Proof. unfold inner_cos. replace (dot _ _) with (3/5) by (vunfold; field). replace (1 - _) with (4/5 * (4/5)) by field. apply sqrt_square. lra. Qed.
Lemma way_in : to_glass (V3 0 0 1) 0 (V3 (- 4) 0 (- 3)) (V3 (4/5) 0 (3/5)) = 5.
Proof. unfold to_glass. replace (dot (V3 (4/5) _ _) _) with (3/5) by (vunfold; field). vunfold. field. Qed.
Lemma it_enters : enters (V3 0 0 1) 0 4 1 (4/3) (V3 (- 4) 0 (- 3)) (V3 (4/5) 0 (3/5)).
Proof. unfold enters. rewrite cos_in, way_in. replace (dot _ _) with (3/5) by (vunfold; field). unfold tenm. repeat split; lra. Qed.

Lemma through_the_pane : forall g, fair (g_rng g) -> forall reps me, (2 <= reps)%nat -> me < 1201/1250 ->
  let objs := [default_object 2] in let surfs := [near_face; far_face] in
  library_assembly objs surfs /\ glass 1 (4/3) (V3 0 0 1) 0 4 surfs /\ library_source slanting 1 /\
  ref_at slanting 0 = Some 1 /\ sides 1 (4/3) 1 (4/3) /\ enters (V3 0 0 1) 0 4 1 (4/3) (V3 (- 4) 0 (- 3)) (V3 (4/5) 0 (3/5)) /\
  exists vs ds st, ray_tracer surface_ops objs surfs g slanting reps me TreeTrue = Ok (vs, ds, st) /\
    found_at (t_tree st) 1 0 (V3 0 0 0) (V3 (3/5) 0 (4/5)) (1201/1250) (4/3) /\
    found_at (t_tree st) 2 0 (V3 3 0 4) (V3 (4/5) 0 (3/5)) (1201/1250 * (1201/1250)) 1.
Proof.
  intros g Fg reps me Hr Hm objs surfs. pose proof pane_library as An. pose proof slanting_source as Ls. pose proof (proj1 An) as La. pose proof the_pane as Gl.
  split; [exact La|]. split; [exact Gl|]. split; [exact Ls|]. split; [reflexivity|].
  assert (Fa : sides 1 (4/3) 1 (4/3)) by (left; auto). split; [exact Fa|]. pose proof it_enters as En. split; [exact En|].
  destruct (tracing_answers _ _ An g slanting 1 reps me TreeTrue Ls) as (vs & ds & st & Tr). { intros _. discriminate. } { left. lia. }
  assert (Df : forall ob, In ob objs -> exists k, ob = default_object k) by (intros ob [<-|[]]; eauto).
  destruct (glass_rays surfs 1 (4/3) (V3 0 0 1) 0 4 (proj1 (proj2 La)) Gl objs me g slanting 1 reps vs ds st La Df Ls Fg Tr 0%nat _ _ 1 1 (4/3) eq_refl eq_refl eq_refl eq_refl Fa En) as (f & P & D & Out & Rb & _ & _ & Ins & Outs & _).
  pose proof (tf_start _ _ _ _ _ _ _ _ _ _ _ Rb) as P0. rewrite way_in in P0.
  assert (E0 : P 0%nat = V3 0 0 0). { rewrite P0. unfold ray_at. vunfold. f_equal; field. }
  assert (Ef : f = 49/1250).
  { apply (brewster (V3 (4/5) 0 (3/5)) (V3 0 0 1)); [|exact (tf_share _ _ _ _ _ _ _ _ _ _ _ Rb)]. replace (dot _ _) with (3/5) by (vunfold; field). apply Rabs_right. lra. }
  pose proof (tf_in _ _ _ _ _ _ _ _ _ _ _ Rb) as Si.
  assert (D0 : D 0%nat = V3 (3/5) 0 (4/5)).
  { assert (Ud : is_unit (V3 (4/5) 0 (3/5))) by (unfold is_unit; vunfold; field). assert (Uu : is_unit (V3 0 0 1)) by (unfold is_unit; vunfold; ring).
    destruct (snell_shape 1 (4/3) _ _ _ ltac:(lra) ltac:(lra) Ud Uu Si) as (Sh & Sq). destruct Si as (_ & _ & Si & _).
    destruct (D 0%nat) as [x y z]. unfold tangential in Sh. vunfold. injection Sh as S1 S2 S3. specialize (Si ltac:(lra)).
    assert (x = 3/5) by lra. assert (y = 0) by lra. assert (z * z = 16/25) by lra. subst x y. f_equal. nra. }
  assert (E1 : P 1%nat = V3 3 0 4).
  { rewrite (tf_next _ _ _ _ _ _ _ _ _ _ _ Rb), cos_in, E0, D0. unfold ray_at. vunfold. f_equal; field. }
  assert (O1 : Out 1%nat = V3 (4/5) 0 (3/5)) by (apply (tf_through _ _ _ _ _ _ _ _ _ _ _ Rb 0%nat); reflexivity).
  exists vs, ds, st. split; [exact Tr|]. rewrite Ef in *. split.
  - specialize (Ins 0%nat ltac:(lia) ltac:(lia)). rewrite E0, D0 in Ins. replace (1201/1250) with (1 * (1 - 49/1250) * (49/1250) ^ 0) by (cbn; field). exact Ins.
  - specialize (Outs 0%nat ltac:(lia)). rewrite E1, O1 in Outs. replace (1201/1250 * (1201/1250)) with (1 * (1 - 49/1250) * (49/1250) ^ 0 * (1 - 49/1250)) by (cbn; field). apply Outs. cbn. lra.
Qed.
