(** A mirror in front of another one. *)
From Coq Require Import Reals List Arith Bool Lra Lia.
From Verif.Base Require Import Py Num Vec.
From Verif.Model Require Import RayBundle Boundary Geometry TraceTree OpticsCallables Engine Objects Surface.
From Verif.Proof Require Import ListLemmas NumLemmas VecLemmas GeomProof GeomTop GeomCases EngineTop TraceTop OrderProof OrderCase SightProof.
From Verif.Spec Require Import BundleSpec EngineSpec GeometrySpec GeomIface OpticsSpec LibrarySpec LawSpec OrderSpec SightSpec.
Import ListNotations.
Local Open Scope R_scope.

Lemma level_in_the_way h v : in_the_way (mirror h) v (V3 0 0 (-1)) (placed (mk4 id3 (V3 0 0 h)) xy_plane).
Proof.
  exists xy_plane, (fun _ d => inclined (mk4 id3 (V3 0 0 h)) d). split; [apply as_plane|]. split; [|reflexivity].
  unfold inclined, z_of, rot_of, mk4, id3, tenm. vunfold. 
  match goal with |- _ < Rabs ?x => replace x with (-1) by ring end. rewrite Rabs_left by lra. lra.
Qed.

Lemma level_point h x y : placed (mk4 id3 (V3 0 0 h)) xy_plane (V3 x y h).
Proof. exists (V3 x y 0). split; [reflexivity|]. unfold app4, mk4, id3. vunfold. f_equal; ring. Qed.
Lemma level_only h p : placed (mk4 id3 (V3 0 0 h)) xy_plane p -> vz p = h.
Proof. intros (q & Hq & ->). unfold xy_plane in Hq. unfold app4, mk4, id3. vunfold. rewrite Hq. ring. Qed.

Lemma front_mirror : forall g, let objs := [default_object 2] in let surfs := pair_of 0 1 in let b := drops [2; 3] in
  library_assembly objs surfs /\ library_source b 2 /\
  (forall s, In s surfs -> exists B c, made_as (s_frame s) (s_geom s) B c) /\
  (exists A, in_the_way (mirror 0) (V3 0 0 2) (V3 0 0 (-1)) A /\ A (ray_at (V3 0 0 2) (V3 0 0 (-1)) 2)) /\
  (exists A, in_the_way (mirror 1) (V3 0 0 2) (V3 0 0 (-1)) A /\ A (ray_at (V3 0 0 2) (V3 0 0 (-1)) 1)) /\
  exists vs ds st, ray_tracer surface_ops objs surfs g b 3 (1 / 10) TreeTrue = Ok (vs, ds, st) /\
  exists lvl k t, nth_error (t_tree st) (0 + 1) = Some lvl /\ parent_at lvl k = Some 0%nat /\ t <= 1 /\
    vert_at lvl k = Some (ray_at (V3 0 0 2) (V3 0 0 (-1)) t).
Proof.
  intros g objs surfs b.
  assert (La : library_assembly objs surfs) by (apply (pair_library joined 0 1); auto).
  assert (Ls : library_source b 2) by (apply (drops_source [2; 3])).
  assert (Md : forall s, In s surfs -> exists B c, made_as (s_frame s) (s_geom s) B c).
  { intros s [<-|[<-|[]]]; eexists; eexists; apply as_plane. }
  assert (Pt : forall h t, 2 - t = h -> placed (mk4 id3 (V3 0 0 h)) xy_plane (ray_at (V3 0 0 2) (V3 0 0 (-1)) t)).
  { intros h t E. replace (ray_at (V3 0 0 2) (V3 0 0 (-1)) t) with (V3 0 0 h). { apply level_point. }
    unfold ray_at. vunfold. f_equal; try ring. rewrite <- E. ring. }
  split; auto. split; auto. split; auto. split; [|split].
  - exists (placed (mk4 id3 (V3 0 0 0)) xy_plane). split; [apply level_in_the_way|apply Pt; ring].
  - exists (placed (mk4 id3 (V3 0 0 1)) xy_plane). split; [apply level_in_the_way|apply Pt; ring].
  - destruct (pair_trace joined 0 1 g 2 3 3 TreeTrue (or_introl eq_refl) ltac:(lia)) as (vs & ds & st & E). exists vs, ds, st. split; [exact E|].
    assert (Df : forall ob, In ob objs -> exists k, ob = default_object k) by (intros ob [<-|[]]; eauto).
    pose proof (proj1 (proj2 (bounded_trace objs surfs La (1 / 10) g b 2 Ls 3 vs ds st E))) as Sb.
    destruct (caught objs surfs La Df Md (1 / 10) g b 2 Ls 3 vs ds st E 0%nat b 0%nat (V3 0 0 2) (V3 0 0 (-1)) Sb ltac:(lia)) with
      (s := mirror 1) (A := placed (mk4 id3 (V3 0 0 1)) xy_plane) (u := 1) as ((lvl & k & C1 & C2) & C3).
    { exists 1. split; [reflexivity|]. auto. }
    { reflexivity. } { reflexivity. } { right; left; reflexivity. } { apply level_in_the_way. } { lra. } { apply Pt; ring. }
    { intros u0 Hu K. apply level_only in K. unfold ray_at in K. revert K. vunfold. unfold tenm in Hu. intros K.
      assert (/ 10 ^ 6 < 1) by lra. lra. }
    destruct (C3 lvl k C1 C2) as (t & Ht & Hv). exists lvl, k, t. split; [exact C1|]. split; [exact C2|]. split; [lra|exact Hv].
Qed.
