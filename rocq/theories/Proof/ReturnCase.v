(** Light into glass and back. *)
From Coq Require Import Reals String List Arith Bool Lra Lia.
From Verif.Base Require Import Py Num Vec.
From Verif.Model Require Import RayBundle Boundary Geometry TraceTree Sources Optics OpticsCallables Engine Objects Surface.
From Verif.Proof Require Import ListLemmas NumLemmas VecLemmas SymmetryProof GeomProof GeomTop GeomCases ObjectProof EngineTop TraceTop LibraryTop AnswerProof BackProof BackCase SightProof FoundProof ReturnProof.
From Verif.Spec Require Import BundleSpec EngineSpec GeometrySpec GeomIface OpticsSpec LibrarySpec LawSpec BackSpec SightSpec FoundSpec ReturnSpec.
Import ListNotations.
Local Open Scope R_scope.

Definition pane : list surface := [new_surface Flat (Refractive 1 (39/25)) id4].
Definition pane_shape (_ : surface) : shape := xy_plane.
Definition pane_clear (s : surface) (_ d : vec) : Prop := inclined (s_frame s) d.

Lemma pane_library : library_assembly [default_object 1] pane.
Proof.
  split; [|split].
  - intros ob [<-|[]]. apply default_object_ok.
  - intros s [<-|[]]. split; [exists id3, (V3 0 0 0); split; [reflexivity|apply id_ok]|]. split; [cbn; lra|]. split; reflexivity.
  - reflexivity.
Qed.
Lemma pane_shaped : shaped_as pane pane_shape pane_clear.
Proof. intros s [<-|[]]. apply as_plane. Qed.

Lemma pane_point p : placed (s_frame (new_surface Flat (Refractive 1 (39/25)) id4)) xy_plane p <-> vz p = 0.
Proof.
  split.
  - intros (q & Hq & ->). unfold xy_plane in Hq. unfold app4, id4, mk4, id3. cbn. rewrite Hq. ring.
  - intros H. exists p. split; [exact H|]. unfold app4, id4, mk4, id3. destruct p. cbn. f_equal; ring.
Qed.

Lemma pane_open v d t : tenm 10 < Rabs (vz d) -> (forall u, 0 < u < t -> vz v + u * vz d <> 0) -> open_until pane pane_shape pane_clear v d t.
Proof.
  intros H K s [<-|[]]. split.
  - unfold pane_clear, inclined. assert (E : dot d (z_of id4) = vz d) by (unfold z_of, rot_of, id4; vunfold; ring).
    change (tenm 10 < Rabs (dot d (z_of id4))). rewrite E. exact H.
  - intros u Hu Q. apply pane_point in Q. apply (K u Hu). rewrite <- Q. unfold ray_at. vunfold. ring.
Qed.

Lemma glass_there_and_back : library_assembly [default_object 1] pane /\ shaped_as pane pane_shape pane_clear /\
  Forall works_back [into_glass] /\
  (exists f, open_way pane pane_shape pane_clear (1 / 10) (V3 (-3) 0 4) (V3 (3/5) 0 (-4/5)) 1 (Some 1) [into_glass]
     (V3 0 0 0) (V3 (5/13) 0 (-12/13)) (1 - f) (Some (39/25))) /\
  open_until pane pane_shape pane_clear (V3 0 0 0) (V3 (5/13) 0 (-12/13)) 1.
Proof.
  split; [apply pane_library|]. split; [apply pane_shaped|]. split; [|split].
  - constructor; [|constructor]. cbn. split; [auto|]. intros _. vunfold. split; lra.
  - destruct glass_lawful as (f & L). exists f.
    apply (open_next pane pane_shape pane_clear (1/10) _ _ _ _ 5 into_glass (1 - f)); auto.
    + left. reflexivity.
    + apply pane_open; cbn. { unfold tenm. rewrite Rabs_left by lra. lra. } intros u Hu. lra.
    + unfold tenm. lra.
    + apply pane_point. reflexivity.
    + cbn. unfold ray_at. vunfold. f_equal; lra.
    + exact I.
    + cbn. vunfold. lra.
    + intros K. destruct (K eq_refl).
    + constructor.
  - apply pane_open; cbn. { unfold tenm. rewrite Rabs_left by lra. lra. } intros u Hu. lra.
Qed.

Definition lone (v d : vec) (m : R) : bundle := mkB (Some [v]) (Some [d]) (Some [1]) None (Some [m]) [].
Lemma lone_source v d m : is_unit d -> 0 < m -> library_source (lone v d m) 1.
Proof.
  intros U Pm. split.
  - split; [constructor|]. split; [|split; discriminate]. split; [eexists; reflexivity|].
    intros p l H. destruct p; cbn in H; try discriminate; injection H as <-; reflexivity.
  - intros k d' e Hd He. destruct k as [|k]; cbn in Hd, He; [|destruct k; discriminate]. injection Hd as <-. injection He as <-.
    split; auto. split; [lra|]. intros m' H. cbn in H. injection H as <-. exact Pm.
Qed.

Lemma pane_runs g v d m reps me : is_unit d -> 0 < m -> (1 <= reps)%nat ->
  exists vs ds st, ray_tracer surface_ops [default_object 1] pane g (lone v d m) reps me TreeTrue = Ok (vs, ds, st).
Proof.
  intros U Pm Hr. apply (tracing_answers [default_object 1] pane) with (n := 1%nat); auto.
  - split; [apply pane_library|]. split; [discriminate|]. split.
    + intros ob [<-|[]]. apply default_object_ok.
    + intros s [<-|[]]. split; [exact I|]. cbn. lra.
  - apply lone_source; auto.
  - intros _. discriminate.
Qed.

(** Light from the air above goes through the glass, and light sent back from below comes
    out again; both keep the same fraction. *)
Lemma glass_runs : forall g, fair (g_rng g) -> let n := 39/25 in
  let a := V3 (-3) 0 4 in let d := V3 (3/5) 0 (-4/5) in let d' := V3 (5/13) 0 (-12/13) in
  exists f, 0 <= f <= 1 /\
  (exists vs ds st lvl k, ray_tracer surface_ops [default_object 1] pane g (lone a d 1) 2 (1 / 10) TreeTrue = Ok (vs, ds, st) /\
     nth_error (t_tree st) 1 = Some lvl /\ vert_at lvl k = Some (V3 0 0 0) /\ dir_at lvl k = Some d' /\
     energy_at lvl k = Some (1 * f) /\ ref_at lvl k = Some n) /\
  (exists vs ds st lvl k, ray_tracer surface_ops [default_object 1] pane g (lone (ray_at (V3 0 0 0) d' 1) (vopp d') n) 2 (-1) TreeTrue = Ok (vs, ds, st) /\
     nth_error (t_tree st) 1 = Some lvl /\ vert_at lvl k = Some (V3 0 0 0) /\ dir_at lvl k = Some (vopp d) /\
     energy_at lvl k = Some (1 * f) /\ ref_at lvl k = Some 1).
Proof.
  intros g Fg n a d d'. destruct glass_there_and_back as (La & Sh & Wb & (r & Ow) & Ou).
  assert (Df : forall ob, In ob [default_object 1] -> exists k, ob = default_object k) by (intros ob [<-|[]]; eauto).
  destruct (there_and_back _ _ La Df _ _ Sh _ _ _ _ _ _ _ _ _ _ _ Ow Wb 1 ltac:(unfold tenm; lra) Ou) as (f & Bf & _ & F1 & F2).
  assert (U : is_unit d) by (unfold is_unit, d; open_vec; lra).
  assert (U' : is_unit (vopp d')) by (apply vopp_unit; unfold is_unit, d'; open_vec; lra).
  exists f. split; auto. split.
  - destruct (pane_runs g a d 1 2 (1/10) U ltac:(lra) ltac:(lia)) as (vs & ds & st & E).
    destruct (F1 g _ 1%nat (lone_source a d 1 U ltac:(lra)) Fg 2%nat vs ds st E ltac:(cbn; lia) 0%nat eq_refl eq_refl eq_refl eq_refl) as (lvl & k & A1 & _ & A2 & A3 & A4 & A5).
    exists vs, ds, st, lvl, k. repeat (split; [assumption|]). assumption.
  - assert (Pn : 0 < n) by (unfold n; lra).
    destruct (pane_runs g (ray_at (V3 0 0 0) d' 1) (vopp d') n 2 (-1) U' Pn ltac:(lia)) as (vs & ds & st & E).
    destruct (F2 g _ 1%nat (lone_source _ _ n U' Pn) Fg (-1) 2%nat vs ds st E ltac:(cbn; lia) 0%nat 1 eq_refl eq_refl eq_refl eq_refl ltac:(lra) ltac:(lra)) as (lvl & k & A1 & _ & A2 & A3 & A4 & A5).
    exists vs, ds, st, lvl, k. repeat (split; [assumption|]). assumption.
Qed.
