(** Scenes with a symmetry. *)
From Coq Require Import Reals String List Arith Bool Lra Lia.
From Verif.Base Require Import Py Num Vec.
From Verif.Model Require Import RayBundle Geometry TraceTree Sources Optics OpticsCallables Engine Objects Surface.
From Verif.Proof Require Import ObjectProof GeomCases EngineTop TraceTop CallProof DrawProof AnswerProof VecLemmas SymmetryProof.
From Verif.Spec Require Import BundleSpec EngineSpec GeometrySpec GeomIface OpticsSpec LibrarySpec LawSpec.
Import ListNotations.
Local Open Scope R_scope.

Lemma surfaces_slide : forall s, rigid (s_frame s) ->
  (forall c a, coaxial c a s -> slides (vscale (- 1) (cross a c)) a s) /\
  (forall a, wall a s -> slides a (V3 0 0 0) s) /\
  (forall a u, is_unit a -> layer a s -> dot u a = 0 -> slides u (V3 0 0 0) s).
Proof. intros s R. split; [|split]; intros; [apply coaxial_slides|apply wall_slides|eapply layer_slides]; eauto. Qed.

(** One ray at a slant that knows it runs through air. *)
Definition slanted : bundle := mkB (Some [V3 1 0 9]) (Some [V3 0 (3 / 5) (- (4 / 5))]) (Some [1]) None (Some [1]) [].

Definition at_height (gm : geom) (o : optics) (h : R) : surface := new_surface gm o (mk4 id3 (V3 0 0 h)).
Definition bench : list surface :=
  [at_height (Sphere 2) (Refractive 1 (3 / 2)) 5; at_height Flat (Refractive 1 (3 / 2)) 2; at_height (RoundPlate 4) (Refractive (3 / 2) 1) 1;
   at_height (ParabDish (1 / 4) (1 / 4) 3 1) (Absorbing (Reflective 0)) 0].
Definition pane : list surface := [at_height Flat (Refractive 1 (3 / 2)) 2; at_height (RectPlate 9 9) (Refractive 1 (3 / 2)) 1].
Definition tube : list surface := [at_height (FiniteCyl 2 20) (Absorbing (Reflective (1 / 10))) 0].

Lemma height_ok gm o h : optics_ok o -> lib_surface (at_height gm o h).
Proof. intros Ho. split; [|split; [exact Ho|split; reflexivity]]. exists id3, (V3 0 0 h). split; auto. apply id_ok. Qed.

Lemma height_z gm o h : z_of (s_frame (at_height gm o h)) = V3 0 0 1.
Proof. cbn. unfold z_of, mv3, rot_of, mk4, v4_3, dot. cbn. f_equal; ring. Qed.
Lemma height_centre gm o h : centre (at_height gm o h) = V3 0 0 h.
Proof. unfold centre. cbn. unfold app4, mv4, hom, v4_3, dot4. cbn. f_equal; ring. Qed.

Lemma slanted_source : library_source slanted 1.
Proof.
  split.
  - split; [constructor|]. split; [|split; discriminate]. split; [eexists; reflexivity|].
    intros [] l E; cbn in E; congruence || (injection E as <-; reflexivity).
  - intros [|[|k]] d e Hd He; cbn in Hd, He; try discriminate. injection Hd as <-. injection He as <-.
    split; [unfold is_unit, norm2, dot; cbn; lra|]. split; [lra|]. intros m E. cbn in E. injection E as <-. lra.
Qed.

Lemma scene_answers surfs k g : length surfs = k -> surfs <> [] ->
  (forall s, In s surfs -> lib_surface s /\ geom_ok (s_geom s) /\ media_differ (s_opt s)) ->
  library_assembly [default_object k] surfs /\
  exists vs ds st, ray_tracer surface_ops [default_object k] surfs g slanted 9 (1 / 10) TreeTrue = Ok (vs, ds, st).
Proof.
  intros Lk Ne Hs.
  assert (La : library_assembly [default_object k] surfs).
  { split; [|split].
    - intros ob [<-|[]]. apply default_object_ok.
    - intros s H. apply Hs; auto.
    - rewrite Lk. unfold surf_ownership. cbn. rewrite app_nil_r. symmetry. apply repeat_length. }
  split; auto. assert (An : answering_assembly [default_object k] surfs).
  { split; auto. split; auto. split; [|intros s H; apply Hs; auto]. intros ob [<-|[]]. apply default_object_ok. }
  apply (tracing_answers _ _ An g _ 1 9%nat).
  - apply slanted_source.
  - intros _. discriminate.
  - right. discriminate.
Qed.

Ltac axial := unfold coaxial, layer, wall; rewrite ?height_z, ?height_centre; cbn [at_height new_surface s_geom]; unfold cross, vsub, dot; cbn [vx vy vz];
  repeat split; try lra; f_equal; lra.

Lemma symmetric_scenes : forall rg, fair rg -> let g := mkG rg (fun _ => mkAcc [] []) in
  library_source slanted 1 /\
  (library_assembly [default_object 4] bench /\ (forall s, In s bench -> specular (s_opt s) /\ coaxial (V3 0 0 5) (V3 0 0 1) s) /\
   exists vs ds st, ray_tracer surface_ops [default_object 4] bench g slanted 9 (1 / 10) TreeTrue = Ok (vs, ds, st)) /\
  (library_assembly [default_object 2] pane /\ (forall s, In s pane -> specular (s_opt s) /\ layer (V3 0 0 1) s) /\
   exists vs ds st, ray_tracer surface_ops [default_object 2] pane g slanted 9 (1 / 10) TreeTrue = Ok (vs, ds, st)) /\
  (library_assembly [default_object 1] tube /\ (forall s, In s tube -> specular (s_opt s) /\ wall (V3 0 0 1) s) /\
   exists vs ds st, ray_tracer surface_ops [default_object 1] tube g slanted 9 (1 / 10) TreeTrue = Ok (vs, ds, st)).
Proof.
  intros rg _ g. split; [apply slanted_source|].
  destruct (scene_answers bench 4 g eq_refl) as (A1 & T1); [discriminate| |].
  { intros s [<-|[<-|[<-|[<-|[]]]]]; (split; [apply height_ok; cbn; lra|]; cbn; split; auto; lra). }
  destruct (scene_answers pane 2 g eq_refl) as (A2 & T2); [discriminate| |].
  { intros s [<-|[<-|[]]]; (split; [apply height_ok; cbn; lra|]; cbn; split; auto; lra). }
  destruct (scene_answers tube 1 g eq_refl) as (A3 & T3); [discriminate| |].
  { intros s [<-|[]]; (split; [apply height_ok; cbn; lra|]; cbn; split; auto; lra). }
  split; [|split]; (split; [assumption|]; split; [|assumption]).
  - intros s [<-|[<-|[<-|[<-|[]]]]]; (split; [exact I|axial]).
  - intros s [<-|[<-|[]]]; (split; [exact I|axial]).
  - intros s [<-|[]]; (split; [exact I|axial]).
Qed.

Lemma met_mirror : forall rg, fair rg -> let g := mkG rg (fun _ => mkAcc [] []) in
  (forall s, In s one_mirror -> specular (s_opt s) /\ coaxial (V3 0 0 0) (V3 0 0 1) s /\ layer (V3 0 0 1) s) /\
  exists vs ds st lvl k d j, ray_tracer surface_ops [default_object 1] one_mirror g (drops [1; 2]) 3 (1 / 10) TreeTrue = Ok (vs, ds, st) /\
  nth_error (t_tree st) 1 = Some lvl /\ vert_at lvl k = Some (V3 0 0 0) /\ dir_at lvl k = Some d /\ descends (t_tree st) 1 k j.
Proof.
  intros rg Fr g. split.
  - intros s [<-|[]]. split; [exact I|]. change (mirror 0) with (at_height Flat (Absorbing (Reflective (1 / 2))) 0). split; axial.
  - destruct (mirror_trace g 3 TreeTrue ltac:(lia)) as (vs & ds & st & E).
    destruct (mirror_level g 3 vs ds st ltac:(lia) E) as (lvl & Hl & (k & _ & Hk) & _).
    destruct (trace_levels _ _ _ _ _ _ _ _ _ _ one_mirror_library (drops_source [1; 2]) E) as (_ & K).
    destruct (K _ _ Hl) as (_ & m & _ & Tm & _).
    destruct (traceable_parts _ _ Tm) as (vs0 & ds0 & es0 & E1 & E2 & E3 & L1 & L2 & L3).
    destruct (LibraryTop.nth_lt ds0 k) as (d & Hd). { unfold vert_at, at_col in Hk. rewrite E1 in Hk. assert (k < length vs0)%nat by (apply nth_error_Some; congruence). lia. }
    assert (Hd' : dir_at lvl k = Some d) by (unfold dir_at, at_col; rewrite E2; auto).
    destruct (conserved_top _ _ one_mirror_library _ g _ _ (drops_source [1; 2]) Fr _ _ _ _ E 1%nat lvl k _ d Hl Hk Hd') as ((j & D) & _).
    exists vs, ds, st, lvl, k, d, j. auto.
Qed.
