(** Light between two plane mirrors, and a corner of three. *)
From Coq Require Import Reals List Arith Bool Lra Lia.
From Verif.Base Require Import Py Num Vec.
From Verif.Model Require Import RayBundle Boundary Geometry TraceTree Sources OpticsCallables Engine Objects Surface.
From Verif.Proof Require Import ListLemmas NumLemmas VecLemmas GeomProof GeomTop GeomCases EngineTop AnswerProof ObjectProof OrderCase FoundProof FoundCase ImageProof.
From Verif.Spec Require Import BundleSpec EngineSpec GeometrySpec GeomIface OpticsSpec LibrarySpec LawSpec BackSpec SightSpec FoundSpec ImageSpec.
Import ListNotations.
Local Open Scope R_scope.

Lemma mirrors_plane h h' : forall s, In s (pair_of h h') -> plane_mirror s.
Proof. intros s [<-|[<-|[]]]; split; exact I. Qed.

(** The ray that has come down and up again is the source's ray, seen in two mirrors. *)
Lemma seen_twice : forall g, fair (g_rng g) -> forall me reps, me < 1/2 -> (2 <= reps)%nat ->
  let objs := [default_object 2] in let surfs := pair_of 0 1 in let b := drops [1/2; 3] in
  library_assembly objs surfs /\ (forall s, In s surfs -> plane_mirror s) /\ library_source b 2 /\
  exists vs ds st, ray_tracer surface_ops objs surfs g b reps me TreeTrue = Ok (vs, ds, st) /\
  exists lvl k j v0 d0 s1 s2 t, nth_error (t_tree st) 2 = Some lvl /\ came_by surfs (t_tree st) 2 k j [s1; s2] t /\
    In s1 surfs /\ In s2 surfs /\ vert_at b j = Some v0 /\ dir_at b j = Some d0 /\
    V3 0 0 1 = images (ray_at v0 d0 t) [s1; s2] /\ V3 0 0 (-1) = image_dirs d0 [s1; s2].
Proof.
  intros g Fg me reps Hm Hr objs surfs b.
  destruct (between_mirrors g Fg me reps 2 ltac:(lia) Hr) as (La & Ls & vs & ds & st & E & lvl & k & A1 & _ & A3 & A4 & _).
  { intros _. cbn [Nat.sub pow]. lra. }
  pose proof (mirrors_plane 0 1) as Pm. split; [exact La|]. split; [exact Pm|]. split; [exact Ls|]. exists vs, ds, st. split; [exact E|].
  destruct (images_top objs surfs La Pm me g b 2 Ls Fg reps vs ds st E 2 lvl k _ _ A1 A3 A4) as (j & v0 & d0 & ss & t & C & V0 & D0 & Len & _ & Fs & Ev & Ed).
  destruct ss as [|s1 [|s2 [|]]]; try discriminate. inversion Fs as [|? ? I1 Fs']; subst. inversion Fs' as [|? ? I2 _]; subst.
  exists lvl, k, j, v0, d0, s1, s2, t. split; [exact A1|]. split; [exact C|]. split; [exact I1|]. split; [exact I2|]. split; [exact V0|]. split; [exact D0|].
  split; [exact Ev|exact Ed].
Qed.

(** Three mirrors in the planes of the coordinates. *)
Definition facing_x : mat3 := M3 (V3 0 0 1) (V3 1 0 0) (V3 0 1 0).
Definition facing_y : mat3 := M3 (V3 0 1 0) (V3 0 0 1) (V3 1 0 0).
Definition standing (m : mat3) : surface := new_surface Flat (Absorbing (Reflective (1/2))) (mk4 m (V3 0 0 0)).
Lemma corner_case : 
  let x := standing facing_x in let y := standing facing_y in let z := standing id3 in
  rigid (s_frame x) /\ rigid (s_frame y) /\ rigid (s_frame z) /\ perpendicular x y /\ perpendicular y z /\ perpendicular x z /\
  on_plane x (V3 0 0 0) /\ on_plane y (V3 0 0 0) /\ on_plane z (V3 0 0 0).
Proof.
  cbv zeta. assert (Rg : forall m, orthonormal m -> rigid (s_frame (standing m))) by (intros m H; exists m, (V3 0 0 0); split; [reflexivity|exact H]).
  assert (Op : forall m, on_plane (standing m) (V3 0 0 0)).
  { intros [[] [] []]. unfold on_plane, middle, axis, z_of, standing. vunfold. cbn. vunfold. ring. }
  split; [apply Rg; unfold orthonormal, facing_x; vunfold; veq; ring|]. split; [apply Rg; unfold orthonormal, facing_y; vunfold; veq; ring|]. split; [apply Rg; apply id_ok|].
  repeat split; try apply Op; unfold perpendicular, axis, z_of, standing, facing_x, facing_y; cbn; vunfold; ring.
Qed.

Definition corner_cube : list surface := [standing facing_x; standing facing_y; standing id3].
Lemma cube_square : square corner_cube.
Proof.
  destruct corner_case as (_ & _ & _ & Pxy & Pyz & Pxz & _). unfold perpendicular in *.
  intros s s' [<-|[<-|[<-|[]]]] [<-|[<-|[<-|[]]]] N; try (destruct (N eq_refl)); unfold perpendicular; auto; rewrite dot_comm; auto.
Qed.
Lemma cube_library : library_assembly [default_object 3] corner_cube.
Proof.
  destruct corner_case as (Rx & Ry & Rz & _). split; [|split].
  - intros ob [<-|[]]. apply default_object_ok.
  - intros s [<-|[<-|[<-|[]]]]; (split; [assumption|]); (split; [cbn; lra|]); split; reflexivity.
  - reflexivity.
Qed.
Lemma cube_plane : forall s, In s corner_cube -> plane_mirror s.
Proof. intros s [<-|[<-|[<-|[]]]]; split; exact I. Qed.
Lemma cube_point : forall s, In s corner_cube -> on_plane s (V3 0 0 0).
Proof. destruct corner_case as (_ & _ & _ & _ & _ & _ & Ox & Oy & Oz). intros s [<-|[<-|[<-|[]]]]; assumption. Qed.
Lemma cube_answers : answering_assembly [default_object 3] corner_cube.
Proof.
  split; [apply cube_library|]. split; [discriminate|]. split.
  - intros ob [<-|[]]. apply default_object_ok.
  - intros s [<-|[<-|[<-|[]]]]; split; exact I.
Qed.
Lemma cube_media b : knows_media corner_cube b.
Proof. intros (s & [<-|[<-|[<-|[]]]] & H); destruct H. Qed.

(** A ray that meets all three. *)
Lemma placed_x p : placed (mk4 facing_x (V3 0 0 0)) xy_plane p <-> vx p = 0.
Proof.
  split.
  - intros (q & Hq & ->). unfold xy_plane in Hq. unfold app4, mk4, facing_x. vunfold. rewrite Hq. ring.
  - intros H. exists (V3 (vy p) (vz p) 0). split; [reflexivity|]. destruct p. cbn in H. subst. unfold app4, mk4, facing_x. vunfold. f_equal; ring.
Qed.
Lemma placed_y p : placed (mk4 facing_y (V3 0 0 0)) xy_plane p <-> vy p = 0.
Proof.
  split.
  - intros (q & Hq & ->). unfold xy_plane in Hq. unfold app4, mk4, facing_y. vunfold. rewrite Hq. ring.
  - intros H. exists (V3 (vz p) (vx p) 0). split; [reflexivity|]. destruct p. cbn in H. subst. unfold app4, mk4, facing_y. vunfold. f_equal; ring.
Qed.
Lemma placed_z p : placed (mk4 id3 (V3 0 0 0)) xy_plane p <-> vz p = 0.
Proof.
  split.
  - intros (q & Hq & ->). unfold xy_plane in Hq. unfold app4, mk4, id3. vunfold. rewrite Hq. ring.
  - intros H. exists (V3 (vx p) (vy p) 0). split; [reflexivity|]. destruct p. cbn in H. subst. unfold app4, mk4, id3. vunfold. f_equal; ring.
Qed.
Lemma standing_way m v d : 1/3 <= Rabs (dot d (axis (standing m))) -> in_the_way (standing m) v d (placed (mk4 m (V3 0 0 0)) xy_plane).
Proof.
  intros H. exists xy_plane, (fun _ d => inclined (mk4 m (V3 0 0 0)) d). split; [apply as_plane|]. split; [|reflexivity].
  unfold inclined, tenm. cbn [standing new_surface s_frame] in *. unfold axis in H. cbn [standing new_surface s_frame] in H. lra.
Qed.

Definition steep (d : vec) : Prop := 1/3 <= Rabs (vx d) /\ 1/3 <= Rabs (vy d) /\ 1/3 <= Rabs (vz d).
Lemma cube_clear v d t : steep d ->
  (forall u, 0 < u < t -> vx (ray_at v d u) <> 0 /\ vy (ray_at v d u) <> 0 /\ vz (ray_at v d u) <> 0) -> clear_until corner_cube v d t.
Proof.
  intros (Sx & Sy & Sz) H s [<-|[<-|[<-|[]]]]; eexists; (split; [apply standing_way|]).
  - replace (dot d (axis (standing facing_x))) with (vx d); [exact Sx|]. destruct d. unfold axis, z_of, standing, facing_x. cbn. vunfold. ring.
  - intros u Hu K. apply placed_x in K. apply (proj1 (H u Hu)). exact K.
  - replace (dot d (axis (standing facing_y))) with (vy d); [exact Sy|]. destruct d. unfold axis, z_of, standing, facing_y. cbn. vunfold. ring.
  - intros u Hu K. apply placed_y in K. apply (proj1 (proj2 (H u Hu))). exact K.
  - replace (dot d (axis (standing id3))) with (vz d); [exact Sz|]. destruct d. unfold axis, z_of, standing, id3. cbn. vunfold. ring.
  - intros u Hu K. apply placed_z in K. apply (proj2 (proj2 (H u Hu))). exact K.
Qed.

(** Light meets the mirror [standing m] on its front. *)
Definition fold_at (m : mat3) (p n d d' : vec) : meeting := mkMeeting (standing m) false p n d d' None None.
Lemma fold_lawful m p n d d' e : is_unit d -> n = axis (standing m) -> is_unit n -> dot d n < 0 -> mirrored n d d' ->
  placed (mk4 m (V3 0 0 0)) xy_plane p -> lawful_meeting (fold_at m p n d d') e (e * (1 - 1/2)).
Proof.
  intros Ud En Un Dn M (q & Hq & Ep). split; [exact Ud|]. split.
  - exists q, (V3 0 0 1). split; [exact Ep|]. split.
    + cbn. repeat split; cbn; [apply derivable_pt_lim_const|apply derivable_pt_lim_const|apply derivable_pt_lim_id].
    + split; [exact Un|]. split; [|cbn [fold_at mt_in mt_normal]; rewrite dot_comm; lra].
      exists 1. cbn [fold_at mt_normal mt_surf]. rewrite En. unfold axis, z_of, standing. cbn [new_surface s_frame].
      match goal with |- ?w = _ => generalize w end. intros []. vunfold. f_equal; ring.
  - cbn [fold_at mt_surf mt_through mt_normal mt_in mt_out mt_before mt_after standing new_surface s_opt follows].
    split; [reflexivity|]. split; [exact M|split; reflexivity].
Qed.

Definition inward : vec := V3 (-2/3) (-1/3) (-2/3).
Definition single (v d : vec) : bundle := mkB (Some [v]) (Some [d]) (Some [1]) None None [].
Lemma single_source v d : is_unit d -> library_source (single v d) 1.
Proof.
  intros U. split.
  - split; [|split; [|split; discriminate]]; [constructor|].
    split; [eexists; reflexivity|]. intros p l H. destruct p; simpl in H; try discriminate; injection H as <-; reflexivity.
  - intros k d' e Hd He. cbn in Hd, He. destruct k as [|[|]]; try discriminate. injection Hd as <-. injection He as <-.
    split; [exact U|]. split; [lra|]. intros n H. discriminate H.
Qed.
Definition three_folds : list meeting :=
  [fold_at facing_x (V3 0 (1/2) 2) (V3 1 0 0) inward (V3 (2/3) (-1/3) (-2/3));
   fold_at facing_y (V3 1 0 1) (V3 0 1 0) (V3 (2/3) (-1/3) (-2/3)) (V3 (2/3) (1/3) (-2/3));
   fold_at id3 (V3 2 (1/2) 0) (V3 0 0 1) (V3 (2/3) (1/3) (-2/3)) (V3 (2/3) (1/3) (2/3))].

Ltac steep_tac := unfold steep, inward; cbn [vx vy vz]; repeat split; unfold Rabs; destruct (Rcase_abs _); lra.
Ltac fold_tac t :=
  eapply (seen_next _ _ _ _ _ _ t);
  [ cbn; tauto
  | apply cube_clear; [steep_tac|]; intros u Hu; unfold ray_at, inward; vunfold; split; [|split]; intros K; lra
  | split; [unfold tenm; lra|]; eexists; split; [cbn [fold_at mt_surf]; apply standing_way;
      unfold axis, z_of, standing, inward, facing_x, facing_y, id3; cbn; vunfold; unfold Rabs; destruct (Rcase_abs _); lra
    | first [apply placed_x | apply placed_y | apply placed_z]; unfold ray_at, inward; vunfold; lra]
  | cbn [fold_at mt_point]; unfold ray_at, inward; vunfold; f_equal; lra
  | reflexivity | reflexivity
  | apply fold_lawful; [unfold is_unit, inward; vunfold; lra | unfold axis, z_of, standing, facing_x, facing_y, id3; cbn; vunfold; f_equal; ring
      | unfold is_unit; vunfold; lra | unfold inward; vunfold; lra
      | unfold mirrored, tangential, inward; split; vunfold; [|f_equal]; lra
      | first [apply placed_x | apply placed_y | apply placed_z]; reflexivity]
  | exact I | cbn [fold_at mt_normal]; unfold inward; vunfold; intros K; lra
  | intros Np; first [lra | destruct (Np eq_refl)] | cbn [fold_at mt_point mt_out mt_after] ].

Lemma cube_way me : me < 1/4 -> seen_way corner_cube me (V3 1 1 3) inward 1 None three_folds (V3 2 (1/2) 0) (V3 (2/3) (1/3) (2/3)) (1 * (1 - 1/2) * (1 - 1/2) * (1 - 1/2)) None.
Proof.
  intros Hm. unfold three_folds. fold_tac (3/2). fold_tac (3/2). fold_tac (3/2). constructor.
Qed.

(** The ray is sent back. *)
Lemma cube_trace : forall g, fair (g_rng g) -> forall me reps, me < 1/4 -> (3 <= reps)%nat ->
  let objs := [default_object 3] in let surfs := corner_cube in let b := single (V3 1 1 3) inward in
  library_assembly objs surfs /\ (forall s, In s surfs -> plane_mirror s) /\ square surfs /\ (forall s, In s surfs -> on_plane s (V3 0 0 0)) /\ library_source b 1 /\
  exists vs ds st, ray_tracer surface_ops objs surfs g b reps me TreeTrue = Ok (vs, ds, st) /\
  exists lvl k, nth_error (t_tree st) 3 = Some lvl /\ descends (t_tree st) 3 k 0 /\
    vert_at lvl k = Some (V3 2 (1/2) 0) /\ dir_at lvl k = Some (V3 (2/3) (1/3) (2/3)).
Proof.
  intros g Fg me reps Hm Hr objs surfs b.
  assert (Ls : library_source b 1) by (apply single_source; unfold is_unit, inward; vunfold; lra).
  split; [apply cube_library|]. split; [apply cube_plane|]. split; [apply cube_square|]. split; [apply cube_point|]. split; [exact Ls|].
  destruct (tracing_answers _ _ cube_answers g b 1 reps me TreeTrue Ls (cube_media b)) as (vs & ds & st & E); [left; lia|].
  exists vs, ds, st. split; [exact E|].
  assert (Df : forall ob, In ob objs -> exists k, ob = default_object k) by (intros ob [<-|[]]; eauto).
  destruct (found_top objs surfs cube_library Df me g b 1 Ls Fg reps vs ds st E 0%nat (V3 1 1 3) inward 1 eq_refl eq_refl eq_refl three_folds _ _ _ _ (cube_way me Hm) Hr) as (lvl & k & A1 & A2 & A3 & A4 & _).
  exists lvl, k. auto.
Qed.
