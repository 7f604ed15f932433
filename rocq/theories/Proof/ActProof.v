(** What surfaces do from registration to emission. *)
From Coq Require Import Reals List Arith Bool Lia Lra.
From Verif.Base Require Import Py Num Vec.
From Verif.Model Require Import RayBundle Geometry OpticsCallables Engine Objects Surface Assembly Scene.
From Verif.Spec Require Import BundleSpec EngineSpec GeometrySpec GeomIface OpticsSpec FrameSpec SceneSpec ModelSpec.
From Verif.Proof Require Import ListLemmas NumLemmas VecLemmas FlatProof GeomProof SelectProof GeomTop CallProof OpticsTop SurfaceProof.
Import ListNotations.
Local Open Scope R_scope.

Lemma up_kept gm st idx st' : select_geom gm st idx = Ok st' -> up st' = up st.
Proof.
  unfold select_geom. destruct st as [|fr b dt| |]; try discriminate.
  destruct dt; intros H; repeat (apply bind_ok in H as (? & ?E & H)); injection H as <-; reflexivity.
Qed.
Lemma up_found gm frame b st ps : find_intersections gm frame b = Ok (st, ps) -> up st = Ok (zaxis frame).
Proof.
  intros H. destruct gm; [discriminate|..]; unfold find_intersections in H;
    apply bind_ok in H as (ds & _ & H); apply bind_ok in H as (vs & _ & H); destruct (negb _); try discriminate;
    try (destruct (flat_find frame vs ds) as [ps0 back]);
    try (apply bind_ok in H as (x & _ & H)); try destruct x; injection H as <- _; reflexivity.
Qed.

Lemma acts_intro gm o frame Hit (Out : vec -> vec -> R -> vec -> R -> Prop) P : rigid frame -> finds gm frame Hit ->
  (forall v d t, Hit v d (Fin t) -> forall q g, ray_at v d t = app4 frame q -> is_gradient (implicit gm) q g -> norm2 g <> 0) ->
  (forall gs b n sel pts ns g, traceable b n -> (forall i, In i sel -> (i < n)%nat) -> told gs pts ns (zaxis frame) ->
     length pts = length sel -> Forall is_unit ns ->
     exists r g', call_optics o gs b sel g = Ok (r, g') /\ one_each b sel pts ns r P) ->
  (forall v d t q g e m d' e', Hit v d (Fin t) -> ray_at v d t = app4 frame q -> is_gradient (implicit gm) q g ->
     good_normal frame g d m -> P d e m d' e' -> Out (ray_at v d t) d e d' e') ->
  acts (Surface.new_surface gm o frame) Hit Out.
Proof.
  intros Rf Fi Gr Op Ou b n T. destruct (traceable_parts _ _ T) as (vs & ds & es & Ev & Ed & Ee & Lv & Ld & Le).
  assert (Hr : has_rays b vs ds) by (unfold has_rays; rewrite Lv, Ld; auto).
  destruct (Fi b vs ds Hr) as (st & ps & F & Lp & HP).
  assert (HH : forall j v d x, vert_at b j = Some v -> dir_at b j = Some d -> nth_error ps j = Some x -> Hit v d x).
  { intros j v d x V D X. unfold vert_at, dir_at, at_col in V, D. rewrite Ev in V. rewrite Ed in D. eauto. }
  eexists. exists ps. split; [unfold surf_register; cbn; rewrite F; reflexivity|]. split; [lia|]. split; [exact HH|].
  intros sel g A.
  assert (PH : forall i p, point_of b ps i p -> exists v d t, vert_at b i = Some v /\ dir_at b i = Some d /\
    nth_error ps i = Some (Fin t) /\ p = ray_at v d t /\ Hit v d (Fin t)).
  { intros i p Hp. destruct (at_point _ _ _ _ Hp) as (t & v & d & Et & V & D & ->). exists v, d, t. eauto 10. }
  destruct (select_total gm frame b st ps sel Rf F A) as (st' & Sel).
  { intros i p q h _ Hp Epq Hg. destruct (PH _ _ Hp) as (v & d & t & _ & _ & _ & E & Hh). rewrite E in Epq.
    exact (Gr v d t Hh q h Epq Hg). }
  destruct (selected_told gm frame b n st ps sel st' Rf T F A Sel) as (pts & ns & z & To & Lpt & Un & Fp & Ln).
  destruct (normals_reported gm frame b st ps sel st' Rf F A Sel) as (ns' & Gn & Fn).
  assert (ns' = ns) by (destruct To as (_ & Gn' & _); congruence). subst ns'.
  assert (Ez : z = zaxis frame).
  { destruct To as (_ & _ & U & _). rewrite (up_kept _ _ _ _ Sel), (up_found _ _ _ _ _ F) in U. congruence. }
  subst z. destruct (Op st' b n sel pts ns g T Ln To Lpt Un) as (r & g' & Ec & Tr & _ & Ch).
  eexists. exists r, g'. split; [unfold surf_select; cbn; rewrite Sel; reflexivity|]. split; [exact Ec|]. split; auto.
  intros k i v d e t Hk V D E Ht.
  destruct (nth_error pts k) as [p|] eqn:Hp.
  2:{ apply nth_error_None in Hp. assert (k < length sel)%nat by (apply nth_error_Some; congruence). lia. }
  destruct (nth_error ns k) as [m|] eqn:Hm.
  2:{ apply nth_error_None in Hm. assert (k < length sel)%nat by (apply nth_error_Some; congruence).
      destruct To as (_ & _ & _ & L). lia. }
  pose proof (Forall2_at _ _ _ _ _ _ Fp Hk Hp) as Pp. destruct (PH _ _ Pp) as (v' & d1 & t' & V' & D' & Ht' & Ep & Hh).
  rewrite V in V'. injection V' as <-. rewrite D in D'. injection D' as <-. rewrite Ht in Ht'. injection Ht' as <-.
  pose proof (Forall2_at _ _ _ _ _ _ Fn Hk Hm) as (d2 & p2 & q & h & D2 & P2 & Epq & Hg & Gm).
  assert (d2 = d). { destruct D2 as (vs2 & ds2 & (_ & Ed2 & _) & N2). unfold dir_at, at_col in D. rewrite Ed2 in D. congruence. }
  assert (p2 = p). { destruct (PH _ _ P2) as (v3 & d3 & t3 & V3 & D3 & T3 & -> & _). congruence. }
  subst d2 p2 p.
  destruct (Ch k i d e (ray_at v d t) m) as (d' & e' & HPd & C).
  { repeat split; auto. }
  exists d', e'. split; auto. eapply Ou; eauto.
Qed.

(** ** Rectangular plates *)

Lemma mirrored_same n k d d' : is_unit n -> norm2 (vscale k n) = 1 -> mirrored (vscale k n) d d' -> mirrored n d d'.
Proof.
  intros U K. assert (K2 : k * k = 1).
  { unfold is_unit in U. replace (norm2 (vscale k n)) with (k * k * norm2 n) in K by (destruct n; vunfold; ring). rewrite U in K. lra. }
  unfold mirrored, tangential. intros (A & B).
  assert (Ds : forall x, dot x (vscale k n) = k * dot x n) by (intros x; destruct x, n; vunfold; ring).
  rewrite !Ds in A. split; [apply (Rmult_eq_reg_l k); [lra|intros ->; lra]|].
  rewrite !Ds in B. assert (Vs : forall x, vscale (k * x) (vscale k n) = vscale x n).
  { intros x. replace (vscale (k * x) (vscale k n)) with (vscale (k * k * x) n) by (destruct n; vunfold; veq; ring).
    rewrite K2, Rmult_1_l. reflexivity. }
  rewrite !Vs in B. exact B.
Qed.

Lemma flat_gradient q g : is_gradient (fun q => vz q) q g -> g = V3 0 0 1.
Proof.
  intros (A & B & C). destruct g as [x y z]. cbn in *.
  assert (x = 0) by (eapply uniqueness_limite; [exact A|]; apply derivable_pt_lim_const).
  assert (y = 0) by (eapply uniqueness_limite; [exact B|]; apply derivable_pt_lim_const).
  assert (z = 1) by (eapply uniqueness_limite; [exact C|]; apply derivable_pt_lim_id).
  congruence.
Qed.
Lemma zaxis_z_of frame : rigid frame -> zaxis frame = z_of frame.
Proof. intros (r & t & -> & _). rewrite zaxis_mk4, z_of_mk4. reflexivity. Qed.
Lemma z_of_unit frame : rigid frame -> is_unit (z_of frame).
Proof.
  intros (r & t & -> & O). rewrite z_of_mk4. unfold is_unit. unfold orthonormal in O.
  destruct r as [[a b c] [d e f] [g h i]]. apply (f_equal (fun m => vz (r3 m))) in O. vunfold. lra.
Qed.

Lemma rect_acts w h o frame (E : vec -> R -> R -> Prop) P : 0 < w -> 0 < h -> rigid frame ->
  (forall gs b n sel pts ns g, traceable b n -> (forall i, In i sel -> (i < n)%nat) -> told gs pts ns (zaxis frame) ->
     length pts = length sel -> Forall is_unit ns ->
     exists r g', call_optics o gs b sel g = Ok (r, g') /\ one_each b sel pts ns r P) ->
  (forall d e m d' e', P d e m d' e' -> mirrored m d d' /\ E d e e') ->
  acts (Surface.new_surface (RectPlate (w / 2) (h / 2)) o frame)
    (meets_flat (placed frame (rectangle w h)) (z_of frame)) (fun p d e d' e' => mirrored (z_of frame) d d' /\ E d e e').
Proof.
  intros Hw Hh Rf Op PE.
  assert (Eg : new_rect_plate w h = Ok (RectPlate (w / 2) (h / 2))).
  { unfold new_rect_plate. rewrite !(proj2 (Rleb_false _ _)) by lra. reflexivity. }
  apply acts_intro with P; auto.
  - exact (rect_finds w h _ frame Eg Rf).
  - intros v d t _ q g _ Hg. apply flat_gradient in Hg. subst g. vunfold. lra.
  - intros v d t q g e m d' e' _ _ Hg (U & (k & ->) & _) HP. apply flat_gradient in Hg. subst g.
    destruct (PE _ _ _ _ _ HP) as (M & He). split; auto. eapply mirrored_same; eauto. apply z_of_unit; auto.
Qed.

Lemma one_way_rect w h a frame : 0 < w -> 0 < h -> rigid frame ->
  one_way_mirror (Surface.new_surface (RectPlate (w / 2) (h / 2)) (Absorbing (AbsorberReflector a)) frame)
    (placed frame (rectangle w h)) (z_of frame) (1 - a).
Proof.
  intros Hw Hh Rf. unfold one_way_mirror.
  apply (rect_acts w h (Absorbing (AbsorberReflector a)) frame
    (fun d e e' => (dot d (z_of frame) <= 0 -> e' = e * (1 - a)) /\ (0 < dot d (z_of frame) -> e' = 0))
    (fun d e n d' e' => mirrored n d d' /\
      (dot d (zaxis frame) <= 0 -> e' = e * (1 - a)) /\ (0 < dot d (zaxis frame) -> e' = 0))); auto.
  - intros gs b n sel pts ns g T Ln To Lp Un.
    destruct (absorber_top a gs b n sel pts ns _ g T Ln To Lp Un) as (r & Ec & O). exists r, g. auto.
  - rewrite zaxis_z_of by auto. auto.
Qed.
Lemma flat_rect w h a frame : 0 < w -> 0 < h -> rigid frame ->
  flat_mirror (Surface.new_surface (RectPlate (w / 2) (h / 2)) (Absorbing (Reflective a)) frame)
    (placed frame (rectangle w h)) (z_of frame) (1 - a).
Proof.
  intros Hw Hh Rf. unfold flat_mirror.
  apply (rect_acts w h (Absorbing (Reflective a)) frame (fun d e e' => e' = e * (1 - a))
    (fun d e n d' e' => mirrored n d d' /\ e' = e * (1 - a))); auto.
  intros gs b n sel pts ns g T Ln To Lp Un.
  destruct (reflective_top a gs b n sel pts ns _ g T Ln To Lp Un) as (r & Ec & O). exists r, g. auto.
Qed.
Lemma flat_receiver w h id a frame : 0 < w -> 0 < h -> rigid frame ->
  flat_mirror (Surface.new_surface (RectPlate (w / 2) (h / 2)) (Accountant id (Reflective a)) frame)
    (placed frame (rectangle w h)) (z_of frame) (1 - a).
Proof.
  intros Hw Hh Rf. unfold flat_mirror.
  apply (rect_acts w h (Accountant id (Reflective a)) frame (fun d e e' => e' = e * (1 - a))
    (fun d e n d' e' => mirrored n d d' /\ e' = e * (1 - a))); auto.
  intros gs b n sel pts ns g T Ln To Lp Un.
  destruct (reflective_top a gs b n sel pts ns _ g T Ln To Lp Un) as (r & Ec & O).
  destruct (accountant_call id (Reflective a) gs b n sel pts ns _ g r g T Ln To Lp Ec) as (g' & E' & _).
  exists r, g'. auto.
Qed.
