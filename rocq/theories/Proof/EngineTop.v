(** Traces of library assemblies: consequences stated without the engine's data,
    and concrete traces. *)
From Coq Require Import Reals String List Arith ZArith Bool Permutation Lia Lra.
From Verif.Base Require Import Py Num Vec.
From Verif.Model Require Import RayBundle TraceTree Boundary Geometry Spatial Optics OpticsCallables Engine Objects Surface.
From Verif.Spec Require Import BundleSpec EngineSpec GeometrySpec GeomIface OpticsSpec LibrarySpec.
From Verif.Proof Require Import ListLemmas NumLemmas VecLemmas FlatProof QuadProof GeomProof GeomTop GeomCases BundleProof
  IntersectProof ProcessProof IterProof TraceProof TreeProof EngineMore SurfaceProof SimProof TreeArgProof LibraryTop
  ProgressProof AnswerProof ObjectProof OpticsProof CallProof OpticsTop.
Import ListNotations.

(** ** Reports of library surfaces, ray by ray *)
Lemma picks_at {A} (l : list A) idx l' q j x : picks l idx l' -> nth_error idx q = Some j ->
  nth_error l j = Some x -> nth_error l' q = Some x.
Proof.
  intros H Hj Hx. unfold picks in H. rewrite Forall2_nth in H. destruct H as (L & H).
  destruct (nth_lt l' q) as (y & Hy). { rewrite <- L. apply nth_error_Some. congruence. }
  specialize (H q j y Hj Hy). congruence.
Qed.
Lemma picked_vert b idx b' q j v : rays_picked b idx b' -> nth_error idx q = Some j ->
  vert_at b j = Some v -> vert_at b' q = Some v.
Proof.
  intros H Hj Hv. specialize (H Vertices). unfold vert_at, at_col in *. simpl in H.
  destruct (b_vert b) as [l|]; [|discriminate]. simpl in H. destruct H as (l' & E & P).
  destruct (b_vert b') as [l2|]; [|discriminate]. injection E as <-.
  pose proof (picks_at _ _ _ q j (PVec v) P Hj) as K. rewrite !nth_error_map, Hv in K. specialize (K eq_refl).
  destruct (nth_error l2 q); [|discriminate]. simpl in K. congruence.
Qed.
Lemma picked_dir b idx b' q j v : rays_picked b idx b' -> nth_error idx q = Some j ->
  dir_at b j = Some v -> dir_at b' q = Some v.
Proof.
  intros H Hj Hv. specialize (H Directions). unfold dir_at, at_col in *. simpl in H.
  destruct (b_dir b) as [l|]; [|discriminate]. simpl in H. destruct H as (l' & E & P).
  destruct (b_dir b') as [l2|]; [|discriminate]. injection E as <-.
  pose proof (picks_at _ _ _ q j (PVec v) P Hj) as K. rewrite !nth_error_map, Hv in K. specialize (K eq_refl).
  destruct (nth_error l2 q); [|discriminate]. simpl in K. congruence.
Qed.

Lemma register_param s sub s' ps q v d inv : regular (s_geom s) = true -> inv_for (s_geom s) (s_frame s) inv ->
  surf_register s sub = Ok (s', ps) -> vert_at sub q = Some v -> dir_at sub q = Some d ->
  nth_error ps q = Some (param_of (s_geom s) (s_frame s) inv v d).
Proof.
  intros Rg I H Hv Hd. unfold surf_register in H. apply bind_ok in H. destruct H as ([gs ps0] & E & H).
  injection H as _ <-. destruct (find_bundle _ _ _ _ _ E) as (vs & ds & B).
  rewrite (find_regular _ _ inv _ vs ds Rg I B) in E. injection E as _ <-.
  destruct B as (Ev & Ed & L). unfold vert_at, dir_at, at_col in *. rewrite Ev in Hv. rewrite Ed in Hd.
  rewrite map2_nth_error, Hv, Hd. reflexivity.
Qed.

Lemma register_inv s sub s' ps : regular (s_geom s) = true -> surf_register s sub = Ok (s', ps) ->
  exists inv, inv_for (s_geom s) (s_frame s) inv.
Proof.
  intros Rg H. unfold surf_register in H. apply bind_ok in H. destruct H as ([gs ps0] & E & H).
  exact (find_inv _ _ _ _ _ Rg E).
Qed.

Lemma reported_param surfs prev n T tb i j s x v d inv : reported surface_ops surfs prev n T tb ->
  nth_error surfs i = Some s -> regular (s_geom s) = true -> inv_for (s_geom s) (s_frame s) inv ->
  T i j = Some x -> vert_at prev j = Some v -> dir_at prev j = Some d ->
  x = param_of (s_geom s) (s_frame s) inv v d.
Proof.
  intros (Ht & Hp & Hr & Ha) Hs Rg I HT Hv Hd. destruct (Hr i j) as (_ & Hj); [congruence|].
  assert (Hin : In j (asked T n i)) by (apply asked_in; split; auto; congruence).
  destruct (Ha i s Hs) as (s' & [(E & _)|(_ & sub & ps & Hn & Hsub & Hreg & HF)]).
  { rewrite E in Hin. destruct Hin. }
  destruct (In_nth_error _ _ Hin) as (q & Hq). rewrite Forall2_nth in HF. destruct HF as (L & HF).
  assert (Hsub' : rays_picked prev (asked T n i) sub).
  { eapply picked_from_seq; [|exact Hp|exact Hsub]. intros k Hk. apply asked_in in Hk. tauto. }
  pose proof (register_param s sub s' ps q v d inv Rg I Hreg (picked_vert _ _ _ _ _ _ Hsub' Hq Hv)
    (picked_dir _ _ _ _ _ _ Hsub' Hq Hd)) as E.
  pose proof (HF q j _ Hq E). congruence.
Qed.

(** A report that was made comes from a surface whose frame can be inverted. *)
Lemma reported_inv surfs prev n T tb i j s : reported surface_ops surfs prev n T tb ->
  nth_error surfs i = Some s -> regular (s_geom s) = true -> T i j <> None ->
  exists inv, inv_for (s_geom s) (s_frame s) inv.
Proof.
  intros (Ht & Hp & Hr & Ha) Hs Rg HT. destruct (Hr i j HT) as (_ & Hj).
  assert (Hin : In j (asked T n i)) by (apply asked_in; split; auto).
  destruct (Ha i s Hs) as (s' & [(E & _)|(_ & sub & ps & Hn & Hsub & Hreg & HF)]).
  { rewrite E in Hin. destruct Hin. }
  exact (register_inv _ _ _ _ Rg Hreg).
Qed.

Lemma facts_reported {S G} (ops : surf_ops S G) b n surfs sown own rel ss fr owned T : traceable b n ->
  intersect_facts ops b n surfs sown own rel ss fr owned T -> reported ops surfs b n T b.
Proof.
  intros Ht F. split; auto. split; [apply picked_seq_refl; apply Ht|]. split; [exact (if_range _ _ _ _ _ _ _ _ _ _ _ F)|].
  intros i s Hs. destruct (if_answers _ _ _ _ _ _ _ _ _ _ _ F i s Hs) as (s' & _ & A). eauto.
Qed.

(** ** C13: the only coupling between rays is the cut-off *)
Lemma report_same surfs prev prev' n n' T T' tb tb' i j j' v d :
  (forall s, In s surfs -> regular (s_geom s) = true) ->
  reported surface_ops surfs prev n T tb -> reported surface_ops surfs prev' n' T' tb' ->
  vert_at prev j = Some v -> dir_at prev j = Some d -> vert_at prev' j' = Some v -> dir_at prev' j' = Some d ->
  (T i j = None <-> T' i j' = None) -> T i j = T' i j'.
Proof.
  intros Hg R R' Hv Hd Hv' Hd' Hn.
  destruct (T i j) as [x|] eqn:E.
  2:{ symmetry. apply Hn. auto. }
  destruct (T' i j') as [x'|] eqn:E'. 2:{ exfalso. destruct Hn as (_ & Hn). specialize (Hn eq_refl). discriminate. }
  pose proof R as (_ & _ & Hr & _). destruct (Hr i j) as (Hi & _); [congruence|].
  destruct (nth_lt surfs i Hi) as (s & Hs). pose proof (Hg s (nth_error_In _ _ Hs)) as Rg.
  destruct (reported_inv surfs prev n T tb i j s R Hs Rg) as (inv & I); [congruence|].
  rewrite (reported_param _ _ _ _ _ _ _ _ _ _ _ _ R Hs Rg I E Hv Hd).
  rewrite (reported_param _ _ _ _ _ _ _ _ _ _ _ _ R' Hs Rg I E' Hv' Hd'). reflexivity.
Qed.

Lemma meets_same T T' nsurf n n' i j j' t : j < n -> j' < n' -> (forall i, T i j = T' i j') ->
  (cutoff_on T nsurf n <-> cutoff_on T' nsurf n') ->
  meets_first T nsurf n i j t -> meets_first T' nsurf n' i j' t.
Proof.
  intros Hj Hj' HT Hc (A & B & C & D & E).
  assert (HD : forall t, discarded T nsurf n t <-> discarded T' nsurf n' t) by (intros; unfold discarded; tauto).
  split; auto. split; auto. rewrite <- HT. split; auto. split; [rewrite <- HD; auto|].
  intros i' Hi'. specialize (E i' Hi'). rewrite <- HT. destruct (T i' j) as [[| | |]|]; auto. rewrite <- HD. auto.
Qed.

Lemma rays_vert_lt b n j v : BundleSpec.rays b n -> vert_at b j = Some v -> j < n.
Proof.
  intros (_ & Hr) H. unfold vert_at, at_col in H. destruct (b_vert b) as [l|] eqn:E; [|discriminate].
  specialize (Hr Vertices (map PVec l)). rewrite map_length in Hr. rewrite <- Hr; [|simpl; rewrite E; auto].
  apply nth_error_Some. congruence.
Qed.

Lemma independent_given_cutoff surfs sown b b' n n' own own' rel rel' ss ss' fr fr' ow ow' :
  (forall s, In s surfs -> regular (s_geom s) = true) -> traceable b n -> traceable b' n' ->
  intersect_ray surface_ops b surfs sown own rel = Ok (ss, fr, ow) ->
  intersect_ray surface_ops b' surfs sown own' rel' = Ok (ss', fr', ow') ->
  exists T T',
    (forall i j, i < length surfs -> j < n -> (T i j <> None <-> may_test sown own rel i j)) /\
    (forall i j, i < length surfs -> j < n' -> (T' i j <> None <-> may_test sown own' rel' i j)) /\
    reported surface_ops surfs b n T b /\ reported surface_ops surfs b' n' T' b' /\
    forall j j' v d, vert_at b j = Some v -> dir_at b j = Some d -> vert_at b' j' = Some v -> dir_at b' j' = Some d ->
      (forall i, may_test sown own rel i j <-> may_test sown own' rel' i j') ->
      (forall i, i < length surfs -> T i j = T' i j') /\
      ((cutoff_on T (length surfs) n <-> cutoff_on T' (length surfs) n') ->
       forall i, at2 fr i j = Some true <-> at2 fr' i j' = Some true).
Proof.
  intros Hg Ht Ht' E E'.
  destruct (intersect_ray_facts _ _ _ _ _ _ _ _ _ _ (proj1 (proj2 Ht)) (proj1 Ht) E) as (T & F).
  destruct (intersect_ray_facts _ _ _ _ _ _ _ _ _ _ (proj1 (proj2 Ht')) (proj1 Ht') E') as (T' & F').
  pose proof (facts_reported _ _ _ _ _ _ _ _ _ _ _ Ht F) as R. pose proof (facts_reported _ _ _ _ _ _ _ _ _ _ _ Ht' F') as R'.
  exists T, T'. split; [exact (if_tested _ _ _ _ _ _ _ _ _ _ _ F)|]. split; [exact (if_tested _ _ _ _ _ _ _ _ _ _ _ F')|].
  split; auto. split; auto. intros j j' v d Hv Hd Hv' Hd' Hm.
  assert (Hj : j < n) by (eapply rays_vert_lt; [apply Ht|eauto]).
  assert (Hj' : j' < n') by (eapply rays_vert_lt; [apply Ht'|eauto]).
  assert (Hsame : forall i, T i j = T' i j').
  { intros i. eapply report_same; eauto.
    destruct (lt_dec i (length surfs)) as [Hi|Hi].
    - pose proof (if_tested _ _ _ _ _ _ _ _ _ _ _ F i j Hi Hj) as H1.
      pose proof (if_tested _ _ _ _ _ _ _ _ _ _ _ F' i j' Hi Hj') as H2. specialize (Hm i).
      destruct (T i j), (T' i j'); split; intros; try congruence; exfalso.
      + assert (may_test sown own' rel' i j') by (apply Hm, H1; discriminate). apply H2 in H0. congruence.
      + assert (may_test sown own rel i j) by (apply Hm, H2; discriminate). apply H1 in H0. congruence.
    - assert (T i j = None) as ->.
      { destruct (T i j) eqn:E1; auto. exfalso. apply Hi. apply (if_range _ _ _ _ _ _ _ _ _ _ _ F i j). congruence. }
      assert (T' i j' = None) as ->; [|tauto].
      { destruct (T' i j') eqn:E1; auto. exfalso. apply Hi. apply (if_range _ _ _ _ _ _ _ _ _ _ _ F' i j'). congruence. } }
  split; [auto|]. intros Hc i.
  rewrite (if_first _ _ _ _ _ _ _ _ _ _ _ F), (if_first _ _ _ _ _ _ _ _ _ _ _ F').
  split; intros (t & M); exists t.
  - eapply meets_same; [exact Hj|exact Hj'|exact Hsame|exact Hc|exact M].
  - eapply meets_same; [exact Hj'|exact Hj| |symmetry; exact Hc|exact M]. intros; symmetry; apply Hsame.
Qed.

(** ** Asking every surface about every ray *)
Definition inv_of (f : mat4) : mat4 := match inv4 f with Ok m => m | Err _ => id4 end.
Lemma inv_of_rigid gm f : rigid f -> inv_for gm f (inv_of f).
Proof. intros (r & t & -> & O). unfold inv_of. rewrite (inv4_mk4 r t O). apply rinv_for; auto. Qed.

Definition all_reports (surfs : list surface) (b : bundle) : reports := fun i j =>
  match nth_error surfs i, vert_at b j, dir_at b j with
  | Some s, Some v, Some d => Some (param_of (s_geom s) (s_frame s) (inv_of (s_frame s)) v d)
  | _, _, _ => None
  end.

Lemma all_reports_range surfs b n i j : traceable b n -> (all_reports surfs b i j <> None <-> i < length surfs /\ j < n).
Proof.
  intros Ht. unfold all_reports. destruct (traceable_parts _ _ Ht) as (vs & ds & es & Ev & Ed & _ & Lv & Ld & _).
  unfold vert_at, dir_at, at_col. rewrite Ev, Ed. split.
  - intros H. destruct (nth_error surfs i) eqn:E1; [|congruence]. destruct (nth_error vs j) eqn:E2; [|congruence].
    split; [apply nth_error_Some; congruence|]. rewrite <- Lv. apply nth_error_Some. congruence.
  - intros (Hi & Hj). destruct (nth_lt surfs i Hi) as (s & ->).
    destruct (nth_lt vs j) as (v & ->); [congruence|]. destruct (nth_lt ds j) as (d & ->); [congruence|]. discriminate.
Qed.

Lemma intersect_all surfs sown b n : surfs <> [] -> length sown = length surfs -> traceable b n ->
  (forall s, In s surfs -> geom_ok (s_geom s) /\ rigid (s_frame s)) ->
  exists ss fr ow,
    intersect_ray surface_ops b surfs sown (repeat (-1)%Z n) (repeat (repeat true n) (length surfs)) = Ok (ss, fr, ow) /\
    forall i j, at2 fr i j = Some true <-> exists t, meets_first (all_reports surfs b) (length surfs) n i j t.
Proof.
  intros Hne Hl Ht Hg. set (T := all_reports surfs b). set (rel := repeat (repeat true n) (length surfs)).
  assert (Hm : forall i j, i < length surfs -> j < n -> may_test sown (repeat (-1)%Z n) rel i j).
  { intros i j Hi Hj. unfold may_test, at2, rel. destruct (nth_lt sown i) as (so & Eo); [congruence|].
    exists so, (-1)%Z. rewrite !nth_error_repeat_lt by auto. auto. }
  assert (HT : forall i j, i < length surfs -> j < n -> (T i j <> None <-> may_test sown (repeat (-1)%Z n) rel i j)).
  { intros i j Hi Hj. pose proof (all_reports_range surfs b n i j Ht). pose proof (Hm i j Hi Hj). unfold T. tauto. }
  assert (HTx : forall i j x, T i j = Some x -> proper_param x).
  { intros i j x H. unfold T, all_reports in H. destruct (nth_error surfs i) as [s|] eqn:E1; [|discriminate].
    destruct (vert_at b j) as [v|]; [|discriminate]. destruct (dir_at b j) as [d|]; [|discriminate]. injection H as <-.
    destruct (Hg s (nth_error_In _ _ E1)) as (G1 & G2).
    assert (B : bundle_of (mkB (Some [v]) (Some [d]) None None None []) [v] [d]) by (split; auto).
    pose proof (find_regular (s_geom s) (s_frame s) (inv_of (s_frame s)) _ _ _ (geom_ok_regular _ G1)
      (inv_of_rigid _ _ G2) B) as E.
    pose proof (find_proper _ _ _ _ _ (geom_ok_regular _ G1) E) as P. inversion P; auto. }
  destruct (intersect_ray_outcome surface_ops b n surfs sown (repeat (-1)%Z n) rel T) as (_ & H); auto.
  - apply Ht.
  - apply Ht.
  - unfold fits, rel. rewrite !repeat_length. split; auto. split; auto. split; auto. apply Forall_forall. intros r Hr.
    apply repeat_spec in Hr. subst r. apply repeat_length.
  - intros i j H. apply (all_reports_range surfs b n i j Ht). exact H.
  - intros i s Hs. right. intros sub Hn Hp. destruct (Hg s (nth_error_In _ _ Hs)) as (G1 & G2).
    assert (Hsub : traceable sub (length (asked T n i))) by (eapply picked_traceable; eauto).
    destruct (find_answers (s_geom s) (s_frame s) sub _ G2 G1 Hsub) as (st & ps & E & L & P).
    assert (Er : surf_register s sub = Ok (mkS (s_geom s) (s_opt s) (s_frame s) st (Some sub) (s_selected s), ps))
      by (unfold surf_register; rewrite E; reflexivity).
    do 2 eexists. split; [exact Er|]. rewrite Forall2_nth. split; auto.
    intros q j x Hq Hx. assert (Hj : In j (asked T n i)) by (eapply nth_error_In; eauto). apply asked_in in Hj.
    destruct Hj as (Hj & HTj). unfold T, all_reports in *. rewrite Hs in *.
    destruct (vert_at b j) as [v|] eqn:Ev; [|congruence]. destruct (dir_at b j) as [d|] eqn:Ed; [|congruence].
    rewrite <- Hx. symmetry. apply (register_param s sub _ ps q v d _ (geom_ok_regular _ G1) (inv_of_rigid _ _ G2) Er).
    + eapply picked_vert; eauto.
    + eapply picked_dir; eauto.
  - destruct H as ([[ss fr] ow] & E). { intros i j x Hx. apply proper_not_negative. eauto. }
    exists ss, fr, ow. split; auto. intros i j.
    destruct (intersect_ray_facts _ _ _ _ _ _ _ _ _ _ (proj1 (proj2 Ht)) (proj1 Ht) E) as (T' & F).
    assert (HTT : forall i j, T i j = T' i j).
    { intros i0 j0. destruct (T' i0 j0) as [x|] eqn:E1.
      - destruct (if_range _ _ _ _ _ _ _ _ _ _ _ F i0 j0) as (Hi & Hj); [congruence|].
        destruct (nth_lt surfs i0 Hi) as (s & Hs). destruct (Hg s (nth_error_In _ _ Hs)) as (G1 & G2).
        assert (HTn : T i0 j0 <> None) by (apply HT; auto). unfold T, all_reports in *. rewrite Hs in *.
        destruct (vert_at b j0) as [v|] eqn:Ev; [|congruence]. destruct (dir_at b j0) as [d|] eqn:Ed; [|congruence].
        f_equal. symmetry. eapply (reported_param surfs b n T' b i0 j0 s x v d); eauto using geom_ok_regular, inv_of_rigid.
        eapply facts_reported; eauto.
      - destruct (T i0 j0) eqn:E2; auto. exfalso.
        destruct (proj1 (all_reports_range surfs b n i0 j0 Ht)) as (Hi & Hj). { fold T. congruence. }
        apply (proj2 (if_tested _ _ _ _ _ _ _ _ _ _ _ F i0 j0 Hi Hj)); auto. }
    rewrite (if_first _ _ _ _ _ _ _ _ _ _ _ F i j). unfold meets_first, discarded, cutoff_on.
    split; intros (t & A & B & C & D & H); exists t; (split; [exact A|]); (split; [exact B|]).
    + split; [rewrite <- C; apply HTT|]. split.
      * intros ((i1 & j1 & K1 & K2 & K3) & K4). apply D. split; auto. exists i1, j1. rewrite <- HTT. auto.
      * intros i' Hi'. specialize (H i' Hi'). rewrite HTT. destruct (T' i' j) as [[t'| | |]|]; auto.
        destruct H as [((i1 & j1 & K1 & K2 & K3) & K4)|H]; auto. left. split; auto. exists i1, j1. rewrite HTT. auto.
    + split; [rewrite <- C; symmetry; apply HTT|]. split.
      * intros ((i1 & j1 & K1 & K2 & K3) & K4). apply D. split; auto. exists i1, j1. rewrite HTT. auto.
      * intros i' Hi'. specialize (H i' Hi'). rewrite <- HTT. destruct (T i' j) as [[t'| | |]|]; auto.
        destruct H as [((i1 & j1 & K1 & K2 & K3) & K4)|H]; auto. left. split; auto. exists i1, j1. rewrite <- HTT. auto.
Qed.

(** ** A scene: horizontal mirrors and rays falling on them *)
Local Open Scope R_scope.
Definition mirror (h : R) : surface := new_surface Flat (Absorbing (Reflective (1/2))) (mk4 id3 (V3 0 0 h)).
Definition drops (hs : list R) : bundle :=
  mkB (Some (map (fun h => V3 0 0 h) hs)) (Some (map (fun _ => V3 0 0 (-1)) hs)) (Some (map (fun _ => 1) hs)) None None [].

Lemma mirror_rigid h : rigid (s_frame (mirror h)).
Proof. exists id3, (V3 0 0 h). split; auto. apply id_ok. Qed.
Lemma mirror_lib h : lib_surface (mirror h).
Proof. split; [apply mirror_rigid|]. split; [cbn; lra|]. split; reflexivity. Qed.

Lemma drops_traceable hs : traceable (drops hs) (length hs).
Proof.
  split; [|split; [|split; discriminate]].
  - constructor.
  - split; [eexists; reflexivity|]. intros p l H. destruct p; simpl in H; try discriminate; injection H as <-; rewrite !map_length; auto.
Qed.
Lemma nth_map_const {A B} (l : list A) (c : B) k x : nth_error (map (fun _ => c) l) k = Some x -> x = c.
Proof. rewrite nth_error_map. destruct (nth_error l k); simpl; congruence. Qed.
Lemma drops_source hs : library_source (drops hs) (length hs).
Proof.
  split; [apply drops_traceable|]. intros k d e Hd He. cbn in Hd, He.
  apply nth_map_const in Hd, He. subst d e. split; [unfold is_unit; vunfold; ring|]. split; [lra|]. intros n H. discriminate H.
Qed.

Lemma mirror_report h z inv : param_of Flat (mk4 id3 (V3 0 0 h)) inv (V3 0 0 z) (V3 0 0 (-1)) =
  if Rltb (z - h) 0 then PInf else Fin (z - h).
Proof.
  unfold param_of, is_quad, trimmed, out_of, flat_param.
  assert (E : zaxis (mk4 id3 (V3 0 0 h)) = V3 0 0 1) by reflexivity. rewrite E.
  assert (E2 : loc_of (mk4 id3 (V3 0 0 h)) = V3 0 0 h) by reflexivity. rewrite E2.
  assert (E3 : dot (V3 0 0 (-1)) (V3 0 0 1) = -1) by (vunfold; ring). rewrite E3.
  assert (E4 : - dot (V3 0 0 1) (vsub (V3 0 0 z) (V3 0 0 h)) / -1 = z - h) by (vunfold; field). rewrite E4.
  assert (E5 : Rabs (-1) = 1) by (rewrite Rabs_left; lra). rewrite E5.
  assert (E6 : Rltb (tenm 10) 1 = true).
  { apply Rltb_true. unfold tenm. simpl. lra. }
  rewrite E6. reflexivity.
Qed.

Lemma scene_reports hs zs i j h z : nth_error hs i = Some h -> nth_error zs j = Some z ->
  all_reports (map mirror hs) (drops zs) i j = Some (if Rltb (z - h) 0 then PInf else Fin (z - h)).
Proof.
  intros Hi Hj. unfold all_reports. rewrite nth_error_map, Hi. cbn [option_map].
  cbn [vert_at dir_at at_col drops b_vert b_dir]. rewrite !nth_error_map, Hj. cbn [option_map].
  cbn [s_geom s_frame mirror new_surface]. rewrite mirror_report. reflexivity.
Qed.

(** Two mirrors at the same place: the ray is marked for both. *)
Lemma tie_marks_both : exists ss fr ow,
  intersect_ray surface_ops (drops [1]) [mirror 0; mirror 0] [0%nat; 1%nat] [(-1)%Z] [[true]; [true]] = Ok (ss, fr, ow) /\
  at2 fr 0 0 = Some true /\ at2 fr 1 0 = Some true.
Proof.
  destruct (intersect_all (map mirror [0; 0]) [0%nat; 1%nat] (drops [1]) 1) as (ss & fr & ow & E & H).
  - discriminate.
  - reflexivity.
  - apply (drops_traceable [1]).
  - intros s Hs. simpl in Hs. destruct Hs as [<-|[<-|[]]]; split; try exact I; apply mirror_rigid.
  - exists ss, fr, ow. split; [exact E|].
    assert (R : forall i, (i < 2)%nat -> all_reports (map mirror [0; 0]) (drops [1]) i 0%nat = Some (Fin 1)).
    { intros i Hi. assert (Hn : nth_error [0; 0] i = Some 0) by (destruct i as [|[|i]]; auto; lia).
      rewrite (scene_reports [0; 0] [1] i 0 0 1 Hn eq_refl).
      assert (Rltb (1 - 0) 0 = false) as -> by (apply Rltb_false; lra). f_equal. f_equal. ring. }
    assert (M : forall i, (i < 2)%nat -> meets_first (all_reports (map mirror [0; 0]) (drops [1])) 2 1 i 0 1).
    { intros i Hi. split; auto. split; [lia|]. split; [apply R; auto|]. split.
      - intros (_ & K). unfold tenm in K. simpl in K. lra.
      - intros i' Hi'. rewrite (R i' Hi'). right. lra. }
    split; apply H; exists 1; apply M; lia.
Qed.

(** The nearer of two mirrors is met, whatever the order of the list. *)
Lemma nearer_met : exists ss fr ow,
  intersect_ray surface_ops (drops [2]) [mirror 0; mirror 1] [0%nat; 1%nat] [(-1)%Z] [[true]; [true]] = Ok (ss, fr, ow) /\
  at2 fr 0 0 <> Some true /\ at2 fr 1 0 = Some true.
Proof.
  destruct (intersect_all (map mirror [0; 1]) [0%nat; 1%nat] (drops [2]) 1) as (ss & fr & ow & E & H).
  - discriminate.
  - reflexivity.
  - apply (drops_traceable [2]).
  - intros s Hs. simpl in Hs. destruct Hs as [<-|[<-|[]]]; split; try exact I; apply mirror_rigid.
  - exists ss, fr, ow. split; [exact E|].
    assert (R0 : all_reports (map mirror [0; 1]) (drops [2]) 0%nat 0%nat = Some (Fin 2)).
    { rewrite (scene_reports [0; 1] [2] 0 0 0 2 eq_refl eq_refl).
      assert (Rltb (2 - 0) 0 = false) as -> by (apply Rltb_false; lra). f_equal. f_equal. ring. }
    assert (R1 : all_reports (map mirror [0; 1]) (drops [2]) 1%nat 0%nat = Some (Fin 1)).
    { rewrite (scene_reports [0; 1] [2] 1 0 1 2 eq_refl eq_refl).
      assert (Rltb (2 - 1) 0 = false) as -> by (apply Rltb_false; lra). f_equal. f_equal. ring. }
    assert (D : forall t, 1 <= t -> ~ discarded (all_reports (map mirror [0; 1]) (drops [2])) 2 1 t).
    { intros t Ht (_ & K). unfold tenm in K. simpl in K. lra. }
    split.
    + rewrite H. intros (t & _ & _ & A & B & C). rewrite R0 in A. injection A as <-. specialize (C 1%nat ltac:(simpl; lia)).
      rewrite R1 in C. destruct C as [C|C]; [|lra]. apply (D 1); auto; lra.
    + apply H. exists 1. split; [simpl; lia|]. split; [lia|]. split; [exact R1|]. split; [apply D; lra|].
      intros [|[|i']] Hi'; simpl in Hi'; try lia; [rewrite R0|rewrite R1]; right; lra.
Qed.

(** A ray close to a mirror is met by it when alone, and lost when another ray
    starts on the mirror. *)
Lemma coupled : exists ss fr ow ss' fr' ow',
  intersect_ray surface_ops (drops [/ 2 * tenm 6]) [mirror 0] [0%nat] [(-1)%Z] [[true]] = Ok (ss, fr, ow) /\
  intersect_ray surface_ops (drops [/ 2 * tenm 6; 0]) [mirror 0] [0%nat] [(-1)%Z; (-1)%Z] [[true; true]] = Ok (ss', fr', ow') /\
  at2 fr 0 0 = Some true /\ at2 fr' 0 0 <> Some true.
Proof.
  set (h := / 2 * tenm 6). pose proof (tenm_pos 6) as P6.
  assert (Hh : 0 < h) by (unfold h; lra).
  assert (Hh2 : tenm 10 < h) by (unfold h, tenm; simpl; lra).
  assert (Rh : (if Rltb (h - 0) 0 then PInf else Fin (h - 0)) = Fin h).
  { assert (Rltb (h - 0) 0 = false) as -> by (apply Rltb_false; lra). f_equal. ring. }
  assert (R00 : (if Rltb (0 - 0) 0 then PInf else Fin (0 - 0)) = Fin 0).
  { assert (Rltb (0 - 0) 0 = false) as -> by (apply Rltb_false; lra). f_equal. ring. }
  destruct (intersect_all (map mirror [0]) [0%nat] (drops [h]) 1) as (ss & fr & ow & E & H).
  { discriminate. } { reflexivity. } { apply (drops_traceable [h]). }
  { intros s Hs. simpl in Hs. destruct Hs as [<-|[]]; split; try exact I; apply mirror_rigid. }
  destruct (intersect_all (map mirror [0]) [0%nat] (drops [h; 0]) 2) as (ss' & fr' & ow' & E' & H').
  { discriminate. } { reflexivity. } { apply (drops_traceable [h; 0]). }
  { intros s Hs. simpl in Hs. destruct Hs as [<-|[]]; split; try exact I; apply mirror_rigid. }
  exists ss, fr, ow, ss', fr', ow'. split; [exact E|]. split; [exact E'|].
  pose proof (scene_reports [0] [h] 0 0 0 h eq_refl eq_refl) as A. rewrite Rh in A.
  pose proof (scene_reports [0] [h; 0] 0 0 0 h eq_refl eq_refl) as A'. rewrite Rh in A'.
  pose proof (scene_reports [0] [h; 0] 0 1 0 0 eq_refl eq_refl) as B'. rewrite R00 in B'.
  split.
  - apply H. exists h. split; [simpl; lia|]. split; [lia|]. split; [exact A|]. split.
    + intros ((i & j & Hi & Hj & K) & _). simpl in Hi. assert (i = 0%nat) by lia. assert (j = 0%nat) by lia. subst i j.
      rewrite A in K. cbn in K. apply Rleb_true in K. lra.
    + intros i' Hi'. simpl in Hi'. assert (i' = 0%nat) by lia. subst i'. rewrite A. right. lra.
  - rewrite H'. intros (t & _ & _ & C & D & _). rewrite A' in C. injection C as <-. apply D. split.
    + exists 0%nat, 1%nat. split; [simpl; lia|]. split; [lia|]. rewrite B'. cbn. apply Rleb_true. pose proof (tenm_pos 10); lra.
    + unfold h. lra.
Qed.
