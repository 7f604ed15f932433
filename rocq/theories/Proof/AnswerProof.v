(** Library surfaces answer every bundle: tracing them cannot raise. *)
From Coq Require Import Reals String List Arith ZArith Bool Lia Lra Psatz.
From Verif.Base Require Import Py Num Vec.
From Verif.Model Require Import RayBundle TraceTree Boundary Geometry Spatial Sources Optics OpticsCallables Engine Surface.
From Verif.Spec Require Import BundleSpec EngineSpec GeometrySpec GeomIface OpticsSpec LibrarySpec.
From Verif.Proof Require Import ListLemmas NumLemmas VecLemmas FlatProof QuadProof GeomProof ShapeProof SelectProof
  GeomTop GeomCases BundleProof OpticsProof CallProof RefractProof OpticsTop SurfaceProof SimProof LibraryTop ProgressProof.
Import ListNotations.
Local Open Scope R_scope.

Lemma geom_ok_regular gm : geom_ok gm -> regular gm = true.
Proof. destruct gm; cbn; auto; try contradiction. destruct bound; auto; contradiction. Qed.

Lemma quad_root okb A B C v d t : 0 <= A -> quad_param okb (A, B, C) v d = Fin t ->
  A * (t * t) + B * t + C = 0 \/ B * t + C = 0.
Proof.
  intros PA H. unfold quad_param, hit_param in H.
  destruct (has_roots (A, B, C)) eqn:Hr; [|discriminate].
  assert (K : fst (roots (A, B, C)) = Fin t \/ snd (roots (A, B, C)) = Fin t).
  { destruct (pick _) as [[|k]|]; cbn [choose2] in H; auto. discriminate. }
  clear H. cbn [has_roots] in Hr. apply Rleb_true in Hr. cbn [roots] in K.
  destruct (Rleb_spec A (tenm 10)) as [HA|HA]; cbn [fst snd] in K.
  - right. assert (E : fdiv (- C) B = Fin t) by tauto. unfold fdiv in E.
    destruct (Reqb_spec B 0) as [->|NB].
    + unfold sgn_inf in E. destruct (Rltb 0 (- C)); [discriminate|]. destruct (Rltb (- C) 0); discriminate.
    + injection E as <-. field. auto.
  - left. pose proof (tenm_pos 10). pose proof (sqrt_sqrt _ Hr) as S.
    set (q := sqrt (B * B - 4 * A * C)) in *. assert (NA : A <> 0) by lra.
    destruct K as [K|K]; injection K as <-.
    + replace (A * ((- B - q) / (2 * A) * ((- B - q) / (2 * A))) + B * ((- B - q) / (2 * A)) + C)
        with ((q * q - (B * B - 4 * A * C)) / (4 * A)) by (field; auto). rewrite S. field. auto.
    + replace (A * ((- B + q) / (2 * A) * ((- B + q) / (2 * A))) + B * ((- B + q) / (2 * A)) + C)
        with ((q * q - (B * B - 4 * A * C)) / (4 * A)) by (field; auto). rewrite S. field. auto.
Qed.

Lemma hit_has_normal gm r t v d x : orthonormal r -> geom_ok gm -> is_quad gm = true ->
  param_of gm (mk4 r t) (rinv r t) v d = Fin x -> has_normal gm (loc_pt r t (ray_at v d x)).
Proof.
  intros O Hg Q H. unfold param_of in H. rewrite Q in H.
  assert (K : forall rr u, 0 < rr -> rr <= u -> u <> 0) by (intros; lra).
  destruct gm; try discriminate; try (apply parab_has_normal; exact I); try contradiction; cbn [geom_ok] in Hg;
    try (destruct bound; [contradiction|]); unfold has_normal; cbn [gradient abc_of ok_of] in *.
  1-2: rewrite norm2_loc by auto; unfold abc_sphere in H; rewrite loc_mk4 in H;
       apply quad_root in H; [|apply norm2_nonneg]; apply (K (radius * radius)); [nra|];
       pose proof (norm2_nonneg d); pose proof (Rle_0_sqr x) as X; unfold Rsqr in X;
       replace (norm2 (vsub (ray_at v d x) t)) with
         (norm2 d * (x * x) + 2 * dot d (vsub v t) * x + norm2 (vsub v t))
         by (destruct v, d, t; unfold ray_at; vunfold; ring);
       pose proof (Rmult_le_pos _ _ H0 X); lra.
  1-2: rewrite loc_pt_ray; unfold to_local, rinv in H; rewrite app4_inv, rot_mk4 in H;
       set (q := loc_pt r t v) in *; set (l := mv3 (tr3 r) d) in *; unfold abc_cylinder in H;
       apply quad_root in H; [|nra]; apply (K (radius * radius)); [nra|];
       pose proof (Rle_0_sqr x) as X; unfold Rsqr in X;
       assert (PA : 0 <= vx l * vx l + vy l * vy l) by nra; pose proof (Rmult_le_pos _ _ PA X);
       clearbody q l; destruct q as [a1 a2 a3], l as [l1 l2 l3]; unfold ray_at; vunfold; nra.
Qed.

(** ** Searching and selecting *)
Lemma find_answers gm frame b n : rigid frame -> geom_ok gm -> traceable b n ->
  exists st ps, find_intersections gm frame b = Ok (st, ps) /\ length ps = n /\ Forall proper_param ps.
Proof.
  intros (r & t & -> & O) Hg T. destruct (traceable_parts _ _ T) as (vs & ds & es & Ev & Ed & _ & Lv & Ld & _).
  assert (Hb : bundle_of b vs ds) by (split; [auto|split; [auto|congruence]]).
  pose proof (find_regular gm (mk4 r t) (rinv r t) b vs ds (geom_ok_regular gm Hg) (rinv_for gm r t O) Hb) as E.
  do 2 eexists. split; [exact E|]. split; [rewrite map2_length; congruence|].
  eapply proper_params; [|exact E]. destruct gm; auto; try contradiction. destruct bound; auto; contradiction.
Qed.

Lemma select_answers gm frame b st ps idxs : rigid frame -> geom_ok gm ->
  find_intersections gm frame b = Ok (st, ps) -> all_hit ps idxs ->
  exists st', select_geom gm st idxs = Ok st'.
Proof.
  intros (r & t & -> & O) Hg H Ha. destruct (find_bundle _ _ _ _ _ H) as (vs & ds & Hb).
  destruct (find_state _ _ _ _ _ _ _ Hb H) as (dt & _ & Lp & _).
  destruct (all_picked vs ds ps idxs Lp (proj2 (proj2 Hb)) Ha) as (ks & F).
  destruct (is_quad gm) eqn:Q.
  - rewrite (select_quad _ _ _ _ _ _ _ _ _ Hb Q H F).
    destruct (normals_total gm r t ks O Q) as (ns & ->); [|cbn [bind]; eauto].
    intros k Hk. pose proof (find_regular gm (mk4 r t) (rinv r t) b vs ds (geom_ok_regular gm Hg) (rinv_for gm r t O) Hb) as E.
    rewrite H in E. injection E as _ ->.
    assert (P : exists i, picked vs ds (map2 (param_of gm (mk4 r t) (rinv r t)) vs ds) i k).
    { clear - F Hk. induction F as [|i k' idxs ks K F IH]; [destruct Hk|]. destruct Hk as [<-|Hk]; eauto. }
    destruct P as (i & Hv & Hd & Hp). rewrite map2_nth_error, Hv, Hd in Hp.
    apply hit_has_normal; auto. congruence.
  - rewrite (select_flat _ _ _ _ _ _ _ _ _ Hb Q H F). eauto.
Qed.

Lemma proper_not_negative x : proper_param x -> nlt x (Fin (- tenm 16)) = false.
Proof.
  pose proof (tenm_pos 16). destruct x; cbn; auto; try contradiction. intros P. apply Rltb_false. lra.
Qed.

(** ** Optics *)
Lemma optics_answers opt gs b n ps sel pts ns z g : optics_ok opt -> media_differ opt ->
  (is_refractive opt -> b_ref b <> None) -> traceable b n ->
  all_rays lib_ray b -> sel <> [] -> NoDup sel -> (forall i, In i sel -> (i < n)%nat) ->
  Forall2 (point_of b ps) sel pts -> told gs pts ns z -> Forall is_unit ns ->
  exists o g1, call_optics opt gs b sel g = Ok (o, g1).
Proof.
  intros Ho Hm Hr T Ha Ne Nd Hs Hp G Un. pose proof G as (_ & _ & _ & Lpn).
  pose proof (eq_sym (proj1 (proj1 (Forall2_nth _ _ _) Hp))) as Lp.
  assert (Plain : forall ab g, exists o g1, call_optics (Absorbing ab) gs b sel g = Ok (o, g1)).
  { intros [a|a|a] g0.
    - destruct (reflective_top a gs b n sel pts ns z g0 T Hs G Lp Un) as (o' & E' & O). eauto.
    - destruct (absorber_top a gs b n sel pts ns z g0 T Hs G Lp Un) as (o' & E' & O). eauto.
    - destruct (lambertian_any a gs b n sel pts ns z g0 T Hs G Lp Un) as (o' & g' & E' & _). eauto. }
  destruct opt as [ab|id ab|i1 i2]; [apply Plain| |].
  - destruct (Plain ab g) as (o & g1 & E). cbn [call_optics] in *.
    destruct (call_absorbing ab gs b sel (g_rng g)) as [[r rg]|]; [|discriminate].
    destruct (traceable_parts _ _ T) as (vs & ds & es & _ & _ & Ee & _ & _ & Le).
    unfold record_hits, get_energy, get_prop. rewrite Ee. cbn [bind select].
    destruct (take_total es sel) as (es' & ->). { apply Forall_forall. intros i Hi. rewrite Le. auto. }
    cbn [bind]. destruct G as (-> & _). cbn [bind]. eauto.
  - destruct Ho as (P1 & P2). cbn [media_differ] in Hm. specialize (Hr I).
    destruct (refractive_top i1 i2 gs b n sel pts ns z g P1 P2) as (o & E & _); eauto.
    split; [exact T|]. split; [exact Hs|]. split; [exact G|]. split; [exact Lp|]. split; [exact Un|]. split; [exact Ne|].
    intros k i d e p m (Ik & Id & Ie & _). destruct (Ha i d e Id Ie) as (Ud & Pe & Pr). split; auto.
    destruct (ref_at b i) as [q|] eqn:Eq.
    + exists q. split; auto. split; [auto|]. intros m' Om _. right. unfold other_side in Om.
      destruct (Req_dec q i1) as [->|N]; [rewrite (proj1 Om eq_refl); auto|rewrite (proj2 Om N); auto].
    + exfalso. unfold ref_at, at_col in Eq. destruct (b_ref b) as [rs|] eqn:Er; [|congruence].
      apply nth_error_None in Eq. destruct T as (_ & (_ & Hl) & _). specialize (Hl RefIndex (map PReal rs)).
      cbn [prop] in Hl. rewrite Er in Hl. specialize (Hl eq_refl). rewrite map_length in Hl.
      assert (i < n)%nat by (apply Hs; eapply nth_error_In; eauto). lia.
Qed.

(** ** Surfaces *)
Section Assembly.
Variables (objs : list obj) (surfs : list surface).
Hypothesis HA : answering_assembly objs surfs.

Let good (s : surface) : Prop := canon_good s /\ exists s0, In s0 surfs /\ same_surface s0 s.
Let Q := knows_media surfs.

Lemma good_contract : surface_contract canon_ops lib_ray good.
Proof.
  destruct canon_contract as [C1 C2 C3 C4]. constructor; unfold good; intros.
  - apply C1; tauto.
  - eapply C2; [|eassumption]; tauto.
  - eapply C3; [| |eassumption]; [|eassumption]; tauto.
  - eapply C4; eauto. tauto.
Qed.

Lemma Q_set a b : same_set a b -> Q b -> Q a.
Proof.
  intros H HQ Hs Ea. apply (HQ Hs). specialize (H RefIndex ltac:(discriminate)). cbn [prop] in H.
  rewrite Ea in H. destruct (b_ref b); auto. exfalso. assert (X : @None (list pval) = None) by auto.
  apply H in X. discriminate.
Qed.

Lemma good_answers : surface_answers canon_ops lib_ray good Q.
Proof.
  destruct HA as (HL & Hne & Hob & Hsf).
  constructor; cbn [register_incoming select_rays get_outgoing canon_ops].
  - intros s b n (((Hf & _) & _) & s0 & Hs0 & Es) T _ _.
    assert (Hg : geom_ok (s_geom s)) by (destruct Es as (-> & _); apply Hsf; auto).
    destruct (find_answers (s_geom s) (s_frame s) b n Hf Hg T) as (st & ps & E & L & P).
    unfold surf_register. rewrite E. cbn [bind]. do 2 eexists. split; [reflexivity|]. split; auto.
    eapply Forall_impl; [|exact P]. apply proper_not_negative.
  - intros s b n s1 ps idx (((Hf & Ho & _) & _) & s0 & Hs0 & Es) T Ha HQ Hr Nd Ne Hh.
    assert (Hg : geom_ok (s_geom s) /\ media_differ (s_opt s))
      by (destruct Es as (-> & -> & _); apply Hsf; auto).
    apply register_inv in Hr as (gs & E & ->).
    destruct (select_answers _ _ _ _ _ idx Hf (proj1 Hg) E Hh) as (gs2 & E2).
    unfold surf_select. cbn [s_geom s_gstate s_opt s_frame s_bundle]. rewrite E2. cbn [bind].
    eexists. split; [reflexivity|]. intros g. unfold surf_outgoing. cbn [s_bundle s_selected s_opt s_gstate].
    destruct (selected_told (s_geom s) (s_frame s) b n gs ps idx gs2 Hf T E Hh E2) as (pts & ns & z & Gt & Lp & Un & Pt & Hi).
    apply (optics_answers (s_opt s) gs2 b n ps idx pts ns z g); auto; [apply Hg|].
    intros Ir. apply HQ. exists s0. split; auto. destruct Es as (_ & Eo & _). rewrite <- Eo. exact Ir.
Qed.

Lemma tracing_answers g b n reps me ta : library_source b n -> knows_media surfs b ->
  (1 <= reps)%nat \/ ta <> TreeFalse ->
  exists vs ds st, ray_tracer surface_ops objs surfs g b reps me ta = Ok (vs, ds, st).
Proof.
  intros (T & Ha) HQ Hr. pose proof HA as (HL & Hne & Hob & Hsf).
  destruct (trace_answers canon_ops lib_ray good good_contract Q Q_set good_answers objs
              (proj1 HL) Hob me ta reps (map canon_done surfs) g b n T Ha HQ) as ([[vs ds] st] & E); auto.
  - intros s Hs. apply in_map_iff in Hs as (s0 & <- & Hs). destruct (canon_same s0) as (A & B); [apply HL; auto|].
    split; auto. exists s0. split; auto. apply same_sym; auto.
  - intros E. apply Hne. destruct surfs; [auto|discriminate].
  - rewrite map_length. apply HL.
  - destruct (lib_of objs surfs me HL g b reps ta vs ds st E) as (st' & E' & _). eauto.
Qed.
End Assembly.
