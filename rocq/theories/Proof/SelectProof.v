(** Selected hit points and normals. *)
From Coq Require Import Reals List Arith Bool Lra Lia Psatz.
From Verif.Base Require Import Py Num Vec.
From Verif.Model Require Import RayBundle Boundary Geometry.
From Verif.Spec Require Import GeometrySpec.
From Verif.Proof Require Import ListLemmas NumLemmas VecLemmas FlatProof QuadProof GeomProof ShapeProof.
Import ListNotations.
Local Open Scope R_scope.

(** ** The search with an arbitrary selection array *)
Lemma fill_mask_length {A} m (base : list A) v : length (fill_mask m base v) = length base.
Proof. revert base; induction m; intros [|x base]; simpl; auto. Qed.

Lemma assign_sel_length mask sel vals r : assign_sel mask sel vals = Ok r -> length r = length sel.
Proof.
  unfold assign_sel. destruct (Nat.eqb _ _); [|discriminate]. intros E; injection E as <-.
  apply put_mask_length.
Qed.

Lemma select_valid_length vals sel valid r : select_valid vals sel valid = Ok r -> length r = length sel.
Proof.
  unfold select_valid. intros H. apply assign_sel_length in H. rewrite H. apply fill_mask_length.
Qed.

Lemma select_default_length prm : length (map pick (positive2 prm)) = length prm.
Proof. unfold positive2. rewrite !map_length. auto. Qed.

Lemma select_coords_length gm frame co prm sel :
  select_coords gm frame co prm = Ok sel -> length sel = length prm.
Proof.
  assert (D : select_default prm = Ok sel -> length sel = length prm).
  { rewrite select_default_pick. intros E; injection E as <-. apply select_default_length. }
  destruct gm; try exact D; cbn [select_coords]; try (destruct bound; [|exact D]);
    rewrite ?select_default_pick; cbn [bind]; intros H.
  - destruct (inv4 frame); [|discriminate]. cbn [bind] in H.
    apply select_valid_length in H. rewrite H. apply select_default_length.
  - destruct (mapM _ co); [|discriminate]. cbn [bind] in H.
    apply select_valid_length in H. rewrite H. apply select_default_length.
  - destruct (inv4 frame); [|discriminate]. cbn [bind] in H.
    apply assign_sel_length in H. rewrite H, fill_mask_length. apply repeat_length.
  - destruct (inv4 frame); [|discriminate]. cbn [bind] in H.
    apply select_valid_length in H. rewrite H. apply select_default_length.
  - destruct (inv4 frame); [|discriminate]. cbn [bind] in H.
    apply select_valid_length in H. rewrite H. apply select_default_length.
Qed.

Lemma any_sel {A B} (L : list (nat * A)) (sel : list B) : NoDup (map fst L) ->
  length sel = length L -> L <> [] -> exists s, sel = map s L.
Proof.
  intros N E HL. destruct sel as [|b0 sel0]; [destruct L; [congruence|discriminate]|].
  remember (b0 :: sel0) as sel. clear Heqsel HL. revert sel E.
  induction L as [|x L IH]; intros [|b sel] E; try discriminate; [exists (fun _ => b0); auto|].
  simpl in N. inversion N as [|? ? Nx NL]; subst. injection E as E.
  destruct (IH NL sel E) as (s & ->).
  exists (fun a => if Nat.eqb (fst a) (fst x) then b else s a). simpl. rewrite Nat.eqb_refl. f_equal.
  apply map_ext_in. intros a Ha. destruct (Nat.eqb_spec (fst a) (fst x)) as [E'|]; auto.
  exfalso. apply Nx. rewrite <- E'. apply in_map; auto.
Qed.

Lemma NoDup_map_filter {A B} (f : A -> B) p l : NoDup (map f l) -> NoDup (map f (filter p l)).
Proof.
  induction l as [|a l IH]; simpl; auto. intros N. inversion N as [|? ? Na Nl]; subst.
  destruct (p a); simpl; auto. constructor; auto.
  intros H. apply Na. apply in_map_iff in H as (x & Ex & Hx). apply filter_In in Hx.
  rewrite <- Ex. apply in_map; tauto.
Qed.

Lemma get_ABC_fun gm frame vs ds abc : length vs = length ds ->
  get_ABC gm frame vs ds = Ok abc ->
  exists f, abc = map2 f vs ds.
Proof.
  intros L. destruct gm; cbn [get_ABC]; try discriminate; try (intros E; injection E as <-; eauto);
    (destruct (inv4 frame); cbn [bind]; [intros E; injection E as <-; eauto|discriminate]).
Qed.

Lemma quad_find_points gm frame vs ds ps verts : length vs = length ds ->
  quad_find gm frame vs ds = Ok (ps, verts) ->
  length ps = length vs /\ length verts = length vs /\
  forall i v d t, nth_error vs i = Some v -> nth_error ds i = Some d -> nth_error ps i = Some (Fin t) ->
    nth_error verts i = Some (Some (nfin (ray_at v d t))).
Proof.
  intros L H.
  assert (Ha : exists abc, get_ABC gm frame vs ds = Ok abc).
  { unfold quad_find in H. destruct (get_ABC gm frame vs ds); eauto. discriminate. }
  destruct Ha as (abc & Ha). destruct (get_ABC_fun _ _ _ _ _ L Ha) as (f & ->).
  set (l := combine (seq 0 (length vs)) (combine vs ds)).
  set (pv := fun a : nat * (vec * vec) => fst (snd a)). set (pd := fun a : nat * (vec * vec) => snd (snd a)).
  assert (Lc : length (seq 0 (length vs)) = length (combine vs ds)).
  { rewrite seq_length, combine_length. lia. }
  assert (E1 : map pv l = vs).
  { unfold l, pv. rewrite <- map_map, combine_snd by auto. apply combine_fst; auto. }
  assert (E2 : map pd l = ds).
  { unfold l, pd. rewrite <- map_map, combine_snd by auto. apply combine_snd; auto. }
  set (L0 := filter (fun a => has_roots (f (pv a) (pd a))) l).
  assert (ND : NoDup (map fst L0)).
  { apply NoDup_map_filter. unfold l. rewrite combine_fst by auto. apply seq_NoDup. }
  rewrite <- E1, <- E2, map2_map in Ha.
  assert (Hs : exists s, L0 <> [] ->
    select_coords gm frame (map (fun a => two_points (pv a) (pd a) (roots (f (pv a) (pd a)))) L0)
      (map (fun a => roots (f (pv a) (pd a))) L0) = Ok (map s L0)).
  { destruct L0 as [|a0 L1] eqn:EL; [exists (fun _ => None); congruence|]. rewrite <- EL in *.
    destruct (select_coords gm frame (map (fun a => two_points (pv a) (pd a) (roots (f (pv a) (pd a)))) L0)
      (map (fun a => roots (f (pv a) (pd a))) L0)) as [sel|e] eqn:Es.
    - pose proof (select_coords_length _ _ _ _ _ Es) as Ls. rewrite map_length in Ls.
      destruct (any_sel L0 sel ND Ls ltac:(congruence)) as (s & ->). exists s; auto.
    - exfalso. revert H. rewrite <- E1, <- E2. unfold quad_find. rewrite Ha. cbn [bind].
      rewrite map_map.
      assert (En : Nat.eqb (count_true (map (fun x => has_roots (f (pv x) (pd x))) l)) 0 = false).
      { apply Nat.eqb_neq. rewrite <- (mask_select_count _ l) by apply map_length.
        rewrite mask_select_filter. fold L0. rewrite EL. discriminate. }
      rewrite En, !mask_select_map, !mask_select_filter, map_map, map3_map.
      change (select_coords _ _ _ _) with (select_coords gm frame
         (map (fun a => two_points (pv a) (pd a) (roots (f (pv a) (pd a)))) L0)
         (map (fun a => roots (f (pv a) (pd a))) L0)).
      rewrite Es. discriminate. }
  destruct Hs as (s & Hs).
  pose proof (quad_find_map pv pd gm frame l f s Ha Hs) as K. rewrite E1, E2, H in K.
  injection K as -> ->. rewrite !map_length.
  assert (Ll : length l = length vs) by (unfold l; rewrite combine_length, <- Lc, seq_length; lia).
  split; auto. split; auto.
  intros i v d t Hv Hd Hp. rewrite <- E1 in Hv. rewrite <- E2 in Hd.
  rewrite nth_error_map in Hv, Hd, Hp. rewrite nth_error_map.
  destruct (nth_error l i) as [a|]; [|discriminate]. cbn [option_map] in *.
  injection Hv as <-. injection Hd as <-. injection Hp as Hp. f_equal.
  revert Hp. unfold hit_param, hit_vert. destruct (has_roots _); [|discriminate].
  destruct (s a) as [k|]; [|discriminate]. intros E. f_equal.
  destruct k; cbn [choose2 two_points fst snd] in *; rewrite E; apply along_fin.
Qed.

(** ** What [find_intersections] leaves behind, for every class *)
Definition state_ok (gm : geom) (frame : mat4) (b : bundle) (vs ds : list vec) (ps : list num) (d : gdata) : Prop :=
  length ps = length vs /\
  match d with
  | DParams ps0 back => gm = Flat /\ ps0 = ps /\ back = map (fun d => Rltb 0 (dot d (zaxis frame))) ds
  | DGlobal glob back => is_quad gm = false /\ back = map (fun d => Rltb 0 (dot d (zaxis frame))) ds /\
      forall i v d t, nth_error vs i = Some v -> nth_error ds i = Some d -> nth_error ps i = Some (Fin t) ->
        nth_error glob i = Some (nfin (ray_at v d t))
  | DVerts verts => is_quad gm = true /\
      forall i v d t, nth_error vs i = Some v -> nth_error ds i = Some d -> nth_error ps i = Some (Fin t) ->
        nth_error verts i = Some (Some (nfin (ray_at v d t)))
  end.

Lemma find_state gm frame b vs ds st ps : bundle_of b vs ds ->
  find_intersections gm frame b = Ok (st, ps) ->
  exists d, st = GFound frame b d /\ state_ok gm frame b vs ds ps d.
Proof.
  intros Hb H. pose proof Hb as (_ & _ & L). destruct (is_quad gm) eqn:Q.
  - assert (E : find_intersections gm frame b =
      ('(ps, verts) <- quad_find gm frame vs ds ;; Ok (GFound frame b (DVerts verts), ps))).
    { destruct gm; try discriminate;
        exact (find_open b vs ds (fun vs ds => '(ps, verts) <- quad_find _ frame vs ds ;;
           Ok (GFound frame b (DVerts verts), ps)) Hb). }
    rewrite E in H. destruct (quad_find gm frame vs ds) as [[ps0 verts]|] eqn:F; [|discriminate].
    cbn [bind] in H. injection H as <- <-.
    destruct (quad_find_points _ _ _ _ _ _ L F) as (L1 & L2 & K).
    eexists; split; [reflexivity|]. split; auto.
  - assert (Hi : gm = Flat \/ exists inv, inv4 frame = Ok inv).
    { destruct gm; try discriminate; auto; right; unfold find_intersections in H;
        destruct (inv4 frame); eauto; exfalso; revert H;
        destruct (get_directions b); cbn [bind]; try discriminate;
        destruct (get_vertices b); cbn [bind]; try discriminate;
        destruct (negb _); try discriminate; destruct (flat_find _ _ _); discriminate. }
    destruct Hi as [->|(inv & I)].
    + assert (E : find_intersections Flat frame b =
        (let '(ps, back) := flat_find frame vs ds in Ok (GFound frame b (DParams ps back), ps)))
        by exact (find_open b vs ds (fun vs ds => let '(ps, back) := flat_find frame vs ds in
           Ok (GFound frame b (DParams ps back), ps)) Hb).
      rewrite E, flat_find_map in H by auto. injection H as <- <-.
      eexists; split; [reflexivity|]. split; [apply map2_length; auto|].
      auto.
    + assert (Rg : regular gm = true) by (destruct gm; try discriminate; auto).
      rewrite (find_regular gm frame inv b vs ds Rg (inv_for_of _ _ _ I) Hb) in H. injection H as <- <-.
      eexists; split; [reflexivity|]. split; [apply map2_length; auto|].
      assert (P : forall i v d t, nth_error vs i = Some v -> nth_error ds i = Some d ->
          nth_error (map2 (param_of gm frame inv) vs ds) i = Some (Fin t) -> flat_param frame v d = Fin t).
      { intros i v d t Hv Hd. rewrite map2_nth_error, Hv, Hd. intros E; injection E as E.
        revert E. unfold param_of, trimmed. rewrite Q. destruct (out_of _ _ _ _); [discriminate|auto]. }
      assert (G : forall i v d t, nth_error vs i = Some v -> nth_error ds i = Some d ->
          nth_error (map2 (param_of gm frame inv) vs ds) i = Some (Fin t) ->
          nth_error (map2 (fun v d => along v d (flat_param frame v d)) vs ds) i = Some (nfin (ray_at v d t))).
      { intros i v d t Hv Hd Hp. rewrite map2_nth_error, Hv, Hd.
        rewrite (P i v d t Hv Hd Hp), along_fin. auto. }
      destruct gm; try discriminate; cbn [found_data]; auto.
Qed.

(** ** Selection *)
Definition hit_at (vs ds : list vec) (ps : list num) (i : nat) (p : vec) : Prop :=
  exists v d t, nth_error vs i = Some v /\ nth_error ds i = Some d /\
    nth_error ps i = Some (Fin t) /\ p = ray_at v d t.

Lemma all_finite vs ds (ps : list num) idxs : length ps = length vs -> length vs = length ds ->
  (forall i, In i idxs -> exists t, nth_error ps i = Some (Fin t)) ->
  exists pts, Forall2 (hit_at vs ds ps) idxs pts.
Proof.
  intros L1 L2. induction idxs as [|i idxs IH]; intros H; [exists []; constructor|].
  destruct IH as (pts & F); [intros; apply H; right; auto|].
  destruct (H i (or_introl eq_refl)) as (t & Ht).
  assert (Hi : (i < length vs)%nat) by (rewrite <- L1; apply nth_error_Some; congruence).
  destruct (nth_error vs i) as [v|] eqn:Ev; [|apply nth_error_None in Ev; lia].
  destruct (nth_error ds i) as [d|] eqn:Ed; [|apply nth_error_None in Ed; lia].
  exists (ray_at v d t :: pts). constructor; auto. exists v, d, t; auto.
Qed.

Lemma take_of {A B} (P : nat -> B -> Prop) (f : B -> A) l idxs xs :
  Forall2 P idxs xs -> (forall i x, P i x -> nth_error l i = Some (f x)) -> take l idxs = Ok (map f xs).
Proof.
  intros F H. apply take_ok. induction F; simpl; constructor; auto.
Qed.

Lemma mapM_finite l : mapM finite_point (map nfin l) = Ok l.
Proof.
  unfold mapM. induction l as [|a l IH]; simpl map; auto. cbn [sequence].
  unfold finite_point at 1. rewrite fin_vec_nfin. cbn [bind]. rewrite IH. reflexivity.
Qed.

(** A list of witnesses for each selected ray. *)
Record pickd := mkPick { pk_v : vec; pk_d : vec; pk_t : R }.
Definition pick_pt (k : pickd) := ray_at (pk_v k) (pk_d k) (pk_t k).
Definition picked (vs ds : list vec) (ps : list num) (i : nat) (k : pickd) : Prop :=
  nth_error vs i = Some (pk_v k) /\ nth_error ds i = Some (pk_d k) /\ nth_error ps i = Some (Fin (pk_t k)).

Lemma all_picked vs ds (ps : list num) idxs : length ps = length vs -> length vs = length ds ->
  (forall i, In i idxs -> exists t, nth_error ps i = Some (Fin t)) ->
  exists ks, Forall2 (picked vs ds ps) idxs ks.
Proof.
  intros L1 L2. induction idxs as [|i idxs IH]; intros H; [exists []; constructor|].
  destruct IH as (pts & F); [intros; apply H; right; auto|].
  destruct (H i (or_introl eq_refl)) as (t & Ht).
  assert (Hi : (i < length vs)%nat) by (rewrite <- L1; apply nth_error_Some; congruence).
  destruct (nth_error vs i) as [v|] eqn:Ev; [|apply nth_error_None in Ev; lia].
  destruct (nth_error ds i) as [d|] eqn:Ed; [|apply nth_error_None in Ed; lia].
  exists (mkPick v d t :: pts). constructor; auto. repeat split; auto.
Qed.

Lemma select_flat gm frame b vs ds st ps idxs ks : bundle_of b vs ds -> is_quad gm = false ->
  find_intersections gm frame b = Ok (st, ps) -> Forall2 (picked vs ds ps) idxs ks ->
  select_geom gm st idxs = Ok (GSelFlat frame b idxs
     (nonzero (map (fun k => Rltb 0 (dot (pk_d k) (zaxis frame))) ks)) (map pick_pt ks)).
Proof.
  intros Hb Q H F. pose proof Hb as (Ev & Ed & L).
  destruct (find_state _ _ _ _ _ _ _ Hb H) as (dt & -> & Lp & S).
  assert (Tb : take (map (fun d => Rltb 0 (dot d (zaxis frame))) ds) idxs
               = Ok (map (fun k => Rltb 0 (dot (pk_d k) (zaxis frame))) ks)).
  { apply (take_of (picked vs ds ps)); auto. intros i k (_ & Hd & _).
    rewrite nth_error_map, Hd. auto. }
  unfold select_geom, get_vertices, get_directions, get_prop. rewrite Ev, Ed. cbn [select bind].
  destruct dt as [ps0 back|glob back|verts].
  - destruct S as (-> & -> & ->). rewrite Tb. cbn [bind].
    rewrite (take_of (picked vs ds ps) pk_v vs idxs ks F) by (intros i k K; apply K). cbn [bind].
    rewrite (take_of (picked vs ds ps) pk_d ds idxs ks F) by (intros i k K; apply K). cbn [bind].
    rewrite (take_of (picked vs ds ps) (fun k => Fin (pk_t k)) ps idxs ks F) by (intros i k K; apply K).
    cbn [bind]. rewrite map3_map.
    replace (map (fun a => along (pk_v a) (pk_d a) (Fin (pk_t a))) ks) with (map nfin (map pick_pt ks)).
    + rewrite mapM_finite. reflexivity.
    + rewrite map_map. apply map_ext. intros k. symmetry. apply along_fin.
  - destruct S as (_ & -> & G). rewrite Tb. cbn [bind].
    rewrite (take_of (picked vs ds ps) (fun k => nfin (pick_pt k)) glob idxs ks F).
    + cbn [bind]. rewrite <- (map_map pick_pt nfin), mapM_finite. reflexivity.
    + intros i k (Hv & Hd & Hp). apply (G i); auto.
  - destruct S as (S & _). congruence.
Qed.

Lemma select_quad gm frame b vs ds st ps idxs ks : bundle_of b vs ds -> is_quad gm = true ->
  find_intersections gm frame b = Ok (st, ps) -> Forall2 (picked vs ds ps) idxs ks ->
  select_geom gm st idxs =
    (norms <- normals gm frame (map pick_pt ks) (map pk_d ks) ;;
     Ok (GSelQuad frame b idxs (map pick_pt ks) norms)).
Proof.
  intros Hb Q H F. pose proof Hb as (Ev & Ed & L).
  destruct (find_state _ _ _ _ _ _ _ Hb H) as (dt & -> & Lp & S).
  destruct dt as [ps0 back|glob back|verts].
  - destruct S as (-> & _). discriminate.
  - destruct S as (S & _). congruence.
  - destruct S as (_ & S). unfold select_geom, get_directions, get_prop. rewrite Ed. cbn [select bind].
    rewrite (take_of (picked vs ds ps) (fun k => Some (nfin (pick_pt k))) verts idxs ks F).
    + cbn [bind]. rewrite <- (map_map pick_pt (fun p => Some (nfin p))).
      assert (M : forall l, mapM (fun o : option nvec => match o with Some p => finite_point p | None => Err OutOfModel end)
              (map (fun p => Some (nfin p)) l) = Ok l).
      { unfold mapM. induction l as [|a l IH]; simpl map; auto. cbn [sequence].
        unfold finite_point at 1. rewrite fin_vec_nfin. cbn [bind]. rewrite IH. reflexivity. }
      rewrite M. cbn [bind].
      rewrite (take_of (picked vs ds ps) pk_d ds idxs ks F) by (intros i k K; apply K). reflexivity.
    + intros i k (Hv & Hd & Hp). apply (S i); auto.
Qed.

(** ** Normals *)
Lemma Ok_inj {A} (a b : A) : Ok a = Ok b -> a = b.
Proof. congruence. Qed.

Lemma normalised_ok v n : normalised v = Ok n -> norm2 n = 1 /\ exists k, 0 < k /\ n = vscale k v.
Proof.
  unfold normalised. destruct (Reqb_spec (norm2 v) 0) as [|H]; [discriminate|].
  intros E. assert (vscale (/ sqrt (norm2 v)) v = n) as <- by congruence. pose proof (norm2_nonneg v) as P.
  assert (0 < norm2 v) as P' by lra. pose proof (sqrt_lt_R0 _ P') as S.
  split.
  - replace (norm2 (vscale (/ sqrt (norm2 v)) v)) with (/ sqrt (norm2 v) * / sqrt (norm2 v) * norm2 v)
      by (generalize (/ sqrt (norm2 v)); intros; destruct v; vunfold; ring).
    pose proof (sqrt_sqrt (norm2 v) P) as Q. set (s := sqrt (norm2 v)) in *. rewrite <- Q. field. lra.
  - exists (/ sqrt (norm2 v)). split; auto. apply Rinv_0_lt_compat; auto.
Qed.

Lemma normalised_total v : norm2 v <> 0 -> exists n, normalised v = Ok n.
Proof. intros H. unfold normalised. destruct (Reqb_spec (norm2 v) 0); [contradiction|eauto]. Qed.

Lemma vscale_vopp k v : vscale k (vopp v) = vscale (- k) v.
Proof. destruct v; vunfold; veq; ring. Qed.
Lemma vopp_vscale k v : vopp (vscale k v) = vscale (- k) v.
Proof. destruct v; vunfold; veq; ring. Qed.
Lemma norm2_vopp v : norm2 (vopp v) = norm2 v.
Proof. destruct v; vunfold; ring. Qed.

Lemma normal_sphere_good r t hit d n : orthonormal r ->
  normal_sphere (mk4 r t) hit d = Ok n -> good_normal (mk4 r t) (loc_pt r t hit) d n.
Proof.
  intros O. unfold normal_sphere. rewrite loc_mk4. intros H.
  destruct (normalised_ok _ _ H) as (U & k & Hk & ->). unfold good_normal. rewrite rot_mk4, <- loc_pt_back by auto.
  split; auto. assert (Hs : dot (vsub t hit) d = - dot (vsub hit t) d) by (destruct t, hit, d; vunfold; ring).
  rewrite Hs. destruct (Rltb_spec (- dot (vsub hit t) d) 0).
  - split; [exists (- k); apply vscale_vopp|].
    rewrite dot_vscale_l, dot_vopp_l. nra.
  - split; [exists k; auto|]. rewrite dot_vscale_l. nra.
Qed.

Lemma dot_local r a b : dot (mv3 r a) b = dot a (mv3 (tr3 r) b).
Proof. apply dot_mv3. Qed.

Lemma normal_cylinder_good r t hit d n : orthonormal r ->
  normal_cylinder (mk4 r t) (rinv r t) hit d = Ok n ->
  let q := loc_pt r t hit in good_normal (mk4 r t) (V3 (vx q) (vy q) 0) d n.
Proof.
  intros O. unfold normal_cylinder, rinv. rewrite app4_inv, rot_mk4. cbv zeta. set (q := loc_pt r t hit). intros H.
  destruct (normalised (V3 (vx q) (vy q) 0)) as [m|] eqn:E; [|discriminate].
  cbn [bind] in H. apply Ok_inj in H. rewrite <- H. clear H n. destruct (normalised_ok _ _ E) as (U & k & Hk & Em).
  unfold good_normal. rewrite rot_mk4.
  set (ld := mv3 (tr3 r) d).
  assert (Hd : vx m * vx ld + vy m * vy ld = dot m ld).
  { rewrite Em. unfold dot. cbn [vscale vx vy vz]. ring. }
  rewrite Hd. destruct (Rltb_spec 0 (dot m ld)).
  - split; [rewrite orthonormal_norm2, norm2_vopp by auto; auto|]. split.
    + exists (- k). rewrite <- mv3_vscale, Em, vopp_vscale. auto.
    + rewrite dot_local, dot_vopp_l. fold ld. lra.
  - split; [rewrite orthonormal_norm2 by auto; auto|]. split.
    + exists k. rewrite <- mv3_vscale, <- Em. auto.
    + rewrite dot_local. auto.
Qed.

Lemma normal_parab_good a b r t hit d n : orthonormal r ->
  normal_parab a b (mk4 r t) (rinv r t) hit d = Ok n ->
  let q := loc_pt r t hit in good_normal (mk4 r t) (V3 (2 * a * vx q) (2 * b * vy q) (- 1)) d n.
Proof.
  intros O. unfold normal_parab, rinv. rewrite app4_inv, rot_mk4. cbv zeta. set (q := loc_pt r t hit). intros H.
  destruct (normalised (V3 (- (2 * vx q * a)) (- (2 * vy q * b)) 1)) as [m|] eqn:E; [|discriminate].
  cbn [bind] in H. apply Ok_inj in H. rewrite <- H. clear H n. destruct (normalised_ok _ _ E) as (U & k & Hk & Em).
  unfold good_normal. rewrite rot_mk4.
  set (ld := mv3 (tr3 r) d). rewrite (dot_comm ld m).
  assert (Em' : m = vscale (- k) (V3 (2 * a * vx q) (2 * b * vy q) (- 1))).
  { rewrite Em. vunfold. veq; ring. }
  destruct (Rltb_spec 0 (dot m ld)).
  - split; [rewrite orthonormal_norm2, norm2_vopp by auto; auto|]. split.
    + exists k. rewrite <- mv3_vscale, Em', vopp_vscale, Ropp_involutive. auto.
    + rewrite dot_local, dot_vopp_l. fold ld. lra.
  - split; [rewrite orthonormal_norm2 by auto; auto|]. split.
    + exists (- k). rewrite <- mv3_vscale, <- Em'. auto.
    + rewrite dot_local. auto.
Qed.

(** Gradient of the surface's equation, in local coordinates. *)
Definition gradient (gm : geom) (q : vec) : vec :=
  match gm with
  | Sphere _ | Hemisphere _ | CutSphere _ _ => q
  | Cylinder _ | FiniteCyl _ _ => V3 (vx q) (vy q) 0
  | Parab a b | ParabDish a b _ _ | HexDish a b _ => V3 (2 * a * vx q) (2 * b * vy q) (- 1)
  | _ => V3 0 0 1
  end.

Lemma sequence_map2_ok {X A B C} (f : A -> B -> res C) (g : X -> A) (h : X -> B) l cs :
  sequence (map2 f (map g l) (map h l)) = Ok cs -> Forall2 (fun x c => f (g x) (h x) = Ok c) l cs.
Proof.
  rewrite map2_map. intros H. apply (mapM_ok (fun x => f (g x) (h x))). exact H.
Qed.

Lemma normals_good gm r t ks ns : orthonormal r -> is_quad gm = true ->
  normals gm (mk4 r t) (map pick_pt ks) (map pk_d ks) = Ok ns ->
  Forall2 (fun k n => good_normal (mk4 r t) (gradient gm (loc_pt r t (pick_pt k))) (pk_d k) n) ks ns.
Proof.
  intros O Q H.
  destruct gm; try discriminate; cbn [normals gradient] in *;
    try (rewrite inv4_mk4 in H by auto; cbn [bind] in H);
    apply sequence_map2_ok in H; eapply Forall2_impl; try exact H; cbn beta; intros k n Hn.
  1-3: apply normal_sphere_good; auto.
  1-2: apply normal_cylinder_good; auto.
  1-3: apply normal_parab_good; auto.
Qed.

(** Normals exist away from the centre of a sphere or the axis of a cylinder. *)
Definition has_normal (gm : geom) (q : vec) : Prop := norm2 (gradient gm q) <> 0.

Lemma parab_has_normal gm q : match gm with Parab _ _ | ParabDish _ _ _ _ | HexDish _ _ _ => True | _ => False end ->
  has_normal gm q.
Proof. destruct gm; intros []; unfold has_normal, gradient; vunfold; nra. Qed.

Lemma sequence_map2_total {X A B C} (f : A -> B -> res C) (g : X -> A) (h : X -> B) l :
  (forall x, In x l -> exists c, f (g x) (h x) = Ok c) ->
  exists cs, sequence (map2 f (map g l) (map h l)) = Ok cs.
Proof.
  rewrite map2_map. induction l as [|x l IH]; intros H; [exists []; auto|].
  destruct (H x (or_introl eq_refl)) as (c & Hc). destruct IH as (cs & Hcs); [intros; apply H; right; auto|].
  exists (c :: cs). cbn [map sequence]. rewrite Hc. cbn [bind]. rewrite Hcs. reflexivity.
Qed.

Lemma normals_total gm r t ks : orthonormal r -> is_quad gm = true ->
  (forall k, In k ks -> has_normal gm (loc_pt r t (pick_pt k))) ->
  exists ns, normals gm (mk4 r t) (map pick_pt ks) (map pk_d ks) = Ok ns.
Proof.
  intros O Q H.
  destruct gm; try discriminate; cbn [normals];
    try (rewrite inv4_mk4 by auto; cbn [bind]); apply sequence_map2_total; intros k Hk; specialize (H k Hk);
    unfold has_normal in H; cbn [gradient] in H.
  1-3: unfold normal_sphere; rewrite loc_mk4; rewrite norm2_loc in H by auto;
       destruct (Rltb _ 0); apply normalised_total; rewrite ?norm2_vopp; auto.
  1-2: unfold normal_cylinder; rewrite app4_inv, rot_mk4; destruct (normalised_total _ H) as (m & ->);
       cbn [bind]; eauto.
  all: unfold normal_parab; rewrite app4_inv, rot_mk4;
       match goal with |- context [normalised ?v] => destruct (normalised_total v) as (m & ->) end;
       [vunfold; nra|cbn [bind]; eauto].
Qed.

(** ** Normals of flat surfaces *)
Lemma existsb_nonzero m k : existsb (Nat.eqb k) (nonzero m) = nth k m false.
Proof.
  destruct (nth k m false) eqn:E.
  - apply existsb_exists. exists k. split; [|apply Nat.eqb_refl]. apply nonzero_spec.
    destruct (nth_error m k) eqn:En.
    + apply nth_error_nth with (d := false) in En. congruence.
    + apply nth_error_None in En. rewrite nth_overflow in E; auto; discriminate.
  - destruct (existsb (Nat.eqb k) (nonzero m)) eqn:X; auto.
    apply existsb_exists in X as (j & Hj & Ej). apply Nat.eqb_eq in Ej. subst j.
    apply nonzero_spec in Hj. apply nth_error_nth with (d := false) in Hj. congruence.
Qed.

Lemma flat_normals frame ks n : n = length ks ->
  map (fun k => if existsb (Nat.eqb k) (nonzero (map (fun k => Rltb 0 (dot (pk_d k) (zaxis frame))) ks))
                then vopp (zaxis frame) else zaxis frame) (seq 0 n)
  = map (fun k => if Rltb 0 (dot (pk_d k) (zaxis frame)) then vopp (zaxis frame) else zaxis frame) ks.
Proof.
  intros ->.
  transitivity (map (fun k => if nth k (map (fun k => Rltb 0 (dot (pk_d k) (zaxis frame))) ks) false
                              then vopp (zaxis frame) else zaxis frame) (seq 0 (length ks))).
  { apply map_ext. intros k. rewrite existsb_nonzero. reflexivity. }
  assert (G : forall (f : pickd -> bool) (a z : vec) l,
     map (fun k => if nth k (map f l) false then a else z) (seq 0 (length l))
     = map (fun k => if f k then a else z) l).
  { intros f a z l. induction l as [|k l IH]; auto. cbn [length seq map nth]. f_equal.
    rewrite <- IH, <- seq_shift, map_map. reflexivity. }
  apply (G (fun k => Rltb 0 (dot (pk_d k) (zaxis frame)))).
Qed.

Lemma flat_normal_good r t d : orthonormal r ->
  good_normal (mk4 r t) (V3 0 0 1) d
    (if Rltb 0 (dot d (zaxis (mk4 r t))) then vopp (zaxis (mk4 r t)) else zaxis (mk4 r t)).
Proof.
  intros O. rewrite zaxis_mk4. unfold good_normal. rewrite rot_mk4.
  assert (E : mv3 r (V3 0 0 1) = col3 r) by (rewrite <- (z_of_mk4 r t); unfold z_of; rewrite rot_mk4; auto).
  assert (U : norm2 (col3 r) = 1).
  { rewrite <- E, orthonormal_norm2 by auto. vunfold. ring. }
  rewrite E, (dot_comm d). destruct (Rltb_spec 0 (dot (col3 r) d)).
  - rewrite norm2_vopp. split; auto. split; [exists (- 1)|rewrite dot_vopp_l; lra].
    generalize (col3 r). intros [? ? ?]. vunfold. veq; ring.
  - split; auto. split; [exists 1|auto]. generalize (col3 r). intros [? ? ?]. vunfold. veq; ring.
Qed.
