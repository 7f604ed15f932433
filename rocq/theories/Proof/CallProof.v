(** What the optics managers emit. *)
From Coq Require Import Reals String List Arith Bool Lia Lra.
From Verif.Base Require Import Py Num Vec.
From Verif.Model Require Import RayBundle Geometry Spatial Sources Optics OpticsCallables.
From Verif.Spec Require Import BundleSpec EngineSpec GeometrySpec OpticsSpec.
From Verif.Proof Require Import ListLemmas NumLemmas VecLemmas BundleProof SelectProof OpticsProof.
Import ListNotations.
Local Open Scope R_scope.

(** Everything about one selected ray. *)
Record row : Type := mkRow { w_i : nat; w_d : vec; w_e : R; w_p : vec; w_n : vec; w_r : R; w_x : vec }.

Lemma zip_rows (il : list nat) (dl : list vec) (el : list R) (pl nl : list vec) (rl : list R)
    (xl : list vec) :
  length dl = length il -> length el = length il -> length pl = length il ->
  length nl = length il -> length rl = length il -> length xl = length il ->
  exists ks, il = map w_i ks /\ dl = map w_d ks /\ el = map w_e ks /\ pl = map w_p ks /\
             nl = map w_n ks /\ rl = map w_r ks /\ xl = map w_x ks.
Proof.
  revert dl el pl nl rl xl; induction il as [|i il IH];
    intros [|d dl] [|e el] [|p pl] [|m nl] [|r rl] [|x xl] H1 H2 H3 H4 H5 H6; try discriminate.
  - exists []. repeat split.
  - destruct (IH dl el pl nl rl xl) as (ks & -> & -> & -> & -> & -> & -> & ->); try (simpl in *; lia).
    exists (mkRow i d e p m r x :: ks). repeat split.
Qed.

Lemma traceable_parts b n : traceable b n ->
  exists vs ds es, b_vert b = Some vs /\ b_dir b = Some ds /\ b_energy b = Some es /\
    length vs = n /\ length ds = n /\ length es = n.
Proof.
  intros (Hn & Hr & Hd & He). destruct (rays_vert _ _ Hr) as (vs & Hv & Lv).
  destruct (b_dir b) as [ds|] eqn:Ed; [|congruence]. destruct (b_energy b) as [es|] eqn:Ee; [|congruence].
  exists vs, ds, es. repeat split; auto.
  - pose proof (proj2 Hr Directions (map PVec ds)) as K. simpl in K. rewrite Ed, map_length in K. auto.
  - pose proof (proj2 Hr Energy (map PReal es)) as K. simpl in K. rewrite Ee, map_length in K. auto.
Qed.

Lemma traceable_ref b n rl : traceable b n -> b_ref b = Some rl -> length rl = n.
Proof.
  intros (Hn & Hr & _) E. pose proof (proj2 Hr RefIndex (map PReal rl)) as K. simpl in K.
  rewrite E, map_length in K. auto.
Qed.

(** The bundle holds the rows. *)
Record has_rows (b : bundle) (ks : list row) : Prop := {
  hr_dir : forall k, In k ks -> dir_at b (w_i k) = Some (w_d k);
  hr_energy : forall k, In k ks -> energy_at b (w_i k) = Some (w_e k);
  hr_ref : b_ref b <> None -> forall k, In k ks -> ref_at b (w_i k) = Some (w_r k) }.

Lemma take_in_map {A} (l : list A) (f : row -> A) ks : take l (map w_i ks) = Ok (map f ks) ->
  forall k, In k ks -> nth_error l (w_i k) = Some (f k).
Proof.
  intros H k Hk. apply take_ok in H. induction ks as [|a ks IH]; [destruct Hk|].
  inversion H; subst. destruct Hk as [->|Hk]; auto.
Qed.
Lemma map_take {A} (l : list A) (f : row -> A) ks :
  (forall k, In k ks -> nth_error l (w_i k) = Some (f k)) -> take l (map w_i ks) = Ok (map f ks).
Proof.
  intros H. apply take_ok. induction ks as [|a ks IH]; simpl; constructor; auto.
  - apply H; left; auto.
  - apply IH. intros; apply H; right; auto.
Qed.

Lemma rows_of b n sel pts ns xs : traceable b n -> (forall i, In i sel -> (i < n)%nat) ->
  length pts = length sel -> length ns = length sel -> length xs = length sel ->
  exists ks, sel = map w_i ks /\ pts = map w_p ks /\ ns = map w_n ks /\ xs = map w_x ks /\
    has_rows b ks.
Proof.
  intros T Hs Lp Ln Lx. destruct (traceable_parts b n T) as (vs & ds & es & Ev & Ed & Ee & Lv & Ld & Le).
  assert (F : forall m, m = n -> Forall (fun i => (i < m)%nat) sel).
  { intros m ->. apply Forall_forall. auto. }
  destruct (take_total ds sel (F _ Ld)) as (dl & Td). destruct (take_total es sel (F _ Le)) as (el & Te).
  assert (exists rl, length rl = length sel /\ forall x, b_ref b = Some x -> take x sel = Ok rl) as (rl & Lr & Tr).
  { destruct (b_ref b) as [x|] eqn:Er.
    - destruct (take_total x sel (F _ (traceable_ref _ _ _ T Er))) as (rl & Tr). exists rl.
      split; [apply (take_length _ _ _ Tr)|]. intros y E. injection E as <-. auto.
    - exists (repeat 0 (length sel)). rewrite repeat_length. split; auto. discriminate. }
  destruct (zip_rows sel dl el pts ns rl xs) as (ks & Es & -> & -> & Ep & En & -> & Ex);
    try (rewrite ?(take_length _ _ _ Td), ?(take_length _ _ _ Te); auto; fail).
  exists ks. repeat split; auto.
  - intros k Hk. unfold dir_at, at_col. rewrite Ed. apply (take_in_map ds w_d ks); auto. rewrite <- Es; auto.
  - intros k Hk. unfold energy_at, at_col. rewrite Ee. apply (take_in_map es w_e ks); auto. rewrite <- Es; auto.
  - intros Hr k Hk. unfold ref_at, at_col. destruct (b_ref b) as [x|] eqn:Er; [|congruence].
    apply (take_in_map x w_r ks); auto. rewrite <- Es. apply Tr; auto.
Qed.

Lemma rows_dirs b ks : has_rows b ks -> b_dir b <> None ->
  exists ds, get_directions b = Ok ds /\ take ds (map w_i ks) = Ok (map w_d ks).
Proof.
  intros H Hd. unfold get_directions, get_prop. destruct (b_dir b) as [ds|] eqn:E; [|congruence].
  exists ds. split; auto. apply map_take. intros k Hk. pose proof (hr_dir _ _ H k Hk) as K.
  unfold dir_at, at_col in K. rewrite E in K. auto.
Qed.
Lemma rows_energy b ks : has_rows b ks -> b_energy b <> None ->
  exists es, get_energy b = Ok es /\ take es (map w_i ks) = Ok (map w_e ks).
Proof.
  intros H Hd. unfold get_energy, get_prop. destruct (b_energy b) as [ds|] eqn:E; [|congruence].
  exists ds. split; auto. apply map_take. intros k Hk. pose proof (hr_energy _ _ H k Hk) as K.
  unfold energy_at, at_col in K. rewrite E in K. auto.
Qed.
Lemma rows_ref b ks : has_rows b ks -> b_ref b <> None ->
  exists rs, get_ref_index b = Ok rs /\ take rs (map w_i ks) = Ok (map w_r ks).
Proof.
  intros H Hd. pose proof (hr_ref _ _ H Hd) as K. unfold get_ref_index, get_prop. destruct (b_ref b) as [ds|] eqn:E; [|congruence].
  exists ds. split; auto. apply map_take. intros k Hk. specialize (K k Hk).
  unfold ref_at, at_col in K. rewrite E in K. auto.
Qed.

Lemma rows_range b n ks : traceable b n -> has_rows b ks -> forall i, In i (map w_i ks) -> (i < n)%nat.
Proof.
  intros T H i Hi. apply in_map_iff in Hi as (k & <- & Hk). pose proof (hr_dir _ _ H k Hk) as K.
  destruct (traceable_parts b n T) as (vs & ds & es & Ev & Ed & Ee & Lv & Ld & Le).
  unfold dir_at, at_col in K. rewrite Ed in K. rewrite <- Ld. apply nth_error_Some. congruence.
Qed.

Lemma nth_map_iff {A B} (f : A -> B) l k b :
  nth_error (map f l) k = Some b <-> exists a, nth_error l k = Some a /\ b = f a.
Proof.
  rewrite nth_error_map. destruct (nth_error l k); simpl; split.
  - intros E. injection E as <-. eauto.
  - intros (a0 & E & ->). congruence.
  - discriminate.
  - intros (a0 & E & _). discriminate.
Qed.

(** *** Bundles made by [inherit] with new vertices, directions, energies and
    parents. *)
Lemma emit b n ks (fv fd : row -> vec) (fe : row -> R) (fr : option (row -> R)) :
  traceable b n -> has_rows b ks -> (fr <> None -> b_ref b <> None) ->
  exists o,
    inherit b (SIdx (map w_i ks))
      (mkB (Some (map fv ks)) (Some (map fd ks)) (Some (map fe ks)) (Some (map w_i ks))
           (option_map (fun f => map f ks) fr) []) = Ok o /\
    traceable o (length ks) /\ same_set o b /\ b_parents o = Some (map w_i ks) /\
    b_energy o = Some (map fe ks) /\
    forall k r, nth_error ks k = Some r ->
      child b o k (w_i r) (fv r) (fd r) (fe r)
        (match fr with Some f => Some (f r) | None => ref_at b (w_i r) end).
Proof.
  intros T H Hf. set (ov := mkB _ _ _ _ _ _). pose proof T as (Hn & Hr & Hd & He).
  destruct (inherit_total b (SIdx (map w_i ks)) ov Hn) as (o & E).
  { intros p l _ Hp. simpl. rewrite (proj2 Hr _ _ Hp). apply (rows_range b n ks T H). }
  exists o. split; auto. pose proof (inherit_sound _ _ _ _ E) as S.
  assert (Ev : b_vert o = Some (map fv ks)) by (unfold inherit, ov in E; cbn in E; binds; auto).
  assert (Ed : b_dir o = Some (map fd ks)) by (unfold inherit, ov in E; cbn in E; binds; auto).
  assert (Ee : b_energy o = Some (map fe ks)) by (unfold inherit, ov in E; cbn in E; binds; auto).
  assert (Ep : b_parents o = Some (map w_i ks)) by (unfold inherit, ov in E; cbn in E; binds; auto).
  assert (No : names_ok o).
  { apply (inherit_names b (SIdx (map w_i ks)) ov o); auto. unfold names_ok, ov; simpl. constructor. }
  assert (Ro : rays o (length ks)).
  { assert (L : length (positions (SIdx (map w_i ks)) n) = length ks) by (simpl; apply map_length).
    rewrite <- L. apply (inherit_rays b n (SIdx (map w_i ks)) ov o); auto. intros p l. rewrite L. unfold ov.
    destruct p; simpl; intros Hp; try discriminate; try (injection Hp as <-; rewrite !map_length; auto; fail).
    destruct fr; simpl in Hp; [|discriminate]. injection Hp as <-. rewrite !map_length; auto. }
  split; [|split; [|split; [|split]]]; auto.
  - repeat split; auto; try congruence; apply Ro.
  - intros p Hp. specialize (S p). unfold inh in S. unfold ov in S.
    destruct p; simpl in *; try congruence.
    + rewrite Ev. destruct (rays_vert _ _ Hr) as (vs & -> & _). simpl. split; discriminate.
    + rewrite Ed. destruct (b_dir b); [|congruence]. simpl. split; discriminate.
    + rewrite Ee. destruct (b_energy b); [|congruence]. simpl. split; discriminate.
    + destruct fr as [f|].
      * simpl in S. rewrite S. destruct (b_ref b); [|exfalso; apply Hf; auto; discriminate].
        simpl. split; discriminate.
      * simpl in S. destruct (b_ref b); simpl in *.
        -- destruct S as (? & ? & _). rewrite H0. split; discriminate.
        -- rewrite S. tauto.
    + destruct (lookup name (b_extra b)) as [[w|]|]; simpl in S.
      * destruct S as (? & ? & _). rewrite H0. split; discriminate.
      * rewrite S. tauto.
      * rewrite S. tauto.
  - intros k r Hk. assert (Hi : In r ks) by (eapply nth_error_In; eauto). constructor.
    + unfold vert_at, at_col. rewrite Ev. apply map_nth_error; auto.
    + unfold dir_at, at_col. rewrite Ed. apply map_nth_error; auto.
    + unfold energy_at, at_col. rewrite Ee. apply map_nth_error; auto.
    + unfold parent_at, at_col. rewrite Ep. apply map_nth_error; auto.
    + pose proof (S RefIndex) as Sr. unfold inh, ov in Sr. simpl in Sr. unfold ref_at, at_col.
      destruct fr as [f|]; simpl in Sr.
      * destruct (b_ref o) as [x|]; simpl in Sr; [|discriminate]. injection Sr as Sr.
        assert (x = map f ks) as ->.
        { revert Sr. generalize (map f ks) as y. clear. intros y; revert y. induction x; intros [|a0 y] Sr; try discriminate; auto.
          simpl in Sr. injection Sr as -> Sr. f_equal; auto. }
        apply map_nth_error; auto.
      * destruct (b_ref b) as [x|] eqn:Er; simpl in Sr.
        -- destruct Sr as (l' & E1 & _ & Pk). destruct (b_ref o) as [y|]; simpl in E1; [|discriminate].
           injection E1 as <-.
           assert (Hy : nth_error (map PReal y) k = nth_error (map PReal x) (w_i r)).
           { unfold picks in Pk. pose proof (proj2 (proj1 (Forall2_nth _ _ _) Pk)) as Q.
             assert (Lk : (k < length (map PReal y))%nat).
             { pose proof (Forall2_length _ _ _ Pk) as LL. rewrite <- LL, map_length.
               apply nth_error_Some. congruence. }
             destruct (nth_error (map PReal y) k) as [a|] eqn:Ea.
             - symmetry. apply (Q k); auto. apply map_nth_error; auto.
             - apply nth_error_None in Ea. lia. }
           rewrite !nth_error_map in Hy. destruct (nth_error y k), (nth_error x (w_i r)); simpl in Hy; congruence.
        -- destruct (b_ref o); simpl in Sr; [discriminate|auto].
    + intros x. pose proof (S (Extra x)) as Sx. unfold inh, ov in Sx.
      change (prop (mkB _ _ _ _ _ []) (Extra x)) with (@None (list pval)) in Sx. cbv iota in Sx.
      destruct (prop b (Extra x)) as [l|].
      * destruct Sx as (l' & E1 & _ & Pk). exists l'. split; auto.
        unfold picks in Pk. pose proof (proj2 (proj1 (Forall2_nth _ _ _) Pk)) as Q.
        assert (Lk : (k < length l')%nat).
        { pose proof (Forall2_length _ _ _ Pk) as LL. rewrite <- LL. cbn [positions]. rewrite map_length. apply nth_error_Some. congruence. }
        destruct (nth_error l' k) as [a|] eqn:Ea.
        -- symmetry. apply (Q k); auto. apply map_nth_error; auto.
        -- apply nth_error_None in Ea. lia.
      * auto.
Qed.

(** *** Mirrors *)
Lemma same_len_map {A B C} (f : A -> B) (g : A -> C) l : same_len (map f l) (map g l) = true.
Proof. unfold same_len. rewrite !map_length. apply Nat.eqb_refl. Qed.

Lemma reflective_emits a gs b n ks z : traceable b n -> has_rows b ks ->
  told gs (map w_p ks) (map w_n ks) z ->
  exists o, call_reflective a gs b (map w_i ks) = Ok o /\
    inherit b (SIdx (map w_i ks))
      (mkB (Some (map w_p ks)) (Some (map (fun r => reflection (w_d r) (w_n r)) ks))
           (Some (map (fun r => w_e r * (1 - a)) ks)) (Some (map w_i ks)) None []) = Ok o /\
    traceable o (length ks) /\ same_set o b /\ b_parents o = Some (map w_i ks) /\
    b_energy o = Some (map (fun r => w_e r * (1 - a)) ks) /\
    forall k r, nth_error ks k = Some r ->
      child b o k (w_i r) (w_p r) (reflection (w_d r) (w_n r)) (w_e r * (1 - a)) (ref_at b (w_i r)).
Proof.
  intros T H (Gp & Gn & _ & _). pose proof T as (_ & _ & Hd & He).
  destruct (rows_dirs b ks H Hd) as (ds & Ed & Td). destruct (rows_energy b ks H He) as (es & Ee & Te).
  destruct (emit b n ks w_p (fun r => reflection (w_d r) (w_n r)) (fun r => w_e r * (1 - a)) None T H)
    as (o & Eo & To & So & Po & Eno & Ch); [congruence|].
  exists o. split; [|split; [exact Eo|auto]].
  unfold call_reflective. rewrite Gp. cbn [bind]. rewrite Ed. cbn [bind]. rewrite Td. cbn [bind].
  rewrite Gn. cbn [bind]. rewrite same_len_map. cbn [negb]. rewrite Ee. cbn [bind]. rewrite Te. cbn [bind].
  rewrite map2_map. unfold scaled. rewrite map_map. exact Eo.
Qed.

Lemma inherit_energy b sel v d e e' p r x o :
  inherit b sel (mkB v d (Some e) p r x) = Ok o ->
  inherit b sel (mkB v d (Some e') p r x) = Ok (set_energy e' o).
Proof.
  unfold inherit. cbn [b_vert b_dir b_energy b_parents b_ref b_extra].
  destruct (inherit_prop sel v (b_vert b)); [|discriminate]. cbn [bind].
  destruct (inherit_prop sel d (b_dir b)); [|discriminate]. cbn [bind inherit_prop].
  destruct (inherit_prop sel p (b_parents b)); [|discriminate]. cbn [bind].
  destruct (inherit_prop sel r (b_ref b)); [|discriminate]. cbn [bind].
  destruct (inherit_extras sel x (b_extra b)); [|discriminate]. cbn [bind].
  intros E. injection E as <-. reflexivity.
Qed.

Definition one_sided_energy (a : R) (z : vec) (r : row) : R :=
  if Rltb 0 (dot (w_d r) z) then 0 else w_e r * (1 - a).

Lemma absorber_emits a gs b n ks z : traceable b n -> has_rows b ks ->
  told gs (map w_p ks) (map w_n ks) z ->
  exists o, call_absorber a gs b (map w_i ks) = Ok o /\
    traceable o (length ks) /\ same_set o b /\ b_parents o = Some (map w_i ks) /\
    b_energy o = Some (map (one_sided_energy a z) ks) /\
    forall k r, nth_error ks k = Some r ->
      child b o k (w_i r) (w_p r) (reflection (w_d r) (w_n r)) (one_sided_energy a z r) (ref_at b (w_i r)).
Proof.
  intros T H G. destruct (reflective_emits a gs b n ks z T H G) as (o & Ec & Ei & To & So & Po & Eno & Ch).
  pose proof G as (Gp & Gn & Gz & _). pose proof T as (_ & _ & Hd & He).
  destruct (rows_dirs b ks H Hd) as (ds & Ed & Td).
  destruct (emit b n ks w_p (fun r => reflection (w_d r) (w_n r)) (one_sided_energy a z) None T H)
    as (o' & Eo' & Rest); [congruence|].
  exists o'. split; [|exact Rest].
  apply (inherit_energy _ _ _ _ _ (map (one_sided_energy a z) ks)) in Ei.
  cbn [option_map] in Eo'. rewrite Ei in Eo'. injection Eo' as <-.
  unfold call_absorber. rewrite Ec. cbn [bind]. unfold get_energy, get_prop. rewrite Eno. cbn [bind].
  rewrite Ed. cbn [bind]. rewrite Td. cbn [bind]. rewrite Gz. cbn [bind].
  cbv zeta. rewrite !map_map. cbn [select bind]. rewrite same_len_map. cbn [negb].
  rewrite (fill_mask_pointwise (fun r => Rltb 0 (dot (w_d r) z)) (fun r => w_e r * (1 - a)) 0 ks).
  reflexivity.
Qed.

(** *** Diffuse reflection *)
Lemma sin_cos_pi2 : sin (PI / 2) = 1. Proof. exact sin_PI2. Qed.

Lemma asin_range q : 0 <= q <= 1 -> 0 <= asin q <= PI / 2 /\ sin (asin q) = q.
Proof.
  intros Q. pose proof (asin_bound q) as K. pose proof (sin_asin q ltac:(lra)) as S. split; auto.
  split; [|lra]. destruct (Rle_lt_dec 0 (asin q)) as [|X]; auto. exfalso.
  pose proof PI_RGT_0. pose proof (sin_lt_0_var (asin q)). lra.
Qed.

Lemma sqrt_01 x : 0 <= x < 1 -> 0 <= sqrt x < 1.
Proof. intros. split; [apply sqrt_pos|]. rewrite <- sqrt_1. apply sqrt_lt_1; lra. Qed.

Lemma pillbox_direction_unit ang x y : is_unit (pillbox_direction ang x y).
Proof.
  unfold pillbox_direction. set (t := asin (sin ang * sqrt y)).
  unfold is_unit. vunfold. pose proof (sin2_cos2 x) as X. pose proof (sin2_cos2 t) as Y. unfold Rsqr in *.
  replace (cos x * sin t * (cos x * sin t) + sin x * sin t * (sin x * sin t) + cos t * cos t)
    with ((sin x * sin x + cos x * cos x) * (sin t * sin t) + cos t * cos t) by ring.
  rewrite X. lra.
Qed.

Lemma pillbox_direction_ok ang x y : 0 <= ang <= PI / 2 -> 0 <= y < 1 ->
  exists t, 0 <= t <= ang /\ vz (pillbox_direction ang x y) = cos t.
Proof.
  intros Ha Hy. unfold pillbox_direction. pose proof (sqrt_01 y Hy) as Sy.
  pose proof (sin_quarter _ Ha) as Sa. pose proof (SIN_bound ang) as Sb.
  assert (Q : 0 <= sin ang * sqrt y <= 1) by (split; nra).
  destruct (asin_range _ Q) as (At & St). set (t := asin (sin ang * sqrt y)) in *.
  exists t. split; [|reflexivity]. split; [lra|].
  destruct (Rle_lt_dec t ang) as [|L]; auto. exfalso.
  assert (sin ang < sin t); [|nra]. apply sin_increasing_1; lra.
Qed.

Lemma veqb_true a b : veqb a b = true <-> a = b.
Proof.
  unfold veqb. rewrite !andb_true_iff, !Reqb_true. destruct a as [x y z], b as [x1 y1 z1]; cbn [vx vy vz]. split.
  - intros ((-> & ->) & ->). auto.
  - intros E. injection E as -> -> ->. auto.
Qed.

(** The first column of [rotation_to_z]. *)
Definition to_z_x (v : vec) : vec :=
  let perp := V3 (vy v) (- vx v) 0 in
  let perp := if veqb perp vzero then V3 1 0 0 else perp in
  vscale (/ sqrt (norm2 perp)) perp.

Lemma normalise_unit v : norm2 v <> 0 -> is_unit (vscale (/ sqrt (norm2 v)) v).
Proof.
  intros N. pose proof (norm2_nonneg v) as P. unfold is_unit.
  assert (E : norm2 (vscale (/ sqrt (norm2 v)) v) = / sqrt (norm2 v) * / sqrt (norm2 v) * norm2 v)
    by (destruct v; vunfold; ring).
  rewrite E, <- Rinv_mult, sqrt_sqrt by auto. field. auto.
Qed.

Lemma to_z_x_ok v : is_unit (to_z_x v) /\ dot v (to_z_x v) = 0 /\ vz (to_z_x v) = 0.
Proof.
  unfold to_z_x. cbv zeta. set (p := V3 (vy v) (- vx v) 0).
  destruct (veqb p vzero) eqn:E.
  - apply veqb_true in E. unfold p, vzero in E. injection E as E1 E2.
    split; [|split].
    + apply normalise_unit. vunfold. lra.
    + assert (vx v = 0) by lra. destruct v as [x y z]. vunfold. subst. ring.
    + vunfold. ring.
  - assert (N : norm2 p <> 0).
    { intros Z. apply norm2_zero in Z. rewrite (proj2 (veqb_true p vzero) Z) in E. discriminate. }
    split; [apply normalise_unit; auto|]. split.
    + unfold p. destruct v as [x y z]. vunfold. ring.
    + unfold p. vunfold. ring.
Qed.

Lemma rotation_to_z_cols v : rotation_to_z v = of_cols (to_z_x v) (cross v (to_z_x v)) v.
Proof. reflexivity. Qed.

Lemma of_cols_orthonormal a b c : is_unit a -> is_unit b -> is_unit c ->
  dot a b = 0 -> dot a c = 0 -> dot b c = 0 -> orthonormal (of_cols a b c).
Proof.
  unfold is_unit. intros A B C AB AC BC. apply orthonormal_eqs.
  destruct a, b, c. vunfold. repeat split; lra.
Qed.

Lemma rotation_to_z_orthonormal v : is_unit v -> orthonormal (rotation_to_z v).
Proof.
  intros U. rewrite rotation_to_z_cols. destruct (to_z_x_ok v) as (X & D & _).
  set (x := to_z_x v) in *. apply of_cols_orthonormal; auto.
  - unfold is_unit. rewrite lagrange, D. unfold is_unit in *. rewrite U, X. ring.
  - destruct v, x. vunfold. ring.
  - rewrite dot_comm; auto.
  - destruct v, x. vunfold. ring.
Qed.

Lemma rotation_to_z_third v d : is_unit v -> dot (mv3 (rotation_to_z v) d) v = vz d.
Proof.
  intros U. rewrite rotation_to_z_cols. destruct (to_z_x_ok v) as (X & D & _).
  set (x := to_z_x v) in *. unfold is_unit in *.
  assert (E : dot (mv3 (of_cols x (cross v x) v) d) v = vx d * dot v x + vz d * norm2 v)
    by (destruct v, x, d; vunfold; ring).
  rewrite E, D, U. ring.
Qed.

Lemma uniform_spec h n g l g' : uniform h n g = (l, g') ->
  length l = n /\ g' = mkRng (draws g) (drawn g + n) /\
  (fair g -> 0 <= h -> (forall x, In x l -> 0 <= x) /\ (h = 1 -> forall x, In x l -> 0 <= x < 1)).
Proof.
  unfold uniform. intros E. injection E as <- <-. rewrite map_length, seq_length. split; auto. split; auto.
  intros F Hh. split.
  - intros x Hx. apply in_map_iff in Hx as (k & <- & _). specialize (F k). apply Rmult_le_pos; lra.
  - intros -> x Hx. apply in_map_iff in Hx as (k & <- & _). specialize (F k). lra.
Qed.

Lemma pillbox_spec n ang g l g' : 0 <= ang <= PI / 2 ->
  pillbox_sunshape_directions n ang g = (l, g') ->
  length l = n /\ (fair g -> fair g') /\
  forall d, In d l -> is_unit d /\ (fair g -> exists t, 0 <= t <= ang /\ vz d = cos t).
Proof.
  intros Ha. unfold pillbox_sunshape_directions.
  destruct (uniform (2 * PI) n g) as (l1 & g1) eqn:E1. destruct (uniform 1 n g1) as (l2 & g2) eqn:E2.
  intros E. injection E as <- <-.
  destruct (uniform_spec _ _ _ _ _ E1) as (L1 & -> & _).
  destruct (uniform_spec _ _ _ _ _ E2) as (L2 & -> & S2).
  split; [rewrite map2_length; congruence|]. split; [intros F; exact F|].
  intros d Hd.
  apply In_nth_error in Hd as (k & Hk). rewrite map2_nth_error in Hk.
  destruct (nth_error l1 k) as [x|]; [|discriminate].
  destruct (nth_error l2 k) as [y|] eqn:Ey; [|discriminate]. injection Hk as <-.
  split; [apply pillbox_direction_unit|]. intros F.
  destruct (S2 F ltac:(lra)) as (_ & S3). specialize (S3 eq_refl).
  apply pillbox_direction_ok; auto. apply S3. eapply nth_error_In; eauto.
Qed.

Lemma lambertian_emits a gs b n sel pts ns z g : traceable b n ->
  (forall i, In i sel -> (i < n)%nat) -> told gs pts ns z -> length pts = length sel ->
  Forall is_unit ns ->
  exists o g' ks, call_lambertian a gs b sel g = Ok (o, g') /\ (fair g -> fair g') /\
    sel = map w_i ks /\ pts = map w_p ks /\ ns = map w_n ks /\ has_rows b ks /\
    traceable o (length ks) /\ same_set o b /\ b_parents o = Some (map w_i ks) /\
    b_energy o = Some (map (fun r => w_e r * (1 - a)) ks) /\
    forall k r, nth_error ks k = Some r ->
      exists d', is_unit d' /\ (fair g -> 0 <= dot d' (w_n r)) /\
      child b o k (w_i r) (w_p r) d' (w_e r * (1 - a)) (ref_at b (w_i r)).
Proof.
  intros T Hs G Lp Un. pose proof G as (Gp & Gn & Gz & Lpn). pose proof T as (_ & _ & Hd & He).
  unfold call_lambertian.
  destruct (pillbox_sunshape_directions (length sel) (PI / 2) g) as (xs & g') eqn:Eb.
  pose proof PI_RGT_0.
  destruct (pillbox_spec _ _ _ _ _ (conj (Rlt_le 0 (PI/2) ltac:(lra)) (Rle_refl _)) Eb) as (Lx & Fg & Hx).
  destruct (rows_of b n sel pts ns xs T Hs Lp ltac:(congruence) Lx) as (ks & -> & -> & -> & -> & H1).
  destruct (rows_energy b ks H1 He) as (es & Ee & Te).
  destruct (emit b n ks w_p (fun r => mv3 (rotation_to_z (w_n r)) (w_x r)) (fun r => w_e r * (1 - a)) None T H1)
    as (o & Eo & To & So & Po & Eno & Ch); [congruence|].
  exists o, g', ks. split.
  - rewrite Gn. cbn [bind]. rewrite same_len_map. cbn [negb]. rewrite Gp. cbn [bind].
    rewrite Ee. cbn [bind]. rewrite Te. cbn [bind]. rewrite map2_map. unfold scaled. rewrite map_map.
    cbn [option_map] in Eo. rewrite Eo. reflexivity.
  - split; auto. do 8 (split; [auto; fail|]). intros k r Hk.
    assert (Hi : In r ks) by (eapply nth_error_In; eauto).
    assert (U : is_unit (w_n r)) by (rewrite Forall_forall in Un; apply Un; apply in_map; auto).
    destruct (Hx (w_x r) (in_map _ _ _ Hi)) as (Ux & Zx).
    exists (mv3 (rotation_to_z (w_n r)) (w_x r)). split; [|split; [|apply Ch; auto]].
    + unfold is_unit. rewrite orthonormal_norm2 by (apply rotation_to_z_orthonormal; auto). exact Ux.
    + intros F. destruct (Zx F) as (t & Ht & Et). rewrite rotation_to_z_third, Et by auto. apply cos_quarter; auto.
Qed.
