(** Proofs about the ray bundle model. *)
From Coq Require Import Reals String List Arith Bool Lia Permutation.
From Verif.Base Require Import Py Num Vec.
From Verif.Model Require Import RayBundle.
From Verif.Spec Require Import BundleSpec.
From Verif.Proof Require Import ListLemmas.
Import ListNotations.

Lemma picks_map {A B} (f : A -> B) l idx l' : picks l idx l' -> picks (map f l) idx (map f l').
Proof.
  unfold picks. induction 1; simpl; constructor; auto. rewrite nth_error_map, H; auto.
Qed.

Lemma picks_fun {A} (l : list A) idx a b : picks l idx a -> picks l idx b -> a = b.
Proof. apply Forall2_fun. intros; congruence. Qed.

Lemma picks_length {A} (l : list A) idx l' : picks l idx l' -> length l' = length idx.
Proof. intros H; symmetry; eapply Forall2_length; eauto. Qed.

Lemma picks_seq {A} (l : list A) : picks l (seq 0 (length l)) l.
Proof. apply take_ok, take_seq. Qed.

Lemma mask_positions m n : length m = n -> positions (SMask m) n = nonzero m.
Proof. intros <-. simpl. symmetry. apply nonzero_filter. Qed.

Lemma select_ok {A} sel (l l' : list A) :
  select sel l = Ok l' <-> sel_ok sel (length l) /\ picks l (positions sel (length l)) l'.
Proof.
  destruct sel as [|idx|m]; simpl.
  - split.
    + intros H; injection H as <-. split; auto. apply picks_seq.
    + intros (_ & H). f_equal. eapply picks_fun; [apply picks_seq|auto].
  - rewrite take_ok. split.
    + intros H; split; auto. apply take_ok in H. apply take_range in H.
      rewrite Forall_forall in H; auto.
    + tauto.
  - destruct (same_len m l) eqn:E; unfold same_len in E.
    + apply Nat.eqb_eq in E. rewrite <- E, <- nonzero_filter. split.
      * intros H; injection H as <-. split; auto. apply take_ok, mask_select_take; auto.
      * intros (_ & H). apply take_ok in H. rewrite mask_select_take in H; auto.
    + apply Nat.eqb_neq in E. split; [discriminate|]. intros (H & _); congruence.
Qed.

Lemma select_err {A} sel (l : list A) e : select sel l = Err e ->
  e = IndexError /\ ~ sel_ok sel (length l).
Proof.
  destruct sel as [|idx|m]; simpl; [discriminate| |].
  - intros H; apply take_err in H. destruct H as (-> & i & Hi & Hl). split; auto.
    intros F; apply F in Hi; lia.
  - unfold same_len. destruct (Nat.eqb_spec (length m) (length l)); [discriminate|].
    intros H; injection H as <-; auto.
Qed.

Lemma select_total {A} sel (l : list A) : sel_ok sel (length l) -> exists l', select sel l = Ok l'.
Proof.
  intros H. destruct (select sel l) eqn:E; eauto. apply select_err in E; tauto.
Qed.

(** What inherit does to one property. *)
Definition inh (sel : selector) (given own res : option (list pval)) : Prop :=
  match given with
  | Some v => res = Some v
  | None => match own with
            | None => res = None
            | Some l => exists l', res = Some l' /\ sel_ok sel (length l)
                          /\ picks l (positions sel (length l)) l'
            end
  end.

Lemma inherit_prop_inh {A} (f : A -> pval) sel given own r :
  inherit_prop sel given own = Ok r ->
  inh sel (option_map (map f) given) (option_map (map f) own) (option_map (map f) r).
Proof.
  unfold inherit_prop, inh. destruct given; simpl.
  - intros H; injection H as <-; auto.
  - destruct own as [l|]; simpl; intros H; binds; auto.
    apply select_ok in E. rewrite map_length. exists (map f x). split; auto.
    split; [tauto|]. apply picks_map; tauto.
Qed.

Lemma lookup_app {A} n (a b : list (string * A)) :
  lookup n (a ++ b) = match lookup n a with Some v => Some v | None => lookup n b end.
Proof. induction a as [|[m v] a IH]; simpl; auto. destruct (String.eqb m n); auto. Qed.

Lemma inherit_extras_lookup sel given own r n :
  inherit_extras sel given own = Ok r ->
  match lookup n own with
  | None => lookup n r = None
  | Some v => exists v', lookup n r = Some v' /\ inherit_prop sel (given_extra n given) v = Ok v'
  end.
Proof.
  revert r; induction own as [|[m v] own IH]; simpl; intros r H; binds; simpl; auto.
  destruct (String.eqb_spec m n) as [->|Hn]; [eauto|]. exact (IH _ E0).
Qed.

Lemma new_extras_lookup given own n :
  lookup n (new_extras given own) =
  match lookup n own with Some _ => None | None => lookup n given end.
Proof.
  unfold new_extras. induction given as [|[m v] given IH]; simpl.
  - destruct (lookup n own); auto.
  - destruct (lookup m own) eqn:Em; simpl; rewrite IH.
    + destruct (String.eqb_spec m n) as [->|]; [rewrite Em|]; auto.
    + destruct (String.eqb_spec m n) as [->|]; [rewrite Em|]; auto.
Qed.

Lemma inherit_sound b sel ov b' :
  inherit b sel ov = Ok b' -> forall p, inh sel (prop ov p) (prop b p) (prop b' p).
Proof.
  unfold inherit. intros H; binds. intros p; destruct p; simpl;
    try (apply inherit_prop_inh; assumption).
  pose proof (inherit_extras_lookup _ _ _ _ name E4) as Hl.
  rewrite lookup_app, new_extras_lookup.
  destruct (lookup name (b_extra b)) as [v|] eqn:Eb.
  - destruct Hl as (v' & -> & Hi). apply (inherit_prop_inh PCell) in Hi.
    unfold given_extra in Hi.
    destruct (lookup name (b_extra ov)) as [[w|]|]; destruct v; destruct v'; simpl in *; auto;
      try (destruct Hi as (? & ? & _); discriminate); try discriminate.
  - rewrite Hl. unfold inh. destruct (lookup name (b_extra ov)) as [[w|]|]; auto.
Qed.

Lemma inherit_prop_err {A} (f : A -> pval) sel given own e :
  inherit_prop sel given own = Err e ->
  e = IndexError /\ option_map (map f) given = None /\
  exists l, option_map (map f) own = Some l /\ ~ sel_ok sel (length l).
Proof.
  unfold inherit_prop. destruct given; [discriminate|]. destruct own as [l|]; [|discriminate].
  destruct (select sel l) eqn:E; simpl; [discriminate|]. intros H; injection H as <-.
  apply select_err in E. simpl. split; [tauto|]. split; auto.
  eexists; split; eauto. rewrite map_length; tauto.
Qed.

Lemma inherit_extras_err sel given own e :
  NoDup (map fst own) ->
  inherit_extras sel given own = Err e ->
  e = IndexError /\ exists n l, given_extra n given = None /\ lookup n own = Some (Some l)
     /\ ~ sel_ok sel (length l).
Proof.
  induction own as [|[m v] own IH]; simpl; [discriminate|]. intros Hd H.
  inversion Hd; subst.
  destruct (inherit_prop sel (given_extra m given) v) as [v'|e'] eqn:E; simpl in H.
  - destruct (inherit_extras sel given own) eqn:E2; simpl in H; [discriminate|].
    injection H as ->. destruct (IH H3 eq_refl) as (-> & n & l & Hg & Hl & Hs).
    split; auto. exists n, l. split; auto. split; auto.
    destruct (String.eqb_spec m n); auto. subst. exfalso.
    apply H2. clear -Hl. induction own as [|[k w] own IH]; simpl in *; [discriminate|].
    destruct (String.eqb_spec k n); auto.
  - injection H as ->. apply (inherit_prop_err PCell) in E. destruct E as (-> & Hg & l & Hl & Hs).
    split; auto. destruct v as [l0|]; [|discriminate]. simpl in Hl. injection Hl as <-.
    exists m, l0. rewrite String.eqb_refl. rewrite map_length in Hs.
    split; auto. destruct (given_extra m given); auto; discriminate.
Qed.

Lemma inherit_fails b sel ov e :
  names_ok b -> inherit b sel ov = Err e ->
  e = IndexError /\
  exists p l, prop ov p = None /\ prop b p = Some l /\ ~ sel_ok sel (length l).
Proof.
  intros Hn H. unfold inherit in H.
  destruct (inherit_prop sel (b_vert ov) (b_vert b)) eqn:E1; simpl in H.
  2:{ injection H as ->. apply (inherit_prop_err PVec) in E1. destruct E1 as (-> & ? & l & ? & ?).
      split; auto. exists Vertices, l; auto. }
  destruct (inherit_prop sel (b_dir ov) (b_dir b)) eqn:E2; simpl in H.
  2:{ injection H as ->. apply (inherit_prop_err PVec) in E2. destruct E2 as (-> & ? & l & ? & ?).
      split; auto. exists Directions, l; auto. }
  destruct (inherit_prop sel (b_energy ov) (b_energy b)) eqn:E3; simpl in H.
  2:{ injection H as ->. apply (inherit_prop_err PReal) in E3. destruct E3 as (-> & ? & l & ? & ?).
      split; auto. exists Energy, l; auto. }
  destruct (inherit_prop sel (b_parents ov) (b_parents b)) eqn:E4; simpl in H.
  2:{ injection H as ->. apply (inherit_prop_err PNat) in E4. destruct E4 as (-> & ? & l & ? & ?).
      split; auto. exists Parents, l; auto. }
  destruct (inherit_prop sel (b_ref ov) (b_ref b)) eqn:E5; simpl in H.
  2:{ injection H as ->. apply (inherit_prop_err PReal) in E5. destruct E5 as (-> & ? & l & ? & ?).
      split; auto. exists RefIndex, l; auto. }
  destruct (inherit_extras sel (b_extra ov) (b_extra b)) eqn:E6; simpl in H; [discriminate|].
  injection H as ->. apply inherit_extras_err in E6; auto.
  destruct E6 as (-> & n & l & Hg & Hl & Hs). split; auto.
  exists (Extra n), (map PCell l). simpl. rewrite Hl, map_length. split; auto.
  unfold given_extra in Hg. destruct (lookup n (b_extra ov)) as [[w|]|]; auto; discriminate.
Qed.

Lemma inherit_total b sel ov :
  names_ok b ->
  (forall p l, prop ov p = None -> prop b p = Some l -> sel_ok sel (length l)) ->
  exists b', inherit b sel ov = Ok b'.
Proof.
  intros Hn H. destruct (inherit b sel ov) eqn:E; eauto.
  apply inherit_fails in E; auto. destruct E as (_ & p & l & Ho & Hb & Hs).
  exfalso; apply Hs; eauto.
Qed.

(** Addition *)
Lemma lookup_not_in {A} n (l : list (string * A)) : ~ In n (map fst l) -> lookup n l = None.
Proof.
  induction l as [|[m v] l IH]; simpl; auto. intros H.
  destruct (String.eqb_spec m n); [subst; tauto|]. apply IH; tauto.
Qed.

Lemma add_extras_lookup a b n :
  NoDup (map fst a) ->
  lookup n (add_extras a b) =
  match lookup n a, lookup n b with
  | Some (Some x), Some (Some y) => Some (Some (x ++ y))
  | _, _ => None
  end.
Proof.
  induction a as [|[m v] a IH]; simpl; auto. intros Hd. inversion Hd; subst.
  destruct (String.eqb_spec m n) as [->|Hn].
  - destruct v as [x|]; [destruct (lookup n b) as [[y|]|] eqn:E|]; simpl;
      rewrite ?String.eqb_refl, ?IH; auto; rewrite lookup_not_in; auto.
  - destruct v as [x|]; [destruct (lookup m b) as [[y|]|] eqn:E|]; simpl; auto.
    destruct (String.eqb_spec m n); [congruence|auto].
Qed.

Lemma add_prop_map {A} (f : A -> pval) a b :
  option_map (map f) (add_prop a b) =
  match option_map (map f) a, option_map (map f) b with
  | Some x, Some y => Some (x ++ y) | _, _ => None end.
Proof. destruct a, b; simpl; auto. rewrite map_app; auto. Qed.

Lemma add_bundles_prop a b p : names_ok a ->
  prop (add_bundles a b) p =
  match prop a p, prop b p with Some x, Some y => Some (x ++ y) | _, _ => None end.
Proof.
  intros Hn. destruct p; simpl; rewrite ?add_prop_map; auto.
  rewrite add_extras_lookup by auto.
  destruct (lookup name (b_extra a)) as [[x|]|], (lookup name (b_extra b)) as [[y|]|]; auto.
  rewrite map_app; auto.
Qed.

Lemma add_extras_names a b : incl (map fst (add_extras a b)) (map fst a).
Proof.
  induction a as [|[m v] a IH]; simpl; [apply incl_refl|].
  destruct v as [x|]; [destruct (lookup m b) as [[y|]|]|]; simpl;
    try (apply incl_tl; auto; fail).
  intros k [->|Hk]; [left; auto|right; apply IH; auto].
Qed.

Lemma add_bundles_names a b : names_ok a -> names_ok (add_bundles a b).
Proof.
  unfold names_ok; simpl. induction (b_extra a) as [|[m v] l IH]; simpl; intros H; [constructor|].
  inversion H; subst.
  destruct v as [x|]; [destruct (lookup m (b_extra b)) as [[y|]|]|]; simpl; auto.
  constructor; auto. intros Hi. apply add_extras_names in Hi; auto.
Qed.

Lemma add_bundles_assoc a b c : names_ok a -> names_ok b ->
  same_props (add_bundles (add_bundles a b) c) (add_bundles a (add_bundles b c)).
Proof.
  intros Ha Hb p. rewrite !add_bundles_prop; auto using add_bundles_names.
  destruct (prop a p), (prop b p), (prop c p); auto. rewrite app_assoc; auto.
Qed.

(** Concatenation *)
Definition cat (ls : list (option (list pval))) : option (list pval) :=
  fold_right (fun o acc => match o, acc with Some x, Some y => Some (x ++ y) | _, _ => None end)
    (Some []) ls.

Lemma cat_some ls xs : cat ls = Some xs <-> exists ys, ls = map Some ys /\ xs = concat ys.
Proof.
  revert xs; induction ls as [|o ls IH]; simpl; intros xs.
  - split.
    + intros H; injection H as <-. exists []; auto.
    + intros (ys & E & ->). destruct ys; [auto|discriminate].
  - destruct o as [x|].
    + destruct (cat ls) as [y|] eqn:E.
      * split.
        -- intros H; injection H as <-. destruct (proj1 (IH y) eq_refl) as (ys & -> & ->).
           exists (x :: ys); auto.
        -- intros (ys & E2 & ->). destruct ys as [|z ys]; [discriminate|].
           injection E2 as -> E2. simpl.
           assert (Some y = Some (concat ys)) as E3 by (apply IH; eauto).
           injection E3 as ->; auto.
      * split; [discriminate|]. intros (ys & E2 & _). destruct ys as [|z ys]; [discriminate|].
        injection E2 as -> E2.
        assert (None = Some (concat ys)) by (apply IH; eauto). discriminate.
    + split; [discriminate|]. intros (ys & E & _). destruct ys; discriminate.
Qed.

Lemma concat_map_map {A B} (f : A -> B) ls : concat (map (map f) ls) = map f (concat ls).
Proof. symmetry; apply concat_map. Qed.

Lemma mapM_get {A} (get : bundle -> option (list A)) bs ls :
  mapM (fun c => get_prop (get c) SAll) bs = Ok ls -> map get bs = map Some ls.
Proof.
  rewrite mapM_ok. induction 1; simpl; auto. f_equal; auto.
  destruct (get x); simpl in H; congruence.
Qed.

Lemma cat_map_get {A} (f : A -> pval) (get : bundle -> option (list A)) bs ls :
  map get bs = map Some ls ->
  cat (map (fun b => option_map (map f) (get b)) bs) = Some (map f (concat ls)).
Proof.
  intros H. apply cat_some. exists (map (map f) ls). rewrite concat_map_map. split; auto.
  revert ls H; induction bs as [|b bs IH]; intros [|l ls] H; simpl in *; try discriminate; auto.
  injection H as H1 H2. rewrite H1. simpl. f_equal; auto.
Qed.

Lemma concat_prop_spec {A} (f : A -> pval) (get : bundle -> option (list A)) b bs r :
  concat_prop get (b :: bs) = Ok r ->
  option_map (map f) r =
  match option_map (map f) (get b) with
  | None => None
  | Some _ => cat (map (fun c => option_map (map f) (get c)) (b :: bs))
  end
  /\ (get b <> None -> forall c, In c bs -> get c <> None).
Proof.
  unfold concat_prop. destruct (get b) as [l|] eqn:Eb; intros H; simpl.
  2:{ injection H as <-; simpl; split; auto; congruence. }
  binds. apply mapM_get in E.
  split.
  - pose proof (cat_map_get f get (b :: bs) x E) as Hc. simpl in Hc. rewrite Eb in *. simpl in *.
    rewrite Hc. reflexivity.
  - intros _ c Hc. destruct x as [|y x]; [discriminate|]. simpl in E. injection E as E1 E2.
    intros Hn. apply (in_map get) in Hc. rewrite E2, Hn in Hc. apply in_map_iff in Hc.
    destruct Hc as (z & ? & _); discriminate.
Qed.

Lemma concat_extras_spec own bs r n :
  NoDup (map fst own) -> concat_extras own bs = Ok r ->
  match lookup n own with
  | Some (Some _) => exists ls, mapM (fun c => get_extra n c SAll) bs = Ok ls
                     /\ lookup n r = Some (Some (concat ls))
  | _ => lookup n r = None
  end.
Proof.
  revert r; induction own as [|[m v] own IH]; simpl; intros r Hd H.
  - binds; auto.
  - inversion Hd; subst. destruct v as [l|]; binds.
    + specialize (IH _ H3 E0). simpl. destruct (String.eqb_spec m n) as [->|Hn]; eauto.
    + specialize (IH _ H3 H). destruct (String.eqb_spec m n) as [->|Hn]; auto.
      rewrite lookup_not_in in IH; auto.
Qed.

Lemma mapM_get_extra n bs ls :
  mapM (fun c => get_extra n c SAll) bs = Ok ls ->
  map (fun b => prop b (Extra n)) bs = map (fun l => Some (map PCell l)) ls.
Proof.
  rewrite mapM_ok. induction 1; simpl; auto. f_equal; auto.
  unfold get_extra in H. unfold prop.
  destruct (lookup n (b_extra x)) as [[l0|]|]; simpl in *; congruence.
Qed.

Lemma concatenate_rays_spec b bs r :
  names_ok b -> concatenate_rays (b :: bs) = Ok r ->
  forall p,
    prop r p = match prop b p with None => None | Some _ => cat (map (fun c => prop c p) (b :: bs)) end
    /\ (prop b p <> None -> forall c, In c bs -> prop c p <> None).
Proof.
  intros Hn H. unfold concatenate_rays in H. binds. intros p.
  assert (G : forall A (f : A -> pval) (get : bundle -> option (list A)) (c : bundle),
    option_map (map f) (get c) <> None <-> get c <> None).
  { intros A f get c; destruct (get c); simpl; split; congruence. }
  destruct p; simpl.
  1-5: match goal with
    | E : concat_prop ?g _ = Ok ?y |- context [option_map (map ?f) ?y] =>
        apply (concat_prop_spec f) in E; destruct E as (E & E'); split;
        [exact E|intros Hb c Hc; apply G; apply E'; auto; eapply G; eauto] end.
  pose proof (concat_extras_spec _ _ _ name Hn E4) as Hl.
  destruct (lookup name (b_extra b)) as [[l|]|] eqn:Eb.
  2,3: rewrite Hl; split; [reflexivity|congruence].
  destruct Hl as (ls & Hm & ->). apply mapM_get_extra in Hm.
  assert (Hc : cat (map (fun c => prop c (Extra name)) (b :: bs)) = Some (map PCell (concat ls))).
  { apply cat_some. exists (map (map PCell) ls). rewrite concat_map_map, map_map. auto. }
  split.
  - simpl in Hc. rewrite Eb in Hc. symmetry; exact Hc.
  - intros _ c Hin. destruct ls as [|y ls]; [discriminate|]. simpl in Hm. injection Hm as _ Hm.
    intros Hno. apply (in_map (fun c => prop c (Extra name))) in Hin.
    simpl in Hin. rewrite Hm in Hin. apply in_map_iff in Hin. destruct Hin as (z & E5 & _).
    unfold prop in Hno. rewrite Hno in E5. discriminate.
Qed.

Lemma mapM_get_err {A} (get : bundle -> option (list A)) bs e :
  mapM (fun c => get_prop (get c) SAll) bs = Err e ->
  e = KeyError /\ exists c, In c bs /\ get c = None.
Proof.
  intros H; apply mapM_err in H. destruct H as (c & Hc & H).
  destruct (get c) eqn:E; simpl in H; [discriminate|]. injection H as <-; eauto.
Qed.

Lemma concat_prop_err {A} (f : A -> pval) (get : bundle -> option (list A)) b bs e :
  concat_prop get (b :: bs) = Err e ->
  e = KeyError /\ option_map (map f) (get b) <> None /\
  exists c, In c bs /\ option_map (map f) (get c) = None.
Proof.
  unfold concat_prop. destruct (get b) eqn:Eb; [|discriminate].
  destruct (mapM _ (b :: bs)) eqn:E; simpl; [discriminate|]. intros H; injection H as ->.
  apply mapM_get_err in E. destruct E as (-> & c & [->|Hc] & Hg); [congruence|].
  split; auto. split; [discriminate|]. exists c; rewrite Hg; auto.
Qed.

Lemma concat_extras_err own bs e :
  NoDup (map fst own) -> concat_extras own bs = Err e ->
  e = KeyError /\ exists n l, lookup n own = Some (Some l) /\
     exists c, In c bs /\ prop c (Extra n) = None.
Proof.
  induction own as [|[m v] own IH]; simpl; [discriminate|]. intros Hd H. inversion Hd; subst.
  assert (Hne : forall n l, lookup n own = Some (Some l) -> m <> n).
  { intros n l Hl <-. rewrite lookup_not_in in Hl; [discriminate|auto]. }
  destruct v as [l|].
  - destruct (mapM (fun c => get_extra m c SAll) bs) eqn:E; simpl in H.
    + destruct (concat_extras own bs) eqn:E2; simpl in H; [discriminate|].
      injection H as ->. destruct (IH H3 eq_refl) as (-> & n & l' & Hl & Hc).
      split; auto. exists n, l'. destruct (String.eqb_spec m n); [exfalso; eapply Hne; eauto|auto].
    + injection H as ->. apply mapM_err in E. destruct E as (c & Hc & H).
      unfold get_extra in H. split.
      * destruct (lookup m (b_extra c)) as [[?|]|]; simpl in H; congruence.
      * exists m, l. rewrite String.eqb_refl. split; auto. exists c; split; auto. simpl.
        destruct (lookup m (b_extra c)) as [[?|]|]; simpl in H; congruence.
  - destruct (IH H3 H) as (-> & n & l' & Hl & Hc). split; auto.
    exists n, l'. destruct (String.eqb_spec m n); [exfalso; eapply Hne; eauto|auto].
Qed.

Lemma concatenate_rays_fails b bs e :
  names_ok b -> concatenate_rays (b :: bs) = Err e ->
  e = KeyError /\ exists p, prop b p <> None /\ exists c, In c bs /\ prop c p = None.
Proof.
  intros Hn H. unfold concatenate_rays in H.
  destruct (concat_prop b_vert (b :: bs)) eqn:E1; cbn [bind] in H.
  2:{ injection H as ->. apply (concat_prop_err PVec) in E1. destruct E1 as (-> & ? & ?).
      split; auto. exists Vertices; auto. }
  destruct (concat_prop b_dir (b :: bs)) eqn:E2; cbn [bind] in H.
  2:{ injection H as ->. apply (concat_prop_err PVec) in E2. destruct E2 as (-> & ? & ?).
      split; auto. exists Directions; auto. }
  destruct (concat_prop b_energy (b :: bs)) eqn:E3; cbn [bind] in H.
  2:{ injection H as ->. apply (concat_prop_err PReal) in E3. destruct E3 as (-> & ? & ?).
      split; auto. exists Energy; auto. }
  destruct (concat_prop b_parents (b :: bs)) eqn:E4; cbn [bind] in H.
  2:{ injection H as ->. apply (concat_prop_err PNat) in E4. destruct E4 as (-> & ? & ?).
      split; auto. exists Parents; auto. }
  destruct (concat_prop b_ref (b :: bs)) eqn:E5; cbn [bind] in H.
  2:{ injection H as ->. apply (concat_prop_err PReal) in E5. destruct E5 as (-> & ? & ?).
      split; auto. exists RefIndex; auto. }
  destruct (concat_extras (b_extra b) (b :: bs)) eqn:E6; cbn [bind] in H; [discriminate|].
  injection H as ->. apply concat_extras_err in E6; auto.
  destruct E6 as (-> & n & l & Hl & c & Hc & Hp). split; auto.
  exists (Extra n). simpl. rewrite Hl. split; [discriminate|].
  destruct Hc as [->|Hc]; [|eauto]. simpl in Hp. rewrite Hl in Hp. discriminate.
Qed.

Lemma inherit_names b sel ov b' :
  names_ok b -> names_ok ov -> inherit b sel ov = Ok b' -> names_ok b'.
Proof.
  unfold inherit, names_ok. intros Hb Ho H. binds. simpl.
  assert (Hx : map fst x4 = map fst (b_extra b)).
  { clear -E4. revert x4 E4. induction (b_extra b) as [|[m v] l IH]; simpl; intros r H; binds; auto.
    simpl. f_equal; auto. }
  rewrite map_app, Hx.
  assert (Hf : forall l, NoDup (map fst l) -> incl l (b_extra ov) ->
     NoDup (map fst (b_extra b) ++ map fst (new_extras l (b_extra b)))).
  { intros l; induction l as [|[m v] l IH]; simpl; intros Hd Hi.
    - rewrite app_nil_r; auto.
    - inversion Hd; subst.
      destruct (lookup m (b_extra b)) eqn:E5; [apply IH; auto; intros y Hy; apply Hi; right; auto|].
      simpl. apply NoDup_Add with (a := m) (l := map fst (b_extra b) ++ map fst (new_extras l (b_extra b))).
      + apply Add_app.
      + split; [apply IH; auto; intros y Hy; apply Hi; right; auto|].
        rewrite in_app_iff. intros [Hin|Hin].
        * clear -E5 Hin. induction (b_extra b) as [|[k w] r IH]; simpl in *; [tauto|].
          destruct (String.eqb_spec k m); [discriminate|]. destruct Hin; auto.
        * apply H1. apply in_map_iff in Hin. destruct Hin as (y & <- & Hy).
          apply filter_In in Hy. apply in_map; tauto. }
  apply Hf; auto. apply incl_refl.
Qed.

Lemma concat_extras_names own bs r :
  concat_extras own bs = Ok r -> NoDup (map fst own) -> NoDup (map fst r).
Proof.
  intros H Hd.
  assert (G : forall own r, concat_extras own bs = Ok r -> incl (map fst r) (map fst own)).
  { clear. induction own as [|[m v] own IH]; simpl; intros r H; binds; [apply incl_refl|].
    destruct v; binds.
    - simpl. intros k [->|Hk]; [left; auto|right; apply (IH _ E0); auto].
    - apply incl_tl, IH; auto. }
  revert r H; induction own as [|[m v] own IH]; simpl; intros r H; binds; [constructor|].
  inversion Hd; subst. destruct v; binds; auto.
  simpl. constructor; auto. intros Hi; apply (G _ _ E0) in Hi; auto.
Qed.

Lemma concatenate_names bs r :
  (forall b, In b bs -> names_ok b) -> concatenate_rays bs = Ok r -> names_ok r.
Proof.
  destruct bs as [|b bs]; simpl; intros Hn H.
  - injection H as <-; constructor.
  - binds. unfold names_ok; simpl. eapply concat_extras_names; eauto. apply (Hn b); auto.
Qed.

(** delete_rays *)
Lemma prop_no_bundle p : prop no_bundle p = None.
Proof. destruct p; reflexivity. Qed.

Lemma rays_vert b n : rays b n -> exists l, b_vert b = Some l /\ length l = n.
Proof.
  intros ((l & Hl) & H). pose proof (H _ _ Hl) as Hn. simpl in Hl.
  destruct (b_vert b) as [v|]; [|discriminate]. simpl in Hl. injection Hl as <-.
  rewrite map_length in Hn. eauto.
Qed.

Lemma rays_num b n : rays b n -> get_num_rays b = Ok n.
Proof.
  intros H; apply rays_vert in H. destruct H as (l & E & <-). unfold get_num_rays; rewrite E; auto.
Qed.

Lemma delete_rays_spec b n sel : names_ok b -> rays b n ->
  exists b', delete_rays b sel = Ok b' /\
  forall p, match prop b p with
            | None => prop b' p = None
            | Some l => exists l', prop b' p = Some l' /\
                picks l (filter (fun i => negb (existsb (Nat.eqb i) sel)) (seq 0 n)) l'
            end.
Proof.
  intros Hn Hr. unfold delete_rays. rewrite (rays_num _ _ Hr); simpl.
  destruct (inherit_total b (SIdx (delete_idx n sel)) no_bundle) as (b' & E); auto.
  { intros p l _ Hp. simpl. destruct Hr as (_ & Hr). rewrite (Hr _ _ Hp).
    intros i Hi; apply delete_idx_spec in Hi; tauto. }
  exists b'; split; auto. intros p. apply inherit_sound with (p := p) in E.
  rewrite prop_no_bundle in E. unfold inh in E. destruct (prop b p); auto.
  destruct E as (l' & ? & _ & ?). exists l'; auto.
Qed.

Lemma filter_partition {A} (f : A -> bool) l :
  Permutation l (filter f l ++ filter (fun a => negb (f a)) l).
Proof.
  induction l as [|a l IH]; simpl; auto. destruct (f a); simpl.
  - constructor; auto.
  - etransitivity; [apply perm_skip, IH|]. apply Permutation_middle.
Qed.

Lemma picks_app {A} (l : list A) i j a b : picks l i a -> picks l j b -> picks l (i ++ j) (a ++ b).
Proof. apply Forall2_app. Qed.

Lemma picks_perm {A} (l : list A) idx l' :
  Permutation idx (seq 0 (length l)) -> picks l idx l' -> Permutation l' l.
Proof.
  intros Hp Hk.
  assert (G : forall idx idx', Permutation idx idx' -> forall l', picks l idx l' ->
     exists l'', picks l idx' l'' /\ Permutation l' l'').
  { clear. induction 1; intros m0 Hk.
    - inversion Hk; subst. exists []; split; constructor.
    - inversion Hk; subst. destruct (IHPermutation _ H4) as (m & Hm & Hp).
      exists (y :: m). split; constructor; auto.
    - inversion Hk; subst. inversion H3; subst. eexists; split; [|apply perm_swap].
      repeat constructor; auto.
    - destruct (IHPermutation1 _ Hk) as (m & Hm & Hp1).
      destruct (IHPermutation2 _ Hm) as (m' & Hm' & Hp2). exists m'; split; auto.
      etransitivity; eauto. }
  destruct (G _ _ Hp _ Hk) as (l'' & Hk' & Hp').
  rewrite (picks_fun _ _ _ _ Hk' (picks_seq l)) in Hp'. auto.
Qed.

Lemma delete_partition b n sel b' c :
  names_ok b -> rays b n -> NoDup sel -> (forall i, In i sel -> i < n) ->
  delete_rays b sel = Ok b' -> inherit b (SIdx sel) no_bundle = Ok c ->
  forall p, match prop b p with
            | None => prop b' p = None /\ prop c p = None
            | Some l => exists x y, prop b' p = Some x /\ prop c p = Some y
                        /\ Permutation (x ++ y) l
            end.
Proof.
  intros Hn Hr Hd Hi Hdel Hinh p.
  destruct (delete_rays_spec b n sel Hn Hr) as (b'' & E & Hs).
  rewrite E in Hdel. injection Hdel as ->. specialize (Hs p).
  apply inherit_sound with (p := p) in Hinh. rewrite prop_no_bundle in Hinh. unfold inh in Hinh.
  destruct (prop b p) as [l|] eqn:Ep; auto.
  destruct Hs as (x & Hx & Hpx). destruct Hinh as (y & Hy & _ & Hpy). simpl in Hpy.
  exists x, y. split; auto. split; auto.
  apply picks_perm with (idx := filter (fun i => negb (existsb (Nat.eqb i) sel)) (seq 0 n) ++ sel).
  - destruct Hr as (_ & Hr). rewrite (Hr _ _ Ep). symmetry.
    etransitivity; [apply (filter_partition (fun i => existsb (Nat.eqb i) sel))|].
    rewrite Permutation_app_comm. apply Permutation_app_head.
    apply NoDup_Permutation; auto using NoDup_filter, seq_NoDup.
    intros i. rewrite filter_In, in_seq, existsb_exists. split.
    + intros (_ & j & Hj & E2). apply Nat.eqb_eq in E2; subst; auto.
    + intros H. split; [split; [lia|simpl; auto]|]. exists i; split; auto. apply Nat.eqb_refl.
  - apply picks_app; auto.
Qed.

(** Equal length *)
Lemma inherit_rays b n sel ov b' :
  rays b n -> inherit b sel ov = Ok b' ->
  (forall p l, prop ov p = Some l -> length l = length (positions sel n)) ->
  rays b' (length (positions sel n)).
Proof.
  intros (Hv & Hr) H Hov. pose proof (inherit_sound _ _ _ _ H) as Hs.
  assert (G : forall p l, prop b' p = Some l -> length l = length (positions sel n)).
  { intros p l Hp. specialize (Hs p). unfold inh in Hs.
    destruct (prop ov p) as [v|] eqn:Eo; [apply (Hov p); congruence|].
    destruct (prop b p) as [v|] eqn:Eb; [|congruence].
    destruct Hs as (l' & E & _ & Hk). apply picks_length in Hk. rewrite (Hr _ _ Eb) in Hk.
    congruence. }
  split; auto. specialize (Hs Vertices). unfold inh in Hs. destruct Hv as (l & Hl). rewrite Hl in Hs.
  destruct (prop ov Vertices); eauto. destruct Hs as (l' & ? & _); eauto.
Qed.

Lemma add_rays a b n m : names_ok a -> rays a n -> rays b m -> rays (add_bundles a b) (n + m).
Proof.
  intros Hn ((va & Hva) & Ha) ((vb & Hvb) & Hb). split.
  - exists (va ++ vb). rewrite add_bundles_prop, Hva, Hvb; auto.
  - intros p l. rewrite add_bundles_prop by auto.
    destruct (prop a p) eqn:Ea, (prop b p) eqn:Eb; try discriminate. intros H; injection H as <-.
    rewrite app_length, (Ha _ _ Ea), (Hb _ _ Eb); auto.
Qed.

Fixpoint total (ns : list nat) : nat := match ns with [] => 0 | n :: r => n + total r end.

Lemma concatenate_rays_rays bs ns r :
  (forall b, In b bs -> names_ok b) ->
  Forall2 rays bs ns -> concatenate_rays bs = Ok r -> rays r (total ns).
Proof.
  intros Hn HF H. destruct bs as [|b bs].
  - inversion HF; subst. simpl in H. injection H as <-. split; [exists []; auto|].
    intros p l; destruct p; simpl; try discriminate; intros H; injection H as <-; auto.
  - pose proof (concatenate_rays_spec _ _ _ (Hn b (or_introl eq_refl)) H) as Hs.
    assert (G : forall p l, cat (map (fun c => prop c p) (b :: bs)) = Some l -> length l = total ns).
    { intros p. clear H Hs Hn. induction HF as [|c k cs ks Hc HF IH]; simpl; intros l.
      - intros E; injection E as <-; auto.
      - destruct (prop c p) eqn:Ec; [|discriminate].
        destruct (cat (map (fun c => prop c p) cs)) eqn:E; [|discriminate].
        intros H; injection H as <-. rewrite app_length, (IH _ eq_refl).
        destruct Hc as (_ & Hc). rewrite (Hc _ _ Ec); auto. }
    split.
    + destruct (Hs Vertices) as (E & H2). inversion HF; subst.
      destruct H3 as ((v & Hv) & _). rewrite Hv in E, H2. rewrite E. cbn [map cat fold_right]. rewrite Hv.
      assert (Hall : forall c, In c bs -> exists u, prop c Vertices = Some u).
      { intros c Hc. specialize (H2 ltac:(discriminate) c Hc).
        destruct (prop c Vertices); eauto; congruence. }
      clear -Hall. assert (exists w, cat (map (fun c => prop c Vertices) bs) = Some w) as (w & Hw).
      { induction bs as [|c bs IH]; cbn [map cat fold_right]; eauto.
        destruct (Hall c) as (u & Hu); [left; auto|].
        rewrite Hu. destruct IH as (w & Hw); [intros; apply Hall; right; auto|].
        unfold cat in Hw. rewrite Hw. eauto. }
      fold (cat (map (fun c => prop c Vertices) bs)). rewrite Hw. eauto.
    + intros p l Hp. destruct (Hs p) as (E & _). rewrite Hp in E.
      destruct (prop b p); [|discriminate]. symmetry in E. eapply G; eauto.
Qed.

(** Setters with selectors *)
Lemma assign_spec {A} idx (l vals : list A) l' :
  assign l idx vals = Ok l' -> length l' = length l /\
  (forall i, ~ In i idx -> nth_error l' i = nth_error l i).
Proof.
  revert l vals; induction idx as [|i idx IH]; intros l [|v vals] H; simpl in H; try discriminate.
  - injection H as <-; auto.
  - destruct (Nat.ltb_spec i (length l)); [|discriminate].
    apply IH in H. rewrite set_nth_length in H. destruct H as (Hl & H). split; auto.
    intros j Hj. rewrite H; [|simpl in Hj; tauto]. apply set_nth_other. intros ->; apply Hj; left; auto.
Qed.

Lemma assign_get {A} idx (l vals : list A) l' :
  NoDup idx -> assign l idx vals = Ok l' -> picks l' idx vals.
Proof.
  revert l vals; induction idx as [|i idx IH]; intros l [|v vals] Hd H; simpl in H; try discriminate.
  - constructor.
  - destruct (Nat.ltb_spec i (length l)); [|discriminate]. inversion Hd; subst.
    constructor; [|eapply IH; eauto].
    apply assign_spec in H. destruct H as (_ & ->); auto. apply set_nth_same; auto.
Qed.

Lemma assign_sel_spec {A} (l vals l' : list A) sel :
  (match sel with SIdx idx => NoDup idx | _ => True end) ->
  assign_sel l sel vals = Ok l' ->
  picks l' (positions sel (length l)) vals /\ length l' = length l /\
  forall i, ~ In i (positions sel (length l)) -> nth_error l' i = nth_error l i.
Proof.
  destruct sel as [|idx|m]; simpl; intros Hd H.
  - unfold same_len in H. destruct (Nat.eqb_spec (length vals) (length l)); [|discriminate].
    injection H as <-. rewrite <- e. split; [apply picks_seq|]. split; auto.
    intros i Hi. rewrite in_seq in Hi.
    assert (length vals <= i) by lia.
    rewrite !(proj2 (nth_error_None _ _)); auto; lia.
  - split; [eapply assign_get; eauto|]. apply assign_spec in H. auto.
  - unfold same_len in H. destruct (Nat.eqb_spec (length m) (length l)); [|discriminate].
    destruct (Nat.eqb_spec (length vals) (count_true m)); [|discriminate]. injection H as <-.
    rewrite <- e, <- nonzero_filter. split; [|split].
    + apply take_ok. rewrite mask_select_take by (rewrite put_mask_length; auto).
      f_equal. apply put_mask_select; auto.
    + rewrite put_mask_length; auto.
    + intros i Hi. apply put_mask_other. rewrite <- nonzero_spec; auto.
Qed.

Lemma cat_concat_columns ls : concat_columns ls = cat ls.
Proof.
  induction ls as [|[x|] ls IH]; simpl; auto.
  all: rewrite ?IH; destruct (cat ls); auto.
Qed.

Lemma total_sum_of ns : total ns = sum_of ns.
Proof. induction ns; simpl; auto. Qed.

Lemma made_ok b n : made b n -> names_ok b /\ rays b n.
Proof.
  induction 1 as [b n Hn Hr|b n sel ov b' Hm (IHn & IHr) Ho Hl Hi
                 |a n b m Ha (IHa & IHa') Hb (IHb & IHb')|bns r Hm IH Hc
                 |b n sel b' Hm (IHn & IHr) Hd].
  - auto.
  - split; [exact (inherit_names _ _ _ _ IHn Ho Hi)|]. exact (inherit_rays b n sel ov b' IHr Hi Hl).
  - split; [apply add_bundles_names; auto|apply add_rays; auto].
  - assert (Hnames : forall b, In b (map fst bns) -> names_ok b).
    { intros b Hb. apply in_map_iff in Hb. destruct Hb as ([b' k] & <- & Hb). simpl.
      eapply IH; eauto. }
    split; [eapply concatenate_names; eauto|].
    rewrite <- total_sum_of. eapply concatenate_rays_rays; eauto.
    clear -IH. induction bns as [|[b n] bns IHb]; simpl; constructor.
    + apply (IH b n); left; auto.
    + apply IHb. intros; apply IH; right; auto.
  - destruct (delete_rays_spec b n sel IHn IHr) as (b'' & E & Hs).
    rewrite E in Hd; injection Hd as ->.
    unfold delete_rays in E. rewrite (rays_num _ _ IHr) in E; simpl in E.
    split; [exact (inherit_names b _ no_bundle _ IHn (NoDup_nil _) E)|].
    pose proof (inherit_rays _ _ _ _ _ IHr E) as Hk. apply Hk.
    intros p l; rewrite prop_no_bundle; discriminate.
Qed.

Lemma concatenate_rays_columns b bs r :
  names_ok b -> concatenate_rays (b :: bs) = Ok r ->
  forall p, prop r p = match prop b p with
                       | None => None
                       | Some _ => concat_columns (map (fun c => prop c p) (b :: bs))
                       end.
Proof.
  intros Hn H p. rewrite cat_concat_columns. apply (concatenate_rays_spec _ _ _ Hn H p).
Qed.

Lemma concatenate_rays_iff b bs :
  names_ok b ->
  ((exists p c, prop b p <> None /\ In c bs /\ prop c p = None) ->
   concatenate_rays (b :: bs) = Err KeyError) /\
  ((forall p c, prop b p <> None -> In c bs -> prop c p <> None) ->
   exists r, concatenate_rays (b :: bs) = Ok r).
Proof.
  intros Hn. split.
  - intros (p & c & Hb & Hc & Hp). destruct (concatenate_rays (b :: bs)) as [r|e] eqn:E.
    + exfalso. destruct (concatenate_rays_spec _ _ _ Hn E p) as (_ & H). apply (H Hb c); auto.
    + apply concatenate_rays_fails in E; auto. destruct E as (-> & _); auto.
  - intros H. destruct (concatenate_rays (b :: bs)) as [r|e] eqn:E; eauto.
    apply concatenate_rays_fails in E; auto. destruct E as (_ & p & Hb & c & Hc & Hp).
    exfalso; eapply H; eauto.
Qed.

Lemma picks_map_inv_bundle {A} (f : A -> pval) l idx l' :
  picks l idx l' -> picks (map f l) idx (map f l').
Proof. apply picks_map. Qed.

Lemma set_prop_sel_spec {A} (f : A -> pval) own sel vals r :
  nodup_sel sel -> set_prop_sel own sel vals = Ok r ->
  exists l l', option_map (map f) own = Some l /\ option_map (map f) r = Some l' /\
    picks l' (positions sel (length l)) (map f vals) /\ length l' = length l /\
    forall i, ~ In i (positions sel (length l)) -> nth_error l' i = nth_error l i.
Proof.
  intros Hd H. unfold set_prop_sel in H. destruct own as [l|]; [|discriminate]. binds.
  apply assign_sel_spec in E; auto. destruct E as (Hp & Hl & Ho).
  exists (map f l), (map f x). simpl. rewrite !map_length. split; auto. split; auto.
  split; [apply picks_map; auto|]. split; auto.
  intros i Hi. rewrite !nth_error_map, Ho; auto.
Qed.

Lemma set_energy_sel_spec vals sel b b' :
  nodup_sel sel -> set_energy_sel vals sel b = Ok b' ->
  (exists l l', prop b Energy = Some l /\ prop b' Energy = Some l' /\
    picks l' (positions sel (length l)) (map PReal vals) /\ length l' = length l /\
    forall i, ~ In i (positions sel (length l)) -> nth_error l' i = nth_error l i) /\
  forall p, p <> Energy -> prop b' p = prop b p.
Proof.
  intros Hd H. unfold set_energy_sel in H. binds. split.
  - apply (set_prop_sel_spec PReal) in E; auto.
  - intros p Hp; destruct p; auto; congruence.
Qed.

Lemma set_vertices_sel_spec vals sel b b' :
  nodup_sel sel -> set_vertices_sel vals sel b = Ok b' ->
  (exists l l', prop b Vertices = Some l /\ prop b' Vertices = Some l' /\
    picks l' (positions sel (length l)) (map PVec vals) /\ length l' = length l /\
    forall i, ~ In i (positions sel (length l)) -> nth_error l' i = nth_error l i) /\
  forall p, p <> Vertices -> prop b' p = prop b p.
Proof.
  intros Hd H. unfold set_vertices_sel in H. binds. split.
  - apply (set_prop_sel_spec PVec) in E; auto.
  - intros p Hp; destruct p; auto; congruence.
Qed.

Lemma concatenate_nothing : exists r, concatenate_rays [] = Ok r /\
  forall p, match p with Extra _ => prop r p = None | _ => prop r p = Some [] end.
Proof. exists empty_bund; split; [reflexivity|]. intros p; destruct p; reflexivity. Qed.
