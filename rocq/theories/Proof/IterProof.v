(** Proofs about one iteration of the tracer. *)
From Coq Require Import Reals List Arith ZArith Bool Lia Lra Permutation.
From Verif.Base Require Import Py Num Vec.
From Verif.Model Require Import RayBundle TraceTree Engine.
From Verif.Spec Require Import BundleSpec EngineSpec.
From Verif.Proof Require Import ListLemmas NumLemmas BundleProof IntersectProof ProcessProof.
Import ListNotations.

(** ** Positions in a concatenation *)
Lemma sum_locate ns q : q < total ns ->
  exists a na k, nth_error ns a = Some na /\ k < na /\ q = total (firstn a ns) + k.
Proof.
  revert q; induction ns as [|n ns IH]; simpl; intros q H; [lia|].
  destruct (Nat.ltb_spec q n) as [Hl|Hl].
  - exists 0, n, q. simpl. auto.
  - destruct (IH (q - n) ltac:(lia)) as (a & na & k & E & Hk & Hq).
    exists (S a), na, k. simpl. split; auto. split; auto. lia.
Qed.

Lemma sum_locate_lt ns a na k : nth_error ns a = Some na -> k < na -> total (firstn a ns) + k < total ns.
Proof.
  revert a; induction ns as [|n ns IH]; intros [|a] E Hk; simpl in *; try discriminate.
  - injection E as ->. lia.
  - specialize (IH a E Hk). lia.
Qed.

Lemma concat_at {A} (ls : list (list A)) : forall a l k, nth_error ls a = Some l -> k < length l ->
  nth_error (concat ls) (total (firstn a (map (@length A) ls)) + k) = nth_error l k.
Proof.
  induction ls as [|l0 ls IH]; intros [|a] l k E Hk; simpl in *; try discriminate.
  - injection E as ->. rewrite nth_error_app1; auto.
  - rewrite nth_error_app2 by lia. rewrite <- (IH a l k E Hk). f_equal. lia.
Qed.

Lemma concat_mask {A} (ws : list (list bool)) : forall (ls : list (list A)),
  map (@length bool) ws = map (@length A) ls ->
  concat (map2 mask_select ws ls) = mask_select (concat ws) (concat ls).
Proof.
  induction ws as [|w ws IH]; intros [|l ls] H; simpl in *; try discriminate; auto.
  injection H as H1 H2. rewrite IH by auto.
  assert (G : forall (w : list bool) (l : list A) w' l', length w = length l ->
     mask_select (w ++ w') (l ++ l') = mask_select w l ++ mask_select w' l').
  { clear. induction w as [|b w IH]; intros [|a l] w' l' H; simpl in *; try discriminate; auto.
    injection H as H. rewrite IH by auto. destruct b; auto. }
  symmetry. apply G; auto.
Qed.

Lemma nth_error_concat_len {A} (ls : list (list A)) : length (concat ls) = total (map (@length A) ls).
Proof. induction ls; simpl; auto. rewrite app_length, IHls. auto. Qed.

(** ** Concatenation of bundles with the same properties *)
Lemma concat_columns_uniform b0 bs r : forall ns,
  Forall2 rays (b0 :: bs) ns -> (forall b, In b (b0 :: bs) -> names_ok b) ->
  (forall b p, In b bs -> (prop b p = None <-> prop b0 p = None)) ->
  concatenate_rays (b0 :: bs) = Ok r ->
  forall p, match prop b0 p with
            | None => prop r p = None
            | Some _ => exists ls, map (fun b => prop b p) (b0 :: bs) = map Some ls /\
                          map (@length pval) ls = ns /\ prop r p = Some (concat ls)
            end.
Proof.
  intros ns HF Hn Hu H p. destruct (concatenate_rays_spec b0 bs r (Hn b0 (or_introl eq_refl)) H p) as (E & _).
  destruct (prop b0 p) eqn:Ep; auto. 
  assert (Hall : forall b, In b (b0 :: bs) -> exists l', prop b p = Some l').
  { intros b [<-|Hb]; [eauto|]. destruct (prop b p) eqn:Eb; eauto. apply Hu in Eb; auto. congruence. }
  assert (exists ls, map (fun b => prop b p) (b0 :: bs) = map Some ls /\ map (@length pval) ls = ns) as (ls & E1 & E2).
  { clear E H Ep Hu Hn. induction HF as [|b n bs' ns' Hb HF IH].
    - exists []; auto.
    - destruct (Hall b (or_introl eq_refl)) as (lb & Eb).
      destruct IH as (ls & E1 & E2); [intros; apply Hall; right; auto|].
      exists (lb :: ls). simpl. rewrite Eb, E1, E2. split; auto. f_equal. apply Hb in Eb. auto. }
  exists ls. split; auto. split; auto. rewrite E, E1. apply cat_some. eauto.
Qed.

Lemma concat_same_ray b0 bs r ns :
  Forall2 rays (b0 :: bs) ns -> (forall b, In b (b0 :: bs) -> names_ok b) ->
  (forall b p, In b bs -> (prop b p = None <-> prop b0 p = None)) ->
  concatenate_rays (b0 :: bs) = Ok r ->
  forall a b na k, nth_error (b0 :: bs) a = Some b -> nth_error ns a = Some na -> k < na ->
    same_ray r (total (firstn a ns) + k) b k.
Proof.
  intros HF Hn Hu H a b na k Eb En Hk p.
  pose proof (concat_columns_uniform b0 bs r ns HF Hn Hu H p) as Hp. unfold at_p.
  assert (Hin : In b (b0 :: bs)) by (eapply nth_error_In; eauto).
  destruct (prop b0 p) as [l0|] eqn:E0.
  - destruct Hp as (ls & E1 & E2 & ->).
    assert (Ea : nth_error (map (fun b => prop b p) (b0 :: bs)) a = Some (prop b p))
      by (rewrite nth_error_map, Eb; auto).
    rewrite E1, nth_error_map in Ea. destruct (nth_error ls a) as [l|] eqn:El; [|discriminate].
    simpl in Ea. injection Ea as Ea. rewrite <- Ea. rewrite <- E2. apply concat_at; auto.
    rewrite <- E2, nth_error_map, El in En. simpl in En. injection En as ->. auto.
  - rewrite Hp. destruct Hin as [<-|Hin]; [rewrite E0; auto|].
    apply (Hu b p) in Hin. apply Hin in E0. rewrite E0. auto.
Qed.

Lemma Forall2_len_map {A} (f : A -> nat) l k : Forall2 (fun a m => f a = m) l k -> map f l = k.
Proof. induction 1; simpl; congruence. Qed.

(** ** From the blocks of an iteration to its bundles *)
Section Blocks.
Variable blocks : list block.
Variable ms : list nat.
Hypothesis Hrays : Forall2 (fun k m => rays (k_rec k) m) blocks ms.
Hypothesis Hnames : forall k, In k blocks -> names_ok (k_rec k) /\ names_ok (k_strong k).
Hypothesis Huni : forall k k' p, In k blocks -> In k' blocks ->
  (prop (k_rec k) p = None <-> prop (k_rec k') p = None).
Hypothesis Hweak : Forall2 (fun k m => length (k_weak k) = m) blocks ms.
Hypothesis Hpick : forall k, In k blocks ->
  rays_picked (k_rec k) (nonzero (map negb (k_weak k))) (k_strong k).

Definition W := concat (map k_weak blocks).
Definition strong_counts := map (fun k => length (nonzero (map negb (k_weak k)))) blocks.

Lemma strong_rays : Forall2 (fun k m => rays (k_strong k) m) blocks strong_counts.
Proof.
  unfold strong_counts. clear Huni Hweak Hnames. induction Hrays as [|k m ks ms' Hk HF IH]; simpl; constructor.
  - eapply picked_rays; eauto. apply Hpick. left; auto.
  - apply IH; auto. intros; apply Hpick; right; auto.
Qed.

Lemma strong_uni : forall k k' p, In k blocks -> In k' blocks ->
  (prop (k_strong k) p = None <-> prop (k_strong k') p = None).
Proof.
  intros k k' p H1 H2. rewrite <- (picked_none _ _ _ p (Hpick k H1)), <- (picked_none _ _ _ p (Hpick k' H2)).
  apply Huni; auto.
Qed.

Lemma Forall2_map_l {A B C} (P : B -> C -> Prop) (f : A -> B) l k :
  Forall2 (fun a c => P (f a) c) l k -> Forall2 P (map f l) k.
Proof. induction 1; simpl; constructor; auto. Qed.

Lemma length_W : length W = total ms.
Proof.
  unfold W. rewrite nth_error_concat_len. f_equal. rewrite map_map.
  exact (Forall2_len_map (fun k => length (k_weak k)) _ _ Hweak).
Qed.

Variable rc bund : bundle.
Hypothesis Hrec : concatenate_rays (map k_rec blocks) = Ok rc.
Hypothesis Hbund : concatenate_rays (map k_strong blocks) = Ok bund.

Lemma in_recs b : In b (map k_rec blocks) -> names_ok b.
Proof. intros H. apply in_map_iff in H. destruct H as (k & <- & H). apply Hnames; auto. Qed.
Lemma in_strongs b : In b (map k_strong blocks) -> names_ok b.
Proof. intros H. apply in_map_iff in H. destruct H as (k & <- & H). apply Hnames; auto. Qed.

Lemma rec_rays : rays rc (total ms).
Proof.
  refine (concatenate_rays_rays _ ms rc _ (Forall2_map_l rays k_rec _ _ Hrays) Hrec). apply in_recs.
Qed.
Lemma bund_rays : rays bund (total strong_counts).
Proof.
  refine (concatenate_rays_rays _ _ bund _ (Forall2_map_l rays k_strong _ _ strong_rays) Hbund).
  apply in_strongs.
Qed.
Lemma rec_names : names_ok rc.
Proof. eapply concatenate_names; [|exact Hrec]. apply in_recs. Qed.
Lemma bund_names : names_ok bund.
Proof. eapply concatenate_names; [|exact Hbund]. apply in_strongs. Qed.

Lemma rec_same a k m q : nth_error blocks a = Some k -> nth_error ms a = Some m -> q < m ->
  same_ray rc (total (firstn a ms) + q) (k_rec k) q.
Proof.
  intros Ek Em Hq. destruct blocks as [|k0 ks] eqn:Eb; [destruct a; discriminate|].
  rewrite <- Eb in *. assert (Hin : In k0 blocks) by (rewrite Eb; left; auto).
  assert (Hc : concatenate_rays (k_rec k0 :: map k_rec ks) = Ok rc) by (rewrite Eb in Hrec; exact Hrec).
  refine (concat_same_ray (k_rec k0) (map k_rec ks) rc ms _ _ _ Hc a (k_rec k) m q _ Em Hq).
  - change (k_rec k0 :: map k_rec ks) with (map k_rec (k0 :: ks)). rewrite <- Eb. apply Forall2_map_l; auto.
  - change (k_rec k0 :: map k_rec ks) with (map k_rec (k0 :: ks)). rewrite <- Eb. apply in_recs.
  - intros b p Hb. apply in_map_iff in Hb. destruct Hb as (k' & <- & Hk'). apply Huni; auto.
    rewrite Eb; right; auto.
  - change (k_rec k0 :: map k_rec ks) with (map k_rec (k0 :: ks)). rewrite <- Eb.
    rewrite nth_error_map, Ek. auto.
Qed.

Lemma bund_same a k m q : nth_error blocks a = Some k -> nth_error strong_counts a = Some m -> q < m ->
  same_ray bund (total (firstn a strong_counts) + q) (k_strong k) q.
Proof.
  intros Ek Em Hq. destruct blocks as [|k0 ks] eqn:Eb; [destruct a; discriminate|].
  rewrite <- Eb in *. assert (Hin : In k0 blocks) by (rewrite Eb; left; auto).
  assert (Hc : concatenate_rays (k_strong k0 :: map k_strong ks) = Ok bund) by (rewrite Eb in Hbund; exact Hbund).
  refine (concat_same_ray (k_strong k0) (map k_strong ks) bund strong_counts _ _ _ Hc a (k_strong k) m q _ Em Hq).
  - change (k_strong k0 :: map k_strong ks) with (map k_strong (k0 :: ks)). rewrite <- Eb. apply Forall2_map_l, strong_rays.
  - change (k_strong k0 :: map k_strong ks) with (map k_strong (k0 :: ks)). rewrite <- Eb. apply in_strongs.
  - intros b p Hb. apply in_map_iff in Hb. destruct Hb as (k' & <- & Hk'). apply strong_uni; auto.
    rewrite Eb; right; auto.
  - change (k_strong k0 :: map k_strong ks) with (map k_strong (k0 :: ks)). rewrite <- Eb.
    rewrite nth_error_map, Ek. auto.
Qed.

(** The continuing rays are the records' rays at the strong positions. *)
Lemma bund_picked : rays_picked rc (nonzero (map negb W)) bund.
Proof.
  destruct blocks as [|k0 ks] eqn:Eb.
  - unfold W. rewrite ?Eb. simpl in Hrec, Hbund. injection Hrec as <-. injection Hbund as <-.
    simpl. intros p. destruct (prop empty_bund p) as [l|] eqn:Ep; auto.
    exists []. destruct p; simpl in *; try discriminate; injection Ep as <-; split; auto; constructor.
  - rewrite <- Eb in *. assert (Hin : In k0 blocks) by (rewrite Eb; left; auto).
    assert (Hc : concatenate_rays (k_rec k0 :: map k_rec ks) = Ok rc) by (rewrite Eb in Hrec; exact Hrec).
    assert (Hc' : concatenate_rays (k_strong k0 :: map k_strong ks) = Ok bund) by (rewrite Eb in Hbund; exact Hbund).
    intros p.
    assert (Hp : match prop (k_rec k0) p with
            | None => prop rc p = None
            | Some _ => exists ls, map (fun b => prop b p) (map k_rec blocks) = map Some ls /\
                          map (@length pval) ls = ms /\ prop rc p = Some (concat ls)
            end).
    { rewrite Eb. refine (concat_columns_uniform (k_rec k0) (map k_rec ks) rc ms _ _ _ Hc p).
      - change (k_rec k0 :: map k_rec ks) with (map k_rec (k0 :: ks)). rewrite <- Eb. apply Forall2_map_l; auto.
      - change (k_rec k0 :: map k_rec ks) with (map k_rec (k0 :: ks)). rewrite <- Eb. apply in_recs.
      - intros b p0 Hb. apply in_map_iff in Hb. destruct Hb as (k' & <- & Hk'). apply Huni; auto.
        rewrite Eb; right; auto. }
    assert (Hp' : match prop (k_strong k0) p with
            | None => prop bund p = None
            | Some _ => exists ls, map (fun b => prop b p) (map k_strong blocks) = map Some ls /\
                          map (@length pval) ls = strong_counts /\ prop bund p = Some (concat ls)
            end).
    { rewrite Eb. unfold strong_counts. rewrite Eb.
      refine (concat_columns_uniform (k_strong k0) (map k_strong ks) bund _ _ _ _ Hc' p).
      - change (k_strong k0 :: map k_strong ks) with (map k_strong (k0 :: ks)). rewrite <- Eb. apply Forall2_map_l, strong_rays.
      - change (k_strong k0 :: map k_strong ks) with (map k_strong (k0 :: ks)). rewrite <- Eb. apply in_strongs.
      - intros b p0 Hb. apply in_map_iff in Hb. destruct Hb as (k' & <- & Hk'). apply strong_uni; auto.
        rewrite Eb; right; auto. }
    pose proof (picked_none _ _ _ p (Hpick k0 Hin)) as Hnone.
    destruct (prop (k_rec k0) p) as [l0|] eqn:E0.
    + destruct (prop (k_strong k0) p) as [l1|] eqn:E1; [|destruct Hnone as (_ & Hn'); specialize (Hn' eq_refl); discriminate].
      destruct Hp as (ls & Els & Lls & ->). destruct Hp' as (ls' & Els' & Lls' & ->).
      exists (concat ls'). split; auto.
      assert (Em : concat ls' = mask_select (map negb W) (concat ls)).
      { unfold W. rewrite concat_map, map_map.
        rewrite <- concat_mask.
        - f_equal. clear -Els Els' Hpick Lls Hweak. revert ls ls' ms Els Els' Hpick Lls Hweak.
          induction blocks as [|k ks IH]; intros [|l ls] [|l' ls'] ms' E E' Hp Hl Hw; simpl in *; try discriminate; auto.
          injection E as E1 E2. injection E' as E1' E2'. subst ms'. inversion Hw as [|x0 y0 l0' k0' Hw1 Hw2]. subst x0 y0 l0' k0'. f_equal.
          + pose proof (Hp k (or_introl eq_refl) p) as Hk. rewrite E1 in Hk. destruct Hk as (x & Ex & Hk).
            rewrite E1' in Ex. injection Ex as <-. apply take_ok in Hk.
            rewrite mask_select_take in Hk by (rewrite map_length; auto). congruence.
          + eapply IH; eauto.
        - rewrite map_map. rewrite Lls.
          rewrite <- (Forall2_len_map (fun k => length (k_weak k)) _ _ Hweak).
          apply map_ext. intros k. apply map_length. }
      rewrite Em. apply take_ok. apply mask_select_take.
      rewrite map_length, length_W, <- Lls, nth_error_concat_len. auto.
    + rewrite Hp. destruct (prop (k_strong k0) p); auto. destruct Hnone as (Hn' & _). specialize (Hn' eq_refl). discriminate.
Qed.

End Blocks.

Lemma picks_nonzero_perm m : Permutation (nonzero (map negb m) ++ nonzero m) (seq 0 (length m)).
Proof.
  rewrite Permutation_app_comm. rewrite !nonzero_filter, map_length. symmetry.
  rewrite (filter_ext_in (fun i => nth i (map negb m) false) (fun i => negb (nth i m false))).
  - apply filter_partition.
  - intros i Hi. apply in_seq in Hi.
    rewrite (nth_indep _ false (negb false)) by (rewrite map_length; lia). apply map_nth.
Qed.

Lemma meets_first_pos T nsurf n i j t : meets_first T nsurf n i j t -> (tenm 10 < t)%R.
Proof.
  intros (Hi & Hj & ET & Hd & _).
  destruct (Rlt_dec (tenm 10) t) as [|Hn]; auto. exfalso. apply Hd.
  assert (t <= tenm 10)%R by lra. pose proof tenm_10_6.
  split; [|lra]. exists i, j. rewrite ET. repeat split; auto. simpl. apply Rleb_true; auto.
Qed.

Lemma hstack_nth n ms : (forall m, In m ms -> length m = n) ->
  length (hstack_rows n ms) = n /\
  forall i, i < n -> exists rs, map (fun m => nth_error m i) ms = map Some rs /\
    nth_error (hstack_rows n ms) i = Some (concat rs).
Proof.
  induction ms as [|m ms IH]; simpl; intros H.
  - split; [apply repeat_length|]. intros i Hi. exists []. split; auto. apply nth_error_repeat_lt; auto.
  - destruct IH as (L & IH); [intros; apply H; right; auto|].
    assert (Lm : length m = n) by (apply H; left; auto).
    split; [rewrite map2_length; lia|]. intros i Hi. destruct (IH i Hi) as (rs & E1 & E2).
    destruct (nth_error m i) as [r|] eqn:Er; [|apply nth_error_None in Er; lia].
    exists (r :: rs). simpl. rewrite map2_nth_error, Er, E1, E2. auto.
Qed.

(** ** Energy of concatenated bundles *)
Lemma combine_concat {A B} (ls : list (list A)) : forall (ks : list (list B)),
  map (@length A) ls = map (@length B) ks ->
  combine (concat ls) (concat ks) = concat (map2 (@combine A B) ls ks).
Proof.
  induction ls as [|l ls IH]; intros [|k ks] H; simpl in *; try discriminate; auto.
  injection H as H1 H2. rewrite <- IH by auto.
  revert k H1; induction l as [|a l IHl]; intros [|b k] H1; simpl in *; try discriminate; auto.
  f_equal. apply IHl. auto.
Qed.

Lemma energy_from_picked_none b n j : rays b n -> (forall k p, parent_at b k = Some p -> p <> j) ->
  energy_from b j = 0%R.
Proof.
  intros _ H. unfold energy_from. unfold parent_at in H. destruct (b_parents b) as [ps|]; auto.
  destruct (b_energy b) as [es|]; auto. simpl in H.
  assert (G : forall es, filter (fun pe : nat * R => Nat.eqb (fst pe) j) (combine ps es) = []).
  { clear es. induction ps as [|p ps IH]; intros [|e es]; simpl; auto.
    pose proof (H 0 p eq_refl) as H0. destruct (Nat.eqb_spec p j); [congruence|].
    apply IH. intros k q E. apply (H (S k)); auto. }
  rewrite G. auto.
Qed.

Lemma filter_concat_map {A} (f : A -> bool) ls : filter f (concat ls) = concat (map (filter f) ls).
Proof. induction ls; simpl; auto. rewrite filter_app, IHls. auto. Qed.

Lemma sum_R_concat ls : sum_R (concat ls) = sum_R (map sum_R ls).
Proof. induction ls; simpl; auto. rewrite sum_R_app, IHls. auto. Qed.

Lemma energy_from_concat bs r j :
  (forall b, In b bs -> exists n, rays b n /\ b_parents b <> None /\ b_energy b <> None) ->
  concatenate_rays bs = Ok r ->
  energy_from r j = sum_R (map (fun b => energy_from b j) bs).
Proof.
  intros H Hc. destruct bs as [|b0 bs].
  { simpl in Hc. injection Hc as <-. reflexivity. }
  assert (Hps : exists pss, map b_parents (b0 :: bs) = map Some pss).
  { clear Hc. induction (b0 :: bs) as [|b l IH]; [exists []; auto|].
    destruct IH as (pss & E); [intros; apply H; right; auto|].
    destruct (H b (or_introl eq_refl)) as (n & _ & Hp & _). destruct (b_parents b) as [ps|] eqn:Eb; [|congruence].
    exists (ps :: pss). simpl. rewrite Eb, E. auto. }
  assert (Hes : exists ess, map b_energy (b0 :: bs) = map Some ess).
  { clear Hc. clear Hps. induction (b0 :: bs) as [|b l IH]; [exists []; auto|].
    destruct IH as (pss & E); [intros; apply H; right; auto|].
    destruct (H b (or_introl eq_refl)) as (n & _ & _ & Hp). destruct (b_energy b) as [ps|] eqn:Eb; [|congruence].
    exists (ps :: pss). simpl. rewrite Eb, E. auto. }
  destruct Hps as (pss & Eps). destruct Hes as (ess & Ees).
  assert (Hl : map (@length nat) pss = map (@length R) ess).
  { clear Hc. revert pss ess Eps Ees. induction (b0 :: bs) as [|b l IH]; intros [|ps pss] [|es ess] E1 E2; simpl in *; try discriminate; auto.
    injection E1 as E1 E1'. injection E2 as E2 E2'. f_equal; [|apply IH; auto].
    destruct (H b (or_introl eq_refl)) as (n & (_ & Hr) & _).
    pose proof (Hr Parents (map PNat ps)) as R1. pose proof (Hr Energy (map PReal es)) as R2.
    simpl in R1, R2. rewrite E1 in R1. rewrite E2 in R2. rewrite !map_length in *.
    rewrite R1, R2; auto. }
  assert (Er : b_parents r = Some (concat pss) /\ b_energy r = Some (concat ess)).
  { assert (Ms : forall (get : bundle -> option (list nat)) l ls, map get l = map Some ls -> mapM (fun c => get_prop (get c) SAll) l = Ok ls).
    { intros get l. induction l as [|c l IH]; intros [|x ls] E; try discriminate; auto. cbn [map] in E. injection E as E1 E2.
      rewrite mapM_cons, E1. cbn [get_prop select bind]. rewrite (IH ls E2). reflexivity. }
    assert (Mr : forall (get : bundle -> option (list R)) l ls, map get l = map Some ls -> mapM (fun c => get_prop (get c) SAll) l = Ok ls).
    { intros get l. induction l as [|c l IH]; intros [|x ls] E; try discriminate; auto. cbn [map] in E. injection E as E1 E2.
      rewrite mapM_cons, E1. cbn [get_prop select bind]. rewrite (IH ls E2). reflexivity. }
    cbn [concatenate_rays] in Hc.
    apply bind_ok in Hc as (v & _ & Hc). apply bind_ok in Hc as (d & _ & Hc). apply bind_ok in Hc as (es & Ee & Hc).
    apply bind_ok in Hc as (ps & Ep & Hc). apply bind_ok in Hc as (nn & _ & Hc). apply bind_ok in Hc as (x & _ & Hc).
    injection Hc as <-. cbn [b_parents b_energy]. unfold concat_prop in Ee, Ep.
    rewrite (Ms b_parents _ _ Eps) in Ep. rewrite (Mr b_energy _ _ Ees) in Ee.
    destruct (H b0 (or_introl eq_refl)) as (n & _ & Hp & He). destruct (b_parents b0); [|congruence]. destruct (b_energy b0); [|congruence].
    cbn [bind] in Ee, Ep. split; congruence. }
  destruct Er as (Er1 & Er2). unfold energy_from at 1. rewrite Er1, Er2.
  rewrite combine_concat by auto. rewrite filter_concat_map, concat_map, sum_R_concat, !map_map.
  f_equal. clear -Eps Ees Hl. revert pss ess Eps Ees Hl.
  induction (b0 :: bs) as [|b l IH]; intros [|ps pss] [|es ess] E1 E2 Hl; simpl in *; try discriminate; auto.
  injection E1 as E1 E1'. injection E2 as E2 E2'. injection Hl as _ Hl. f_equal.
  - unfold energy_from. rewrite E1, E2. auto.
  - apply IH; auto.
Qed.
