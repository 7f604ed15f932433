(** Proofs about iterations and complete traces. *)
From Coq Require Import Reals List Arith ZArith Bool Lia Lra Permutation.
From Verif.Base Require Import Py Num Vec.
From Verif.Model Require Import RayBundle TraceTree Engine.
From Verif.Spec Require Import BundleSpec EngineSpec.
From Verif.Proof Require Import ListLemmas NumLemmas BundleProof IntersectProof ProcessProof IterProof.
Import ListNotations.

Lemma sum_R_cons x l : sum_R (x :: l) = (x + sum_R l)%R.
Proof. reflexivity. Qed.
Lemma sum_R_zero l : (forall x, In x l -> x = 0%R) -> sum_R l = 0%R.
Proof.
  induction l as [|x l IH]; intros H; auto. rewrite sum_R_cons, (H x), IH by (simpl; auto || (intros; apply H; simpl; auto)).
  lra.
Qed.

Section Trace.
Context {S G : Type}.
Variable ops : surf_ops S G.
Variable RP : ray_prop.
Variable good : S -> Prop.
Hypothesis contract : surface_contract ops RP good.
Variable objs : list obj.
Hypothesis Hobjs : forall ob, In ob objs -> object_contract ob.
Variable me : R.

Record iter_facts (ta : tree_arg) (st st' : tstate S G) (go : bool) (n : nat) (T : reports)
    (rc : bundle) (m : nat) (wk : list bool) : Prop := {
  it_surfs : t_surfs st' = t_surfs st;
  it_tested : forall i j, i < length (t_surfs st) -> j < n ->
     (T i j <> None <-> may_test (surf_ownership objs) (t_own st) (t_rel st) i j);
  it_range : forall i j, T i j <> None -> i < length (t_surfs st) /\ j < n;
  it_answers : forall i s, nth_error (t_surfs st) i = Some s ->
     exists s', answers ops (t_bund st) n T i s s';
  it_nonneg : forall i j x, T i j = Some x -> nlt x (Fin (- tenm 16)) = false;
  it_emit : exists ems, emissions ops (t_surfs st) (t_bund st) n T (t_g st) ems (t_g st') /\
     concatenate_rays (map snd ems) = Ok rc;
  it_rec : traceable rc m;
  it_rp : all_rays RP rc;
  it_par : b_parents rc <> None;
  it_set : m <> 0 -> same_set rc (t_bund st);
  it_child : children_of T (length (t_surfs st)) (t_bund st) n rc m;
  it_weak : exists es, b_energy rc = Some es /\ wk = map (fun x => Rleb x me) es;
  it_len : length wk = m;
  it_bund : rays_picked rc (nonzero (map negb wk)) (t_bund st');
  it_bund_ok : traceable (t_bund st') (length (nonzero (map negb wk)));
  it_tree : match ta with
            | TreeFalse => t_tree st' = t_tree st
            | _ => if Nat.eqb m 0 then t_tree st' = t_tree st else
                   exists lvl, t_tree st' = t_tree st ++ [lvl] /\ names_ok lvl /\
                     rays_picked rc (nonzero (map negb wk) ++ nonzero wk) lvl
            end;
  it_go : go = negb (Nat.eqb (length (nonzero (map negb wk))) 0);
  it_record : exists recs, t_record st' = Some recs /\ concatenate_rays recs = Ok rc;
  it_own : go = true -> forall j, j < length (nonzero (map negb wk)) ->
     exists i p t oi owns next r,
       parent_at (t_bund st') j = Some p /\ meets_first T (length (t_surfs st)) n i p t /\
       emitted_by objs i oi owns next (t_bund st') j r /\
       forall i', may_test (surf_ownership objs) (t_own st') (t_rel st') i' j <->
                  next_surfaces objs oi owns next r i';
  it_energy : no_energy_made ops RP good -> no_ties T (length (t_surfs st)) n ->
     forall j e, energy_at (t_bund st) j = Some e -> (0 <= e)%R -> (energy_from rc j <= e)%R }.

Lemma same_set_trans_props (b r1 r2 : bundle) p :
  same_set r1 b -> same_set r2 b -> b_parents r1 <> None -> b_parents r2 <> None ->
  (prop r1 p = None <-> prop r2 p = None).
Proof.
  intros H1 H2 P1 P2. destruct (match p with Parents => true | _ => false end) eqn:E.
  - assert (p = Parents) as -> by (destruct p; congruence || discriminate).
    rewrite <- !prop_parents_none. tauto.
  - assert (Hp : p <> Parents) by (intros ->; discriminate).
    rewrite (H1 p Hp), (H2 p Hp). tauto.
Qed.

Lemma concat_total b0 bs :
  (forall b, In b (b0 :: bs) -> names_ok b) ->
  (forall b p, In b bs -> (prop b p = None <-> prop b0 p = None)) ->
  exists r, concatenate_rays (b0 :: bs) = Ok r.
Proof.
  intros Hn Hu. destruct (concatenate_rays (b0 :: bs)) as [r|e] eqn:E; eauto.
  apply concatenate_rays_fails in E; [|apply Hn; left; auto].
  destruct E as (_ & p & Hp & c & Hc & E). exfalso. apply Hp. apply (Hu c p); auto.
Qed.

Lemma iteration_facts ta st st' go n :
  traceable (t_bund st) n -> all_rays RP (t_bund st) ->
  (forall s, In s (t_surfs st) -> good s) ->
  length (t_surfs st) = length (surf_ownership objs) ->
  iteration ops objs me ta st = Ok (st', go) ->
  exists T rc m wk, iter_facts ta st st' go n T rc m wk.
Proof.
  intros Ht Hall Hgood Hns H. unfold iteration in H.
  apply bind_ok in H. destruct H as ([[ss fr] owned] & Ei & H).
  apply bind_ok in H. destruct H as ([[ss2 g2] blocks] & Ep & H).
  apply bind_ok in H. destruct H as (bund & Eb & H).
  apply bind_ok in H. destruct H as (tr & Etr & H).
  apply bind_ok in H. destruct H as (n' & En' & H).
  destruct Ht as (Hnm & Hry & Hrest).
  destruct (intersect_ray_facts ops _ n _ _ _ _ _ _ _ Hry Hnm Ei) as (T & IF).
  assert (Ht : traceable (t_bund st) n) by (split; [|split]; auto).
  destruct IF as [(L1 & L2 & L3) Hrows Howned Htested Hrange Hans Hfirst Hsown Hnn].
  set (nsurf := length (t_surfs st)) in *.
  destruct (process_surfaces_facts ops RP good contract objs me (t_bund st) n T Ht Hall
              (t_surfs st) ss fr owned 0 (t_g st) ss2 g2 blocks Ep) as (-> & ibs & Hbl & Hst & Hib & Hcov & Hturn).
  { intros k s Hs. split; [apply Hgood; eapply nth_error_In; eauto|].
    assert (Hk : k < nsurf) by (apply nth_error_Some; congruence).
    destruct (Hans k s Hs) as (s1 & Es1 & Ha). destruct (Hrows k Hk) as (f & o & Ef & Eo & Lf & Lo).
    exists s1, f, o. simpl. do 6 (split; [assumption|]). split.
    - intros j. specialize (Howned k j). unfold at2 in Howned. rewrite Eo in Howned. tauto.
    - intros j Hj. specialize (Hfirst k j). unfold at2 in Hfirst. rewrite Ef in Hfirst.
      apply Hfirst in Hj. destruct Hj as (t & Hm). exists t. apply Hm. }
  { auto. }
  simpl in Hib, Hcov, Hturn. pose proof (sorted_NoDup _ Hst) as Hnd.
  (* facts about every block *)
  assert (Hbk : forall a, In a ibs -> exists f, (exists s, nth_error (t_surfs st) (fst a) = Some s /\
            block_facts ops RP good objs me (t_bund st) n s T (fst a) f (snd a)) /\ nth_error fr (fst a) = Some f).
  { intros a Ha. destruct (Hib a Ha) as (k & f & s & E & Hk & Ef & Hf). rewrite E in *. eauto. }
  clear Hib.
  assert (Hinb : forall k, In k blocks -> exists a, In a ibs /\ snd a = k).
  { intros k Hk. rewrite Hbl in Hk. apply in_map_iff in Hk. destruct Hk as (a & <- & Ha). eauto. }
  assert (Hms : exists ms, Forall2 (fun k m => traceable (k_rec k) m) blocks ms).
  { assert (G0 : forall ks, (forall k, In k ks -> In k blocks) ->
       exists ms, Forall2 (fun k m => traceable (k_rec k) m) ks ms).
    { induction ks as [|k ks IH]; intros Hin; [exists []; constructor|].
      destruct IH as (ms & IH); [intros; apply Hin; right; auto|].
      destruct (Hinb k) as (a & Ha & <-); [apply Hin; left; auto|].
      destruct (Hbk a Ha) as (f & (sk & Hsk & Hf) & Ef). destruct (bf_m _ _ _ _ _ _ _ _ _ _ _ _ Hf) as (m & Hm).
      exists (m :: ms). constructor; auto. }
    apply G0; auto. }
  destruct Hms as (ms & Hms).
  assert (Hrays : Forall2 (fun k m => rays (k_rec k) m) blocks ms).
  { eapply Forall2_impl; [|exact Hms]. intros k m Hk. apply Hk. }
  assert (Hweak : Forall2 (fun k m => length (k_weak k) = m) blocks ms).
  { clear -Hms Hinb Hbk. assert (G0 : forall k, In k blocks -> exists es, b_energy (k_rec k) = Some es /\
       k_weak k = map (fun x => Rleb x me) es).
    { intros k Hk. destruct (Hinb k Hk) as (a & Ha & <-). destruct (Hbk a Ha) as (f & (sk & Hsk & Hf) & Ef).
      exact (bf_weak _ _ _ _ _ _ _ _ _ _ _ _ Hf). }
    clear Hinb Hbk. induction Hms as [|k m ks ms Hk HF IH]; constructor.
    - destruct (G0 k (or_introl eq_refl)) as (es & Ees & ->). rewrite map_length.
      destruct Hk as (_ & (_ & Hr) & _). specialize (Hr Energy (map PReal es)). simpl in Hr.
      rewrite Ees in Hr. simpl in Hr. rewrite map_length in Hr. auto.
    - apply IH. intros; apply G0; right; auto. }
  assert (Hnames : forall k, In k blocks -> names_ok (k_rec k) /\ names_ok (k_strong k)).
  { intros k Hk. destruct (Hinb k Hk) as (a & Ha & <-). destruct (Hbk a Ha) as (f & (sk & Hsk & Hf) & Ef).
    destruct (bf_m _ _ _ _ _ _ _ _ _ _ _ _ Hf) as (m & Hm). split; [apply Hm|].
    exact (bf_names _ _ _ _ _ _ _ _ _ _ _ _ Hf). }
  assert (Hpick : forall k, In k blocks ->
     rays_picked (k_rec k) (nonzero (map negb (k_weak k))) (k_strong k)).
  { intros k Hk. destruct (Hinb k Hk) as (a & Ha & <-). destruct (Hbk a Ha) as (f & (sk & Hsk & Hf) & Ef).
    exact (bf_strong _ _ _ _ _ _ _ _ _ _ _ _ Hf). }
  assert (Huni : forall k k' p, In k blocks -> In k' blocks ->
     (prop (k_rec k) p = None <-> prop (k_rec k') p = None)).
  { intros k k' p Hk Hk'. destruct (Hinb k Hk) as (a & Ha & <-). destruct (Hbk a Ha) as (f & (sk & Hsk & Hf) & Ef).
    destruct (Hinb k' Hk') as (a' & Ha' & <-). destruct (Hbk a' Ha') as (f' & (sk' & Hsk' & Hf') & Ef').
    apply (same_set_trans_props (t_bund st)).
    - exact (bf_set _ _ _ _ _ _ _ _ _ _ _ _ Hf).
    - exact (bf_set _ _ _ _ _ _ _ _ _ _ _ _ Hf').
    - exact (bf_par _ _ _ _ _ _ _ _ _ _ _ _ Hf).
    - exact (bf_par _ _ _ _ _ _ _ _ _ _ _ _ Hf'). }
  assert (Hrec : exists rc, concatenate_rays (map k_rec blocks) = Ok rc).
  { destruct blocks as [|k0 ks] eqn:Eks; [exists empty_bund; reflexivity|]. rewrite <- Eks in *.
    assert (Em : map k_rec blocks = k_rec k0 :: map k_rec ks) by (rewrite Eks; auto).
    rewrite Em. apply concat_total.
    - rewrite <- Em. intros b Hb. apply in_map_iff in Hb. destruct Hb as (k & <- & Hk). apply Hnames; auto.
    - intros b p Hb. apply in_map_iff in Hb. destruct Hb as (k & <- & Hk). apply Huni; rewrite Eks; simpl; auto. }
  destruct Hrec as (rc & Hrec).
  set (m := total ms). set (wk := concat (map k_weak blocks)).
  pose proof (rec_rays blocks ms Hrays Hnames rc Hrec) as Hrr. fold m in Hrr.
  pose proof (rec_names blocks Hnames rc Hrec) as Hrn.
  pose proof (bund_names blocks Hnames bund Eb) as Hbn.
  pose proof (length_W blocks ms Hweak) as HlW. unfold W in HlW. fold wk m in HlW.
  pose proof (bund_picked blocks ms Hrays Hnames Huni Hweak Hpick rc bund Hrec Eb) as Hbp.
  unfold W in Hbp. fold wk in Hbp.
  assert (Hsame : forall a k mk q, nth_error blocks a = Some k -> nth_error ms a = Some mk -> q < mk ->
     same_ray rc (total (firstn a ms) + q) (k_rec k) q)
    by exact (rec_same blocks ms Hrays Hnames Huni Hweak Hpick rc bund Hrec Eb).
  assert (Hloc : forall q, q < m -> exists a k mk r, nth_error blocks a = Some k /\ nth_error ms a = Some mk /\
     r < mk /\ q = total (firstn a ms) + r /\ same_ray rc q (k_rec k) r).
  { intros q Hq. destruct (sum_locate ms q Hq) as (a & mk & r & Ea & Hr & ->).
    destruct (nth_error blocks a) as [k|] eqn:Ek.
    - exists a, k, mk, r. do 4 (split; [solve [auto]|]). eauto.
    - exfalso. apply nth_error_None in Ek. rewrite (Forall2_length _ _ _ Hms) in Ek.
      assert (a < length ms) by (apply nth_error_Some; congruence). lia. }
  assert (Htrk : forall a k mk, nth_error blocks a = Some k -> nth_error ms a = Some mk -> traceable (k_rec k) mk).
  { intros a k mk Ek Em. rewrite Forall2_nth in Hms. destruct Hms as (_ & Hms). eauto. }
  assert (Hprops : forall k p, In k blocks -> (prop rc p = None <-> prop (k_rec k) p = None)).
  { intros k p Hk. destruct blocks as [|k0 ks] eqn:Eks; [destruct Hk|].
    assert (Em : map k_rec blocks = k_rec k0 :: map k_rec ks) by (rewrite Eks; auto).
    assert (HF0 : Forall2 rays (k_rec k0 :: map k_rec ks) ms).
    { rewrite <- Em. rewrite Eks. apply Forall2_map_l. exact Hrays. }
    assert (Hnm0 : forall b, In b (k_rec k0 :: map k_rec ks) -> names_ok b).
    { intros b Hb. change (In b (map k_rec (k0 :: ks))) in Hb. apply in_map_iff in Hb.
      destruct Hb as (k1 & <- & Hk1). apply Hnames; auto. }
    assert (Hu0 : forall b p, In b (map k_rec ks) -> (prop b p = None <-> prop (k_rec k0) p = None)).
    { intros b p0 Hb. apply in_map_iff in Hb. destruct Hb as (k1 & <- & Hk1). apply Huni; simpl; auto. }
    pose proof (concat_columns_uniform (k_rec k0) (map k_rec ks) rc ms HF0 Hnm0 Hu0 Hrec p) as Hp.
    rewrite (Huni k k0 p Hk (or_introl eq_refl)).
    destruct (prop (k_rec k0) p).
    - destruct Hp as (ls & _ & _ & ->). split; discriminate.
    - tauto. }
  assert (Htrc : traceable rc m).
  { split; auto. split; auto. destruct blocks as [|k0 ks] eqn:Eks.
    - simpl in Hrec. injection Hrec as <-. split; discriminate.
    - destruct (Hinb k0 (or_introl eq_refl)) as (a & Ha & E0). destruct (Hbk a Ha) as (f & (sk & Hsk & Hf) & Ef).
      rewrite E0 in Hf. destruct (bf_m _ _ _ _ _ _ _ _ _ _ _ _ Hf) as (m0 & _ & _ & Hd0 & He0).
      rewrite prop_dir_none in *. rewrite prop_energy_none in *.
      rewrite !(Hprops k0) by (left; auto). auto. }
  assert (Hpar : b_parents rc <> None).
  { rewrite prop_parents_none. destruct blocks as [|k0 ks] eqn:Eks.
    - simpl in Hrec. injection Hrec as <-. discriminate.
    - rewrite (Hprops k0 Parents) by (left; auto). rewrite <- prop_parents_none.
      destruct (Hinb k0 (or_introl eq_refl)) as (a & Ha & <-). destruct (Hbk a Ha) as (f & (sk & Hsk & Hf) & Ef).
      exact (bf_par _ _ _ _ _ _ _ _ _ _ _ _ Hf). }
  assert (Hwk : exists es, b_energy rc = Some es /\ wk = map (fun x => Rleb x me) es).
  { destruct (b_energy rc) as [es|] eqn:Ees; [|destruct Htrc as (_ & _ & _ & He); congruence].
    exists es. split; auto. apply nth_ext with (d := false) (d' := false).
    - rewrite HlW, map_length. destruct Hrr as (_ & Hr). specialize (Hr Energy (map PReal es)).
      simpl in Hr. rewrite Ees in Hr. simpl in Hr. rewrite map_length in Hr. symmetry. auto.
    - intros q Hq. rewrite HlW in Hq. destruct (Hloc q Hq) as (a & k & mk & r & Ek & Em & Hr & Eq & Hs).
      assert (Ew : nth_error wk q = nth_error (k_weak k) r).
      { assert (Elen : map (@length bool) (map k_weak blocks) = ms).
        { rewrite map_map. exact (Forall2_len_map (fun k => length (k_weak k)) _ _ Hweak). }
        rewrite Eq. unfold wk. rewrite <- Elen. apply concat_at.
        - rewrite nth_error_map, Ek; auto.
        - rewrite Forall2_nth in Hweak. destruct Hweak as (_ & Hw). rewrite (Hw a k mk); auto. }
      assert (Ee : energy_at rc q = energy_at (k_rec k) r) by (apply same_ray_energy; auto).
      destruct (Hinb k (nth_error_In _ _ Ek)) as (a' & Ha' & Ek'). destruct (Hbk a' Ha') as (f & (sk & Hsk & Hf) & Ef).
      rewrite Ek' in Hf. destruct (bf_weak _ _ _ _ _ _ _ _ _ _ _ _ Hf) as (es' & Ees' & Ew').
      unfold energy_at in Ee. rewrite Ees, Ees' in Ee. simpl in Ee.
      assert (E3 : nth_error wk q = nth_error (map (fun x => Rleb x me) es) q).
      { rewrite Ew, Ew', !nth_error_map, Ee. auto. }
      destruct (nth_error wk q) as [w|] eqn:Ewq.
      + rewrite (nth_error_nth _ _ _ Ewq). symmetry in E3. rewrite (nth_error_nth _ _ _ E3). auto.
      + apply nth_error_None in Ewq. lia. }
  assert (Hn'' : n' = length (nonzero (map negb wk))).
  { pose proof (picked_rays _ _ _ _ Hrr Hbp) as Hbr. rewrite (rays_num _ _ Hbr) in En'. congruence. }
  assert (Hbok : traceable bund (length (nonzero (map negb wk)))) by (eapply picked_traceable; eauto).
  assert (Hchild : children_of T nsurf (t_bund st) n rc m).
  { split.
    - intros q Hq. destruct (Hloc q Hq) as (a & k & mk & r & Ek & Em & Hr & Eq & Hs).
      destruct (Hinb k (nth_error_In _ _ Ek)) as (ik & Hik & Ek'). destruct (Hbk ik Hik) as (f & (sk & Hsk & Hf) & Ef).
      rewrite Ek' in Hf. pose proof (Htrk a k mk Ek Em) as Htk.
      destruct (at_col_Some PNat (k_rec k) mk Parents (b_parents (k_rec k)) r) as (p & Hp); auto.
      { apply Htk. } { exact (bf_par _ _ _ _ _ _ _ _ _ _ _ _ Hf). }
      destruct (bf_child _ _ _ _ _ _ _ _ _ _ _ _ Hf r p Hp) as (t & v & d & E1 & E2 & E3 & E4 & E5).
      assert (Hm : exists t', meets_first T nsurf n (fst ik) p t').
      { apply Hfirst. unfold at2. rewrite Ef. auto. }
      destruct Hm as (t' & Hm). assert (t' = t) as ->.
      { destruct Hm as (_ & _ & E & _). congruence. }
      exists (fst ik), p, t, v, d. rewrite (same_ray_parent _ _ _ _ Hs), (same_ray_vert _ _ _ _ Hs).
      split; auto. split; [apply Hm|]. split; auto. split; [eapply meets_first_pos; eauto|]. auto.
    - intros i j t Hm. pose proof Hm as Hm0. destruct Hm as (Hi & Hj & ET & _).
      assert (Hfr : at2 fr i j = Some true) by (apply Hfirst; eauto).
      apply at2_In in Hfr. destruct Hfr as (f & Ef & Ej).
      pose proof (Hcov i f j Ef Hi Ej) as Hin. apply in_map_iff in Hin. destruct Hin as (ik & Eik & Hin).
      destruct (Hbk ik Hin) as (f' & (sk & Hsk & Hf) & Ef'). rewrite Eik in *. rewrite Ef in Ef'. injection Ef' as <-.
      destruct (bf_all _ _ _ _ _ _ _ _ _ _ _ _ Hf j Ej) as (q & Hq).
      destruct (bf_child _ _ _ _ _ _ _ _ _ _ _ _ Hf q j Hq) as (t' & v & d & E1 & E2 & E3 & E4 & E5).
      assert (t' = t) as -> by congruence.
      assert (Hbin : In (snd ik) blocks) by (rewrite Hbl; apply in_map; auto).
      apply In_nth_error in Hbin. destruct Hbin as (a & Ea).
      destruct (nth_error ms a) as [mk|] eqn:Em.
      2:{ apply nth_error_None in Em. rewrite <- (Forall2_length _ _ _ Hms) in Em.
          assert (a < length blocks) by (apply nth_error_Some; congruence). lia. }
      pose proof (Htrk a _ mk Ea Em) as Htk.
      assert (Hqm : q < mk) by (eapply rays_parent_lt; [apply Htk|eauto]).
      pose proof (Hsame a _ mk q Ea Em Hqm) as Hs.
      exists (total (firstn a ms) + q), v, d. rewrite (same_ray_parent _ _ _ _ Hs), (same_ray_vert _ _ _ _ Hs).
      split; [apply (sum_locate_lt ms a mk); auto|]. auto. }
  assert (Hst' : t_surfs st' = t_surfs st /\ t_g st' = g2 /\ t_bund st' = bund /\ t_tree st' = tr /\
            t_record st' = Some (map k_rec blocks) /\ go = negb (Nat.eqb n' 0) /\
            (go = true -> t_own st' = concat (map k_own blocks) /\
               t_rel st' = hstack_rows nsurf (map k_rel blocks))).
  { destruct (Nat.eqb n' 0); injection H as <- <-; simpl; repeat split; auto; discriminate. }
  destruct Hst' as (Es & Eg2 & Ebu & Et & Erc & Ego & Eor).
  exists T, rc, m, wk. constructor; auto.
  - intros i s Hs. destruct (Hans i s Hs) as (s' & _ & Ha). eauto.
  - exists (map (fun a => (fst a, k_rec (snd a))) ibs). split.
    2:{ rewrite map_map. rewrite Hbl, map_map in Hrec. exact Hrec. }
    assert (Efst : map fst (map (fun a : nat * block => (fst a, k_rec (snd a))) ibs) = map fst ibs)
      by (rewrite map_map; auto).
    split; [rewrite Efst; exact Hst|]. split.
    + intros i. rewrite Efst. split.
      * intros Hin. apply in_map_iff in Hin. destruct Hin as (a & <- & Ha).
        destruct (Hbk a Ha) as (f & (sk & Hsk & Hf) & Ef).
        destruct (bf_hit _ _ _ _ _ _ _ _ _ _ _ _ Hf) as (j & Hj).
        exists j. apply Hfirst. unfold at2. rewrite Ef. auto.
      * intros (j & t & Hm). assert (Hfr : at2 fr i j = Some true) by (apply Hfirst; eauto).
        apply at2_In in Hfr. destruct Hfr as (f & Ef & Ej). apply (Hcov i f j); auto. apply Hm.
    + rewrite Eg2. clear -Hturn Hfirst. induction Hturn as [h|a l h h1 h2 Ha Hl IH]; [constructor|].
      cbn [map]. apply turn_next with h1; auto. cbn [fst snd]. clear IH Hl.
      destruct Ha as (k & f & s & E & Hs & Ef & hits & Hnd' & Hh & He). cbn in E. rewrite E in *.
      exists s, hits. split; auto. split; auto. split; auto.
      intros j. rewrite Hh. fold nsurf. specialize (Hfirst k j). unfold at2 in Hfirst. rewrite Ef in Hfirst. exact Hfirst.
  - intros q d e Hd He. assert (Hq : q < m) by (eapply traceable_energy_lt; eauto).
    destruct (Hloc q Hq) as (a & k & mk & r & Ek & Em & Hr & Eq & Hs).
    destruct (Hinb k (nth_error_In _ _ Ek)) as (ik & Hik & Ek'). destruct (Hbk ik Hik) as (f & (sk & Hsk & Hf) & Ef).
    rewrite Ek' in Hf. rewrite (same_ray_ref _ _ _ _ Hs). apply (bf_rp _ _ _ _ _ _ _ _ _ _ _ _ Hf).
    + rewrite <- (same_ray_dir _ _ _ _ Hs). auto.
    + rewrite <- (same_ray_energy _ _ _ _ Hs). auto.
  - intros Hm p Hp. destruct blocks as [|k0 ks] eqn:Eks.
    { exfalso. apply Hm. unfold m. inversion Hms; subst. reflexivity. }
    rewrite (Hprops k0 p) by (left; auto).
    destruct (Hinb k0 (or_introl eq_refl)) as (a & Ha & <-). destruct (Hbk a Ha) as (f & (sk & Hsk & Hf) & Ef).
    apply (bf_set _ _ _ _ _ _ _ _ _ _ _ _ Hf p Hp).
  - rewrite Ebu; auto.
  - rewrite Ebu; auto.
  - rewrite Et. clear -Etr Hrec Hrr Hbp Hrn Hbn Hwk HlW. destruct ta.
    3:{ injection Etr as <-. auto. }
    all: rewrite Hrec in Etr; cbn [bind] in Etr; rewrite (rays_num _ _ Hrr) in Etr; cbn [bind] in Etr;
      destruct (Nat.eqb m 0); [injection Etr as <-; auto|];
      apply bind_ok in Etr; destruct Etr as (weak & Ew & Etr); injection Etr as <-;
      exists (add_bundles bund weak); split; [reflexivity|]; split; [apply add_bundles_names; auto|];
      intros p; rewrite add_bundles_prop by auto;
      pose proof (inherit_sound _ _ _ _ Ew p) as Hi; rewrite prop_no_bundle in Hi; unfold inh in Hi;
      specialize (Hbp p); destruct (prop rc p) as [l|];
      [destruct Hbp as (x & -> & Hx); destruct Hi as (y & -> & _ & Hy); exists (x ++ y); split; auto;
         apply picks_app; auto
      |rewrite Hbp; auto].
  - rewrite Ego, Hn''. auto.
  - exists (map k_rec blocks). auto.
  - (* ownership and relevancy *)
    intros Hgo j Hj. destruct (Eor Hgo) as (Eown & Erel). clear Eor. rewrite Ebu, Eown, Erel.
    set (sc := strong_counts blocks).
    pose proof (bund_rays blocks ms Hrays Hnames Hpick bund Eb) as Hbr.
    assert (Htot : total sc = length (nonzero (map negb wk))).
    { destruct Hbok as (_ & Hbr' & _). pose proof (rays_num _ _ Hbr) as E1. pose proof (rays_num _ _ Hbr') as E2.
      unfold sc. congruence. }
    destruct (sum_locate sc j ltac:(lia)) as (a & na & r & Ena & Hr & Ej).
    assert (Eka : exists k, nth_error blocks a = Some k).
    { destruct (nth_error blocks a) eqn:E; eauto. apply nth_error_None in E. unfold sc, strong_counts in Ena.
      assert (a < length (map (fun k => length (nonzero (map negb (k_weak k)))) blocks)) by (apply nth_error_Some; congruence).
      rewrite map_length in *. lia. }
    destruct Eka as (k & Ek).
    pose proof (bund_same blocks ms Hrays Hnames Huni Hweak Hpick rc bund Hrec Eb a k na r Ek Ena Hr) as Hs.
    fold sc in Hs. rewrite <- Ej in Hs.
    pose proof (nth_error_In _ _ Ek) as Hkin.
    destruct (Hinb k Hkin) as (ik & Hik & Ek'). destruct (Hbk ik Hik) as (f & (sk & Hsk & Hf) & Ef).
    rewrite Ek' in Hf.
    assert (Ena' : na = length (nonzero (map negb (k_weak k)))).
    { unfold sc, strong_counts in Ena. rewrite nth_error_map, Ek in Ena. simpl in Ena. congruence. }
    assert (Hsr : rays (k_strong k) na).
    { rewrite Ena'. destruct (bf_m _ _ _ _ _ _ _ _ _ _ _ _ Hf) as (mk & _ & Hmk & _).
      eapply picked_rays; [exact Hmk|auto]. }
    (* its parent *)
    assert (Hrk : exists r', nth_error (nonzero (map negb (k_weak k))) r = Some r').
    { destruct (nth_error (nonzero (map negb (k_weak k))) r) eqn:E; eauto. apply nth_error_None in E. lia. }
    destruct Hrk as (r' & Er').
    pose proof (picked_same _ _ _ _ _ (Hpick k Hkin) Er') as Hs'.
    destruct (bf_m _ _ _ _ _ _ _ _ _ _ _ _ Hf) as (mk & Htk).
    assert (Hr'm : r' < mk).
    { assert (In r' (nonzero (map negb (k_weak k)))) by (eapply nth_error_In; eauto).
      destruct (bf_weak _ _ _ _ _ _ _ _ _ _ _ _ Hf) as (es & Ees & Ewk).
      apply nonzero_spec in H0. rewrite Ewk, !nth_error_map in H0.
      apply (traceable_energy_lt (k_rec k) mk r' (match nth_error es r' with Some x => x | None => 0%R end)); auto.
      unfold energy_at. rewrite Ees. simpl. destruct (nth_error es r'); [auto|discriminate]. }
    destruct (at_col_Some PNat (k_rec k) mk Parents (b_parents (k_rec k)) r') as (p & Hp); auto.
    { apply Htk. } { exact (bf_par _ _ _ _ _ _ _ _ _ _ _ _ Hf). }
    destruct (bf_child _ _ _ _ _ _ _ _ _ _ _ _ Hf r' p Hp) as (t & v & d & E1 & E2 & E3 & E4 & E5).
    assert (Hm : exists t', meets_first T nsurf n (fst ik) p t').
    { apply Hfirst. unfold at2. rewrite Ef. auto. }
    destruct Hm as (t' & Hm).
    destruct (bf_obj _ _ _ _ _ _ _ _ _ _ _ _ Hf) as (oi & ob & ri & owns & next & O1 & O2 & O3 & O4 & O5 & O6 & O7).
    exists (fst ik), p, t', oi, owns, next, r.
    split.
    { rewrite (same_ray_parent _ _ _ _ Hs), (same_ray_parent _ _ _ _ Hs'). exact Hp. }
    split; auto. split.
    { exists ob, ri, (k_strong k). do 5 (split; [assumption|]).
      intros p0. specialize (Hs p0). unfold at_p in Hs.
      assert (Hnone : prop bund p0 = None <-> prop (k_strong k) p0 = None).
      { rewrite <- (picked_none _ _ _ p0 Hbp), <- (picked_none _ _ _ p0 (Hpick k Hkin)). apply Hprops; auto. }
      destruct (prop bund p0) as [l|] eqn:El, (prop (k_strong k) p0) as [l'|] eqn:El'; auto.
      - split; auto. destruct Hsr as (_ & Hsr). rewrite (Hsr _ _ El'). auto.
      - destruct Hnone as (_ & Hn0). specialize (Hn0 eq_refl). discriminate.
      - destruct Hnone as (Hn0 & _). specialize (Hn0 eq_refl). discriminate. }
    assert (Lown : forall k, In k blocks -> length (k_own k) = length (nonzero (map negb (k_weak k)))).
    { intros k1 Hk1. destruct (Hinb k1 Hk1) as (ik1 & Hik1 & <-). destruct (Hbk ik1 Hik1) as (f1 & (sk1 & Hsk1 & Hf1) & Ef1).
      destruct (bf_obj _ _ _ _ _ _ _ _ _ _ _ _ Hf1) as (oi1 & ob1 & ri1 & owns1 & next1 & _ & P2 & _ & P4 & P5 & _ & _).
      rewrite P5, map_length. destruct (bf_m _ _ _ _ _ _ _ _ _ _ _ _ Hf1) as (mk1 & _ & Hmk1 & _).
      eapply (Hobjs ob1); [eapply nth_error_In; eauto| |exact P4].
      eapply picked_rays; [exact Hmk1|]. apply Hpick; auto. }
    assert (Eownj : nth_error (concat (map k_own blocks)) j = nth_error (k_own k) r).
    { assert (El : map (@length Z) (map k_own blocks) = sc).
      { unfold sc, strong_counts. rewrite map_map. apply map_ext_in. auto. }
      rewrite Ej, <- El. apply concat_at; [rewrite nth_error_map, Ek; auto|]. rewrite Lown by auto. lia. }
    assert (Hrelk : forall k1, In k1 blocks -> length (k_rel k1) = nsurf /\
       forall r1, In r1 (k_rel k1) -> length r1 = length (nonzero (map negb (k_weak k1)))).
    { intros k1 Hk1. destruct (Hinb k1 Hk1) as (ik1 & Hik1 & <-). destruct (Hbk ik1 Hik1) as (f1 & (sk1 & Hsk1 & Hf1) & Ef1).
      destruct (bf_obj _ _ _ _ _ _ _ _ _ _ _ _ Hf1) as (oi1 & ob1 & ri1 & owns1 & next1 & _ & P2 & _ & _ & _ & _ & P7).
      destruct (relevancy_block_spec objs oi1 ob1 _ _ _ P2 P7) as (Q1 & Q2 & _). split; auto. lia. }
    destruct (hstack_nth nsurf (map k_rel blocks)) as (Lh & Hh).
    { intros m0 Hm0. apply in_map_iff in Hm0. destruct Hm0 as (k1 & <- & Hk1). apply Hrelk; auto. }
    destruct (relevancy_block_spec objs oi ob _ _ _ O2 O7) as (Q1 & Q2 & Q3).
    assert (Erelj : forall i', i' < nsurf -> at2 (hstack_rows nsurf (map k_rel blocks)) i' j = at2 (k_rel k) i' r).
    { intros i' Hi'. destruct (Hh i' Hi') as (rs & Ers & Eh). unfold at2 at 1. rewrite Eh.
      rewrite map_map in Ers.
      assert (Lrs : map (@length bool) rs = sc).
      { unfold sc, strong_counts. clear -Ers Hrelk. revert rs Ers.
        induction blocks as [|k1 ks IH]; intros [|r1 rs] E; simpl in *; try discriminate; auto.
        injection E as E1 E2. f_equal; [|apply IH; auto].
        apply (Hrelk k1 (or_introl eq_refl)). eapply nth_error_In; eauto. }
      assert (Er1 : nth_error (map (fun k => nth_error (k_rel k) i') blocks) a = Some (nth_error (k_rel k) i'))
        by (rewrite nth_error_map, Ek; auto).
      rewrite Ers, nth_error_map in Er1. destruct (nth_error rs a) as [r1|] eqn:Era; [|discriminate].
      simpl in Er1. injection Er1 as Er1. unfold at2. rewrite <- Er1. rewrite Ej, <- Lrs. apply concat_at; auto.
      assert (nth_error (map (@length bool) rs) a = Some (length r1)) by (rewrite nth_error_map, Era; auto).
      rewrite Lrs, Ena in H0. injection H0 as <-. auto. }
    assert (Lowns : length owns = na).
    { eapply (Hobjs ob); [eapply nth_error_In; eauto|exact Hsr|exact O4]. }
    intros i'. unfold may_test, next_surfaces. rewrite Eownj, O5, nth_error_map. split.
    + intros (so & o & S1 & S2 & S3 & S4). exists so. split; auto.
      destruct (nth_error owns r) as [w|] eqn:Ew; [|discriminate]. simpl in S2. injection S2 as <-.
      assert (Hi' : i' < nsurf).
      { rewrite Hns. apply nth_error_Some. congruence. }
      rewrite Erelj in S4 by auto. split.
      * intros E. injection E as ->. destruct S3 as [S3|S3]; lia.
      * intros ->. unfold at2 in S4. rewrite (Q3 i' oi S1), Nat.eqb_refl in S4. exact S4.
    + intros (oj & S1 & S2 & S3).
      destruct (nth_error owns r) as [w|] eqn:Ew; [|apply nth_error_None in Ew; lia].
      exists oj. eexists. split; [exact S1|]. split; [reflexivity|].
      assert (Hi' : i' < nsurf).
      { rewrite Hns. apply nth_error_Some. congruence. }
      rewrite Erelj by auto. split.
      * destruct w; auto. right. rewrite S2; auto.
      * unfold at2. rewrite (Q3 i' oj S1). destruct (Nat.eqb_spec oi oj) as [<-|Hne].
        -- apply S3; auto.
        -- apply nth_error_repeat_lt. lia.
  - (* energy *)
    intros Hem Hnt j e He Hpos.
    rewrite (energy_from_concat (map k_rec blocks) rc j).
    2:{ intros b Hb. apply in_map_iff in Hb. destruct Hb as (k & <- & Hk).
        destruct (Hinb k Hk) as (ik & Hik & <-). destruct (Hbk ik Hik) as (f & (sk & Hsk & Hf) & Ef).
        destruct (bf_m _ _ _ _ _ _ _ _ _ _ _ _ Hf) as (mk & Q1 & Q2 & _ & Q4). exists mk.
        pose proof (bf_par _ _ _ _ _ _ _ _ _ _ _ _ Hf). auto. }
    2: exact Hrec.
    assert (Hz : forall ik, In ik ibs -> at2 fr (fst ik) j <> Some true -> energy_from (k_rec (snd ik)) j = 0%R).
    { intros ik Hik Hn0. destruct (Hbk ik Hik) as (f & (sk & Hsk & Hf) & Ef).
      destruct (bf_m _ _ _ _ _ _ _ _ _ _ _ _ Hf) as (mk & _ & Q2 & _).
      apply (energy_from_picked_none _ mk); auto. intros q p Hq ->.
      destruct (bf_child _ _ _ _ _ _ _ _ _ _ _ _ Hf q j Hq) as (t & v & d & F1 & _).
      apply Hn0. unfold at2. rewrite Ef. auto. }
    assert (Hle : forall ik, In ik ibs -> (energy_from (k_rec (snd ik)) j <= e)%R).
    { intros ik Hik. destruct (Hbk ik Hik) as (f & (sk & Hsk & Hf) & Ef).
      destruct (at2 fr (fst ik) j) as [[|]|] eqn:Ea.
      - unfold at2 in Ea. rewrite Ef in Ea. apply (bf_energy _ _ _ _ _ _ _ _ _ _ _ _ Hf Hem j e); auto.
      - rewrite Hz; auto. congruence.
      - rewrite Hz; auto. congruence. }
    assert (Huniq : forall ik ik', In ik ibs -> In ik' ibs -> at2 fr (fst ik) j = Some true ->
               at2 fr (fst ik') j = Some true -> fst ik = fst ik').
    { intros ik ik' _ _ H1 H2. apply Hfirst in H1, H2. destruct H1 as (t & H1), H2 as (t' & H2). eapply Hnt; eauto. }
    rewrite Hbl, !map_map. clear -Hz Hle Huniq Hnd Hpos.
    induction ibs as [|ik ibs IH]; [simpl; auto|]. rewrite map_cons, sum_R_cons.
    simpl in Hnd. inversion Hnd as [|x l Hx Hnd']; subst.
    assert (IH' : at2 fr (fst ik) j <> Some true ->
       (energy_from (k_rec (snd ik)) j + sum_R (map (fun x => energy_from (k_rec (snd x)) j) ibs) <= e)%R).
    { intros Hn0. rewrite (Hz ik) by (simpl; auto). rewrite Rplus_0_l. apply IH; auto.
      * intros; apply Hz; simpl; auto.
      * intros; apply Hle; simpl; auto.
      * intros; apply Huniq; simpl; auto. }
    destruct (at2 fr (fst ik) j) as [[|]|] eqn:Ea; try (apply IH'; discriminate).
    assert (E0 : sum_R (map (fun x => energy_from (k_rec (snd x)) j) ibs) = 0%R).
    { apply sum_R_zero. intros y Hy. apply in_map_iff in Hy. destruct Hy as (x & <- & Hin).
      apply Hz; [right; auto|]. intros F. apply Hx.
      rewrite (Huniq ik x); simpl; auto. apply in_map; auto. }
    rewrite E0. specialize (Hle ik (or_introl eq_refl)). lra.
Qed.

End Trace.
