(** Traces that cannot raise. *)
From Coq Require Import Reals String List Arith ZArith Bool Lia Lra Permutation.
From Verif.Base Require Import Py Num Vec.
From Verif.Model Require Import RayBundle TraceTree Engine.
From Verif.Spec Require Import BundleSpec EngineSpec.
From Verif.Proof Require Import ListLemmas NumLemmas BundleProof IntersectProof ProcessProof IterProof
  TraceProof TreeProof EngineMore.
Import ListNotations.

Section Progress.
Context {S G : Type}.
Variables (ops : surf_ops S G) (RP : ray_prop) (good : S -> Prop).
Hypothesis contract : surface_contract ops RP good.
Variable Q : bundle -> Prop.
Hypothesis Qset : forall a b, same_set a b -> Q b -> Q a.

Record surface_answers : Prop := {
  sa_register : forall s b n, good s -> traceable b n -> all_rays RP b -> Q b ->
    exists s1 ps, register_incoming ops s b = Ok (s1, ps) /\ length ps = n /\
      Forall (fun x => nlt x (Fin (- tenm 16)) = false) ps;
  sa_outgoing : forall s b n s1 ps idx, good s -> traceable b n -> all_rays RP b -> Q b ->
    register_incoming ops s b = Ok (s1, ps) -> NoDup idx -> idx <> [] ->
    (forall i, In i idx -> exists t, nth_error ps i = Some (Fin t)) ->
    exists s2, select_rays ops s1 idx = Ok s2 /\ forall g, exists o g1, get_outgoing ops s2 g = Ok (o, g1) }.
Hypothesis answering : surface_answers.

Variable objs : list obj.
Hypothesis Hobjs : forall ob, In ob objs -> object_contract ob.
Hypothesis Hanswer : forall ob, In ob objs -> object_answers ob.
Variable me : R.

Lemma put_mask_forall {A} (P : A -> Prop) m : forall base vals,
  Forall P base -> Forall P vals -> Forall P (put_mask m base vals).
Proof.
  induction m as [|b m IH]; intros base vals Hb Hv; [exact Hb|].
  destruct base as [|x base]; [exact Hb|]. cbn [put_mask]. inversion Hb; subst.
  destruct b; [destruct vals as [|v vals]|]; try inversion Hv; subst; constructor; auto.
Qed.
Lemma repeat_forall {A} (P : A -> Prop) x n : P x -> Forall P (repeat x n).
Proof. intros H. induction n; simpl; constructor; auto. Qed.
Lemma zero_ok : nlt (Fin 0) (Fin (- tenm 16)) = false.
Proof. cbn [nlt]. apply Rltb_false. pose proof (tenm_pos 16). lra. Qed.

Lemma test_surface_answers b n own s so rel : good s -> traceable b n -> all_rays RP b -> Q b ->
  length own = n -> length rel = n ->
  exists s' row ow, test_surface ops b n own s so rel = Ok (s', row, ow) /\ length row = n /\
    Forall (fun x => nlt x (Fin (- tenm 16)) = false) row.
Proof.
  intros Hg Ht Ha HQ Lo Lr. pose proof Ht as (Hn & Hr & _). unfold test_surface.
  rewrite (proj2 (Nat.eqb_eq _ _) Lo), (proj2 (Nat.eqb_eq _ _) Lr). cbn [andb negb].
  set (ow := owned_row own so rel). assert (Lw : length ow = n) by (apply owned_row_length; auto).
  destruct (any ow) eqn:Ea; cbn [negb].
  2:{ eexists _, _, _. split; [reflexivity|]. split; [apply repeat_length|]. apply repeat_forall, zero_ok. }
  assert (Hsub : exists sub, (if any (map negb ow) then inherit b (SMask ow) no_bundle else Ok b) = Ok sub /\
             names_ok sub /\ rays_picked b (nonzero ow) sub).
  { destruct (any (map negb ow)) eqn:En.
    - destruct (inherit_total b (SMask ow) no_bundle Hn) as (sub & Es).
      { intros p l _ Hp. simpl. rewrite (proj2 Hr p l Hp). auto. }
      exists sub. split; auto. split; [eapply inherit_names; [exact Hn| |exact Es]; constructor|].
      intros p. pose proof (inherit_sound _ _ _ _ Es p) as Hs. rewrite prop_no_bundle in Hs.
      unfold inh in Hs. destruct (prop b p) as [l|] eqn:Ep; auto.
      destruct Hs as (l' & E & _ & Hp). exists l'. split; auto.
      destruct Hr as (_ & Hr). rewrite (Hr _ _ Ep) in Hp. rewrite mask_positions in Hp; auto.
    - exists b. split; auto. split; auto. intros p. destruct (prop b p) as [l|] eqn:Ep; auto.
      exists l; split; auto. rewrite (nonzero_all ow En), Lw.
      destruct Hr as (_ & Hr). rewrite <- (Hr _ _ Ep). apply picks_seq. }
  destruct Hsub as (sub & -> & Hsn & Hsp). cbn [bind].
  assert (Hts : traceable sub (length (nonzero ow))) by exact (picked_traceable b _ sub n Ht Hsn Hsp).
  destruct (sa_register answering s sub _ Hg Hts (picked_all RP b _ sub n Ht Hts Hsp Ha)) as (s1 & ps & -> & Lp & Hps).
  { apply (Qset sub b); auto. intros p _. symmetry. apply (picked_none _ _ _ _ Hsp). }
  cbn [bind]. unfold count_true. rewrite (proj2 (Nat.eqb_eq _ _) Lp).
  eexists _, _, _. split; [reflexivity|]. split; [rewrite put_mask_length, repeat_length; auto|].
  apply put_mask_forall; auto. apply repeat_forall, zero_ok.
Qed.

Lemma test_surfaces_answers b n own : traceable b n -> all_rays RP b -> Q b -> length own = n ->
  forall surfs sown rel, (forall s, In s surfs -> good s) -> length sown = length surfs ->
  length rel = length surfs -> Forall (fun r => length r = n) rel ->
  exists ss rows ows, test_surfaces ops b n own surfs sown rel = Ok (ss, rows, ows) /\ length rows = length surfs /\
    Forall (Forall (fun x => nlt x (Fin (- tenm 16)) = false)) rows.
Proof.
  intros Ht Ha HQ Lo. induction surfs as [|s surfs IH]; intros sown rel Hg Ls Lr Hf; cbn [test_surfaces].
  - eexists _, _, _. split; [reflexivity|]. split; auto.
  - destruct sown as [|so sown]; [discriminate|]. destruct rel as [|r rel]; [discriminate|]. inversion Hf; subst.
    destruct (test_surface_answers b (length own) own s so r (Hg s (or_introl eq_refl)) Ht Ha HQ eq_refl H1)
      as (s' & row & ow & -> & L1 & P1). cbn [bind].
    destruct (IH sown rel) as (ss & rows & ows & -> & L2 & P2); auto.
    { intros; apply Hg; right; auto. }
    cbn [bind]. eexists _, _, _. split; [reflexivity|]. split; [simpl; lia|]. constructor; auto.
Qed.

Lemma intersect_answers b n surfs sown own rel : traceable b n -> all_rays RP b -> Q b ->
  (forall s, In s surfs -> good s) -> surfs <> [] -> fits (length surfs) n sown own rel ->
  exists r, intersect_ray ops b surfs sown own rel = Ok r.
Proof.
  intros Ht Ha HQ Hg Hne (Ls & Lo & Lr & Hf). unfold intersect_ray.
  rewrite (rays_num b n) by apply Ht. cbn [bind].
  destruct (test_surfaces_answers b n own Ht Ha HQ Lo surfs sown rel Hg Ls Lr Hf) as (ss & rows & ows & -> & L & P).
  cbn [bind].
  assert (E : any2 (fun x => nlt x (Fin (- tenm 16))) rows = false).
  { unfold any2. apply not_true_iff_false. intros E. apply existsb_exists in E as (r & Hr & E).
    apply existsb_exists in E as (x & Hx & E). rewrite Forall_forall in P. specialize (P r Hr).
    rewrite Forall_forall in P. rewrite (P x Hx) in E. discriminate. }
  rewrite E. destruct (clear_zeros rows) as [|r0 rs] eqn:Ec.
  - exfalso. assert (length (clear_zeros rows) = length rows).
    { rewrite clear_zeros_map. apply map_length. }
    rewrite Ec in H. simpl in H. destruct surfs; [congruence|]. simpl in L. lia.
  - cbn [col_min bind]. eauto.
Qed.

Lemma process_surface_answers b n T i s s1 g f ow :
  good s -> answers ops b n T i s s1 -> traceable b n -> all_rays RP b -> Q b ->
  length f = n -> length ow = n ->
  (forall j, nth_error ow j = Some true <-> j < n /\ T i j <> None) ->
  (forall j, nth_error f j = Some true -> exists t, T i j = Some (Fin t)) ->
  i < length (surf_ownership objs) ->
  exists r, process_surface ops objs me i s1 g f ow = Ok r.
Proof.
  intros Hg Ha Ht Hall HQ Lf Lo Ho Hf Hi. unfold process_surface.
  assert (Easked : asked T n i = nonzero ow).
  { unfold asked. rewrite nonzero_filter, Lo. apply filter_ext_in. intros j Hj. apply in_seq in Hj.
    destruct (nth_error ow j) as [o|] eqn:E; [|apply nth_error_None in E; lia].
    erewrite nth_error_nth by eauto. destruct (T i j) eqn:ET.
    - assert (nth_error ow j = Some true) by (apply Ho; split; [lia|congruence]). congruence.
    - destruct o; auto. apply Ho in E. destruct E; congruence. }
  assert (Hint : forall q, nth_error (mask_select ow f) q = Some true <->
            exists j, nth_error (nonzero ow) q = Some j /\ nth_error f j = Some true).
  { intros q. rewrite mask_select_nth by congruence. destruct (nth_error (nonzero ow) q) as [j|].
    - split; [eauto|]. intros (j' & E & Hj). congruence.
    - split; [discriminate|]. intros (j' & E & _). discriminate. }
  destruct (any (mask_select ow f)) eqn:Ea; cbn [negb]; [|eauto].
  assert (Hq0 : exists q, In q (nonzero (mask_select ow f))).
  { apply any_true in Ea. apply In_nth_error in Ea. destruct Ea as (q & Hq). exists q. apply nonzero_spec. auto. }
  destruct Ha as [(E0 & _)|(_ & sub & params & Hsn & Hsub & Hreg & HT)].
  { exfalso. destruct Hq0 as (q & Hq). apply nonzero_spec, Hint in Hq. destruct Hq as (j & Hq & _).
    rewrite Easked in E0. rewrite E0 in Hq. destruct q; discriminate. }
  rewrite Easked in Hsub, HT.
  assert (Htsub : traceable sub (length (nonzero ow))) by exact (picked_traceable b _ sub n Ht Hsn Hsub).
  assert (Hasub : all_rays RP sub) by exact (picked_all RP b _ sub n Ht Htsub Hsub Hall).
  assert (HQsub : Q sub).
  { apply (Qset sub b); auto. intros p _. symmetry. apply (picked_none _ _ _ _ Hsub). }
  assert (Hps : forall q, In q (nonzero (mask_select ow f)) -> exists t, nth_error params q = Some (Fin t)).
  { intros q Hq. apply nonzero_spec, Hint in Hq. destruct Hq as (j & Hq & Hj).
    destruct (Hf j Hj) as (t & Et). exists t. rewrite Forall2_nth in HT. destruct HT as (LT & HT).
    destruct (nth_error params q) as [x|] eqn:Ex.
    - specialize (HT q j x Hq Ex). congruence.
    - apply nth_error_None in Ex. assert (q < length (nonzero ow)) by (apply nth_error_Some; congruence). lia. }
  assert (Hne : nonzero (mask_select ow f) <> []).
  { destruct Hq0 as (q & Hq). intros E. rewrite E in Hq. destruct Hq. }
  destruct (sa_outgoing answering s sub _ s1 params (nonzero (mask_select ow f)) Hg Htsub Hasub HQsub Hreg
     (nonzero_NoDup _) Hne Hps) as (s3 & Esel & Hout).
  rewrite Esel. cbn [bind]. destruct (Hout g) as (o & g1 & Eout). rewrite Eout. cbn [bind].
  destruct (sc_outgoing _ _ _ contract s sub (length (nonzero ow)) s1 params
              (nonzero (mask_select ow f)) s3 g o g1 Hg Htsub Hasub Hreg
              (nonzero_NoDup _) Hne Hps Esel Eout) as (m & Hto & Hro & Hso & Hpo & Hch & Hcov).
  unfold get_parents. destruct (b_parents o) as [ps|] eqn:Eps; [|congruence]. cbn [get_prop select bind].
  assert (Lps : length ps = m).
  { destruct Hto as (_ & (_ & Hr) & _). specialize (Hr Parents (map PNat ps)).
    simpl in Hr. rewrite Eps in Hr. simpl in Hr. rewrite map_length in Hr. auto. }
  destruct (take_total (nonzero ow) ps) as (parents & Epar).
  { apply Forall_forall. intros p Hp. apply In_nth_error in Hp. destruct Hp as (k & Hk).
    assert (Hkm : k < m) by (rewrite <- Lps; apply nth_error_Some; congruence).
    destruct (Hch k Hkm) as (p1 & t & v & d & E1 & E2 & _).
    unfold parent_at in E1. rewrite Eps in E1. cbn [at_col] in E1. assert (p1 = p) by congruence. subst p1.
    apply nonzero_spec, Hint in E2. destruct E2 as (j & E2 & _). apply nth_error_Some. congruence. }
  rewrite Epar. cbn [bind].
  assert (Hpk : picks (nonzero ow) ps parents) by (apply take_ok; auto).
  assert (Lpar : length parents = m) by (rewrite (picks_length _ _ _ Hpk); auto).
  set (rc := set_parents parents o) in *.
  assert (Htr : traceable rc m) by (apply set_parents_traceable; auto).
  unfold get_energy. destruct (b_energy rc) as [es|] eqn:Ees; [|exfalso; apply Htr; auto].
  cbn [get_prop select bind].
  set (w := map (fun x => Rleb x me) es) in *.
  assert (Hstr : exists strong k, (if any w then delete_rays rc (nonzero w) else Ok rc) = Ok strong /\ rays strong k).
  { destruct (any w).
    - destruct (delete_rays_spec rc m (nonzero w)) as (b' & Eb & Hb); try apply Htr.
      exists b'. eexists. split; auto. exact (picked_rays rc _ b' m (proj1 (proj2 Htr)) Hb).
    - exists rc, m. split; auto. apply Htr. }
  destruct Hstr as (strong & ns & -> & Hrs). cbn [bind].
  unfold take1. destruct (nth_error (surf_ownership objs) i) as [oi|] eqn:Eoi; [|apply nth_error_None in Eoi; lia].
  cbn [bind]. pose proof Eoi as Eoi'. apply surf_ownership_nth in Eoi'. destruct Eoi' as (ob & Eob & Hu).
  rewrite Eob. cbn [bind].
  assert (Hob : In ob objs) by (eapply nth_error_In; eauto).
  destruct (Hanswer ob Hob strong ns (i - surfs_until objs oi) Hrs) as (owns & next & -> & _ & -> & Ln & Hnx); [lia|].
  cbn [bind]. rewrite (rays_num _ _ Hrs). cbn [bind]. unfold relevancy_block, count_true.
  rewrite (nonzero_owner objs oi ob Eob), seq_length, (proj2 (Nat.eqb_eq _ _) Ln).
  assert (Hfb : forallb (fun r => Nat.eqb (length r) ns) next = true).
  { apply forallb_forall. intros r Hr. apply Nat.eqb_eq. rewrite Forall_forall in Hnx. auto. }
  rewrite Hfb. cbn [andb bind]. eauto.
Qed.

Lemma process_surfaces_answers b n T : traceable b n -> all_rays RP b -> Q b ->
  forall (surfs0 surfs : list S) frs owneds i g,
  (forall k s, nth_error surfs0 k = Some s -> good s /\ exists s1 f ow,
     nth_error surfs k = Some s1 /\ nth_error frs k = Some f /\ nth_error owneds k = Some ow /\
     answers ops b n T (i + k) s s1 /\ length f = n /\ length ow = n /\
     (forall j, nth_error ow j = Some true <-> j < n /\ T (i + k) j <> None) /\
     (forall j, nth_error f j = Some true -> exists t, T (i + k) j = Some (Fin t))) ->
  length surfs = length surfs0 -> i + length surfs <= length (surf_ownership objs) ->
  exists r, process_surfaces ops objs me i surfs g frs owneds = Ok r.
Proof.
  intros Ht Hall HQ. induction surfs0 as [|s0 surfs0 IH]; intros surfs frs owneds i g Hk Hl Hi.
  - destruct surfs; [|discriminate]. cbn [process_surfaces]. eauto.
  - destruct surfs as [|s1 surfs]; [discriminate|]. cbn [process_surfaces]. cbn [length] in Hi.
    destruct (Hk 0 s0 eq_refl) as (Hg & s1' & f & ow & E1 & E2 & E3 & Ha & Lf & Lo & Ho & Hf).
    simpl in E1. injection E1 as <-. destruct frs as [|f' frs]; [discriminate|]. destruct owneds as [|ow' owneds]; [discriminate|].
    simpl in E2, E3. injection E2 as ->. injection E3 as ->. rewrite Nat.add_0_r in *.
    destruct (process_surface_answers b n T i s0 s1 g f ow Hg Ha Ht Hall HQ Lf Lo Ho Hf ltac:(lia)) as ([[s2 g1] ob] & Ep).
    rewrite Ep. cbn [bind].
    destruct (IH surfs frs owneds (Datatypes.S i) g1) as ([[ss g2] ks] & ->).
    { intros k s Hs. destruct (Hk (Datatypes.S k) s Hs) as (Hg' & s' & f0 & ow0 & A1 & A2 & A3 & A4).
      split; auto. exists s', f0, ow0. rewrite <- plus_n_Sm in A4. simpl in *. auto. }
    { simpl in Hl; lia. } { lia. }
    cbn [bind]. eauto.
Qed.

Lemma concat_blocks (h : block -> bundle) blocks :
  (forall k, In k blocks -> names_ok (h k)) ->
  (forall k k' p, In k blocks -> In k' blocks -> (prop (h k) p = None <-> prop (h k') p = None)) ->
  exists rc, concatenate_rays (map h blocks) = Ok rc.
Proof.
  intros Hn Hu. destruct blocks as [|k0 ks]; [exists empty_bund; reflexivity|]. cbn [map]. apply concat_total.
  - intros b [<-|Hb]; [apply Hn; left; auto|]. apply in_map_iff in Hb. destruct Hb as (k & <- & Hk). apply Hn; right; auto.
  - intros b p Hb. apply in_map_iff in Hb. destruct Hb as (k & <- & Hk). apply Hu; simpl; auto.
Qed.

Lemma iteration_answers ta st n :
  traceable (t_bund st) n -> all_rays RP (t_bund st) -> Q (t_bund st) ->
  (forall s, In s (t_surfs st) -> good s) -> t_surfs st <> [] ->
  length (t_surfs st) = length (surf_ownership objs) ->
  fits (length (t_surfs st)) n (surf_ownership objs) (t_own st) (t_rel st) ->
  exists st' go, iteration ops objs me ta st = Ok (st', go) /\
    (go = true -> forall n', rays (t_bund st') n' ->
       fits (length (t_surfs st)) n' (surf_ownership objs) (t_own st') (t_rel st')).
Proof.
  intros Ht Hall HQ Hgood Hne Hns Hfit. unfold iteration.
  destruct (intersect_answers (t_bund st) n (t_surfs st) (surf_ownership objs) (t_own st) (t_rel st) Ht Hall HQ Hgood Hne Hfit)
    as ([[ss fr] owned] & Ei). rewrite Ei. cbn [bind].
  destruct (intersect_ray_facts ops _ n _ _ _ _ _ _ _ (proj1 (proj2 Ht)) (proj1 Ht) Ei) as (T & IF).
  destruct IF as [(L1 & L2 & L3) Hrows Howned Htested Hrange Hans Hfirst Hsown Hnn].
  set (nsurf := length (t_surfs st)) in *.
  assert (Hpre : forall k s, nth_error (t_surfs st) k = Some s -> good s /\ exists s1 f ow,
     nth_error ss k = Some s1 /\ nth_error fr k = Some f /\ nth_error owned k = Some ow /\
     answers ops (t_bund st) n T (0 + k) s s1 /\ length f = n /\ length ow = n /\
     (forall j, nth_error ow j = Some true <-> j < n /\ T (0 + k) j <> None) /\
     (forall j, nth_error f j = Some true -> exists t, T (0 + k) j = Some (Fin t))).
  { intros k s Hs. split; [apply Hgood; eapply nth_error_In; eauto|].
    assert (Hk : k < nsurf) by (apply nth_error_Some; congruence).
    destruct (Hans k s Hs) as (s1 & Es1 & Ha). destruct (Hrows k Hk) as (f & o & Ef & Eo & Lf & Lo).
    exists s1, f, o. simpl. do 6 (split; [assumption|]). split.
    - intros j. specialize (Howned k j). unfold at2 in Howned. rewrite Eo in Howned. tauto.
    - intros j Hj. specialize (Hfirst k j). unfold at2 in Hfirst. rewrite Ef in Hfirst.
      apply Hfirst in Hj. destruct Hj as (t & Hm). exists t. apply Hm. }
  destruct (process_surfaces_answers (t_bund st) n T Ht Hall HQ (t_surfs st) ss fr owned 0 (t_g st) Hpre L1 ltac:(simpl; lia))
    as ([[ss2 g2] blocks] & Ep). rewrite Ep. cbn [bind].
  destruct (process_surfaces_facts ops RP good contract objs me (t_bund st) n T Ht Hall
              (t_surfs st) ss fr owned 0 (t_g st) ss2 g2 blocks Ep Hpre L1) as (-> & ibs & Hbl & Hnd & Hib & Hcov).
  assert (Hbk : forall k, In k blocks -> exists i f s, block_facts ops RP good objs me (t_bund st) n s T i f k).
  { intros k Hk. rewrite Hbl in Hk. apply in_map_iff in Hk. destruct Hk as (a & <- & Ha).
    destruct (Hib a Ha) as (k & f & s & E & _ & _ & Hf). eauto. }
  clear Hib.
  assert (Huni : forall k k' p, In k blocks -> In k' blocks ->
     (prop (k_rec k) p = None <-> prop (k_rec k') p = None)).
  { intros k k' p Hk Hk'. destruct (Hbk k Hk) as (i & f & s & Hf). destruct (Hbk k' Hk') as (i' & f' & s' & Hf').
    apply (same_set_trans_props (t_bund st)).
    - exact (bf_set _ _ _ _ _ _ _ _ _ _ _ _ Hf).
    - exact (bf_set _ _ _ _ _ _ _ _ _ _ _ _ Hf').
    - exact (bf_par _ _ _ _ _ _ _ _ _ _ _ _ Hf).
    - exact (bf_par _ _ _ _ _ _ _ _ _ _ _ _ Hf'). }
  assert (Hpick : forall k, In k blocks -> rays_picked (k_rec k) (nonzero (map negb (k_weak k))) (k_strong k)).
  { intros k Hk. destruct (Hbk k Hk) as (i & f & s & Hf). exact (bf_strong _ _ _ _ _ _ _ _ _ _ _ _ Hf). }
  assert (Hn1 : forall k, In k blocks -> names_ok (k_rec k)).
  { intros k Hk. destruct (Hbk k Hk) as (i & f & s & Hf).
    destruct (bf_m _ _ _ _ _ _ _ _ _ _ _ _ Hf) as (m & Hm). apply Hm. }
  assert (Hn2 : forall k, In k blocks -> names_ok (k_strong k)).
  { intros k Hk. destruct (Hbk k Hk) as (i & f & s & Hf). exact (bf_names _ _ _ _ _ _ _ _ _ _ _ _ Hf). }
  destruct (concat_blocks k_strong blocks Hn2) as (bund & Eb).
  { intros k k' p Hk Hk'. rewrite <- (picked_none _ _ _ p (Hpick k Hk)), <- (picked_none _ _ _ p (Hpick k' Hk')). auto. }
  destruct (concat_blocks k_rec blocks Hn1 Huni) as (rc & Erc).
  rewrite Eb, Erc. cbn [bind].
  assert (Hms : exists ms, Forall2 (fun k m => rays (k_rec k) m) blocks ms /\ Forall2 (fun k m => length (k_weak k) = m) blocks ms).
  { clear -Hbk. induction blocks as [|k ks IH]; [exists []; split; constructor|].
    destruct IH as (ms & I1 & I2); [intros; apply Hbk; right; auto|].
    destruct (Hbk k (or_introl eq_refl)) as (i & f & s & Hf).
    destruct (bf_m _ _ _ _ _ _ _ _ _ _ _ _ Hf) as (m & Hm).
    destruct (bf_weak _ _ _ _ _ _ _ _ _ _ _ _ Hf) as (es & Ees & Ew).
    exists (m :: ms). split; constructor; auto; [apply Hm|]. rewrite Ew, map_length.
    destruct Hm as (_ & (_ & Hr) & _). specialize (Hr Energy (map PReal es)). simpl in Hr.
    rewrite Ees in Hr. simpl in Hr. rewrite map_length in Hr. auto. }
  destruct Hms as (ms & Hms & Hwk).
  assert (Hnames : forall k, In k blocks -> names_ok (k_rec k) /\ names_ok (k_strong k)) by auto.
  pose proof (rec_rays blocks ms Hms Hnames rc Erc) as Hrr.
  pose proof (rec_names blocks Hnames rc Erc) as Hrn.
  pose proof (bund_names blocks Hnames bund Eb) as Hbn.
  pose proof (length_W blocks ms Hwk) as HlW. unfold W in HlW.
  pose proof (bund_rays blocks ms Hms Hnames Hpick bund Eb) as Hbr.
  assert (Htree : exists tr, (match ta with
         | TreeFalse => Ok (t_tree st)
         | _ => k <- get_num_rays rc ;; (if Nat.eqb k 0 then Ok (t_tree st) else
             weak <- inherit rc (SIdx (nonzero (concat (map k_weak blocks)))) no_bundle ;;
             Ok (append (t_tree st) (add_bundles bund weak))) end) = Ok tr).
  { destruct (inherit_total rc (SIdx (nonzero (concat (map k_weak blocks)))) no_bundle Hrn) as (wb & Ew).
    { intros p l _ Hp. cbn [sel_ok]. rewrite (proj2 Hrr p l Hp), <- HlW. intros j Hj.
      apply nonzero_spec in Hj. apply nth_error_Some. congruence. }
    rewrite (rays_num _ _ Hrr). cbn [bind]. rewrite Ew. cbn [bind].
    destruct ta; [destruct (Nat.eqb (total ms) 0)|destruct (Nat.eqb (total ms) 0)|]; eauto. }
  destruct Htree as (tr & Etr).
  match goal with |- context[bind ?x _] => replace x with (Ok tr) by (symmetry; exact Etr) end. cbn [bind].
  rewrite (rays_num _ _ Hbr). cbn [bind].
  destruct (Nat.eqb_spec (total (strong_counts blocks)) 0) as [E0|N0].
  { eexists _, _. split; [reflexivity|]. discriminate. }
  eexists _, _. split; [reflexivity|]. intros _ n' Hn'. cbn [t_bund t_own t_rel] in *.
  assert (n' = total (strong_counts blocks)) as ->.
  { destruct Hbr as ((l & El) & Hl). rewrite <- (Hl _ _ El). symmetry. exact (proj2 Hn' _ _ El). }
  assert (Hblk : forall k, In k blocks ->
    length (k_own k) = length (nonzero (map negb (k_weak k))) /\
    length (k_rel k) = nsurf /\ (forall r, In r (k_rel k) -> length r = length (nonzero (map negb (k_weak k))))).
  { intros k Hk. destruct (Hbk k Hk) as (i & f & s & Hf).
    destruct (bf_obj _ _ _ _ _ _ _ _ _ _ _ _ Hf) as (oi & ob & ri & owns & next & _ & Eob & _ & Eown & Ek & _ & Erel).
    destruct (bf_m _ _ _ _ _ _ _ _ _ _ _ _ Hf) as (m & Hm).
    destruct (relevancy_block_spec objs oi ob _ next (k_rel k) Eob Erel) as (Lr & Hr & _).
    split; [|split; auto; congruence]. rewrite Ek, map_length.
    apply (Hobjs ob (nth_error_In _ _ Eob) (k_strong k) _ ri owns); auto.
    exact (picked_rays (k_rec k) _ _ m (proj1 (proj2 Hm)) (Hpick k Hk)). }
  split; [auto|]. split; [|split].
  - clear -Hblk. unfold strong_counts, total. induction blocks as [|k ks IH]; simpl; auto.
    rewrite app_length, (proj1 (Hblk k (or_introl eq_refl))).
    rewrite IH; [reflexivity|intros; apply Hblk; right; auto].
  - apply hstack_nth. intros m Hm. apply in_map_iff in Hm. destruct Hm as (k & <- & Hk). apply Hblk; auto.
  - apply Forall_forall. intros r Hr. apply In_nth_error in Hr. destruct Hr as (i & Hi).
    destruct (hstack_nth nsurf (map k_rel blocks)) as (Lh & Hh).
    { intros m Hm. apply in_map_iff in Hm. destruct Hm as (k & <- & Hk). apply Hblk; auto. }
    destruct (Hh i) as (rs & E1 & E2); [rewrite <- Lh; apply nth_error_Some; congruence|].
    rewrite E2 in Hi. injection Hi as <-. clear -E1 Hblk. unfold strong_counts, total.
    revert rs E1. induction blocks as [|k ks IH]; intros [|r rs] E1; simpl in *; try discriminate; auto.
    injection E1 as E1 E3. rewrite app_length.
    rewrite (proj2 (proj2 (Hblk k (or_introl eq_refl))) r (nth_error_In _ _ E1)).
    rewrite (IH (fun k0 h => Hblk k0 (or_intror h)) rs E3). reflexivity.
Qed.

Lemma iterate_answers ta reps : forall st n,
  traceable (t_bund st) n -> all_rays RP (t_bund st) -> Q (t_bund st) ->
  (forall s, In s (t_surfs st) -> good s) -> t_surfs st <> [] ->
  length (t_surfs st) = length (surf_ownership objs) ->
  fits (length (t_surfs st)) n (surf_ownership objs) (t_own st) (t_rel st) ->
  exists st', iterate ops objs me ta reps st = Ok st' /\ (exists n', traceable (t_bund st') n') /\
    (1 <= reps -> exists recs rc, t_record st' = Some recs /\ concatenate_rays recs = Ok rc).
Proof.
  induction reps as [|reps IH]; intros st n Ht Ha HQ Hg Hne Hl Hf; cbn [iterate].
  { exists st. split; auto. split; [eauto|lia]. }
  destruct (iteration_answers ta st n Ht Ha HQ Hg Hne Hl Hf) as (st1 & go & E & Hgo). rewrite E. cbn [bind].
  destruct (iteration_facts ops RP good contract objs Hobjs me ta st st1 go n Ht Ha Hg Hl E) as (T & rc & m & wk & IF).
  pose proof (it_bund_ok _ _ _ _ _ _ _ _ _ _ _ _ _ _ IF) as Hb.
  destruct (it_record _ _ _ _ _ _ _ _ _ _ _ _ _ _ IF) as (recs & Er1 & Er2).
  destruct go; [|exists st1; split; auto; split; [eauto|]; intros _; exists recs, rc; auto].
  pose proof (it_surfs _ _ _ _ _ _ _ _ _ _ _ _ _ _ IF) as Es.
  pose proof (it_bund _ _ _ _ _ _ _ _ _ _ _ _ _ _ IF) as Hpk.
  pose proof (it_rec _ _ _ _ _ _ _ _ _ _ _ _ _ _ IF) as Hrc.
  assert (Hm : m <> 0).
  { pose proof (it_go _ _ _ _ _ _ _ _ _ _ _ _ _ _ IF) as Eg.
    pose proof (it_len _ _ _ _ _ _ _ _ _ _ _ _ _ _ IF) as El. intros ->.
    destruct wk; [|discriminate]. discriminate. }
  destruct (IH st1 _ Hb) as (st2 & E2 & Ht2 & Hr2).
  - exact (picked_all RP rc _ _ m Hrc Hb Hpk (it_rp _ _ _ _ _ _ _ _ _ _ _ _ _ _ IF)).
  - apply (Qset _ (t_bund st)); auto. intros p Hp.
    rewrite <- (picked_none _ _ _ p Hpk). apply (it_set _ _ _ _ _ _ _ _ _ _ _ _ _ _ IF Hm); auto.
  - rewrite Es. auto.
  - rewrite Es. auto.
  - rewrite Es. auto.
  - rewrite Es. apply (Hgo eq_refl). apply Hb.
  - exists st2. split; auto. split; auto. intros _. destruct reps; [|apply Hr2; lia].
    cbn [iterate] in E2. injection E2 as <-. eauto.
Qed.

Theorem trace_answers ta reps surfs g b n :
  traceable b n -> all_rays RP b -> Q b ->
  (forall s, In s surfs -> good s) -> surfs <> [] -> length surfs = length (surf_ownership objs) ->
  1 <= reps \/ ta <> TreeFalse ->
  exists r, ray_tracer ops objs surfs g b reps me ta = Ok r.
Proof.
  intros Ht Ha HQ Hg Hne Hl Hr. unfold ray_tracer, start. rewrite (rays_num b n) by apply Ht. cbn [bind].
  match goal with |- context[iterate _ _ _ _ _ ?s] => set (st0 := s) end.
  destruct (iterate_answers ta reps st0 n) as (st & E & (n' & Hn') & Hrec); auto.
  { unfold st0. cbn [t_surfs t_own t_rel]. split; [auto|]. split; [apply repeat_length|].
    split; [apply repeat_length|]. apply Forall_forall. intros r H. apply repeat_spec in H. subst r. apply repeat_length. }
  rewrite E. cbn [bind].
  match goal with |- context[bind ?x _] => assert (Hx : exists st1, x = Ok st1 /\ t_bund st1 = t_bund st) end.
  { destruct ta; eauto. destruct Hr as [Hr|Hr]; [|congruence].
    destruct (Hrec Hr) as (recs & rc & -> & ->). cbn [bind]. eauto. }
  destruct Hx as (st1 & -> & Eb). cbn [bind].
  destruct Hn' as (_ & ((v & Ev) & _) & Hd & _). cbn [prop] in Ev. rewrite Eb.
  unfold get_vertices, get_directions.
  destruct (b_vert (t_bund st)); [|discriminate]. destruct (b_dir (t_bund st)); [|congruence].
  cbn [get_prop select bind]. eauto.
Qed.
End Progress.
