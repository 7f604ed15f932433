(** What [tree=False] leaves behind, compared with [tree=True]. *)
From Coq Require Import Reals List Arith ZArith Bool Lia Lra Permutation.
From Verif.Base Require Import Py Num Vec.
From Verif.Model Require Import RayBundle TraceTree Engine.
From Verif.Spec Require Import BundleSpec EngineSpec.
From Verif.Proof Require Import ListLemmas NumLemmas BundleProof IntersectProof ProcessProof IterProof TraceProof TreeProof
  EngineMore.
Import ListNotations.

Section TreeArg.
Context {S G : Type}.
Variable ops : surf_ops S G.
Variable RP : ray_prop.
Variable good : S -> Prop.
Hypothesis contract : surface_contract ops RP good.
Variable objs : list obj.
Hypothesis Hobjs : forall ob, In ob objs -> object_contract ob.
Variable me : R.

Lemma process_surface_weak idx s g f o s2 g2 k : process_surface ops objs me idx s g f o = Ok (s2, g2, Some k) ->
  exists es, b_energy (k_rec k) = Some es /\ length (k_weak k) = length es.
Proof.
  intros H. unfold process_surface in H. destruct (negb (any (mask_select o f))); [discriminate|].
  apply bind_ok in H. destruct H as (s1 & _ & H). apply bind_ok in H. destruct H as ([ou g1] & _ & H).
  apply bind_ok in H. destruct H as (ps & _ & H). apply bind_ok in H. destruct H as (pa & _ & H).
  apply bind_ok in H. destruct H as (es & Ee & H).
  repeat (apply bind_ok in H; destruct H as (? & _ & H)). injection H as <- <- <-. cbn [k_rec k_weak].
  exists es. rewrite map_length. unfold get_energy, get_prop in Ee.
  destruct (b_energy (set_parents pa ou)); [|discriminate]. cbn [select] in Ee. split; congruence.
Qed.

Lemma process_surfaces_weak ss : forall idx g frs os ss2 g2 ks,
  process_surfaces ops objs me idx ss g frs os = Ok (ss2, g2, ks) ->
  Forall (fun k => exists es, b_energy (k_rec k) = Some es /\ length (k_weak k) = length es) ks.
Proof.
  induction ss as [|s ss IH]; intros idx g frs os ss2 g2 ks H; cbn [process_surfaces] in H.
  - injection H as <- <- <-. constructor.
  - destruct frs as [|f frs]; [discriminate|]. destruct os as [|o os]; [discriminate|].
    apply bind_ok in H. destruct H as ([[s1 g1] k] & E1 & H).
    apply bind_ok in H. destruct H as ([[ss' g3] ks'] & E2 & H). injection H as <- <- <-.
    pose proof (IH _ _ _ _ _ _ _ E2) as HF. destruct k as [k|]; auto. constructor; auto.
    eapply process_surface_weak; eauto.
Qed.

Lemma concat_weak ks rc es : Forall (fun k => exists es, b_energy (k_rec k) = Some es /\ length (k_weak k) = length es) ks ->
  ks <> [] -> concatenate_rays (map k_rec ks) = Ok rc -> b_energy rc = Some es ->
  length (concat (map k_weak ks)) = length es.
Proof.
  intros HF Hne H He. destruct ks as [|k0 ks]; [congruence|].
  unfold concatenate_rays in H. cbn [map] in H. fold (map k_rec ks) in H.
  apply bind_ok in H. destruct H as (v & _ & H). apply bind_ok in H. destruct H as (d & _ & H).
  apply bind_ok in H. destruct H as (e & Ee & H). repeat (apply bind_ok in H; destruct H as (? & _ & H)).
  injection H as <-. cbn [b_energy] in He. subst e.
  change (k_rec k0 :: map k_rec ks) with (map k_rec (k0 :: ks)) in Ee. 
  assert (Ec : exists ls, mapM (fun b => get_prop (b_energy b) SAll) (map k_rec (k0 :: ks)) = Ok ls /\ es = concat ls).
  { unfold concat_prop in Ee. cbn [map] in Ee. destruct (b_energy (k_rec k0)) eqn:E0.
    - apply bind_ok in Ee. destruct Ee as (ls & El & Ee). injection Ee as <-. exists ls. split; auto.
    - discriminate. }
  destruct Ec as (ls & El & ->). apply mapM_ok in El. clear Hne Ee.
  remember (k0 :: ks) as l eqn:E. clear E k0 ks. revert ls El. induction HF as [|k l (es & Ek & Lk) HF IH]; intros ls El.
  - inversion El. reflexivity.
  - cbn [map] in El. inversion El as [|? y ? ys Hy HF2]; subst. cbn [map concat]. rewrite !app_length, (IH ys HF2).
    f_equal. unfold get_prop in Hy. rewrite Ek in Hy. cbn [select] in Hy. congruence.
Qed.

Lemma iteration_true ta st st' go n t :
  traceable (t_bund st) n -> all_rays RP (t_bund st) ->
  (forall s, In s (t_surfs st) -> good s) ->
  length (t_surfs st) = length (surf_ownership objs) ->
  iteration ops objs me TreeFalse st = Ok (st', go) ->
  exists t', iteration ops objs me ta (with_tree t st) = Ok (with_tree t' st', go).
Proof.
  intros Ht Hall Hg Hl H.
  destruct (iteration_facts ops RP good contract objs Hobjs me TreeFalse st st' go n Ht Hall Hg Hl H)
    as (T & rc & m & wk & F).
  destruct (it_record _ _ _ _ _ _ _ _ _ _ _ _ _ _ F) as (recs & Er & Ec).
  pose proof (it_rec _ _ _ _ _ _ _ _ _ _ _ _ _ _ F) as Hrc.
  unfold iteration in *. destruct st as [ss g b own rel tr rcd]. cbn [t_surfs t_g t_bund t_own t_rel t_tree t_record with_tree] in *.
  destruct (intersect_ray ops b ss (surf_ownership objs) own rel) as [[[ss1 fr] owned]|]; [|discriminate]. cbn [bind] in *.
  destruct (process_surfaces ops objs me 0 ss1 g fr owned) as [[[ss2 g2] bl]|] eqn:Ep; [|discriminate]. cbn [bind] in *.
  destruct (concatenate_rays (map k_strong bl)) as [bund|]; [|discriminate]. cbn [bind] in *.
  destruct (get_num_rays bund) as [k|]; [|discriminate]. cbn [bind] in *.
  assert (Erec : t_record st' = Some (map k_rec bl)) by (destruct (Nat.eqb k 0); injection H as <- <-; reflexivity).
  rewrite Erec in Er. injection Er as <-.
  assert (X : exists t', match ta with
         | TreeFalse => Ok t
         | _ =>
             rec <- concatenate_rays (map k_rec bl) ;;
             k <- get_num_rays rec ;;
             if Nat.eqb k 0 then Ok t else
             weak <- inherit rec (SIdx (nonzero (concat (map k_weak bl)))) no_bundle ;;
             Ok (append t (add_bundles bund weak))
         end = Ok t').
  { assert (Y : exists t', (rec <- concatenate_rays (map k_rec bl) ;;
             k <- get_num_rays rec ;;
             if Nat.eqb k 0 then Ok t else
             weak <- inherit rec (SIdx (nonzero (concat (map k_weak bl)))) no_bundle ;;
             Ok (append t (add_bundles bund weak))) = Ok t').
    { rewrite Ec. cbn [bind]. rewrite (rays_num rc m) by apply Hrc. cbn [bind].
      destruct (Nat.eqb_spec m 0) as [|Hm]; [eauto|].
      assert (Lw : length (concat (map k_weak bl)) = m).
      { destruct bl as [|k0 bl'] eqn:Ebl.
        - exfalso. cbn in Ec. injection Ec as <-. pose proof Hrc as (_ & R & _).
          pose proof (rays_num _ _ R) as N. cbn in N. injection N as N. subst m. apply Hm. reflexivity.
        - pose proof Hrc as (_ & (_ & R) & _ & He). destruct (b_energy rc) as [es|] eqn:Ees; [|congruence].
          rewrite (concat_weak (k0 :: bl') rc es); auto; [|eapply process_surfaces_weak; eauto|discriminate].
          specialize (R Energy (map PReal es)). cbn [prop] in R. rewrite Ees in R.
          specialize (R eq_refl). rewrite map_length in R. auto. }
      destruct (inherit_total rc (SIdx (nonzero (concat (map k_weak bl)))) no_bundle) as (w & ->).
      - apply Hrc.
      - intros p l _ Hp. cbn [sel_ok]. pose proof (nonzero_range (concat (map k_weak bl))) as NR.
        assert (length l = m). { destruct Hrc as (_ & (_ & R) & _). apply (R p l Hp). }
        rewrite Lw, <- H0 in NR. rewrite Forall_forall in NR. exact NR.
      - cbn [bind]. eauto. }
    destruct ta; eauto. }
  destruct X as (t' & X). exists t'. rewrite X. cbn [bind].
  destruct (Nat.eqb k 0); injection H as <- <-; reflexivity.
Qed.

Lemma iterate_true ta reps : forall st st' n t,
  traceable (t_bund st) n -> all_rays RP (t_bund st) ->
  (forall s, In s (t_surfs st) -> good s) ->
  length (t_surfs st) = length (surf_ownership objs) ->
  iterate ops objs me TreeFalse reps st = Ok st' ->
  exists t', iterate ops objs me ta reps (with_tree t st) = Ok (with_tree t' st').
Proof.
  induction reps as [|reps IH]; intros st st' n t Ht Hall Hg Hl H; cbn [iterate] in *.
  - injection H as <-. eauto.
  - apply bind_ok in H. destruct H as ([st1 go] & E & H).
    destruct (iteration_true ta st st1 go n t Ht Hall Hg Hl E) as (t1 & ->). cbn [bind].
    destruct (iteration_facts ops RP good contract objs Hobjs me TreeFalse st st1 go n Ht Hall Hg Hl E)
      as (T & rc & m & wk & F).
    destruct go.
    + pose proof (it_surfs _ _ _ _ _ _ _ _ _ _ _ _ _ _ F) as Es.
      apply (IH st1 st' (length (nonzero (map negb wk))) t1).
      * exact (it_bund_ok _ _ _ _ _ _ _ _ _ _ _ _ _ _ F).
      * eapply picked_all; [exact (it_rec _ _ _ _ _ _ _ _ _ _ _ _ _ _ F)
          |exact (it_bund_ok _ _ _ _ _ _ _ _ _ _ _ _ _ _ F)|exact (it_bund _ _ _ _ _ _ _ _ _ _ _ _ _ _ F)|exact (it_rp _ _ _ _ _ _ _ _ _ _ _ _ _ _ F)].
      * rewrite Es; auto.
      * rewrite Es; auto.
      * auto.
    + injection H as <-. eauto.
Qed.

Lemma entry_tree ta e : entry_ok ops RP good objs me ta e -> exists x, t_tree (e_post e) = t_tree (e_pre e) ++ x.
Proof.
  intros Hok. pose proof (it_tree _ _ _ _ _ _ _ _ _ _ _ _ _ _ Hok) as H.
  destruct ta; [| |exists []; rewrite app_nil_r; auto];
    (destruct (Nat.eqb (e_m e) 0); [exists []; rewrite app_nil_r; auto|destruct H as (lvl & -> & _); eauto]).
Qed.

Lemma run_grows ta n st es st' : run ops RP good objs me ta n st es st' -> forall k e, nth_error es k = Some e ->
  exists x, t_tree (e_pre e) = t_tree st ++ x.
Proof.
  induction 1 as [n st H|n st e Hok Ep En Eg|n st e es st' Hok Ep En Eg Hr IH]; intros k e1 H1.
  - destruct k; discriminate.
  - destruct k as [|[|k]]; try discriminate. injection H1 as <-. exists []. rewrite app_nil_r, Ep. auto.
  - destruct k as [|k]; cbn [nth_error] in H1.
    + injection H1 as <-. exists []. rewrite app_nil_r, Ep. auto.
    + destruct (IH k e1 H1) as (x & ->). destruct (entry_tree ta e Hok) as (y & ->). rewrite Ep, <- app_assoc. eauto.
Qed.

(** The bundle recorded last, unlike the level recorded last, has the rays in the
    order of emission. *)
Lemma last_recorded surfs g b n reps st0 st1 :
  traceable b n -> all_rays RP b -> (forall s, In s surfs -> good s) ->
  length surfs = length (surf_ownership objs) -> 1 <= reps ->
  start objs surfs g b TreeTrue = Ok st0 -> iterate ops objs me TreeTrue reps st0 = Ok st1 ->
  exists recs rc m, t_record st1 = Some recs /\ concatenate_rays recs = Ok rc /\ traceable rc m /\
    (m = 0 \/ exists before lvl idx, t_tree st1 = before ++ [lvl] /\ before <> [] /\
       rays_picked rc idx lvl /\ Permutation idx (seq 0 m)).
Proof.
  intros Ht Hall Hg Hl Hr E0 E1. unfold start in E0. apply bind_ok in E0. destruct E0 as (k & _ & E0).
  injection E0 as <-.
  edestruct (iterate_run ops RP good contract objs Hobjs me TreeTrue reps) with (st' := st1) (n := n)
    as (es & Hrun & Hle & Hlast); [| | | |exact E1|]; [exact Ht|exact Hall|exact Hg|exact Hl|].
  destruct (run_final _ _ _ _ _ _ _ _ _ _ Hrun) as [(-> & _)|(q & e & Hne & Hq & Eq & ->)].
  { destruct Hlast as (e & He & _); [cbn; lia|]. discriminate. }
  destruct (run_entries _ _ _ _ _ _ _ _ _ _ Hrun q e Eq) as (Hok & _).
  destruct (run_grows _ _ _ _ _ Hrun q e Eq) as (x & Ex).
  destruct (it_record _ _ _ _ _ _ _ _ _ _ _ _ _ _ Hok) as (recs & Er & Ec).
  exists recs, (e_rc e), (e_m e). split; auto. split; auto.
  split; [exact (it_rec _ _ _ _ _ _ _ _ _ _ _ _ _ _ Hok)|].
  pose proof (it_tree _ _ _ _ _ _ _ _ _ _ _ _ _ _ Hok) as H. cbn beta iota in H.
  destruct (Nat.eqb_spec (e_m e) 0) as [|Hm]; [left; auto|]. right.
  destruct H as (lvl & -> & _ & P). exists (t_tree (e_pre e)), lvl, (nonzero (map negb (e_wk e)) ++ nonzero (e_wk e)).
  split; auto. split; [rewrite Ex; discriminate|]. split; auto.
  rewrite <- (it_len _ _ _ _ _ _ _ _ _ _ _ _ _ _ Hok). apply picks_nonzero_perm.
Qed.

Lemma true_false surfs g b n reps vs ds st :
  traceable b n -> all_rays RP b -> (forall s, In s surfs -> good s) ->
  length surfs = length (surf_ownership objs) -> 1 <= reps ->
  ray_tracer ops objs surfs g b reps me TreeTrue = Ok (vs, ds, st) ->
  exists st' rc m, ray_tracer ops objs surfs g b reps me TreeFalse = Ok (vs, ds, st') /\
    t_tree st' = [rc] /\ traceable rc m /\ t_surfs st' = t_surfs st /\
    (m = 0 \/ exists before lvl idx, t_tree st = before ++ [lvl] /\ before <> [] /\
       rays_picked rc idx lvl /\ Permutation idx (seq 0 m)).
Proof.
  intros Ht Hall Hg Hl Hr H. unfold ray_tracer in *.
  apply bind_ok in H. destruct H as (st0 & E0 & H). apply bind_ok in H. destruct H as (st1 & E1 & H).
  cbn [bind] in H. apply bind_ok in H. destruct H as (v & Ev & H). apply bind_ok in H. destruct H as (d & Ed & H).
  injection H as <- <- <-.
  destruct (last_recorded surfs g b n reps st0 st1 Ht Hall Hg Hl Hr E0 E1) as (recs & rc & m & Er & Ec & Tr & P).
  unfold start in *. apply bind_ok in E0. destruct E0 as (k & Ek & E0). injection E0 as <-.
  rewrite Ek. cbn [bind]. pose proof (iterate_false ops objs me TreeTrue reps _ _ new_tree E1) as E2.
  unfold with_tree in E2 at 1. cbn [t_surfs t_g t_bund t_own t_rel t_record] in E2. rewrite E2. cbn [bind].
  unfold with_tree. cbn [t_surfs t_g t_bund t_own t_rel t_tree t_record]. rewrite Er. cbn [bind].
  rewrite Ec. cbn [bind]. cbn [t_surfs t_g t_bund t_own t_rel t_tree t_record]. rewrite Ev. cbn [bind]. rewrite Ed. cbn [bind].
  eexists; exists rc, m. split; [reflexivity|]. split; [reflexivity|]. auto.
Qed.

Lemma false_true surfs g b n reps vs ds st :
  traceable b n -> all_rays RP b -> (forall s, In s surfs -> good s) ->
  length surfs = length (surf_ownership objs) ->
  ray_tracer ops objs surfs g b reps me TreeFalse = Ok (vs, ds, st) ->
  exists st', ray_tracer ops objs surfs g b reps me TreeTrue = Ok (vs, ds, st').
Proof.
  intros Ht Hall Hg Hl H. unfold ray_tracer in *.
  apply bind_ok in H. destruct H as (st0 & E0 & H). apply bind_ok in H. destruct H as (st1 & E1 & H).
  apply bind_ok in H. destruct H as (st2 & E2 & H).
  apply bind_ok in H. destruct H as (v & Ev & H). apply bind_ok in H. destruct H as (d & Ed & H).
  injection H as <- <- <-. unfold start in *. apply bind_ok in E0. destruct E0 as (k & Ek & E0). injection E0 as <-.
  rewrite Ek. cbn [bind].
  edestruct (iterate_true TreeTrue reps) with (st' := st1) (n := n) (t := append new_tree b)
    as (t' & E3); [| | | |exact E1|]; [exact Ht|exact Hall|exact Hg|exact Hl|].
  unfold with_tree in E3 at 1. cbn [t_surfs t_g t_bund t_own t_rel t_record] in E3. rewrite E3. cbn [bind].
  assert (Eb : t_bund st2 = t_bund st1).
  { destruct (t_record st1); [|discriminate]. apply bind_ok in E2. destruct E2 as (rec & _ & E2). injection E2 as <-. reflexivity. }
  unfold with_tree. cbn [t_bund]. rewrite <- Eb, Ev. cbn [bind]. rewrite Ed. cbn [bind]. eauto.
Qed.
End TreeArg.

Lemma false_unbound {S G} (ops : surf_ops S G) objs me surfs g b n :
  rays b n -> ray_tracer ops objs surfs g b 0 me TreeFalse = Err UnboundLocalError.
Proof. intros H. unfold ray_tracer, start. rewrite (rays_num b n H). reflexivity. Qed.

(** ** [tree] true, but not [True] *)
Section Truthy.
Context {S G : Type}.
Variable ops : surf_ops S G.
Variable objs : list obj.
Variable me : R.

Lemma iteration_truthy b st :
  iteration ops objs me TreeTrue (with_tree (b :: t_tree st) st) =
  ('(st', go) <- iteration ops objs me TreeTruthy st ;; Ok (with_tree (b :: t_tree st') st', go)).
Proof.
  unfold iteration. destruct st as [ss g bd own rel tr rcd].
  cbn [with_tree t_surfs t_g t_bund t_own t_rel t_tree t_record].
  destruct (intersect_ray ops bd ss (surf_ownership objs) own rel) as [[[ss1 fr] owned]|]; [|reflexivity]. cbn [bind].
  destruct (process_surfaces ops objs me 0 ss1 g fr owned) as [[[ss2 g2] bl]|]; [|reflexivity]. cbn [bind].
  destruct (concatenate_rays (map k_strong bl)) as [bund|]; [|reflexivity]. cbn [bind].
  destruct (concatenate_rays (map k_rec bl)) as [rec|]; [|reflexivity]. cbn [bind].
  destruct (get_num_rays rec) as [k|]; [|reflexivity]. cbn [bind].
  destruct (Nat.eqb k 0).
  - cbn [bind]. destruct (get_num_rays bund) as [n|]; [|reflexivity]. cbn [bind]. destruct (Nat.eqb n 0); reflexivity.
  - destruct (inherit rec (SIdx (nonzero (concat (map k_weak bl)))) no_bundle) as [wk|]; [|reflexivity]. cbn [bind].
    destruct (get_num_rays bund) as [n|]; [|reflexivity]. cbn [bind]. destruct (Nat.eqb n 0); reflexivity.
Qed.

Lemma iterate_truthy b reps : forall st,
  iterate ops objs me TreeTrue reps (with_tree (b :: t_tree st) st) =
  (st' <- iterate ops objs me TreeTruthy reps st ;; Ok (with_tree (b :: t_tree st') st')).
Proof.
  induction reps as [|reps IH]; intros st; [reflexivity|]. cbn [iterate]. rewrite iteration_truthy.
  destruct (iteration ops objs me TreeTruthy st) as [[st1 go]|]; [|reflexivity]. cbn [bind]. destruct go; [apply IH|reflexivity].
Qed.

Theorem truthy surfs g b reps :
  ray_tracer ops objs surfs g b reps me TreeTrue =
  ('(vs, ds, st) <- ray_tracer ops objs surfs g b reps me TreeTruthy ;;
   Ok (vs, ds, mkT (t_surfs st) (t_g st) (t_bund st) (t_own st) (t_rel st) (b :: t_tree st) (t_record st))).
Proof.
  unfold ray_tracer, start. destruct (get_num_rays b) as [n|]; [|reflexivity]. cbn [bind].
  pose proof (iterate_truthy b reps (mkT surfs g b (repeat (-1)%Z n) (repeat (repeat true n) (length surfs)) new_tree None)) as E.
  unfold with_tree in E at 1. cbn [t_surfs t_g t_bund t_own t_rel t_record t_tree] in E. change (append new_tree b) with (b :: @nil bundle).
  change new_tree with (@nil bundle) in *. setoid_rewrite E.
  clear E. destruct (iterate ops objs me TreeTruthy reps _) as [st|]; [|reflexivity]. cbn [bind with_tree t_bund].
  destruct (get_vertices (t_bund st)); [|reflexivity]. cbn [bind]. destruct (get_directions (t_bund st)); reflexivity.
Qed.
End Truthy.
