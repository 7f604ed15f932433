(** Proofs about complete traces: the recorded tree. *)
From Coq Require Import Reals List Arith ZArith Bool Lia Lra Permutation Sorted.
From Verif.Base Require Import Py Num Vec.
From Verif.Model Require Import RayBundle TraceTree Engine.
From Verif.Spec Require Import BundleSpec EngineSpec.
From Verif.Proof Require Import ListLemmas NumLemmas BundleProof IntersectProof ProcessProof IterProof TraceProof.
Import ListNotations.

Lemma picked_app_seq b idx1 idx2 lvl b1 :
  rays_picked b (idx1 ++ idx2) lvl -> rays_picked b idx1 b1 ->
  rays_picked lvl (seq 0 (length idx1)) b1.
Proof.
  intros H1 H2 p. specialize (H1 p). specialize (H2 p).
  destruct (prop b p) as [l|].
  - destruct H1 as (l1 & E1 & P1). destruct H2 as (l2 & E2 & P2). rewrite E1.
    exists l2. split; auto. unfold picks. apply Forall2_nth. split.
    { rewrite seq_length. exact (Forall2_length _ _ _ P2). }
    intros k j x Hj Hx.
    assert (Hk : k < length idx1) by (rewrite <- (seq_length (length idx1) 0); apply nth_error_Some; congruence).
    rewrite nth_error_nth' with (d := 0) in Hj by (rewrite seq_length; auto).
    rewrite seq_nth in Hj by auto. injection Hj as <-. simpl.
    destruct (nth_error idx1 k) as [q|] eqn:Eq; [|apply nth_error_None in Eq; lia].
    pose proof (picks_nth _ _ _ _ _ P2 Eq) as Ha.
    assert (Eq' : nth_error (idx1 ++ idx2) k = Some q) by (rewrite nth_error_app1; auto).
    pose proof (picks_nth _ _ _ _ _ P1 Eq') as Hb. congruence.
  - rewrite H1. auto.
Qed.

Lemma picked_seq_same b n b1 j : rays_picked b (seq 0 n) b1 -> j < n -> same_ray b1 j b j.
Proof.
  intros H Hj. apply (picked_same b (seq 0 n) b1 j j); auto.
  rewrite nth_error_nth' with (d := 0) by (rewrite seq_length; auto). rewrite seq_nth by auto. auto.
Qed.

Lemma picked_seq_refl b n : rays b n -> rays_picked b (seq 0 n) b.
Proof.
  intros H p. destruct (prop b p) as [l|] eqn:E; auto. exists l. split; auto.
  apply take_ok. rewrite <- (proj2 H p l E). apply take_seq.
Qed.

Lemma picked_in_lt b n idx b' k : rays b n -> rays_picked b idx b' -> In k idx -> k < n.
Proof.
  intros ((l & El) & Hl) H Hin. specialize (H Vertices). rewrite El in H.
  destruct H as (l' & _ & P). apply In_nth_error in Hin. destruct Hin as (q & Hq).
  unfold picks in P. rewrite Forall2_nth in P. destruct P as (Lp & P).
  destruct (nth_error l' q) as [x|] eqn:Ex.
  - rewrite <- (Hl _ _ El). apply nth_error_Some. rewrite (P q k x Hq Ex). discriminate.
  - apply nth_error_None in Ex. assert (q < length idx) by (apply nth_error_Some; congruence). lia.
Qed.

Lemma sum_R_perm l k : Permutation l k -> sum_R l = sum_R k.
Proof. induction 1; rewrite ?sum_R_cons in *; lra || auto. Qed.

Lemma map_nth_seq {A} (d : A) l : map (fun i => nth i l d) (seq 0 (length l)) = l.
Proof.
  induction l as [|x l IH]; simpl; auto. f_equal. rewrite <- seq_shift, map_map. auto.
Qed.

Lemma picks_map {A} (d : A) l idx l' : picks l idx l' -> l' = map (fun i => nth i l d) idx.
Proof.
  unfold picks. induction 1 as [|i x idx l' H HF IH]; simpl; auto. f_equal; auto.
  symmetry. apply nth_error_nth. auto.
Qed.

Lemma picks_perm {A} (l : list A) idx l' :
  picks l idx l' -> Permutation idx (seq 0 (length l)) -> Permutation l' l.
Proof.
  intros Hp Hperm. destruct l as [|d l0] eqn:E.
  - simpl in Hperm. apply Permutation_sym, Permutation_nil in Hperm. subst idx. inversion Hp; constructor.
  - rewrite <- E in *. rewrite (picks_map d _ _ _ Hp).
    eapply perm_trans; [apply Permutation_map; exact Hperm|]. rewrite map_nth_seq. apply Permutation_refl.
Qed.

Lemma filter_perm {A} (f : A -> bool) l k : Permutation l k -> Permutation (filter f l) (filter f k).
Proof.
  induction 1 as [|x l k H IH|x y l|l k j H1 IH1 H2 IH2]; simpl; auto.
  - destruct (f x); auto.
  - destruct (f x), (f y); auto. constructor.
  - eapply perm_trans; eauto.
Qed.

Lemma picks_unmap {A B} (f : A -> B) (Hf : forall x y, f x = f y -> x = y) l idx l' :
  picks (map f l) idx (map f l') -> picks l idx l'.
Proof.
  unfold picks. revert idx. induction l' as [|x l' IH]; intros idx H; inversion H as [|i y idx0 ? E HF]; subst.
  - constructor.
  - constructor; auto. rewrite nth_error_map in E. destruct (nth_error l i); [|discriminate].
    simpl in E. injection E as E. f_equal. auto.
Qed.

Lemma energy_from_perm rc m idx lvl j : traceable rc m -> rays_picked rc idx lvl ->
  Permutation idx (seq 0 m) -> energy_from lvl j = energy_from rc j.
Proof.
  intros Ht Hp Hperm. unfold energy_from.
  pose proof (Hp Parents) as Pp. pose proof (Hp Energy) as Pe. simpl in Pp, Pe.
  destruct Ht as (_ & (_ & Hlen) & _). pose proof (Hlen Parents) as Lp. pose proof (Hlen Energy) as Le. simpl in Lp, Le.
  destruct (b_parents rc) as [ps|]; [|destruct (b_parents lvl); [discriminate|auto]].
  destruct (b_energy rc) as [es|].
  2:{ destruct (b_energy lvl); [discriminate|]. destruct (b_parents lvl); auto. }
  destruct Pp as (l1 & E1 & P1). destruct Pe as (l2 & E2 & P2).
  destruct (b_parents lvl) as [ps'|]; [|discriminate]. destruct (b_energy lvl) as [es'|]; [|discriminate].
  injection E1 as <-. injection E2 as <-.
  apply picks_unmap in P1; [|congruence]. apply picks_unmap in P2; [|congruence].
  specialize (Lp _ eq_refl). specialize (Le _ eq_refl). rewrite map_length in Lp, Le.
  apply sum_R_perm, Permutation_map, filter_perm. apply (picks_perm _ idx).
  - clear -P1 P2. unfold picks in *. revert es' P2. induction P1 as [|i x idx l H HF IH]; intros es' P2; inversion P2 as [|? y ? ? Hy HF2]; subst; simpl; constructor; auto.
    clear IH HF HF2 P2. revert es Hy. revert i H. induction ps as [|p ps IH]; intros i H es He; [destruct i; discriminate|].
    destruct es as [|e0 es]; [destruct i; discriminate|]. destruct i; simpl in *; [congruence|]. auto.
  - rewrite combine_length, Lp, Le, Nat.min_id. auto.
Qed.

Section Tree.
Context {S G : Type}.
Variable ops : surf_ops S G.
Variable RP : ray_prop.
Variable good : S -> Prop.
Hypothesis contract : surface_contract ops RP good.
Variable objs : list obj.
Hypothesis Hobjs : forall ob, In ob objs -> object_contract ob.
Variable me : R.

Record entry := mkE { e_pre : tstate S G; e_post : tstate S G; e_go : bool; e_n : nat;
  e_T : reports; e_rc : bundle; e_m : nat; e_wk : list bool }.
Definition e_ns (e : entry) : nat := length (nonzero (map negb (e_wk e))).
Definition entry_ok (ta : tree_arg) (e : entry) : Prop :=
  iter_facts ops RP good objs me ta (e_pre e) (e_post e) (e_go e) (e_n e) (e_T e) (e_rc e) (e_m e)
    (e_wk e).

Inductive run (ta : tree_arg) : nat -> tstate S G -> list entry -> tstate S G -> Prop :=
| run_nil n st : traceable (t_bund st) n -> run ta n st [] st
| run_stop n st e : entry_ok ta e -> e_pre e = st -> e_n e = n -> e_go e = false ->
    run ta n st [e] (e_post e)
| run_go n st e es st' : entry_ok ta e -> e_pre e = st -> e_n e = n -> e_go e = true ->
    run ta (e_ns e) (e_post e) es st' -> run ta n st (e :: es) st'.

Lemma iterate_run ta reps : forall st st' n,
  traceable (t_bund st) n -> all_rays RP (t_bund st) ->
  (forall s, In s (t_surfs st) -> good s) ->
  length (t_surfs st) = length (surf_ownership objs) ->
  iterate ops objs me ta reps st = Ok st' ->
  exists es, run ta n st es st' /\ length es <= reps /\
    (length es < reps -> exists e, last (map Some es) None = Some e /\ e_go e = false).
Proof.
  induction reps as [|reps IH]; intros st st' n Ht Hall Hg Hl H.
  - simpl in H. injection H as <-. exists []. split; [constructor; auto|]. simpl. split; lia.
  - simpl in H. apply bind_ok in H. destruct H as ([st1 go] & Ei & H).
    destruct (iteration_facts ops RP good contract objs Hobjs me ta st st1 go n Ht Hall Hg Hl Ei)
      as (T & rc & m & wk & F).
    set (e := mkE st st1 go n T rc m wk).
    assert (Hok : entry_ok ta e) by exact F.
    destruct go.
    + destruct (IH st1 st' (e_ns e)) as (es & Hr & Hle & Hlast); auto.
      * exact (it_bund_ok _ _ _ _ _ _ _ _ _ _ _ _ _ _ F).
      * eapply picked_all; [exact (it_rec _ _ _ _ _ _ _ _ _ _ _ _ _ _ F)
          |exact (it_bund_ok _ _ _ _ _ _ _ _ _ _ _ _ _ _ F)|exact (it_bund _ _ _ _ _ _ _ _ _ _ _ _ _ _ F)
          |exact (it_rp _ _ _ _ _ _ _ _ _ _ _ _ _ _ F)].
      * rewrite (it_surfs _ _ _ _ _ _ _ _ _ _ _ _ _ _ F); auto.
      * rewrite (it_surfs _ _ _ _ _ _ _ _ _ _ _ _ _ _ F); auto.
      * exists (e :: es). split; [eapply run_go; eauto|]. simpl. split; [lia|].
        intros Hlt. destruct Hlast as (e1 & E1 & Hgo); [lia|]. exists e1. split; auto.
        destruct es; [discriminate|]. simpl in *. auto.
    + injection H as <-. exists [e]. split; [apply (run_stop ta n st e); auto|]. simpl. split; [lia|].
      intros _. exists e. auto.
Qed.

Lemma run_surfs ta n st es st' : run ta n st es st' -> t_surfs st' = t_surfs st.
Proof.
  induction 1 as [n st H|n st e Hok Ep En Eg|n st e es st' Hok Ep En Eg Hr IH]; auto.
  - subst st. exact (it_surfs _ _ _ _ _ _ _ _ _ _ _ _ _ _ Hok).
  - subst st. rewrite IH. exact (it_surfs _ _ _ _ _ _ _ _ _ _ _ _ _ _ Hok).
Qed.

Lemma run_entries ta n st es st' : run ta n st es st' -> forall k e, nth_error es k = Some e ->
  entry_ok ta e /\ t_surfs (e_pre e) = t_surfs st /\
  match k with
  | 0 => e_pre e = st /\ e_n e = n
  | Datatypes.S k' => exists e', nth_error es k' = Some e' /\ e_pre e = e_post e' /\ e_n e = e_ns e' /\ e_go e' = true
  end.
Proof.
  induction 1 as [n st H|n st e Hok Ep En Eg|n st e es st' Hok Ep En Eg Hr IH]; intros k e1 H1.
  - destruct k; discriminate.
  - destruct k; simpl in H1; [|destruct k; discriminate]. injection H1 as <-.
    split; auto. split; [congruence|]. auto.
  - destruct k as [|k]; simpl in H1.
    + injection H1 as <-. split; auto. split; [congruence|]. auto.
    + destruct (IH k e1 H1) as (A & B & C). split; auto.
      split. { rewrite B, <- Ep. exact (it_surfs _ _ _ _ _ _ _ _ _ _ _ _ _ _ Hok). }
      destruct k as [|k]; simpl.
      * destruct C as (C1 & C2). exists e. auto.
      * destruct C as (e' & C1 & C2). exists e'. auto.
Qed.

Lemma run_tree ta n st es st' : ta <> TreeFalse -> run ta n st es st' ->
  exists lvls, t_tree st' = t_tree st ++ lvls /\ length lvls <= length es /\
    length es <= Datatypes.S (length lvls) /\
    (forall k e, nth_error es k = Some e -> 0 < e_m e -> k < length lvls) /\
    forall k e lvl, nth_error es k = Some e -> nth_error lvls k = Some lvl ->
      names_ok lvl /\ 0 < e_m e /\
      rays_picked (e_rc e) (nonzero (map negb (e_wk e)) ++ nonzero (e_wk e)) lvl.
Proof.
  intros Hta. induction 1 as [n st H|n st e Hok Ep En Eg|n st e es st' Hok Ep En Eg Hr IH].
  - exists []. rewrite app_nil_r. simpl. split; auto. split; [lia|]. split; [lia|].
    split; intros [|k]; discriminate.
  - assert (Htr := it_tree _ _ _ _ _ _ _ _ _ _ _ _ _ _ Hok). subst st.
    assert (Htr' : if Nat.eqb (e_m e) 0 then t_tree (e_post e) = t_tree (e_pre e) else
                   exists lvl, t_tree (e_post e) = t_tree (e_pre e) ++ [lvl] /\ names_ok lvl /\
                     rays_picked (e_rc e) (nonzero (map negb (e_wk e)) ++ nonzero (e_wk e)) lvl)
      by (destruct ta; auto; congruence).
    clear Htr. destruct (Nat.eqb_spec (e_m e) 0) as [E0|E0].
    + exists []. rewrite app_nil_r. simpl. split; auto. split; [lia|]. split; [lia|].
      split.
      * intros [|[|k]] e1 H1; try discriminate H1. simpl in H1. injection H1 as <-. lia.
      * intros [|k] e1 l1 H1 H2; discriminate H2.
    + destruct Htr' as (lvl & E1 & E2 & E3). exists [lvl]. simpl. split; auto. split; [lia|]. split; [lia|].
      split.
      * intros [|[|k]] e1 H1; try discriminate H1. lia.
      * intros [|[|k]] e1 l1 H1 Hy; try discriminate H1.
        simpl in *. injection H1 as <-. injection Hy as <-. split; auto. split; [lia|]. auto.
  - assert (Htr := it_tree _ _ _ _ _ _ _ _ _ _ _ _ _ _ Hok). subst st.
    assert (Htr' : if Nat.eqb (e_m e) 0 then t_tree (e_post e) = t_tree (e_pre e) else
                   exists lvl, t_tree (e_post e) = t_tree (e_pre e) ++ [lvl] /\ names_ok lvl /\
                     rays_picked (e_rc e) (nonzero (map negb (e_wk e)) ++ nonzero (e_wk e)) lvl)
      by (destruct ta; auto; congruence).
    clear Htr. destruct (Nat.eqb_spec (e_m e) 0) as [E0|E0].
    + exfalso. pose proof (it_len _ _ _ _ _ _ _ _ _ _ _ _ _ _ Hok) as Hlen. rewrite E0 in Hlen.
      pose proof (it_go _ _ _ _ _ _ _ _ _ _ _ _ _ _ Hok) as Hgo.
      destruct (e_wk e); [|discriminate]. simpl in Hgo. congruence.
    + destruct Htr' as (lvl & E1 & E2 & E3).
      destruct IH as (lvls & F1 & F2 & F3 & F4 & F5).
      exists (lvl :: lvls). simpl. split; [rewrite F1, E1, <- app_assoc; auto|]. split; [lia|]. split; [lia|].
      split.
      * intros [|k] e1 H1 Hg; [lia|]. simpl in H1. specialize (F4 k e1 H1 Hg). lia.
      * intros [|k] e1 lvl1 H1 H2; simpl in *.
        -- injection H1 as <-. injection H2 as <-. split; auto. split; [lia|]. auto.
        -- eauto.
Qed.

(** From an iteration on a prefix of [prev] to the recorded level. *)
Lemma level_of_entry ta e prev lvl surfs :
  entry_ok ta e -> t_surfs (e_pre e) = surfs ->
  traceable (t_bund (e_pre e)) (e_n e) ->
  rays_picked prev (seq 0 (e_n e)) (t_bund (e_pre e)) ->
  names_ok lvl -> 0 < e_m e ->
  rays_picked (e_rc e) (nonzero (map negb (e_wk e)) ++ nonzero (e_wk e)) lvl ->
  exists ems,
    reported ops surfs prev (e_n e) (e_T e) (t_bund (e_pre e)) /\
    emissions ops surfs (t_bund (e_pre e)) (e_n e) (e_T e) (t_g (e_pre e)) ems (t_g (e_post e)) /\
    concatenate_rays (map snd ems) = Ok (e_rc e) /\
    level_order (e_rc e) (e_m e) me lvl (e_ns e) /\
    traceable lvl (e_m e) /\
    children_of (e_T e) (length surfs) prev (e_n e) lvl (e_m e) /\
    split_by_energy lvl (e_m e) (e_ns e) me /\
    rays_picked lvl (seq 0 (e_ns e)) (t_bund (e_post e)).
Proof.
  intros Hok <- Htb Hprev Hnl Hm Hlvl.
  destruct (it_emit _ _ _ _ _ _ _ _ _ _ _ _ _ _ Hok) as (ems & Hems & Hcat).
  pose proof (it_rec _ _ _ _ _ _ _ _ _ _ _ _ _ _ Hok) as Hrc.
  pose proof (it_len _ _ _ _ _ _ _ _ _ _ _ _ _ _ Hok) as Hlen.
  destruct (it_weak _ _ _ _ _ _ _ _ _ _ _ _ _ _ Hok) as (es & Ees & Ewk).
  pose proof (it_child _ _ _ _ _ _ _ _ _ _ _ _ _ _ Hok) as (Hc1 & Hc2).
  set (idx := nonzero (map negb (e_wk e)) ++ nonzero (e_wk e)) in *.
  assert (Hperm : Permutation idx (seq 0 (e_m e))) by (rewrite <- Hlen; apply picks_nonzero_perm).
  assert (Lidx : length idx = e_m e) by (rewrite (Permutation_length Hperm), seq_length; auto).
  assert (Hlt : traceable lvl (e_m e)).
  { rewrite <- Lidx. eapply picked_traceable; eauto. }
  assert (Hen : forall k, energy_at (e_rc e) k = nth_error es k) by (intros k; unfold energy_at; rewrite Ees; auto).
  assert (Hwk : forall k x, nth_error es k = Some x -> nth_error (e_wk e) k = Some (Rleb x me)).
  { intros k x Hx. rewrite Ewk. rewrite nth_error_map, Hx. auto. }
  assert (Hse : forall k, In k (nonzero (map negb (e_wk e))) <->
      k < e_m e /\ exists x, energy_at (e_rc e) k = Some x /\ (me < x)%R).
  { intros k. rewrite nonzero_spec, nth_error_map. split.
    - intros H. destruct (nth_error (e_wk e) k) as [w|] eqn:E; [|discriminate].
      assert (k < e_m e) by (rewrite <- Hlen; apply nth_error_Some; congruence). split; auto.
      destruct (traceable_energy _ _ k Hrc) as (x & Hx); auto. exists x. split; auto.
      rewrite Hen in Hx. rewrite (Hwk _ _ Hx) in E. injection E as <-. simpl in H. injection H as H.
      apply negb_true_iff in H. apply Rleb_false in H. auto.
    - intros (_ & x & Hx & Hlt1). rewrite Hen in Hx. rewrite (Hwk _ _ Hx). simpl. f_equal.
      apply negb_true_iff. apply Rleb_false. auto. }
  assert (Hwe : forall k, In k (nonzero (e_wk e)) <->
      k < e_m e /\ exists x, energy_at (e_rc e) k = Some x /\ (x <= me)%R).
  { intros k. rewrite nonzero_spec. split.
    - intros H. assert (k < e_m e) by (rewrite <- Hlen; apply nth_error_Some; congruence). split; auto.
      destruct (traceable_energy _ _ k Hrc) as (x & Hx); auto. exists x. split; auto.
      rewrite Hen in Hx. rewrite (Hwk _ _ Hx) in H. injection H as H. apply Rleb_true in H. auto.
    - intros (_ & x & Hx & Hlt1). rewrite Hen in Hx. rewrite (Hwk _ _ Hx). f_equal.
      apply Rleb_true. auto. }
  assert (Hnp : forall j, j < e_n e -> vert_at prev j = vert_at (t_bund (e_pre e)) j /\
                                     dir_at prev j = dir_at (t_bund (e_pre e)) j).
  { intros j Hj. pose proof (picked_seq_same _ _ _ _ Hprev Hj) as Hs.
    split; [symmetry; apply (same_ray_vert _ _ _ _ Hs)|symmetry; apply (same_ray_dir _ _ _ _ Hs)]. }
  exists ems. split.
  { split; auto. split; auto. split; [exact (it_range _ _ _ _ _ _ _ _ _ _ _ _ _ _ Hok)|].
    exact (it_answers _ _ _ _ _ _ _ _ _ _ _ _ _ _ Hok). }
  do 2 (split; auto). split.
  { exists (nonzero (map negb (e_wk e))), (nonzero (e_wk e)).
    split; auto. split; auto. split; auto. split; auto. split; apply nonzero_sorted. }
  split; auto. split.
  { split.
    - intros k Hk. destruct (nth_error idx k) as [q|] eqn:Eq; [|apply nth_error_None in Eq; lia].
      assert (Hq : q < e_m e).
      { assert (In q (seq 0 (e_m e))) by (eapply Permutation_in; [exact Hperm|eapply nth_error_In; eauto]).
        apply in_seq in H. lia. }
      pose proof (picked_same _ _ _ _ _ Hlvl Eq) as Hs.
      destruct (Hc1 q Hq) as (i & j & t & v & d & A1 & A2 & A3 & A4 & A5 & A6 & A7).
      destruct (Hnp j A2) as (N1 & N2).
      exists i, j, t, v, d. rewrite (same_ray_parent _ _ _ _ Hs), (same_ray_vert _ _ _ _ Hs), N1, N2. auto 10.
    - intros i j t Hmf. destruct (Hc2 i j t Hmf) as (q & v & d & A1 & A2 & A3 & A4 & A5).
      assert (Hin : In q idx).
      { eapply Permutation_in; [apply Permutation_sym; exact Hperm|]. apply in_seq. lia. }
      apply In_nth_error in Hin. destruct Hin as (k & Hk).
      pose proof (picked_same _ _ _ _ _ Hlvl Hk) as Hs.
      destruct (Hnp j) as (N1 & N2). { apply Hmf. }
      exists k, v, d. rewrite (same_ray_parent _ _ _ _ Hs), (same_ray_vert _ _ _ _ Hs), N1, N2.
      split; [rewrite <- Lidx; apply nth_error_Some; congruence|]. auto. }
  split.
  { split.
    - rewrite <- Lidx. unfold idx, e_ns. rewrite app_length. lia.
    - intros k x Hx.
      assert (Hk : k < e_m e) by (eapply traceable_energy_lt; eauto).
      destruct (nth_error idx k) as [q|] eqn:Eq; [|apply nth_error_None in Eq; lia].
      pose proof (picked_same _ _ _ _ _ Hlvl Eq) as Hs. rewrite (same_ray_energy _ _ _ _ Hs) in Hx.
      unfold e_ns. split.
      + intros Hk'. unfold idx in Eq. rewrite nth_error_app1 in Eq by auto.
        apply nth_error_In in Eq. apply Hse in Eq. destruct Eq as (_ & x' & Hx' & Hl). congruence.
      + intros Hl. destruct (lt_dec k (length (nonzero (map negb (e_wk e))))) as [|Hge]; auto.
        unfold idx in Eq. rewrite nth_error_app2 in Eq by lia. apply nth_error_In in Eq. apply Hwe in Eq.
        destruct Eq as (_ & x' & Hx' & Hl'). rewrite Hx in Hx'. injection Hx' as <-. lra. }
  eapply picked_app_seq; [exact Hlvl|]. exact (it_bund _ _ _ _ _ _ _ _ _ _ _ _ _ _ Hok).
Qed.

Lemma run_final ta n st es st' : run ta n st es st' ->
  (es = [] /\ st' = st) \/ exists k e, es <> [] /\ k + 1 = length es /\ nth_error es k = Some e /\ st' = e_post e.
Proof.
  induction 1 as [n st H|n st e Hok Ep En Eg|n st e es st' Hok Ep En Eg Hr IH]; auto.
  - right. exists 0, e. simpl. split; [discriminate|]. auto.
  - right. destruct IH as [(-> & ->)|(k & e1 & A & B & C & D)].
    + exists 0, e. simpl. split; [discriminate|]. auto.
    + exists (Datatypes.S k), e1. simpl. split; [discriminate|]. split; [lia|]. auto.
Qed.

Lemma last_nth {A} (l : list A) x k : k + 1 = length l -> nth_error l k = Some x -> last (map Some l) None = Some x.
Proof.
  revert k. induction l as [|y l IH]; intros k Hk Hx; [destruct k; discriminate|].
  destruct k as [|k].
  - simpl in *. destruct l; [|simpl in Hk; lia]. simpl. auto.
  - simpl in Hx, Hk. destruct l as [|z l]; [simpl in Hk; lia|].
    change (last (map Some (y :: z :: l)) None) with (last (map Some (z :: l)) None).
    apply (IH k); [lia|auto].
Qed.

(** What the trace leaves behind, apart from the tree. *)
Definition strong_bundle (b : bundle) : Prop := forall k e, energy_at b k = Some e -> (me < e)%R.

Lemma entry_strong ta e : entry_ok ta e -> strong_bundle (t_bund (e_post e)).
Proof.
  intros Hok k x Hx.
  pose proof (it_bund _ _ _ _ _ _ _ _ _ _ _ _ _ _ Hok) as Hb.
  pose proof (it_bund_ok _ _ _ _ _ _ _ _ _ _ _ _ _ _ Hok) as Hbo.
  destruct (it_weak _ _ _ _ _ _ _ _ _ _ _ _ _ _ Hok) as (es & Ees & Ewk).
  assert (Hk : k < length (nonzero (map negb (e_wk e)))) by (eapply traceable_energy_lt; eauto).
  destruct (nth_error (nonzero (map negb (e_wk e))) k) as [q|] eqn:Eq; [|apply nth_error_None in Eq; lia].
  pose proof (picked_same _ _ _ _ _ Hb Eq) as Hs. rewrite (same_ray_energy _ _ _ _ Hs) in Hx.
  apply nth_error_In in Eq. apply nonzero_spec in Eq. rewrite nth_error_map, Ewk, nth_error_map in Eq.
  unfold energy_at in Hx. rewrite Ees in Hx. simpl in Hx. rewrite Hx in Eq. simpl in Eq. injection Eq as Eq.
  apply negb_true_iff, Rleb_false in Eq. auto.
Qed.

Lemma entry_stopped ta e : entry_ok ta e -> e_go e = false -> e_ns e = 0.
Proof.
  intros Hok Hg. pose proof (it_go _ _ _ _ _ _ _ _ _ _ _ _ _ _ Hok) as H. rewrite Hg in H.
  symmetry in H. apply negb_false_iff, Nat.eqb_eq in H. exact H.
Qed.

Lemma entry_grows ta e : entry_ok ta e -> e_go e = true -> 0 < e_m e.
Proof.
  intros Hok Hg. pose proof (it_go _ _ _ _ _ _ _ _ _ _ _ _ _ _ Hok) as H. rewrite Hg in H.
  rewrite <- (it_len _ _ _ _ _ _ _ _ _ _ _ _ _ _ Hok).
  destruct (e_wk e); [discriminate|simpl; lia].
Qed.

Lemma trace_tree surfs g b n reps vs ds st :
  traceable b n -> all_rays RP b -> (forall s, In s surfs -> good s) ->
  length surfs = length (surf_ownership objs) ->
  ray_tracer ops objs surfs g b reps me TreeTrue = Ok (vs, ds, st) ->
  exists ns Ts gs, consistent_tree ops objs surfs me b n reps (t_tree st) ns Ts g gs (t_g st) /\
    t_surfs st = surfs /\ length (t_tree st) <= reps + 1 /\
    b_vert (t_bund st) = Some vs /\ b_dir (t_bund st) = Some ds /\
    traceable (t_bund st) (length vs) /\
    (1 <= reps -> strong_bundle (t_bund st)) /\
    (length (t_tree st) = reps + 1 -> forall lvl, nth_error (t_tree st) reps = Some lvl ->
       length vs = ns reps /\ rays_picked lvl (seq 0 (ns reps)) (t_bund st)) /\
    (length (t_tree st) < reps + 1 -> vs = []) /\
    (no_energy_made ops RP good -> forall L prev lvl,
       nth_error (t_tree st) L = Some prev -> nth_error (t_tree st) (L + 1) = Some lvl ->
       no_ties (Ts L) (length surfs) (ns L) ->
       forall j e, j < ns L -> energy_at prev j = Some e -> (0 <= e)%R -> (energy_from lvl j <= e)%R) /\
    (forall L lvl, nth_error (t_tree st) (L + 1) = Some lvl -> all_rays RP lvl).
Proof.
  intros Ht Hall Hg Hl H. unfold ray_tracer in H.
  apply bind_ok in H. destruct H as (st0 & E0 & H). cbn [bind] in H.
  apply bind_ok in H. destruct H as (st1 & E1 & H).
  apply bind_ok in H. destruct H as (v & Ev & H). apply bind_ok in H. destruct H as (d & Ed & H).
  injection H as <- <- <-.
  unfold start in E0. apply bind_ok in E0. destruct E0 as (n0 & En0 & E0). injection E0 as <-.
  assert (n0 = n).
  { rewrite (rays_num b n) in En0 by apply Ht. congruence. }
  subst n0.
  set (st0 := mkT surfs g b (repeat (-1)%Z n) (repeat (repeat true n) (length surfs)) (append new_tree b) None) in *.
  destruct (iterate_run TreeTrue reps st0 st1 n) as (es & Hrun & Hle & Hlast); auto.
  destruct (run_tree TreeTrue n st0 es st1) as (lvls & Etr & L1 & L2 & L3 & L4); [discriminate|auto|].
  pose proof (run_entries _ _ _ _ _ Hrun) as Hent.
  assert (Etree : t_tree st1 = b :: lvls) by (rewrite Etr; reflexivity).
  set (ns := fun L => match L with
             | 0 => n
             | Datatypes.S k => match nth_error es k with Some e => e_ns e | None => 0 end
             end).
  set (Ts := fun L => match nth_error es L with Some e => e_T e | None => (fun _ _ => None) : reports end).
  set (gs := fun L => match nth_error es L with Some e => t_g (e_pre e) | None => t_g st1 end).
  assert (Hgs : forall L e, nth_error es L = Some e -> gs L = t_g (e_pre e) /\ gs (L + 1) = t_g (e_post e)).
  { intros L e He. unfold gs. rewrite He, Nat.add_1_r. split; auto.
    destruct (nth_error es (Datatypes.S L)) as [e2|] eqn:E2.
    - destruct (Hent _ e2 E2) as (_ & _ & e' & C1 & C2 & _). congruence.
    - apply nth_error_None in E2. assert (L < length es) by (apply nth_error_Some; congruence).
      destruct (run_final _ _ _ _ _ Hrun) as [(E & _)|(k & e1 & _ & Ek & Ee & Est)]; [subst es; simpl in *; lia|].
      assert (k = L) by lia. subst k. congruence. }
  (* the bundle of each entry *)
  assert (Hpre : forall k e, nth_error es k = Some e ->
            entry_ok TreeTrue e /\ t_surfs (e_pre e) = surfs /\ e_n e = ns k /\ Ts k = e_T e /\
            traceable (t_bund (e_pre e)) (e_n e)).
  { intros k e Hk. destruct (Hent k e Hk) as (A & B & C). split; auto. split; auto.
    unfold Ts. rewrite Hk. destruct k as [|k]; simpl.
    - destruct C as (-> & ->). auto.
    - destruct C as (e' & C1 & C2 & C3 & C4). rewrite C1. split; auto. split; auto.
      rewrite C2, C3. destruct (Hent k e' C1) as (A' & _).
      exact (it_bund_ok _ _ _ _ _ _ _ _ _ _ _ _ _ _ A'). }
  assert (Hprev : forall k e prev, nth_error es k = Some e -> nth_error (b :: lvls) k = Some prev ->
            rays_picked prev (seq 0 (e_n e)) (t_bund (e_pre e))).
  { intros [|k] e prev Hk Hp.
    - destruct (Hent 0 e Hk) as (_ & _ & -> & ->). injection Hp as <-. apply picked_seq_refl. apply Ht.
    - destruct (Hent _ e Hk) as (A & B & e' & C1 & C2 & C3 & C4). simpl in Hp.
      destruct (L4 k e' prev C1 Hp) as (_ & _ & P). rewrite C2, C3.
      destruct (Hent k e' C1) as (A' & _).
      eapply picked_app_seq; [exact P|]. exact (it_bund _ _ _ _ _ _ _ _ _ _ _ _ _ _ A'). }
  assert (Hlvl : forall L prev lvl, nth_error (b :: lvls) L = Some prev -> nth_error (b :: lvls) (L + 1) = Some lvl ->
     exists e ems, nth_error es L = Some e /\ 0 < e_m e /\
        rays_picked (e_rc e) (nonzero (map negb (e_wk e)) ++ nonzero (e_wk e)) lvl /\
        reported ops surfs prev (ns L) (Ts L) (t_bund (e_pre e)) /\
        emissions ops surfs (t_bund (e_pre e)) (ns L) (Ts L) (gs L) ems (gs (L + 1)) /\
        concatenate_rays (map snd ems) = Ok (e_rc e) /\
        level_order (e_rc e) (e_m e) me lvl (ns (L + 1)) /\
        traceable lvl (e_m e) /\
        children_of (Ts L) (length surfs) prev (ns L) lvl (e_m e) /\
        split_by_energy lvl (e_m e) (ns (L + 1)) me /\
        rays_picked lvl (seq 0 (ns (L + 1))) (t_bund (e_post e))).
  { intros L prev lvl Hp Hlv. rewrite Nat.add_1_r in Hlv. simpl in Hlv.
    assert (HL : L < length lvls) by (apply nth_error_Some; congruence).
    destruct (nth_error es L) as [e|] eqn:Ee; [|apply nth_error_None in Ee; lia].
    destruct (L4 L e lvl Ee Hlv) as (P1 & P2 & P3).
    destruct (Hpre L e Ee) as (Q1 & Q2 & Q3 & Q4 & Q5).
    destruct (level_of_entry TreeTrue e prev lvl surfs Q1 Q2 Q5 (Hprev L e prev Ee Hp) P1 P2 P3)
      as (ems & R).
    assert (Ens : ns (L + 1) = e_ns e) by (rewrite Nat.add_1_r; simpl; rewrite Ee; auto).
    destruct (Hgs L e Ee) as (-> & ->).
    exists e, ems. rewrite Ens, <- Q3, Q4. auto. }
  exists ns, Ts, gs. rewrite Etree.
  assert (Hsurfs : t_surfs st1 = surfs) by exact (run_surfs _ _ _ _ _ Hrun).
  split; [constructor|].
  - unfold gs. destruct (nth_error es 0) as [e|] eqn:Ee.
    + destruct (Hent 0 e Ee) as (_ & _ & -> & _). reflexivity.
    + destruct (run_final _ _ _ _ _ Hrun) as [(_ & ->)|(k & e1 & E & Ek & _)]; [reflexivity|].
      destruct es; [congruence|discriminate].
  - cbn [length]. rewrite Nat.sub_succ, Nat.sub_0_r.
    destruct (nth_error es (length lvls)) as [e|] eqn:Ee.
    + destruct (Hgs _ e Ee) as (-> & _). destruct (Hpre _ e Ee) as (Q1 & _).
      assert (Em : e_m e = 0). { destruct (e_m e) eqn:Em; auto. assert (length lvls < length lvls) by (apply (L3 _ e Ee); lia). lia. }
      destruct (it_emit _ _ _ _ _ _ _ _ _ _ _ _ _ _ Q1) as (ems & (_ & Hin & Htn) & _).
      assert (ems = []) as ->.
      { destruct ems as [|x ems]; auto. exfalso. destruct (proj1 (Hin (fst x)) (or_introl eq_refl)) as (j & t & Hm).
        destruct (proj2 (it_child _ _ _ _ _ _ _ _ _ _ _ _ _ _ Q1) _ j t Hm) as (q & _ & _ & Hq & _). lia. }
      inversion Htn as [h Eh Eh'|]; subst.
      destruct (run_final _ _ _ _ _ Hrun) as [(E & _)|(k & e1 & _ & Ek & Ee1 & Est)]; [rewrite E in Ee; destruct (length lvls); discriminate|].
      assert (length lvls < length es) by (apply nth_error_Some; congruence).
      assert (k = length lvls) by lia. subst k. congruence.
    + unfold gs. rewrite Ee. reflexivity.
  - auto.
  - auto.
  - intros L prev lvl Hp Hlv. destruct (Hlvl L prev lvl Hp Hlv) as (e & ems & A1 & A2 & A2' & A3 & A4 & A5 & A6 & A7 & A8 & A9 & A10).
    destruct (Hpre L e A1) as (Q1 & _).
    exists (t_bund (e_pre e)), (e_rc e), (e_m e), ems.
    pose proof (it_rec _ _ _ _ _ _ _ _ _ _ _ _ _ _ Q1). auto 12.
  - intros L prev Hp Hno HL Hns. rewrite Nat.add_1_r in Hno. simpl in Hno. apply nth_error_None in Hno.
    assert (HLl : L <= length lvls).
    { assert (L < length (b :: lvls)) by (apply nth_error_Some; congruence). simpl in H. lia. }
    destruct (nth_error es L) as [e|] eqn:Ee.
    2:{ exfalso. apply nth_error_None in Ee. destruct Hlast as (e1 & El & Hg1); [lia|].
        destruct L as [|L].
        - destruct es; [discriminate|simpl in Ee; lia].
        - destruct Hns as [|Hns]; [discriminate|]. simpl in Hns.
          destruct (nth_error es L) as [e2|] eqn:E2; [|lia].
          rewrite (last_nth es e2 L) in El; [|lia|auto]. injection El as <-.
          destruct (Hpre L e2 E2) as (Q1 & _). rewrite (entry_stopped TreeTrue e2 Q1 Hg1) in Hns. lia. }
    destruct (Hpre L e Ee) as (Q1 & Q2 & Q3 & Q4 & Q5).
    exists (t_bund (e_pre e)). rewrite Q4, <- Q3. split.
    { split; auto. split; [eapply Hprev; eauto|]. rewrite <- Q2.
      split; [exact (it_range _ _ _ _ _ _ _ _ _ _ _ _ _ _ Q1)|exact (it_answers _ _ _ _ _ _ _ _ _ _ _ _ _ _ Q1)]. }
    intros i j t Hmf. rewrite <- Q2 in Hmf.
    destruct (proj2 (it_child _ _ _ _ _ _ _ _ _ _ _ _ _ _ Q1) i j t Hmf) as (q & _ & _ & Hq & _).
    assert (L < length lvls) by (apply (L3 L e Ee); lia). lia.
  - intros HL i j Hi Hj.
    destruct (nth_error es 0) as [e|] eqn:Ee.
    2:{ exfalso. apply nth_error_None in Ee. destruct es; [|simpl in Ee; lia].
        destruct Hlast as (e1 & E & _); [simpl; lia|discriminate]. }
    destruct (Hpre 0 e Ee) as (Q1 & Q2 & Q3 & Q4 & Q5). rewrite Q4.
    destruct (Hent 0 e Ee) as (_ & _ & C1 & C2).
    assert (Hin : i < length (t_surfs (e_pre e))) by (rewrite Q2; auto).
    apply (it_tested _ _ _ _ _ _ _ _ _ _ _ _ _ _ Q1 i j Hin); [congruence|].
    rewrite C1. simpl. unfold may_test, at2.
    destruct (nth_error (surf_ownership objs) i) as [oi|] eqn:Eoi; [|apply nth_error_None in Eoi; lia].
    rewrite !nth_error_repeat_lt by auto. exists oi, (-1)%Z. auto.
  - intros L lvl Hlv j Hj.
    assert (HL : L < length lvls).
    { rewrite Nat.add_1_r in Hlv. simpl in Hlv. apply nth_error_Some. congruence. }
    destruct (nth_error (b :: lvls) L) as [prev|] eqn:Ep; [|apply nth_error_None in Ep; simpl in Ep; lia].
    destruct (Hlvl L prev lvl Ep Hlv) as (e & ems & A1 & A2 & A2' & A3 & A4 & A5 & A6 & A7 & A8 & A9 & A10).
    destruct (Hpre L e A1) as (Q1 & Q2 & Q3 & Q4 & Q5).
    assert (Ens : ns (L + 1) = e_ns e) by (rewrite Nat.add_1_r; simpl; rewrite A1; auto).
    assert (Hgo : e_go e = true).
    { rewrite (it_go _ _ _ _ _ _ _ _ _ _ _ _ _ _ Q1). apply negb_true_iff, Nat.eqb_neq.
      unfold e_ns in Ens. lia. }
    destruct (it_own _ _ _ _ _ _ _ _ _ _ _ _ _ _ Q1 Hgo j) as (i & p & t & oi & owns & next & r & B1 & B2 & B3 & B4).
    { unfold e_ns in Ens. lia. }
    pose proof (picked_seq_same _ _ _ _ A10 Hj) as Hs.
    exists i, p, t, oi, owns, next, r.
    split; [rewrite <- (same_ray_parent _ _ _ _ Hs); auto|].
    split; [rewrite <- Q3, Q4, <- Q2; auto|].
    split.
    { destruct B3 as (ob & ri & eb & D1 & D2 & D3 & D4 & D5 & D6).
      exists ob, ri, eb. do 5 (split; [assumption|]).
      intros p0. specialize (D6 p0). specialize (A10 p0).
      destruct (prop lvl p0) as [l|].
      - destruct A10 as (l' & El' & Pk). rewrite El' in D6.
        destruct (prop eb p0) as [l2|]; auto. destruct D6 as (D6 & D7). split; auto.
        rewrite <- D6. symmetry. eapply picks_nth; [exact Pk|].
        rewrite nth_error_nth' with (d := 0) by (rewrite seq_length; auto). rewrite seq_nth by auto. auto.
      - rewrite A10 in D6. destruct (prop eb p0); auto. }
    intros Hlen i' Hi'.
    destruct (nth_error es (Datatypes.S L)) as [e2|] eqn:Ee2.
    2:{ exfalso. apply nth_error_None in Ee2. assert (L < length es) by (apply nth_error_Some; congruence).
        destruct Hlast as (e1 & El & Hg1); [lia|].
        rewrite (last_nth es e L) in El; [|lia|auto]. injection El as <-. congruence. }
    destruct (Hpre _ e2 Ee2) as (Q1' & Q2' & Q3' & Q4' & Q5').
    destruct (Hent _ e2 Ee2) as (_ & _ & e' & C1 & C2 & C3 & C4).
    assert (e' = e) by congruence. subst e'.
    rewrite Nat.add_1_r, Q4'. rewrite <- B4. rewrite <- C2.
    apply (it_tested _ _ _ _ _ _ _ _ _ _ _ _ _ _ Q1' i' j); [rewrite Q2'; auto|lia].
  - intros L prev lvl Hp Hlv. destruct (Hlvl L prev lvl Hp Hlv) as (e & ems & A1 & A2 & A2' & (_ & Pk & _) & _).
    destruct (Hpre L e A1) as (Q1 & _). pose proof (it_set _ _ _ _ _ _ _ _ _ _ _ _ _ _ Q1 ltac:(lia)) as Hs.
    intros p Hp'. specialize (A2' p). specialize (Pk p). specialize (Hs p Hp').
    destruct (prop (e_rc e) p); [destruct A2' as (l' & -> & _)|rewrite A2'];
      (destruct (prop prev p); [destruct Pk as (l2 & Ek & _)|rename Pk into Ek]); rewrite Ek in Hs; split; intros Hx; try reflexivity; try discriminate Hx;
      solve [discriminate (proj1 Hs eq_refl) | discriminate (proj2 Hs eq_refl)].
  - split; auto. split; [simpl; lia|].
    assert (Ev' : b_vert (t_bund st1) = Some v).
    { unfold get_vertices in Ev. destruct (b_vert (t_bund st1)); [|discriminate]. injection Ev as ->. auto. }
    assert (Ed' : b_dir (t_bund st1) = Some d).
    { unfold get_directions in Ed. destruct (b_dir (t_bund st1)); [|discriminate]. injection Ed as ->. auto. }
    do 2 (split; [assumption|]).
    assert (Hfin : exists nf, traceable (t_bund st1) nf /\ (es = [] -> st1 = st0) /\
        (forall k e, k + 1 = length es -> nth_error es k = Some e -> st1 = e_post e /\ nf = e_ns e)).
    { destruct (run_final _ _ _ _ _ Hrun) as [(E & E')|(k & e & E & Ek & Ee & Est)].
      - exists n. rewrite E'. split; [exact Ht|]. split; auto. intros k e Hk. subst es. simpl in Hk. lia.
      - exists (e_ns e). destruct (Hpre k e Ee) as (Q1 & _). split.
        { rewrite Est. exact (it_bund_ok _ _ _ _ _ _ _ _ _ _ _ _ _ _ Q1). }
        split; [intros; contradiction|]. intros k' e' Hk' He'.
        assert (k' = k) by lia. subst k'. assert (e' = e) by congruence. subst e'. auto. }
    destruct Hfin as (nf & Hnf & F0 & F1).
    assert (Lv : length v = nf).
    { destruct Hnf as (_ & (_ & Hr) & _). specialize (Hr Vertices (map PVec v)). rewrite map_length in Hr.
      apply Hr. simpl. rewrite Ev'. auto. }
    rewrite Lv. split; auto.
    assert (Hcase : es = [] \/ exists k e, k + 1 = length es /\ nth_error es k = Some e).
    { destruct es as [|e0 es0]; auto. right. exists (length es0).
      destruct (nth_error (e0 :: es0) (length es0)) as [e|] eqn:Ee.
      - exists e. split; auto. simpl. lia.
      - apply nth_error_None in Ee. simpl in Ee. lia. }
    split.
    { intros Hreps. destruct Hcase as [E|(k & e & Ek & Ee)].
      - subst es. destruct Hlast as (e & E & _); [simpl; lia|]. discriminate.
      - destruct (F1 k e Ek Ee) as (-> & _). apply (entry_strong TreeTrue). apply (Hpre k e Ee). }
    split.
    { intros Hlen lvl Hlv. simpl in Hlen.
      destruct Hcase as [E|(k & e & Ek & Ee)].
      - subst es. simpl in L1. assert (lvls = []) by (destruct lvls; [auto|simpl in L1; lia]). subst lvls.
        simpl in Hlen. assert (reps = 0) by lia. subst reps. simpl in Hlv. injection Hlv as <-.
        rewrite (F0 eq_refl). simpl. split.
        + rewrite <- Lv. destruct Ht as (_ & (_ & Hr) & _). specialize (Hr Vertices (map PVec v)).
          rewrite map_length in Hr. apply Hr. simpl. rewrite (F0 eq_refl) in Ev'. simpl in Ev'. rewrite Ev'. auto.
        + apply picked_seq_refl. apply Ht.
      - destruct reps as [|reps]; [lia|]. simpl in Hlv.
        assert (k = reps) by lia. subst k.
        destruct (F1 reps e Ek Ee) as (-> & ->). simpl. rewrite Ee. split; auto.
        destruct (L4 reps e lvl Ee Hlv) as (_ & _ & P). destruct (Hpre reps e Ee) as (Q1 & _).
        eapply picked_app_seq; [exact P|]. exact (it_bund _ _ _ _ _ _ _ _ _ _ _ _ _ _ Q1). }
    split.
    { intros Hlen. simpl in Hlen. apply length_zero_iff_nil. rewrite Lv.
      destruct Hcase as [E|(k & e & Ek & Ee)].
      - subst es. destruct Hlast as (e & E & _); [simpl; lia|]. discriminate.
      - destruct (F1 k e Ek Ee) as (_ & ->). destruct (Hpre k e Ee) as (Q1 & _).
        apply (entry_stopped TreeTrue); auto. destruct (e_go e) eqn:Eg; auto. exfalso.
        pose proof (L3 k e Ee (entry_grows TreeTrue e Q1 Eg)) as Hk3.
        destruct Hlast as (e1 & Hlast & Hg1); [lia|].
        rewrite (last_nth es e k Ek Ee) in Hlast. congruence. }
    split.
    { intros Hem L prev lvl Hp Hlv Hnt j x Hj Hx Hx0.
      destruct (Hlvl L prev lvl Hp Hlv) as (e & ems & A1 & A2 & A2' & A3 & A4 & A5 & A6 & A7 & A8 & A9 & A10).
      destruct (Hpre L e A1) as (Q1 & Q2 & Q3 & Q4 & Q5).
      assert (Hx' : energy_at (t_bund (e_pre e)) j = Some x).
      { rewrite <- Hx. apply same_ray_energy. eapply picked_seq_same; [apply (Hprev L e prev A1 Hp)|lia]. }
      rewrite (energy_from_perm _ (e_m e) _ _ _ (it_rec _ _ _ _ _ _ _ _ _ _ _ _ _ _ Q1) A2').
      - apply (it_energy _ _ _ _ _ _ _ _ _ _ _ _ _ _ Q1 Hem); auto. rewrite Q2, Q3, <- Q4. auto.
      - rewrite <- (it_len _ _ _ _ _ _ _ _ _ _ _ _ _ _ Q1). apply picks_nonzero_perm. }
    { intros L lvl Hlv.
      destruct (nth_error (b :: lvls) L) as [prev|] eqn:Ep.
      2:{ apply nth_error_None in Ep. assert (L + 1 < length (b :: lvls)) by (apply nth_error_Some; congruence). lia. }
      destruct (Hlvl L prev lvl Ep Hlv) as (e & ems & A1 & A2 & A2' & A3 & A4 & A5 & A6 & A7 & A8 & A9 & A10).
      destruct (Hpre L e A1) as (Q1 & Q2 & Q3 & Q4 & Q5).
      eapply picked_all; [exact (it_rec _ _ _ _ _ _ _ _ _ _ _ _ _ _ Q1)| |exact A2'|exact (it_rp _ _ _ _ _ _ _ _ _ _ _ _ _ _ Q1)].
      assert (length (nonzero (map negb (e_wk e)) ++ nonzero (e_wk e)) = e_m e) as ->; auto.
      rewrite (Permutation_length (picks_nonzero_perm (e_wk e))), seq_length.
      exact (it_len _ _ _ _ _ _ _ _ _ _ _ _ _ _ Q1). }
Qed.
End Tree.
