(** The drawing of rays. *)
From Coq Require Import Reals List Arith Bool Lra Lia.
From Verif.Base Require Import Py Num Vec.
From Verif.Model Require Import RayBundle TraceTree Geometry OpticsCallables Engine Surface View.
From Verif.Proof Require Import NumLemmas ListLemmas ProcessProof IterProof TraceProof TreeProof LibraryTop TraceTop CallProof.
From Verif.Spec Require Import BundleSpec EngineSpec LibrarySpec ViewSpec.
Import ListNotations.
Local Open Scope R_scope.

Lemma nonzero_app a b : nonzero (a ++ b) = nonzero a ++ map (Nat.add (length a)) (nonzero b).
Proof.
  induction a as [|x a IH].
  - simpl. symmetry. erewrite map_ext; [apply map_id|]. reflexivity.
  - simpl app. rewrite !nonzero_cons, IH, map_app, map_map, app_assoc. reflexivity.
Qed.

Lemma nonzero_rank m k j : nth_error (nonzero m) k = Some j -> number_before (fun i => nth_error m i = Some true) j k.
Proof.
  intros H. assert (Hj : nth_error m j = Some true) by (apply nonzero_spec; eapply nth_error_In; eauto).
  assert (J : (j < length m)%nat) by (apply nth_error_Some; congruence).
  apply nth_error_split in Hj as (a & b & E & L).
  exists (nonzero a). split; [apply nonzero_NoDup|]. split.
  - assert (N : nth_error (nonzero m) (length (nonzero a)) = Some j).
    { rewrite E, nonzero_app, nth_error_app2, Nat.sub_diag, nonzero_cons by auto. simpl. f_equal. lia. }
    eapply (NoDup_nth_error (nonzero m)); [apply nonzero_NoDup| |].
    + apply nth_error_Some. congruence.
    + congruence.
  - intros i. rewrite nonzero_spec. split.
    + intros Hi. assert ((i < length a)%nat) by (apply nth_error_Some; congruence). split; [lia|]. rewrite E, nth_error_app1; auto.
    + intros (Hi & Hm). rewrite E, nth_error_app1 in Hm by lia. auto.
Qed.

Lemma number_before_ext (P Q : nat -> Prop) j r : (forall i, P i <-> Q i) -> number_before P j r -> number_before Q j r.
Proof. intros H (l & N & Hl & I). exists l. split; auto. split; auto. intros i. rewrite I, H. tauto. Qed.
Lemma number_before_all (P : nat -> Prop) j r : (forall i, (i < j)%nat -> P i) -> number_before P j r -> r = j.
Proof.
  intros H (l & N & <- & I). apply Nat.le_antisymm.
  - rewrite <- (seq_length j 0). apply NoDup_incl_length; auto. intros i Hi. apply I in Hi. apply in_seq. lia.
  - rewrite <- (seq_length j 0) at 1. apply NoDup_incl_length; [apply seq_NoDup|]. intros i Hi. apply in_seq in Hi. apply I. split; [lia|]. apply H. lia.
Qed.

Lemma rays_unique b n m : rays b n -> rays b m -> n = m.
Proof. intros ((l & E) & H) (_ & K). rewrite <- (H _ _ E). apply (K _ _ E). Qed.

Lemma NoDup_app_intro {A} (a b : list A) : NoDup a -> NoDup b -> (forall x, In x a -> In x b -> False) -> NoDup (a ++ b).
Proof.
  intros Na Nb H. induction a as [|x a IH]; auto. simpl. inversion Na; subst. constructor.
  - rewrite in_app_iff. intros [Hx|Hx]; auto. apply (H x); auto. left; auto.
  - apply IH; auto. intros y Hy. apply H. right; auto.
Qed.
Lemma nth_error_seq a n i : (i < n)%nat -> nth_error (seq a n) i = Some (a + i)%nat.
Proof.
  revert a i; induction n as [|n IH]; intros a [|i] H; simpl; try lia; auto.
  rewrite IH by lia. f_equal. lia.
Qed.
Lemma nth_error_combine {A B} (l : list A) (k : list B) i :
  nth_error (combine l k) i = match nth_error l i, nth_error k i with Some a, Some b => Some (a, b) | _, _ => None end.
Proof. revert k i; induction l as [|a l IH]; intros [|b k] [|i]; simpl; auto. destruct (nth_error l i); auto. Qed.
Lemma combine_app {A B} (a a' : list A) (b b' : list B) : length a = length b -> combine (a ++ a') (b ++ b') = combine a b ++ combine a' b'.
Proof. revert b; induction a as [|x a IH]; intros [|y b] H; simpl in *; try discriminate; auto. rewrite IH; auto. Qed.

Definition sel_fits (sel : ray_selector) (b : bundle) (n : nat) : Prop :=
  match sel with None => True | Some f => length (f b) = n end.

Lemma mask_known sel b n : traceable b n -> sel_fits sel b n ->
  exists nd, non_degenerate sel b = Ok nd /\ length nd = n /\ forall j, nth_error nd j = Some true <-> shown (chosen sel) b j.
Proof.
  intros T S. destruct (traceable_parts _ _ T) as (vs & ds & es & Ev & Ed & Ee & Lv & Ld & Le).
  unfold non_degenerate, get_energy. rewrite Ee. cbn [get_prop select bind].
  assert (A : forall j, nth_error (map (fun e => negb (Reqb e 0)) es) j = Some true <-> exists e, energy_at b j = Some e /\ e <> 0).
  { intros j. unfold energy_at. rewrite Ee. cbn [at_col]. rewrite nth_error_map. destruct (nth_error es j) as [e|] eqn:E; cbn [option_map].
    - destruct (Reqb_spec e 0); cbn [negb].
      + split; [discriminate|]. intros (e' & Q & N). congruence.
      + split; [|auto]. intros _. eauto.
    - split; [discriminate|]. intros (e & Q & _). discriminate. }
  destruct sel as [f|]; cbn [sel_fits] in S.
  - assert (Q : same_len (f b) (map (fun e => negb (Reqb e 0)) es) = true) by (apply Nat.eqb_eq; rewrite map_length; lia).
    rewrite Q. eexists. split; [reflexivity|]. split; [rewrite map2_length; rewrite map_length; lia|].
    intros j. rewrite map2_nth_error. unfold shown, chosen. specialize (A j). split.
    + destruct (nth_error (map _ _) j) as [[|]|]; destruct (nth_error (f b) j) as [[|]|]; try discriminate. intros _.
      destruct (proj1 A eq_refl) as (e & E1 & E2). eauto.
    + intros (e & E1 & E2 & E3). rewrite E3. rewrite (proj2 A); eauto.
  - eexists. split; [reflexivity|]. split; [rewrite map_length; auto|]. intros j. rewrite A. unfold shown, chosen. split.
    + intros (e & ? & ?). eauto.
    + intros (e & ? & ? & _). eauto.
Qed.

Definition opt_list {A} (o : option bundle) (f : bundle -> option (list A)) : list A :=
  match o with None => [] | Some c => match f c with Some l => l | None => [] end end.

Lemma all_true {A} (l : list A) : nonzero (map (fun _ => true) l) = seq 0 (length l).
Proof. induction l as [|a l IH]; auto. simpl map. rewrite nonzero_cons, IH. simpl. rewrite seq_shift. reflexivity. Qed.
Lemma select_all {A B} (l : list A) (k : list B) : length l = length k -> mask_select (map (fun _ => true) l) k = k.
Proof. revert k; induction l as [|a l IH]; intros [|b k] H; simpl in *; try discriminate; auto. f_equal. auto. Qed.

Lemma level_known esc sel b n nd nx vs ds : traceable b n -> b_vert b = Some vs -> b_dir b = Some ds -> length vs = n -> length ds = n ->
  non_degenerate sel b = Ok nd -> length nd = n ->
  (forall c, nx = Some c -> exists cv ps, b_vert c = Some cv /\ b_parents c = Some ps) ->
  let js := nonzero nd in
  let escaping := map (fun j => negb (existsb (Nat.eqb j) (opt_list nx b_parents))) js in
  level_ends esc sel b nx = Ok (opt_list nx b_vert ++ ends esc (mask_select escaping (mask_select nd vs)) (mask_select escaping (mask_select nd ds)),
    opt_list nx b_parents ++ nonzero escaping).
Proof.
  intros T Ev Ed Lv Ld En Ln Hx js escaping. unfold level_ends. rewrite En. cbn [bind].
  unfold get_vertices, get_directions. rewrite Ev, Ed. cbn [get_prop select bind]. unfold same_len. rewrite Ln, Lv, Ld, Nat.eqb_refl. cbn [bind].
  destruct nx as [c|].
  - destruct (Hx c eq_refl) as (cv & ps & Ec & Ep). unfold get_parents. rewrite Ec, Ep. cbn [get_prop select bind].
    unfold escaping, js, opt_list. rewrite Ec, Ep. reflexivity.
  - unfold opt_list in *. cbn [app]. f_equal. f_equal.
    + assert (L1 : length js = length (mask_select nd vs)) by (unfold js; rewrite mask_select_count; auto; lia).
      assert (L2 : length js = length (mask_select nd ds)) by (unfold js; rewrite mask_select_count; auto; lia).
      unfold escaping. cbn [existsb negb]. rewrite !select_all by auto. reflexivity.
    + unfold escaping. cbn [existsb negb]. rewrite all_true. unfold ends. rewrite map2_length; [|rewrite !mask_select_count; lia].
      rewrite mask_select_count by lia. reflexivity.
Qed.

(** What one level adds. *)
Lemma level_draws t pre b rest n esc sel P here : t = pre ++ b :: rest -> drawable t -> rays b n -> sel_fits sel b n ->
  (forall i, (i < n)%nat -> nth_error P (here + i) = vert_at b i) ->
  exists ev ps ss, level_ends esc sel b (hd_error rest) = Ok (ev, ps) /\ length ps = length ev /\
    (forall c m, hd_error rest = Some c -> rays c m -> forall i, (i < m)%nat -> nth_error ev i = vert_at c i) /\
    NoDup ss /\
    (forall s, In s ss <-> belongs t (chosen sel) s /\ match s with ToChild L _ | Open L _ => L = length pre end) /\
    forall Q, depicts (P ++ ev ++ Q) (combine (map (Nat.add here) ps) (map (Nat.add (length P)) (seq 0 (length ev)))) ss
      (starts_by_count t (chosen sel) esc).
Proof.
  intros Et (_ & HT & HP) Rb Sf HV. set (L := length pre).
  assert (Nb : nth_error t L = Some b) by (unfold L; rewrite Et, nth_error_app2, Nat.sub_diag; auto).
  assert (Nx : nth_error t (L + 1) = hd_error rest).
  { unfold L. rewrite Et, nth_error_app2 by lia. replace (length pre + 1 - length pre)%nat with 1%nat by lia. simpl. destruct rest; auto. }
  assert (Tb : traceable b n).
  { destruct (HT b) as (n' & Tb); [eapply nth_error_In; eauto|]. rewrite <- (rays_unique b n' n); auto. apply Tb. }
  destruct (traceable_parts _ _ Tb) as (vs & ds & es & Ev & Ed & Ee & Lv & Ld & Le).
  destruct (mask_known sel b n Tb Sf) as (nd & En & Ln & Hnd).
  set (nx := hd_error rest) in *.
  assert (HC : exists m cv ps, opt_list nx b_vert = cv /\ opt_list nx b_parents = ps /\ length cv = m /\ length ps = m /\
     (forall j, In j ps -> (j < n)%nat) /\
     (forall c, nx = Some c -> b_vert c = Some cv /\ b_parents c = Some ps /\ rays c m) /\ (nx = None -> m = 0%nat /\ ps = [])).
  { destruct nx as [c|] eqn:Ex.
    - destruct (HP L b c Nb Nx) as (n1 & m & R1 & R2 & Pc & Hk). rewrite (rays_unique b n1 n) in Hk; auto.
      destruct (HT c) as (m' & Tc); [eapply nth_error_In; eauto|].
      destruct (traceable_parts _ _ Tc) as (cv & cd & ce & Ecv & _ & _ & Lcv & _).
      assert (m' = m) by (eapply rays_unique; eauto; apply Tc). subst m'.
      unfold parent_at, at_col in Hk. destruct (b_parents c) as [ps|] eqn:Ep.
      + exists m, cv, ps. unfold opt_list. rewrite Ecv, Ep.
        assert (Lp : length ps = m).
        { pose proof (proj2 R2 Parents (map PNat ps)) as K. simpl in K. rewrite Ep, map_length in K. auto. }
        split; auto. split; auto. split; auto. split; auto. split; [|split; [|discriminate]].
        * intros j Hj. apply In_nth_error in Hj as (k & Hj). assert (Hkm : (k < m)%nat) by (rewrite <- Lp; apply nth_error_Some; congruence).
          destruct (Hk k Hkm) as (j' & E1 & E2). congruence.
        * intros c' E. injection E as <-. auto.
      + congruence.
    - exists 0%nat, [], []. unfold opt_list. repeat split; auto; try discriminate; try (intros ? []); tauto. }
  destruct HC as (m & cv & ps & Ecv & Eps & Lcv & Lps & Hps & HSome & HNone).
  set (js := nonzero nd). set (escaping := map (fun j => negb (existsb (Nat.eqb j) ps)) js).
  assert (K := level_known esc sel b n nd nx vs ds Tb Ev Ed Lv Ld En Ln).
  cbv zeta in K. rewrite Ecv, Eps in K. fold js in K. fold escaping in K.
  specialize (K ltac:(intros c Hc; destruct (HSome c Hc) as (? & ? & _); eauto)).
  set (sv := mask_select nd vs) in *. set (sd := mask_select nd ds) in *.
  set (ks := nonzero escaping) in *. set (xs := mask_select escaping js).
  assert (Le1 : length escaping = length js) by (unfold escaping; apply map_length).
  assert (Lj1 : length sv = length js) by (unfold sv, js; rewrite mask_select_count; auto; lia).
  assert (Lj2 : length sd = length js) by (unfold sd, js; rewrite mask_select_count; auto; lia).
  assert (T1 : take js ks = Ok xs) by (apply mask_select_take; auto).
  assert (T2 : take sv ks = Ok (mask_select escaping sv)) by (apply mask_select_take; lia).
  assert (T3 : take sd ks = Ok (mask_select escaping sd)) by (apply mask_select_take; lia).
  assert (T4 : take vs js = Ok sv) by (apply mask_select_take; lia).
  assert (T5 : take ds js = Ok sd) by (apply mask_select_take; lia).
  set (ev := cv ++ ends esc (mask_select escaping sv) (mask_select escaping sd)) in *.
  assert (Lk : length (ends esc (mask_select escaping sv) (mask_select escaping sd)) = length ks).
  { unfold ends. rewrite map2_length by (rewrite (take_length _ _ _ T2), (take_length _ _ _ T3); auto). apply (take_length _ _ _ T2). }
  assert (Lx : length xs = length ks) by (apply (take_length _ _ _ T1)).
  exists ev, (ps ++ ks), (map (ToChild L) (seq 0 m) ++ map (Open L) xs).
  split; [exact K|]. split; [unfold ev; rewrite !app_length; lia|]. split; [|split; [|split]].
  - intros c m' Hc Rc i Hi. destruct (HSome c Hc) as (E1 & _ & R1). rewrite (rays_unique c m' m) in Hi by auto.
    unfold ev. rewrite nth_error_app1 by lia. unfold vert_at. rewrite E1. reflexivity.
  - assert (N1 : NoDup xs).
    { unfold xs. assert (F : forall mm (l : list nat), NoDup l -> NoDup (mask_select mm l) /\ incl (mask_select mm l) l).
      { induction mm as [|x mm IH]; intros [|a l] N; simpl; try (split; [constructor|intros ? []]).
        inversion N; subst. destruct (IH l H2) as (I1 & I2). destruct x; split; auto.
        - constructor; auto.
        - intros y [->|Hy]; [left; auto|right; auto].
        - intros y Hy. right. auto. }
      apply F. apply nonzero_NoDup. }
    apply NoDup_app_intro.
    + apply FinFun.Injective_map_NoDup; [intros x y E; injection E; auto|apply seq_NoDup].
    + apply FinFun.Injective_map_NoDup; [intros x y E; injection E; auto|auto].
    + intros s H1 H2. apply in_map_iff in H1 as (? & <- & _). apply in_map_iff in H2 as (? & E & _). discriminate.
  - assert (IX : forall j, In j xs <-> shown (chosen sel) b j /\ ~ In j ps).
    { intros j. unfold xs, escaping. rewrite mask_select_filter, filter_In. unfold js. rewrite nonzero_spec, Hnd.
      rewrite negb_true_iff. assert (X : existsb (Nat.eqb j) ps = false <-> ~ In j ps).
      { rewrite <- not_true_iff_false, existsb_exists. split; intros H1 H2; apply H1.
        - exists j. split; auto. apply Nat.eqb_refl.
        - destruct H2 as (x & Hx & Ex). apply Nat.eqb_eq in Ex. subst; auto. }
      rewrite X. tauto. }
    assert (CH : forall j, childless t L j <-> ~ In j ps).
    { intros j. unfold childless. split.
      - intros H Hj. destruct nx as [c|] eqn:Ex.
        + destruct (HSome c eq_refl) as (_ & E2 & _). apply In_nth_error in Hj as (k & Hk). apply (H c k Nx). unfold parent_at. rewrite E2. exact Hk.
        + destruct (HNone eq_refl) as (_ & ->). destruct Hj.
      - intros H c k Hc Hp. rewrite Nx in Hc. destruct (HSome c Hc) as (_ & E2 & _). unfold parent_at in Hp. rewrite E2 in Hp.
        apply H. eapply nth_error_In; eauto. }
    intros s. rewrite in_app_iff, !in_map_iff. split.
    + intros [(k & <- & Hk) | (j & <- & Hj)].
      * split; auto. apply in_seq in Hk. destruct nx as [c|] eqn:Ex; [|destruct (HNone eq_refl); lia].
        destruct (HSome c eq_refl) as (_ & _ & R). exists c, m. split; auto. split; auto. lia.
      * split; auto. apply IX in Hj as (H1 & H2). exists b. split; auto. split; auto. apply CH; auto.
    + destruct s as [L' k|L' j]; intros (Hb & ->).
      * left. destruct Hb as (c & m' & Hc & Rc & Hk). fold L in Hc. rewrite Nx in Hc. destruct (HSome c Hc) as (_ & _ & R).
        rewrite (rays_unique c m' m) in Hk by auto. exists k. split; auto. apply in_seq. lia.
      * right. destruct Hb as (b' & Hb' & H1 & H2). fold L in Hb', H2. rewrite Nb in Hb'. injection Hb' as <-.
        exists j. split; auto. apply IX. split; auto. apply CH; auto.
  - intros Q. unfold depicts.
    assert (Lev : length ev = (m + length ks)%nat) by (unfold ev; rewrite app_length; lia).
    rewrite Lev, seq_app, !map_app. rewrite combine_app by (rewrite !map_length, seq_length; lia).
    apply Forall2_app.
    + apply Forall2_nth. split; [rewrite combine_length, !map_length, !seq_length; lia|].
      intros i a s Ha Hs. rewrite nth_error_map in Hs. destruct (nth_error (seq 0 m) i) as [k|] eqn:Hk; [|discriminate].
      assert (Hi : (i < m)%nat) by (rewrite <- (seq_length m 0); apply nth_error_Some; congruence).
      rewrite nth_error_seq in Hk by auto. injection Hk as <-. injection Hs as <-.
      destruct nx as [c|] eqn:Ex; [|destruct (HNone eq_refl); lia]. destruct (HSome c eq_refl) as (E1 & E2 & R).
      destruct (nth_error ps i) as [j|] eqn:Ej; [|apply nth_error_None in Ej; lia].
      destruct (nth_error cv i) as [q|] eqn:Eq; [|apply nth_error_None in Eq; lia].
      assert (Ea : a = (here + j, length P + i)%nat).
      { rewrite nth_error_combine, !nth_error_map, Ej in Ha. cbn [option_map] in Ha.
        rewrite nth_error_seq in Ha by auto. simpl in Ha. congruence. }
      subst a. cbn [fst snd].
      assert (Hj : (j < n)%nat) by (apply Hps; eapply nth_error_In; eauto).
      specialize (HV j Hj). unfold vert_at in HV. rewrite Ev in HV. cbn [at_col] in HV.
      destruct (nth_error vs j) as [p|] eqn:Ep; [|apply nth_error_None in Ep; lia].
      exists p, q. split; [rewrite nth_error_app1; auto; apply nth_error_Some; congruence|]. split.
      { rewrite nth_error_app2 by lia. replace (length P + i - length P)%nat with i by lia. rewrite nth_error_app1 by lia.
        unfold ev. rewrite nth_error_app1 by lia. auto. }
      cbn [starts_by_count runs]. exists b, c, j. split; auto. split; auto. unfold parent_at, vert_at. rewrite E1, E2, Ev. auto.
    + apply Forall2_nth. split; [rewrite combine_length, !map_length, !seq_length; lia|].
      intros i a s Ha Hs. rewrite nth_error_map in Hs. destruct (nth_error xs i) as [j|] eqn:Hx; [|discriminate]. injection Hs as <-.
      assert (Hi : (i < length ks)%nat) by (rewrite <- Lx; apply nth_error_Some; congruence).
      destruct (nth_error ks i) as [k|] eqn:Ek; [|apply nth_error_None in Ek; lia].
      assert (Ea : a = (here + k, length P + (m + i))%nat).
      { rewrite nth_error_combine, !nth_error_map, Ek in Ha. cbn [option_map] in Ha.
        rewrite nth_error_seq in Ha by auto. simpl in Ha. congruence. }
      subst a. cbn [fst snd].
      pose proof (take_nth _ _ _ _ _ T1 Ek) as X1. rewrite Hx in X1. symmetry in X1.
      pose proof (take_nth _ _ _ _ _ T2 Ek) as X2. pose proof (take_nth _ _ _ _ _ T3 Ek) as X3.
      pose proof (take_nth _ _ _ _ _ T4 X1) as X4. pose proof (take_nth _ _ _ _ _ T5 X1) as X5.
      rewrite X4 in X2. rewrite X5 in X3.
      assert (Kj : (k < length js)%nat) by (apply nth_error_Some; congruence).
      assert (Jn : (j < n)%nat).
      { rewrite <- Ln. apply nth_error_Some. assert (E : nth_error nd j = Some true) by (apply nonzero_spec; eapply nth_error_In; eauto). congruence. }
      assert (Kn : (k < n)%nat).
      { pose proof (count_true_le nd). unfold count_true in H. fold js in H. lia. }
      destruct (nth_error vs k) as [p|] eqn:Ep; [|apply nth_error_None in Ep; lia].
      destruct (nth_error vs j) as [v|] eqn:Evj; [|apply nth_error_None in Evj; lia].
      destruct (nth_error ds j) as [d|] eqn:Edj; [|apply nth_error_None in Edj; lia].
      exists p, (vadd v (vscale esc d)). split.
      { rewrite nth_error_app1; [|apply nth_error_Some]; rewrite HV by auto; unfold vert_at; rewrite Ev; cbn [at_col]; congruence. }
      split.
      { rewrite nth_error_app2 by lia. replace (length P + (m + i) - length P)%nat with (m + i)%nat by lia. rewrite nth_error_app1 by lia.
        unfold ev. rewrite nth_error_app2 by lia. replace (m + i - length cv)%nat with i by lia.
        unfold ends. rewrite map2_nth_error, X2, X3. reflexivity. }
      cbn [starts_by_count]. exists b, v, d, k. split; auto. unfold vert_at, dir_at. rewrite Ev, Ed. cbn [at_col].
      split; auto. split; auto. split; auto. split; auto.
      eapply number_before_ext; [|apply nonzero_rank; exact X1]. exact Hnd.
Qed.

Lemma draw_spec esc sel t : drawable t -> answers_all sel t -> forall rest pre P here, t = pre ++ rest ->
  (forall b n, hd_error rest = Some b -> rays b n -> forall i, (i < n)%nat -> nth_error P (here + i) = vert_at b i) ->
  exists pts cs ss, draw_levels esc sel here (length P) rest = Ok (pts, cs) /\ NoDup ss /\
    (forall s, In s ss <-> belongs t (chosen sel) s /\ match s with ToChild L _ | Open L _ => (length pre <= L)%nat end) /\
    depicts (P ++ pts) cs ss (starts_by_count t (chosen sel) esc).
Proof.
  intros D A rest. induction rest as [|b rest IH]; intros pre P here Et HV.
  - exists [], [], []. split; [reflexivity|]. split; [constructor|]. split; [|constructor].
    rewrite app_nil_r in Et. subst pre. intros s. split; [intros []|]. destruct s as [L k|L j]; intros (Hb & HL).
    + destruct Hb as (c & m & Hc & _). assert (nth_error t (L + 1) <> None) by congruence. apply nth_error_Some in H. lia.
    + destruct Hb as (b & Hb & _). assert (nth_error t L <> None) by congruence. apply nth_error_Some in H. lia.
  - pose proof D as (_ & HT & _). assert (Ib : In b t) by (rewrite Et; apply in_or_app; right; left; auto).
    destruct (HT b Ib) as (n & Tb). assert (Rb : rays b n) by apply Tb.
    assert (Sf : sel_fits sel b n) by (destruct sel; cbn in *; auto).
    destruct (level_draws t pre b rest n esc sel P here Et D Rb Sf (HV b n eq_refl Rb)) as (ev & ps & s1 & E1 & L1 & V1 & N1 & I1 & D1).
    destruct (IH (pre ++ [b]) (P ++ ev) (length P)) as (pts & cs & s2 & E2 & N2 & I2 & D2).
    + rewrite <- app_assoc. exact Et.
    + intros c m Hc Rc i Hi. rewrite nth_error_app2 by lia. replace (length P + i - length P)%nat with i by lia. eapply V1; eauto.
    + exists (ev ++ pts). eexists. exists (s1 ++ s2). cbn [draw_levels]. rewrite E1. cbn [bind]. unfold same_len. rewrite L1, Nat.eqb_refl. cbn [negb].
      rewrite app_length in E2. rewrite E2. cbn [bind]. split; [reflexivity|].
      rewrite app_length in I2. cbn [length] in I2.
      split; [|split].
      * apply NoDup_app_intro; auto. intros s H1 H2. apply I1 in H1 as (_ & H1). apply I2 in H2 as (_ & H2). destruct s; lia.
      * intros s. rewrite in_app_iff, I1, I2. destruct s as [L k|L j]; split; intros H.
        -- destruct H as [(H & H')|(H & H')]; split; auto; lia.
        -- destruct H as (H & H'). destruct (Nat.eq_dec L (length pre)); [left; auto|right; split; auto; lia].
        -- destruct H as [(H & H')|(H & H')]; split; auto; lia.
        -- destruct H as (H & H'). destruct (Nat.eq_dec L (length pre)); [left; auto|right; split; auto; lia].
      * unfold depicts. apply Forall2_app; [apply D1|]. rewrite app_assoc. exact D2.
Qed.

Theorem drawn esc sel t : drawable t -> answers_all sel t ->
  exists pts cs ss, show_rays t esc sel = Ok (pts, cs) /\ lines_of t (chosen sel) ss /\
    depicts pts cs ss (starts_by_count t (chosen sel) esc).
Proof.
  intros D A. destruct t as [|b rest] eqn:Et; [destruct D; congruence|]. rewrite <- Et in *.
  pose proof D as (_ & HT & _). destruct (HT b) as (n & Tb); [rewrite Et; left; auto|].
  destruct (traceable_parts _ _ Tb) as (vs & ds & es & Ev & Ed & Ee & Lv & Ld & Le).
  destruct (draw_spec esc sel t D A t [] vs 0%nat eq_refl) as (pts & cs & ss & E & N & I & Dp).
  - intros b' n' Hb Rb i Hi. rewrite Et in Hb. injection Hb as <-. simpl. unfold vert_at. rewrite Ev. reflexivity.
  - exists (vs ++ pts), cs, ss. split; [|split].
    + unfold show_rays, get_bundle. rewrite Et. cbn [take1 nth_error bind]. unfold get_vertices, get_num_rays. rewrite Ev. cbn [get_prop select bind].
      rewrite <- Et, E. reflexivity.
    + split; auto. intros s. rewrite I. cbn [length]. destruct s; split; [tauto|intros; split; auto; lia|tauto|intros; split; auto; lia].
    + exact Dp.
Qed.

Theorem drawn_faithfully esc sel t : drawable t -> answers_all sel t -> hidden_last t (chosen sel) ->
  exists pts cs, show_rays t esc sel = Ok (pts, cs) /\ faithful t (chosen sel) esc pts cs.
Proof.
  intros D A H. destruct (drawn esc sel t D A) as (pts & cs & ss & E & Ln & Dp). exists pts, cs. split; auto. exists ss. split; auto.
  destruct Ln as (_ & I).
  assert (G : forall cs ss, (forall s, In s ss -> belongs t (chosen sel) s) -> depicts pts cs ss (starts_by_count t (chosen sel) esc) ->
    depicts pts cs ss (runs t esc)).
  { intros cs0 ss0 B Q. induction Q as [|c s cs0 ss0 (p & q & H1 & H2 & H3) Q IH]; [constructor|]. constructor.
    - exists p, q. split; auto. split; auto. destruct s as [L k|L j]; auto.
      destruct (B (Open L j)) as (b' & Hb & Sh & Ch); [left; auto|].
      destruct H3 as (b & v & d & r & Nb & Hv & Hd & Hq & Hr & Hp). rewrite Nb in Hb. injection Hb as <-.
      assert (r = j) by (eapply number_before_all; [|eauto]; intros i Hi; eapply H; eauto). subst r.
      assert (v = p) by congruence. subst v. exists b, d. auto.
    - apply IH. intros s' Hs. apply B. right; auto. }
  apply G; auto. intros s Hs. apply I; auto.
Qed.

(** ** Traces *)
Lemma trace_levels objs surfs me g b n reps vs ds st : library_assembly objs surfs -> library_source b n ->
  ray_tracer surface_ops objs surfs g b reps me TreeTrue = Ok (vs, ds, st) ->
  drawable (t_tree st) /\
  forall L lvl, nth_error (t_tree st) L = Some lvl -> (L = 0%nat -> lvl = b) /\
    exists m ns, traceable lvl m /\ all_rays lib_ray lvl /\ (L <> 0%nat -> split_by_energy lvl m ns me).
Proof.
  intros HA Hb Hrun.
  destruct (library_trace objs surfs me HA g b n reps vs ds st Hb Hrun)
    as (ns & Ts & gs & C & _ & Hlen & B1 & B2 & B3 & B4 & B5 & B6 & B7 & B8).
  pose proof (ct_source _ _ _ _ _ _ _ _ _ _ _ _ _ C) as C0.
  split; [split; [|split]|].
  - intros E. rewrite E in C0. discriminate.
  - intros x Hx. apply In_nth_error in Hx as (L & HL).
    destruct (ct_traced _ _ _ _ _ _ _ _ _ _ _ _ _ C (proj1 Hb) L x HL) as (m & T & _). eauto.
  - intros L p c Hp Hc.
    destruct (ct_level _ _ _ _ _ _ _ _ _ _ _ _ _ C L p c Hp Hc)
      as (tb & rc & m & ems & R1 & R2 & R3 & R4 & R5 & R6 & (R7 & _) & R8).
    destruct (ct_traced _ _ _ _ _ _ _ _ _ _ _ _ _ C (proj1 Hb) L p Hp) as (mp & T1 & T2 & _).
    exists mp, m. split; [apply T1|]. split; [apply R5|]. split.
    + destruct (R7 0%nat R6) as (i & j & t & v & d & A1 & _). unfold parent_at, at_col in A1. destruct (b_parents c); congruence.
    + intros k Hk. destruct (R7 k Hk) as (i & j & t & v & d & A1 & A2 & _). exists j. split; auto. lia.
  - intros L lvl Hl. split; [intros ->; congruence|].
    destruct L as [|L].
    + assert (lvl = b) by congruence. subst lvl. exists n, 0%nat. split; [apply Hb|]. split; [apply Hb|]. congruence.
    + destruct (nth_error (t_tree st) L) as [p|] eqn:Ep.
      2:{ apply nth_error_None in Ep. assert ((Datatypes.S L < length (t_tree st))%nat) by (apply nth_error_Some; congruence). lia. }
      rewrite <- Nat.add_1_r in Hl.
      destruct (ct_level _ _ _ _ _ _ _ _ _ _ _ _ _ C L p lvl Ep Hl)
        as (tb & rc & m & ems & R1 & R2 & R3 & R4 & R5 & R6 & R7 & R8 & R9).
      exists m, (ns (L + 1)%nat). split; auto. split; [eapply B8; eauto|]. auto.
Qed.

Theorem trace_drawn objs surfs g b n reps vs ds st esc : library_assembly objs surfs -> library_source b n ->
  (forall j, energy_at b j <> Some 0) ->
  ray_tracer surface_ops objs surfs g b reps 0 TreeTrue = Ok (vs, ds, st) ->
  exists pts cs, show_rays (t_tree st) esc None = Ok (pts, cs) /\ faithful (t_tree st) (fun _ _ => True) esc pts cs.
Proof.
  intros HA Hb Hz Hrun. destruct (trace_levels _ _ _ _ _ _ _ _ _ _ HA Hb Hrun) as (D & H).
  destruct (drawn_faithfully esc None (t_tree st) D I) as (pts & cs & E & F); [|exists pts, cs; split; [exact E|exact F]].
  intros L lvl i j Hl (e & He & Hn & _) _ Hij. destruct (H L lvl Hl) as (H0 & m & ns & T & A & S).
  assert (Jm : (j < m)%nat) by (eapply traceable_energy_lt; eauto).
  destruct (traceable_energy lvl m i T) as (ei & Hi); [lia|]. exists ei. split; auto. split; [|exact I].
  destruct L as [|L].
  - rewrite H0 in Hi by auto. intros ->. exact (Hz i Hi).
  - destruct (S ltac:(lia)) as (_ & S'). destruct (traceable_dir lvl m j T Jm) as (d & Hd).
    destruct (A j d e Hd He) as (_ & Pe & _). assert ((j < ns)%nat) by (apply (S' j e He); lra).
    assert (0 < ei) by (apply (S' i ei Hi); lia). lra.
Qed.

(** ** Cases *)
Definition falling : bundle :=
  mkB (Some [V3 0 0 1; V3 1 0 1]) (Some [V3 0 0 (-1); V3 0 0 (-1)]) (Some [1; 1]) (Some [0; 0]%nat) None [].
Definition leaving (e : R) : bundle :=
  mkB (Some [V3 0 0 0; V3 1 0 0]) (Some [V3 0 0 1; V3 0 0 1]) (Some [e; 1 / 100]) (Some [0; 1]%nat) None [].

Lemma two_rays b l : b_extra b = [] -> b_vert b = Some l -> length l = 2%nat ->
  (forall x, b_dir b = Some x -> length x = 2%nat) -> (forall x, b_energy b = Some x -> length x = 2%nat) ->
  (forall x, b_parents b = Some x -> length x = 2%nat) -> (forall x, b_ref b = Some x -> length x = 2%nat) ->
  b_dir b <> None -> b_energy b <> None -> traceable b 2.
Proof.
  intros Hx Hv Hl Hd He Hp Hr D E. split; [unfold names_ok; rewrite Hx; constructor|]. split; [|split; auto].
  split; [exists (map PVec l); simpl; rewrite Hv; reflexivity|].
  intros p k Hk. destruct p as [ | | | | |nm]; simpl in Hk.
  - rewrite Hv in Hk. injection Hk as <-. rewrite map_length. auto.
  - destruct (b_dir b); [|discriminate]. injection Hk as <-. rewrite map_length. auto.
  - destruct (b_energy b); [|discriminate]. injection Hk as <-. rewrite map_length. auto.
  - destruct (b_parents b); [|discriminate]. injection Hk as <-. rewrite map_length. auto.
  - destruct (b_ref b); [|discriminate]. injection Hk as <-. rewrite map_length. auto.
  - rewrite Hx in Hk. discriminate.
Qed.

Lemma falling_ok : traceable falling 2.
Proof. eapply two_rays; try reflexivity; try discriminate; intros x E; try discriminate; injection E as <-; reflexivity. Qed.
Lemma leaving_ok e : traceable (leaving e) 2.
Proof. eapply two_rays; try reflexivity; try discriminate; intros x E; try discriminate; injection E as <-; reflexivity. Qed.

Lemma pair_drawable e : drawable [falling; leaving e].
Proof.
  split; [discriminate|]. split.
  - intros b [<-|[<-|[]]]; exists 2%nat; auto using falling_ok, leaving_ok.
  - intros [|[|L]] b c Hb Hc; simpl in *; try discriminate.
    + injection Hb as <-. injection Hc as <-. exists 2%nat, 2%nat. split; [apply falling_ok|]. split; [apply leaving_ok|]. split; [discriminate|].
      intros [|[|k]] Hk; simpl; try lia; eexists; split; try reflexivity; lia.
    + destruct L; discriminate.
Qed.

Lemma pair_picture pts cs : show_rays [falling; leaving 0] 1 None = Ok (pts, cs) ->
  pts = [V3 0 0 1; V3 1 0 1; V3 0 0 0; V3 1 0 0; vadd (V3 1 0 0) (vscale 1 (V3 0 0 1))] /\ cs = [(0, 2); (1, 3); (2, 4)]%nat.
Proof.
  unfold show_rays, falling, leaving.
  cbn [get_bundle take1 nth_error bind get_vertices get_prop select b_vert get_num_rays length draw_levels hd_error].
  unfold level_ends, non_degenerate, get_energy, get_vertices, get_directions, get_parents. cbn [b_vert b_dir b_energy b_parents get_prop select bind map].
  destruct (Reqb_spec 1 0); [lra|]. destruct (Reqb_spec 0 0); [|lra]. destruct (Reqb_spec (1 / 100) 0); [lra|].
  cbn. intros E. injection E as <- <-. split; reflexivity.
Qed.

Theorem misdrawn : exists t pts cs, drawable t /\ show_rays t 1 None = Ok (pts, cs) /\ ~ faithful t (fun _ _ => True) 1 pts cs.
Proof.
  exists [falling; leaving 0]. destruct (drawn 1 None [falling; leaving 0] (pair_drawable 0) I) as (pts & cs & _ & E & _).
  exists pts, cs. split; [apply pair_drawable|]. split; auto. apply pair_picture in E as (-> & ->); auto.
  intros (ss & (N & B) & D).
  assert (I1 : In (Open 1 1) ss).
  { apply B. exists (leaving 0). split; auto. split.
    - exists (1 / 100). split; [reflexivity|]. split; [lra|exact I].
    - intros c k Hc. discriminate. }
  unfold depicts in D.
  assert (X : forall cs ss, Forall2 (fun c s => exists p q, nth_error [V3 0 0 1; V3 1 0 1; V3 0 0 0; V3 1 0 0; vadd (V3 1 0 0) (vscale 1 (V3 0 0 1))] (fst c) = Some p /\
     nth_error [V3 0 0 1; V3 1 0 1; V3 0 0 0; V3 1 0 0; vadd (V3 1 0 0) (vscale 1 (V3 0 0 1))] (snd c) = Some q /\ runs [falling; leaving 0] 1 s p q) cs ss ->
     In (Open 1 1) ss -> exists c, In c cs /\ nth_error [V3 0 0 1; V3 1 0 1; V3 0 0 0; V3 1 0 0; vadd (V3 1 0 0) (vscale 1 (V3 0 0 1))] (fst c) = Some (V3 1 0 0)).
  { clear. intros cs ss H. induction H as [|c s cs ss (p & q & H1 & _ & H3) H IH]; intros Hi; [destruct Hi|]. destruct Hi as [->|Hi].
    - exists c. split; [left; auto|]. destruct H3 as (b & d & Hb & Hp & _). injection Hb as <-. injection Hp as <-. exact H1.
    - destruct (IH Hi) as (c' & I & E). exists c'. split; [right; auto|auto]. }
  destruct (X _ _ D I1) as (c & Hc & E). destruct Hc as [<-|[<-|[<-|[]]]]; cbn [fst nth_error] in E; injection E; lra.
Qed.

Lemma well_drawn_case : exists pts cs, show_rays [falling; leaving (1 / 10)] 1 None = Ok (pts, cs) /\
  faithful [falling; leaving (1 / 10)] (fun _ _ => True) 1 pts cs.
Proof.
  apply (drawn_faithfully 1 None); [apply pair_drawable|exact I|].
  intros [|[|L]] b i j Hb (e & He & _) _ Hij; simpl in Hb; [| |destruct L; discriminate]; injection Hb as <-.
  - pose proof (traceable_energy_lt _ _ _ _ falling_ok He). destruct i as [|[|i]]; [|lia|lia].
    exists 1. split; [reflexivity|]. split; [lra|exact I].
  - pose proof (traceable_energy_lt _ _ _ _ (leaving_ok (1 / 10)) He). destruct i as [|[|i]]; [|lia|lia].
    exists (1 / 10). split; [reflexivity|]. split; [lra|exact I].
Qed.

Theorem drawn_though_not_chosen : exists t sel pts cs, drawable t /\ answers_all sel t /\ (forall b j, ~ chosen sel b j) /\
  show_rays t 1 sel = Ok (pts, cs) /\ cs <> [].
Proof.
  set (sel := Some (fun _ : bundle => [false; false])). exists [falling; leaving 1], sel.
  assert (A : answers_all sel [falling; leaving 1]).
  { intros b n [<-|[<-|[]]] R.
    - rewrite (rays_unique _ _ _ R (proj1 (proj2 falling_ok))). reflexivity.
    - rewrite (rays_unique _ _ _ R (proj1 (proj2 (leaving_ok 1)))). reflexivity. }
  destruct (drawn 1 sel _ (pair_drawable 1) A) as (pts & cs & ss & E & (_ & B) & D). exists pts, cs.
  split; [apply pair_drawable|]. split; auto. split; [intros b [|[|[|j]]]; discriminate|]. split; auto.
  intros ->. inversion D; subst. assert (I1 : In (ToChild 0 0) []).
  { apply B. exists (leaving 1), 2%nat. split; [reflexivity|]. split; [apply (leaving_ok 1)|lia]. }
  destruct I1.
Qed.
