(** Proofs about [intersect_ray]. *)
From Coq Require Import Reals List Arith ZArith Bool Lia Lra.
From Verif.Base Require Import Py Num Vec.
From Verif.Model Require Import RayBundle Engine.
From Verif.Spec Require Import BundleSpec EngineSpec.
From Verif.Proof Require Import ListLemmas NumLemmas BundleProof.
Import ListNotations.

Lemma nth_error_repeat_lt {A} (x : A) n j : j < n -> nth_error (repeat x n) j = Some x.
Proof.
  revert j; induction n; intros [|j] H; simpl; auto; try lia. apply IHn; lia.
Qed.

Lemma mask_select_nth {A} m (l : list A) k : length m = length l ->
  nth_error (mask_select m l) k =
  match nth_error (nonzero m) k with Some j => nth_error l j | None => None end.
Proof.
  intros H. pose proof (mask_select_take m l H) as T.
  destruct (nth_error (nonzero m) k) as [j|] eqn:E.
  - eapply take_nth; eauto.
  - apply nth_error_None. apply nth_error_None in E. rewrite (take_length _ _ _ T). auto.
Qed.

Section Intersect.
Context {S G : Type}.
Variable ops : surf_ops S G.

Lemma owned_row_length own so rel n :
  length own = n -> length rel = n -> length (owned_row own so rel) = n.
Proof. intros H1 H2. unfold owned_row. rewrite map2_length; lia. Qed.

Lemma owned_row_nth own so rel j :
  nth_error (owned_row own so rel) j = Some true <->
  exists o, nth_error own j = Some o /\ (o = (-1)%Z \/ o = Z.of_nat so) /\
    nth_error rel j = Some true.
Proof.
  unfold owned_row. rewrite map2_nth_error.
  destruct (nth_error own j) as [o|], (nth_error rel j) as [r|]; split; intros H;
    try discriminate; try (destruct H as (o' & ? & ? & ?); discriminate).
  - injection H as H. apply andb_prop in H. destruct H as (H & ->).
    apply orb_prop in H. exists o; split; auto. split; auto.
    rewrite !Z.eqb_eq in H. auto.
  - destruct H as (o' & E & Ho & Er). injection E as <-. injection Er as ->.
    f_equal. rewrite andb_true_r. apply orb_true_iff. rewrite !Z.eqb_eq. auto.
Qed.

(** One row *)
Definition row_spec (b : bundle) (n : nat) (own : list Z) (s : S) (so : nat) (rel : list bool)
    (s' : S) (row : list num) (owned : list bool) : Prop :=
  length own = n /\ length rel = n /\ owned = owned_row own so rel /\
  length row = n /\ length owned = n /\
  (forall j, j < n -> nth_error owned j = Some false -> nth_error row j = Some (Fin 0)) /\
  ((nonzero owned = [] /\ s' = s) \/
   (nonzero owned <> [] /\ exists sub params,
      names_ok sub /\ rays_picked b (nonzero owned) sub /\
      register_incoming ops s sub = Ok (s', params) /\
      Forall2 (fun j x => nth_error row j = Some x) (nonzero owned) params)).

Lemma nonzero_all m : any (map negb m) = false -> nonzero m = seq 0 (length m).
Proof.
  intros H. rewrite nonzero_filter.
  assert (G0 : forall i, i < length m -> nth i m false = true).
  { intros i Hi. rewrite any_false in H. specialize (H i).
    destruct (nth i m false) eqn:E; auto.
    rewrite (nth_indep _ false (negb false)) in H by (rewrite map_length; auto).
    rewrite map_nth, E in H. discriminate. }
  clear H. rewrite <- (firstn_all (seq 0 (length m))) at 2. rewrite seq_length.
  rewrite (proj1 (Forall_forall (fun i => nth i m false = true) (seq 0 (length m)))
    ltac:(apply Forall_forall; intros i Hi; apply in_seq in Hi; apply G0; lia)) || idtac.
  rewrite firstn_all2 by (rewrite seq_length; auto).
  assert (F : forall l, (forall i, In i l -> nth i m false = true) ->
     filter (fun i => nth i m false) l = l).
  { induction l as [|x l IH]; simpl; auto. intros Hl. rewrite (Hl x) by auto.
    f_equal; apply IH; auto. }
  apply F. intros i Hi; apply in_seq in Hi; apply G0; lia.
Qed.

Lemma test_surface_spec b n own s so rel s' row owned :
  rays b n -> names_ok b ->
  test_surface ops b n own s so rel = Ok (s', row, owned) ->
  row_spec b n own s so rel s' row owned.
Proof.
  intros Hr Hn H. unfold test_surface in H.
  destruct (Nat.eqb_spec (length own) n) as [Hown|]; [|discriminate].
  destruct (Nat.eqb_spec (length rel) n) as [Hrel|]; [|discriminate]. simpl in H.
  set (ow := owned_row own so rel) in *.
  assert (How : length ow = n) by (apply owned_row_length; auto).
  destruct (any ow) eqn:Ea; simpl in H.
  - apply bind_ok in H. destruct H as (sub & Esub & H).
    apply bind_ok in H. destruct H as ([s1 params] & Ereg & H).
    destruct (Nat.eqb_spec (length params) (count_true ow)) as [Hc|]; [|discriminate].
    injection H as <- <- <-.
    unfold row_spec. split; auto. split; auto. split; auto.
    split; [rewrite put_mask_length, repeat_length; auto|]. split; auto.
    split.
    { intros j Hj E. rewrite put_mask_other by congruence. apply nth_error_repeat_lt; auto. }
    right. split.
    { intros E. apply any_true in Ea. apply In_nth_error in Ea. destruct Ea as (j & Ej).
      apply nonzero_spec in Ej. rewrite E in Ej. destruct Ej. }
    exists sub, params. split; [|split; [|split; auto]].
    + destruct (any (map negb ow)).
      * eapply inherit_names; [exact Hn| |exact Esub]. constructor.
      * injection Esub as <-; auto.
    + intros p. destruct (any (map negb ow)) eqn:En.
      * pose proof (inherit_sound _ _ _ _ Esub p) as Hs. rewrite prop_no_bundle in Hs.
        unfold inh in Hs. destruct (prop b p) as [l|] eqn:Ep; auto.
        destruct Hs as (l' & E & _ & Hp). exists l'. split; auto.
        destruct Hr as (_ & Hr). rewrite (Hr _ _ Ep) in Hp.
        rewrite mask_positions in Hp; auto.
      * injection Esub as <-. destruct (prop b p) as [l|] eqn:Ep; auto.
        exists l; split; auto. rewrite (nonzero_all ow En), How.
        destruct Hr as (_ & Hr). rewrite <- (Hr _ _ Ep). apply picks_seq.
    + apply take_ok. rewrite mask_select_take by (rewrite put_mask_length, repeat_length; auto).
      f_equal. apply put_mask_select; [rewrite repeat_length; auto|auto].
  - injection H as <- <- <-. unfold row_spec. repeat (split; auto).
    + apply repeat_length.
    + intros j Hj _. apply nth_error_repeat_lt; auto.
    + left. split; auto. apply any_false_nonzero; auto.
Qed.

Lemma test_surfaces_nth b n own surfs : forall sown rel ss rows owneds,
  test_surfaces ops b n own surfs sown rel = Ok (ss, rows, owneds) ->
  length ss = length surfs /\ length rows = length surfs /\ length owneds = length surfs /\
  forall i s, nth_error surfs i = Some s ->
    exists so r s' row ow, nth_error sown i = Some so /\ nth_error rel i = Some r /\
      nth_error ss i = Some s' /\ nth_error rows i = Some row /\ nth_error owneds i = Some ow /\
      test_surface ops b n own s so r = Ok (s', row, ow).
Proof.
  induction surfs as [|s surfs IH]; intros sown rel ss rows owneds H; simpl in H.
  - injection H as <- <- <-. repeat split; auto. intros [|i] s; discriminate.
  - destruct sown as [|so sown]; [discriminate|]. destruct rel as [|r rel]; [discriminate|].
    apply bind_ok in H. destruct H as ([[s' row] ow] & E1 & H).
    apply bind_ok in H. destruct H as ([[ss' rows'] ows'] & E2 & H).
    injection H as <- <- <-. destruct (IH _ _ _ _ _ E2) as (L1 & L2 & L3 & IH').
    simpl. repeat split; auto. intros [|i] s0 Hs; simpl in *.
    + injection Hs as <-. exists so, r, s', row, ow. auto 10.
    + apply IH'; auto.
Qed.

(** The column minimum. *)
Lemma fold_map2_nth (rs : list (list num)) : forall r j x,
  nth_error r j = Some x -> (forall r', In r' rs -> length r' = length r) ->
  exists cs, map (fun r' => nth_error r' j) rs = map Some cs /\
    nth_error (fold_left (map2 nmin2) rs r) j = Some (fold_left nmin2 cs x).
Proof.
  induction rs as [|r1 rs IH]; intros r j x Hx Hl; simpl.
  - exists []; auto.
  - assert (Hj : j < length r) by (apply nth_error_Some; congruence).
    assert (L1 : length r1 = length r) by (apply Hl; left; auto).
    destruct (nth_error r1 j) as [y|] eqn:Ey; [|apply nth_error_None in Ey; lia].
    destruct (IH (map2 nmin2 r r1) j (nmin2 x y)) as (cs & E1 & E2).
    + rewrite map2_nth_error, Hx, Ey; auto.
    + intros r' Hr'. rewrite map2_length by auto. apply Hl; right; auto.
    + exists (y :: cs). simpl. rewrite E1. auto.
Qed.

Lemma col_min_spec (m : list (list num)) mins n :
  (forall r, In r m -> length r = n) -> col_min m = Ok mins ->
  forall j, j < n -> exists mj, nth_error mins j = Some mj /\
    (mj = NaN <-> exists r, In r m /\ nth_error r j = Some NaN) /\
    (mj <> NaN -> (exists r, In r m /\ nth_error r j = Some mj) /\
       forall r x, In r m -> nth_error r j = Some x -> nle mj x = true).
Proof.
  intros Hl H j Hj. destruct m as [|r rs]; [discriminate|]. injection H as <-.
  assert (Hr : length r = n) by (apply Hl; left; auto).
  destruct (nth_error r j) as [x|] eqn:Ex; [|apply nth_error_None in Ex; lia].
  destruct (fold_map2_nth rs r j x Ex) as (cs & E1 & E2).
  { intros r' Hr'. rewrite Hr. apply Hl; right; auto. }
  exists (fold_left nmin2 cs x). split; auto.
  assert (C : forall y, In y (x :: cs) <-> exists r', In r' (r :: rs) /\ nth_error r' j = Some y).
  { intros y. split.
    - intros [<-|Hy]; [exists r; split; [left|]; auto|].
      apply (in_map Some) in Hy. rewrite <- E1 in Hy. apply in_map_iff in Hy.
      destruct Hy as (r' & E & Hr'). exists r'. split; [right|]; auto.
    - intros (r' & [<-|Hr'] & E); [left; congruence|right].
      apply (in_map (fun r' => nth_error r' j)) in Hr'. rewrite E1, E in Hr'.
      apply in_map_iff in Hr'. destruct Hr' as (z & Ez & Hz). congruence. }
  split.
  - rewrite fold_nmin_nan. apply C.
  - intros Hm. destruct (fold_nmin_spec cs x _ eq_refl Hm) as (Hi & Hle). split.
    + apply C; auto.
    + intros r' y Hr' Ey. apply Hle. apply C; eauto.
Qed.

(** Clearing small parameters *)
Definition clr (on : bool) (x : num) : num :=
  if on && nle x (Fin (tenm 6)) then PInf else x.
Definition cut (stack : list (list num)) : bool := any2 (fun x => nle x (Fin (tenm 10))) stack.

Lemma clear_zeros_map stack : clear_zeros stack = map (map (clr (cut stack))) stack.
Proof.
  unfold clear_zeros, cut, clr. destruct (any2 _ stack); simpl; auto.
  symmetry. rewrite <- (map_id stack) at 2. apply map_ext. intros; apply map_id.
Qed.

Lemma any2_true f (m : list (list num)) :
  any2 f m = true <-> exists r x, In r m /\ In x r /\ f x = true.
Proof.
  unfold any2. rewrite existsb_exists. split.
  - intros (r & Hr & H). apply existsb_exists in H. destruct H as (x & Hx & H). eauto.
  - intros (r & x & Hr & Hx & H). exists r; split; auto. apply existsb_exists; eauto.
Qed.

(** The reports of an [intersect_ray] call. *)
Definition rep_of (rows : list (list num)) (owneds : list (list bool)) : reports :=
  fun i j => match at2 owneds i j with Some true => at2 rows i j | _ => None end.

Lemma filter_eq_ext {A} (f g : A -> bool) l :
  (forall x, In x l -> f x = g x) -> filter f l = filter g l.
Proof. apply filter_ext_in. Qed.

Lemma asked_rep rows owneds i n row ow :
  nth_error rows i = Some row -> nth_error owneds i = Some ow ->
  length row = n -> length ow = n ->
  asked (rep_of rows owneds) n i = nonzero ow.
Proof.
  intros Er Eo Lr Lo. unfold asked. rewrite nonzero_filter, Lo.
  apply filter_ext_in. intros j Hj. apply in_seq in Hj. unfold rep_of, at2. rewrite Er, Eo.
  destruct (nth_error ow j) as [o|] eqn:E; [|apply nth_error_None in E; lia].
  erewrite nth_error_nth by eauto. destruct o; auto.
  destruct (nth_error row j) eqn:E2; auto. apply nth_error_None in E2; lia.
Qed.

(** Everything there is to know about a successful [intersect_ray]. *)
Record intersect_facts (b : bundle) (n : nat) (surfs : list S) (sown : list nat) (own : list Z)
    (rel : list (list bool)) (ss : list S) (fr owned : list (list bool)) (T : reports) : Prop := {
  if_len : length ss = length surfs /\ length fr = length surfs /\ length owned = length surfs;
  if_rows : forall i, i < length surfs -> exists f o,
     nth_error fr i = Some f /\ nth_error owned i = Some o /\ length f = n /\ length o = n;
  if_owned : forall i j, at2 owned i j = Some true <-> i < length surfs /\ j < n /\ T i j <> None;
  if_tested : forall i j, i < length surfs -> j < n ->
     (T i j <> None <-> may_test sown own rel i j);
  if_range : forall i j, T i j <> None -> i < length surfs /\ j < n;
  if_answers : forall i s, nth_error surfs i = Some s -> exists s', nth_error ss i = Some s' /\
     answers ops b n T i s s';
  if_first : forall i j, at2 fr i j = Some true <-> exists t, meets_first T (length surfs) n i j t;
  if_sown : forall i, i < length surfs -> exists so, nth_error sown i = Some so;
  if_nonneg : forall i j x, T i j = Some x -> nlt x (Fin (- tenm 16)) = false }.

Lemma at2_In {A} (m : list (list A)) i j x :
  at2 m i j = Some x -> exists r, nth_error m i = Some r /\ nth_error r j = Some x.
Proof. unfold at2. destruct (nth_error m i); [eauto|discriminate]. Qed.

Lemma intersect_ray_facts b n surfs sown own rel ss fr owned :
  rays b n -> names_ok b ->
  intersect_ray ops b surfs sown own rel = Ok (ss, fr, owned) ->
  exists T, intersect_facts b n surfs sown own rel ss fr owned T.
Proof.
  intros Hr Hn H. unfold intersect_ray in H. rewrite (rays_num _ _ Hr) in H. simpl in H.
  apply bind_ok in H. destruct H as ([[ss' stack] owned'] & Et & H).
  destruct (any2 (fun x => nlt x (Fin (- tenm 16))) stack) eqn:Eneg; [discriminate|].
  apply bind_ok in H. destruct H as (mins & Em & H). injection H as <- <- <-.
  rename ss' into ss, owned' into owned.
  destruct (test_surfaces_nth _ _ _ _ _ _ _ _ _ Et) as (L1 & L2 & L3 & Hi).
  assert (Hrow : forall i s, nth_error surfs i = Some s ->
    exists so r s' row ow, nth_error sown i = Some so /\ nth_error rel i = Some r /\
      nth_error ss i = Some s' /\ nth_error stack i = Some row /\ nth_error owned i = Some ow /\
      row_spec b n own s so r s' row ow).
  { intros i s Hs. destruct (Hi i s Hs) as (so & r & s' & row & ow & A1 & A2 & A3 & A4 & A5 & A6).
    exists so, r, s', row, ow. do 5 (split; [assumption|]). apply test_surface_spec; auto. }
  clear Hi Et.
  assert (Hex : forall i, i < length surfs -> exists s, nth_error surfs i = Some s).
  { intros i Hl. destruct (nth_error surfs i) eqn:E; eauto. apply nth_error_None in E; lia. }
  assert (Hlen : forall r, In r stack -> length r = n).
  { intros r Hin. apply In_nth_error in Hin. destruct Hin as (i & Ei).
    assert (i < length surfs) as Hl by (rewrite <- L2; apply nth_error_Some; congruence).
    destruct (Hex i Hl) as (s & Es). destruct (Hrow i s Es) as (so & rr & s' & row & ow & _ & _ & _ & A4 & _ & RS).
    rewrite Ei in A4. injection A4 as <-. apply RS. }
  set (T := rep_of stack owned).
  assert (HT : forall i j x, T i j = Some x -> i < length surfs /\ j < n /\
             at2 stack i j = Some x /\ at2 owned i j = Some true).
  { intros i j x E. unfold T, rep_of in E. destruct (at2 owned i j) as [[|]|] eqn:Eo; try discriminate.
    destruct (at2_In _ _ _ _ E) as (r & E1 & E2).
    assert (i < length surfs) by (rewrite <- L2; apply nth_error_Some; congruence).
    assert (j < length r) by (apply nth_error_Some; congruence).
    rewrite (Hlen r) in * by (eapply nth_error_In; eauto). auto. }
  assert (HTn : forall i j, i < length surfs -> j < n -> T i j = None -> at2 stack i j = Some (Fin 0)).
  { intros i j Hl Hj E. destruct (Hex i Hl) as (s & Es).
    destruct (Hrow i s Es) as (so & rr & s' & row & ow & _ & _ & _ & A4 & A5 & RS).
    destruct RS as (_ & _ & _ & Lr & Lo & Hz & _).
    unfold T, rep_of, at2 in E. unfold at2. rewrite A4, A5 in *.
    destruct (nth_error ow j) as [[|]|] eqn:Eo.
    - destruct (nth_error row j) eqn:E2; [discriminate|]. apply nth_error_None in E2; lia.
    - auto.
    - apply nth_error_None in Eo; lia. }
  (* the cutoff *)
  assert (Hcut : cut stack = true <-> cutoff_on T (length surfs) n).
  { unfold cut. rewrite any2_true. split.
    - intros (r & x & Hin & Hx & Hle). apply In_nth_error in Hin. destruct Hin as (i & Ei).
      apply In_nth_error in Hx. destruct Hx as (j & Ej).
      assert (Hl : i < length surfs) by (rewrite <- L2; apply nth_error_Some; congruence).
      assert (Hj : j < length r) by (apply nth_error_Some; congruence).
      rewrite (Hlen r) in Hj by (eapply nth_error_In; eauto).
      exists i, j. split; auto. split; auto. destruct (T i j) as [y|] eqn:E; auto.
      destruct (HT _ _ _ E) as (_ & _ & E2 & _). unfold at2 in E2. rewrite Ei, Ej in E2.
      injection E2 as <-. auto.
    - intros (i & j & Hl & Hj & Hm). destruct (T i j) as [x|] eqn:E.
      + destruct (HT _ _ _ E) as (_ & _ & E2 & _). apply at2_In in E2. destruct E2 as (r & E1 & E2).
        exists r, x. split; [eapply nth_error_In; eauto|]. split; [eapply nth_error_In; eauto|auto].
      + pose proof (HTn _ _ Hl Hj E) as E2. apply at2_In in E2. destruct E2 as (r & E1 & E2).
        exists r, (Fin 0). split; [eapply nth_error_In; eauto|]. split; [eapply nth_error_In; eauto|].
        simpl. apply Rleb_true. left; apply tenm_pos. }
  exists T. constructor.
  - unfold front. rewrite map_length, clear_zeros_map, map_length. auto.
  - intros i Hl. destruct (Hex i Hl) as (s & Es).
    destruct (Hrow i s Es) as (so & rr & s' & row & ow & _ & _ & _ & A4 & A5 & RS).
    destruct RS as (_ & _ & _ & Lr & Lo & _).
    exists (map2 (fun x m => neqb x m && negb (nisinf x)) (map (clr (cut stack)) row) mins), ow.
    split.
    { unfold front. rewrite clear_zeros_map, map_map, nth_error_map, A4. reflexivity. }
    split; auto. split; auto.
    rewrite map2_length, map_length; auto. rewrite map_length, Lr.
    assert (Lm : forall rs r, length r = n -> (forall r', In r' rs -> length r' = n) ->
               length (fold_left (map2 nmin2) rs r) = n).
    { induction rs as [|r1 rs IH]; intros r Lr' Hl'; simpl; auto. apply IH.
      - rewrite map2_length; auto. rewrite (Hl' r1); [lia|left; auto].
      - intros; apply Hl'; right; auto. }
    assert (Hl' : forall r, In r (clear_zeros stack) -> length r = n).
    { rewrite clear_zeros_map. intros r Hin. apply in_map_iff in Hin.
      destruct Hin as (r0 & <- & Hin). rewrite map_length; auto. }
    destruct (clear_zeros stack) as [|r rs]; [discriminate|]. injection Em as <-.
    symmetry. apply Lm; [apply Hl'; left; auto|intros; apply Hl'; right; auto].
  - intros i j. split.
    + intros E. destruct (at2_In _ _ _ _ E) as (ow & E1 & E2).
      assert (Hl : i < length surfs) by (rewrite <- L3; apply nth_error_Some; congruence).
      destruct (Hex i Hl) as (s & Es).
      destruct (Hrow i s Es) as (so & rr & s' & row & ow' & _ & _ & _ & A4 & A5 & RS).
      destruct RS as (_ & _ & _ & Lr & Lo & _). rewrite E1 in A5. injection A5 as <-.
      assert (Hj : j < n) by (rewrite <- Lo; apply nth_error_Some; congruence).
      split; auto. split; auto. unfold T, rep_of. rewrite E. unfold at2. rewrite A4.
      apply nth_error_Some. lia.
    + intros (_ & _ & Hne). destruct (T i j) eqn:E; [|congruence].
      apply HT in E. tauto.
  - intros i j Hl Hj. destruct (Hex i Hl) as (s & Es).
    destruct (Hrow i s Es) as (so & rr & s' & row & ow & A1 & A2 & _ & A4 & A5 & RS).
    destruct RS as (_ & _ & Eow & Lr & Lo & _).
    transitivity (nth_error ow j = Some true).
    + unfold T, rep_of, at2. rewrite A4, A5. split.
      * destruct (nth_error ow j) as [[|]|]; congruence.
      * intros ->. apply nth_error_Some. lia.
    + rewrite Eow, owned_row_nth. unfold may_test, at2. rewrite A1, A2. split.
      * intros (o & Ho & Hc & Hrel). exists so, o. auto.
      * intros (so' & o & E & Ho & Hc & Hrel). injection E as <-. exists o; auto.
  - intros i j Hne. destruct (T i j) eqn:E; [|congruence]. apply HT in E. tauto.
  - intros i s Es.
    destruct (Hrow i s Es) as (so & rr & s' & row & ow & _ & _ & A3 & A4 & A5 & RS).
    exists s'. split; auto. destruct RS as (_ & _ & _ & Lr & Lo & _ & HA).
    unfold answers. 
    assert (EA : asked T n i = nonzero ow) by exact (asked_rep stack owned i n row ow A4 A5 Lr Lo).
    rewrite EA.
    destruct HA as [HA|(Hne & sub & params & Hsn & Hs & Hreg & HF)]; [left; auto|right].
    split; auto. exists sub, params. split; auto. split; auto. split; auto.
    assert (Hnz : forall j, In j (nonzero ow) -> T i j = nth_error row j).
    { intros j Hj. apply nonzero_spec in Hj. unfold T, rep_of, at2. rewrite A4, A5, Hj. auto. }
    clear -HF Hnz. induction HF; constructor.
    + rewrite Hnz; [auto|left; auto].
    + apply IHHF. intros; apply Hnz; right; auto.
  - intros i j. unfold front.
    assert (Hcl : forall i j x, at2 (clear_zeros stack) i j = Some x <->
               exists y, at2 stack i j = Some y /\ x = clr (cut stack) y).
    { intros i' j' x. rewrite clear_zeros_map. unfold at2. rewrite nth_error_map.
      destruct (nth_error stack i') as [r|]; simpl.
      - rewrite nth_error_map. destruct (nth_error r j'); simpl; split; intros E.
        + injection E as <-; eauto.
        + destruct E as (y & E1 & ->). congruence.
        + discriminate.
        + destruct E as (y & E1 & _); discriminate.
      - split; [discriminate|]. intros (y & E1 & _); discriminate. }
    assert (Hlc : forall r, In r (clear_zeros stack) -> length r = n).
    { rewrite clear_zeros_map. intros r Hin. apply in_map_iff in Hin.
      destruct Hin as (r0 & <- & Hin). rewrite map_length; auto. }
    pose proof (col_min_spec _ _ n Hlc Em) as Hm.
    assert (Hfr : at2 (map (fun row => map2 (fun x m => neqb x m && negb (nisinf x)) row mins)
                      (clear_zeros stack)) i j = Some true <->
                  exists x m, at2 (clear_zeros stack) i j = Some x /\ nth_error mins j = Some m /\
                     neqb x m && negb (nisinf x) = true).
    { unfold at2. rewrite nth_error_map. destruct (nth_error (clear_zeros stack) i) as [r|]; simpl.
      - rewrite map2_nth_error. destruct (nth_error r j) as [x|], (nth_error mins j) as [m|]; split;
          intros E; try discriminate; try (destruct E as (x' & m' & ? & ? & ?); congruence).
        injection E as E. exists x, m; auto.
      - split; [discriminate|]. intros (x & m & ? & _); discriminate. }
    rewrite Hfr. clear Hfr. split.
    + intros (x & m & Ex & Emj & Heq). apply neqb_fin in Heq. destruct Heq as (t & -> & ->).
      exists t. apply Hcl in Ex. destruct Ex as (y & Ey & Et).
      assert (Hl : i < length surfs /\ j < n).
      { destruct (at2_In _ _ _ _ Ey) as (r & E1 & E2).
        split; [rewrite <- L2; apply nth_error_Some; congruence|].
        rewrite <- (Hlen r) by (eapply nth_error_In; eauto). apply nth_error_Some; congruence. }
      destruct Hl as (Hl & Hj). destruct (Hm j Hj) as (mj & E1 & Hnan & Hmin).
      rewrite E1 in Emj. injection Emj as ->.
      destruct (Hmin ltac:(discriminate)) as (_ & Hle). clear Hmin.
      assert (Hyt : y = Fin t /\ (cut stack = true -> (tenm 6 < t)%R)).
      { unfold clr in Et. destruct (cut stack); simpl in Et.
        - destruct (nle y (Fin (tenm 6))) eqn:E; [discriminate|]. subst y. split; auto. intros _.
          simpl in E. apply Rleb_false in E; auto.
        - split; auto. discriminate. }
      destruct Hyt as (-> & Hgt).
      assert (Hasked : T i j = Some (Fin t)).
      { destruct (T i j) as [z|] eqn:E.
        - apply HT in E. destruct E as (_ & _ & E & _). congruence.
        - exfalso. pose proof (HTn _ _ Hl Hj E) as E0. rewrite Ey in E0. injection E0 as ->.
          assert (cutoff_on T (length surfs) n) as Hc by (exists i, j; rewrite E; auto).
          apply Hcut in Hc. specialize (Hgt Hc). pose proof (tenm_pos 6). lra. }
      split; auto. split; auto. split; auto. split.
      { intros (Hc & Hle'). apply Hcut in Hc. specialize (Hgt Hc). lra. }
      intros i' Hl'. destruct (T i' j) as [z|] eqn:E; auto.
      destruct (HT _ _ _ E) as (_ & _ & E2 & _).
      assert (E3 : at2 (clear_zeros stack) i' j = Some (clr (cut stack) z)) by (apply Hcl; eauto).
      destruct (at2_In _ _ _ _ E3) as (r & Er & Erj).
      pose proof (Hle r _ (nth_error_In _ _ Er) Erj) as L.
      unfold clr in L. destruct (cut stack && nle z (Fin (tenm 6))) eqn:Ec.
      * apply andb_prop in Ec. destruct Ec as (Ec & Ez).
        destruct z; simpl in Ez; try discriminate.
        -- left. split; [apply Hcut; auto|apply Rleb_true; auto].
        -- assert (any2 (fun x => nlt x (Fin (- tenm 16))) stack = true); [|congruence].
           apply any2_true. destruct (at2_In _ _ _ _ E2) as (r2 & F1 & F2).
           exists r2, NInf. split; [eapply nth_error_In; eauto|]. split; [eapply nth_error_In; eauto|].
           reflexivity.
      * destruct z; simpl in L; auto; try discriminate. right. apply Rleb_true; auto.
    + intros (t & Hl & Hj & Ht & Hnd & Hall).
      destruct (HT _ _ _ Ht) as (_ & _ & E2 & _).
      assert (Ec : clr (cut stack) (Fin t) = Fin t).
      { unfold clr. destruct (cut stack) eqn:Ec; auto. simpl.
        destruct (Rleb_spec t (tenm 6)); auto. exfalso. apply Hnd. split; auto. apply Hcut; auto. }
      assert (Ecl : at2 (clear_zeros stack) i j = Some (Fin t)) by (apply Hcl; exists (Fin t); auto).
      destruct (Hm j Hj) as (mj & E1 & Hnan & Hmin). exists (Fin t), mj.
      split; auto. split; auto. apply neqb_fin. exists t. split; auto.
      assert (Hge : forall r x, In r (clear_zeros stack) -> nth_error r j = Some x ->
                nle (Fin t) x = true).
      { intros r x Hin Ex. apply In_nth_error in Hin. destruct Hin as (i' & Ei').
        assert (E3 : at2 (clear_zeros stack) i' j = Some x) by (unfold at2; rewrite Ei'; auto).
        assert (Hl' : i' < length surfs).
        { apply Hcl in E3. destruct E3 as (y & Ey & _). destruct (at2_In _ _ _ _ Ey) as (r' & F1 & _).
          rewrite <- L2. apply nth_error_Some. congruence. }
        apply Hcl in E3. destruct E3 as (y & Ey & ->). specialize (Hall i' Hl').
        destruct (T i' j) as [z|] eqn:E.
        - destruct (HT _ _ _ E) as (_ & _ & E4 & _). rewrite Ey in E4. injection E4 as <-.
          unfold clr. destruct y as [y| | |]; try contradiction.
          + destruct Hall as [(Hc & Hy)|Hy].
            * apply Hcut in Hc. rewrite Hc. simpl.
              rewrite (proj2 (Rleb_true y (tenm 6)) Hy). reflexivity.
            * destruct (cut stack); simpl; [destruct (Rleb y (tenm 6)); auto|]; apply Rleb_true; auto.
          + simpl. rewrite andb_false_r. reflexivity.
        - pose proof (HTn _ _ Hl' Hj E) as E4. rewrite Ey in E4. injection E4 as ->.
          assert (cut stack = true) as ->.
          { apply Hcut. exists i', j. rewrite E. auto. }
          unfold clr. simpl.
          rewrite (proj2 (Rleb_true 0 (tenm 6)) ltac:(pose proof (tenm_pos 6); lra)). reflexivity. }
      assert (Hnn : mj <> NaN).
      { intros En. apply Hnan in En. destruct En as (r & Hin & Er). specialize (Hge r NaN Hin Er).
        discriminate. }
      destruct (Hmin Hnn) as ((r & Hin & Er) & Hle). specialize (Hge r mj Hin Er).
      destruct (at2_In _ _ _ _ Ecl) as (r2 & F1 & F2).
      specialize (Hle r2 (Fin t) (nth_error_In _ _ F1) F2).
      destruct mj as [m| | |]; simpl in *; try discriminate; try congruence.
      apply Rleb_true in Hge, Hle. f_equal; lra.
  - intros i Hl. destruct (Hex i Hl) as (s & Es).
    destruct (Hrow i s Es) as (so & rr & s' & row & ow & A1 & _). eauto.
  - intros i j x E. destruct (HT _ _ _ E) as (_ & _ & E2 & _).
    destruct (nlt x (Fin (- tenm 16))) eqn:En; auto. exfalso.
    assert (any2 (fun x => nlt x (Fin (- tenm 16))) stack = true); [|congruence].
    apply any2_true. destruct (at2_In _ _ _ _ E2) as (r2 & F1 & F2).
    exists r2, x. split; [eapply nth_error_In; eauto|]. split; [eapply nth_error_In; eauto|auto].
Qed.

End Intersect.
