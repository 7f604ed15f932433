(** Further proofs about the engine: the positivity check, the [tree] argument,
    repeated traces, total energy. *)
From Coq Require Import Reals List Arith ZArith Bool Lia Lra Permutation.
From Verif.Base Require Import Py Num Vec.
From Verif.Model Require Import RayBundle TraceTree Engine.
From Verif.Spec Require Import BundleSpec EngineSpec.
From Verif.Proof Require Import ListLemmas NumLemmas BundleProof IntersectProof ProcessProof IterProof TraceProof TreeProof.
Import ListNotations.

(** ** Success or failure of [intersect_ray] *)
Section Positivity.
Context {S G : Type}.
Variable ops : surf_ops S G.

Lemma test_surface_total b n own s so rel T i :
  rays b n -> names_ok b -> length own = n -> length rel = n ->
  asked T n i = nonzero (owned_row own so rel) ->
  will_answer ops b n T i s ->
  exists s' row, test_surface ops b n own s so rel = Ok (s', row, owned_row own so rel) /\
    length row = n /\
    (forall j x, T i j = Some x -> j < n -> nth_error row j = Some x) /\
    (forall j, T i j = None -> j < n -> nth_error row j = Some (Fin 0)).
Proof.
  intros Hr Hn Lo Lr Ha Hw.
  assert (Hask : forall j, In j (asked T n i) <-> j < n /\ T i j <> None).
  { intros j. unfold asked. rewrite filter_In, in_seq. destruct (T i j); split; intros; try lia; intuition (try congruence; try lia). }
  assert (Lw : length (owned_row own so rel) = n) by (apply owned_row_length; auto).
  destruct (any (owned_row own so rel)) eqn:Ea.
  - assert (Hne : asked T n i <> []).
    { rewrite Ha. apply any_true in Ea. apply In_nth_error in Ea. destruct Ea as (j & Ej).
      apply nonzero_spec in Ej. intros E. rewrite E in Ej. destruct Ej. }
    destruct Hw as [Hw|Hw]; [contradiction|].
    set (ow := owned_row own so rel) in *.
    assert (Hsub : exists sub, (if any (map negb ow) then inherit b (SMask ow) no_bundle else Ok b) = Ok sub /\
               names_ok sub /\ rays_picked b (nonzero ow) sub).
    { destruct (any (map negb ow)) eqn:En.
      - destruct (inherit_total b (SMask ow) no_bundle Hn) as (sub & Es).
        { intros p l _ Hp. simpl. rewrite (proj2 Hr p l Hp). auto. }
        exists sub. split; auto. split; [eapply inherit_names; [exact Hn| |exact Es]; constructor|].
        intros p. pose proof (inherit_sound _ _ _ _ Es p) as Hs. rewrite prop_no_bundle in Hs.
        unfold inh in Hs. destruct (prop b p) as [l|] eqn:Ep; auto.
        destruct Hs as (l' & E & _ & Hp). exists l'. split; auto.
        destruct Hr as (_ & Hr). rewrite (Hr _ _ Ep) in Hp. rewrite mask_positions in Hp; auto.
      - exists b. split; auto. split; auto. intros p. destruct (prop b p) as [l|] eqn:Ep; auto.
        exists l; split; auto. rewrite (nonzero_all ow En), Lw.
        destruct Hr as (_ & Hr). rewrite <- (Hr _ _ Ep). apply picks_seq. }
    destruct Hsub as (sub & Esub & Hsn & Hsp).
    rewrite Ha in Hw. destruct (Hw sub Hsn Hsp) as (s' & params & Ereg & HF).
    assert (Lp : length params = count_true ow) by (symmetry; exact (Forall2_length _ _ _ HF)).
    assert (E : test_surface ops b n own s so rel = Ok (s', put_mask ow (repeat (Fin 0) n) params, ow)).
    { unfold test_surface. rewrite (proj2 (Nat.eqb_eq _ _) Lo), (proj2 (Nat.eqb_eq _ _) Lr). cbn [andb negb].
      fold ow. rewrite Ea. cbn [negb]. rewrite Esub. cbn [bind]. rewrite Ereg. cbn [bind].
      rewrite (proj2 (Nat.eqb_eq _ _) Lp). auto. }
    exists s', (put_mask ow (repeat (Fin 0) n) params). split; auto.
    split; [rewrite put_mask_length, repeat_length; auto|]. split.
    + intros j x Hx Hj.
      assert (Hin : In j (nonzero ow)) by (rewrite <- Ha; apply Hask; split; congruence).
      apply In_nth_error in Hin. destruct Hin as (q & Hq).
      assert (Hp : picks (put_mask ow (repeat (Fin 0) n) params) (nonzero ow) params).
      { apply take_ok. rewrite mask_select_take by (rewrite put_mask_length, repeat_length; auto).
        f_equal. apply put_mask_select; [rewrite repeat_length; auto|auto]. }
      rewrite <- (picks_nth _ _ _ _ _ Hp Hq).
      rewrite Forall2_nth in HF. destruct HF as (LF & HF).
      destruct (nth_error params q) as [y|] eqn:Ey.
      * specialize (HF q j y Hq Ey). congruence.
      * apply nth_error_None in Ey. assert (q < length (nonzero ow)) by (apply nth_error_Some; congruence). lia.
    + intros j Hx Hj. rewrite put_mask_other; [apply nth_error_repeat_lt; auto|].
      intros Hc. assert (Hin : In j (asked T n i)) by (rewrite Ha; apply nonzero_spec; exact Hc).
      apply Hask in Hin. tauto.
  - exists s, (repeat (Fin 0) n). split.
    { unfold test_surface. rewrite (proj2 (Nat.eqb_eq _ _) Lo), (proj2 (Nat.eqb_eq _ _) Lr). cbn [andb negb].
      rewrite Ea. auto. }
    split; [apply repeat_length|]. split.
    + intros j x Hx Hj. exfalso.
      assert (Hin : In j (asked T n i)) by (apply Hask; split; congruence).
      rewrite Ha, (any_false_nonzero _ Ea) in Hin. destruct Hin.
    + intros j _ Hj. apply nth_error_repeat_lt; auto.
Qed.

Lemma test_surfaces_total b n own T : forall surfs k sown rel,
  rays b n -> names_ok b -> length own = n -> length sown = length surfs ->
  length rel = length surfs -> Forall (fun r => length r = n) rel ->
  (forall i so r, nth_error sown i = Some so -> nth_error rel i = Some r ->
     asked T n (k + i) = nonzero (owned_row own so r)) ->
  (forall i s, nth_error surfs i = Some s -> will_answer ops b n T (k + i) s) ->
  exists ss rows owneds, test_surfaces ops b n own surfs sown rel = Ok (ss, rows, owneds) /\
    length rows = length surfs /\ Forall (fun r => length r = n) rows /\
    forall i j, i < length surfs -> j < n ->
      at2 rows i j = Some (match T (k + i) j with Some x => x | None => Fin 0 end).
Proof.
  induction surfs as [|s surfs IH]; intros k sown rel Hr Hn Lo Ls Ll Hf Ha Hw.
  - exists [], [], []. simpl. split; auto. split; auto. split; auto. intros; lia.
  - destruct sown as [|so sown]; [discriminate|]. destruct rel as [|r rel]; [discriminate|].
    inversion Hf as [|? ? Hf1 Hf2]; subst. simpl in Ls, Ll.
    destruct (test_surface_total b (length own) own s so r T k Hr Hn) as (s' & row & E1 & L1 & R1 & R2); auto.
    { specialize (Ha 0 so r eq_refl eq_refl). rewrite Nat.add_0_r in Ha. auto. }
    { specialize (Hw 0 s eq_refl). rewrite Nat.add_0_r in Hw. auto. }
    destruct (IH (Datatypes.S k) sown rel) as (ss & rows & ows & E2 & L2 & L3 & R3); auto.
    { intros i so' r' H1 H2. specialize (Ha (Datatypes.S i) so' r' H1 H2).
      rewrite Nat.add_succ_r in Ha. exact Ha. }
    { intros i s0 H1. specialize (Hw (Datatypes.S i) s0 H1). rewrite Nat.add_succ_r in Hw. exact Hw. }
    exists (s' :: ss), (row :: rows), (owned_row own so r :: ows).
    cbn [test_surfaces]. rewrite E1. cbn [bind]. rewrite E2. cbn [bind]. split; auto.
    simpl. split; [lia|]. split; [constructor; auto|].
    intros [|i] j Hi Hj.
    + rewrite Nat.add_0_r. unfold at2. simpl. destruct (T k j) eqn:E; auto.
    + rewrite Nat.add_succ_r. apply (R3 i j); lia || auto.
Qed.

Lemma asked_owned T n nsurf sown own rel i so r :
  (forall i j, i < nsurf -> j < n -> (T i j <> None <-> may_test sown own rel i j)) ->
  i < nsurf -> length own = n -> length r = n -> nth_error sown i = Some so -> nth_error rel i = Some r ->
  asked T n i = nonzero (owned_row own so r).
Proof.
  intros HT Hi Lo Lr Es Er. rewrite nonzero_filter, (owned_row_length own so r n Lo Lr).
  unfold asked. apply filter_ext_in. intros j Hj. apply in_seq in Hj.
  destruct (HT i j Hi) as (H1 & H2); [lia|].
  pose proof (owned_row_nth own so r j) as Hrow.
  destruct (T i j) eqn:E.
  - destruct H1 as (so' & o & E1 & E2 & E3 & E4); [discriminate|].
    assert (nth_error (owned_row own so r) j = Some true) as Ht.
    { apply Hrow. unfold at2 in E4. rewrite Er in E4. exists o. assert (so' = so) by congruence. subst so'. auto. }
    symmetry. apply nth_error_nth. auto.
  - destruct (nth_error (owned_row own so r) j) as [[|]|] eqn:E2.
    + exfalso. destruct (proj1 Hrow eq_refl) as (o & A1 & A2 & A3). apply H2; auto.
      exists so, o. unfold at2. rewrite Er. auto.
    + rewrite (nth_error_nth _ _ _ E2). auto.
    + rewrite nth_overflow; auto. apply nth_error_None. auto.
Qed.

Lemma intersect_ray_outcome b n surfs sown own rel T :
  rays b n -> names_ok b -> surfs <> [] -> fits (length surfs) n sown own rel ->
  (forall i j, T i j <> None -> i < length surfs /\ j < n) ->
  (forall i j, i < length surfs -> j < n -> (T i j <> None <-> may_test sown own rel i j)) ->
  (forall i s, nth_error surfs i = Some s -> will_answer ops b n T i s) ->
  ((exists i j x, T i j = Some x /\ nlt x (Fin (- tenm 16)) = true) ->
     intersect_ray ops b surfs sown own rel = Err ValueError) /\
  ((forall i j x, T i j = Some x -> nlt x (Fin (- tenm 16)) = false) ->
     exists r, intersect_ray ops b surfs sown own rel = Ok r).
Proof.
  intros Hr Hn Hne (Ls & Lo & Ll & Hf) Hrange HT Hw.
  destruct (test_surfaces_total b n own T surfs 0 sown rel) as (ss & rows & ows & E & L & Lr & Hrows); auto.
  { intros i so r E1 E2. assert (Hi : i < length surfs) by (rewrite <- Ls; apply nth_error_Some; congruence).
    eapply asked_owned; eauto. rewrite Forall_forall in Hf. apply Hf. eapply nth_error_In; eauto. }
  simpl in Hrows. unfold intersect_ray. rewrite (rays_num _ _ Hr). cbn [bind]. rewrite E. cbn [bind]. split.
  - intros (i & j & x & Hx & Hneg). destruct (Hrange i j) as (Hi & Hj); [congruence|].
    specialize (Hrows i j Hi Hj). rewrite Hx in Hrows. apply at2_In in Hrows. destruct Hrows as (r & E1 & E2).
    assert (any2 (fun x => nlt x (Fin (- tenm 16))) rows = true) as ->; auto.
    apply any2_true. exists r, x. split; [eapply nth_error_In; eauto|]. split; [eapply nth_error_In; eauto|auto].
  - intros Hpos. destruct (any2 (fun x => nlt x (Fin (- tenm 16))) rows) eqn:Ea.
    { exfalso. apply any2_true in Ea. destruct Ea as (r & x & Hr1 & Hx & Hneg).
      apply In_nth_error in Hr1. destruct Hr1 as (i & Ei). apply In_nth_error in Hx. destruct Hx as (j & Ej).
      assert (Hi : i < length surfs) by (rewrite <- L; apply nth_error_Some; congruence).
      assert (Hj : j < n).
      { rewrite Forall_forall in Lr. rewrite <- (Lr r); [apply nth_error_Some; congruence|eapply nth_error_In; eauto]. }
      specialize (Hrows i j Hi Hj). unfold at2 in Hrows. rewrite Ei, Ej in Hrows. injection Hrows as ->.
      destruct (T i j) as [y|] eqn:Ey.
      - rewrite (Hpos i j y Ey) in Hneg. discriminate.
      - simpl in Hneg. apply Rltb_true in Hneg. pose proof (tenm_pos 16). lra. }
    destruct rows as [|r0 rows]; [destruct surfs; [congruence|discriminate]|].
    rewrite clear_zeros_map. cbn [map col_min bind]. eauto.
Qed.
End Positivity.

(** ** The [tree] argument *)
Section TreeArg.
Context {S G : Type}.
Variable ops : surf_ops S G.
Variable objs : list obj.
Variable me : R.

Definition with_tree (t : tree) (st : tstate S G) : tstate S G :=
  mkT (t_surfs st) (t_g st) (t_bund st) (t_own st) (t_rel st) t (t_record st).

Lemma iteration_false ta st st' go t :
  iteration ops objs me ta st = Ok (st', go) ->
  iteration ops objs me TreeFalse (with_tree t st) = Ok (with_tree t st', go).
Proof.
  intros H. unfold iteration in *. destruct st as [ss g b own rel tr rcd]. simpl in *.
  destruct (intersect_ray ops b ss (surf_ownership objs) own rel) as [[[ss1 fr] owned]|]; [|discriminate]. cbn [bind] in *.
  destruct (process_surfaces ops objs me 0 ss1 g fr owned) as [[[ss2 g2] bl]|]; [|discriminate]. cbn [bind] in *.
  destruct (concatenate_rays (map k_strong bl)) as [bund|]; [|discriminate]. cbn [bind] in *.
  apply bind_ok in H. destruct H as (tr' & _ & H).
  destruct (get_num_rays bund) as [n|]; [|discriminate]. cbn [bind] in *.
  destruct (Nat.eqb n 0); injection H as <- <-; reflexivity.
Qed.

Lemma iterate_false ta reps : forall st st' t,
  iterate ops objs me ta reps st = Ok st' ->
  iterate ops objs me TreeFalse reps (with_tree t st) = Ok (with_tree t st').
Proof.
  induction reps as [|reps IH]; intros st st' t H; simpl in *.
  - injection H as <-. auto.
  - apply bind_ok in H. destruct H as ([st1 go] & E & H).
    rewrite (iteration_false _ _ _ _ t E). cbn [bind]. destruct go; auto. injection H as <-. auto.
Qed.
End TreeArg.

(** ** Repeated traces *)
Section Again.
Context {S G : Type}.
Variable ops : surf_ops S G.
Variable P : S -> Prop.
Hypothesis Hdet : deterministic ops P.
Variable objs : list obj.
Variable me : R.

Definition with_g (g : G) (st : tstate S G) : tstate S G :=
  mkT (t_surfs st) g (t_bund st) (t_own st) (t_rel st) (t_tree st) (t_record st).

Lemma test_surface_P b n own s so rel s' row ow : P s ->
  test_surface ops b n own s so rel = Ok (s', row, ow) -> P s'.
Proof.
  intros Hs H. unfold test_surface in H. destruct (negb _) in H; [discriminate|].
  destruct (negb (any (owned_row own so rel))); [injection H as <- <- <-; auto|].
  apply bind_ok in H. destruct H as (k & _ & H). apply bind_ok in H. destruct H as ([s1 ps] & E & H).
  destruct (Nat.eqb _ _) in H; [|discriminate]. injection H as <- <- <-. eapply (proj1 Hdet); eauto.
Qed.

Lemma test_surfaces_P b n own ss : forall sown rel ss' rows ows, Forall P ss ->
  test_surfaces ops b n own ss sown rel = Ok (ss', rows, ows) -> Forall P ss'.
Proof.
  induction ss as [|s ss IH]; intros sown rel ss' rows ows Hs H; cbn [test_surfaces] in H.
  - injection H as <- <- <-. constructor.
  - destruct sown as [|so sown], rel as [|r rel]; try discriminate. inversion Hs; subst.
    apply bind_ok in H. destruct H as ([[s1 row] ow] & E1 & H).
    apply bind_ok in H. destruct H as ([[ss1 rows1] ows1] & E2 & H). injection H as <- <- <-.
    constructor; [eapply test_surface_P; eauto|eauto].
Qed.

Lemma intersect_ray_P b ss sown own rel ss' fr ow : Forall P ss ->
  intersect_ray ops b ss sown own rel = Ok (ss', fr, ow) -> Forall P ss'.
Proof.
  intros Hs H. unfold intersect_ray in H. apply bind_ok in H. destruct H as (n & _ & H).
  apply bind_ok in H. destruct H as ([[ss1 st] ow1] & E & H). destruct (any2 _ _) in H; [discriminate|].
  apply bind_ok in H. destruct H as (m & _ & H). injection H as <- <- <-. eapply test_surfaces_P; eauto.
Qed.

Lemma process_surface_g idx s g g' f o s2 g2 k : P s ->
  process_surface ops objs me idx s g f o = Ok (s2, g2, k) ->
  P s2 /\ exists g2', process_surface ops objs me idx s g' f o = Ok (s2, g2', k).
Proof.
  destruct Hdet as (_ & Dsel & Ddone & Dout).
  intros Hs H. unfold process_surface in *. destruct (negb (any (mask_select o f))); [injection H as <- <- <-; eauto|].
  destruct (select_rays ops s (nonzero (mask_select o f))) as [s1|] eqn:Es; [|discriminate]. cbn [bind] in *.
  assert (Hs1 : P s1) by eauto. pose proof (Dout s1 g g' Hs1) as Hd.
  destruct (get_outgoing ops s1 g) as [[ou g1]|]; [|discriminate].
  destruct (get_outgoing ops s1 g') as [[ou' g1']|]; [|contradiction]. subst ou'. cbn [bind] in *.
  repeat (apply bind_ok in H; destruct H as (? & ?E & H)).
  injection H as <- <- <-. split; auto. exists g1'.
  repeat match goal with E : ?x = Ok _ |- context[?x] => rewrite E; cbn [bind] end. reflexivity.
Qed.

Lemma process_surfaces_g surfs : forall idx g g' frs os ss2 g2 ks, Forall P surfs ->
  process_surfaces ops objs me idx surfs g frs os = Ok (ss2, g2, ks) ->
  Forall P ss2 /\ exists g2', process_surfaces ops objs me idx surfs g' frs os = Ok (ss2, g2', ks).
Proof.
  induction surfs as [|s surfs IH]; intros idx g g' frs os ss2 g2 ks HP H; simpl in *.
  - injection H as <- <- <-. eauto.
  - destruct frs as [|f frs]; [discriminate|]. destruct os as [|o os]; [discriminate|]. inversion HP; subst.
    apply bind_ok in H. destruct H as ([[s1 g1] k] & E1 & H).
    apply bind_ok in H. destruct H as ([[ss g3] ks'] & E2 & H). injection H as <- <- <-.
    destruct (process_surface_g _ _ _ g' _ _ _ _ _ H2 E1) as (P1 & g1' & ->). cbn [bind].
    destruct (IH _ _ g1' _ _ _ _ _ H3 E2) as (P2 & g3' & ->). cbn [bind]. eauto.
Qed.

Lemma iteration_g ta st st' go g' : Forall P (t_surfs st) -> iteration ops objs me ta st = Ok (st', go) ->
  Forall P (t_surfs st') /\ exists g2, iteration ops objs me ta (with_g g' st) = Ok (with_g g2 st', go).
Proof.
  intros HP H. unfold iteration in *. destruct st as [ss g b own rel tr rcd]. simpl in *.
  destruct (intersect_ray ops b ss (surf_ownership objs) own rel) as [[[ss1 fr] owned]|] eqn:Ei; [|discriminate]. cbn [bind] in *.
  pose proof (intersect_ray_P _ _ _ _ _ _ _ _ HP Ei) as HP1.
  destruct (process_surfaces ops objs me 0 ss1 g fr owned) as [[[ss2 g2] bl]|] eqn:Ep; [|discriminate].
  destruct (process_surfaces_g _ _ _ g' _ _ _ _ _ HP1 Ep) as (HP2 & g2' & ->). cbn [bind] in *.
  destruct (concatenate_rays (map k_strong bl)) as [bund|]; [|discriminate]. cbn [bind] in *.
  apply bind_ok in H. destruct H as (tr' & -> & H). cbn [bind].
  destruct (get_num_rays bund) as [n|]; [|discriminate]. cbn [bind] in *.
  split; [destruct (Nat.eqb n 0); injection H as <- <-; auto|].
  exists g2'. destruct (Nat.eqb n 0); injection H as <- <-; reflexivity.
Qed.

Lemma iterate_g ta reps : forall st st' g', Forall P (t_surfs st) -> iterate ops objs me ta reps st = Ok st' ->
  exists g2, iterate ops objs me ta reps (with_g g' st) = Ok (with_g g2 st').
Proof.
  induction reps as [|reps IH]; intros st st' g' HP H; simpl in *.
  - injection H as <-. eauto.
  - apply bind_ok in H. destruct H as ([st1 go] & E & H).
    destruct (iteration_g _ _ _ _ g' HP E) as (HP1 & g2 & ->). cbn [bind]. destruct go; auto. injection H as <-. eauto.
Qed.

Lemma ray_tracer_g surfs g g' b reps ta vs ds st : Forall P surfs ->
  ray_tracer ops objs surfs g b reps me ta = Ok (vs, ds, st) ->
  exists g2, ray_tracer ops objs surfs g' b reps me ta = Ok (vs, ds, with_g g2 st).
Proof.
  intros HP H. unfold ray_tracer, start in *.
  destruct (get_num_rays b) as [n|]; [|discriminate]. cbn [bind] in *.
  apply bind_ok in H. destruct H as (st1 & E1 & H).
  edestruct iterate_g with (g' := g') as (g2 & E2); [|exact E1|]; [exact HP|]. unfold with_g in E2 at 1. simpl in E2. rewrite E2. cbn [bind].
  apply bind_ok in H. destruct H as (st2 & E3 & H).
  exists g2. assert (E4 : (match ta with
         | TreeFalse =>
             match t_record (with_g g2 st1) with
             | None => Err UnboundLocalError
             | Some bs =>
                 rec <- concatenate_rays bs ;;
                 Ok (mkT (t_surfs (with_g g2 st1)) (t_g (with_g g2 st1)) (t_bund (with_g g2 st1)) (t_own (with_g g2 st1)) (t_rel (with_g g2 st1))
                       (append (t_tree (with_g g2 st1)) rec) (t_record (with_g g2 st1)))
             end
         | _ => Ok (with_g g2 st1)
         end) = Ok (with_g g2 st2)).
  { destruct ta; try (injection E3 as <-; reflexivity). simpl in *.
    destruct (t_record st1) as [bs|]; [|discriminate]. destruct (concatenate_rays bs); [|discriminate].
    simpl in *. injection E3 as <-. reflexivity. }
  rewrite E4. cbn [bind]. simpl.
  apply bind_ok in H. destruct H as (v & -> & H). apply bind_ok in H. destruct H as (d & -> & H).
  injection H as <- <- <-. reflexivity.
Qed.
End Again.

(** ** Total energy *)
Lemma sum_R_map_le {A} (f g : A -> R) l : (forall x, In x l -> (f x <= g x)%R) -> (sum_R (map f l) <= sum_R (map g l))%R.
Proof.
  induction l as [|x l IH]; intros H; [simpl; lra|]. simpl map. rewrite !sum_R_cons.
  specialize (IH (fun y Hy => H y (or_intror Hy))). specialize (H x (or_introl eq_refl)). lra.
Qed.
Lemma sum_R_nonneg l : (forall x, In x l -> (0 <= x)%R) -> (0 <= sum_R l)%R.
Proof.
  induction l as [|x l IH]; intros H; [simpl; lra|]. rewrite sum_R_cons.
  specialize (IH (fun y Hy => H y (or_intror Hy))). specialize (H x (or_introl eq_refl)). lra.
Qed.
Lemma sum_R_firstn n l : (forall x, In x l -> (0 <= x)%R) -> (sum_R (firstn n l) <= sum_R l)%R.
Proof.
  intros H. rewrite <- (firstn_skipn n l) at 2. rewrite sum_R_app.
  assert (0 <= sum_R (skipn n l))%R; [|lra]. apply sum_R_nonneg. intros x Hx. apply H.
  rewrite <- (firstn_skipn n l). apply in_or_app. auto.
Qed.

Lemma sum_by_parent : forall (pes : list (nat * R)) n, (forall pe, In pe pes -> fst pe < n) ->
  sum_R (map (fun j => sum_R (map snd (filter (fun pe => Nat.eqb (fst pe) j) pes))) (seq 0 n)) = sum_R (map snd pes).
Proof.
  induction pes as [|[p e] pes IH]; intros n H.
  - simpl. apply sum_R_zero. intros x Hx. apply in_map_iff in Hx. destruct Hx as (j & <- & _). reflexivity.
  - change (map snd ((p, e) :: pes)) with (e :: map snd pes). rewrite sum_R_cons. rewrite <- (IH n) by (intros; apply H; right; auto).
    assert (Hp : In p (seq 0 n)) by (apply in_seq; specialize (H (p, e) (or_introl eq_refl)); simpl in H; lia).
    assert (Hnd : NoDup (seq 0 n)) by apply seq_NoDup.
    clear IH H. revert Hp Hnd. generalize (seq 0 n) as l. intros l Hp Hnd.
    set (h := fun j => sum_R (map snd (filter (fun pe : nat * R => Nat.eqb (fst pe) j) pes))).
    rewrite (map_ext _ (fun j => ((if Nat.eqb p j then e else 0) + h j)%R)).
    2:{ intros j. unfold h. simpl. destruct (Nat.eqb p j); [cbn [map snd]; rewrite sum_R_cons|]; lra. }
    clearbody h. induction l as [|j l IHl]; [destruct Hp|].
    inversion Hnd as [|? ? Hn1 Hn2]; subst. cbn [map]. rewrite !sum_R_cons.
    destruct (Nat.eqb_spec p j) as [->|Hne].
    + assert (E : map (fun j0 => ((if Nat.eqb j j0 then e else 0) + h j0)%R) l = map h l).
      { apply map_ext_in. intros k Hk. destruct (Nat.eqb_spec j k); [subst; contradiction|lra]. }
      rewrite E. lra.
    + destruct Hp as [->|Hp]; [congruence|]. rewrite IHl by auto. lra.
Qed.

Lemma total_energy_from b m n : traceable b m -> b_parents b <> None ->
  (forall k p, parent_at b k = Some p -> p < n) ->
  total_energy b = sum_R (map (energy_from b) (seq 0 n)).
Proof.
  intros (_ & (_ & Hl) & _ & He) Hp Hlt. unfold total_energy, energy_from, parent_at in *.
  pose proof (Hl Parents) as Lp. pose proof (Hl Energy) as Le. simpl in Lp, Le.
  destruct (b_parents b) as [ps|]; [|congruence]. destruct (b_energy b) as [es|]; [|congruence].
  specialize (Lp _ eq_refl). specialize (Le _ eq_refl). rewrite map_length in Lp, Le.
  rewrite sum_by_parent.
  - f_equal. clear -Lp Le. revert es m Lp Le. induction ps as [|p ps IH]; intros [|e es] m Lp Le; simpl in *; auto; try lia.
    f_equal. destruct m; [lia|]. apply (IH es m); lia.
  - intros [p e] Hin. apply in_combine_l in Hin. apply In_nth_error in Hin. destruct Hin as (k & Hk).
    apply (Hlt k p). simpl. auto.
Qed.

Lemma total_energy_le prev n ns lvl m :
  traceable prev n -> (forall j e, energy_at prev j = Some e -> (0 <= e)%R) -> ns <= n ->
  traceable lvl m -> b_parents lvl <> None -> (forall k p, parent_at lvl k = Some p -> p < ns) ->
  (forall j e, j < ns -> energy_at prev j = Some e -> (energy_from lvl j <= e)%R) ->
  (total_energy lvl <= total_energy prev)%R.
Proof.
  intros Hp Hnn Hle Hl Hpar Hlt He.
  rewrite (total_energy_from lvl m ns Hl Hpar Hlt).
  destruct Hp as (_ & (_ & Hlen) & _ & Hee). unfold total_energy, energy_at in *.
  pose proof (Hlen Energy) as Le. simpl in Le.
  destruct (b_energy prev) as [es|]; [|congruence]. specialize (Le _ eq_refl). rewrite map_length in Le.
  simpl in Hnn, He.
  apply Rle_trans with (sum_R (firstn ns es)).
  2:{ apply sum_R_firstn. intros x Hx. apply In_nth_error in Hx. destruct Hx as (j & Hj). eauto. }
  assert (E : firstn ns es = map (fun j => nth j es 0%R) (seq 0 ns)).
  { clear -Le Hle. revert ns n Le Hle. induction es as [|x es IH]; intros [|ns] n Le Hle; simpl in *; auto; try lia.
    destruct n; [lia|]. f_equal. rewrite <- seq_shift, map_map. apply (IH ns n); lia. }
  rewrite E. apply sum_R_map_le. intros j Hj. apply in_seq in Hj. apply He; [lia|].
  apply nth_error_nth'. lia.
Qed.
