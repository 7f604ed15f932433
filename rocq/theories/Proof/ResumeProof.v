(** A longer trace begins like a shorter one; a trace can be resumed. *)
From Coq Require Import Reals String List Arith Bool Lra Lia.
From Verif.Base Require Import Py Num Vec.
From Verif.Model Require Import RayBundle TraceTree Sources OpticsCallables Engine Objects Surface.
From Verif.Proof Require Import ListLemmas EngineTop TraceTop.
From Verif.Spec Require Import BundleSpec EngineSpec OpticsSpec LibrarySpec ResumeSpec.
Import ListNotations.

Lemma put_repeat {A} (x : A) : forall m n k, put_mask m (repeat x n) (repeat x k) = repeat x n.
Proof.
  induction m as [|b m IH]; intros [|n] k; cbn [put_mask repeat]; auto.
  destruct b; [destruct k as [|k]; cbn [repeat]|]; f_equal; auto. apply (IH n 0%nat).
Qed.
Lemma map2_repeat {A B C} (f : A -> B -> C) x y : forall n, map2 f (repeat x n) (repeat y n) = repeat (f x y) n.
Proof. induction n as [|n IH]; cbn; f_equal; auto. Qed.

Lemma mapped_repeat {A B} (f : A -> B) x : forall n, map f (repeat x n) = repeat (f x) n.
Proof. induction n as [|n IH]; cbn; f_equal; auto. Qed.

Section Resume.
Context {S G : Type} (ops : surf_ops S G) (objs : list obj) (me : R).

(** ** Iterations follow one another *)
Lemma iterate_split ta : forall a b st st2, iterate ops objs me ta (a + b) st = Ok st2 ->
  exists st1, iterate ops objs me ta a st = Ok st1 /\
    (st2 = st1 /\ get_num_rays (t_bund st1) = Ok 0%nat \/ iterate ops objs me ta b st1 = Ok st2).
Proof.
  induction a as [|a IH]; intros b st st2 H; [exists st; split; [reflexivity|right; exact H]|].
  cbn [Nat.add iterate] in *. apply bind_ok in H as ([st' go] & E & H). rewrite E. cbn [bind]. destruct go; [apply IH; exact H|].
  exists st'. split; [reflexivity|]. left. split; [congruence|].
  unfold iteration in E. apply bind_ok in E as ([[ss fr] ow] & _ & E). apply bind_ok in E as ([[ss2 g2] ks] & _ & E).
  apply bind_ok in E as (bd & _ & E). apply bind_ok in E as (tr & _ & E). apply bind_ok in E as (n & En & E).
  destruct (Nat.eqb n 0) eqn:Z; [|congruence]. apply Nat.eqb_eq in Z. injection E as <-. cbn. congruence.
Qed.
Lemma iteration_go ta st st' : iteration ops objs me ta st = Ok (st', false) -> get_num_rays (t_bund st') = Ok 0%nat.
Proof.
  intros E. unfold iteration in E. apply bind_ok in E as ([[ss fr] ow] & _ & E). apply bind_ok in E as ([[ss2 g2] ks] & _ & E).
  apply bind_ok in E as (bd & _ & E). apply bind_ok in E as (tr & _ & E). apply bind_ok in E as (n & En & E).
  destruct (Nat.eqb n 0) eqn:Z; [|congruence]. apply Nat.eqb_eq in Z. injection E as <-. cbn. congruence.
Qed.
Lemma iterate_join ta : forall a b st st1 n, iterate ops objs me ta a st = Ok st1 -> get_num_rays (t_bund st1) = Ok n -> n <> 0%nat ->
  iterate ops objs me ta (a + b) st = iterate ops objs me ta b st1.
Proof.
  induction a as [|a IH]; intros b st st1 n H Hn Nz; cbn [Nat.add iterate] in *; [congruence|].
  apply bind_ok in H as ([st' go] & E & H). rewrite E. cbn [bind]. destruct go; [eapply IH; eauto|].
  exfalso. apply iteration_go in E. assert (st1 = st') by congruence. subst. congruence.
Qed.

(** ** The tree is only written *)
Definition alike (st st0 : tstate S G) : Prop :=
  t_surfs st = t_surfs st0 /\ t_g st = t_g st0 /\ t_bund st = t_bund st0 /\ t_own st = t_own st0 /\ t_rel st = t_rel st0.

Lemma iteration_alike st st0 st' go : alike st st0 -> iteration ops objs me TreeTrue st = Ok (st', go) ->
  exists st0' more, iteration ops objs me TreeTrue st0 = Ok (st0', go) /\ alike st' st0' /\
    t_tree st' = t_tree st ++ more /\ t_tree st0' = t_tree st0 ++ more.
Proof.
  intros (A1 & A2 & A3 & A4 & A5) H. unfold iteration in *. rewrite <- A1, <- A2, <- A3, <- A4, <- A5.
  apply bind_ok in H as ([[ss fr] ow] & -> & H). cbn [bind]. apply bind_ok in H as ([[ss2 g2] ks] & -> & H). cbn [bind].
  apply bind_ok in H as (bd & -> & H). cbn [bind]. apply bind_ok in H as (tr & Et & H). apply bind_ok in H as (n & En & H).
  apply bind_ok in Et as (rec & Er & Et). rewrite Er. cbn [bind]. apply bind_ok in Et as (k & Ek & Et). rewrite Ek. cbn [bind].
  destruct (Nat.eqb k 0) eqn:Zk.
  - assert (tr = t_tree st) by congruence. subst tr. cbn [bind]. rewrite En. cbn [bind].
    destruct (Nat.eqb n 0); injection H as <- <-; eexists; exists []; (split; [reflexivity|]); rewrite !app_nil_r; cbn; repeat split.
  - apply bind_ok in Et as (wk & Ew & Et). rewrite Ew. cbn [bind]. assert (tr = append (t_tree st) (add_bundles bd wk)) by congruence. subst tr. rewrite En. cbn [bind].
    destruct (Nat.eqb n 0); injection H as <- <-; eexists; exists [add_bundles bd wk]; (split; [reflexivity|]); cbn; repeat split.
Qed.
Lemma iterate_alike : forall reps st st0 st', alike st st0 -> iterate ops objs me TreeTrue reps st = Ok st' ->
  exists st0' more, iterate ops objs me TreeTrue reps st0 = Ok st0' /\ alike st' st0' /\
    t_tree st' = t_tree st ++ more /\ t_tree st0' = t_tree st0 ++ more.
Proof.
  induction reps as [|reps IH]; intros st st0 st' A H; cbn [iterate] in *.
  - injection H as <-. exists st0, []. rewrite !app_nil_r. auto.
  - apply bind_ok in H as ([st1 go] & E & H). destruct (iteration_alike _ _ _ _ A E) as (st01 & m1 & E0 & A1 & T1 & T01). rewrite E0. cbn [bind].
    destruct go.
    + destruct (IH _ _ _ A1 H) as (st0' & m2 & E2 & A2 & T2 & T02). exists st0', (m1 ++ m2). split; auto. split; auto.
      rewrite T2, T02, T1, T01, !app_assoc. split; reflexivity.
    + injection H as <-. exists st01, m1. auto.
Qed.
Lemma alike_refl st : alike st st.
Proof. repeat split. Qed.

(** ** What the shared state keeps *)
Lemma iterate_shared (Q : G -> G -> Prop) : (forall g, Q g g) -> (forall a b c, Q a b -> Q b c -> Q a c) ->
  (forall s g o g', get_outgoing ops s g = Ok (o, g') -> Q g g') ->
  forall ta reps st st', iterate ops objs me ta reps st = Ok st' -> Q (t_g st) (t_g st').
Proof.
  intros Qr Qt Qo.
  assert (P1 : forall idx s g f o s' g' k, process_surface ops objs me idx s g f o = Ok (s', g', k) -> Q g g').
  { intros idx s g f o s' g' k H. unfold process_surface in H. destruct (negb _); [injection H as _ <- _; auto|].
    apply bind_ok in H as (s1 & _ & H). apply bind_ok in H as ([ou g1] & Eo & H).
    repeat (apply bind_ok in H as (? & _ & H)). injection H as _ <- _. eauto. }
  assert (P2 : forall surfs idx g frs ows ss g' ks, process_surfaces ops objs me idx surfs g frs ows = Ok (ss, g', ks) -> Q g g').
  { induction surfs as [|s surfs IH]; intros idx g [|f frs] [|o ows] ss g' ks H; cbn in H; try discriminate; try (injection H as _ <- _; auto; fail).
    apply bind_ok in H as ([[s' g1] k] & E1 & H). apply bind_ok in H as ([[ss1 g2] ks1] & E2 & H). injection H as _ <- _.
    eapply Qt; [eapply P1; eauto|eapply IH; eauto]. }
  intros ta. induction reps as [|reps IH]; intros st st' H; cbn [iterate] in H; [injection H as <-; auto|].
  apply bind_ok in H as ([st1 go] & E & H).
  assert (Q1 : Q (t_g st) (t_g st1)).
  { unfold iteration in E. apply bind_ok in E as ([[ss fr] ow] & _ & E). apply bind_ok in E as ([[ss2 g2] ks] & Ep & E).
    apply bind_ok in E as (bd & _ & E). apply bind_ok in E as (tr & _ & E). apply bind_ok in E as (n & En & E).
    apply P2 in Ep. destruct (Nat.eqb n 0); injection E as <- _; exact Ep. }
  destruct go; [eapply Qt; eauto|]. injection H as <-. exact Q1.
Qed.

(** ** Ordinary objects leave rays as a source has them *)
Hypothesis Df : forall ob, In ob objs -> exists k, ob = default_object k.
Definition sizes (k : block) : nat := match b_vert (k_strong k) with Some l => length l | None => 0 end.
Definition plain_block (k : block) : Prop :=
  b_vert (k_strong k) <> None /\ k_own k = repeat (-1)%Z (sizes k) /\ k_rel k = repeat (repeat true (sizes k)) (length (surf_ownership objs)).

Lemma process_plain idx s g f o s' g' k : process_surface ops objs me idx s g f o = Ok (s', g', Some k) -> plain_block k.
Proof.
  intros H. unfold process_surface in H. destruct (negb _); [discriminate|].
  apply bind_ok in H as (s1 & _ & H). apply bind_ok in H as ([ou g1] & _ & H). apply bind_ok in H as (ps & _ & H). apply bind_ok in H as (pa & _ & H).
  apply bind_ok in H as (e & _ & H). apply bind_ok in H as (strong & _ & H). apply bind_ok in H as (oi & _ & H). apply bind_ok in H as (ob & Eb & H).
  apply bind_ok in H as (owns & Ew & H). apply bind_ok in H as (n & En & H). apply bind_ok in H as (next & Ex & H). apply bind_ok in H as (rel & Er & H).
  injection H as _ _ <-. destruct (Df ob) as (c & ->).
  { unfold take1 in Eb. destruct (nth_error objs oi) eqn:X; [|discriminate]. injection Eb as <-. eapply nth_error_In; eauto. }
  cbn in Ew, Ex. unfold default_own_rays in Ew. unfold default_surfaces_for_next in Ex. rewrite En in Ew, Ex. cbn [bind] in Ew, Ex. injection Ew as <-. injection Ex as <-.
  unfold relevancy_block in Er. destruct (_ && _); [|discriminate]. injection Er as <-.
  unfold get_num_rays in En. unfold plain_block, sizes. cbn. destruct (b_vert strong) as [l|]; [|discriminate]. injection En as <-.
  split; [discriminate|]. split; [rewrite mapped_repeat; reflexivity|]. apply put_repeat.
Qed.
Lemma process_all : forall surfs idx g frs ows ss g' ks, process_surfaces ops objs me idx surfs g frs ows = Ok (ss, g', ks) ->
  Forall plain_block ks /\ length ss = length surfs.
Proof.
  induction surfs as [|s surfs IH]; intros idx g frs ows ss g' ks H; cbn in H; [injection H as <- _ <-; auto|].
  destruct frs as [|f frs]; [discriminate|]. destruct ows as [|o ows]; [discriminate|].
  apply bind_ok in H as ([[s' g1] k] & E1 & H). apply bind_ok in H as ([[ss1 g2] ks1] & E2 & H). injection H as <- _ <-.
  destruct (IH _ _ _ _ _ _ _ E2) as (F & Len). split; [|cbn; auto]. destruct k as [k|]; auto. constructor; auto. eapply process_plain; eauto.
Qed.
Lemma plain_own : forall ks, Forall plain_block ks -> concat (map k_own ks) = repeat (-1)%Z (list_sum (map sizes ks)).
Proof.
  induction 1 as [|k ks (_ & H & _) _ IH]; [reflexivity|]. cbn [map concat]. rewrite IH, H, <- repeat_app. reflexivity.
Qed.
Lemma plain_rel : forall ks, Forall plain_block ks -> hstack_rows (length (surf_ownership objs)) (map k_rel ks) =
  repeat (repeat true (list_sum (map sizes ks))) (length (surf_ownership objs)).
Proof.
  induction 1 as [|k ks (_ & _ & H) _ IH]; [reflexivity|]. cbn [map hstack_rows]. rewrite IH, H, map2_repeat, <- repeat_app. reflexivity.
Qed.
Lemma plain_verts : forall ks, Forall plain_block ks -> forall l, mapM (fun c => get_prop (b_vert c) SAll) (map k_strong ks) = Ok l ->
  length (concat l) = list_sum (map sizes ks).
Proof.
  induction 1 as [|k ks (Hv & _) _ IH]; intros l E; cbn in E; [injection E as <-; reflexivity|].
  apply bind_ok in E as (x & Ex & E). apply bind_ok in E as (l' & El & E). injection E as <-. cbn [concat map]. rewrite app_length, (IH _ El).
  cbn. f_equal. unfold sizes. destruct (b_vert (k_strong k)) as [v|]; [|contradiction]. cbn in Ex. congruence.
Qed.
Lemma plain_count ks bd n : Forall plain_block ks -> concatenate_rays (map k_strong ks) = Ok bd -> get_num_rays bd = Ok n -> n = list_sum (map sizes ks).
Proof.
  intros F E En. destruct ks as [|k ks]; [cbn in E; injection E as <-; cbn in En; injection En as <-; reflexivity|].
  unfold concatenate_rays in E. cbn [map] in E. apply bind_ok in E as (v & Ev & E). repeat (apply bind_ok in E as (? & _ & E)). injection E as <-.
  unfold get_num_rays in En. cbn in En. unfold concat_prop in Ev. destruct (b_vert (k_strong k)) as [l0|] eqn:K0.
  - apply bind_ok in Ev as (l & El & Ev). injection Ev as <-. injection En as <-. exact (plain_verts (k :: ks) F l El).
  - injection Ev as <-. discriminate.
Qed.

Lemma tests_length : forall surfs b n own sown rel ss st ow, test_surfaces ops b n own surfs sown rel = Ok (ss, st, ow) -> length ss = length surfs.
Proof.
  induction surfs as [|s surfs IH]; intros b n own sown rel ss st ow H; cbn in H; [injection H as <- _ _; auto|].
  destruct sown; [discriminate|]. destruct rel; [discriminate|]. apply bind_ok in H as ([[s' row] owned] & _ & H). apply bind_ok in H as ([[ss1 rows] ows] & E & H).
  injection H as <- _ _. cbn. f_equal. eapply IH; eauto.
Qed.
Lemma intersect_length b surfs sown own rel ss fr ow : intersect_ray ops b surfs sown own rel = Ok (ss, fr, ow) -> length ss = length surfs.
Proof.
  intros H. unfold intersect_ray in H. apply bind_ok in H as (n & _ & H). apply bind_ok in H as ([[ss1 stk] ow1] & E & H).
  destruct (any2 _ _); [discriminate|]. apply bind_ok in H as (mins & _ & H). injection H as <- _ _. eapply tests_length; eauto.
Qed.

(** The state is as at the start of a trace of its rays. *)
Definition fresh_state (st : tstate S G) : Prop := length (t_surfs st) = length (surf_ownership objs) /\
  exists n, get_num_rays (t_bund st) = Ok n /\ t_own st = repeat (-1)%Z n /\ t_rel st = repeat (repeat true n) (length (t_surfs st)).
Lemma iteration_fresh ta st st' : length (t_surfs st) = length (surf_ownership objs) -> iteration ops objs me ta st = Ok (st', true) -> fresh_state st'.
Proof.
  intros L E. unfold iteration in E. apply bind_ok in E as ([[ss fr] ow] & Ei & E). apply bind_ok in E as ([[ss2 g2] ks] & Ep & E).
  apply bind_ok in E as (bd & Eb & E). apply bind_ok in E as (tr & _ & E). apply bind_ok in E as (n & En & E).
  destruct (Nat.eqb n 0); [congruence|]. injection E as <-. destruct (process_all _ _ _ _ _ _ _ _ Ep) as (F & L2). apply intersect_length in Ei.
  split; cbn; [congruence|]. exists n. split; auto. rewrite (plain_count _ _ _ F Eb En), plain_own by auto. split; auto.
  rewrite L, plain_rel by auto. f_equal. congruence.
Qed.
Lemma iterate_fresh ta : forall reps st st' n, fresh_state st -> iterate ops objs me ta reps st = Ok st' ->
  get_num_rays (t_bund st') = Ok n -> n <> 0%nat -> fresh_state st'.
Proof.
  induction reps as [|reps IH]; intros st st' n Fs H Hn Nz; cbn [iterate] in H; [congruence|].
  apply bind_ok in H as ([st1 go] & E & H). destruct go.
  - eapply (IH st1); eauto. eapply iteration_fresh; eauto. apply Fs.
  - exfalso. apply iteration_go in E. assert (st' = st1) by congruence. subst. congruence.
Qed.

(** A trace can be resumed where it was left. *)
Lemma resumed surfs g b : length surfs = length (surf_ownership objs) ->
  forall r1 vs1 ds1 st1, ray_tracer ops objs surfs g b r1 me TreeTrue = Ok (vs1, ds1, st1) -> vs1 <> [] ->
  forall r2 vs2 ds2 st2, ray_tracer ops objs (t_surfs st1) (t_g st1) (t_bund st1) r2 me TreeTrue = Ok (vs2, ds2, st2) ->
  exists st, ray_tracer ops objs surfs g b (r1 + r2) me TreeTrue = Ok (vs2, ds2, st) /\
    t_tree st = t_tree st1 ++ tl (t_tree st2) /\ t_surfs st = t_surfs st2 /\ t_g st = t_g st2 /\ t_bund st = t_bund st2.
Proof.
  intros L r1 vs1 ds1 st1 H1 Nv r2 vs2 ds2 st2 H2. unfold ray_tracer in *.
  apply bind_ok in H1 as (s0 & E0 & H1). apply bind_ok in H1 as (s1 & E1 & H1). cbn [bind] in H1.
  apply bind_ok in H1 as (v1 & V1 & H1). apply bind_ok in H1 as (d1 & D1 & H1).
  assert (s1 = st1) by congruence. assert (v1 = vs1) by congruence. subst s1 v1. clear H1.
  apply bind_ok in H2 as (s2 & E2 & H2). apply bind_ok in H2 as (s3 & E3 & H2). cbn [bind] in H2.
  apply bind_ok in H2 as (v2 & V2 & H2). apply bind_ok in H2 as (d2 & D2 & H2).
  assert (s3 = st2) by congruence. assert (v2 = vs2) by congruence. assert (d2 = ds2) by congruence. subst s3 v2 d2. clear H2.
  assert (Nm : get_num_rays (t_bund st1) = Ok (length vs1)).
  { unfold get_num_rays. unfold get_vertices, get_prop in V1. destruct (b_vert (t_bund st1)); [|discriminate]. cbn in V1. congruence. }
  assert (Nz : length vs1 <> 0%nat) by (destruct vs1; [destruct (Nv eq_refl)|discriminate]).
  assert (F0 : fresh_state s0).
  { unfold start in E0. apply bind_ok in E0 as (n & En & E0). injection E0 as <-. split; [exact L|]. exists n. cbn. auto. }
  pose proof (iterate_fresh _ _ _ _ _ F0 E1 Nm Nz) as (L1 & n & Hn & Ho & Hr).
  unfold start in E2. rewrite Hn in E2. cbn [bind] in E2. injection E2 as <-.
  match type of E3 with iterate _ _ _ _ _ ?x = _ => assert (A : alike x st1) by (repeat split; cbn; auto) end.
  destruct (iterate_alike _ _ _ _ A E3) as (st & more & E4 & (B1 & B2 & B3 & _) & T2 & T).
  exists st. rewrite E0. cbn [bind]. rewrite (iterate_join _ _ _ _ _ _ E1 Nm Nz), E4. cbn [bind].
  rewrite <- B3, V2, D2. cbn [bind]. split; [reflexivity|]. rewrite T, T2. cbn. split; [reflexivity|]. auto.
Qed.

(** The other way round. *)
Lemma resumable surfs g b : length surfs = length (surf_ownership objs) ->
  forall r1 vs1 ds1 st1, ray_tracer ops objs surfs g b r1 me TreeTrue = Ok (vs1, ds1, st1) -> vs1 <> [] ->
  forall r2 vs2 ds2 st, ray_tracer ops objs surfs g b (r1 + r2) me TreeTrue = Ok (vs2, ds2, st) ->
  exists st2, ray_tracer ops objs (t_surfs st1) (t_g st1) (t_bund st1) r2 me TreeTrue = Ok (vs2, ds2, st2) /\
    t_tree st = t_tree st1 ++ tl (t_tree st2) /\ t_surfs st = t_surfs st2 /\ t_g st = t_g st2 /\ t_bund st = t_bund st2.
Proof.
  intros L r1 vs1 ds1 st1 H1 Nv r2 vs2 ds2 st H2. unfold ray_tracer in *.
  apply bind_ok in H1 as (s0 & E0 & H1). rewrite E0 in H2. cbn [bind] in H2. apply bind_ok in H1 as (s1 & E1 & H1). cbn [bind] in H1.
  apply bind_ok in H1 as (v1 & V1 & H1). apply bind_ok in H1 as (d1 & D1 & H1).
  assert (s1 = st1) by congruence. assert (v1 = vs1) by congruence. subst s1 v1. clear H1.
  assert (Nm : get_num_rays (t_bund st1) = Ok (length vs1)).
  { unfold get_num_rays. unfold get_vertices, get_prop in V1. destruct (b_vert (t_bund st1)); [|discriminate]. cbn in V1. congruence. }
  assert (Nz : length vs1 <> 0%nat) by (destruct vs1; [destruct (Nv eq_refl)|discriminate]).
  apply bind_ok in H2 as (s3 & E3 & H2). cbn [bind] in H2. rewrite (iterate_join _ _ _ _ _ _ E1 Nm Nz) in E3.
  apply bind_ok in H2 as (v2 & V2 & H2). apply bind_ok in H2 as (d2 & D2 & H2).
  assert (s3 = st) by congruence. assert (v2 = vs2) by congruence. assert (d2 = ds2) by congruence. subst s3 v2 d2. clear H2.
  assert (F0 : fresh_state s0).
  { unfold start in E0. apply bind_ok in E0 as (n & En & E0). injection E0 as <-. split; [exact L|]. exists n. cbn. auto. }
  pose proof (iterate_fresh _ _ _ _ _ F0 E1 Nm Nz) as (L1 & n & Hn & Ho & Hr).
  unfold start. rewrite Hn. cbn [bind].
  match goal with |- context [iterate _ _ _ _ _ ?x] => assert (A : alike st1 x) by (repeat split; cbn; auto) end.
  destruct (iterate_alike _ _ _ _ A E3) as (st2 & more & E4 & (B1 & B2 & B3 & _) & T & T2).
  exists st2. rewrite E4. cbn [bind]. rewrite <- B3, V2, D2. cbn [bind]. split; [reflexivity|]. rewrite T, T2. cbn. split; [reflexivity|]. auto.
Qed.

(** A longer trace begins like a shorter one. *)
Lemma begins surfs g b : forall r1 vs1 ds1 st1, ray_tracer ops objs surfs g b r1 me TreeTrue = Ok (vs1, ds1, st1) ->
  forall r2 vs2 ds2 st2, ray_tracer ops objs surfs g b (r1 + r2) me TreeTrue = Ok (vs2, ds2, st2) ->
  exists more, t_tree st2 = t_tree st1 ++ more /\ (st2 = st1 /\ vs1 = [] \/ iterate ops objs me TreeTrue r2 st1 = Ok st2).
Proof.
  intros r1 vs1 ds1 st1 H1 r2 vs2 ds2 st2 H2. unfold ray_tracer in *.
  apply bind_ok in H1 as (s0 & E0 & H1). rewrite E0 in H2. cbn [bind] in H2. apply bind_ok in H1 as (s1 & E1 & H1). cbn [bind] in H1.
  apply bind_ok in H1 as (v1 & V1 & H1). apply bind_ok in H1 as (d1 & D1 & H1).
  assert (s1 = st1) by congruence. assert (v1 = vs1) by congruence. subst s1 v1. clear H1.
  apply bind_ok in H2 as (s3 & E3 & H2). cbn [bind] in H2.
  apply bind_ok in H2 as (v2 & V2 & H2). apply bind_ok in H2 as (d2 & D2 & H2). assert (s3 = st2) by congruence. subst s3. clear H2.
  destruct (iterate_split _ _ _ _ _ E3) as (sm & Em & C). assert (sm = st1) by congruence. subst sm. destruct C as [(-> & Z)|C].
  - exists []. rewrite app_nil_r. split; [reflexivity|]. left. split; [reflexivity|].
    unfold get_num_rays in Z. unfold get_vertices, get_prop in V1. destruct (b_vert (t_bund st1)) as [l|]; [|discriminate]. cbn in V1.
    assert (l = vs1) by congruence. subst. destruct vs1; [reflexivity|discriminate].
  - destruct (iterate_alike _ _ _ _ (alike_refl st1) C) as (_ & more & _ & _ & T & _). exists more. auto.
Qed.
End Resume.

(** ** Traces with the library's surfaces *)
Lemma books_refl g : books_grow g g.
Proof. intros id. exists [], []. rewrite !app_nil_r. auto. Qed.
Lemma books_trans a b c : books_grow a b -> books_grow b c -> books_grow a c.
Proof.
  intros H1 H2 id. destruct (H1 id) as (x & y & A & B), (H2 id) as (x' & y' & A' & B'). exists (x ++ x'), (y ++ y').
  rewrite A', B', A, B, !app_assoc. auto.
Qed.
Lemma outgoing_grows s g o g' : get_outgoing surface_ops s g = Ok (o, g') -> books_grow g g'.
Proof.
  cbn. unfold surf_outgoing. destruct (s_bundle s); [|discriminate]. destruct (s_selected s); [|discriminate]. unfold call_optics.
  destruct (s_opt s) as [a|id a|i1 i2]; intros H.
  - apply bind_ok in H as ([r rg] & _ & H). injection H as _ <-. intros id. exists [], []. rewrite !app_nil_r. auto.
  - apply bind_ok in H as (acc & Ea & H). apply bind_ok in H as ([r rg] & _ & H). injection H as _ <-. intros id'. cbn. unfold upd.
    destruct (Nat.eqb_spec id' id) as [->|N]; [|exists [], []; rewrite !app_nil_r; auto].
    unfold record_hits in Ea. apply bind_ok in Ea as (es & _ & Ea). apply bind_ok in Ea as (es' & _ & Ea). apply bind_ok in Ea as (pts & _ & Ea). injection Ea as <-.
    cbn. eauto.
  - apply bind_ok in H as (r & _ & H). injection H as _ <-. apply books_refl.
Qed.
Lemma begins_top : forall objs surfs, library_assembly objs surfs -> forall me g b n, library_source b n ->
  forall r1 vs1 ds1 st1, ray_tracer surface_ops objs surfs g b r1 me TreeTrue = Ok (vs1, ds1, st1) ->
  forall r2 vs2 ds2 st2, ray_tracer surface_ops objs surfs g b (r1 + r2) me TreeTrue = Ok (vs2, ds2, st2) ->
  t_tree st1 = firstn (r1 + 1) (t_tree st2) /\ books_grow (t_g st1) (t_g st2).
Proof.
  intros objs surfs La me g b n Ls r1 vs1 ds1 st1 H1 r2 vs2 ds2 st2 H2.
  destruct (begins surface_ops objs me surfs g b r1 vs1 ds1 st1 H1 r2 vs2 ds2 st2 H2) as (more & T & C).
  destruct (bounded_trace objs surfs La me g b n Ls r1 vs1 ds1 st1 H1) as (B1 & B2 & _ & _ & _ & _ & B3 & _ & _ & B4).
  split.
  - destruct (Nat.eq_dec (length (t_tree st1)) (r1 + 1)) as [Le|Ne].
    + rewrite T, <- Le, firstn_app, Nat.sub_diag, firstn_all, firstn_O, app_nil_r. reflexivity.
    + destruct (B3 ltac:(lia)) as (Ev & _). destruct r1 as [|r1].
      { destruct (t_tree st1) as [|x l]; [discriminate|]. cbn [length] in *. lia. }
      pose proof (B4 ltac:(lia) Ev r2) as H3. assert (st2 = st1) by congruence. subst st2. symmetry. apply firstn_all2. lia.
  - destruct C as [(-> & _)|C]; [apply books_refl|].
    eapply (iterate_shared surface_ops objs me books_grow); eauto using books_refl, books_trans, outgoing_grows.
Qed.
