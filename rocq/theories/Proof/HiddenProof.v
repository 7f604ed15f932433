(** Surfaces out of sight make no difference. *)
From Coq Require Import Reals String List Arith Bool ZArith Lra Lia.
From Verif.Base Require Import Py Num Vec.
From Verif.Model Require Import RayBundle TraceTree Engine Objects.
From Verif.Proof Require Import ListLemmas NumLemmas IntersectProof ResumeProof HiddenRows.
Import ListNotations.
Local Open Scope R_scope.

Lemma owned_all n so : owned_row (repeat (-1)%Z n) so (repeat true n) = repeat true n.
Proof. unfold owned_row. rewrite map2_repeat. reflexivity. Qed.
Lemma put_all {A} (l : list A) : forall n x, length l = n -> put_mask (repeat true n) (repeat x n) l = l.
Proof. induction l as [|a l IH]; intros n x <-; [reflexivity|]. cbn. f_equal. apply IH; reflexivity. Qed.
Lemma count_all n : count_true (repeat true n) = n.
Proof. rewrite count_true_mask. induction n as [|n IH]; [reflexivity|]. cbn. f_equal; auto. Qed.
Lemma any_all n : any (repeat true n) = negb (Nat.eqb n 0).
Proof. destruct n; reflexivity. Qed.
Lemma none_out n : any (map negb (repeat true n)) = false.
Proof. induction n; auto. Qed.
Lemma count_none n : count_true (repeat false n) = 0%nat.
Proof. rewrite count_true_mask. induction n; auto. Qed.
Lemma count_app a b : count_true (a ++ b) = (count_true a + count_true b)%nat.
Proof. rewrite !count_true_mask. induction a as [|x a IH]; [reflexivity|]. cbn. destruct x; cbn; rewrite IH; reflexivity. Qed.

Section Hidden.
Context {S G : Type} (ops : surf_ops S G) (objs : list obj) (me : R).
Variable k : nat.
Let objs' := objs ++ [default_object k].
Hypothesis Df : forall ob, In ob objs -> exists c, ob = default_object c.
Lemma Df' : forall ob, In ob objs' -> exists c, ob = default_object c.
Proof. intros ob H. apply in_app_iff in H as [H|[<-|[]]]; eauto. Qed.

(** ** Trying more surfaces *)
Lemma tests_app b n own : forall s1 o1 r1 ss1 st1 ow1 s2 o2 r2 ss2 st2 ow2,
  test_surfaces ops b n own s1 o1 r1 = Ok (ss1, st1, ow1) -> test_surfaces ops b n own s2 o2 r2 = Ok (ss2, st2, ow2) ->
  length o1 = length s1 -> length r1 = length s1 ->
  test_surfaces ops b n own (s1 ++ s2) (o1 ++ o2) (r1 ++ r2) = Ok (ss1 ++ ss2, st1 ++ st2, ow1 ++ ow2).
Proof.
  induction s1 as [|s s1 IH]; intros o1 r1 ss1 st1 ow1 s2 o2 r2 ss2 st2 ow2 H1 H2 L1 L2.
  - destruct o1; [|discriminate]. destruct r1; [|discriminate]. cbn in H1. injection H1 as <- <- <-. exact H2.
  - destruct o1 as [|o o1]; [discriminate|]. destruct r1 as [|r r1]; [discriminate|]. cbn [app test_surfaces] in *.
    apply bind_ok in H1 as ([[s' row] owned] & -> & H1). apply bind_ok in H1 as ([[ss rows] ows] & E & H1). injection H1 as <- <- <-.
    cbn [bind]. rewrite (IH _ _ _ _ _ _ _ _ _ _ _ E H2) by (cbn in *; lia). reflexivity.
Qed.
Lemma test_fresh b n s so : test_surface ops b n (repeat (-1)%Z n) s so (repeat true n) =
  if Nat.eqb n 0 then Ok (s, [], []) else
  '(s', ps) <- register_incoming ops s b ;; if Nat.eqb (length ps) n then Ok (s', ps, repeat true n) else Err ValueError.
Proof.
  unfold test_surface. rewrite !repeat_length, Nat.eqb_refl. cbn [andb negb]. rewrite owned_all, any_all, negb_involutive, none_out.
  destruct (Nat.eqb n 0) eqn:Z; [apply Nat.eqb_eq in Z; subst; reflexivity|]. cbn [bind].
  destruct (register_incoming ops s b) as [[s' ps]|e]; [|reflexivity]. cbn [bind]. rewrite count_all.
  destruct (Nat.eqb (length ps) n) eqn:L; [|reflexivity]. apply Nat.eqb_eq in L. rewrite put_all by auto. reflexivity.
Qed.

(** Between initial surfaces and what becomes of them. *)
Variable kin : S -> S -> Prop.
Hypothesis kin_reg : forall a s b s' ps, kin a s -> register_incoming ops s b = Ok (s', ps) -> kin a s'.
Hypothesis kin_sel : forall a s i s', kin a s -> select_rays ops s i = Ok s' -> kin a s'.
Hypothesis kin_done : forall a s, kin a s -> kin a (done ops s).

Variables surfs extra : list S.
Hypothesis Lk : length extra = k.

(** Whoever of the first surfaces a ray is found by, it is before all of the further ones. *)
Definition covered (b : bundle) (n : nat) : Prop := forall x s, In x extra -> kin x s ->
  exists s' ps, register_incoming ops s b = Ok (s', ps) /\ length ps = n /\
    forall j y, nth_error ps j = Some y -> y = PInf \/ exists t', y = Fin t' /\ tenm 6 < t' /\
      exists o, In o surfs /\ forall o1 o2 ps2, kin o o1 -> register_incoming ops o1 b = Ok (o2, ps2) ->
        exists t, nth_error ps2 j = Some (Fin t) /\ tenm 6 < t < t'.

Lemma tests_kin b n : forall ss sown rel ss' st ow orig, Forall2 kin orig ss ->
  rel = repeat (repeat true n) (length ss) -> length sown = length ss ->
  test_surfaces ops b n (repeat (-1)%Z n) ss sown rel = Ok (ss', st, ow) ->
  Forall2 kin orig ss' /\ (forall r, In r st -> length r = n) /\ length st = length ss /\ length ow = length ss /\
  (n <> 0%nat -> forall o, In o orig -> exists o1 o2 ps, kin o o1 /\ register_incoming ops o1 b = Ok (o2, ps) /\ In ps st).
Proof.
  induction ss as [|s ss IH]; intros sown rel ss' st ow orig F -> Ls H; cbn [test_surfaces repeat length] in H.
  - injection H as <- <- <-. split; [inversion F; constructor|]. split; [intros ? []|]. split; [reflexivity|]. split; [reflexivity|]. destruct orig; [|inversion F]. intros _ o [].
  - destruct sown as [|o sown]; [discriminate|]. apply bind_ok in H as ([[s' row] owned] & E1 & H). apply bind_ok in H as ([[ss1 rows] ows] & E2 & H).
    injection H as <- <- <-. destruct orig as [|a orig']; [inversion F|]. assert (K : kin a s) by (inversion F; auto). assert (F' : Forall2 kin orig' ss) by (inversion F; auto). assert (Ls' : length sown = length ss) by (cbn in Ls; lia). destruct (IH _ _ _ _ _ _ F' eq_refl Ls' E2) as (A1 & A2 & A3 & A4 & A5).
    rewrite test_fresh in E1. destruct (Nat.eqb n 0) eqn:Z.
    + apply Nat.eqb_eq in Z. injection E1 as <- <- <-. split; [constructor; auto|]. split; [intros r [<-|I]; auto|]. cbn. repeat split; auto. contradiction.
    + apply bind_ok in E1 as ([s1 ps] & E & E1). destruct (Nat.eqb (length ps) n) eqn:L; [|discriminate]. apply Nat.eqb_eq in L.
      assert (s1 = s') by congruence. assert (ps = row) by congruence. subst s1 ps. split; [constructor; eauto|]. split; [intros r [<-|I]; auto|].
      cbn. split; [auto|]. split; [auto|]. intros Nz o0 [<-|I]; [exists s, s', row; auto|].
      destruct (A5 Nz o0 I) as (o1 & o2 & ps & B1 & B2 & B3). exists o1, o2, ps. auto.
Qed.
Lemma tests_extra b n stack : (n <> 0%nat -> covered b n) ->
  (n <> 0%nat -> forall o, In o surfs -> exists o1 o2 ps, kin o o1 /\ register_incoming ops o1 b = Ok (o2, ps) /\ In ps stack) ->
  forall xs ex, Forall2 kin xs ex -> (forall x, In x xs -> In x extra) -> forall sown, length sown = length ex ->
  exists ss' R ow, test_surfaces ops b n (repeat (-1)%Z n) ex sown (repeat (repeat true n) (length ex)) = Ok (ss', R, ow) /\
    Forall2 kin xs ss' /\ Forall (hidden_row stack n) R /\ length ow = length ex /\ length R = length ex.
Proof.
  intros Cv Or. induction 1 as [|x s xs ex K F IH]; intros Sub sown Ls; cbn [test_surfaces repeat length].
  - exists [], [], []. repeat split; auto.
  - destruct sown as [|o sown]; [discriminate|]. destruct (IH ltac:(intros; apply Sub; right; auto) sown ltac:(cbn in Ls; lia)) as (ss' & R & ow & E & A1 & A2 & A3 & A4).
    rewrite test_fresh. destruct (Nat.eqb n 0) eqn:Z.
    + apply Nat.eqb_eq in Z. subst n. cbn [bind repeat]. cbn [repeat] in E. rewrite E. cbn [bind]. eexists; eexists; eexists. split; [reflexivity|].
      split; [constructor; auto|]. split; [constructor; auto|cbn; auto]. split; auto. intros j y Hy. destruct j; discriminate.
    + apply Nat.eqb_neq in Z. destruct (Cv Z x s (Sub x (or_introl eq_refl)) K) as (s' & ps & Er & Lp & Hp). rewrite Er. cbn [bind].
      rewrite (proj2 (Nat.eqb_eq _ _) Lp). cbn [bind]. rewrite E. cbn [bind]. eexists; eexists; eexists. split; [reflexivity|].
      split; [constructor; eauto|]. split; [constructor; auto|cbn; auto]. split; auto. intros j y Hy.
      destruct (Hp j y Hy) as [->|(t' & -> & Ht & o0 & I & Ho)]; [left; reflexivity|]. right. exists t'. split; auto. split; auto.
      destruct (Or Z o0 I) as (o1 & o2 & ps2 & B1 & B2 & B3). destruct (Ho o1 o2 ps2 B1 B2) as (t & C1 & C2). exists ps2, t. auto.
Qed.

Lemma intersect_more b n ss ex ss1 fr ow : get_num_rays b = Ok n -> (n <> 0%nat -> covered b n) ->
  Forall2 kin surfs ss -> Forall2 kin extra ex -> length ss = length (surf_ownership objs) ->
  intersect_ray ops b ss (surf_ownership objs) (repeat (-1)%Z n) (repeat (repeat true n) (length ss)) = Ok (ss1, fr, ow) ->
  exists ex1 frx owx, intersect_ray ops b (ss ++ ex) (surf_ownership objs') (repeat (-1)%Z n) (repeat (repeat true n) (length (ss ++ ex))) =
      Ok (ss1 ++ ex1, fr ++ frx, ow ++ owx) /\ Forall2 kin surfs ss1 /\ Forall2 kin extra ex1 /\
    Forall (fun f => forall b, In b f -> b = false) frx /\ length fr = length ss1 /\ length ow = length ss1 /\ length frx = length ex1 /\ length owx = length ex1.
Proof.
  intros Hn Cv F Fx L H. unfold intersect_ray in *. rewrite Hn in *. cbn [bind] in *.
  apply bind_ok in H as ([[s1 stack] o1] & Et & H). destruct (any2 _ stack) eqn:An; [discriminate|]. apply bind_ok in H as (mins & Em & H).
  injection H as <- <- <-. destruct (tests_kin _ _ _ _ _ _ _ _ _ F eq_refl (eq_sym L) Et) as (F1 & Lr & Lst & Low & Or).
  pose proof (Forall2_length _ _ _ Fx) as Lx. assert (Lex : length ex = k) by congruence.
  destruct (tests_extra b n stack Cv Or extra ex Fx (fun x h => h) (repeat (length objs) k)) as (ex1 & R & owx & Ex & Fx1 & Hd & Lo & LR); [rewrite repeat_length; congruence|].
  unfold objs'. rewrite ownership_more. cbn [o_nsurf default_object]. rewrite app_length, repeat_app.
  rewrite (tests_app _ _ _ _ _ _ _ _ _ _ _ _ _ _ _ Et Ex) by (rewrite ?repeat_length; congruence). cbn [bind].
  rewrite any2_app, An, (any2_hidden _ stack n R Hd) by (intros j x Hb; apply (behind_high _ _ _ Hb)). cbn [orb].
  rewrite (clear_keeps _ _ _ Hd). pose proof (clear_hidden _ _ _ Hd) as Hd'.
  assert (Lc : forall r, In r (clear_zeros stack) -> length r = n).
  { rewrite clear_zeros_map. intros r I. apply in_map_iff in I as (r0 & <- & I). rewrite map_length. auto. }
  rewrite (mins_kept _ _ n _ Lc Hd' Em). cbn [bind]. unfold front at 1. rewrite map_app. fold (front R mins). fold (front (clear_zeros stack) mins).
  exists ex1, (front R mins), owx. split; [reflexivity|]. split; auto. split; auto. split; [apply (front_none _ _ n _ Lc Hd' Em)|].
  pose proof (Forall2_length _ _ _ F1). pose proof (Forall2_length _ _ _ F). pose proof (Forall2_length _ _ _ Fx1).
  unfold front. rewrite !map_length. rewrite clear_zeros_map, map_length. repeat split; congruence.
Qed.

(** ** Their part in an iteration *)
Definition like_block (a b : block) : Prop := k_strong a = k_strong b /\ k_rec a = k_rec b /\ k_weak a = k_weak b.
Definition like_opt (a b : option block) : Prop :=
  match a, b with None, None => True | Some a, Some b => like_block a b | _, _ => False end.
Lemma process_more idx s g f o s' g' r : process_surface ops objs me idx s g f o = Ok (s', g', r) ->
  exists r', process_surface ops objs' me idx s g f o = Ok (s', g', r') /\ like_opt r r' /\
    forall a, kin a s -> kin a s'.
Proof.
  intros H. unfold process_surface in *. destruct (negb _).
  - injection H as <- <- <-. eexists. split; [reflexivity|]. split; cbn; auto.
  - apply bind_ok in H as (s1 & Es & H). rewrite Es. cbn [bind]. apply bind_ok in H as ([ou g1] & -> & H). cbn [bind]. apply bind_ok in H as (ps & -> & H). cbn [bind].
    apply bind_ok in H as (pa & -> & H). cbn [bind]. apply bind_ok in H as (e & -> & H). cbn [bind]. apply bind_ok in H as (strong & -> & H). cbn [bind].
    apply bind_ok in H as (oi & Eo & H). apply bind_ok in H as (ob & Eb & H).
    apply bind_ok in H as (owns & Ew & H). apply bind_ok in H as (n & En & H). apply bind_ok in H as (next & Ex & H). apply bind_ok in H as (rel & Er & H).
    injection H as <- <- <-. unfold take1 in *. destruct (nth_error (surf_ownership objs) idx) as [oi0|] eqn:X1; [|discriminate].
    destruct (nth_error objs oi) as [ob0|] eqn:X2; [|discriminate]. injection Eo as ->. injection Eb as ->.
    assert (Lo : (oi < length objs)%nat) by (apply nth_error_Some; congruence).
    assert (Li : (idx < length (surf_ownership objs))%nat) by (apply nth_error_Some; congruence).
    unfold objs'. rewrite ownership_more. cbn [o_nsurf default_object]. rewrite nth_error_app1, X1 by exact Li. cbn [bind]. rewrite nth_error_app1, X2 by exact Lo. cbn [bind].
    replace (surfs_until (objs ++ [default_object k]) oi) with (surfs_until objs oi).
    2:{ unfold surfs_until. rewrite firstn_app. replace (oi - length objs)%nat with 0%nat by lia. cbn [firstn]. rewrite app_nil_r. reflexivity. }
    rewrite Ew. cbn [bind]. rewrite En. cbn [bind]. rewrite Ex. cbn [bind]. unfold relevancy_block in *.
    rewrite map_app, count_app. replace (count_true (map (Nat.eqb oi) (repeat (length objs) k))) with 0%nat.
    2:{ rewrite mapped_repeat. replace (Nat.eqb oi (length objs)) with false by (symmetry; apply Nat.eqb_neq; lia). symmetry. apply count_none. }
    rewrite Nat.add_0_r. destruct (_ && _); [|discriminate]. cbn [bind]. eexists. split; [reflexivity|]. split; [cbn; repeat split|]. eauto.
Qed.
Lemma process_extra : forall xs ex frx owx idx g, Forall2 kin xs ex -> Forall (fun f => forall b, In b f -> b = false) frx ->
  length frx = length ex -> length owx = length ex ->
  exists ex', process_surfaces ops objs' me idx ex g frx owx = Ok (ex', g, []) /\ Forall2 kin xs ex'.
Proof.
  intros xs ex frx owx idx g F. revert frx owx idx. induction F as [|x s xs ex K F IH]; intros frx owx idx N L1 L2.
  - exists []. split; [reflexivity|constructor].
  - destruct frx as [|f frx]; [discriminate|]. destruct owx as [|o owx]; [discriminate|]. pose proof (Forall_inv N) as N1. pose proof (Forall_inv_tail N) as N2. cbn beta in N1. cbn [process_surfaces].
    unfold process_surface at 1. rewrite (any_select_none f o N1). cbn [negb bind].
    destruct (IH frx owx (Datatypes.S idx) N2) as (ex' & E & F'); try (cbn in *; lia). rewrite E. cbn [bind]. eexists. split; [reflexivity|]. constructor; auto.
Qed.
Lemma process_both : forall ss orig idx g frs ows ss' g' ks, process_surfaces ops objs me idx ss g frs ows = Ok (ss', g', ks) -> Forall2 kin orig ss ->
  length frs = length ss -> length ows = length ss ->
  forall ex frx owx, Forall2 kin extra ex -> Forall (fun f => forall b, In b f -> b = false) frx -> length frx = length ex -> length owx = length ex ->
  exists ex' ks', process_surfaces ops objs' me idx (ss ++ ex) g (frs ++ frx) (ows ++ owx) = Ok (ss' ++ ex', g', ks') /\
    Forall2 like_block ks ks' /\ Forall2 kin orig ss' /\ Forall2 kin extra ex'.
Proof.
  induction ss as [|s ss IH]; intros orig idx g frs ows ss' g' ks H F Lf Lo ex frx owx Fx N L1 L2.
  - destruct frs; [|discriminate]. destruct ows; [|discriminate]. cbn in H. injection H as <- <- <-. cbn [app].
    destruct (process_extra _ _ _ _ idx g Fx N L1 L2) as (ex' & E & Fx'). exists ex', []. rewrite E. repeat split; auto.
  - destruct frs as [|f frs]; [discriminate|]. destruct ows as [|o ows]; [discriminate|]. cbn [app process_surfaces] in *.
    apply bind_ok in H as ([[s' g1] r] & E1 & H). apply bind_ok in H as ([[ss1 g2] ks1] & E2 & H). injection H as <- <- <-.
    destruct orig as [|a orig']; [inversion F|]. assert (K : kin a s) by (inversion F; auto). assert (F' : Forall2 kin orig' ss) by (inversion F; auto). destruct (process_more _ _ _ _ _ _ _ _ E1) as (r' & -> & Lr & Kr). cbn [bind].
    destruct (IH _ _ _ _ _ _ _ _ E2 F' ltac:(injection Lf; auto) ltac:(injection Lo; auto) ex frx owx Fx N L1 L2) as (ex' & ks' & -> & A1 & A2 & A3). cbn [bind].
    eexists; eexists. split; [reflexivity|]. split; [|split; auto; constructor; auto].
    destruct r as [r|], r' as [r'|]; cbn in Lr; try contradiction; auto.
Qed.

(** ** Iterations *)
Definition shown_alike (st st' : tstate S G) : Prop :=
  t_g st' = t_g st /\ t_bund st' = t_bund st /\ t_tree st' = t_tree st /\
  exists ex, t_surfs st' = t_surfs st ++ ex /\ Forall2 kin surfs (t_surfs st) /\ Forall2 kin extra ex.

Lemma iteration_more ta st st' st1 go : shown_alike st st' -> fresh_state objs st -> fresh_state objs' st' ->
  (forall n, get_num_rays (t_bund st) = Ok n -> n <> 0%nat -> covered (t_bund st) n) ->
  iteration ops objs me ta st = Ok (st1, go) ->
  exists st1', iteration ops objs' me ta st' = Ok (st1', go) /\ shown_alike st1 st1' /\ t_record st1' = t_record st1.
Proof.
  intros (A1 & A2 & A3 & ex & A4 & A5 & A6) (L & n & Hn & Ho & Hr) (L' & n' & Hn' & Ho' & Hr') Cv H. unfold iteration in *.
  rewrite A2 in Hn'. assert (n' = n) by congruence. subst n'. rewrite A1, A2, A3, Ho', Hr'. rewrite Ho, Hr in H. rewrite A4 in *.
  apply bind_ok in H as ([[ss fr] ow] & Ei & H).
  destruct (intersect_more _ n _ ex _ _ _ Hn (Cv n Hn) A5 A6 L Ei) as (ex1 & frx & owx & -> & B1 & B2 & B3 & B4 & B5 & B6 & B7). cbn [bind].
  apply bind_ok in H as ([[ss2 g2] ks] & Ep & H).
  destruct (process_both _ _ _ _ _ _ _ _ _ Ep B1 B4 B5 _ _ _ B2 B3 B6 B7) as (ex2 & ks' & -> & C1 & C2 & C3). cbn [bind].
  assert (M : map k_strong ks' = map k_strong ks /\ map k_rec ks' = map k_rec ks /\ map k_weak ks' = map k_weak ks).
  { clear H Ep. induction C1 as [|a b ks ks' (X1 & X2 & X3) _ (Y1 & Y2 & Y3)]; [auto|]. cbn. rewrite X1, X2, X3, Y1, Y2, Y3. auto. }
  destruct M as (M1 & M2 & M3). rewrite M1, M2, M3. apply bind_ok in H as (bd & -> & H). cbn [bind]. apply bind_ok in H as (tr & -> & H). cbn [bind].
  apply bind_ok in H as (m & -> & H). cbn [bind]. destruct (Nat.eqb m 0); injection H as <- <-; (eexists; split; [reflexivity|]); cbn; (split; [|reflexivity]);
    (repeat split; auto); exists ex2; cbn; auto.
Qed.

Lemma iterate_more : forall reps st st' st1, shown_alike st st' -> t_record st' = t_record st -> fresh_state objs st -> fresh_state objs' st' ->
  (forall a sa n, (a < reps)%nat -> iterate ops objs me TreeTrue a st = Ok sa -> get_num_rays (t_bund sa) = Ok n -> n <> 0%nat -> covered (t_bund sa) n) ->
  iterate ops objs me TreeTrue reps st = Ok st1 ->
  exists st1', iterate ops objs' me TreeTrue reps st' = Ok st1' /\ shown_alike st1 st1'.
Proof.
  induction reps as [|reps IH]; intros st st' st1 A Rc Fs Fs' Cv H; cbn [iterate] in H.
  - injection H as <-. exists st'. split; [reflexivity|exact A].
  - cbn [iterate]. apply bind_ok in H as ([s2 go] & E & H).
    destruct (iteration_more TreeTrue _ _ _ _ A Fs Fs' ltac:(intros n; apply (Cv 0%nat st n); [lia|reflexivity]) E) as (s2' & E' & A2 & R2). rewrite E'. cbn [bind].
    destruct go.
    + apply (IH s2 s2' st1 A2 R2).
      * apply (iteration_fresh ops objs me Df _ _ _ (proj1 Fs) E).
      * apply (iteration_fresh ops objs' me Df' _ _ _ (proj1 Fs') E').
      * intros a sa n Ha Ei. apply (Cv (Datatypes.S a) sa n); [lia|]. cbn [iterate]. rewrite E. exact Ei.
      * exact H.
    + injection H as <-. exists s2'. auto.
Qed.

Lemma trace_more g b reps vs ds st : (forall s, kin s s) -> length surfs = length (surf_ownership objs) ->
  (forall a s0 sa n, (a < reps)%nat -> start objs surfs g b TreeTrue = Ok s0 -> iterate ops objs me TreeTrue a s0 = Ok sa ->
     get_num_rays (t_bund sa) = Ok n -> n <> 0%nat -> covered (t_bund sa) n) ->
  ray_tracer ops objs surfs g b reps me TreeTrue = Ok (vs, ds, st) ->
  exists st', ray_tracer ops objs' (surfs ++ extra) g b reps me TreeTrue = Ok (vs, ds, st') /\ shown_alike st st'.
Proof.
  intros Kr L Cv H. unfold ray_tracer in *. apply bind_ok in H as (s0 & E0 & H). pose proof E0 as E0'. unfold start in E0'. apply bind_ok in E0' as (n & En & E0').
  injection E0' as <-. unfold start at 1. rewrite En. cbn [bind]. apply bind_ok in H as (s1 & E1 & H). cbn [bind] in H.
  assert (Rf : forall l, Forall2 kin l l) by (induction l; constructor; auto).
  match goal with |- context [iterate _ objs' _ _ _ ?x] => match type of E1 with iterate _ _ _ _ _ ?y = _ => destruct (iterate_more reps y x s1) as (s1' & E1' & A) end end.
  6:{ exact E1. }
  5:{ intros a sa m Ha Ei Hm Nz. apply (Cv a _ sa m Ha E0 Ei Hm Nz). }
  { split; [reflexivity|]. split; [reflexivity|]. split; [reflexivity|]. exists extra. split; [reflexivity|]. split; apply Rf. }
  { reflexivity. }
  { split; [exact L|]. exists n. split; [exact En|]. split; reflexivity. }
  { split; [cbn; unfold objs'; rewrite ownership_more, !app_length, repeat_length; cbn; congruence|]. exists n. split; [exact En|]. split; reflexivity. }
  { rewrite E1'. cbn [bind]. pose proof A as (_ & -> & _). apply bind_ok in H as (v & -> & H). apply bind_ok in H as (d & -> & H). cbn [bind].
      assert (v = vs /\ d = ds /\ s1 = st) as (-> & -> & ->) by (repeat split; congruence). eauto. }
Qed.
End Hidden.
