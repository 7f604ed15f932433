(** Surfaces that behave alike give the same traces. *)
From Coq Require Import Reals List Arith ZArith Bool Lia.
From Verif.Base Require Import Py Num Vec.
From Verif.Model Require Import RayBundle TraceTree Engine.
From Verif.Spec Require Import BundleSpec EngineSpec.
From Verif.Proof Require Import ListLemmas NumLemmas BundleProof.
Import ListNotations.

(** Both fail alike or both succeed with related values. *)
Definition rel_res {A B} (R : A -> B -> Prop) (x : res A) (y : res B) : Prop :=
  match x, y with Ok a, Ok b => R a b | Err e, Err e' => e = e' | _, _ => False end.

Lemma rel_bind {A B C D} (R : A -> B -> Prop) (Q : C -> D -> Prop) x y f g :
  rel_res R x y -> (forall a b, R a b -> rel_res Q (f a) (g b)) -> rel_res Q (bind x f) (bind y g).
Proof. destruct x, y; simpl; intros H K; try contradiction; auto. Qed.
Lemma rel_same {A C D} (Q : C -> D -> Prop) (x : res A) f g :
  (forall a, x = Ok a -> rel_res Q (f a) (g a)) -> rel_res Q (bind x f) (bind x g).
Proof. destruct x; simpl; auto. Qed.

Section Sim.
Context {S1 S2 G : Type}.
Variables (ops1 : surf_ops S1 G) (ops2 : surf_ops S2 G) (Rl : S1 -> S2 -> Prop).

Record sim : Prop := {
  sim_reg : forall a b k, Rl a b ->
    rel_res (fun x y => Rl (fst x) (fst y) /\ snd x = snd y)
      (register_incoming ops1 a k) (register_incoming ops2 b k);
  sim_sel : forall a b idx, Rl a b ->
    rel_res (fun x y => (forall g, get_outgoing ops1 x g = get_outgoing ops2 y g) /\
                        Rl (done ops1 x) (done ops2 y))
      (select_rays ops1 a idx) (select_rays ops2 b idx);
  sim_done : forall a b, Rl a b -> Rl (done ops1 a) (done ops2 b) }.

Hypothesis Hs : sim.
Variables (objs : list obj) (me : R).

Definition stack_rel (x : list S1 * list (list num) * list (list bool))
    (y : list S2 * list (list num) * list (list bool)) : Prop :=
  Forall2 Rl (fst (fst x)) (fst (fst y)) /\ snd (fst x) = snd (fst y) /\ snd x = snd y.

Lemma test_surface_sim b n own s1 s2 so rel : Rl s1 s2 ->
  rel_res (fun x y => Rl (fst (fst x)) (fst (fst y)) /\ snd (fst x) = snd (fst y) /\ snd x = snd y)
    (test_surface ops1 b n own s1 so rel) (test_surface ops2 b n own s2 so rel).
Proof.
  intros H. unfold test_surface.
  destruct (negb (Nat.eqb (length own) n && Nat.eqb (length rel) n)); [reflexivity|].
  destruct (negb (any (owned_row own so rel))); [simpl; auto|].
  apply rel_same. intros k _. eapply rel_bind; [apply (sim_reg Hs _ _ k H)|].
  intros [a p] [c q] (Ha & Hp). cbn [fst snd] in *. subst q.
  destruct (Nat.eqb (length p) (count_true (owned_row own so rel))); simpl; auto.
Qed.

Lemma test_surfaces_sim b n own ss1 : forall ss2 sown rel, Forall2 Rl ss1 ss2 ->
  rel_res stack_rel (test_surfaces ops1 b n own ss1 sown rel) (test_surfaces ops2 b n own ss2 sown rel).
Proof.
  induction ss1 as [|a ss1 IH]; intros [|c ss2] sown rel H; inversion H; subst.
  - cbn [test_surfaces rel_res]. split; [constructor|]. auto.
  - cbn [test_surfaces]. destruct sown as [|so sown], rel as [|r rel]; try reflexivity.
    eapply rel_bind; [apply (test_surface_sim b n own a c so r); auto|].
    intros [[x row] ow] [[y row'] ow'] (Hx & E1 & E2). cbn [fst snd] in *. subst row' ow'.
    eapply rel_bind; [apply IH; auto|].
    intros [[xs rows] ows] [[ys rows'] ows'] (Hxs & E1 & E2). cbn [fst snd] in *. subst rows' ows'.
    cbn [rel_res]. split; [constructor; auto|]. auto.
Qed.

Lemma intersect_ray_sim b ss1 ss2 sown own rel : Forall2 Rl ss1 ss2 ->
  rel_res (fun x y => Forall2 Rl (fst (fst x)) (fst (fst y)) /\ snd (fst x) = snd (fst y) /\ snd x = snd y)
    (intersect_ray ops1 b ss1 sown own rel) (intersect_ray ops2 b ss2 sown own rel).
Proof.
  intros H. unfold intersect_ray. apply rel_same. intros n _.
  eapply rel_bind; [apply test_surfaces_sim; eauto|].
  intros [[xs st] ow] [[ys st'] ow'] (Hx & E1 & E2). cbn [fst snd] in *. subst st' ow'.
  destruct (any2 (fun x => nlt x (Fin (- tenm 16))) st); [reflexivity|].
  apply rel_same. intros m _. cbn [rel_res fst snd]. auto.
Qed.

Lemma process_surface_sim idx a c g f o : Rl a c ->
  rel_res (fun x y => Rl (fst (fst x)) (fst (fst y)) /\ snd (fst x) = snd (fst y) /\ snd x = snd y)
    (process_surface ops1 objs me idx a g f o) (process_surface ops2 objs me idx c g f o).
Proof.
  intros H. unfold process_surface. destruct (negb (any (mask_select o f))).
  - cbn [rel_res fst snd]. split; auto. apply (sim_done Hs); auto.
  - eapply rel_bind; [apply (sim_sel Hs _ _ _ H)|]. intros x y (Ho & Hd). cbn [bind].
    rewrite Ho. apply rel_same. intros [ob g1] _. apply rel_same. intros ps _. apply rel_same. intros parents _.
    apply rel_same. intros e _. apply rel_same. intros strong _. apply rel_same. intros oi _.
    apply rel_same. intros oj _. apply rel_same. intros owns _. apply rel_same. intros n _.
    apply rel_same. intros next _. apply rel_same. intros rel _. cbn [rel_res fst snd]. auto.
Qed.

Lemma process_surfaces_sim ss1 : forall idx ss2 g frs os, Forall2 Rl ss1 ss2 ->
  rel_res (fun x y => Forall2 Rl (fst (fst x)) (fst (fst y)) /\ snd (fst x) = snd (fst y) /\ snd x = snd y)
    (process_surfaces ops1 objs me idx ss1 g frs os) (process_surfaces ops2 objs me idx ss2 g frs os).
Proof.
  induction ss1 as [|a ss1 IH]; intros idx [|c ss2] g frs os H; inversion H; subst.
  - cbn [process_surfaces rel_res fst snd]. split; [constructor|]. auto.
  - cbn [process_surfaces]. destruct frs as [|f frs], os as [|o os]; try reflexivity.
    eapply rel_bind; [apply (process_surface_sim idx a c g f o); auto|].
    intros [[x g1] k] [[y g1'] k'] (Hx & E1 & E2). cbn [fst snd] in *. subst g1' k'.
    eapply rel_bind; [apply IH; auto|].
    intros [[xs g2] ks] [[ys g2'] ks'] (Hxs & E1 & E2). cbn [fst snd] in *. subst g2' ks'.
    cbn [rel_res fst snd]. split; [constructor; auto|]. auto.
Qed.

Definition state_rel (x : tstate S1 G) (y : tstate S2 G) : Prop :=
  Forall2 Rl (t_surfs x) (t_surfs y) /\ t_g x = t_g y /\ t_bund x = t_bund y /\
  t_own x = t_own y /\ t_rel x = t_rel y /\ t_tree x = t_tree y /\ t_record x = t_record y.

Lemma iteration_sim ta x y : state_rel x y ->
  rel_res (fun p q => state_rel (fst p) (fst q) /\ snd p = snd q)
    (iteration ops1 objs me ta x) (iteration ops2 objs me ta y).
Proof.
  destruct x as [ss1 g b own rel tr rc], y as [ss2 g' b' own' rel' tr' rc'].
  unfold state_rel. cbn [t_surfs t_g t_bund t_own t_rel t_tree t_record].
  intros (H & <- & <- & <- & <- & <- & <-). pose proof (proj1 (proj1 (Forall2_nth _ _ _) H)) as HL.
  unfold iteration. cbn [t_surfs t_g t_bund t_own t_rel t_tree t_record].
  eapply rel_bind; [apply intersect_ray_sim; eauto|].
  intros [[xs fr] ow] [[ys fr'] ow'] (Hx & E1 & E2). cbn [fst snd] in *. subst fr' ow'.
  eapply rel_bind; [apply process_surfaces_sim; eauto|].
  intros [[xs2 g2] ks] [[ys2 g2'] ks'] (Hx2 & E1 & E2). cbn [fst snd] in *. subst g2' ks'.
  apply rel_same. intros bund _. apply rel_same. intros tr2 _. apply rel_same. intros n _.
  rewrite HL. destruct (Nat.eqb n 0); cbn [rel_res fst snd t_surfs t_g t_bund t_own t_rel t_tree t_record]; repeat split; auto.
Qed.

Lemma iterate_sim ta reps : forall x y, state_rel x y ->
  rel_res state_rel (iterate ops1 objs me ta reps x) (iterate ops2 objs me ta reps y).
Proof.
  induction reps as [|reps IH]; intros x y H; cbn [iterate]; [exact H|].
  eapply rel_bind; [apply iteration_sim; eauto|]. intros [p go] [q go'] (Hp & E). cbn [fst snd] in *. subst go'.
  destruct go; auto.
Qed.

Lemma ray_tracer_sim ss1 ss2 g b reps ta : Forall2 Rl ss1 ss2 ->
  rel_res (fun x y => fst x = fst y /\ state_rel (snd x) (snd y))
    (ray_tracer ops1 objs ss1 g b reps me ta) (ray_tracer ops2 objs ss2 g b reps me ta).
Proof.
  intros H. unfold ray_tracer. pose proof (proj1 (proj1 (Forall2_nth _ _ _) H)) as HL.
  eapply rel_bind with (R := state_rel).
  { unfold start. apply rel_same. intros n _. rewrite HL. cbn [rel_res]. repeat split; auto. }
  intros x y Hxy. eapply rel_bind; [apply iterate_sim; eauto|]. clear x y Hxy. intros x y Hxy.
  eapply rel_bind with (R := state_rel).
  { destruct Hxy as (A & B & C & D & E & F & K). destruct ta; [repeat split; auto|repeat split; auto|].
    rewrite K. destruct (t_record y) as [bs|]; [|reflexivity]. apply rel_same. intros rec _. cbn [rel_res].
    rewrite B, C, D, E, F. repeat split; auto. }
  clear x y Hxy. intros x y Hxy. pose proof Hxy as (A & B & C & D & E & F & K). rewrite C.
  apply rel_same. intros v _. apply rel_same. intros d _. cbn [rel_res fst snd]. auto.
Qed.

(** ** Trees *)
Lemma rel_ok {A B} (R : A -> B -> Prop) x y a : rel_res R x y -> x = Ok a -> exists b, y = Ok b /\ R a b.
Proof. intros H ->. destruct y; simpl in H; [eauto|contradiction]. Qed.

Lemma answers_sim b n T i a c a' : Rl a c -> answers ops1 b n T i a a' -> exists c', answers ops2 b n T i c c'.
Proof.
  intros H [(E & _)|(E & sub & ps & Hn & Hp & Rg & F)].
  - exists c. left. auto.
  - destruct (rel_ok _ _ _ _ (sim_reg Hs _ _ sub H) Rg) as ([c' ps'] & Rg' & _ & Eps).
    cbn [snd] in Eps. subst ps'. exists c'. right. split; auto. exists sub, ps. auto.
Qed.

Lemma reported_sim ss1 ss2 prev ns T b : Forall2 Rl ss1 ss2 ->
  reported ops1 ss1 prev ns T b -> reported ops2 ss2 prev ns T b.
Proof.
  intros H (A & B & C & D). pose proof (proj1 (proj1 (Forall2_nth _ _ _) H)) as HL. split; auto. split; auto. split.
  - rewrite <- HL. auto.
  - intros i c Hc. apply Forall2_nth in H as (_ & H). 
    destruct (nth_error ss1 i) as [a|] eqn:Ha.
    + destruct (D i a Ha) as (a' & Ans). exact (answers_sim b ns T i a c a' (H i a c Ha Hc) Ans).
    + apply nth_error_None in Ha. assert (i < length ss2) by (apply nth_error_Some; congruence). lia.
Qed.

Lemma emission_sim b n T i a c hits g o g1 : Rl a c -> emission ops1 b n T i a hits g o g1 -> emission ops2 b n T i c hits g o g1.
Proof.
  intros H (sub & params & s1 & idx & s2 & o0 & ps & ps' & Nm & A & Rg & Pm & Pk & Sl & Og & R).
  destruct (rel_ok _ _ _ _ (sim_reg Hs _ _ sub H) Rg) as ([c1 q] & Rg' & H1 & Eq). cbn [fst snd] in *. subst q.
  destruct (rel_ok _ _ _ _ (sim_sel Hs _ _ idx H1) Sl) as (c2 & Sl' & H2 & _).
  exists sub, params, c1, idx, c2, o0, ps, ps'.
  split; [exact Nm|]. split; [exact A|]. split; [exact Rg'|]. split; [exact Pm|]. split; [exact Pk|]. split; [exact Sl'|]. rewrite <- H2. split; [exact Og|]. exact R.
Qed.

Lemma emissions_sim ss1 ss2 b n T g ems g' : Forall2 Rl ss1 ss2 ->
  emissions ops1 ss1 b n T g ems g' -> emissions ops2 ss2 b n T g ems g'.
Proof.
  intros H (A & B & C). pose proof (proj1 (proj1 (Forall2_nth _ _ _) H)) as HL. split; auto. split.
  - rewrite <- HL. auto.
  - clear A B. induction C as [h|io l h h1 h2 (a & hits & Ha & D & E & F) _ IH]; [constructor|].
    apply turn_next with h1; auto.
    destruct (nth_error ss2 (fst io)) as [c|] eqn:Hc.
    + exists c, hits. split; auto. split; auto. rewrite <- HL. split; auto.
      apply (emission_sim b n T (fst io) a c); auto. apply Forall2_nth in H as (_ & H). apply (H (fst io)); auto.
    + apply nth_error_None in Hc. assert (fst io < length ss1) by (apply nth_error_Some; congruence). lia.
Qed.

Lemma consistent_sim ss1 ss2 b n reps tr ns Ts g gs g' : Forall2 Rl ss1 ss2 ->
  consistent_tree ops1 objs ss1 me b n reps tr ns Ts g gs g' -> consistent_tree ops2 objs ss2 me b n reps tr ns Ts g gs g'.
Proof.
  intros H [G0 G1 A B C F D E K]. pose proof (proj1 (proj1 (Forall2_nth _ _ _) H)) as HL. constructor; auto.
  - intros L prev lvl Hp Hl. destruct (C L prev lvl Hp Hl) as (tb & rc & m & ems & R1 & R2 & R3 & R4 & R5 & R6 & R7 & R8).
    exists tb, rc, m, ems.
    split; [eapply reported_sim; eauto|]. split; [eapply emissions_sim; eauto|]. rewrite <- HL. auto 12.
  - intros L prev Hp Hl Hr Hn. destruct (F L prev Hp Hl Hr Hn) as (tb & R1 & R2).
    exists tb. split; [eapply reported_sim; eauto|]. rewrite <- HL. exact R2.
  - rewrite <- HL. auto.
  - rewrite <- HL. auto.
Qed.
End Sim.
