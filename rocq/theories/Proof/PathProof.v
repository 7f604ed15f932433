(** Pictures of traces in which the whole course of every ray is known. *)
From Coq Require Import Reals String List Arith Bool Lia Lra Sorted Permutation.
From Verif.Base Require Import Py Num Vec.
From Verif.Model Require Import RayBundle Geometry TraceTree OpticsCallables Engine Objects Surface View.
From Verif.Proof Require Import ListLemmas NumLemmas BundleProof ProcessProof CallProof SurfaceProof LibraryTop TraceTop ObjectProof ObjectTrace AnswerProof
  AccountProof RelayProof TowerProof DrawProof FateProof.
From Verif.Spec Require Import BundleSpec EngineSpec GeometrySpec GeomIface OpticsSpec LibrarySpec ModelSpec AccountSpec ViewSpec PathSpec.
Import ListNotations.

Section Paths.
Variables (objs : list obj) (surfs : list surface) (me esc : R).
Variables (Hit : nat -> vec -> vec -> num -> Prop) (Out : nat -> vec -> vec -> R -> vec -> R -> Prop)
  (asks : option nat -> nat -> Prop) (state : option nat -> vec -> vec -> R -> nat -> list (vec * vec) -> Prop).
Hypothesis Ans : answering_assembly objs surfs.
Hypothesis Me : (0 <= me)%R.
Hypothesis Acts : forall i s, nth_error surfs i = Some s -> acts s (Hit i) (Out i).
Hypothesis Asks0 : forall i, asks None i.
Hypothesis Asks : forall i oi owns next b j r, emitted_by objs i oi owns next b j r ->
  forall i', i' < length surfs -> (next_surfaces objs oi owns next r i' <-> asks (Some i) i').
(** A ray in the state [state q v d e k segs], sent on by surface [q], has at most [k]
    mirrors ahead and draws the lines [segs]. *)
Definition leads (q : option nat) (v d : vec) (e : R) (k : nat) (segs : list (vec * vec)) (i : nat) (t : R) (d1 : vec) (e1 : R) : Prop :=
  asks q i /\ (tenm 6 < t)%R /\ (forall x, Hit i v d x -> x = Fin t) /\
  (forall i' x, i' < length surfs -> i' <> i -> asks q i' -> Hit i' v d x -> x = PInf \/ exists t', x = Fin t' /\ (t < t')%R) /\
  (forall d' e', Hit i v d (Fin t) -> Out i (ray_at v d t) d e d' e' -> d' = d1 /\ e' = e1) /\
  (e1 = 0%R /\ segs = [(v, ray_at v d t)] \/
   (me < e1)%R /\ exists k' segs', k = S k' /\ segs = (v, ray_at v d t) :: segs' /\ state (Some i) (ray_at v d t) d1 e1 k' segs').
Hypothesis Step : forall q v d e k segs, state q v d e k segs -> e <> 0%R /\
  ((exists i t d1 e1, i < length surfs /\ leads q v d e k segs i t d1 e1) \/
   segs = [(v, vadd v (vscale esc d))] /\ forall i x, i < length surfs -> asks q i -> Hit i v d x -> x = PInf).

Definition acquainted (reps L : nat) (T : reports) (prev : bundle) (n : nat) (f : nat -> option nat * nat * list (vec * vec)) : Prop :=
  forall j, j < n -> let '(q, k, s) := f j in
    L + k < reps /\ (forall i, i < length surfs -> (T i j <> None <-> asks q i)) /\
    exists v d e, vert_at prev j = Some v /\ dir_at prev j = Some d /\ energy_at prev j = Some e /\ state q v d e k s.

Definition proceeds (T : reports) (prev : bundle) (j : nat) (a : option nat * nat * list (vec * vec)) (b : (nat * R) * (vec * vec * R)) : Prop :=
  let '(q, k, s) := a in let '((i, t), (p, d1, e1)) := b in
    exists v d e, vert_at prev j = Some v /\ dir_at prev j = Some d /\ energy_at prev j = Some e /\
    (i = length surfs /\ s = [(v, vadd v (vscale esc d))] /\ (forall i', i' < length surfs -> T i' j = None \/ T i' j = Some PInf) \/
     i < length surfs /\ p = ray_at v d t /\ T i j = Some (Fin t) /\ (tenm 6 < t)%R /\
     (forall i', i' < length surfs -> i' <> i -> T i' j = None \/ T i' j = Some PInf \/ exists t', T i' j = Some (Fin t') /\ (t < t')%R) /\
     (forall d' e', Hit i v d (Fin t) -> Out i p d e d' e' -> d' = d1 /\ e' = e1) /\
     (e1 = 0%R /\ s = [(v, p)] \/
      (me < e1)%R /\ exists k' s', k = S k' /\ s = (v, p) :: s' /\ state (Some i) p d1 e1 k' s')).
Definition goes_on (T : reports) (n : nat) (prev : bundle) (f : nat -> option nat * nat * list (vec * vec))
    (g : nat -> (nat * R) * (vec * vec * R)) : Prop := forall j, j < n -> proceeds T prev j (f j) (g j).

Lemma acquainted_goes reps L T prev n f tb : reported surface_ops surfs prev n T tb -> acquainted reps L T prev n f -> exists g, goes_on T n prev f g.
Proof.
  intros Rp K. apply (pick_fun ((0, 0%R), (vzero, vzero, 0%R)) (fun j a => proceeds T prev j (f j) a)).
  intros j Hj. specialize (K j Hj). destruct (f j) as ((q, k), s). destruct K as (Lk & As & v & d & e & V & D & E & St).
  assert (HH : forall i x, i < length surfs -> T i j = Some x -> Hit i v d x).
  { intros i x Hi Tx. destruct (nth_lt surfs i Hi) as (s0 & Es). eapply report_acts; eauto. }
  destruct (Step q v d e k s St) as (_ & [(i & t & d1 & e1 & Hi & Ai & Ht & H1 & H2 & H3 & H4)|(Eo & No)]).
  - exists ((i, t), (ray_at v d t, d1, e1)). exists v, d, e. do 3 (split; auto). right. do 2 (split; auto).
    split. { destruct (T i j) as [x|] eqn:Tx; [|exfalso; apply (proj2 (As i Hi)); auto]. f_equal. apply H1. apply HH; auto. }
    split; auto. split; [|split; auto]. intros i' Hi' Ne. destruct (T i' j) as [x|] eqn:Tx; auto. right.
    destruct (H2 i' x Hi' Ne) as [->|(t' & -> & Ht')]; eauto. apply As; auto. congruence.
  - exists ((length surfs, 0%R), (vzero, vzero, me)). exists v, d, e. do 3 (split; auto). left. do 2 (split; auto).
    intros i' Hi'. destruct (T i' j) as [x|] eqn:Tx; auto. right. f_equal. apply (No i'); auto. apply As; auto. congruence.
Qed.

Lemma goes_may T n prev f g : goes_on T n prev f g -> may_go T (length surfs) n (fun j => fst (fst (g j))) (fun j => snd (fst (g j))).
Proof.
  intros Tk. apply may_go_intro.
  - intros j Hj Hw. specialize (Tk j Hj). destruct (f j) as ((q, k), o). destruct (g j) as ((i, t), ((p, d1), e1)). cbn in *.
    destruct Tk as (v & d & e & _ & _ & _ & [(-> & _)|(Hi & _ & Tx & Ht & _)]); [lia|auto].
  - intros i' j Hi' Hj Ne. specialize (Tk j Hj). destruct (f j) as ((q, k), o). destruct (g j) as ((i, t), ((p, d1), e1)). cbn in *.
    destruct Tk as (v & d & e & _ & _ & _ & [(-> & _ & No)|(Hi & _ & Tx & Ht & Ot & _)]).
    + destruct (No i' Hi'); auto.
    + destruct (Ot i' Hi' Ne) as [?|[?|?]]; auto.
Qed.

(** The lines of a tree. *)
Section Lines.
Variable tree : list bundle.
Definition bund_vert (L j : nat) : vec := match nth_error tree L with Some b => match vert_at b j with Some v => v | None => vzero end | None => vzero end.
Definition bund_dir (L j : nat) : vec := match nth_error tree L with Some b => match dir_at b j with Some v => v | None => vzero end | None => vzero end.
Definition parents_below (L : nat) : list nat := opt_list (nth_error tree (L + 1)) b_parents.
Definition line (s : stroke) : vec * vec :=
  match s with
  | ToChild L k => (bund_vert L (nth k (parents_below L) 0), bund_vert (L + 1) k)
  | Open L j => (bund_vert L j, vadd (bund_vert L j) (vscale esc (bund_dir L j)))
  end.
Definition barren (L j : nat) : bool := negb (existsb (Nat.eqb j) (parents_below L)).
Definition level_strokes (ns : nat -> nat) (L : nat) : list stroke :=
  map (ToChild L) (seq 0 (length (parents_below L))) ++ map (Open L) (filter (barren L) (seq 0 (ns L))).
Definition strokes_upto (ns : nat -> nat) (L : nat) : list stroke := flat_map (level_strokes ns) (seq 0 L).

Lemma strokes_next ns L : strokes_upto ns (L + 1) = strokes_upto ns L ++ level_strokes ns L.
Proof. unfold strokes_upto. rewrite seq_app, flat_map_app. cbn. rewrite app_nil_r. reflexivity. Qed.
End Lines.

Lemma split_filter {A} (p : A -> bool) (l : list A) : Permutation l (filter p l ++ filter (fun x => negb (p x)) l).
Proof.
  induction l as [|a l IH]; [constructor|]. cbn. destruct (p a); cbn; [constructor; auto|].
  eapply Permutation_trans; [constructor; exact IH|]. apply Permutation_middle.
Qed.
Lemma flat_cons {A B} (h : A -> B) (r : A -> list B) l : Permutation (flat_map (fun a => h a :: r a) l) (map h l ++ flat_map r l).
Proof.
  induction l as [|a l IH]; [constructor|]. cbn. constructor. rewrite IH, !app_assoc. apply Permutation_app_tail, Permutation_app_comm.
Qed.
Lemma flat_single {A B} (h : A -> B) l : flat_map (fun a => [h a]) l = map h l.
Proof. induction l; cbn; congruence. Qed.
Lemma flat_ext {A B} (f g : A -> list B) l : (forall a, In a l -> f a = g a) -> flat_map f l = flat_map g l.
Proof. induction l as [|a l IH]; intros H; auto. cbn. rewrite (H a) by (left; auto). f_equal. apply IH. intros; apply H; right; auto. Qed.
Lemma flat_none {A B} (f : A -> list B) l : (forall a, In a l -> f a = []) -> flat_map f l = [].
Proof. induction l as [|a l IH]; intros H; auto. cbn. rewrite (H a) by (left; auto). apply IH. intros; apply H; right; auto. Qed.
Lemma map_nth_seq (hs : list nat) : map (fun k => nth k hs 0) (seq 0 (length hs)) = hs.
Proof. induction hs as [|a l IH]; auto. cbn [length seq map nth]. f_equal. rewrite <- seq_shift, map_map. exact IH. Qed.
Lemma firstn_nth_seq (hs : list nat) k : k <= length hs -> map (fun k => nth k hs 0) (seq 0 k) = firstn k hs.
Proof.
  revert k. induction hs as [|a hs IH]; intros [|k] Hk; auto; cbn in Hk; [lia|].
  cbn [firstn map seq nth]. f_equal. rewrite <- seq_shift, map_map. apply IH. lia.
Qed.
Lemma nth_skipn {A} (l : list A) n k : nth_error (skipn n l) k = nth_error l (n + k).
Proof. revert l. induction n as [|n IH]; intros [|a l]; auto; [destruct k; auto|apply IH]. Qed.
Lemma existsb_in j l : existsb (Nat.eqb j) l = true <-> In j l.
Proof. rewrite existsb_exists. split; [intros (x & I & E); apply Nat.eqb_eq in E; subst; auto|]. intros I. exists j. split; auto. apply Nat.eqb_refl. Qed.

Section Run.
Variables (g g' : shared) (source : bundle) (n reps : nat) (tree : list bundle) (ns : nat -> nat) (Ts : nat -> reports) (gs : nat -> shared)
  (f0 : nat -> nat * list (vec * vec)).
Hypothesis C : consistent_tree surface_ops objs surfs me source n reps tree ns Ts g gs g'.
Hypothesis Trc : traceable source n.
Hypothesis Start : forall j, j < n -> fst (f0 j) < reps /\
  exists v d e, vert_at source j = Some v /\ dir_at source j = Some d /\ energy_at source j = Some e /\ state None v d e (fst (f0 j)) (snd (f0 j)).

Definition outset (j : nat) : option nat * nat * list (vec * vec) := (None, fst (f0 j), snd (f0 j)).
Definition left_over (f : nat -> option nat * nat * list (vec * vec)) (n : nat) : list (vec * vec) := flat_map (fun j => snd (f j)) (seq 0 n).

Lemma run : forall L prev, nth_error tree L = Some prev -> exists f, acquainted reps L (Ts L) prev (ns L) f /\
  (forall j e, energy_at prev j = Some e -> j < ns L <-> e <> 0%R) /\
  Permutation (map (line tree) (strokes_upto tree ns L) ++ left_over f (ns L)) (left_over outset n).
Proof.
  pose proof Ans as (La & _).
  induction L as [|L IH]; intros prev Hp.
  { rewrite (ct_source _ _ _ _ _ _ _ _ _ _ _ _ _ C) in Hp. injection Hp as <-. exists outset.
    rewrite (ct_source_n _ _ _ _ _ _ _ _ _ _ _ _ _ C). split; [|split].
    - intros j Hj. cbn. destruct (Start j Hj) as (Lr & St). split; auto. split; auto. intros i Hi. split; auto. intros _.
      apply (ct_first _ _ _ _ _ _ _ _ _ _ _ _ _ C); auto. lia.
    - intros j e E. split.
      + intros Hj. destruct (Start j Hj) as (_ & v & d & e' & _ & _ & E' & St). destruct (Step _ _ _ _ _ _ St) as (Ne & _). congruence.
      + intros _. destruct (traceable_parts _ _ Trc) as (vs & ds & es & _ & _ & Ee & _ & _ & Le). unfold energy_at, at_col in E. rewrite Ee in E.
        rewrite <- Le. apply nth_error_Some. congruence.
    - apply Permutation_refl. }
  destruct (nth_error tree L) as [b|] eqn:Hb.
  2:{ apply nth_error_None in Hb. assert (S L < length tree) by (apply nth_error_Some; congruence). lia. }
  destruct (IH b eq_refl) as (f & K & Sh & Pm). replace (S L) with (L + 1) in * by lia.
  destruct (ct_level _ _ _ _ _ _ _ _ _ _ _ _ _ C L b prev Hb Hp) as (tb & rc & m & ems & Rp & Em & Cc & Lo & Tp & Mp & Ch & Sp & Tr).
  destruct (acquainted_goes _ _ _ _ _ _ _ Rp K) as (h & Tk). pose proof (goes_may _ _ _ _ _ Tk) as G.
  assert (Np : exists j, j < ns L /\ fst (fst (h j)) < length surfs).
  { destruct (proj1 Ch 0 Mp) as (i & j & t & v & d & _ & Hj & M & _). exists j. apply G in M as (Hj' & Wi & Wl & _). split; auto. cbv beta in Wi. lia. }
  destruct (level_shuffled surfs b tb rc prev (Ts L) (ns L) m (ns (L + 1)) me _ _ ems _ _ (fun j => fst (fst (snd (h j)))) (fun j => snd (fst (snd (h j))))
    (fun j => snd (snd (h j))) Rp Em Cc Lo Tr Sp Np G) as (hs & Ph & Eh & Ln & Hs).
  { intros i (j0 & Hj0 & Wi & Hi).
    destruct (nth_lt surfs i Hi) as (s & Es). exists s, (Hit i), (Out i). split; auto. split; auto.
    intros j v d e d' e' Hj Wj V D E HH HO. specialize (Tk j Hj). destruct (f j) as ((q, k), o). destruct (h j) as ((i', t), ((p, d1), e1)). cbn in *. subst i'.
    destruct Tk as (v' & d0 & e0 & V' & D' & E' & [(Hl & _)|(_ & -> & _ & _ & _ & Ho & _)]); [lia|]. rewrite V in V'. rewrite D in D'. rewrite E in E'.
    assert (v' = v) by congruence. assert (d0 = d) by congruence. assert (e0 = e) by congruence. subst v' d0 e0. split; auto. }
  assert (Hn : forall j, In j hs <-> j < ns L /\ fst (fst (h j)) < length surfs).
  { intros x. rewrite Ph, filter_In, in_seq, Nat.ltb_lt. intuition lia. }
  set (rest := fun j => match snd (f j) with _ :: s' => if Rlt_dec me (snd (snd (h j))) then s' else [] | [] => [] end).
  exists (fun k => let j := nth k hs 0 in (Some (fst (fst (h j))), pred (snd (fst (f j))), rest j)).
  assert (Go : forall j, j < ns L -> fst (fst (h j)) < length surfs -> exists v d e q k,
     vert_at b j = Some v /\ dir_at b j = Some d /\ energy_at b j = Some e /\ fst (f j) = (q, k) /\ fst (fst (snd (h j))) = ray_at v d (snd (fst (h j))) /\
     snd (f j) = (v, fst (fst (snd (h j)))) :: rest j /\
     (snd (snd (h j)) = 0%R /\ rest j = [] \/ (me < snd (snd (h j)))%R /\ exists k', k = S k' /\
        state (Some (fst (fst (h j)))) (fst (fst (snd (h j)))) (snd (fst (snd (h j)))) (snd (snd (h j))) k' (rest j))).
  { intros j Hj Hi. specialize (Tk j Hj). unfold rest. destruct (f j) as ((q, k), s). destruct (h j) as ((i, t), ((p, d1), e1)). cbn [fst snd proceeds] in *.
    destruct Tk as (v & d & e & V & D & E & [(Hl & _)|(_ & -> & _ & _ & _ & _ & M)]); [lia|]. exists v, d, e, q, k. do 5 (split; auto).
    destruct M as [(-> & ->)|(M & k' & s' & -> & -> & St)].
    - destruct (Rlt_dec me 0); [lra|]. split; auto.
    - destruct (Rlt_dec me e1); [|lra]. split; auto. right. split; auto. eauto. }
  assert (Pe : parents_below tree L = hs). { unfold parents_below, opt_list. rewrite Hp. destruct Eh as (_ & _ & _ & ->). reflexivity. }
  split; [|split].
  - intros k Hk. cbv zeta.
    destruct (nth_lt hs k) as (j & Ej); [lia|]. rewrite (nth_error_nth _ _ _ Ej).
    pose proof (proj1 (Hn j) (nth_error_In _ _ Ej)) as (Hj & Hi).
    destruct (emits_nth _ _ _ _ _ _ _ Eh Ej) as (V & D & E & Pa). apply (Hs k j Ej) in Hk as Hm. specialize (K j Hj).
    destruct (Go j Hj Hi) as (v & d & e & q & k0 & _ & _ & _ & Ef & _ & _ & [(Z & _)|(_ & k' & -> & St)]); [rewrite Z in Hm; lra|].
    destruct (ct_owned _ _ _ _ _ _ _ _ _ _ _ _ _ C L prev Hp k Hk) as (i & p & t & oi & owns & next & r & Pa' & Mf & Eb & Nx).
    rewrite Pa in Pa'. assert (p = j) by congruence. subst p. clear Pa'. apply G in Mf as (_ & Wi & Wl & _). cbv beta in Wi.
    rewrite Ef. cbn [snd pred]. destruct (f j) as (fj & s). cbn [fst] in Ef. subst fj. destruct K as (Lk & _).
    split; [lia|]. split.
    + intros i' Hi'. rewrite Nx by (auto; lia). rewrite <- Wi. apply (Asks i oi owns next prev k r Eb); auto.
    + exists (fst (fst (snd (h j)))), (snd (fst (snd (h j)))), (snd (snd (h j))). auto.
  - intros k e E. destruct (nth_lt hs k) as (j & Ej).
    { rewrite <- (emits_count _ _ _ _ _ _ Eh Tp). destruct (traceable_parts _ _ Tp) as (vs & ds & es & _ & _ & Ee & _ & _ & Le). unfold energy_at, at_col in E.
      rewrite Ee in E. rewrite <- Le. apply nth_error_Some. congruence. }
    pose proof (proj1 (Hn j) (nth_error_In _ _ Ej)) as (Hj & Hi).
    destruct (emits_nth _ _ _ _ _ _ _ Eh Ej) as (_ & _ & E' & _). rewrite E in E'. assert (e = snd (snd (h j))) by congruence. subst e. rewrite (Hs k j Ej).
    destruct (Go j Hj Hi) as (v & d & e & q & k0 & _ & _ & _ & _ & _ & _ & [(-> & _)|(M & _)]); split; intros; try lra.
  - rewrite <- Pm, strokes_next, map_app, <- app_assoc. apply Permutation_app_head. unfold level_strokes, left_over. rewrite map_app, !map_map, Pe. cbn [snd].
    set (un := filter (fun j => negb (Nat.ltb (fst (fst (h j))) (length surfs))) (seq 0 (ns L))).
    assert (Eu : filter (barren tree L) (seq 0 (ns L)) = un).
    { apply filter_ext_in. intros j Ij. apply in_seq in Ij. unfold barren. f_equal. rewrite Pe. apply eq_true_iff_eq. rewrite existsb_in, Nat.ltb_lt, Hn. intuition lia. }
    rewrite Eu.
    assert (Sg : Permutation (flat_map (fun j => snd (f j)) (seq 0 (ns L))) (flat_map (fun j => snd (f j)) (hs ++ un))).
    { apply Permutation_flat_map. rewrite Ph. apply (split_filter (fun j => Nat.ltb (fst (fst (h j))) (length surfs))). }
    rewrite Sg, flat_map_app.
    rewrite (flat_ext (fun j => snd (f j)) (fun j => (bund_vert tree L j, fst (fst (snd (h j)))) :: rest j) hs).
    2:{ intros j Ij. apply Hn in Ij as (Hj & Hi). destruct (Go j Hj Hi) as (v & d & e & q & k & V & _ & _ & _ & _ & -> & _). unfold bund_vert. rewrite Hb, V. reflexivity. }
    rewrite flat_cons.
    rewrite (flat_ext (fun j => snd (f j)) (fun j => [line tree (Open L j)]) un).
    2:{ intros j Ij. apply filter_In in Ij as (Ij & W). apply in_seq in Ij. apply negb_true_iff, Nat.ltb_ge in W. specialize (Tk j ltac:(lia)).
        destruct (f j) as ((q, k), s). destruct (h j) as ((i, t), ((p, d1), e1)). cbn in Tk, W |- *.
        destruct Tk as (v & d & e & V & D & _ & [(_ & -> & _)|(Hi & _)]); [|lia]. unfold bund_vert, bund_dir. rewrite Hb, V, D. reflexivity. }
    rewrite flat_single.
    assert (E1 : map (fun x => line tree (ToChild L x)) (seq 0 (length hs)) = map (fun j => (bund_vert tree L j, fst (fst (snd (h j))))) hs).
    { rewrite <- (map_nth_seq hs) at 2. rewrite map_map. apply map_ext_in. intros k Ik. apply in_seq in Ik. cbn [line]. rewrite Pe. f_equal.
      destruct (nth_lt hs k) as (j & Ej); [lia|]. rewrite (nth_error_nth _ _ _ Ej). unfold bund_vert. rewrite Hp.
      destruct (emits_nth _ _ _ _ _ _ _ Eh Ej) as (-> & _). reflexivity. }
    rewrite E1.
    assert (E2 : flat_map rest hs = flat_map (fun j => rest (nth j hs 0)) (seq 0 (ns (L + 1)))).
    { transitivity (flat_map rest (firstn (ns (L + 1)) hs)).
      - rewrite <- (firstn_skipn (ns (L + 1)) hs) at 1. rewrite flat_map_app, (flat_none rest (skipn _ _)); [apply app_nil_r|].
        intros j Ij. apply In_nth_error in Ij as (k & Ek). rewrite nth_skipn in Ek.
        pose proof (proj1 (Hn j) (nth_error_In _ _ Ek)) as (Hj & Hi).
        destruct (Go j Hj Hi) as (v & d & e & q & k0 & _ & _ & _ & _ & _ & _ & [(_ & Z)|(M & _)]); auto. apply (Hs _ j Ek) in M. lia.
      - rewrite <- firstn_nth_seq by auto. rewrite !flat_map_concat_map, map_map. reflexivity. }
    rewrite E2, <- !app_assoc. apply Permutation_app_head. apply Permutation_app_comm.
Qed.

Lemma run_end L prev : nth_error tree L = Some prev -> nth_error tree (L + 1) = None -> (1 <= reps)%nat -> L <= reps ->
  (L = reps -> ns L = 0) /\ Permutation (map (line tree) (strokes_upto tree ns (L + 1))) (left_over outset n).
Proof.
  intros Hp Hn Hr Lr. destruct (run L prev Hp) as (f & K & Sh & Pm). split.
  - intros ->. destruct (Nat.eq_dec (ns reps) 0) as [|Nz]; auto. exfalso. specialize (K 0 ltac:(lia)). destruct (f 0) as ((q, k), o). lia.
  - rewrite <- Pm, strokes_next, map_app. apply Permutation_app_head. unfold level_strokes, left_over.
    assert (Pe : parents_below tree L = []) by (unfold parents_below; rewrite Hn; reflexivity). unfold barren. rewrite Pe. cbn [length seq map app existsb negb].
    destruct (Nat.eq_dec (ns L) 0) as [->|Nz]; [constructor|].
    assert (L < reps). { specialize (K 0 ltac:(lia)). destruct (f 0) as ((q, k), o). lia. }
    destruct (ct_end _ _ _ _ _ _ _ _ _ _ _ _ _ C L prev Hp Hn) as (tb & Rp & No); auto; [right; lia|].
    destruct (acquainted_goes _ _ _ _ _ _ _ Rp K) as (h & Tk). pose proof (goes_may _ _ _ _ _ Tk) as G.
    rewrite (flat_ext (fun j => snd (f j)) (fun j => [line tree (Open L j)])).
    + rewrite flat_single. replace (filter (fun _ => true) (seq 0 (ns L))) with (seq 0 (ns L)); [rewrite map_map; apply Permutation_refl|].
      generalize (seq 0 (ns L)) as l. clear. induction l; cbn; congruence.
    + intros j Ij. apply in_seq in Ij. specialize (Tk j ltac:(lia)).
      pose proof (No (fst (fst (h j))) j (snd (fst (h j)))) as N. rewrite (G _ _ _) in N. cbv beta in N.
      destruct (f j) as ((q, k), o). destruct (h j) as ((i, t), ((p, d1), e1)). cbn in Tk, N |- *.
      destruct Tk as (v & d & e & V & D & _ & [(_ & -> & _)|(Hi & _)]).
      * unfold bund_vert, bund_dir. rewrite Hp, V, D. reflexivity.
      * exfalso. apply N. repeat split; auto. lia.
Qed.

(** These are the lines drawn. *)
Lemma strokes_belong L prev : nth_error tree L = Some prev -> nth_error tree (L + 1) = None -> drawable tree ->
  NoDup (strokes_upto tree ns (L + 1)) /\ (forall s, In s (strokes_upto tree ns (L + 1)) <-> belongs tree (fun _ _ => True) s) /\
  forall s p q, belongs tree (fun _ _ => True) s -> runs tree esc s p q -> (p, q) = line tree s.
Proof.
  intros Hp Hn (_ & Tb & Pb).
  assert (Len : length tree = L + 1).
  { apply nth_error_None in Hn. assert (L < length tree) by (apply nth_error_Some; congruence). lia. }
  assert (Cnt : forall L0 c, nth_error tree (L0 + 1) = Some c -> rays c (length (parents_below tree L0)) /\ b_parents c = Some (parents_below tree L0)).
  { intros L0 c Hc. destruct (nth_error tree L0) as [b|] eqn:Hb.
    2:{ apply nth_error_None in Hb. assert (L0 + 1 < length tree) by (apply nth_error_Some; congruence). lia. }
    destruct (Pb L0 b c Hb Hc) as (n0 & m & _ & Rc & Pc & _). unfold parents_below, opt_list. rewrite Hc.
    destruct (b_parents c) as [ps|] eqn:Ec; [|congruence]. split; auto.
    pose proof Rc as (_ & Rr). specialize (Rr Parents). cbn in Rr. rewrite Ec in Rr. cbn in Rr. specialize (Rr _ eq_refl). rewrite map_length in Rr. rewrite Rr. auto. }
  split; [|split].
  - unfold strokes_upto. generalize (L + 1) as k. intros k. generalize 0 as a. induction k as [|k IH]; intros a; cbn [seq flat_map]; [constructor|].
    apply nodup_app_intro.
    + unfold level_strokes. apply nodup_app_intro.
      * apply FinFun.Injective_map_NoDup; [intros x y E; congruence|apply seq_NoDup].
      * apply FinFun.Injective_map_NoDup; [intros x y E; congruence|apply NoDup_filter, seq_NoDup].
      * intros x I1 I2. apply in_map_iff in I1 as (y & <- & _). apply in_map_iff in I2 as (z & E & _). discriminate.
    + apply IH.
    + intros x I1 I2. apply in_flat_map in I2 as (a' & Ia & I2). apply in_seq in Ia. unfold level_strokes in *. rewrite in_app_iff, !in_map_iff in I1, I2.
      destruct I1 as [(y & <- & _)|(y & <- & _)]; destruct I2 as [(z & E & _)|(z & E & _)]; try discriminate; injection E; intros; lia.
  - intros s. unfold strokes_upto. rewrite in_flat_map. unfold level_strokes. split.
    + intros (L0 & IL & I). apply in_seq in IL. rewrite in_app_iff, !in_map_iff in I. destruct I as [(k & <- & Ik)|(j & <- & Ij)].
      * apply in_seq in Ik. cbn. unfold parents_below, opt_list in Ik. destruct (nth_error tree (L0 + 1)) as [c|] eqn:Hc; [|cbn in Ik; lia].
        exists c, (length (parents_below tree L0)). destruct (Cnt L0 c Hc) as (Rc & _). split; auto. split; auto. unfold parents_below, opt_list. rewrite Hc. lia.
      * apply filter_In in Ij as (Ij & Bj). apply in_seq in Ij. destruct (nth_lt tree L0 ltac:(lia)) as (b & Hb). destruct (run L0 b Hb) as (f & K & Sh & _).
        cbn. exists b. split; auto. pose proof (K j ltac:(lia)) as Kj. destruct (f j) as ((q, k), o). destruct Kj as (_ & _ & v & d & e & _ & _ & E & _). split.
        -- exists e. split; auto. split; auto. apply (Sh j e E). lia.
        -- intros c k0 Hc Pc. unfold barren in Bj. apply negb_true_iff in Bj. destruct (Cnt L0 c Hc) as (_ & Ec). unfold parent_at, at_col in Pc. rewrite Ec in Pc.
           apply nth_error_In in Pc. apply existsb_in in Pc. congruence.
    + intros B. destruct s as [L0 k|L0 j]; cbn in B.
      * destruct B as (c & m & Hc & Rc & Hk). exists L0. assert (L0 + 1 < length tree) by (apply nth_error_Some; congruence). split; [apply in_seq; lia|].
        apply in_app_iff. left. apply in_map. apply in_seq. destruct (Cnt L0 c Hc) as (Rc' & _). rewrite (rays_unique _ _ _ Rc' Rc). lia.
      * destruct B as (b & Hb & (e & E & Ne & _) & Cl). exists L0. assert (L0 < length tree) by (apply nth_error_Some; congruence). split; [apply in_seq; lia|].
        apply in_app_iff. right. apply in_map. apply filter_In. destruct (run L0 b Hb) as (f & K & Sh & _). split.
        -- apply in_seq. apply (Sh j e E) in Ne. lia.
        -- unfold barren. apply negb_true_iff. destruct (existsb (Nat.eqb j) (parents_below tree L0)) eqn:Ex; auto. exfalso. apply existsb_in in Ex.
           destruct (nth_error tree (L0 + 1)) as [c|] eqn:Hc; [|unfold parents_below in Ex; rewrite Hc in Ex; destruct Ex].
           destruct (Cnt L0 c Hc) as (_ & Ec). apply In_nth_error in Ex as (k & Ek). apply (Cl c k); auto. unfold parent_at, at_col. rewrite Ec. auto.
  - intros s p q B Rn. destruct s as [L0 k|L0 j]; cbn in *.
    + destruct Rn as (b & c & j & Hb & Hc & Pj & Vp & Vq). destruct (Cnt L0 c Hc) as (_ & Ec). unfold parent_at, at_col in Pj. rewrite Ec in Pj.
      rewrite (nth_error_nth _ _ _ Pj). unfold bund_vert. rewrite Hb, Hc, Vp, Vq. reflexivity.
    + destruct Rn as (b & d & Hb & Vp & Dp & ->). unfold bund_vert, bund_dir. rewrite Hb, Vp, Dp. reflexivity.
Qed.
End Run.

Theorem paths_drawn g source n reps (f0 : nat -> nat * list (vec * vec)) : library_source source n -> 1 <= reps ->
  knows_media surfs source ->
  (forall j, j < n -> fst (f0 j) < reps /\ exists v d e, vert_at source j = Some v /\ dir_at source j = Some d /\ energy_at source j = Some e /\
     state None v d e (fst (f0 j)) (snd (f0 j))) ->
  exists st pts cs, ray_tracer surface_ops objs surfs g source reps me TreeTrue = Ok ([], [], st) /\
    show_rays (t_tree st) esc None = Ok (pts, cs) /\ draws pts cs (flat_map (fun j => snd (f0 j)) (seq 0 n)).
Proof.
  intros Ls Hr Md St.
  destruct (tracing_answers objs surfs Ans g source n reps me TreeTrue Ls Md) as (vs & ds & st & E); [left; lia|].
  pose proof Ans as (La & _). pose proof Ls as (Trc & _).
  destruct (library_trace objs surfs me La g source n reps vs ds st Ls E)
    as (ns & Ts & gs & C & _ & Lt & Ev & Ed & Tb & _ & Full & Short & _).
  pose proof (ct_source _ _ _ _ _ _ _ _ _ _ _ _ _ C) as T0.
  assert (Lp : 0 < length (t_tree st)) by (apply nth_error_Some; congruence).
  destruct (nth_lt (t_tree st) (length (t_tree st) - 1)) as (lst & El); [lia|].
  assert (En : nth_error (t_tree st) (length (t_tree st) - 1 + 1) = None) by (apply nth_error_None; lia).
  destruct (run_end _ _ _ _ _ _ _ _ _ _ C Trc St _ _ El En Hr ltac:(lia)) as (N0 & Pm).
  assert (Vn : vs = []).
  { destruct (Nat.eq_dec (length (t_tree st)) (reps + 1)) as [Eq|Eq]; [|apply Short; lia].
    replace (length (t_tree st) - 1) with reps in * by lia. destruct (Full Eq lst El) as (Lv & _). rewrite N0 in Lv by auto. destruct vs; [auto|discriminate]. }
  assert (Dn : ds = []).
  { destruct Tb as (_ & (_ & Rr) & _). specialize (Rr Directions). cbn in Rr. rewrite Ed in Rr. cbn in Rr. specialize (Rr _ eq_refl).
    rewrite map_length in Rr. subst vs. destruct ds; [auto|discriminate]. }
  subst vs ds.
  destruct (trace_levels objs surfs me g source n reps [] [] st La Ls E) as (Dr & _).
  destruct (drawn_faithfully esc None (t_tree st) Dr I) as (pts & cs & Es & ss & (Nd & Is) & Dp).
  { intros L b i j Hb (e & Ee & Ne & _) _ Hij. destruct (run _ _ _ _ _ _ _ _ _ _ C Trc St L b Hb) as (f & K & Sh & _).
    apply (Sh j e Ee) in Ne. specialize (K i ltac:(lia)). destruct (f i) as ((q & k) & s). destruct K as (_ & _ & v & d & e' & _ & _ & Ee' & _).
    exists e'. split; auto. split; [|exact I]. apply (Sh i e' Ee'). lia. }
  destruct (strokes_belong _ _ _ _ _ _ _ _ _ _ C Trc St _ _ El En Dr) as (Nd' & Is' & Ln).
  exists st, pts, cs. split; auto. split; auto. exists (map (line (t_tree st)) ss). split.
  - unfold left_over, outset in Pm. cbn [snd] in Pm. rewrite <- Pm. apply Permutation_map. apply NoDup_Permutation; auto. intros s. rewrite Is, Is'. cbn. tauto.
  - assert (Bs : forall s, In s ss -> belongs (t_tree st) (fun _ _ => True) s) by (intros s; apply Is). clear - Dp Ln Bs. unfold depicts in Dp.
    induction Dp as [|c s cs ss (p & q & E1 & E2 & Rn) F IH]; constructor.
    + rewrite <- (Ln s p q); auto. apply Bs. left; auto.
    + apply IH. intros; apply Bs; right; auto.
Qed.
End Paths.
