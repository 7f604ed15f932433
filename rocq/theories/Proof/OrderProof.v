(** The order of surfaces and rays, and the grouping of surfaces, do not matter. *)
From Coq Require Import Reals String List Arith Bool Lia Lra Sorted Permutation FinFun.
From Verif.Base Require Import Py Num Vec.
From Verif.Model Require Import RayBundle Geometry TraceTree Sources Optics OpticsCallables Engine Objects Surface.
From Verif.Proof Require Import ListLemmas VecLemmas BundleProof ProcessProof OpticsProof OpticsTop GeomProof AnswerProof EngineTop ObjectProof ObjectTrace LibraryTop TraceTop AccountProof LawProof.
From Verif.Spec Require Import BundleSpec EngineSpec GeometrySpec GeomIface OpticsSpec LibrarySpec AccountSpec LawSpec OrderSpec.
Import ListNotations.
Local Open Scope nat_scope.

Lemma exchange_sym n f g : exchange n f g -> exchange n g f.
Proof. intros (A & B). split; auto. Qed.

(** ** Surfaces met *)
Lemma meets_moved T T' N n n' p p' q q' i j t : exchange N p p' ->
  (forall j, j < n -> q j < n' /\ q' (q j) = j) -> (forall j, j < n' -> q' j < n /\ q (q' j) = j) ->
  (forall i j, i < N -> j < n -> T' (p i) (q j) = T i j) ->
  meets_first T N n i j t -> meets_first T' N n' (p i) (q j) t.
Proof.
  intros (P1 & P2) Q1 Q2 H (A & B & C & D & E).
  assert (Cut : cutoff_on T N n <-> cutoff_on T' N n').
  { split; intros (i0 & j0 & Hi & Hj & X).
    - exists (p i0), (q j0). rewrite H by auto. split; [apply P1; auto|]. split; [apply Q1; auto|auto].
    - destruct (P2 i0 Hi) as (Hi' & Ei), (Q2 j0 Hj) as (Hj' & Ej). exists (p' i0), (q' j0). split; auto. split; auto. rewrite <- H by auto. rewrite Ei, Ej. auto. }
  assert (Dis : forall t, discarded T N n t <-> discarded T' N n' t) by (intros; unfold discarded; tauto).
  split; [apply P1; auto|]. split; [apply Q1; auto|]. rewrite H by auto. split; auto. split; [rewrite <- Dis; auto|].
  intros i' Hi'. destruct (P2 i' Hi') as (Hi & Ei). specialize (E (p' i') Hi). rewrite <- H, Ei in E by auto.
  destruct (T' i' (q j)) as [[| | |]|]; auto. rewrite <- Dis. auto.
Qed.

(** ** The laws leave no choice *)
Local Open Scope R_scope.
Lemma follows_once w o z n d e m d1 e1 m1 d2 e2 m2 : specular o -> is_unit d -> is_unit n ->
  follows w o z n d e m d1 e1 m1 -> follows w o z n d e m d2 e2 m2 -> d1 = d2 /\ e1 = e2 /\ m1 = m2.
Proof.
  intros Sp Ud Un F1 F2.
  assert (M : mirrored n d d1 -> mirrored n d d2 -> d1 = d2) by (apply mirrored_unique).
  assert (Z : forall a, (dot d z <= 0 -> e1 = e * (1 - a)) -> (0 < dot d z -> e1 = 0) -> (dot d z <= 0 -> e2 = e * (1 - a)) -> (0 < dot d z -> e2 = 0) -> e1 = e2).
  { intros a A B C D. destruct (Rle_lt_dec (dot d z) 0) as [L|L]; [rewrite A, C by auto|rewrite B, D by auto]; auto. }
  assert (Ab : forall ab, specular (Absorbing ab) -> follows w (Absorbing ab) z n d e m d1 e1 m1 -> follows w (Absorbing ab) z n d e m d2 e2 m2 -> d1 = d2 /\ e1 = e2 /\ m1 = m2).
  { intros [a|a|a] S G1 G2; cbn in S, G1, G2; [| |tauto].
    - destruct G1 as (_ & A1 & -> & ->), G2 as (_ & A2 & -> & ->). auto.
    - destruct G1 as (_ & A1 & B1 & C1 & ->), G2 as (_ & A2 & B2 & C2 & ->). split; auto. split; auto. eapply (Z a); eauto. }
  destruct o as [ab|id ab|i1 i2]; [apply (Ab ab); auto|apply (Ab ab); destruct ab; auto|].
  cbn [follows] in F1, F2. destruct F1 as (k & k' & f & Em & Pk & Pk' & Os & Bf & R1 & R2 & F1), F2 as (l & l' & h & Em' & _ & _ & Os' & Bh & S1 & S2 & F2).
  assert (l = k) by congruence. subst l.
  assert (l' = k'). { destruct Os as (X1 & X2), Os' as (Y1 & Y2). destruct (Req_dec k i1) as [->|N]; [rewrite X1, Y1 by auto|rewrite X2, Y2 by auto]; auto. } subst l'.
  assert (Eh : can_refract k k' d n -> h = f). { intros C. apply (reflectance_unique k k' d n); auto. }
  destruct w.
  - destruct F1 as (C & G1 & -> & ->), F2 as (_ & G2 & -> & ->). rewrite (Eh C). split; auto. apply (snell_unique k k' n d); auto.
  - destruct F1 as (G1 & -> & ->), F2 as (G2 & -> & ->). split; auto. split; auto. f_equal.
    destruct (Classical_Prop.classic (can_refract k k' d n)) as [C|C]; [symmetry; auto|rewrite R2, S2 by auto; auto].
Qed.

(** ** One half of the twin relation *)
Lemma light_vert b j b' j' : same_light b j b' j' -> vert_at b j = vert_at b' j'.
Proof. intros H. specialize (H Vertices ltac:(discriminate)). fold (at_p b Vertices j) in H. fold (at_p b' Vertices j') in H. rewrite !vert_at_p in H. eapply option_map_inj; [|exact H]. congruence. Qed.
Lemma light_dir b j b' j' : same_light b j b' j' -> dir_at b j = dir_at b' j'.
Proof. intros H. specialize (H Directions ltac:(discriminate)). fold (at_p b Directions j) in H. fold (at_p b' Directions j') in H. rewrite !dir_at_p in H. eapply option_map_inj; [|exact H]. congruence. Qed.
Lemma light_energy b j b' j' : same_light b j b' j' -> energy_at b j = energy_at b' j'.
Proof. intros H. specialize (H Energy ltac:(discriminate)). fold (at_p b Energy j) in H. fold (at_p b' Energy j') in H. rewrite !energy_at_p in H. eapply option_map_inj; [|exact H]. congruence. Qed.
Lemma light_ref b j b' j' : same_light b j b' j' -> ref_at b j = ref_at b' j'.
Proof. intros H. specialize (H RefIndex ltac:(discriminate)). fold (at_p b RefIndex j) in H. fold (at_p b' RefIndex j') in H. rewrite !ref_at_p in H. eapply option_map_inj; [|exact H]. congruence. Qed.

Definition normals_as (surfs : list surface) (T : reports) (ns : nat) (prev : bundle) (N : nat -> nat -> vec) : Prop :=
  forall i s j t v d, nth_error surfs i = Some s -> meets_first T (length surfs) ns i j t -> vert_at prev j = Some v -> dir_at prev j = Some d ->
    N i j = the_normal (s_geom s) (s_frame s) (ray_at v d t) d.

Lemma twin surfs surfs' T T' ns ns' prev prev' p f N via thr N' via' thr' lvl lvl' m' :
  (forall s, In s surfs -> specular (s_opt s)) -> all_rays lib_ray prev -> rays lvl' m' ->
  (forall i j t, meets_first T (length surfs) ns i j t -> meets_first T' (length surfs') ns' (p i) (f j) t) ->
  (forall i s, nth_error surfs i = Some s -> nth_error surfs' (p i) = Some s) ->
  (forall j, (j < ns)%nat -> same_light prev j prev' (f j)) ->
  sent_on surfs T ns prev N via thr lvl -> normals_as surfs T ns prev N ->
  sent_on surfs' T' ns' prev' N' via' thr' lvl' -> normals_as surfs' T' ns' prev' N' ->
  forall k v, vert_at lvl k = Some v -> exists j k', parent_at lvl k = Some j /\ (j < ns)%nat /\ (via k < length surfs)%nat /\ (k' < m')%nat /\
    parent_at lvl' k' = Some (f j) /\ via' k' = p (via k) /\ thr' k' = thr k /\ same_light lvl k lvl' k'.
Proof.
  intros Sp Lr Rl Hm Hs Hf (S1 & S2 & _) HN (S1' & S2' & _) HN' k v Hv.
  destruct (S1 k v Hv) as (s & j & t & Es & M & Mk). exists j.
  destruct Mk as (v0 & d & e & q & gr & d' & e' & Hv0 & Hd & He & Hp & Hv' & Hd' & He' & Hq & Hg & Hn & F & X).
  assert (Lj : (j < ns)%nat) by apply M. pose proof (Hf j Lj) as Sj. pose proof (Hm _ _ _ M) as M'. pose proof (Hs _ _ Es) as Es'.
  assert (Hv0' : vert_at prev' (f j) = Some v0) by (rewrite <- (light_vert _ _ _ _ Sj); auto).
  assert (Hdj : dir_at prev' (f j) = Some d) by (rewrite <- (light_dir _ _ _ _ Sj); auto).
  assert (He0 : energy_at prev' (f j) = Some e) by (rewrite <- (light_energy _ _ _ _ Sj); auto).
  assert (En : N' (p (via k)) (f j) = N (via k) j) by (rewrite (HN _ _ _ _ _ _ Es M Hv0 Hd), (HN' _ _ _ _ _ _ Es' M' Hv0' Hdj); auto).
  destruct (S2' _ _ _ _ _ Es' M' Hdj) as (B1 & B2). rewrite En, <- (light_ref _ _ _ _ Sj) in B2.
  assert (exists k', parent_at lvl' k' = Some (f j) /\ via' k' = p (via k) /\ thr' k' = thr k) as (k' & Hp' & Ev & Et).
  { destruct (thr k) eqn:Et; auto. apply B2. apply (proj2 (S2 _ _ _ _ _ Es M Hd)). eauto. }
  assert (Lk : (k' < m')%nat) by (apply (at_col_lt PNat lvl' m' Parents (b_parents lvl') k' (f j)); auto).
  destruct Rl as ((vl & Hvl) & Hlen). destruct (b_vert lvl') as [vl'|] eqn:Ebv; [|cbn in Hvl; rewrite Ebv in Hvl; discriminate].
  assert (exists p0, vert_at lvl' k' = Some p0) as (p0 & Hp0).
  { unfold vert_at, at_col. rewrite Ebv. apply nth_lt. specialize (Hlen Vertices (map PVec vl')). cbn [prop] in Hlen. rewrite Ebv in Hlen. specialize (Hlen eq_refl). rewrite map_length in Hlen. lia. }
  destruct (S1' k' p0 Hp0) as (s' & j' & t' & Es2 & M2 & (v1 & d1 & e1 & q1 & gr1 & d1' & e1' & Hv1 & Hd1 & He1 & Hp1 & Hv1' & Hd1' & He1' & Hq1 & Hg1 & Hn1 & F1 & X1)).
  rewrite Ev in *. rewrite Et in *. assert (s' = s) by congruence. subst s'. assert (j' = f j) by congruence. subst j'.
  assert (t' = t) by (destruct M' as (_ & _ & Y & _), M2 as (_ & _ & Y2 & _); congruence). subst t'.
  assert (v1 = v0) by congruence. assert (d1 = d) by congruence. assert (e1 = e) by congruence. subst v1 d1 e1.
  rewrite En, <- (light_ref _ _ _ _ Sj) in F1.
  destruct (Lr j d e Hd He) as (Ud & _).
  destruct (follows_once _ _ _ _ _ _ _ _ _ _ _ _ _ (Sp s (nth_error_In _ _ Es)) Ud (proj1 Hn) F F1) as (E1 & E2 & E3). subst d1' e1'.
  exists k'. split; auto. split; auto. split; [apply M|]. split; auto. split; auto. split; auto. split; auto.
  intros pn Np. fold (at_p lvl pn k). fold (at_p lvl' pn k'). destruct pn as [| | | | |x].
  - rewrite !vert_at_p. congruence.
  - rewrite !dir_at_p. congruence.
  - rewrite !energy_at_p. congruence.
  - congruence.
  - rewrite !ref_at_p. congruence.
  - specialize (X x). specialize (X1 x). unfold extra_at in X, X1. unfold at_p. rewrite X, X1. apply (Sj (Extra x)). discriminate.
Qed.

(** ** What is used of a trace *)
Local Open Scope nat_scope.
Definition the_param (s : surface) (v d : vec) : num := param_of (s_geom s) (s_frame s) (inv_of (s_frame s)) v d.

Record run (qs : list (bool * nat)) (surfs : list surface) (me : R) (b : bundle) (n reps : nat) (tree : list bundle) (ns : nat -> nat) (Ts : nat -> reports) : Prop := {
  r_source : nth_error tree 0 = Some b;
  r_length : length tree <= reps + 1;
  r_traced : forall L prev, nth_error tree L = Some prev -> forall j, j < ns L <-> is_traced me L prev j;
  r_rays : forall L prev, nth_error tree L = Some prev -> all_rays lib_ray prev /\ exists m, traceable prev m /\ ns L <= m /\ (L = 0 -> m = n) /\ (1 <= L -> 0 < m);
  r_reports : forall L prev i j s v d, nth_error tree L = Some prev -> L < reps -> j < ns L -> nth_error surfs i = Some s ->
    vert_at prev j = Some v -> dir_at prev j = Some d -> Ts L i j <> None -> Ts L i j = Some (the_param s v d);
  r_first : 0 < reps -> forall i j, i < length surfs -> j < ns 0 -> Ts 0 i j <> None;
  r_level : forall L prev lvl, nth_error tree L = Some prev -> nth_error tree (L + 1) = Some lvl -> exists N via thr,
    sent_on surfs (Ts L) (ns L) prev N via thr lvl /\ normals_as surfs (Ts L) (ns L) prev N /\
    (L + 1 < reps -> (forall i i', ~ shut qs i i') \/ no_ties (Ts L) (length surfs) (ns L) ->
     forall k i', k < ns (L + 1) -> i' < length surfs -> (Ts (L + 1) i' k <> None <-> ~ shut qs (via k) i'));
  r_end : forall L prev, nth_error tree L = Some prev -> nth_error tree (L + 1) = None -> L < reps ->
    forall i j t, ~ meets_first (Ts L) (length surfs) (ns L) i j t;
  r_ties : forall L prev, nth_error tree L = Some prev -> L < reps -> never_ties surfs prev -> no_ties (Ts L) (length surfs) (ns L) }.

Lemma part_owned qs o i q : nth_error qs o = Some q -> (part_of qs o i <-> nth_error (surf_ownership (map made qs)) i = Some o).
Proof.
  intros E. rewrite surf_ownership_nth. unfold part_of, surfs_until.
  assert (Es : forall l, fold_right Nat.add 0 (map o_nsurf (map made l)) = list_sum (map snd l)).
  { induction l as [|[[|] k] l IH]; simpl; auto; rewrite IH; auto. }
  assert (En : forall (l : list (bool * nat)) k x, nth_error l k = Some x -> list_sum (map snd (firstn (k + 1) l)) = list_sum (map snd (firstn k l)) + snd x).
  { induction l as [|y l IH]; intros [|k] x H; try discriminate; cbn in H |- *.
    - injection H as ->. lia.
    - pose proof (IH k x H) as Q. unfold list_sum in Q. rewrite Q. lia. }
  rewrite (En _ _ _ E). rewrite firstn_map, fold_add_right, Es. cbn [Nat.add]. rewrite nth_error_map, E. cbn [option_map]. split.
  - intros H. exists (made q). split; auto. destruct q as [[|] k]; exact H.
  - intros (o' & H & H'). injection H as <-. destruct q as [[|] k]; exact H'.
Qed.
Lemma shut_owned qs i i' : shut qs i i' <-> exists o n,
  nth_error (surf_ownership (map made qs)) i = Some o /\ nth_error (surf_ownership (map made qs)) i' = Some o /\ nth_error qs o = Some (true, n).
Proof.
  split.
  - intros (o & n & E & A & B). exists o, n. rewrite <- !(part_owned _ _ _ _ E). auto.
  - intros (o & n & A & B & E). exists o, n. rewrite !(part_owned _ _ _ _ E). auto.
Qed.

Lemma next_made qs i oi owns next b j r i' : emitted_by (map made qs) i oi owns next b j r -> i' < length (surf_ownership (map made qs)) ->
  (next_surfaces (map made qs) oi owns next r i' <-> ~ shut qs i i').
Proof.
  intros Eb Hi. pose proof Eb as (ob & ri0 & e0 & Eo & Eob & _).
  rewrite nth_error_map in Eob. destruct (nth_error qs oi) as [[sd n1]|] eqn:Eq; [|discriminate]. cbn in Eob. clear Eob.
  assert (Eob : nth_error (map made qs) oi = Some (made (sd, n1))) by (rewrite nth_error_map, Eq; reflexivity).
  destruct sd; cbn in Eob.
  - destruct (emitted_num _ _ _ _ _ _ _ _ _ _ Eb Eob) as (ri & e & n' & En & Lr & Ow & Nxt).
    destruct (one_sided_object_next _ oi n1 e n' ri owns next Eob En Ow Nxt r i' Lr Hi) as (_ & Q). rewrite Q. split.
    + intros N K. apply shut_owned in K as (o & n2 & A & B & C). apply N. congruence.
    + intros N E. apply N, shut_owned. exists oi, n1. auto.
  - destruct (emitted_num _ _ _ _ _ _ _ _ _ _ Eb Eob) as (ri & e & n' & En & Lr & Ow & Nxt).
    destruct (default_object_next _ oi n1 e n' ri owns next Eob En Ow Nxt r i' Lr Hi) as (_ & Q). split; auto.
    intros _ K. apply shut_owned in K as (o & n2 & A & B & C). congruence.
Qed.

(** What the accounts have, in the terms of the same run. *)
Definition books (surfs : list surface) (g : shared) (st : tstate surface shared) (reps : nat) (ns : nat -> nat) (Ts : nat -> reports) : Prop :=
  forall i s id ab, nth_error surfs i = Some s -> s_opt s = Accountant id ab -> sole_account surfs i id ->
  exists ls, length ls = Nat.min reps (length (t_tree st)) /\
    (forall L prev l, nth_error (t_tree st) L = Some prev -> nth_error ls L = Some l ->
       noted (absorptivity ab) (Ts L) (length surfs) prev (ns L) i l) /\
    a_absorbed (g_acc (t_g st) id) = a_absorbed (g_acc g id) ++ map (map fst) (filter nonempty ls) /\
    a_hits (g_acc (t_g st) id) = a_hits (g_acc g id) ++ map (map snd) (filter nonempty ls).

Lemma run_of qs surfs me g b n reps vs ds st : library_assembly (map made qs) surfs -> (forall s, In s surfs -> geom_ok (s_geom s)) ->
  library_source b n -> fair (g_rng g) -> ray_tracer surface_ops (map made qs) surfs g b reps me TreeTrue = Ok (vs, ds, st) ->
  exists ns Ts, run qs surfs me b n reps (t_tree st) ns Ts /\ books surfs g st reps ns Ts.
Proof.
  intros La Hg Ls Fg E.
  destruct (laws_all _ surfs La me g b n Ls Fg reps vs ds st E) as (ns & Ts & gs & C & Rp & Tr & Lv).
  destruct (library_trace _ surfs me La g b n reps vs ds st Ls E) as (_ & _ & _ & _ & _ & Hlen & _ & _ & _ & _ & _ & _ & _ & Hlib).
  exists ns, Ts. split; [|intros i s id ab Es Eo Sa; eapply noted_all; eauto]. split; auto.
  - apply (ct_source _ _ _ _ _ _ _ _ _ _ _ _ _ C).
  - intros L prev Hp. split.
    { destruct L as [|L]. { rewrite (ct_source _ _ _ _ _ _ _ _ _ _ _ _ _ C) in Hp. assert (prev = b) by congruence. subst. apply Ls. }
      replace (S L) with (L + 1) in Hp by lia. eauto. }
    destruct (ct_traced _ _ _ _ _ _ _ _ _ _ _ _ _ C (proj1 Ls) L prev Hp) as (mp & T1 & T2 & _ & T3 & T4). eauto 8.
  - intros L prev i j s v d Hp HL Hj Es Hv Hd HT. destruct (Rp L prev Hp HL ltac:(lia)) as (tb & R).
    destruct (Ts L i j) as [x|] eqn:ET; [|congruence]. f_equal. unfold the_param.
    pose proof (nth_error_In _ _ Es) as Hin.
    apply (reported_param surfs prev (ns L) (Ts L) tb i j s x v d (inv_of (s_frame s)) R Es (geom_ok_regular _ (Hg s Hin))); auto.
    apply inv_of_rigid. apply (proj1 (proj2 La) s Hin).
  - intros H0 i j Hi Hj. apply (ct_first _ _ _ _ _ _ _ _ _ _ _ _ _ C H0 i j Hi). rewrite (ct_source_n _ _ _ _ _ _ _ _ _ _ _ _ _ C) in Hj. auto.
  - intros L prev lvl Hp Hl. destruct (Lv L prev lvl Hp Hl) as (N & via & thr & S & HN). exists N, via, thr. split; auto. split; auto.
    intros HL Nt k i' Hk Hi'.
    destruct (ct_owned _ _ _ _ _ _ _ _ _ _ _ _ _ C L lvl Hl k Hk) as (i & p & t & oi & owns & next & r & Hpar & M & Eb & Nx).
    rewrite (Nx HL i' Hi'). rewrite (next_made _ _ _ _ _ _ _ _ i' Eb) by (rewrite <- (proj2 (proj2 La)); auto).
    destruct Nt as [Nt|Nt]. { split; intros _; apply Nt. }
    destruct (ct_traced _ _ _ _ _ _ _ _ _ _ _ _ _ C (proj1 Ls) (L + 1) lvl Hl) as (ml & T1 & T2 & _).
    destruct (traceable_vert lvl ml k T1 ltac:(lia)) as (v & Hv).
    destruct (proj1 S k v Hv) as (s & j & t' & Es & M' & (v0 & d0 & e0 & q0 & g0 & d' & e' & _ & _ & _ & Hpar' & _)).
    assert (j = p) by congruence. subst j. rewrite (Nt _ _ _ _ _ M M'). tauto.
  - intros L prev Hp Hn HL i j t M. destruct (ct_end _ _ _ _ _ _ _ _ _ _ _ _ _ C L prev Hp Hn HL) as (tb & _ & H).
    { right. assert (j < ns L) by apply M. lia. } exact (H i j t M).
  - intros L prev Hp HL Nt. destruct (Nat.eq_dec (ns L) 0) as [Z|Z].
    { intros i i' j t t' (_ & Hj & _). lia. }
    destruct (Rp L prev Hp HL ltac:(lia)) as (tb & R). eapply never_ties_no_ties; eauto.
Qed.

(** ** One level *)
Lemma exchange_size m m' f g : (forall k, k < m -> f k < m' /\ g (f k) = k) -> m <= m'.
Proof.
  intros H. assert (Nd : NoDup (map f (seq 0 m))).
  { apply NoDup_nth_error. intros i j Hi E. rewrite map_length, seq_length in Hi. rewrite !nth_error_map in E.
    rewrite (nth_error_nth' (seq 0 m) 0) in E by (rewrite seq_length; auto). rewrite seq_nth in E by auto.
    destruct (nth_error (seq 0 m) j) as [x|] eqn:Ej; [|discriminate]. cbn in E. injection E as E.
    assert (Hj : j < m) by (rewrite <- (seq_length m 0); apply nth_error_Some; congruence).
    rewrite (nth_error_nth' (seq 0 m) 0) in Ej by (rewrite seq_length; auto). rewrite seq_nth in Ej by auto. injection Ej as <-. cbn in E.
    destruct (H i Hi) as (_ & E1), (H j Hj) as (_ & E2). congruence. }
  assert (I : incl (map f (seq 0 m)) (seq 0 m')).
  { intros x Hx. apply in_map_iff in Hx as (k & <- & Hk). apply in_seq in Hk. apply in_seq. destruct (H k ltac:(lia)). lia. }
  pose proof (NoDup_incl_length Nd I) as L. rewrite map_length, !seq_length in L. auto.
Qed.

Section Two.
Variables (qs qs' : list (bool * nat)) (surfs surfs' : list surface) (p p' : nat -> nat) (me : R) (b b' : bundle) (n reps : nat)
  (tree tree' : list bundle) (ns ns' : nat -> nat) (Ts Ts' : nat -> reports).
Hypothesis Re : rearranged qs surfs qs' surfs' p p'.
Hypothesis Own : length surfs' = length (surf_ownership (map made qs')).
Hypothesis Sp : forall s, In s surfs -> specular (s_opt s).
Hypothesis A : run qs surfs me b n reps tree ns Ts.
Hypothesis B : run qs' surfs' me b' n reps tree' ns' Ts'.

(** The same surfaces are asked about the same rays. *)
Definition asked_alike (L : nat) (f : nat -> nat) : Prop := L < reps -> forall i j, i < length surfs -> j < ns L ->
  (Ts L i j <> None <-> Ts' L (p i) (f j) <> None).

Lemma traced_alike L m f g prev prev' : nth_error tree L = Some prev -> nth_error tree' L = Some prev' -> reordered m f g prev prev' ->
  (forall j, j < ns L -> f j < ns' L /\ g (f j) = j) /\ (forall j, j < ns' L -> g j < ns L /\ f (g j) = j) /\ ns L <= m /\ ns' L <= m.
Proof.
  intros Hp Hp' (R1 & R2 & (X1 & X2) & Sl).
  destruct (r_rays _ _ _ _ _ _ _ _ _ A L prev Hp) as (_ & ma & Ta & La & _). destruct (r_rays _ _ _ _ _ _ _ _ _ B L prev' Hp') as (_ & mb & Tb & Lb & _).
  assert (ma = m). { destruct R1 as ((v & Hv) & Hl), Ta as (_ & (_ & Hl') & _). rewrite <- (Hl _ _ Hv). symmetry. apply (Hl' _ _ Hv). }
  assert (mb = m). { destruct R2 as ((v & Hv) & Hl), Tb as (_ & (_ & Hl') & _). rewrite <- (Hl _ _ Hv). symmetry. apply (Hl' _ _ Hv). }
  subst ma mb. split; [|split; [|auto]].
  - intros j Hj. split; [|apply X1; lia]. apply (r_traced _ _ _ _ _ _ _ _ _ B L prev' Hp'). apply (r_traced _ _ _ _ _ _ _ _ _ A L prev Hp) in Hj as He.
    destruct He as (e & He & Q). exists e. split; auto. rewrite <- (light_energy _ _ _ _ (Sl j ltac:(lia))). auto.
  - intros j Hj. destruct (X2 j ltac:(lia)) as (Hg & Eg). split; auto. apply (r_traced _ _ _ _ _ _ _ _ _ A L prev Hp). apply (r_traced _ _ _ _ _ _ _ _ _ B L prev' Hp') in Hj as He.
    destruct He as (e & He & Q). exists e. split; auto. rewrite (light_energy _ _ _ _ (Sl (g j) Hg)), Eg. auto.
Qed.

Lemma reports_alike L m f g prev prev' : nth_error tree L = Some prev -> nth_error tree' L = Some prev' -> reordered m f g prev prev' -> asked_alike L f -> L < reps ->
  forall i j, i < length surfs -> j < ns L -> Ts' L (p i) (f j) = Ts L i j.
Proof.
  intros Hp Hp' Ro Ak HL i j Hi Hj. destruct (traced_alike L m f g prev prev' Hp Hp' Ro) as (F1 & _ & Lm & _).
  specialize (Ak HL i j Hi Hj). destruct (nth_lt surfs i Hi) as (s & Es). assert (Es' : nth_error surfs' (p i) = Some s) by (rewrite (proj1 (proj2 (proj2 Re))); auto).
  destruct (r_rays _ _ _ _ _ _ _ _ _ A L prev Hp) as (_ & ma & Ta & La & _).
  destruct (traceable_vert _ _ j Ta ltac:(lia)) as (v & Hv). destruct (traceable_dir _ _ j Ta ltac:(lia)) as (d & Hd).
  destruct Ro as (_ & _ & _ & Sl). specialize (Sl j ltac:(lia)).
  assert (Hv' : vert_at prev' (f j) = Some v) by (rewrite <- (light_vert _ _ _ _ Sl); auto). assert (Hd' : dir_at prev' (f j) = Some d) by (rewrite <- (light_dir _ _ _ _ Sl); auto).
  pose proof (r_reports _ _ _ _ _ _ _ _ _ A L prev i j s v d Hp HL Hj Es Hv Hd) as RA.
  pose proof (r_reports _ _ _ _ _ _ _ _ _ B L prev' (p i) (f j) s v d Hp' HL (proj1 (F1 j Hj)) Es' Hv' Hd') as RB.
  destruct (Ts L i j) as [x|], (Ts' L (p i) (f j)) as [y|]; auto.
  - rewrite RA, RB by discriminate. auto.
  - exfalso. apply (proj1 Ak); auto; discriminate.
  - exfalso. apply (proj2 Ak); auto; discriminate.
Qed.

Lemma meets_alike L m f g prev prev' : nth_error tree L = Some prev -> nth_error tree' L = Some prev' -> reordered m f g prev prev' -> asked_alike L f -> L < reps ->
  (forall i j t, meets_first (Ts L) (length surfs) (ns L) i j t -> meets_first (Ts' L) (length surfs') (ns' L) (p i) (f j) t) /\
  (forall i j t, meets_first (Ts' L) (length surfs') (ns' L) i j t -> meets_first (Ts L) (length surfs) (ns L) (p' i) (g j) t).
Proof.
  intros Hp Hp' Ro Ak HL. destruct (traced_alike L m f g prev prev' Hp Hp' Ro) as (F1 & F2 & _).
  destruct Re as (El & Ex & _). rewrite El. pose proof (reports_alike L m f g prev prev' Hp Hp' Ro Ak HL) as Q. split; intros i j t M.
  - eapply meets_moved; eauto.
  - eapply meets_moved; [apply exchange_sym; exact Ex|exact F2|exact F1| |exact M].
    intros i0 j0 Hi Hj. destruct (proj2 Ex i0 Hi) as (Hi' & Ei), (F2 j0 Hj) as (Hj' & Ej). rewrite <- Q by auto. rewrite Ei, Ej. auto.
Qed.

(** Both trees go on or both end. *)
Lemma ends_alike L m f g prev prev' : nth_error tree L = Some prev -> nth_error tree' L = Some prev' -> reordered m f g prev prev' -> asked_alike L f ->
  (nth_error tree (L + 1) = None <-> nth_error tree' (L + 1) = None).
Proof.
  intros Hp Hp' Ro Ak.
  destruct (Nat.lt_ge_cases L reps) as [HL|HL].
  2:{ pose proof (r_length _ _ _ _ _ _ _ _ _ A). pose proof (r_length _ _ _ _ _ _ _ _ _ B). split; intros _; apply nth_error_None; lia. }
  destruct (meets_alike L m f g prev prev' Hp Hp' Ro Ak HL) as (M1 & M2). split; intros Hn.
  - destruct (nth_error tree' (L + 1)) as [lvl'|] eqn:Hl; auto. exfalso.
    destruct (r_rays _ _ _ _ _ _ _ _ _ B (L + 1) lvl' Hl) as (_ & m1 & T1 & _ & _ & P1). destruct (traceable_vert _ _ 0 T1 ltac:(lia)) as (v & Hv).
    destruct (r_level _ _ _ _ _ _ _ _ _ B L prev' lvl' Hp' Hl) as (N & via & thr & (S & _) & _). destruct (S 0 v Hv) as (s & j & t & _ & M & _).
    exact (r_end _ _ _ _ _ _ _ _ _ A L prev Hp Hn HL _ _ _ (M2 _ _ _ M)).
  - destruct (nth_error tree (L + 1)) as [lvl|] eqn:Hl; auto. exfalso.
    destruct (r_rays _ _ _ _ _ _ _ _ _ A (L + 1) lvl Hl) as (_ & m1 & T1 & _ & _ & P1). destruct (traceable_vert _ _ 0 T1 ltac:(lia)) as (v & Hv).
    destruct (r_level _ _ _ _ _ _ _ _ _ A L prev lvl Hp Hl) as (N & via & thr & (S & _) & _). destruct (S 0 v Hv) as (s & j & t & _ & M & _).
    exact (r_end _ _ _ _ _ _ _ _ _ B L prev' Hp' Hn HL _ _ _ (M1 _ _ _ M)).
Qed.

Lemma level_alike L m f g prev prev' lvl lvl' : nth_error tree L = Some prev -> nth_error tree' L = Some prev' -> reordered m f g prev prev' -> asked_alike L f ->
  (forall i i', ~ shut qs i i') \/ never_ties surfs prev ->
  nth_error tree (L + 1) = Some lvl -> nth_error tree' (L + 1) = Some lvl' ->
  exists m1 f1 g1, reordered m1 f1 g1 lvl lvl' /\ asked_alike (L + 1) f1 /\
    forall k j, parent_at lvl k = Some j -> parent_at lvl' (f1 k) = Some (f j).
Proof.
  intros Hp Hp' Ro Ak Nt Hl Hl'.
  assert (HL : L < reps). { pose proof (r_length _ _ _ _ _ _ _ _ _ A). assert (L + 1 < length tree) by (apply nth_error_Some; congruence). lia. }
  destruct (meets_alike L m f g prev prev' Hp Hp' Ro Ak HL) as (M1 & M2).
  destruct (traced_alike L m f g prev prev' Hp Hp' Ro) as (F1 & F2 & L1 & L2).
  destruct (r_rays _ _ _ _ _ _ _ _ _ A L prev Hp) as (Al & _). destruct (r_rays _ _ _ _ _ _ _ _ _ B L prev' Hp') as (Al' & _).
  destruct (r_rays _ _ _ _ _ _ _ _ _ A (L + 1) lvl Hl) as (_ & m1 & T1 & N1 & _). destruct (r_rays _ _ _ _ _ _ _ _ _ B (L + 1) lvl' Hl') as (_ & m2 & T2 & N2 & _).
  destruct (r_level _ _ _ _ _ _ _ _ _ A L prev lvl Hp Hl) as (N & via & thr & S & HN & As). destruct (r_level _ _ _ _ _ _ _ _ _ B L prev' lvl' Hp' Hl') as (N' & via' & thr' & S' & HN' & As').
  destruct Re as (El & (P1 & P2) & Es & Sh). destruct Ro as (R1 & R2 & (X1 & X2) & Sl).
  assert (Sp' : forall s, In s surfs' -> specular (s_opt s)).
  { intros s Hs. apply In_nth_error in Hs as (i & Ei). assert (Hi : i < length surfs) by (rewrite <- El; apply nth_error_Some; congruence).
    destruct (P2 i Hi) as (Hi' & E). apply Sp. rewrite <- E, Es in Ei by auto. eapply nth_error_In; eauto. }
  assert (Tw : forall k, k < m1 -> exists k', exists j, parent_at lvl k = Some j /\ j < ns L /\ via k < length surfs /\ k' < m2 /\ parent_at lvl' k' = Some (f j) /\ via' k' = p (via k) /\ thr' k' = thr k /\ same_light lvl k lvl' k').
  { intros k Hk. destruct (traceable_vert _ _ k T1 Hk) as (v & Hv).
    destruct (twin surfs surfs' (Ts L) (Ts' L) (ns L) (ns' L) prev prev' p f N via thr N' via' thr' lvl lvl' m2 Sp Al (proj1 (proj2 T2)) M1) with (k := k) (v := v) as (j & k' & Q); auto.
    - intros i s Hi. rewrite Es; auto. apply nth_error_Some. congruence.
    - intros j Hj. apply Sl. lia.
    - exists k', j. exact Q. }
  assert (Tw' : forall k, k < m2 -> exists k', exists j, parent_at lvl' k = Some j /\ j < ns' L /\ via' k < length surfs' /\ k' < m1 /\ parent_at lvl k' = Some (g j) /\ via k' = p' (via' k) /\ thr k' = thr' k /\ same_light lvl' k lvl k').
  { intros k Hk. destruct (traceable_vert _ _ k T2 Hk) as (v & Hv).
    destruct (twin surfs' surfs (Ts' L) (Ts L) (ns' L) (ns L) prev' prev p' g N' via' thr' N via thr lvl' lvl m1 Sp' Al' (proj1 (proj2 T1)) M2) with (k := k) (v := v) as (j & k' & Q); auto.
    - intros i s Hi. assert (Li : i < length surfs) by (rewrite <- El; apply nth_error_Some; congruence). destruct (P2 i Li) as (Li' & Ei). rewrite <- Es, Ei; auto.
    - intros j Hj. destruct (X2 j ltac:(lia)) as (Y1 & Y2). intros pn Np. rewrite (Sl (g j) Y1 pn Np), Y2. auto.
    - exists k', j. exact Q. }
  destruct (choose 0 _ m1 Tw) as (f1 & H1). destruct (choose 0 _ m2 Tw') as (g1 & H2). clear Tw Tw'.
  assert (B1 : forall k, k < m1 -> f1 k < m2 /\ g1 (f1 k) = k).
  { intros k Hk. destruct (H1 k Hk) as (j & Q1 & Q2 & Q3 & Q4 & Q5 & Q6 & Q7 & Q8). split; auto.
    destruct (H2 (f1 k) Q4) as (j' & W1 & W2 & W3 & W4 & W5 & W6 & W7 & W8). assert (j' = f j) by congruence. subst j'.
    rewrite (proj2 (F1 j Q2)) in W5. rewrite Q6, (proj2 (P1 _ Q3)) in W6. rewrite Q7 in W7.
    apply (proj2 (proj2 S) _ _ j W5 Q1 W6 W7). }
  assert (B2 : forall k, k < m2 -> g1 k < m1 /\ f1 (g1 k) = k).
  { intros k Hk. destruct (H2 k Hk) as (j & Q1 & Q2 & Q3 & Q4 & Q5 & Q6 & Q7 & Q8). split; auto.
    destruct (H1 (g1 k) Q4) as (j' & W1 & W2 & W3 & W4 & W5 & W6 & W7 & W8). assert (j' = g j) by congruence. subst j'.
    rewrite (proj2 (F2 j Q2)) in W5. rewrite El in Q3. rewrite Q6, (proj2 (P2 _ Q3)) in W6. rewrite Q7 in W7.
    apply (proj2 (proj2 S') _ _ j W5 Q1 W6 W7). }
  assert (m2 = m1) as ->. { pose proof (exchange_size m1 m2 f1 g1 B1). pose proof (exchange_size m2 m1 g1 f1 B2). lia. }
  assert (Ro1 : reordered m1 f1 g1 lvl lvl').
  { split; [apply T1|]. split; [apply T2|]. split; [split; auto|]. intros k Hk. destruct (H1 k Hk) as (j & _ & _ & _ & _ & _ & _ & _ & Q8). exact Q8. }
  exists m1, f1, g1. split; auto. split.
  - intros HL1 i k Hi Hk. destruct (traced_alike (L + 1) m1 f1 g1 lvl lvl' Hl Hl' Ro1) as (G1 & _ & K1 & _).
    assert (Nta : (forall i i', ~ shut qs i i') \/ no_ties (Ts L) (length surfs) (ns L)).
    { destruct Nt as [Nt|Nt]; [left; auto|right]. apply (r_ties _ _ _ _ _ _ _ _ _ A L prev Hp HL Nt). }
    assert (Lt : forall i i', shut qs' i i' -> i < length surfs /\ i' < length surfs).
    { intros i0 i1 K. apply shut_owned in K as (o & nn & Y1 & Y2 & _). rewrite <- El, Own. split; apply nth_error_Some; congruence. }
    assert (Ntb : (forall i i', ~ shut qs' i i') \/ no_ties (Ts' L) (length surfs') (ns' L)).
    { destruct Nta as [Q|Q]; [left|right].
      - intros i0 i1 Z. destruct (Lt i0 i1 Z) as (Z0 & Z1). destruct (P2 i0 Z0) as (V0 & V0'), (P2 i1 Z1) as (V1 & V1').
        rewrite <- V0', <- V1' in Z. apply (Sh _ _ V0 V1) in Z. exact (Q _ _ Z).
      - intros i0 i1 j t t' Z Z'. pose proof (Q _ _ _ _ _ (M2 _ _ _ Z) (M2 _ _ _ Z')) as Y.
        assert (Z0 : i0 < length surfs) by (rewrite <- El; apply Z). assert (Z1 : i1 < length surfs) by (rewrite <- El; apply Z').
        rewrite <- (proj2 (P2 i0 Z0)), <- (proj2 (P2 i1 Z1)), Y. auto. }
    rewrite (As HL1 Nta k i Hk Hi). rewrite (As' HL1 Ntb (f1 k) (p i) (proj1 (G1 k Hk))) by (rewrite El; apply P1; auto).
    destruct (H1 k ltac:(lia)) as (j & _ & _ & Q3 & _ & _ & Q6 & _). rewrite Q6, <- (Sh (via k) i Q3 Hi). tauto.
  - intros k j Hpar. assert (Hk : k < m1) by (apply (at_col_lt PNat lvl m1 Parents (b_parents lvl) k j); auto; apply T1).
    destruct (H1 k Hk) as (j' & Q1 & _ & _ & _ & Q5 & _). congruence.
Qed.

(** ** All levels *)
Lemma levels_alike f g : reordered n f g b b' -> ns 0 = n -> (forall i i', ~ shut qs i i') \/ (forall L prev, nth_error tree L = Some prev -> never_ties surfs prev) ->
  forall K, exists F G : nat -> nat -> nat, F 0 = f /\ G 0 = g /\ forall L, L <= K ->
  (nth_error tree L = None /\ nth_error tree' L = None) \/
  exists lvl lvl' m, nth_error tree L = Some lvl /\ nth_error tree' L = Some lvl' /\ reordered m (F L) (G L) lvl lvl' /\ asked_alike L (F L) /\
    forall L', L = L' + 1 -> forall k j, parent_at lvl k = Some j -> parent_at lvl' (F L k) = Some (F L' j).
Proof.
  intros Ro En Nt K. induction K as [|K (F & G & F0 & G0 & H)].
  - exists (fun _ => f), (fun _ => g). split; auto. split; auto. intros L HL. assert (L = 0) by lia. subst L. right.
    exists b, b', n. split; [apply (r_source _ _ _ _ _ _ _ _ _ A)|]. split; [apply (r_source _ _ _ _ _ _ _ _ _ B)|]. split; auto. split; [|intros; lia].
    intros H0 i j Hi Hj. destruct (traced_alike 0 n f g b b' (r_source _ _ _ _ _ _ _ _ _ A) (r_source _ _ _ _ _ _ _ _ _ B) Ro) as (F1 & _).
    split; intros _; [apply (r_first _ _ _ _ _ _ _ _ _ B H0)|apply (r_first _ _ _ _ _ _ _ _ _ A H0)]; auto.
    + destruct Re as (El & (P1 & _) & _). rewrite El. apply P1; auto.
    + apply F1; auto.
  - destruct (H K (le_n K)) as [(E1 & E2)|(prev & prev' & m & Hp & Hp' & Rk & Ak & _)].
    { exists F, G. split; auto. split; auto. intros L HL. destruct (Nat.eq_dec L (S K)) as [->|N]; [|apply H; lia].
      left. rewrite nth_error_None in E1, E2. split; apply nth_error_None; lia. }
    pose proof (ends_alike K m (F K) (G K) prev prev' Hp Hp' Rk Ak) as En'.
    destruct (nth_error tree (K + 1)) as [lvl|] eqn:Hl.
    2:{ exists F, G. split; auto. split; auto. intros L HL. destruct (Nat.eq_dec L (S K)) as [->|N]; [|apply H; lia].
        replace (S K) with (K + 1) by lia. left. split; auto. apply En'. auto. }
    destruct (nth_error tree' (K + 1)) as [lvl'|] eqn:Hl'. 2:{ destruct En' as (_ & X). specialize (X eq_refl). discriminate. }
    destruct (level_alike K m (F K) (G K) prev prev' lvl lvl' Hp Hp' Rk Ak) as (m1 & f1 & g1 & R1 & A1 & P1); auto.
    { destruct Nt as [Q|Q]; [left; auto|right; eauto]. }
    exists (fun L => if Nat.eqb L (K + 1) then f1 else F L), (fun L => if Nat.eqb L (K + 1) then g1 else G L).
    assert (N0 : Nat.eqb 0 (K + 1) = false) by (apply Nat.eqb_neq; lia). rewrite N0. split; auto. split; auto.
    intros L HL. destruct (Nat.eqb_spec L (K + 1)) as [->|N].
    + right. exists lvl, lvl', m1. split; auto. split; auto. split; auto. split; auto. intros L' E. assert (L' = K) by lia. subst L'.
      assert (NK : Nat.eqb K (K + 1) = false) by (apply Nat.eqb_neq; lia). rewrite NK. auto.
    + destruct (H L ltac:(lia)) as [Q|(a & a' & ma & Q1 & Q2 & Q3 & Q4 & Q5)]; [left; auto|right]. exists a, a', ma. split; auto. split; auto. split; auto. split; auto.
      intros L' E. assert (NL : Nat.eqb L' (K + 1) = false) by (apply Nat.eqb_neq; lia). rewrite NL. auto.
Qed.
End Two.

Lemma run_source_n qs surfs me b n reps tree ns Ts : run qs surfs me b n reps tree ns Ts -> traceable b n -> ns 0 = n.
Proof.
  intros A Tb. pose proof (r_traced _ _ _ _ _ _ _ _ _ A 0 b (r_source _ _ _ _ _ _ _ _ _ A)) as T.
  assert (Q : forall j, j < ns 0 <-> j < n).
  { intros j. rewrite T. split.
    - intros (e & He & _). eapply traceable_energy_lt; eauto.
    - intros Hj. destruct (traceable_energy b n j Tb Hj) as (e & He). exists e. auto. }
  destruct (Nat.lt_trichotomy (ns 0) n) as [X|[X|X]]; auto; apply Q in X; lia.
Qed.

Lemma order_top : forall qs surfs qs' surfs' p p', library_assembly (map made qs) surfs -> library_assembly (map made qs') surfs' ->
  rearranged qs surfs qs' surfs' p p' -> (forall s, In s surfs -> geom_ok (s_geom s) /\ specular (s_opt s)) ->
  forall me n b b' f g, library_source b n -> library_source b' n -> reordered n f g b b' ->
  forall rg rg' reps vs ds st vs' ds' st', fair (g_rng rg) -> fair (g_rng rg') ->
  ray_tracer surface_ops (map made qs) surfs rg b reps me TreeTrue = Ok (vs, ds, st) ->
  ray_tracer surface_ops (map made qs') surfs' rg' b' reps me TreeTrue = Ok (vs', ds', st') ->
  (forall i i', ~ shut qs i i') \/ (forall L prev, nth_error (t_tree st) L = Some prev -> never_ties surfs prev) ->
  length (t_tree st') = length (t_tree st) /\
  exists F G : nat -> nat -> nat, F 0 = f /\ G 0 = g /\
  forall L lvl lvl', nth_error (t_tree st) L = Some lvl -> nth_error (t_tree st') L = Some lvl' ->
  (exists m, reordered m (F L) (G L) lvl lvl') /\
  forall L', L = L' + 1 -> forall k j, parent_at lvl k = Some j -> parent_at lvl' (F L k) = Some (F L' j).
Proof.
  intros qs surfs qs' surfs' p p' La La' Re Hs me n b b' f g Ls Ls' Ro rg rg' reps vs ds st vs' ds' st' Fg Fg' E E' Nt.
  assert (Hs' : forall s, In s surfs' -> geom_ok (s_geom s) /\ specular (s_opt s)).
  { intros s Hin. destruct Re as (El & (_ & P2) & Es & _). apply In_nth_error in Hin as (i & Ei). assert (Hi : i < length surfs) by (rewrite <- El; apply nth_error_Some; congruence).
    destruct (P2 i Hi) as (Hi' & Ep). apply Hs. rewrite <- Ep, Es in Ei by auto. eapply nth_error_In; eauto. }
  destruct (run_of qs surfs me rg b n reps vs ds st La (fun s h => proj1 (Hs s h)) Ls Fg E) as (ns & Ts & A & _).
  destruct (run_of qs' surfs' me rg' b' n reps vs' ds' st' La' (fun s h => proj1 (Hs' s h)) Ls' Fg' E') as (ns' & Ts' & B & _).
  pose proof (levels_alike qs qs' surfs surfs' p p' me b b' n reps (t_tree st) (t_tree st') ns ns' Ts Ts' Re (proj2 (proj2 La')) (fun s h => proj2 (Hs s h)) A B f g Ro) as H.
  pose proof (run_source_n _ _ _ _ _ _ _ _ _ A (proj1 Ls)) as En.
  specialize (H En Nt). split.
  - destruct (H (length (t_tree st) + length (t_tree st'))) as (F & G & _ & _ & Q).
    destruct (Nat.lt_trichotomy (length (t_tree st')) (length (t_tree st))) as [X|[X|X]]; auto; exfalso.
    + destruct (Q (length (t_tree st')) ltac:(lia)) as [(Y & _)|(a & a' & m & _ & Y & _)]; [apply nth_error_None in Y; lia|].
      assert (length (t_tree st') < length (t_tree st')) by (apply nth_error_Some; congruence). lia.
    + destruct (Q (length (t_tree st)) ltac:(lia)) as [(_ & Y)|(a & a' & m & Y & _)]; [apply nth_error_None in Y; lia|].
      assert (length (t_tree st) < length (t_tree st)) by (apply nth_error_Some; congruence). lia.
  - destruct (H (length (t_tree st))) as (F & G & F0 & G0 & Q). exists F, G. split; auto. split; auto.
    intros L lvl lvl' Hl Hl'. destruct (Q L) as [(Y & _)|(a & a' & m & Y & Y' & R & _ & Pa)].
    + apply Nat.lt_le_incl. apply nth_error_Some. congruence.
    + congruence.
    + assert (a = lvl) by congruence. assert (a' = lvl') by congruence. subst. split; eauto.
Qed.

(** ** Plain objects *)
Lemma plain_open qs i i' : plain_objects qs -> ~ shut qs i i'.
Proof. intros H (o & n & E & _). specialize (H _ (nth_error_In _ _ E)). discriminate. Qed.

Lemma permuted_rearranged qs qs' surfs surfs' : plain_objects qs -> plain_objects qs' -> Permutation surfs surfs' -> exists p p', rearranged qs surfs qs' surfs' p p'.
Proof.
  intros Pl Pl' Pe. pose proof (Permutation_sym Pe) as Ps. apply Permutation_nth_error in Ps as (El & p & Ip & Hp).
  assert (Bf : FinFun.bFun (length surfs) p).
  { intros x Hx. assert (Hx' : nth_error surfs x <> None) by (apply nth_error_Some; auto). rewrite Hp in Hx'. apply nth_error_Some in Hx'. lia. }
  assert (Bi : FinFun.bInjective (length surfs) p) by (intros x y _ _ E; apply Ip; auto).
  destruct (FinFun.bSurjective_bBijective Bf (proj1 (FinFun.bInjective_bSurjective Bf) Bi)) as (p' & Bg & Hg).
  exists p, p'. split; [lia|]. split.
  - split; intros j Hj; (split; [try exact (Bf j Hj); exact (Bg j Hj)|]); destruct (Hg j Hj); auto.
  - split; [intros i _; symmetry; apply Hp|]. intros i i' _ _. split; intros H; exfalso; [exact (plain_open qs i i' Pl H)|exact (plain_open qs' _ _ Pl' H)].
Qed.

Lemma order_plain : forall qs surfs qs' surfs', plain_objects qs -> plain_objects qs' -> library_assembly (map made qs) surfs -> library_assembly (map made qs') surfs' ->
  Permutation surfs surfs' -> (forall s, In s surfs -> geom_ok (s_geom s) /\ specular (s_opt s)) ->
  forall me n b b' f g, library_source b n -> library_source b' n -> reordered n f g b b' ->
  forall rg rg' reps vs ds st vs' ds' st', fair (g_rng rg) -> fair (g_rng rg') ->
  ray_tracer surface_ops (map made qs) surfs rg b reps me TreeTrue = Ok (vs, ds, st) ->
  ray_tracer surface_ops (map made qs') surfs' rg' b' reps me TreeTrue = Ok (vs', ds', st') ->
  length (t_tree st') = length (t_tree st) /\
  exists F G : nat -> nat -> nat, F 0 = f /\ G 0 = g /\
  forall L lvl lvl', nth_error (t_tree st) L = Some lvl -> nth_error (t_tree st') L = Some lvl' ->
  (exists m, reordered m (F L) (G L) lvl lvl') /\
  forall L', L = L' + 1 -> forall k j, parent_at lvl k = Some j -> parent_at lvl' (F L k) = Some (F L' j).
Proof.
  intros qs surfs qs' surfs' Pl Pl' La La' Pe Hs me n b b' f g Ls Ls' Ro rg rg' reps vs ds st vs' ds' st' Fg Fg' E E'.
  destruct (permuted_rearranged qs qs' surfs surfs' Pl Pl' Pe) as (p & p' & Re).
  exact (order_top qs surfs qs' surfs' p p' La La' Re Hs me n b b' f g Ls Ls' Ro rg rg' reps vs ds st vs' ds' st' Fg Fg' E E'
    (or_introl (fun i i' => plain_open qs i i' Pl))).
Qed.
