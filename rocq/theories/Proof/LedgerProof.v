(** Where the energy of the source goes. *)
From Coq Require Import Reals List Arith Bool Sorted Permutation Lia Lra.
From Verif.Base Require Import Py Num Vec.
From Verif.Model Require Import RayBundle Geometry OpticsCallables Engine Objects Surface.
From Verif.Proof Require Import ListLemmas BundleProof ProcessProof IterProof TraceProof TreeProof EngineMore SurfaceProof CallProof ActProof LibraryTop TraceTop AccountProof.
From Verif.Spec Require Import BundleSpec EngineSpec GeometrySpec GeomIface OpticsSpec LibrarySpec AccountSpec.
Import ListNotations.

(** ** Sums *)
Lemma sum_one {A} (f : A -> R) l k x : nth_error l k = Some x ->
  (forall k' y, nth_error l k' = Some y -> k' <> k -> f y = 0%R) -> sum_R (map f l) = f x.
Proof.
  revert k. induction l as [|y l IH]; intros [|k] H K; try discriminate; cbn [map]; rewrite sum_R_cons.
  - injection H as ->. rewrite sum_R_zero; [lra|]. intros z Hz. apply in_map_iff in Hz as (y & <- & Hy).
    apply In_nth_error in Hy as (k & Hk). apply (K (S k)); auto.
  - rewrite (IH k H). + rewrite (K 0 y); auto. lra. + intros k' z Hk Hne. apply (K (S k')); auto.
Qed.
Lemma sum_plus {A} (f g : A -> R) l : sum_R (map (fun x => f x + g x)%R l) = (sum_R (map f l) + sum_R (map g l))%R.
Proof. induction l as [|x l IH]; [cbn; lra|]. cbn [map]. rewrite !sum_R_cons, IH. lra. Qed.
Lemma sum_swap {A B} (f : A -> B -> R) l k :
  sum_R (map (fun x => sum_R (map (f x) k)) l) = sum_R (map (fun y => sum_R (map (fun x => f x y) l)) k).
Proof.
  induction l as [|x l IH]; cbn [map].
  - symmetry. apply sum_R_zero. intros z Hz. apply in_map_iff in Hz as (y & <- & _). reflexivity.
  - rewrite sum_R_cons, IH, <- sum_plus. reflexivity.
Qed.
Definition mem (j : nat) (l : list nat) : bool := existsb (Nat.eqb j) l.
Lemma mem_iff j l : mem j l = true <-> In j l.
Proof.
  unfold mem. rewrite existsb_exists. split.
  - intros (x & Hx & E). apply Nat.eqb_eq in E. subst. auto.
  - intros H. exists j. rewrite Nat.eqb_refl. auto.
Qed.
Lemma sum_filter (f : nat -> R) (p : nat -> bool) l :
  sum_R (map (fun j => if p j then f j else 0)%R l) = sum_R (map f (filter p l)).
Proof.
  induction l as [|j l IH]; auto. cbn [map filter]. rewrite sum_R_cons, IH. destruct (p j); [cbn [map]; rewrite sum_R_cons|]; lra.
Qed.
Lemma sum_mem (f : nat -> R) h l : NoDup h -> NoDup l -> incl h l ->
  sum_R (map (fun j => if mem j h then f j else 0)%R l) = sum_R (map f h).
Proof.
  intros Nh Nl Hi. rewrite sum_filter. apply sum_R_perm, Permutation_map. apply NoDup_Permutation; auto.
  - apply NoDup_filter; auto.
  - intros j. rewrite filter_In, mem_iff. split; [tauto|]. auto.
Qed.

(** ** One surface in one iteration *)
Lemma prop_energy_same a b : prop a Energy = prop b Energy -> b_energy a = b_energy b.
Proof.
  simpl. destruct (b_energy a) as [x|], (b_energy b) as [y|]; simpl; intros H; try discriminate; auto.
  injection H as H. f_equal. revert y H. induction x as [|r x IH]; intros [|q y] H; try discriminate; auto.
  cbn [map] in H. injection H as -> H. f_equal. auto.
Qed.

Lemma emission_sent b n T i s hits g o g1 : traceable b n -> all_rays lib_ray b -> rigid (s_frame s) -> optics_ok (s_opt s) ->
  emission surface_ops b n T i s hits g o g1 -> StronglySorted lt hits -> hits <> [] ->
  (forall j, In j hits -> exists t, T i j = Some (Fin t)) ->
  (exists m, rays o m /\ b_parents o <> None /\ b_energy o <> None) /\
  (forall j d e, In j hits -> dir_at b j = Some d -> energy_at b j = Some e -> sends_on (s_opt s) (z_of (s_frame s)) d e (energy_from o j)) /\
  (forall j, ~ In j hits -> energy_from o j = 0%R).
Proof.
  intros Tb Ha Hf Ho (sub & ps & s1 & idx & s2 & o0 & q & q' & Nm & Hsub & Rg & Hps & Hidx & Sl & Og & Sp & Eq & Eq' & Pk) Sh Ne Hh.
  cbn [surface_ops register_incoming select_rays get_outgoing] in *.
  pose proof (picked_traceable b _ sub n Tb Nm Hsub) as Ts.
  pose proof (picked_all lib_ray b _ sub n Tb Ts Hsub Ha) as As.
  assert (Lh : length hits = length idx) by (eapply picks_length; eauto).
  assert (Hj : forall k i0 j, nth_error idx k = Some i0 -> nth_error hits k = Some j -> nth_error (asked T n i) i0 = Some j).
  { intros k i0 j. apply (Forall2_at _ _ _ k i0 j Hidx). }
  assert (Hp : forall i0 j t, nth_error (asked T n i) i0 = Some j -> T i j = Some (Fin t) -> nth_error ps i0 = Some (Fin t)).
  { intros i0 j t A B. destruct (nth_error ps i0) as [x|] eqn:Ex.
    - pose proof (Forall2_at _ _ _ _ _ _ Hps A Ex). congruence.
    - apply nth_error_None in Ex. rewrite <- (proj1 (proj1 (Forall2_nth _ _ _) Hps)) in Ex.
      assert (i0 < length (asked T n i)) by (apply nth_error_Some; congruence). lia. }
  assert (Hk : forall k i0, nth_error idx k = Some i0 -> exists j, nth_error hits k = Some j).
  { intros k i0 Hk. apply nth_lt. rewrite Lh. apply nth_error_Some. congruence. }
  assert (Ah : all_hit ps idx).
  { intros i0 Hi. apply In_nth_error in Hi as (k & Hk0). destruct (Hk k i0 Hk0) as (j & Ej).
    destruct (Hh j (nth_error_In _ _ Ej)) as (t & Et). exists t. apply (Hp i0 j t); eauto. }
  assert (Nd : NoDup idx).
  { pose proof (sorted_NoDup _ Sh) as Nh. rewrite NoDup_nth_error in Nh |- *. intros k k' L E.
    destruct (nth_error idx k) as [i0|] eqn:E0. 2:{ apply nth_error_None in E0. lia. }
    destruct (Hk _ _ E0) as (j & Ej). destruct (Hk _ _ (eq_sym E)) as (j' & Ej').
    apply Nh; [rewrite Lh; auto|]. rewrite Ej, Ej'. pose proof (Hj _ _ _ E0 Ej). pose proof (Hj _ _ _ (eq_sym E) Ej'). congruence. }
  assert (Ni : idx <> []). { intros ->. apply Ne. destruct hits; [auto|discriminate]. }
  destruct (lib_emits s sub (length (asked T n i)) s1 ps idx s2 g o0 g1 Hf Ho Ts As Rg Nd Ni Ah Sl Og)
    as (((m & To & Ro & So & Po & Ch & Cv) & _) & z & Hz & Hs).
  assert (z = z_of (s_frame s)).
  { apply register_inv in Rg as (gs & F & ->). apply select_inv in Sl as (gs2 & Sg & ->).
    cbn [s_geom s_opt s_frame s_gstate s_bundle s_selected] in *.
    rewrite (up_kept _ _ _ _ Sg), (up_found _ _ _ _ _ F) in Hz. rewrite <- (zaxis_z_of _ Hf). congruence. }
  subst z. pose proof (prop_energy_same o o0 (Sp Energy ltac:(discriminate))) as Ee.
  destruct (traceable_parts _ _ To) as (vs0 & ds0 & es0 & _ & _ & Ees & _ & _ & Les).
  assert (Lq : length q = m). { destruct To as (_ & (_ & Hl) & _). specialize (Hl Parents (map PNat q)). rewrite map_length in Hl. apply Hl. simpl. rewrite Eq. auto. }
  assert (Na : NoDup (asked T n i)). { unfold asked. apply NoDup_filter, seq_NoDup. }
  assert (Ef : forall j, energy_from o j = energy_from (set_parents q' o0) j).
  { intros j. unfold energy_from. rewrite Eq', Ee. reflexivity. }
  split; [|split].
  - exists m. split; [|rewrite Eq', Ee, Ees; split; discriminate].
    destruct To as (_ & ((v & Hv) & Hl) & _). split; [exists v; rewrite Sp by discriminate; auto|].
    intros p l Hl0. assert (D : p = Parents \/ p <> Parents) by (destruct p; (left; reflexivity) || (right; discriminate)).
    destruct D as [->|D]; [|rewrite (Sp p D) in Hl0; eauto].
    simpl in Hl0. rewrite Eq' in Hl0. injection Hl0 as <-. rewrite map_length, (picks_length _ _ _ Pk). auto.
  - intros j d e Hj0 Hd He. apply In_nth_error in Hj0 as (k & Hk0).
    destruct (nth_lt idx k) as (i0 & Ei). { rewrite <- Lh. apply nth_error_Some. congruence. }
    pose proof (Hj _ _ _ Ei Hk0) as Ea. pose proof (picked_same _ _ _ _ _ Hsub Ea) as Sm.
    rewrite Ef, (energy_from_remap o0 q q' es0 (asked T n i) j i0 Eq Ees Na Pk Ea).
    apply Hs; [eapply nth_error_In; eauto| |].
    + rewrite (same_ray_dir _ _ _ _ Sm). auto.
    + rewrite (same_ray_energy _ _ _ _ Sm). auto.
  - intros j Nj. unfold energy_from. rewrite Eq'. rewrite Ee, Ees.
    assert (Hq : forall p, In p q' -> p <> j).
    { intros p Hp0 ->. apply Nj. apply In_nth_error in Hp0 as (k & Hk0).
      destruct (nth_lt q k) as (i0 & Ei). { rewrite <- (picks_length _ _ _ Pk). apply nth_error_Some. congruence. }
      pose proof (Forall2_at _ _ _ _ _ _ Pk Ei Hk0) as Ea. cbv beta in Ea.
      destruct (Ch k) as (i1 & t & v & d & C1 & C2 & _). { rewrite <- Lq. apply nth_error_Some. congruence. }
      unfold parent_at, at_col in C1. rewrite Eq in C1. assert (i1 = i0) by congruence. subst i1.
      apply In_nth_error in C2 as (k2 & C2). destruct (Hk _ _ C2) as (j2 & Ej2).
      pose proof (Hj _ _ _ C2 Ej2). assert (j2 = j) by congruence. subst. eapply nth_error_In; eauto. }
    clear -Hq. revert es0. induction q' as [|p q' IH]; intros [|e es]; auto. cbn [combine filter fst].
    destruct (Nat.eqb_spec p j) as [->|]; [exfalso; apply (Hq j); [left; auto|auto]|]. apply IH. intros; apply Hq; right; auto.
Qed.

(** ** One iteration *)
Lemma turn_each {A G} (P : A -> G -> G -> Prop) l g g' : in_turn P l g g' -> forall x, In x l -> exists h h', P x h h'.
Proof.
  induction 1 as [|y l g g1 g2 H _ IH]; intros x Hx; [destruct Hx|]. destruct Hx as [<-|Hx]; eauto.
Qed.

Lemma NoDup_app_intro {A} (l k : list A) : NoDup l -> NoDup k -> (forall x, In x l -> ~ In x k) -> NoDup (l ++ k).
Proof.
  induction l as [|x l IH]; intros Nl Nk D; auto. inversion Nl; subst. cbn. constructor.
  - rewrite in_app_iff. intros [H|H]; [auto|]. apply (D x); [left; auto|auto].
  - apply IH; auto. intros y Hy. apply D. right; auto.
Qed.

Lemma level_sent objs surfs prev ns T tb g ems g' rc m me lvl ns' : library_assembly objs surfs -> all_rays lib_ray prev ->
  (exists mp, traceable prev mp) ->
  reported surface_ops surfs prev ns T tb -> emissions surface_ops surfs tb ns T g ems g' ->
  concatenate_rays (map snd ems) = Ok rc -> level_order rc m me lvl ns' -> traceable rc m -> traceable lvl m ->
  no_ties T (length surfs) ns ->
  (forall i s j t d e, meets_first T (length surfs) ns i j t -> nth_error surfs i = Some s -> dir_at prev j = Some d ->
     energy_at prev j = Some e -> sends_on (s_opt s) (z_of (s_frame s)) d e (energy_from lvl j)) /\
  (forall j, (forall i t, ~ meets_first T (length surfs) ns i j t) -> energy_from lvl j = 0%R).
Proof.
  intros La Ap (mp & Tp) (Tb & Pk & _) (So & Ei & Tn) Hc (st & wk & Lst & Hpk & Hst & Hwk & Ss & Sw) Trc Tl Nt.
  pose proof (picked_all lib_ray prev _ tb mp Tp ltac:(rewrite seq_length; exact Tb) Pk Ap) as At.
  assert (Em : forall i o, In (i, o) ems -> exists s hits, nth_error surfs i = Some s /\
    (forall j, In j hits <-> exists t, meets_first T (length surfs) ns i j t) /\
    (exists m, rays o m /\ b_parents o <> None /\ b_energy o <> None) /\
    (forall j d e, In j hits -> dir_at tb j = Some d -> energy_at tb j = Some e -> sends_on (s_opt s) (z_of (s_frame s)) d e (energy_from o j)) /\
    (forall j, ~ In j hits -> energy_from o j = 0%R)).
  { intros i o Hio. destruct (turn_each _ _ _ _ Tn _ Hio) as (h & h' & s & hits & Es & Sh & Hh & Ee). cbn [fst snd] in *.
    exists s, hits. split; auto. split; auto.
    destruct (proj1 (proj2 La) s (nth_error_In _ _ Es)) as (Hf & Ho & _).
    apply (emission_sent tb ns T i s hits h o h' Tb At Hf Ho Ee Sh).
    - intros ->. destruct (proj1 (Ei i)) as (j & t & M). { apply in_map_iff. exists (i, o). auto. } apply (Hh j). eauto.
    - intros j Hj. apply Hh in Hj as (t & _ & _ & Ht & _). eauto. }
  assert (Hperm : Permutation (st ++ wk) (seq 0 m)).
  { apply NoDup_Permutation.
    - apply NoDup_app_intro; [apply sorted_NoDup; auto|apply sorted_NoDup; auto|].
      intros k H1 H2. apply Hst in H1 as (_ & e & E1 & L1). apply Hwk in H2 as (_ & e2 & E2 & L2). assert (e2 = e) by congruence. subst. lra.
    - apply seq_NoDup.
    - intros k. rewrite in_app_iff, Hst, Hwk, in_seq. split; [intros [(H & _)|(H & _)]; lia|]. intros (_ & Hk).
      destruct (traceable_energy _ _ k Trc) as (x & Hx); [lia|]. destruct (Rle_or_lt x me); [right|left]; split; eauto; lia. }
  assert (Ef : forall j, energy_from lvl j = sum_R (map (fun io => energy_from (snd io) j) ems)).
  { intros j. rewrite (energy_from_perm rc m _ lvl j Trc Hpk Hperm). rewrite (energy_from_concat _ _ j) with (2 := Hc).
    - rewrite map_map. auto.
    - intros o Ho. apply in_map_iff in Ho as ((i & o') & <- & Hio). cbn [snd].
      destruct (Em i o' Hio) as (s & hits & _ & _ & (m' & A & B & C) & _). exists m'. auto. }
  split.
  - intros i s j t d e M Es Hd He. rewrite Ef.
    assert (Hi : In i (map fst ems)) by (apply Ei; eauto).
    apply in_map_iff in Hi as ((i0 & o) & E0 & Hio). cbn [fst] in E0. subst i0.
    destruct (In_nth_error _ _ Hio) as (k & Hk).
    rewrite (sum_one _ _ k (i, o) Hk).
    + destruct (Em i o Hio) as (s0 & hits & Es0 & Hh & _ & Sn & _). assert (s0 = s) by congruence. subst s0. cbn [snd].
      assert (Lj : j < ns) by apply M. pose proof (picked_seq_same _ _ _ _ Pk Lj) as Sm.
      apply Sn; [apply Hh; eauto|rewrite (same_ray_dir _ _ _ _ Sm); auto|rewrite (same_ray_energy _ _ _ _ Sm); auto].
    + intros k' (i' & o') Hk' Hne. cbn [snd]. destruct (Em i' o' (nth_error_In _ _ Hk')) as (s' & hits & _ & Hh & _ & _ & Z).
      apply Z. intros Hj. apply Hh in Hj as (t' & M'). pose proof (Nt _ _ _ _ _ M M') as <-.
      apply Hne. pose proof (sorted_NoDup _ So) as Nd. rewrite NoDup_nth_error in Nd. apply Nd.
      * rewrite map_length. apply nth_error_Some. congruence.
      * rewrite !nth_error_map, Hk, Hk'. reflexivity.
  - intros j Nj. rewrite Ef. apply sum_R_zero. intros x Hx. apply in_map_iff in Hx as ((i & o) & <- & Hio). cbn [snd].
    destruct (Em i o Hio) as (s & hits & _ & Hh & _ & _ & Z). apply Z. intros Hj. apply Hh in Hj as (t & M). exact (Nj i t M).
Qed.

(** ** The books of one iteration *)
Definition share (s : surface) : R := match s_opt s with Accountant _ ab => absorptivity ab | _ => 0%R end.
Definition energy_or (b : bundle) (j : nat) : R := match energy_at b j with Some e => e | None => 0%R end.

Lemma all_hits surfs prev ns T tb g ems g' : reported surface_ops surfs prev ns T tb ->
  emissions surface_ops surfs tb ns T g ems g' ->
  exists hs, length hs = length surfs /\ forall i h, nth_error hs i = Some h -> NoDup h /\
    forall j, In j h <-> exists t, meets_first T (length surfs) ns i j t.
Proof.
  intros _ (So & Ei & Tn).
  assert (K : forall N, exists hs, length hs = N /\ forall i h, nth_error hs i = Some h -> NoDup h /\
    forall j, In j h <-> exists t, meets_first T (length surfs) ns i j t).
  { induction N as [|N (hs & Lh & IH)]. { exists []. split; auto. intros [|i] h H; discriminate. }
    assert (X : exists h, NoDup h /\ forall j, In j h <-> exists t, meets_first T (length surfs) ns N j t).
    { destruct (in_dec Nat.eq_dec N (map fst ems)) as [Hi|Hi].
      - apply in_map_iff in Hi as ((i0 & o) & E0 & Hio). cbn [fst] in E0. subst i0.
        destruct (turn_each _ _ _ _ Tn _ Hio) as (h & h' & s & hits & Es & Sh & Hh & Ee). exists hits. split; auto. apply sorted_NoDup; auto.
      - exists []. split; [constructor|]. intros j. split; [intros []|]. intros (t & M). apply Hi, Ei. eauto. }
    destruct X as (h & Hh). exists (hs ++ [h]). split. { rewrite app_length. cbn. lia. }
    intros i h' H. destruct (Nat.lt_ge_cases i N) as [Lt|Ge].
    - rewrite nth_error_app1 in H by lia. auto.
    - rewrite nth_error_app2 in H by lia. destruct (i - length hs) as [|q] eqn:Eq; [|destruct q; discriminate].
      injection H as <-. assert (i = N) by lia. subst i. exact Hh. }
  destruct (K (length surfs)) as (hs & A & B). eauto.
Qed.

Lemma noted_sum a T nsurf prev ns i l h : noted a T nsurf prev ns i l -> NoDup h ->
  (forall j, In j h <-> exists t, meets_first T nsurf ns i j t) ->
  sum_R (map fst l) = sum_R (map (fun j => energy_or prev j * a)%R h).
Proof.
  intros (js & Sj & Hj & F) Nh Hh.
  assert (P : Permutation h js). { apply NoDup_Permutation; auto; [apply sorted_NoDup; auto|]. intros j. rewrite Hh, Hj. tauto. }
  rewrite (sum_R_perm _ _ (Permutation_map _ P)). f_equal.
  clear -F. induction F as [|j x js l (t & e & v & d & _ & He & _ & _ & ->) F IH]; auto. cbn [map fst]. rewrite IH.
  unfold energy_or at 2. rewrite He. reflexivity.
Qed.

Lemma total_or b n : traceable b n -> total_energy b = sum_R (map (energy_or b) (seq 0 n)).
Proof.
  intros T. destruct (traceable_parts _ _ T) as (vs & ds & es & _ & _ & Ee & _ & _ & Le).
  unfold total_energy, energy_or, energy_at, at_col. rewrite Ee. f_equal. rewrite <- Le. clear.
  induction es as [|e es IH]; auto. cbn [length seq map nth_error]. f_equal. rewrite <- seq_shift, map_map. exact IH.
Qed.

Lemma level_balance surfs prev mp ns T lvl m hs xs : keeps_books surfs -> traceable prev mp -> ns <= mp -> traceable lvl m ->
  b_parents lvl <> None -> (forall k p, parent_at lvl k = Some p -> p < mp) ->
  no_ties T (length surfs) ns -> length hs = length surfs ->
  (forall i h, nth_error hs i = Some h -> NoDup h /\ forall j, In j h <-> exists t, meets_first T (length surfs) ns i j t) ->
  (forall i s j t d e, meets_first T (length surfs) ns i j t -> nth_error surfs i = Some s -> dir_at prev j = Some d ->
     energy_at prev j = Some e -> sends_on (s_opt s) (z_of (s_frame s)) d e (energy_from lvl j)) ->
  (forall j, (forall i t, ~ meets_first T (length surfs) ns i j t) -> energy_from lvl j = 0%R) ->
  length xs = length surfs ->
  (forall i s h x, nth_error surfs i = Some s -> nth_error hs i = Some h -> nth_error xs i = Some x ->
     x = sum_R (map (fun j => energy_or prev j * share s)%R h)) ->
  exists out, unmet T (length surfs) prev ns out /\
    total_energy prev = (energy_of prev out + sum_R xs + total_energy lvl)%R.
Proof.
  intros Kb Tp Ln Tl Pn Pl Nt Lh Hh Sn Un Lx Hx.
  set (p := fun j => negb (existsb (mem j) hs)).
  exists (filter p (seq 0 mp)).
  assert (Pj : forall j, p j = true <-> forall i t, ~ meets_first T (length surfs) ns i j t).
  { intros j. unfold p. rewrite negb_true_iff. split.
    - intros E i t M. destruct (nth_lt hs i) as (h & Eh). { rewrite Lh. apply M. }
      assert (K : existsb (mem j) hs = true); [|congruence]. apply existsb_exists. exists h.
      split; [eapply nth_error_In; eauto|]. apply mem_iff, (Hh i h Eh). eauto.
    - intros H. destruct (existsb (mem j) hs) eqn:E; auto. apply existsb_exists in E as (h & Hin & Hm).
      apply mem_iff in Hm. apply In_nth_error in Hin as (i & Hi). apply (Hh i h Hi) in Hm as (t & M). exfalso. exact (H i t M). }
  split.
  - split; [apply NoDup_filter, seq_NoDup|]. intros j. rewrite filter_In, in_seq, Pj. split.
    + intros (Hj & H). split; auto. apply (traceable_energy prev mp j Tp). lia.
    + intros ((e & He) & H). split; auto. pose proof (traceable_energy_lt prev mp j e Tp He). lia.
  - rewrite (total_or prev mp Tp), (total_energy_from lvl m mp Tl Pn Pl).
    set (sh := combine (map share surfs) hs).
    assert (Ex : sum_R xs = sum_R (map (fun ah => sum_R (map (fun j => if mem j (snd ah) then energy_or prev j * fst ah else 0)%R (seq 0 mp))) sh)).
    { f_equal. apply nth_error_ext. intros i. destruct (Nat.lt_ge_cases i (length surfs)) as [Li|Li].
      - destruct (nth_lt surfs i Li) as (s & Es). destruct (nth_lt hs i) as (h & Eh); [lia|]. destruct (nth_lt xs i) as (x & Ex); [lia|].
        rewrite Ex, (Hx i s h x Es Eh Ex). rewrite nth_error_map.
        assert (Ec : nth_error sh i = Some (share s, h)).
        { unfold sh. assert (Em : nth_error (map share surfs) i = Some (share s)) by (rewrite nth_error_map, Es; auto).
          clear -Em Eh. revert hs i Em Eh. induction (map share surfs) as [|a l IH]; intros [|h0 hs] [|i] A B; try discriminate; cbn in *; [congruence|auto]. }
        rewrite Ec. cbn [option_map fst snd]. f_equal. symmetry. apply sum_mem; [apply (Hh i h Eh)|apply seq_NoDup|].
        intros j Hj. apply (Hh i h Eh) in Hj as (t & M). apply in_seq. assert (j < ns) by apply M. lia.
      - rewrite (proj2 (nth_error_None xs i)) by lia. symmetry. apply nth_error_None. rewrite map_length. unfold sh.
        rewrite combine_length, map_length. lia. }
    rewrite Ex, sum_swap. unfold energy_of. change (fun j => match energy_at prev j with Some e => e | None => 0%R end) with (energy_or prev).
    rewrite <- sum_filter, <- !sum_plus. f_equal. apply map_ext_in. intros j Hj. apply in_seq in Hj.
    destruct (p j) eqn:Ep.
    + pose proof (proj1 (Pj j) Ep) as Nj. rewrite (Un j Nj). rewrite sum_R_zero; [lra|].
      intros x Hin. apply in_map_iff in Hin as ((a & h) & <- & Hin). cbn [fst snd].
      destruct (mem j h) eqn:Em; auto. exfalso. apply mem_iff in Em. unfold sh in Hin. apply in_combine_r in Hin.
      apply In_nth_error in Hin as (i & Hi). apply (Hh i h Hi) in Em as (t & M). exact (Nj i t M).
    + unfold p in Ep. apply negb_false_iff in Ep. apply existsb_exists in Ep as (h & Hin & Hm).
      apply In_nth_error in Hin as (i & Hi). assert (Li : i < length surfs). { rewrite <- Lh. apply nth_error_Some. congruence. }
      destruct (nth_lt surfs i Li) as (s & Es).
      assert (Ec : nth_error sh i = Some (share s, h)).
      { unfold sh. assert (Em : nth_error (map share surfs) i = Some (share s)) by (rewrite nth_error_map, Es; auto).
        clear -Em Hi. revert hs i Em Hi. induction (map share surfs) as [|a l IH]; intros [|h0 hs] [|i] A B; try discriminate; cbn in *; [congruence|auto]. }
      assert (Mh := Hm). apply mem_iff, (Hh i h Hi) in Mh as (t & M).
      rewrite (sum_one _ _ i _ Ec).
      * cbn [fst snd]. rewrite Hm. destruct (traceable_energy prev mp j Tp) as (e & He); [lia|]. destruct (traceable_dir prev mp j Tp) as (d & Hd); [lia|].
        unfold energy_or. rewrite He. pose proof (Sn i s j t d e M Es Hd He) as K. pose proof (Kb i s Es) as Kk. unfold share, sends_on in *.
        destruct (s_opt s) as [ab|id ab|i1 i2]; [destruct Kk| |rewrite K; lra].
        destruct ab; cbn [absorptivity]; [rewrite K; lra|destruct Kk|rewrite K; lra].
      * intros k' (a & h') Hk' Hne. cbn [fst snd]. destruct (mem j h') eqn:Em; auto. exfalso. apply mem_iff in Em.
        assert (Hk2 : nth_error hs k' = Some h').
        { unfold sh in Hk'. clear -Hk'. revert hs k' Hk'. induction (map share surfs) as [|b l IH]; intros [|h0 hs] [|k] A; try discriminate; cbn in *; [congruence|auto]. }
        apply (Hh k' h' Hk2) in Em as (t' & M'). apply Hne. exact (Nt _ _ _ _ _ M' M).
Qed.

(** ** The whole trace *)
Lemma choose {A} (Q : nat -> A -> Prop) N : (forall i, i < N -> exists y, Q i y) ->
  exists ys, length ys = N /\ forall i y, nth_error ys i = Some y -> Q i y.
Proof.
  induction N as [|N IH]; intros H. { exists []. split; auto. intros [|i] y E; discriminate. }
  destruct IH as (ys & Ly & Hy). { intros i Hi. apply H. lia. }
  destruct (H N) as (y & Q0); [lia|]. exists (ys ++ [y]). split. { rewrite app_length. cbn. lia. }
  intros i z E. destruct (Nat.lt_ge_cases i N) as [Lt|Ge].
  - rewrite nth_error_app1 in E by lia. auto.
  - rewrite nth_error_app2 in E by lia. destruct (i - length ys) as [|q] eqn:Eq; [|destruct q; discriminate].
    injection E as <-. assert (i = N) by lia. subst i. exact Q0.
Qed.

Definition booked (g : shared) (s : surface) (x : R) : Prop :=
  match s_opt s with
  | Accountant id _ => exists ls, a_absorbed (g_acc g id) = map (map fst) (filter nonempty ls) /\
      a_hits (g_acc g id) = map (map snd) (filter nonempty ls) /\ x = sum_R (map fst (concat ls))
  | _ => x = 0%R
  end.
Lemma booked_record g s x : booked g s x -> on_record g s x.
Proof.
  unfold booked, on_record. destruct (s_opt s); auto. intros (ls & A & B & ->).
  exists (map fst (concat ls)), (map snd (concat ls)). split; auto. rewrite <- hits_concat. f_equal.
  destruct (g_acc g id). cbn in A, B. congruence.
Qed.

Fixpoint zip {A B C} (f : A -> B -> C) (l : list A) (k : list B) : list C :=
  match l, k with x :: l, y :: k => f x y :: zip f l k | _, _ => [] end.
Lemma zip_sum l k : length l = length k -> sum_R (zip Rplus l k) = (sum_R l + sum_R k)%R.
Proof.
  revert k. induction l as [|x l IH]; intros [|y k] H; try discriminate; [cbn; lra|]. cbn [zip]. rewrite !sum_R_cons, IH by (cbn in H; lia). lra.
Qed.
Lemma zip_nth {A B C} (f : A -> B -> C) l k i : nth_error (zip f l k) i =
  match nth_error l i, nth_error k i with Some x, Some y => Some (f x y) | _, _ => None end.
Proof.
  revert k i. induction l as [|x l IH]; intros [|y k] [|i]; cbn; auto. destruct (nth_error l i); auto.
Qed.
Lemma zip_length {A B C} (f : A -> B -> C) l k : length l = length k -> length (zip f l k) = length l.
Proof. revert k. induction l as [|x l IH]; intros [|y k] H; try discriminate; auto. cbn in *. rewrite IH; lia. Qed.

Section Whole.
Variable objs : list obj.
Variable surfs : list surface.
Hypothesis HA : library_assembly objs surfs.
Variables (me : R) (g : shared) (b : bundle) (n reps : nat) (tree : list bundle) (ns : nat -> nat) (Ts : nat -> reports)
  (gs : nat -> shared) (g' : shared).
Hypothesis C : consistent_tree surface_ops objs surfs me b n reps tree ns Ts g gs g'.
Hypothesis Hb : library_source b n.
Hypothesis Hlib : forall L lvl, nth_error tree (L + 1) = Some lvl -> all_rays lib_ray lvl.

Lemma tree_lib L prev : nth_error tree L = Some prev -> all_rays lib_ray prev.
Proof.
  destruct L as [|L]; intros H.
  - rewrite (ct_source _ _ _ _ _ _ _ _ _ _ _ _ _ C) in H. injection H as <-. apply Hb.
  - apply (Hlib L). rewrite Nat.add_1_r. exact H.
Qed.

Lemma tree_sent L prev lvl : nth_error tree L = Some prev -> nth_error tree (L + 1) = Some lvl -> never_ties surfs prev ->
  (forall i s j t d e, meets_first (Ts L) (length surfs) (ns L) i j t -> nth_error surfs i = Some s -> dir_at prev j = Some d ->
     energy_at prev j = Some e -> sends_on (s_opt s) (z_of (s_frame s)) d e (energy_from lvl j)) /\
  (forall j, (forall i t, ~ meets_first (Ts L) (length surfs) (ns L) i j t) -> energy_from lvl j = 0%R).
Proof.
  intros Hp Hl Nt.
  destruct (ct_level _ _ _ _ _ _ _ _ _ _ _ _ _ C L prev lvl Hp Hl) as (tb & rc & m & ems & R1 & R2 & R3 & R4 & R5 & R6 & R7 & R8 & R9).
  destruct (ct_traced _ _ _ _ _ _ _ _ _ _ _ _ _ C (proj1 Hb) L prev Hp) as (mp & T1 & _).
  eapply (level_sent objs surfs prev (ns L) (Ts L) tb (gs L) ems (gs (L + 1)) rc m me lvl (ns (L + 1))); eauto.
  - eapply tree_lib; eauto.
  - eapply never_ties_no_ties; eauto.
Qed.

Lemma ledger : keeps_books surfs -> fresh_books surfs g -> (forall prev, In prev tree -> never_ties surfs prev) ->
  forall L lvl, nth_error tree L = Some lvl -> exists outs xs, length outs = L /\
  (forall K prev out, nth_error tree K = Some prev -> nth_error outs K = Some out ->
     unmet (Ts K) (length surfs) prev (ns K) out) /\
  Forall2 (booked (gs L)) surfs xs /\
  total_energy b = (sum_R (map (fun po => energy_of (fst po) (snd po)) (combine tree outs)) + sum_R xs + total_energy lvl)%R.
Proof.
  intros Kb Fb Nt. induction L as [|L IH]; intros lvl Hl.
  - exists [], (map (fun _ => 0%R) surfs). split; auto. split. { intros [|K] prev out _ H; discriminate. }
    split.
    + rewrite (ct_before _ _ _ _ _ _ _ _ _ _ _ _ _ C). rewrite Forall2_nth, map_length. split; auto. intros i s x Es Ex.
      rewrite nth_error_map, Es in Ex. injection Ex as <-. unfold booked. destruct (s_opt s) as [ab|id ab|i1 i2] eqn:Eo; auto.
      exists []. rewrite (Fb s id ab (nth_error_In _ _ Es) Eo). auto.
    + rewrite (ct_source _ _ _ _ _ _ _ _ _ _ _ _ _ C) in Hl. injection Hl as <-.
      rewrite (sum_R_zero (map _ surfs)). 2:{ intros x Hx. apply in_map_iff in Hx as (y & <- & _). auto. }
      destruct tree; cbn; lra.
  - destruct (nth_lt tree L) as (prev & Hp). { assert (S L < length tree) by (apply nth_error_Some; congruence). lia. }
    destruct (IH prev Hp) as (outs & xs & Lo & Hu & Fx & Et). pose proof Hl as Hl'. rewrite <- Nat.add_1_r in Hl'.
    destruct (ct_level _ _ _ _ _ _ _ _ _ _ _ _ _ C L prev lvl Hp Hl') as (tb & rc & m & ems & R1 & R2 & R3 & R4 & R5 & R6 & (R7 & _) & R8 & R9).
    destruct (ct_traced _ _ _ _ _ _ _ _ _ _ _ _ _ C (proj1 Hb) L prev Hp) as (mp & T1 & T2 & _).
    destruct (tree_sent L prev lvl Hp Hl' (Nt prev (nth_error_In _ _ Hp))) as (Sn & Un).
    destruct (all_hits _ _ _ _ _ _ _ _ R1 R2) as (hs & Lh & Hh).
    assert (Hy : forall i, i < length surfs -> exists y, forall s h, nth_error surfs i = Some s -> nth_error hs i = Some h ->
      y = sum_R (map (fun j => energy_or prev j * share s)%R h) /\ forall x, booked (gs L) s x -> booked (gs (L + 1)) s (x + y)).
    { intros i Hi. destruct (nth_lt surfs i Hi) as (s & Es). pose proof (Kb i s Es) as Ki. destruct (s_opt s) as [ab|id ab|i1 i2] eqn:Eo; [destruct Ki| |].
      - assert (Sa : sole_account surfs i id) by (destruct ab; [exact Ki|destruct Ki|exact Ki]).
        destruct (level_noted _ _ _ _ _ _ _ _ _ _ _ _ _ HA R1 R2 Es Eo Sa) as (l & N & (X1 & X2)).
        exists (sum_R (map fst l)). intros s0 h E0 Eh. assert (s0 = s) by congruence. subst s0. destruct (Hh i h Eh) as (Nh & Ih). split.
        + rewrite (noted_sum _ _ _ _ _ _ _ h N Nh Ih). unfold share. rewrite Eo. auto.
        + intros x. unfold booked. rewrite Eo. intros (ls & A & B & ->). exists (ls ++ [l]).
          rewrite X1, X2, A, B, filter_app, !map_app, concat_app, map_app, ProcessProof.sum_R_app. cbn [concat]. rewrite app_nil_r. auto.
      - exists 0%R. intros s0 h E0 Eh. assert (s0 = s) by congruence. subst s0. unfold share, booked. rewrite Eo. split.
        + symmetry. apply sum_R_zero. intros x Hx. apply in_map_iff in Hx as (j & <- & _). lra.
        + intros x ->. lra. }
    destruct (choose _ _ Hy) as (ys & Ly & Qy).
    assert (Hpar : forall k p, parent_at lvl k = Some p -> p < mp).
    { intros k p Hk. assert (Hkm : k < m).
      { destruct R5 as (_ & (_ & Hr) & _). unfold parent_at, at_col in Hk. destruct (b_parents lvl) as [l|] eqn:E; [|discriminate].
        specialize (Hr Parents (map PNat l)). rewrite map_length in Hr. rewrite <- Hr; [|simpl; rewrite E; auto].
        apply nth_error_Some. congruence. }
      destruct (R7 k Hkm) as (i & j' & t & v & d & A1 & A2 & _). assert (j' = p) by congruence. lia. }
    assert (Hpn : b_parents lvl <> None).
    { destruct (R7 0 R6) as (i & j & t & v & d & A1 & _). unfold parent_at, at_col in A1. destruct (b_parents lvl); congruence. }
    destruct (level_balance surfs prev mp (ns L) (Ts L) lvl m hs ys Kb T1 T2 R5 Hpn Hpar
      (never_ties_no_ties _ _ _ _ _ R1 (Nt prev (nth_error_In _ _ Hp))) Lh Hh Sn Un Ly) as (out & Ho & Eb).
    { intros i s h y Es Eh Ey. apply (Qy i y Ey s h Es Eh). }
    pose proof (proj1 (proj1 (Forall2_nth _ _ _) Fx)) as Lx.
    exists (outs ++ [out]), (zip Rplus xs ys). split. { rewrite app_length. cbn. lia. }
    split; [|split].
    + intros K pv o HK Ho0. destruct (Nat.lt_ge_cases K L) as [Lt|Ge].
      * rewrite nth_error_app1 in Ho0 by lia. eauto.
      * rewrite nth_error_app2 in Ho0 by lia. destruct (K - length outs) as [|q] eqn:Eq; [|destruct q; discriminate].
        injection Ho0 as <-. assert (K = L) by lia. subst K. assert (pv = prev) by congruence. subst pv. exact Ho.
    + rewrite Forall2_nth. split. { rewrite zip_length by lia. lia. }
      intros i s z Es Ez. rewrite zip_nth in Ez. destruct (nth_error xs i) as [x|] eqn:Ex; [|discriminate].
      destruct (nth_error ys i) as [y|] eqn:Ey; [|discriminate]. injection Ez as <-.
      destruct (nth_lt hs i) as (h & Eh). { rewrite Lh. apply nth_error_Some. congruence. }
      rewrite <- Nat.add_1_r. apply (Qy i y Ey s h Es Eh). apply (Forall2_at _ _ _ _ _ _ Fx Es Ex).
    + rewrite zip_sum by lia. rewrite Et, Eb.
      assert (Ec : combine tree (outs ++ [out]) = combine tree outs ++ [(prev, out)]).
      { rewrite <- Lo in Hp. clear -Hp. revert tree Hp. induction outs as [|o outs IH]; intros [|q tr] H; try discriminate.
        - cbn in *. injection H as ->. destruct tr; auto.
        - cbn in *. rewrite IH; auto. }
      rewrite Ec, map_app, ProcessProof.sum_R_app. cbn [map fst snd]. rewrite sum_R_cons. cbn [sum_R fold_right]. lra.
Qed.
End Whole.

Lemma sent_top : forall objs surfs, library_assembly objs surfs ->
  forall me g b n, library_source b n -> forall reps vs ds st,
  ray_tracer surface_ops objs surfs g b reps me TreeTrue = Ok (vs, ds, st) ->
  exists (ns : nat -> nat) (Ts : nat -> reports),
  (forall L prev, nth_error (t_tree st) L = Some prev -> L < reps -> 0 < ns L ->
     exists tb, reported surface_ops surfs prev (ns L) (Ts L) tb) /\
  (forall L prev, nth_error (t_tree st) L = Some prev -> forall j, j < ns L <-> is_traced me L prev j) /\
  forall L prev lvl, nth_error (t_tree st) L = Some prev -> nth_error (t_tree st) (L + 1) = Some lvl -> never_ties surfs prev ->
  (forall i s j t d e, meets_first (Ts L) (length surfs) (ns L) i j t -> nth_error surfs i = Some s -> dir_at prev j = Some d ->
     energy_at prev j = Some e -> sends_on (s_opt s) (z_of (s_frame s)) d e (energy_from lvl j)) /\
  (forall j, (forall i t, ~ meets_first (Ts L) (length surfs) (ns L) i j t) -> energy_from lvl j = 0%R).
Proof.
  intros objs surfs La me g b n Ls reps vs ds st E.
  destruct (library_trace objs surfs me La g b n reps vs ds st Ls E) as (ns & Ts & gs & C & _ & Hlen & _ & _ & _ & _ & _ & _ & _ & Hlib).
  exists ns, Ts. split; [|split].
  - intros L prev Hp HL Hn. destruct (nth_error (t_tree st) (L + 1)) as [lvl|] eqn:Hl.
    + destruct (ct_level _ _ _ _ _ _ _ _ _ _ _ _ _ C L prev lvl Hp Hl) as (tb & rc & m & ems & R1 & _). eauto.
    + destruct (ct_end _ _ _ _ _ _ _ _ _ _ _ _ _ C L prev Hp Hl HL) as (tb & R & _); eauto.
  - intros L prev Hp j. destruct (ct_traced _ _ _ _ _ _ _ _ _ _ _ _ _ C (proj1 Ls) L prev Hp) as (mp & _ & _ & Htr & _). auto.
  - intros L prev lvl. eapply tree_sent; eauto.
Qed.

Lemma ledger_top : forall objs surfs, library_assembly objs surfs -> keeps_books surfs ->
  forall me g b n, library_source b n -> fresh_books surfs g -> forall reps vs ds st,
  ray_tracer surface_ops objs surfs g b reps me TreeTrue = Ok (vs, ds, st) ->
  (forall prev, In prev (t_tree st) -> never_ties surfs prev) ->
  exists (ns : nat -> nat) (Ts : nat -> reports) outs xs lvl,
  (forall L prev, nth_error (t_tree st) L = Some prev -> L < reps -> 0 < ns L ->
     exists tb, reported surface_ops surfs prev (ns L) (Ts L) tb) /\
  (forall L prev, nth_error (t_tree st) L = Some prev -> forall j, j < ns L <-> is_traced me L prev j) /\
  length (t_tree st) = length outs + 1 /\ nth_error (t_tree st) (length outs) = Some lvl /\
  (forall L prev out, nth_error (t_tree st) L = Some prev -> nth_error outs L = Some out ->
     unmet (Ts L) (length surfs) prev (ns L) out) /\
  Forall2 (on_record (t_g st)) surfs xs /\
  total_energy b =
    (sum_R (map (fun po => energy_of (fst po) (snd po)) (combine (t_tree st) outs)) + sum_R xs + total_energy lvl)%R.
Proof.
  intros objs surfs La Kb me g b n Ls Fb reps vs ds st E Nt.
  destruct (library_trace objs surfs me La g b n reps vs ds st Ls E) as (ns & Ts & gs & C & _ & Hlen & _ & _ & _ & _ & _ & _ & _ & Hlib).
  assert (H0 : 0 < length (t_tree st)). { apply nth_error_Some. rewrite (ct_source _ _ _ _ _ _ _ _ _ _ _ _ _ C). discriminate. }
  destruct (nth_lt (t_tree st) (length (t_tree st) - 1)) as (lvl & Hl); [lia|].
  destruct (ledger objs surfs La me g b n reps (t_tree st) ns Ts gs (t_g st) C Ls Hlib Kb Fb Nt _ lvl Hl) as (outs & xs & Lo & Hu & Fx & Et).
  exists ns, Ts, outs, xs, lvl. split; [|split; [|split; [|split; [|split; [|split]]]]]; auto; try lia.
  - intros L prev Hp HL Hn. destruct (nth_error (t_tree st) (L + 1)) as [lv|] eqn:Hv.
    + destruct (ct_level _ _ _ _ _ _ _ _ _ _ _ _ _ C L prev lv Hp Hv) as (tb & rc & m & ems & R1 & _). eauto.
    + destruct (ct_end _ _ _ _ _ _ _ _ _ _ _ _ _ C L prev Hp Hv HL) as (tb & R & _); eauto.
  - intros L prev Hp j. destruct (ct_traced _ _ _ _ _ _ _ _ _ _ _ _ _ C (proj1 Ls) L prev Hp) as (mp & _ & _ & Htr & _). auto.
  - rewrite Lo. exact Hl.
  - rewrite (ct_after _ _ _ _ _ _ _ _ _ _ _ _ _ C) in Fx. rewrite Forall2_nth in *. destruct Fx as (A & B). split; auto.
    intros i s x Es Ex. apply booked_record. eauto.
Qed.
