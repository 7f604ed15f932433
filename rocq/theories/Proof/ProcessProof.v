(** Proofs about one surface's part of an iteration ([process_surface]). *)
From Coq Require Import Reals List Arith ZArith Bool Lia Lra Permutation Sorted.
From Verif.Base Require Import Py Num Vec.
From Verif.Model Require Import RayBundle Engine.
From Verif.Spec Require Import BundleSpec EngineSpec.
From Verif.Proof Require Import ListLemmas NumLemmas BundleProof IntersectProof.
Import ListNotations.

(** ** Reading bundles ray by ray *)
Definition at_p (b : bundle) (p : pname) (k : nat) : option pval :=
  match prop b p with Some l => nth_error l k | None => None end.

Lemma at_col_prop {A} (f : A -> pval) (c : option (list A)) k :
  (match option_map (map f) c with Some l => nth_error l k | None => None end) =
  option_map f (at_col c k).
Proof. destruct c; simpl; auto. apply nth_error_map. Qed.

Lemma vert_at_p b k : at_p b Vertices k = option_map PVec (vert_at b k).
Proof. apply at_col_prop. Qed.
Lemma dir_at_p b k : at_p b Directions k = option_map PVec (dir_at b k).
Proof. apply at_col_prop. Qed.
Lemma energy_at_p b k : at_p b Energy k = option_map PReal (energy_at b k).
Proof. apply at_col_prop. Qed.
Lemma parent_at_p b k : at_p b Parents k = option_map PNat (parent_at b k).
Proof. apply at_col_prop. Qed.
Lemma ref_at_p b k : at_p b RefIndex k = option_map PReal (ref_at b k).
Proof. apply at_col_prop. Qed.

Lemma option_map_inj {A B} (f : A -> B) (Hf : forall x y, f x = f y -> x = y) a b :
  option_map f a = option_map f b -> a = b.
Proof. destruct a, b; simpl; intros H; try discriminate; auto. injection H as H. f_equal; auto. Qed.

(** Ray [k] of [a] is ray [j] of [b], in all properties. *)
Definition same_ray (a : bundle) (k : nat) (b : bundle) (j : nat) : Prop :=
  forall p, at_p a p k = at_p b p j.

Lemma same_ray_vert a k b j : same_ray a k b j -> vert_at a k = vert_at b j.
Proof. intros H. specialize (H Vertices). rewrite !vert_at_p in H.
  eapply option_map_inj; [|exact H]. congruence. Qed.
Lemma same_ray_dir a k b j : same_ray a k b j -> dir_at a k = dir_at b j.
Proof. intros H. specialize (H Directions). rewrite !dir_at_p in H.
  eapply option_map_inj; [|exact H]. congruence. Qed.
Lemma same_ray_energy a k b j : same_ray a k b j -> energy_at a k = energy_at b j.
Proof. intros H. specialize (H Energy). rewrite !energy_at_p in H.
  eapply option_map_inj; [|exact H]. congruence. Qed.
Lemma same_ray_parent a k b j : same_ray a k b j -> parent_at a k = parent_at b j.
Proof. intros H. specialize (H Parents). rewrite !parent_at_p in H.
  eapply option_map_inj; [|exact H]. congruence. Qed.
Lemma same_ray_ref a k b j : same_ray a k b j -> ref_at a k = ref_at b j.
Proof. intros H. specialize (H RefIndex). rewrite !ref_at_p in H.
  eapply option_map_inj; [|exact H]. congruence. Qed.

Lemma picks_nth {A} (l : list A) idx l' k j :
  picks l idx l' -> nth_error idx k = Some j -> nth_error l' k = nth_error l j.
Proof. intros H E. apply take_ok in H. eapply take_nth; eauto. Qed.

Lemma picked_same b idx b' k j :
  rays_picked b idx b' -> nth_error idx k = Some j -> same_ray b' k b j.
Proof.
  intros H E p. unfold at_p. specialize (H p). destruct (prop b p) as [l|].
  - destruct H as (l' & -> & H). eapply picks_nth; eauto.
  - rewrite H; auto.
Qed.

Lemma picked_rays b idx b' n : rays b n -> rays_picked b idx b' -> rays b' (length idx).
Proof.
  intros ((v & Hv) & H) Hp. split.
  - pose proof (Hp Vertices) as Hv'. rewrite Hv in Hv'. destruct Hv' as (l' & E & _); eauto.
  - intros p l E. specialize (Hp p). destruct (prop b p).
    + destruct Hp as (l' & E' & Hk). rewrite E in E'. injection E' as <-.
      eapply picks_length; eauto.
    + congruence.
Qed.

Lemma prop_dir_none b : b_dir b = None <-> prop b Directions = None.
Proof. simpl. destruct (b_dir b); simpl; split; congruence. Qed.
Lemma prop_energy_none b : b_energy b = None <-> prop b Energy = None.
Proof. simpl. destruct (b_energy b); simpl; split; congruence. Qed.
Lemma prop_parents_none b : b_parents b = None <-> prop b Parents = None.
Proof. simpl. destruct (b_parents b); simpl; split; congruence. Qed.

Lemma picked_none b idx b' p : rays_picked b idx b' -> (prop b p = None <-> prop b' p = None).
Proof.
  intros H. specialize (H p). destruct (prop b p).
  - destruct H as (l' & -> & _). split; discriminate.
  - tauto.
Qed.

Lemma picked_traceable b idx b' n :
  traceable b n -> names_ok b' -> rays_picked b idx b' -> traceable b' (length idx).
Proof.
  intros (Hn & Hr & Hd & He) Hn' Hp. split; auto. split; [eapply picked_rays; eauto|].
  rewrite prop_dir_none in *. rewrite prop_energy_none in *.
  rewrite <- !(picked_none _ _ _ _ Hp). auto.
Qed.

Lemma rays_at b n p l k : rays b n -> prop b p = Some l -> k < n -> exists x, nth_error l k = Some x.
Proof.
  intros (_ & H) E Hk. destruct (nth_error l k) eqn:En; eauto.
  apply nth_error_None in En. rewrite (H _ _ E) in En. lia.
Qed.
Lemma rays_lt b n p l k x : rays b n -> prop b p = Some l -> nth_error l k = Some x -> k < n.
Proof. intros (_ & H) E Hk. rewrite <- (H _ _ E). apply nth_error_Some. congruence. Qed.

Lemma at_col_Some {A} (f : A -> pval) b n p (c : option (list A)) k :
  rays b n -> prop b p = option_map (map f) c -> c <> None -> k < n -> exists x, at_col c k = Some x.
Proof.
  intros Hr E Hc Hk. destruct c as [l|]; [|congruence]. simpl in E.
  destruct (rays_at _ _ _ _ k Hr E Hk) as (x & Hx). rewrite nth_error_map in Hx. simpl.
  destruct (nth_error l k); [eauto|discriminate].
Qed.
Lemma at_col_lt {A} (f : A -> pval) b n p (c : option (list A)) k x :
  rays b n -> prop b p = option_map (map f) c -> at_col c k = Some x -> k < n.
Proof.
  intros Hr E Hx. destruct c as [l|]; [|discriminate]. simpl in *.
  apply (rays_lt b n p _ k (f x) Hr E). rewrite nth_error_map, Hx; auto.
Qed.

Lemma traceable_vert b n k : traceable b n -> k < n -> exists v, vert_at b k = Some v.
Proof.
  intros (_ & Hr & _) Hk. apply (at_col_Some PVec b n Vertices); auto.
  destruct Hr as ((l & H) & _). simpl in H. destruct (b_vert b); [discriminate|simpl in H; discriminate].
Qed.
Lemma traceable_dir b n k : traceable b n -> k < n -> exists v, dir_at b k = Some v.
Proof. intros (_ & Hr & Hd & _) Hk. apply (at_col_Some PVec b n Directions); auto. Qed.
Lemma traceable_energy b n k : traceable b n -> k < n -> exists v, energy_at b k = Some v.
Proof. intros (_ & Hr & _ & He) Hk. apply (at_col_Some PReal b n Energy); auto. Qed.
Lemma traceable_energy_lt b n k e : traceable b n -> energy_at b k = Some e -> k < n.
Proof. intros (_ & Hr & _ & _). apply (at_col_lt PReal b n Energy); auto. Qed.
Lemma traceable_dir_lt b n k e : traceable b n -> dir_at b k = Some e -> k < n.
Proof. intros (_ & Hr & _ & _). apply (at_col_lt PVec b n Directions); auto. Qed.
Lemma traceable_vert_lt b n k e : traceable b n -> vert_at b k = Some e -> k < n.
Proof. intros (_ & Hr & _ & _). apply (at_col_lt PVec b n Vertices); auto. Qed.
Lemma rays_parent_lt b n k e : rays b n -> parent_at b k = Some e -> k < n.
Proof. intros Hr. apply (at_col_lt PNat b n Parents); auto. Qed.

Lemma picked_all RP b idx b' n :
  traceable b n -> traceable b' (length idx) -> rays_picked b idx b' -> all_rays RP b -> all_rays RP b'.
Proof.
  intros Ht Ht' Hp Ha k d e Hd He.
  assert (Hk : k < length idx) by (eapply traceable_dir_lt; eauto).
  destruct (nth_error idx k) as [j|] eqn:Ej; [|apply nth_error_None in Ej; lia].
  pose proof (picked_same _ _ _ _ _ Hp Ej) as Hs.
  rewrite (same_ray_ref _ _ _ _ Hs). apply Ha.
  - rewrite <- (same_ray_dir _ _ _ _ Hs); auto.
  - rewrite <- (same_ray_energy _ _ _ _ Hs); auto.
Qed.

(** ** Replacing the parents *)
Lemma set_parents_prop ps o p : p <> Parents -> prop (set_parents ps o) p = prop o p.
Proof. destruct p; simpl; auto. congruence. Qed.

Lemma set_parents_rays ps o m : rays o m -> length ps = m -> rays (set_parents ps o) m.
Proof.
  intros (Hv & H) Hl. split; [destruct Hv as (l & E); exists l; rewrite set_parents_prop; auto; discriminate|].
  intros p l. destruct p; try (rewrite set_parents_prop by discriminate; apply H).
  simpl. intros E; injection E as <-. rewrite map_length; auto.
Qed.

Lemma set_parents_traceable ps o m : traceable o m -> length ps = m -> traceable (set_parents ps o) m.
Proof.
  intros (Hn & Hr & Hd & He) Hl. split; [exact Hn|]. split; [apply set_parents_rays; auto|auto].
Qed.

Lemma sum_R_app a b : sum_R (a ++ b) = (sum_R a + sum_R b)%R.
Proof. unfold sum_R. induction a; simpl; [lra|rewrite IHa; lra]. Qed.

Lemma energy_from_remap o ps ps' es (f : list nat) j q :
  b_parents o = Some ps -> b_energy o = Some es ->
  NoDup f -> picks f ps ps' -> nth_error f q = Some j ->
  energy_from (set_parents ps' o) j = energy_from o q.
Proof.
  intros Hp He Hf Hk Hq. unfold energy_from. rewrite Hp, He. simpl. rewrite He. f_equal. clear Hp He.
  revert es. induction Hk as [|a b ps ps' Hab Hk IH]; intros [|e es]; simpl; auto.
  assert (E : Nat.eqb b j = Nat.eqb a q).
  { destruct (Nat.eqb_spec b j) as [->|Hn], (Nat.eqb_spec a q) as [->|Hn']; auto.
    - exfalso; apply Hn'. rewrite NoDup_nth_error in Hf. apply Hf.
      + apply nth_error_Some; congruence.
      + congruence.
    - congruence. }
  rewrite E. destruct (Nat.eqb a q); simpl; rewrite IH; auto.
Qed.

(** ** Surfaces and objects *)
Lemma surf_ownership_cons_aux (objs : list obj) : forall k i oi,
  nth_error (concat (map (fun ko => repeat (fst ko) (o_nsurf (snd ko)))
              (combine (seq k (length objs)) objs))) i = Some oi <->
  exists o u, nth_error objs (oi - k) = Some o /\ k <= oi /\
    u = fold_right Nat.add 0 (map o_nsurf (firstn (oi - k) objs)) /\ u <= i < u + o_nsurf o.
Proof.
  induction objs as [|o objs IH]; intros k i oi; simpl.
  - split.
    + destruct i; discriminate.
    + intros (o & u & E & _). destruct (oi - k); discriminate.
  - destruct (Nat.ltb_spec i (o_nsurf o)) as [Hl|Hl].
    + rewrite nth_error_app1 by (rewrite repeat_length; auto).
      rewrite nth_error_repeat_lt by auto. split.
      * intros E; injection E as <-. exists o, 0. rewrite Nat.sub_diag. simpl.
        repeat split; auto; lia.
      * intros (o' & u & E & Hk & Hu & Hi). f_equal.
        destruct (oi - k) as [|m] eqn:Em; [lia|]. simpl in Hu. lia.
    + rewrite nth_error_app2 by (rewrite repeat_length; auto). rewrite repeat_length.
      rewrite IH. split.
      * intros (o' & u & E & Hk & Hu & Hi).
        exists o', (o_nsurf o + u). replace (oi - k) with (S (oi - S k)) by lia. simpl.
        repeat split; auto; try lia.
      * intros (o' & u & E & Hk & Hu & Hi). destruct (oi - k) as [|m] eqn:Em.
        { simpl in *. injection E as <-. lia. }
        simpl in *. exists o', (u - o_nsurf o). replace (oi - S k) with m by lia.
        repeat split; auto; lia.
Qed.

Lemma fold_add_right l a : fold_left Nat.add l a = a + fold_right Nat.add 0 l.
Proof. revert a; induction l; simpl; intros; [lia|rewrite IHl; lia]. Qed.

Lemma surf_ownership_nth objs i oi :
  nth_error (surf_ownership objs) i = Some oi <->
  exists o, nth_error objs oi = Some o /\
    surfs_until objs oi <= i < surfs_until objs oi + o_nsurf o.
Proof.
  unfold surf_ownership, surfs_until. rewrite surf_ownership_cons_aux.
  rewrite Nat.sub_0_r, fold_add_right. simpl. split.
  - intros (o & u & E & _ & -> & H). eauto.
  - intros (o & E & H). exists o. eexists. split; [eauto|]. split; [lia|]. split; [reflexivity|auto].
Qed.

(** Where a contiguous run of [true] sits in a mask, [put_mask] writes the values in order. *)
Lemma nonzero_app a b : nonzero (a ++ b) = nonzero a ++ map (Nat.add (length a)) (nonzero b).
Proof.
  induction a as [|x a IH]; simpl; [rewrite map_id; auto|].
  rewrite !nonzero_cons, IH, map_app, map_map, app_assoc. auto.
Qed.

Lemma nonzero_owner objs oi o :
  nth_error objs oi = Some o ->
  nonzero (map (Nat.eqb oi) (surf_ownership objs)) =
  seq (surfs_until objs oi) (o_nsurf o).
Proof.
  intros Ho.
  assert (P : forall a n lo hi, lo <= hi -> hi <= n ->
     (forall i, i < n -> nth i a false = Nat.leb lo i && Nat.ltb i hi) -> length a = n ->
     nonzero a = seq lo (hi - lo)).
  { intros a n lo hi H1 H2 H3 H4. rewrite nonzero_filter, H4.
    replace n with (lo + (hi - lo) + (n - hi)) by lia. rewrite !seq_app, !filter_app. simpl.
    replace (lo + (hi - lo)) with hi by lia.
    assert (F1 : filter (fun i => nth i a false) (seq 0 lo) = []).
    { rewrite (filter_ext_in _ (fun _ => false)).
      - induction (seq 0 lo); auto.
      - intros i Hi. apply in_seq in Hi. rewrite H3 by lia.
        destruct (Nat.leb_spec lo i); auto; lia. }
    assert (F2 : filter (fun i => nth i a false) (seq lo (hi - lo)) = seq lo (hi - lo)).
    { rewrite (filter_ext_in _ (fun _ => true)).
      - induction (seq lo (hi - lo)); simpl; congruence.
      - intros i Hi. apply in_seq in Hi. rewrite H3 by lia.
        destruct (Nat.leb_spec lo i), (Nat.ltb_spec i hi); auto; lia. }
    assert (F3 : filter (fun i => nth i a false) (seq hi (n - hi)) = []).
    { rewrite (filter_ext_in _ (fun _ => false)).
      - induction (seq hi (n - hi)); auto.
      - intros i Hi. apply in_seq in Hi. rewrite H3 by lia.
        destruct (Nat.leb_spec lo i), (Nat.ltb_spec i hi); auto; lia. }
    rewrite F1, F2, F3, app_nil_r. auto. }
  rewrite (P _ (length (surf_ownership objs)) (surfs_until objs oi) (surfs_until objs oi + o_nsurf o)).
  - f_equal; lia.
  - lia.
  - destruct (Nat.eq_dec (o_nsurf o) 0) as [E|E].
    + rewrite E, Nat.add_0_r. unfold surf_ownership, surfs_until. rewrite fold_add_right. simpl.
      assert (G : forall k, fold_right Nat.add 0 (map o_nsurf objs) =
         length (concat (map (fun ko => repeat (fst ko) (o_nsurf (snd ko))) (combine (seq k (length objs)) objs)))).
      { clear. induction objs as [|o objs IH]; intros k; simpl; auto.
        rewrite app_length, repeat_length, <- IH. auto. }
      rewrite <- G. clear. revert oi. induction objs as [|a objs IH]; intros [|oi]; simpl; try lia.
      specialize (IH oi). lia.
    + assert (nth_error (surf_ownership objs) (surfs_until objs oi + o_nsurf o - 1) = Some oi).
      { apply surf_ownership_nth. exists o. split; auto. lia. }
      assert (surfs_until objs oi + o_nsurf o - 1 < length (surf_ownership objs))
        by (apply nth_error_Some; congruence). lia.
  - intros i Hi. destruct (nth_error (surf_ownership objs) i) as [oj|] eqn:Ej;
      [|apply nth_error_None in Ej; lia].
    assert (E : nth i (map (Nat.eqb oi) (surf_ownership objs)) false = Nat.eqb oi oj).
    { erewrite nth_error_nth; [reflexivity|]. rewrite nth_error_map, Ej. auto. }
    rewrite E. destruct (Nat.eqb_spec oi oj) as [<-|Hn].
    + apply surf_ownership_nth in Ej. destruct Ej as (o' & Eo & Hu). rewrite Ho in Eo. injection Eo as <-.
      symmetry. apply andb_true_intro. split; [apply Nat.leb_le|apply Nat.ltb_lt]; lia.
    + symmetry. apply not_true_iff_false. intros F. apply andb_prop in F. destruct F as (F1 & F2).
      apply Nat.leb_le in F1. apply Nat.ltb_lt in F2. apply Hn.
      assert (nth_error (surf_ownership objs) i = Some oi) by (apply surf_ownership_nth; exists o; split; auto; lia).
      congruence.
  - apply map_length.
Qed.

Lemma relevancy_block_spec objs oi o n next rel :
  nth_error objs oi = Some o ->
  relevancy_block (surf_ownership objs) oi n next = Ok rel ->
  length rel = length (surf_ownership objs) /\
  (forall r, In r rel -> length r = n) /\
  forall i oj, nth_error (surf_ownership objs) i = Some oj ->
    nth_error rel i = if Nat.eqb oi oj then nth_error next (i - surfs_until objs oi)
                      else Some (repeat true n).
Proof.
  intros Ho H. unfold relevancy_block in H.
  destruct (Nat.eqb_spec (length next) (count_true (map (Nat.eqb oi) (surf_ownership objs)))) as [Hc|];
    [|discriminate]. cbn [andb] in H.
  destruct (forallb (fun r => Nat.eqb (length r) n) next) eqn:Hf; [|discriminate].
  injection H as <-. split; [rewrite put_mask_length, repeat_length; auto|].
  assert (Hpt : forall i oj, nth_error (surf_ownership objs) i = Some oj ->
    nth_error (put_mask (map (Nat.eqb oi) (surf_ownership objs))
         (repeat (repeat true n) (length (surf_ownership objs))) next) i
    = if Nat.eqb oi oj then nth_error next (i - surfs_until objs oi) else Some (repeat true n)).
  { intros i oj Ei. assert (Hi : i < length (surf_ownership objs)) by (apply nth_error_Some; congruence).
    destruct (Nat.eqb_spec oi oj) as [<-|Hn].
    - set (m := map (Nat.eqb oi) (surf_ownership objs)) in *.
      pose proof (put_mask_select m (repeat (repeat true n) (length (surf_ownership objs))) next) as Hs.
      rewrite <- Hs at 2; [|unfold m; rewrite map_length, repeat_length; auto|auto].
      rewrite mask_select_nth by (unfold m; rewrite put_mask_length, repeat_length, map_length; auto).
      unfold m. rewrite (nonzero_owner objs oi o Ho).
      apply surf_ownership_nth in Ei. destruct Ei as (o' & Eo & Hu). rewrite Ho in Eo. injection Eo as <-.
      assert (E : nth_error (seq (surfs_until objs oi) (o_nsurf o)) (i - surfs_until objs oi) = Some i).
      { rewrite (nth_error_nth' _ 0) by (rewrite seq_length; lia). rewrite seq_nth by lia. f_equal; lia. }
      rewrite E. auto.
    - rewrite put_mask_other.
      + apply nth_error_repeat_lt; auto.
      + rewrite nth_error_map, Ei. simpl. destruct (Nat.eqb_spec oi oj); congruence. }
  split; auto.
  intros r Hin. apply In_nth_error in Hin. destruct Hin as (i & Ei).
  assert (Hi : i < length (surf_ownership objs)).
  { erewrite <- (repeat_length (repeat true n)), <- put_mask_length. apply nth_error_Some. rewrite Ei. discriminate. }
  destruct (nth_error (surf_ownership objs) i) as [oj|] eqn:Ej; [|apply nth_error_None in Ej; lia].
  rewrite (Hpt i oj Ej) in Ei. destruct (Nat.eqb oi oj).
  - apply nth_error_In in Ei. rewrite forallb_forall in Hf. apply Nat.eqb_eq. apply Hf; auto.
  - injection Ei as <-. apply repeat_length.
Qed.

Lemma filter_sorted (f : nat -> bool) l : StronglySorted lt l -> StronglySorted lt (filter f l).
Proof.
  induction 1 as [|x l Hl IH Hx]; simpl; [constructor|].
  destruct (f x); auto. constructor; auto. rewrite Forall_forall in *. intros y Hy.
  apply filter_In in Hy. apply Hx. tauto.
Qed.
Lemma seq_sorted a n : StronglySorted lt (seq a n).
Proof.
  revert a. induction n as [|n IH]; intros a; simpl; constructor; auto.
  apply Forall_forall. intros y Hy. apply in_seq in Hy. lia.
Qed.
Lemma nonzero_sorted m : StronglySorted lt (nonzero m).
Proof. rewrite nonzero_filter. apply filter_sorted, seq_sorted. Qed.

Lemma picks_sorted (l idx l' : list nat) : picks l idx l' -> StronglySorted lt l -> StronglySorted lt idx -> StronglySorted lt l'.
Proof.
  intros P Sl Si. assert (N : forall a c x y, nth_error l a = Some x -> nth_error l c = Some y -> a < c -> x < y).
  { clear -Sl. induction Sl as [|x l Sl IH F]; intros [|a] [|c] u v Hu Hv Hac; try discriminate; try lia; simpl in *.
    - injection Hu as <-. rewrite Forall_forall in F. apply F. eapply nth_error_In; eauto.
    - apply (IH a c); auto. lia. }
  clear Sl. induction P as [|q j qs js Hq HF IH]; constructor; inversion Si as [|? ? Si' Fi]; subst; auto.
  apply Forall_forall. intros y Hy. apply In_nth_error in Hy. destruct Hy as (a & Hy).
  rewrite Forall2_nth in HF. destruct HF as (Hl & HF).
  destruct (nth_error qs a) as [q'|] eqn:Eq.
  - apply (N q q'); auto. { exact (HF a q' y Eq Hy). } rewrite Forall_forall in Fi. apply Fi. eapply nth_error_In; eauto.
  - apply nth_error_None in Eq. assert (a < length js) by (apply nth_error_Some; congruence). lia.
Qed.

Lemma sorted_NoDup l : StronglySorted lt l -> NoDup l.
Proof.
  induction 1 as [|x l S IH F]; constructor; auto. intros H. rewrite Forall_forall in F. specialize (F x H). lia.
Qed.

Lemma turn_weaken {A G} (P Q : A -> G -> G -> Prop) l g g' : in_turn P l g g' -> (forall x h h', P x h h' -> Q x h h') -> in_turn Q l g g'.
Proof. intros H W. induction H; econstructor; eauto. Qed.

(** ** One surface *)
Section Process.
Context {S G : Type}.
Variable ops : surf_ops S G.
Variable RP : ray_prop.
Variable good : S -> Prop.
Hypothesis contract : surface_contract ops RP good.

(** What surface [i] contributes. *)
Definition emits (b : bundle) (n : nat) (s : S) (T : reports) (i : nat) (f : list bool) (g : G) (k : block) (g1 : G) : Prop :=
  exists hits, StronglySorted lt hits /\ (forall j, In j hits <-> nth_error f j = Some true) /\
    emission ops b n T i s hits g (k_rec k) g1.
Record block_facts (objs : list obj) (me : R) (b : bundle) (n : nat) (s : S) (T : reports) (i : nat)
    (f : list bool) (k : block) : Prop := {
  bf_hit : exists j, nth_error f j = Some true;
  bf_m : exists m, traceable (k_rec k) m;
  bf_rp : all_rays RP (k_rec k);
  bf_set : same_set (k_rec k) b;
  bf_par : b_parents (k_rec k) <> None;
  bf_child : forall q p, parent_at (k_rec k) q = Some p -> exists t v d,
     nth_error f p = Some true /\ T i p = Some (Fin t) /\
     vert_at b p = Some v /\ dir_at b p = Some d /\
     vert_at (k_rec k) q = Some (vadd v (vscale t d));
  bf_all : forall p, nth_error f p = Some true -> exists q, parent_at (k_rec k) q = Some p;
  bf_weak : exists es, b_energy (k_rec k) = Some es /\ k_weak k = map (fun x => Rleb x me) es;
  bf_strong : rays_picked (k_rec k) (nonzero (map negb (k_weak k))) (k_strong k);
  bf_names : names_ok (k_strong k);
  bf_energy : no_energy_made ops RP good -> forall p e,
     nth_error f p = Some true -> energy_at b p = Some e -> (energy_from (k_rec k) p <= e)%R;
  bf_obj : exists oi ob ri owns next,
     nth_error (surf_ownership objs) i = Some oi /\ nth_error objs oi = Some ob /\
     surfs_until objs oi + ri = i /\
     own_rays ob (k_strong k) ri = Ok owns /\
     k_own k = map (fun b : bool => if b then Z.of_nat oi else (-1)%Z) owns /\
     surfaces_for_next ob (k_strong k) ri = Ok next /\
     relevancy_block (surf_ownership objs) oi (length (nonzero (map negb (k_weak k)))) next
       = Ok (k_rel k) }.


Lemma process_surface_facts objs me b n T i s s1 g f ow s2 g2 ob :
  good s -> answers ops b n T i s s1 -> traceable b n -> all_rays RP b ->
  length f = n -> length ow = n ->
  (forall j, nth_error ow j = Some true <-> j < n /\ T i j <> None) ->
  (forall j, nth_error f j = Some true -> exists t, T i j = Some (Fin t)) ->
  process_surface ops objs me i s1 g f ow = Ok (s2, g2, ob) ->
  s2 = s /\
  match ob with
  | None => (forall j, nth_error f j <> Some true) /\ g2 = g
  | Some k => block_facts objs me b n s T i f k /\ emits b n s T i f g k g2
  end.
Proof.
  intros Hg Ha Ht Hall Lf Lo Ho Hf H. unfold process_surface in H.
  assert (Easked : asked T n i = nonzero ow).
  { unfold asked. rewrite nonzero_filter, Lo. apply filter_ext_in. intros j Hj. apply in_seq in Hj.
    destruct (nth_error ow j) as [o|] eqn:E; [|apply nth_error_None in E; lia].
    erewrite nth_error_nth by eauto. destruct (T i j) eqn:ET.
    - assert (nth_error ow j = Some true) by (apply Ho; split; [lia|congruence]). congruence.
    - destruct o; auto. apply Ho in E. destruct E; congruence. }
  assert (Hint : forall q, nth_error (mask_select ow f) q = Some true <->
            exists j, nth_error (nonzero ow) q = Some j /\ nth_error f j = Some true).
  { intros q. rewrite mask_select_nth by congruence. destruct (nth_error (nonzero ow) q) as [j|].
    - split; [eauto|]. intros (j' & E & Hj). congruence.
    - split; [discriminate|]. intros (j' & E & _). discriminate. }
  assert (Hpos : forall j, nth_error f j = Some true -> exists q, nth_error (nonzero ow) q = Some j).
  { intros j Hj. apply In_nth_error. apply nonzero_spec. apply Ho.
    split; [rewrite <- Lf; apply nth_error_Some; congruence|]. destruct (Hf j Hj) as (t & ->). discriminate. }
  destruct (any (mask_select ow f)) eqn:Ea; cbn [negb] in H.
  2:{ injection H as <- <- <-. split.
      - unfold answers in Ha. destruct Ha as [(_ & ->)|(_ & sub & ps & _ & _ & Hreg & _)].
        + apply (sc_done_idle _ _ _ contract); auto.
        + eapply (sc_done_registered _ _ _ contract); eauto.
      - split; auto. intros j Hj. destruct (Hpos j Hj) as (q & Hq).
        assert (E : nth_error (mask_select ow f) q = Some true) by (apply Hint; eauto).
        apply nth_error_In in E. apply any_true in E. congruence. }
  apply bind_ok in H. destruct H as (s3 & Esel & H).
  apply bind_ok in H. destruct H as ([o g1] & Eout & H).
  apply bind_ok in H. destruct H as (ps & Eps & H).
  apply bind_ok in H. destruct H as (parents & Epar & H).
  apply bind_ok in H. destruct H as (es & Ees & H).
  apply bind_ok in H. destruct H as (strong & Estr & H).
  apply bind_ok in H. destruct H as (oi & Eoi & H).
  apply bind_ok in H. destruct H as (obj & Eobj & H).
  apply bind_ok in H. destruct H as (owns & Eown & H).
  apply bind_ok in H. destruct H as (ns & Ens & H).
  apply bind_ok in H. destruct H as (next & Enext & H).
  apply bind_ok in H. destruct H as (rel & Erel & H).
  injection H as <- <- <-.
  assert (Hne : exists j, nth_error f j = Some true).
  { apply any_true in Ea. apply In_nth_error in Ea. destruct Ea as (q & Hq).
    apply Hint in Hq. destruct Hq as (j & _ & Hj). eauto. }
  unfold answers in Ha. destruct Ha as [(E0 & _)|(_ & sub & params & Hsn & Hsub & Hreg & HT)].
  { exfalso. destruct Hne as (j & Hj). destruct (Hpos j Hj) as (q & Hq).
    rewrite Easked in E0. rewrite E0 in Hq. destruct q; discriminate. }
  rewrite Easked in Hsub, HT.
  assert (Htsub : traceable sub (length (nonzero ow))) by exact (picked_traceable b _ sub n Ht Hsn Hsub).
  assert (Hasub : all_rays RP sub) by exact (picked_all RP b _ sub n Ht Htsub Hsub Hall).
  assert (Hidx : forall q, In q (nonzero (mask_select ow f)) <->
     exists j, nth_error (nonzero ow) q = Some j /\ nth_error f j = Some true).
  { intros q. rewrite nonzero_spec. apply Hint. }
  assert (Hpar : forall q j, nth_error (nonzero ow) q = Some j -> nth_error params q = T i j).
  { intros q j Hq. destruct (nth_error params q) as [x|] eqn:Ex.
    - rewrite Forall2_nth in HT. destruct HT as (_ & HT). symmetry. eauto.
    - exfalso. apply nth_error_None in Ex. rewrite <- (Forall2_length _ _ _ HT) in Ex.
      assert (q < length (nonzero ow)) by (apply nth_error_Some; congruence). lia. }
  assert (Hps : forall q, In q (nonzero (mask_select ow f)) -> exists t, nth_error params q = Some (Fin t)).
  { intros q Hq. apply Hidx in Hq. destruct Hq as (j & Hq & Hj). rewrite (Hpar q j Hq). auto. }
  assert (Hidxne : nonzero (mask_select ow f) <> []).
  { destruct Hne as (j & Hj). destruct (Hpos j Hj) as (q & Hq). intros E.
    assert (I0 : In q (nonzero (mask_select ow f))) by (apply Hidx; eauto). rewrite E in I0. destruct I0. }
  destruct (sc_outgoing _ _ _ contract s sub (length (nonzero ow)) s1 params
              (nonzero (mask_select ow f)) s3 g o g1 Hg Htsub Hasub Hreg
              (nonzero_NoDup _) Hidxne Hps Esel Eout) as (m & Hto & Hro & Hso & Hpo & Hch & Hcov).
  split; [eapply (sc_done_selected _ _ _ contract); eauto|].
  unfold get_parents in Eps. destruct (b_parents o) as [ps'|] eqn:Eps'; [|discriminate].
  simpl in Eps. injection Eps as ->.
  assert (Lps : length ps = m).
  { destruct Hto as (_ & (_ & Hr) & _). specialize (Hr Parents (map PNat ps)).
    simpl in Hr. rewrite Eps' in Hr. simpl in Hr. rewrite map_length in Hr. auto. }
  assert (Hpk : picks (nonzero ow) ps parents) by (apply take_ok; auto).
  assert (Lpar : length parents = m) by (rewrite (picks_length _ _ _ Hpk); auto).
  set (rc := set_parents parents o) in *.
  assert (Htr : traceable rc m) by (apply set_parents_traceable; auto).
  unfold get_energy in Ees. destruct (b_energy rc) as [es'|] eqn:Ees'; [|discriminate].
  simpl in Ees. injection Ees as ->.
  set (w := map (fun x => Rleb x me) es) in *.
  assert (Lw : length w = m).
  { unfold w. rewrite map_length. destruct Htr as (_ & (_ & Hr) & _). specialize (Hr Energy (map PReal es)).
    simpl in Hr. unfold rc in Ees'. simpl in Ees'. rewrite Ees' in Hr. simpl in Hr. rewrite map_length in Hr. auto. }
  assert (Hstr : rays_picked rc (nonzero (map negb w)) strong /\ names_ok strong).
  { destruct Htr as (Hnm & Hrr & _). destruct (any w) eqn:Ew.
    - destruct (delete_rays_spec rc m (nonzero w) Hnm Hrr) as (b' & Eb & Hb). split.
      + rewrite Estr in Eb. injection Eb as <-. rewrite <- delete_idx_nonzero, Lw. exact Hb.
      + unfold delete_rays in Estr. rewrite (rays_num _ _ Hrr) in Estr. simpl in Estr.
        eapply inherit_names; [exact Hnm| |exact Estr]. constructor.
    - injection Estr as <-. split; auto. intros p. destruct (prop rc p) as [l|] eqn:Ep; auto.
      exists l. split; auto. rewrite nonzero_all.
      + rewrite map_length, Lw. destruct Hrr as (_ & Hrr). rewrite <- (Hrr _ _ Ep). apply picks_seq.
      + rewrite map_map. rewrite (map_ext (fun x => negb (negb x)) (fun x => x)) by (intros []; auto).
        rewrite map_id; auto. }
  destruct Hstr as (Hstr & Hsnm).
  assert (Hrp : forall q, parent_at rc q = match nth_error ps q with Some p0 => nth_error (nonzero ow) p0 | None => None end).
  { intros q. unfold parent_at, rc. simpl. destruct (nth_error ps q) as [p0|] eqn:E.
    - eapply picks_nth; eauto.
    - apply nth_error_None. apply nth_error_None in E. rewrite (picks_length _ _ _ Hpk). auto. }
  split; [constructor; cbn [k_rec k_strong k_weak k_own k_rel]|].
  - exact Hne.
  - exists m; auto.
  - intros q d e Hd He. apply (Hro q d e); auto.
  - intros p Hp. unfold rc. rewrite set_parents_prop by auto. rewrite (Hso p Hp).
    symmetry. apply (picked_none _ _ _ _ Hsub).
  - discriminate.
  - intros q p Hq. rewrite Hrp in Hq. destruct (nth_error ps q) as [p0|] eqn:Ep0; [|discriminate].
    assert (Hqm : q < m) by (rewrite <- Lps; apply nth_error_Some; congruence).
    destruct (Hch q Hqm) as (p1 & t & v & d & E1 & E2 & E3 & E4 & E5 & E6).
    unfold parent_at in E1. rewrite Eps' in E1. simpl in E1. rewrite Ep0 in E1. injection E1 as <-.
    apply Hidx in E2. destruct E2 as (j & Ej & Hj). rewrite Hq in Ej. injection Ej as <-.
    exists t, v, d. split; auto. split; [rewrite <- (Hpar _ _ Hq); auto|].
    pose proof (picked_same _ _ _ _ _ Hsub Hq) as Hs.
    rewrite <- (same_ray_vert _ _ _ _ Hs), <- (same_ray_dir _ _ _ _ Hs). auto.
  - intros p Hp. destruct (Hpos p Hp) as (q & Hq).
    destruct (Hcov q) as (k & Hk & Ek); [apply Hidx; eauto|].
    exists k. rewrite Hrp. unfold parent_at in Ek. rewrite Eps' in Ek. simpl in Ek. rewrite Ek. auto.
  - exists es. auto.
  - exact Hstr.
  - exact Hsnm.
  - intros Hem p e Hp He. destruct (Hpos p Hp) as (q & Hq).
    unfold rc. rewrite (energy_from_remap o ps parents es (nonzero ow) p q); auto using nonzero_NoDup.
    apply (Hem s sub (length (nonzero ow)) s1 params (nonzero (mask_select ow f)) s3 g o g1
             Hg Htsub Hasub Hreg (nonzero_NoDup _) Hidxne Hps Esel Eout q e).
    + apply Hidx; eauto.
    + pose proof (picked_same _ _ _ _ _ Hsub Hq) as Hs. rewrite (same_ray_energy _ _ _ _ Hs). auto.
  - unfold take1 in Eoi, Eobj. destruct (nth_error (surf_ownership objs) i) as [oi'|] eqn:Eoi'; [|discriminate].
    injection Eoi as ->. destruct (nth_error objs oi) as [ob'|] eqn:Eob'; [|discriminate].
    injection Eobj as ->.
    exists oi, obj, (i - surfs_until objs oi), owns, next.
    split; auto. split; auto. split.
    { apply surf_ownership_nth in Eoi'. destruct Eoi' as (o' & _ & Hu). lia. }
    split; auto. split; auto. split; auto.
    destruct Htr as (_ & Hrr & _). pose proof (picked_rays _ _ _ _ Hrr Hstr) as Hsr.
    rewrite (rays_num _ _ Hsr) in Ens. injection Ens as ->. exact Erel.
  - destruct (take_total (nonzero ow) (nonzero (mask_select ow f))) as (hits & Eh).
    { apply Forall_forall. intros q Hq. apply Hidx in Hq. destruct Hq as (j & Hq & _).
      apply nth_error_Some. congruence. }
    apply take_ok in Eh. exists hits. split.
    { exact (picks_sorted _ _ _ Eh (nonzero_sorted _) (nonzero_sorted _)). }
    split.
    { intros j. split.
      - intros Hin. apply In_nth_error in Hin. destruct Hin as (a & Eav).
        rewrite Forall2_nth in Eh. destruct Eh as (Hl & HF).
        destruct (nth_error (nonzero (mask_select ow f)) a) as [q|] eqn:Eq.
        + specialize (HF a q j Eq Eav). apply nth_error_In in Eq. apply Hidx in Eq.
          destruct Eq as (j' & E1 & E2). congruence.
        + apply nth_error_None in Eq. assert (a < length hits) by (apply nth_error_Some; congruence). lia.
      - intros Hj. destruct (Hpos j Hj) as (q & Hq).
        assert (Hin : In q (nonzero (mask_select ow f))) by (apply Hidx; eauto).
        apply In_nth_error in Hin. destruct Hin as (a & Eav).
        pose proof (picks_nth _ _ _ _ _ Eh Eav) as E. rewrite Hq in E. eapply nth_error_In; eauto. }
    exists sub, params, s1, (nonzero (mask_select ow f)), s3, o, ps, parents.
    rewrite Easked. do 7 (split; auto).
    split; [intros p Hp; apply set_parents_prop; auto|]. auto.
Qed.

(** All surfaces. *)
Lemma process_surfaces_facts objs me b n T : traceable b n -> all_rays RP b ->
  forall (surfs0 surfs : list S) frs owneds i g ss g2 blocks,
  process_surfaces ops objs me i surfs g frs owneds = Ok (ss, g2, blocks) ->
  (forall k s, nth_error surfs0 k = Some s -> good s /\ exists s1 f ow,
     nth_error surfs k = Some s1 /\ nth_error frs k = Some f /\ nth_error owneds k = Some ow /\
     answers ops b n T (i + k) s s1 /\ length f = n /\ length ow = n /\
     (forall j, nth_error ow j = Some true <-> j < n /\ T (i + k) j <> None) /\
     (forall j, nth_error f j = Some true -> exists t, T (i + k) j = Some (Fin t))) ->
  length surfs = length surfs0 ->
  ss = surfs0 /\
  exists ibs : list (nat * block), blocks = map snd ibs /\ StronglySorted lt (map fst ibs) /\
    (forall a, In a ibs -> exists k f s, fst a = i + k /\ nth_error surfs0 k = Some s /\
       nth_error frs k = Some f /\ block_facts objs me b n s T (fst a) f (snd a)) /\
    (forall k f j, nth_error frs k = Some f -> k < length surfs0 -> nth_error f j = Some true ->
       In (i + k) (map fst ibs)) /\
    in_turn (fun a h h' => exists k f s, fst a = i + k /\ nth_error surfs0 k = Some s /\
       nth_error frs k = Some f /\ emits b n s T (fst a) f h (snd a) h') ibs g g2.
Proof.
  intros Ht Hall. induction surfs0 as [|s0 surfs0 IH]; intros surfs frs owneds i g ss g2 blocks H Hk Hl.
  - destruct surfs; [|discriminate]. simpl in H. injection H as <- <- <-. split; auto.
    exists []. split; auto. split; [constructor|]. split; [intros a []|]. split; [|constructor].
    intros k f j _ Hk0. simpl in Hk0. lia.
  - destruct surfs as [|s1 surfs]; [discriminate|]. simpl in H.
    destruct (Hk 0 s0 eq_refl) as (Hg & s1' & f & ow & E1 & E2 & E3 & Ha & Lf & Lo & Ho & Hf).
    simpl in E1. injection E1 as <-. destruct frs as [|f' frs]; [discriminate|]. destruct owneds as [|ow' owneds]; [discriminate|].
    simpl in E2, E3. injection E2 as ->. injection E3 as ->. rewrite Nat.add_0_r in *.
    apply bind_ok in H. destruct H as ([[s2 g1] ob] & Ep & H).
    apply bind_ok in H. destruct H as ([[ss' g2'] ks] & Eps & H). injection H as <- <- <-.
    destruct (process_surface_facts _ _ _ _ _ _ _ _ _ _ _ _ _ _ Hg Ha Ht Hall Lf Lo Ho Hf Ep) as (-> & Hb).
    destruct (IH surfs frs owneds (Datatypes.S i) g1 ss' g2' ks Eps) as (-> & ibs & -> & Hnd & Hib & Hcov & Hturn).
    { intros k s Hs. destruct (Hk (Datatypes.S k) s Hs) as (Hg' & s' & f0 & ow0 & A1 & A2 & A3 & A4).
      split; auto. exists s', f0, ow0. rewrite <- plus_n_Sm in A4. simpl in *. auto. }
    { simpl in Hl; lia. }
    split; auto.
    assert (Hfst : forall x, In x (map fst ibs) -> i < x).
    { intros x Hx. apply in_map_iff in Hx. destruct Hx as (a & <- & Hin). destruct (Hib a Hin) as (k & f0 & sk & E & _). lia. }
    assert (Hturn' : in_turn (fun a h h' => exists k f0 s, fst a = i + k /\ nth_error (s0 :: surfs0) k = Some s /\
       nth_error (f :: frs) k = Some f0 /\ emits b n s T (fst a) f0 h (snd a) h') ibs g1 g2').
    { apply (turn_weaken _ _ _ _ _ Hturn). intros a h h' (k & f0 & s & E & R). exists (Datatypes.S k), f0, s.
      split; [lia|exact R]. }
    destruct ob as [k0|].
    + destruct Hb as (Hb & Hem). exists ((i, k0) :: ibs). split; auto. split.
      { simpl. constructor; auto. apply Forall_forall. intros x Hx. apply Hfst in Hx. lia. }
      split; [|split; [|apply turn_next with g1; auto; exists 0, f, s0; simpl; rewrite Nat.add_0_r; auto]].
      * intros a [<-|Hin].
        -- exists 0, f, s0. simpl. rewrite Nat.add_0_r. auto.
        -- destruct (Hib a Hin) as (k & f0 & sk & E & Hk' & Ef & Hbf). exists (Datatypes.S k), f0, sk.
           simpl. split; [lia|]. auto.
      * intros [|k] f0 j E Hl0 Hj; simpl in *; [left; lia|].
        right. rewrite <- plus_n_Sm. apply (Hcov k f0 j); auto. lia.
    + destruct Hb as (Hb & ->). exists ibs. split; auto. split; auto. split; [|split; [|exact Hturn']].
      * intros a Hin. destruct (Hib a Hin) as (k & f0 & sk & E & Hk' & Ef & Hbf). exists (Datatypes.S k), f0, sk.
        simpl. split; [lia|]. auto.
      * intros [|k] f0 j E Hl0 Hj; simpl in *.
        -- injection E as <-. exfalso. eapply Hb; eauto.
        -- rewrite <- plus_n_Sm. apply (Hcov k f0 j); auto. lia.
Qed.

End Process.
