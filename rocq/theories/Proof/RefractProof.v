(** What refracting surfaces emit. *)
From Coq Require Import Reals String List Arith Bool Lia Lra.
From Verif.Base Require Import Py Num Vec.
From Verif.Model Require Import RayBundle Geometry Spatial Sources Optics OpticsCallables.
From Verif.Spec Require Import BundleSpec EngineSpec GeometrySpec OpticsSpec.
From Verif.Proof Require Import ListLemmas NumLemmas VecLemmas BundleProof SelectProof GeomTop OpticsProof CallProof.
Import ListNotations.
Local Open Scope R_scope.

Lemma map3_map {K A B C D} (f : A -> B -> C -> D) (a : K -> A) (b : K -> B) (c : K -> C) l :
  map3 f (map a l) (map b l) (map c l) = map (fun k => f (a k) (b k) (c k)) l.
Proof. induction l; simpl; congruence. Qed.

Lemma mask_map {K A} (c : K -> bool) (f : K -> A) l :
  mask_select (map c l) (map f l) = map f (filter c l).
Proof. rewrite mask_select_map, mask_select_filter. auto. Qed.

Lemma combine_map {K A B} (f : K -> A) (g : K -> B) l :
  combine (map f l) (map g l) = map (fun k => (f k, g k)) l.
Proof. induction l; simpl; congruence. Qed.

(** *** [refractions] over arrays *)
Section Rows.
Variable K : Type.
Variables (fa fb : K -> R) (fd fn : K -> vec).
Definition ok_row (k : K) : bool := is_refracted (fb k / fa k) (fd k) (fn k).
Definition dir_row (k : K) : vec :=
  match refracted_dir (fb k / fa k) (fd k) (fn k) with Ok d => d | Err _ => vzero end.
Definition fres_row (k : K) : R :=
  match fresnel (fd k) (fn k) (fa k) (fb k) with Ok r => r | Err _ => 0 end.

Definition lawful (k : K) : Prop :=
  0 < fa k /\ 0 < fb k /\ is_unit (fd k) /\ is_unit (fn k).

Lemma dir_row_ok k : lawful k -> ok_row k = true ->
  refracted_dir (fb k / fa k) (fd k) (fn k) = Ok (dir_row k) /\ snell (fa k) (fb k) (fn k) (fd k) (dir_row k).
Proof.
  intros (A & B & D & N) O. unfold dir_row.
  destruct (refracted_snell (fa k) (fb k) (fd k) (fn k) A B D N O) as (d' & -> & S & _). auto.
Qed.

Lemma refractions_rows ks : (forall k, In k ks -> lawful k) ->
  refractions (map fa ks) (map fb ks) (map fd ks) (map fn ks) =
  Ok (map ok_row ks, map dir_row (filter ok_row ks)).
Proof.
  intros H. unfold refractions. rewrite !same_len_map. cbn [negb andb].
  rewrite map2_map.
  assert (E : sequence (map (fun k => np_div (fb k) (fa k)) ks) = Ok (map (fun k => fb k / fa k) ks)).
  { apply (mapM_total (fun k => np_div (fb k) (fa k))). intros k Hk. apply np_div_ok.
    destruct (H k Hk). lra. }
  rewrite E. cbn [bind].
  change (map3 is_refracted) with (map3 is_refracted). rewrite map3_map.
  change (map (fun k : K => is_refracted (fb k / fa k) (fd k) (fn k)) ks) with (map ok_row ks).
  rewrite !mask_map, map3_map.
  assert (E2 : sequence (map (fun k => refracted_dir (fb k / fa k) (fd k) (fn k)) (filter ok_row ks))
               = Ok (map dir_row (filter ok_row ks))).
  { apply (mapM_total (fun k => refracted_dir (fb k / fa k) (fd k) (fn k))). intros k Hk.
    apply filter_In in Hk as (Hk & Ok_k). apply dir_row_ok; auto. }
  rewrite E2. reflexivity.
Qed.

Lemma fresnel_rows ks : (forall k, In k ks -> lawful k) ->
  (forall k, In k ks -> ok_row k = true -> reflectance_defined (fa k) (fb k) (fd k) (fn k)) ->
  (forall k, In k ks -> ok_row k = true -> reflectance (fa k) (fb k) (fd k) (fn k) (fres_row k)) /\
  sequence (map (fun k => fresnel (fd k) (fn k) (fa k) (fb k)) (filter ok_row ks))
    = Ok (map fres_row (filter ok_row ks)).
Proof.
  intros H Hd.
  assert (A : forall k, In k ks -> ok_row k = true ->
    fresnel (fd k) (fn k) (fa k) (fb k) = Ok (fres_row k) /\ reflectance (fa k) (fb k) (fd k) (fn k) (fres_row k)).
  { intros k Hk O. destruct (H k Hk) as (A & B & D & N).
    destruct (fresnel_lawful (fa k) (fb k) (fd k) (fn k) A B D N) as (r & E & R); auto.
    - apply can_refract_iff; auto.
    - unfold fres_row. rewrite E. auto. }
  split; [intros; apply A; auto|].
  apply (mapM_total (fun k => fresnel (fd k) (fn k) (fa k) (fb k))). intros k Hk.
  apply filter_In in Hk as (Hk & O). apply A; auto.
Qed.
End Rows.

Lemma zip4 (al bl : list R) (dl nl : list vec) :
  length bl = length al -> length dl = length al -> length nl = length al ->
  exists ks : list (R * R * vec * vec),
    al = map (fun k => fst (fst (fst k))) ks /\ bl = map (fun k => snd (fst (fst k))) ks /\
    dl = map (fun k => snd (fst k)) ks /\ nl = map snd ks.
Proof.
  revert bl dl nl; induction al as [|a al IH]; intros [|b bl] [|d dl] [|m nl] H1 H2 H3; try discriminate.
  - exists []. auto.
  - destruct (IH bl dl nl) as (ks & -> & -> & -> & ->); try (simpl in *; lia).
    exists ((a, b, d, m) :: ks). auto.
Qed.

Lemma filter_nonzero {K} (c : K -> bool) ks :
  Forall2 (fun i k => nth_error ks i = Some k) (nonzero (map c ks)) (filter c ks).
Proof.
  assert (T : take ks (nonzero (map c ks)) = Ok (filter c ks)).
  { rewrite mask_select_take by apply map_length. rewrite mask_select_filter. auto. }
  apply take_ok in T. exact T.
Qed.

(** [refractions] for equally long arrays of unit vectors and positive indices. *)
Lemma refractions_spec n1 n2 ds ns :
  length n2 = length n1 -> length ds = length n1 -> length ns = length n1 ->
  Forall (Rlt 0) n1 -> Forall (Rlt 0) n2 -> Forall is_unit ds -> Forall is_unit ns ->
  exists mask dirs, refractions n1 n2 ds ns = Ok (mask, dirs) /\ length mask = length n1 /\
    (forall i a b d n, nth_error n1 i = Some a -> nth_error n2 i = Some b ->
       nth_error ds i = Some d -> nth_error ns i = Some n ->
       (nth_error mask i = Some true <-> can_refract a b d n)) /\
    Forall2 (fun i d' => exists a b d n, nth_error n1 i = Some a /\ nth_error n2 i = Some b /\
       nth_error ds i = Some d /\ nth_error ns i = Some n /\ snell a b n d d') (nonzero mask) dirs.
Proof.
  intros L2 Ld Ln P1 P2 Ud Un. destruct (zip4 n1 n2 ds ns L2 Ld Ln) as (ks & -> & -> & -> & ->).
  set (fa := fun k : R * R * vec * vec => fst (fst (fst k))) in *.
  set (fb := fun k : R * R * vec * vec => snd (fst (fst k))) in *.
  set (fd := fun k : R * R * vec * vec => snd (fst k)) in *.
  set (fn := @snd (R * R * vec) vec) in *.
  rewrite Forall_forall in *.
  assert (H : forall k, In k ks -> lawful _ fa fb fd fn k).
  { intros k Hk. repeat split; [apply P1|apply P2|apply Ud|apply Un]; apply in_map; auto. }
  eexists; eexists. split; [apply refractions_rows; exact H|]. split; [rewrite !map_length; auto|]. split.
  - intros i a b d n Ha Hb Hd Hn. apply nth_map_iff in Ha as (k & Hk & ->).
    rewrite nth_error_map, Hk in Hb, Hd, Hn. cbn [option_map] in *.
    injection Hb as <-. injection Hd as <-. injection Hn as <-.
    rewrite nth_error_map, Hk. cbn [option_map].
    destruct (H k (nth_error_In _ _ Hk)) as (A & B & D & N).
    rewrite <- (can_refract_iff _ _ _ _ A B D N). unfold ok_row. split; congruence.
  - apply GeomTop.Forall2_map_r.
    pose proof (filter_nonzero (ok_row _ fa fb fd fn) ks) as F.
    assert (G : Forall (fun k => ok_row _ fa fb fd fn k = true) (filter (ok_row _ fa fb fd fn) ks)).
    { apply Forall_forall. intros k Hk. apply filter_In in Hk. tauto. }
    revert G. induction F as [|i k il kl Hik F IH]; intros G; constructor.
    + inversion G; subst. exists (fa k), (fb k), (fd k), (fn k).
      repeat split; try (apply map_nth_error; auto).
      all: destruct (dir_row_ok _ fa fb fd fn k (H k (nth_error_In _ _ Hik)) H2) as (_ & S); apply S.
    + inversion G; auto.
Qed.

(** *** Sums of bundles *)
Lemma at_col_add_l {A} (x y : option (list A)) la lb k : x = Some la -> y = Some lb ->
  (k < length la)%nat -> at_col (add_prop x y) k = at_col x k.
Proof. intros -> -> H. simpl. apply nth_error_app1; auto. Qed.
Lemma at_col_add_r {A} (x y : option (list A)) la lb k : x = Some la -> y = Some lb ->
  at_col (add_prop x y) (length la + k) = at_col y k.
Proof. intros -> -> . simpl. rewrite nth_error_app2 by lia. f_equal. lia. Qed.

Lemma traceable_parents o m : traceable o m -> b_parents o <> None ->
  exists l, b_parents o = Some l /\ length l = m.
Proof.
  intros (_ & Hr & _) Hp. destruct (b_parents o) as [l|] eqn:E; [|congruence]. exists l. split; auto.
  pose proof (proj2 Hr Parents (map PNat l)) as Q. simpl in Q. rewrite E, map_length in Q. auto.
Qed.

Lemma child_add_l b o o' m m' k i p d e n : traceable o m -> traceable o' m' -> same_set o b -> same_set o' b ->
  b_parents o <> None -> b_parents o' <> None -> (k < m)%nat ->
  child b o k i p d e n -> child b (add_bundles o o') k i p d e n.
Proof.
  intros T T' S S' P P' Hk C. destruct (traceable_parts _ _ T) as (vs & ds & es & Ev & Ed & Ee & Lv & Ld & Le).
  destruct (traceable_parts _ _ T') as (vs' & ds' & es' & Ev' & Ed' & Ee' & Lv' & Ld' & Le').
  destruct (traceable_parents _ _ T P) as (pl & Ep & Lp). destruct (traceable_parents _ _ T' P') as (pl' & Ep' & Lp').
  destruct C as [C1 C2 C3 C4 C5 C6]. constructor.
  - unfold vert_at in *. cbn [add_bundles b_vert]. rewrite (at_col_add_l _ _ _ _ _ Ev Ev'); auto; lia.
  - unfold dir_at in *. cbn [add_bundles b_dir]. rewrite (at_col_add_l _ _ _ _ _ Ed Ed'); auto; lia.
  - unfold energy_at in *. cbn [add_bundles b_energy]. rewrite (at_col_add_l _ _ _ _ _ Ee Ee'); auto; lia.
  - unfold parent_at in *. cbn [add_bundles b_parents]. rewrite (at_col_add_l _ _ _ _ _ Ep Ep'); auto; lia.
  - unfold ref_at in *. cbn [add_bundles b_ref].
    destruct (b_ref o) as [rl|] eqn:Er.
    + destruct (b_ref o') as [rl'|] eqn:Er'.
      * pose proof (traceable_ref _ _ _ T Er). rewrite (at_col_add_l (Some rl) (Some rl') rl rl'); auto; lia.
      * exfalso. pose proof (S RefIndex ltac:(discriminate)) as Q. pose proof (S' RefIndex ltac:(discriminate)) as Q'.
        simpl in Q, Q'. rewrite Er in Q. rewrite Er' in Q'. simpl in *.
        assert (option_map (map PReal) (b_ref b) = None) by tauto. apply Q in H. discriminate.
    + simpl in *. auto.
  - intros x. specialize (C6 x). rewrite add_bundles_prop by apply T.
    pose proof (S' (Extra x) ltac:(discriminate)) as Q'.
    destruct (prop b (Extra x)) as [l|].
    + destruct C6 as (l' & Eo & E). pose proof (proj2 (proj1 (proj2 T)) _ _ Eo) as Ll. rewrite Eo.
      destruct (prop o' (Extra x)) as [l''|] eqn:E'.
      * eexists. split; [reflexivity|]. rewrite nth_error_app1 by lia. auto.
      * exfalso. assert (@Some (list pval) l = None) by tauto. discriminate.
    + rewrite C6. auto.
Qed.

Lemma child_add_r b o o' m m' k i p d e n : traceable o m -> traceable o' m' -> same_set o b -> same_set o' b ->
  b_parents o <> None -> b_parents o' <> None ->
  child b o' k i p d e n -> child b (add_bundles o o') (m + k) i p d e n.
Proof.
  intros T T' S S' P P' C. destruct (traceable_parts _ _ T) as (vs & ds & es & Ev & Ed & Ee & Lv & Ld & Le).
  destruct (traceable_parts _ _ T') as (vs' & ds' & es' & Ev' & Ed' & Ee' & Lv' & Ld' & Le').
  destruct (traceable_parents _ _ T P) as (pl & Ep & Lp). destruct (traceable_parents _ _ T' P') as (pl' & Ep' & Lp').
  destruct C as [C1 C2 C3 C4 C5 C6]. constructor.
  - unfold vert_at in *. cbn [add_bundles b_vert]. rewrite <- Lv, (at_col_add_r _ _ _ _ _ Ev Ev'); auto.
  - unfold dir_at in *. cbn [add_bundles b_dir]. rewrite <- Ld, (at_col_add_r _ _ _ _ _ Ed Ed'); auto.
  - unfold energy_at in *. cbn [add_bundles b_energy]. rewrite <- Le, (at_col_add_r _ _ _ _ _ Ee Ee'); auto.
  - unfold parent_at in *. cbn [add_bundles b_parents]. rewrite <- Lp, (at_col_add_r _ _ _ _ _ Ep Ep'); auto.
  - unfold ref_at in *. cbn [add_bundles b_ref].
    destruct (b_ref o) as [rl|] eqn:Er.
    + destruct (b_ref o') as [rl'|] eqn:Er'.
      * pose proof (traceable_ref _ _ _ T Er) as Lr. rewrite <- Lr, (at_col_add_r (Some rl) (Some rl') rl rl'); auto.
      * simpl in *. auto.
    + destruct (b_ref o') as [rl'|] eqn:Er'; [|simpl in *; auto].
      exfalso. pose proof (S RefIndex ltac:(discriminate)) as Q. pose proof (S' RefIndex ltac:(discriminate)) as Q'.
      simpl in Q, Q'. rewrite Er in Q. rewrite Er' in Q'. simpl in *.
      assert (option_map (map PReal) (b_ref b) = None) by tauto. apply Q' in H. discriminate.
  - intros x. specialize (C6 x). rewrite add_bundles_prop by apply T.
    pose proof (S (Extra x) ltac:(discriminate)) as Q.
    destruct (prop b (Extra x)) as [l|].
    + destruct C6 as (l' & Eo & E). rewrite Eo.
      destruct (prop o (Extra x)) as [l''|] eqn:E'.
      * eexists. split; [reflexivity|]. pose proof (proj2 (proj1 (proj2 T)) _ _ E') as Ll.
        rewrite nth_error_app2 by lia. rewrite <- E. f_equal. lia.
      * exfalso. assert (@Some (list pval) l = None) by tauto. discriminate.
    + rewrite C6. destruct (prop o (Extra x)); auto.
Qed.

Lemma traceable_add o o' m m' : traceable o m -> traceable o' m' -> traceable (add_bundles o o') (m + m').
Proof.
  intros T T'. destruct (traceable_parts _ _ T) as (vs & ds & es & Ev & Ed & Ee & _).
  destruct (traceable_parts _ _ T') as (vs' & ds' & es' & Ev' & Ed' & Ee' & _).
  repeat split.
  - apply add_bundles_names. apply T.
  - apply (add_rays o o' m m'); [apply T|apply T|apply T'].
  - apply (add_rays o o' m m'); [apply T|apply T|apply T'].
  - cbn [add_bundles b_dir]. rewrite Ed, Ed'. discriminate.
  - cbn [add_bundles b_energy]. rewrite Ee, Ee'. discriminate.
Qed.

Lemma same_set_add o o' b : names_ok o -> same_set o b -> same_set o' b -> same_set (add_bundles o o') b.
Proof.
  intros N S S' p Hp. rewrite add_bundles_prop by auto. specialize (S p Hp). specialize (S' p Hp).
  destruct (prop o p), (prop o' p); split; intros; try discriminate; try tauto.
  - assert (@Some (list pval) l = None) by tauto. discriminate.
Qed.

(** *** Refractive surfaces *)
Section Refract.
Variables i1 i2 : R.
Definition other (r : row) : R := if Reqb (w_r r) i1 then i2 else i1.
Definition refracts : row -> bool := ok_row row w_r other w_d w_n.
Definition out_dir : row -> vec := dir_row row w_r other w_d w_n.
Definition fraction (r : row) : R := if refracts r then fres_row row w_r other w_d w_n r else 1.

Lemma refractive_emits gs b n ks z : 0 < i1 -> 0 < i2 -> traceable b n -> has_rows b ks ->
  told gs (map w_p ks) (map w_n ks) z -> ks <> [] -> b_ref b <> None ->
  (forall r, In r ks -> 0 < w_r r /\ is_unit (w_d r) /\ is_unit (w_n r)) ->
  (forall r, In r ks -> can_refract (w_r r) (other r) (w_d r) (w_n r) ->
             reflectance_defined (w_r r) (other r) (w_d r) (w_n r)) ->
  (forall r, In r ks ->
     (refracts r = true <-> can_refract (w_r r) (other r) (w_d r) (w_n r)) /\
     (refracts r = true -> snell (w_r r) (other r) (w_n r) (w_d r) (out_dir r) /\
                           reflectance (w_r r) (other r) (w_d r) (w_n r) (fraction r))) /\
  exists o, call_refractive i1 i2 gs b (map w_i ks) = Ok o /\
    traceable o (length ks + length (filter refracts ks)) /\ same_set o b /\
    b_parents o = Some (map w_i ks ++ map w_i (filter refracts ks)) /\
    b_energy o = Some (map (fun r => w_e r * fraction r) ks ++
                       map (fun r => w_e r * (1 - fraction r)) (filter refracts ks)) /\
    (forall k r, nth_error ks k = Some r ->
      child b o k (w_i r) (w_p r) (reflection (w_d r) (w_n r)) (w_e r * fraction r) (Some (w_r r))) /\
    (forall k r, nth_error (filter refracts ks) k = Some r ->
      child b o (length ks + k) (w_i r) (w_p r) (out_dir r) (w_e r * (1 - fraction r)) (Some (other r))).
Proof.
  intros P1 P2 T H G Ne Hr Hl Hd. pose proof G as (Gp & Gn & Gz & _). pose proof T as (_ & _ & Hdir & He).
  assert (L : forall r, In r ks -> lawful _ w_r other w_d w_n r).
  { intros r Hr'. destruct (Hl r Hr') as (A & B & C). repeat split; auto. unfold other. rdec; auto. }
  assert (CR : forall r, In r ks -> (refracts r = true <-> can_refract (w_r r) (other r) (w_d r) (w_n r))).
  { intros r Hr'. destruct (L r Hr') as (A & B & D & N). apply can_refract_iff; auto. }
  destruct (fresnel_rows _ w_r other w_d w_n ks L) as (FR & FS).
  { intros r Hr' O. apply Hd; auto. apply CR; auto. }
  split.
  { intros r Hr'. split; [apply CR; auto|]. intros O. split.
    - apply (dir_row_ok _ w_r other w_d w_n r (L r Hr') O).
    - unfold fraction. rewrite O. apply FR; auto. }
  destruct (rows_dirs b ks H Hdir) as (ds & Eds & Td). destruct (rows_energy b ks H He) as (es & Ees & Te).
  destruct (rows_ref b ks H Hr) as (rs & Ers & Tr).
  assert (Rf : forall r, In r ks -> ref_at b (w_i r) = Some (w_r r)) by (intros; apply (hr_ref _ _ H); auto).
  assert (Call : call_refractive i1 i2 gs b (map w_i ks) =
    if negb (any (map refracts ks)) then call_reflective 0 gs b (map w_i ks) else
    reflected <- inherit b (SIdx (map w_i ks))
      (mkB (Some (map w_p ks)) (Some (map (fun r => reflection (w_d r) (w_n r)) ks))
           (Some (map (fun r => w_e r * fraction r) ks)) (Some (map w_i ks)) None []) ;;
    refracted <- inherit b (SIdx (map w_i (filter refracts ks)))
      (mkB (Some (map w_p (filter refracts ks))) (Some (map out_dir (filter refracts ks)))
           (Some (map (fun r => w_e r * (1 - fraction r)) (filter refracts ks)))
           (Some (map w_i (filter refracts ks))) (Some (map other (filter refracts ks))) []) ;;
    Ok (add_bundles reflected refracted)).
  { unfold call_refractive. rewrite map_length. destruct (Nat.eqb_spec (length ks) 0) as [E|_].
    { destruct ks; [congruence|discriminate]. }
    rewrite Ers. cbn [bind]. rewrite Tr. cbn [bind]. rewrite Eds. cbn [bind]. rewrite Td. cbn [bind].
    rewrite Gn. cbn [bind]. unfold toggle_ref_idx. rewrite map_map.
    change (map (fun x : row => if Reqb (w_r x) i1 then i2 else i1) ks) with (map other ks).
    rewrite (refractions_rows _ w_r other w_d w_n ks L). cbn [bind].
    change (ok_row row w_r other w_d w_n) with refracts in *.
    change (dir_row row w_r other w_d w_n) with out_dir in *.
    destruct (any (map refracts ks)) eqn:A; cbn [negb]; [|reflexivity].
    rewrite !mask_map, combine_map, map3_map. cbn [fst snd]. rewrite FS. cbn [bind].
    rewrite Gp. cbn [bind]. rewrite same_len_map. cbn [negb]. rewrite Ees. cbn [bind]. rewrite Te. cbn [bind].
    assert (Er : put_mask (map refracts ks) (repeat 1 (length ks))
                   (map (fres_row row w_r other w_d w_n) (filter refracts ks)) = map fraction ks).
    { assert (Rp : repeat 1 (length ks) = map (fun _ : row => 1) ks) by (clear; induction ks; simpl; congruence).
      rewrite Rp, <- (mask_select_filter refracts ks).
      rewrite (put_mask_pointwise refracts (fres_row row w_r other w_d w_n) (fun _ => 1) ks). reflexivity. }
    rewrite Er, !mask_map, !map2_map. reflexivity. }
  destruct (any (map refracts ks)) eqn:A; cbn [negb] in Call.
  - destruct (emit b n ks w_p (fun r => reflection (w_d r) (w_n r)) (fun r => w_e r * fraction r) None T H)
      as (o & Eo & To & So & Po & Eno & Ch); [congruence|].
    assert (H' : has_rows b (filter refracts ks)).
    { destruct H as [h1 h2 h3]. constructor; intros; [apply h1|apply h2|apply h3]; auto;
        try (apply filter_In in H; apply H); apply filter_In in H0; apply H0. }
    destruct (emit b n (filter refracts ks) w_p out_dir (fun r => w_e r * (1 - fraction r)) (Some other) T H')
      as (o' & Eo' & To' & So' & Po' & Eno' & Ch'); [auto|].
    exists (add_bundles o o'). cbn [option_map] in Eo, Eo'. rewrite Eo in Call. cbn [bind] in Call.
    rewrite Eo' in Call. cbn [bind] in Call. split; [exact Call|].
    split; [apply traceable_add; auto|]. split; [apply same_set_add; auto; apply To|].
    split; [cbn [add_bundles b_parents]; rewrite Po, Po'; reflexivity|].
    split; [cbn [add_bundles b_energy]; rewrite Eno, Eno'; reflexivity|]. split.
    + intros k r Hk. rewrite <- (Rf r (nth_error_In _ _ Hk)).
      apply (child_add_l _ _ _ _ _ _ _ _ _ _ _ To To' So So'); try congruence.
      * apply nth_error_Some; congruence.
      * apply Ch; auto.
    + intros k r Hk. apply (child_add_r _ _ _ _ _ _ _ _ _ _ _ To To' So So'); try congruence.
      apply Ch'; auto.
  - assert (F : filter refracts ks = []).
    { apply any_false_nonzero in A. pose proof (filter_nonzero refracts ks) as F. rewrite A in F. inversion F; auto. }
    assert (Fr : forall r, In r ks -> fraction r = 1).
    { intros r Hr'. unfold fraction. destruct (refracts r) eqn:E; auto. exfalso.
      assert (In r (filter refracts ks)) by (apply filter_In; auto). rewrite F in H0. destruct H0. }
    destruct (reflective_emits 0 gs b n ks z T H G) as (o & Ec & _ & To & So & Po & Eno & Ch).
    exists o. rewrite F. cbn [map length]. rewrite Nat.add_0_r, !app_nil_r.
    split; [congruence|]. split; auto. split; auto. split; auto. split.
    { rewrite Eno. f_equal. apply map_ext_in. intros r Hr'. rewrite Fr by auto. ring. }
    split.
    + intros k r Hk. pose proof (nth_error_In _ _ Hk) as Hi. rewrite (Fr r Hi), <- (Rf r Hi).
      replace (w_e r * 1) with (w_e r * (1 - 0)) by ring. apply Ch; auto.
    + intros [|k] r Hk; discriminate.
Qed.
End Refract.
