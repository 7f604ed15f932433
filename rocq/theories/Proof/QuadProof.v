(** Quadric geometry managers: from array operations to one ray at a time. *)
From Coq Require Import Reals List Arith Bool Lra Lia Psatz.
From Verif.Base Require Import Py Num Vec.
From Verif.Model Require Import RayBundle Boundary Geometry.
From Verif.Spec Require Import GeometrySpec.
From Verif.Proof Require Import ListLemmas NumLemmas VecLemmas FlatProof.
Import ListNotations.
Local Open Scope R_scope.

(** ** Selection arrays *)

(** The first usable one of two points. *)
Definition pick (v : bool * bool) : option nat :=
  if fst v then Some 0%nat else if snd v then Some 1%nat else None.
Definition xor_row (v : bool * bool) : nat := if fst v then 0%nat else 1%nat.

Lemma true_rows_xor m : true_rows (mask_select (map pxor m) m) = map xor_row (mask_select (map pxor m) m).
Proof.
  induction m as [|[[|] [|]] m IH]; simpl; auto;
    unfold true_rows, xor_row in *; simpl; rewrite IH; auto.
Qed.

Lemma assign_xor m (sel : list (option nat)) : length sel = length m ->
  assign_sel (map pxor m) sel (true_rows (mask_select (map pxor m) m)) =
  Ok (map2 (fun p s => if pxor p then Some (xor_row p) else s) m sel).
Proof.
  intros L. unfold assign_sel. rewrite true_rows_xor, map_length, mask_select_count by apply map_length.
  rewrite Nat.eqb_refl. f_equal. revert sel L.
  induction m as [|p m IH]; intros [|s sel] L; simpl in *; try discriminate; auto.
  injection L as L. destruct (pxor p); simpl; rewrite IH; auto.
Qed.

Lemma fill_mask_map2 {A B} (c : A -> bool) m (sel : list B) v : length sel = length m ->
  fill_mask (map c m) sel v = map2 (fun p s => if c p then v else s) m sel.
Proof.
  revert sel; induction m as [|p m IH]; intros [|s sel] L; simpl in *; try discriminate; auto.
  rewrite IH; auto.
Qed.

Lemma map2_same_len {A B C} (f : A -> B -> C) m sel : length sel = length m ->
  length (map2 f m sel) = length m.
Proof. intros; apply map2_length; auto. Qed.

Lemma map2_compose {A B C D} (f : A -> C -> D) (g : A -> B -> C) m sel :
  map2 f m (map2 g m sel) = map2 (fun a b => f a (g a b)) m sel.
Proof. revert sel; induction m; intros [|s sel]; simpl; congruence. Qed.

Lemma map2_repeat {A B C} (f : A -> B -> C) m x n : n = length m ->
  map2 f m (repeat x n) = map (fun a => f a x) m.
Proof. intros ->. induction m; simpl; congruence. Qed.

Lemma select_default_pick prm : select_default prm = Ok (map pick (positive2 prm)).
Proof.
  unfold select_default.
  assert (L : length (positive2 prm) = length prm) by apply map_length.
  rewrite <- L. set (m := positive2 prm).
  rewrite (fill_mask_map2 _ m (repeat None (length m))) by apply repeat_length.
  rewrite (fill_mask_map2 pand m) by (rewrite map2_same_len; auto using repeat_length).
  rewrite assign_xor by (rewrite !map2_same_len; auto; rewrite map2_same_len; auto using repeat_length).
  rewrite !map2_compose, map2_repeat by auto.
  f_equal. apply map_ext. intros [[|] [|]]; reflexivity.
Qed.

Lemma select_valid_pick (pos valid : list (bool * bool)) :
  Forall2 (fun v p => (fst v = true -> fst p = true) /\ (snd v = true -> snd p = true)) valid pos ->
  select_valid true_rows (map pick pos) valid = Ok (map pick valid).
Proof.
  intros F. assert (L : length (map pick pos) = length valid).
  { rewrite map_length. symmetry. eapply ListLemmas.Forall2_length; eauto. }
  unfold select_valid. rewrite fill_mask_map2 by auto.
  rewrite assign_xor by (rewrite map2_same_len; auto).
  rewrite map2_compose. f_equal. clear L.
  induction F as [|[v0 v1] [p0 p1] valid pos (H0 & H1) F IH]; simpl; auto.
  rewrite IH. f_equal. simpl in *.
  destruct v0, v1; simpl; auto. rewrite H0 by auto. reflexivity.
Qed.

(** ** The whole search as a map over the rays *)
Definition is_some {A} (o : option A) : bool := match o with Some _ => true | None => false end.

Definition hit_param (c : bool) (h : num * num) (s : option nat) : num :=
  if c then match s with Some k => choose2 k h | None => PInf end else PInf.
Definition hit_vert (c : bool) (p : nvec * nvec) (s : option nat) : option nvec :=
  if c then match s with Some k => Some (choose2 k p) | None => None end else None.

Definition two_points (v d : vec) (h : num * num) : nvec * nvec :=
  (along v d (fst h), along v d (snd h)).

Lemma filter_filter {A} (p q : A -> bool) l : filter p (filter q l) = filter (fun a => q a && p a) l.
Proof.
  induction l as [|a l IH]; simpl; auto. destruct (q a); simpl; [destruct (p a)|]; rewrite IH; auto.
Qed.

(** Rays are given by entries of any type [X]; the selection may depend on it. *)
Lemma quad_find_map {X} (pv pd : X -> vec) gm frame (l : list X) (f : vec -> vec -> R * R * R)
    (s : X -> option nat) :
  get_ABC gm frame (map pv l) (map pd l) = Ok (map (fun a => f (pv a) (pd a)) l) ->
  (let L := filter (fun a => has_roots (f (pv a) (pd a))) l in
   L <> [] ->
   select_coords gm frame (map (fun a => two_points (pv a) (pd a) (roots (f (pv a) (pd a)))) L)
     (map (fun a => roots (f (pv a) (pd a))) L) = Ok (map s L)) ->
  quad_find gm frame (map pv l) (map pd l) =
    Ok (map (fun a => let q := f (pv a) (pd a) in hit_param (has_roots q) (roots q) (s a)) l,
        map (fun a => let q := f (pv a) (pd a) in
               hit_vert (has_roots q) (two_points (pv a) (pd a) (roots q)) (s a)) l).
Proof.
  intros Habc Hsel. unfold quad_find. rewrite Habc. cbn [bind]. rewrite map_map.
  set (c := fun a : X => has_roots (f (pv a) (pd a))) in *.
  set (h := fun a : X => roots (f (pv a) (pd a))) in *.
  set (co := fun a : X => two_points (pv a) (pd a) (h a)) in *.
  change (map (fun x => has_roots (f (pv x) (pd x))) l) with (map c l).
  rewrite map_length.
  destruct (Nat.eqb_spec (count_true (map c l)) 0) as [E0|E0].
  - rewrite !repeat_map. f_equal.
    assert (F : forall a, In a l -> c a = false).
    { intros a Ha. destruct (c a) eqn:E; auto. exfalso.
      rewrite <- (mask_select_count (map c l) l) in E0 by apply map_length.
      rewrite mask_select_filter in E0. apply length_zero_iff_nil in E0.
      assert (In a (filter c l)) by (apply filter_In; auto). rewrite E0 in H. auto. }
    f_equal; apply map_ext_in; intros a Ha; unfold hit_param, hit_vert;
      fold (c a); rewrite (F a Ha); auto.
  - rewrite !mask_select_map, !mask_select_filter. set (L := filter c l) in *.
    rewrite !map_map. change (map (fun x => roots (f (pv x) (pd x))) L) with (map h L).
    rewrite map3_map. change (map (fun a => (along (pv a) (pd a) (fst (h a)),
        along (pv a) (pd a) (snd (h a)))) L) with (map co L).
    assert (Hsel' : L <> [] -> select_coords gm frame (map co L) (map h L) = Ok (map s L)) by exact Hsel.
    rewrite Hsel'.
    2:{ intros E. apply E0. rewrite <- (mask_select_count (map c l) l) by apply map_length.
        rewrite mask_select_filter. fold L. rewrite E; auto. }
    cbn [bind]. rewrite !map_map.
    set (nm := fun a => is_some (s a)).
    change (map (fun x => match s x with Some _ => true | None => false end) L) with (map nm L).
    assert (E1 : put_mask (map c l) (map c l) (map nm L) = map (fun a => c a && nm a) l).
    { unfold L. rewrite <- mask_select_filter, put_mask_pointwise. apply map_ext. intros a.
      destruct (c a); auto. }
    assert (Ek : concat (map (fun x => match s x with Some k => [k] | None => [] end) L)
                 = map (fun a => match s a with Some k => k | None => 0%nat end) (filter nm L)).
    { clear. generalize L. intros L0. unfold nm, is_some. clear.
      induction L0 as [|a L' IH]; simpl; auto. rewrite IH.
      destruct (s a) eqn:E; simpl; rewrite ?E; auto. }
    rewrite E1, Ek.
    rewrite !mask_select_map, !mask_select_filter, !map2_map, map_map.
    unfold L. rewrite !filter_filter, <- (mask_select_filter (fun a => c a && nm a) l).
    rewrite !repeat_map, !put_mask_pointwise. f_equal. f_equal; apply map_ext; intros a.
    + unfold hit_param. fold (c a) (h a). destruct (c a); auto. unfold nm. destruct (s a); auto.
    + unfold hit_vert. fold (c a) (h a) (co a). destruct (c a); auto. unfold nm. destruct (s a); auto.
Qed.

(** ** Roots *)
Lemma has_roots_false A B C : has_roots (A, B, C) = false ->
  forall t, A * (t * t) + B * t + C <> 0.
Proof.
  unfold has_roots. rewrite Rleb_false. intros H t E.
  assert (0 <= (2 * A * t + B) * (2 * A * t + B)) by apply Rle_0_sqr.
  replace ((2 * A * t + B) * (2 * A * t + B)) with (4 * A * (A * (t * t) + B * t + C) + (B * B - 4 * A * C)) in H0 by ring.
  rewrite E in H0. lra.
Qed.

Lemma roots_quadratic A B C : tenm 10 < A -> has_roots (A, B, C) = true ->
  exists h0 h1, roots (A, B, C) = (Fin h0, Fin h1) /\ h0 <= h1 /\
    forall t, A * (t * t) + B * t + C = 0 <-> t = h0 \/ t = h1.
Proof.
  unfold has_roots, roots. rewrite Rleb_true. intros HA Hd.
  pose proof (tenm_pos 10). destruct (Rleb_spec A (tenm 10)) as [X|_]; [lra|].
  set (D := B * B - 4 * A * C) in *. pose proof (sqrt_pos D) as Hs.
  pose proof (sqrt_sqrt D Hd) as Hq. set (s := sqrt D) in *.
  eexists; eexists; split; [reflexivity|]. split.
  - apply Rmult_le_compat_r; [|lra]. left. apply Rinv_0_lt_compat. lra.
  - intros t.
    assert (F : A * (t * t) + B * t + C =
                A * (t - (- B - s) / (2 * A)) * (t - (- B + s) / (2 * A))).
    { replace C with ((B * B - s * s) / (4 * A)) by (rewrite Hq; unfold D; field; lra).
      field; lra. }
    rewrite F. split.
    + intros E. apply Rmult_integral in E. destruct E as [E|E].
      * apply Rmult_integral in E. destruct E as [E|E]; [lra|left; lra].
      * right; lra.
    + intros [->| ->]; ring.
Qed.

Lemma has_roots_linear B C : has_roots (0, B, C) = true.
Proof. unfold has_roots. apply Rleb_true. nra. Qed.

Lemma roots_linear B C : B <> 0 ->
  roots (0, B, C) = (Fin (- C / B), Fin (- C / B)) /\
  forall t, 0 * (t * t) + B * t + C = 0 <-> t = - C / B.
Proof.
  intros HB. unfold roots, fdiv. pose proof (tenm_pos 10).
  destruct (Rleb_spec 0 (tenm 10)); [|lra]. destruct (Reqb_spec B 0); [contradiction|].
  split; auto. intros t; split; intros E.
  - replace C with (- (B * t)) by lra. field; auto.
  - subst t. field; auto.
Qed.

Lemma roots_constant C :
  roots (0, 0, C) = (sgn_inf (- C), sgn_inf (- C)).
Proof.
  unfold roots, fdiv. pose proof (tenm_pos 10).
  destruct (Rleb_spec 0 (tenm 10)); [|lra]. destruct (Reqb_spec 0 0); [|lra]. auto.
Qed.

(** ** First hit of one ray *)

(** Which of the two points may be used. *)
Definition valid2 (okb : nvec -> bool) (p : nvec * nvec) (h : num * num) : bool * bool :=
  (okb (fst p) && nlt (Fin 0) (fst h), okb (snd p) && nlt (Fin 0) (snd h)).

Definition quad_param (okb : nvec -> bool) (abc : R * R * R) (v d : vec) : num :=
  hit_param (has_roots abc) (roots abc) (pick (valid2 okb (two_points v d (roots abc)) (roots abc))).
Definition quad_vert (okb : nvec -> bool) (abc : R * R * R) (v d : vec) : option nvec :=
  hit_vert (has_roots abc) (two_points v d (roots abc))
    (pick (valid2 okb (two_points v d (roots abc)) (roots abc))).

(** The cases in which the solution formula is right. *)
Definition sound_case (abc : R * R * R) : Prop :=
  let '(A, B, C) := abc in tenm 10 < A \/ A = 0 /\ (B <> 0 \/ C <> 0).

Lemma quad_first (s : shape) (okb : nvec -> bool) A B C v d :
  sound_case (A, B, C) ->
  (forall t, s (ray_at v d t) <-> A * (t * t) + B * t + C = 0 /\ okb (nfin (ray_at v d t)) = true) ->
  first_hit s v d (quad_param okb (A, B, C) v d).
Proof.
  intros Hc Hs. unfold first_hit, quad_param.
  destruct (has_roots (A, B, C)) eqn:Hr; unfold hit_param.
  2:{ intros t (_ & Ht). apply Hs in Ht. destruct Ht as (Ht & _).
      apply (has_roots_false _ _ _ Hr t Ht). }
  assert (Two : forall h0 h1, roots (A, B, C) = (Fin h0, Fin h1) -> h0 <= h1 ->
     (forall t, A * (t * t) + B * t + C = 0 <-> t = h0 \/ t = h1) ->
     least (fun t => 0 < t /\ s (ray_at v d t))
       match pick (valid2 okb (two_points v d (roots (A, B, C))) (roots (A, B, C))) with
       | Some k => choose2 k (roots (A, B, C)) | None => PInf end).
  { intros h0 h1 Er Hle Hroots. rewrite Er. unfold valid2, two_points, pick. cbn [fst snd].
    rewrite !along_fin. cbn [nlt].
    destruct (okb (nfin (ray_at v d h0)) && Rltb 0 h0) eqn:E0.
    - apply andb_prop in E0 as (O0 & P0). apply Rltb_true in P0. cbn [choose2 fst least].
      split.
      + split; auto. apply Hs. split; auto. apply Hroots; auto.
      + intros t (_ & Ht). apply Hs in Ht. destruct Ht as (Ht & _). apply Hroots in Ht. lra.
    - assert (N0 : forall t, t = h0 -> 0 < t -> s (ray_at v d t) -> False).
      { intros t -> Hp Ht. apply Hs in Ht. destruct Ht as (_ & Ho). rewrite Ho in E0.
        simpl in E0. apply Rltb_false in E0. lra. }
      destruct (okb (nfin (ray_at v d h1)) && Rltb 0 h1) eqn:E1.
      + apply andb_prop in E1 as (O1 & P1). apply Rltb_true in P1. cbn [choose2 snd least].
        split.
        * split; auto. apply Hs. split; auto. apply Hroots; auto.
        * intros t (Hp & Ht). pose proof Ht as Ht'. apply Hs in Ht'. destruct Ht' as (Ht' & _).
          apply Hroots in Ht'. destruct Ht' as [->| ->]; [|lra]. exfalso; eapply N0; eauto.
      + cbn [least]. intros t (Hp & Ht). pose proof Ht as Ht'. apply Hs in Ht'. destruct Ht' as (Ht' & Ho).
        apply Hroots in Ht'. destruct Ht' as [->| ->]; [eapply N0; eauto|].
        rewrite Ho in E1. simpl in E1. apply Rltb_false in E1. lra. }
  destruct Hc as [HA|(-> & HBC)].
  - destruct (roots_quadratic A B C HA Hr) as (h0 & h1 & Er & Hle & Hroots). eapply Two; eauto.
  - destruct (Req_dec B 0) as [->|HB].
    + assert (HC : C <> 0) by (destruct HBC; lra).
      rewrite roots_constant. unfold valid2, two_points, pick. cbn [fst snd].
      assert (M : forall t, ~ (0 < t /\ s (ray_at v d t))).
      { intros t (_ & Ht). apply Hs in Ht. lra. }
      unfold sgn_inf. destruct (Rltb_spec 0 (- C)).
      * destruct (okb (along v d PInf)); cbn; auto.
      * destruct (Rltb_spec (- C) 0); [|lra]. cbn [nlt]. rewrite andb_false_r. cbn; auto.
    + destruct (roots_linear B C HB) as (Er & Hroots). eapply Two; eauto; [lra|].
      intros t. rewrite Hroots. tauto.
Qed.

(** The parameter reported is never negative or NaN, whatever the case. *)
Lemma quad_param_proper okb abc v d : proper_param (quad_param okb abc v d).
Proof.
  unfold quad_param, hit_param. destruct (has_roots abc); [|exact I].
  unfold pick, valid2. cbn [fst snd]. destruct (roots abc) as [h0 h1]. cbn [fst snd].
  destruct (okb _ && nlt (Fin 0) h0) eqn:E0.
  - apply andb_prop in E0 as (_ & E). cbn [choose2 fst]. destruct h0; simpl in *; auto; try discriminate.
    apply Rltb_true in E. lra.
  - destruct (okb _ && nlt (Fin 0) h1) eqn:E1; [|exact I].
    apply andb_prop in E1 as (_ & E). cbn [choose2 snd]. destruct h1; simpl in *; auto; try discriminate.
    apply Rltb_true in E. lra.
Qed.

(** A finite parameter comes with the corresponding point of the ray. *)
Lemma quad_vert_param okb abc v d t : quad_param okb abc v d = Fin t ->
  quad_vert okb abc v d = Some (nfin (ray_at v d t)).
Proof.
  unfold quad_param, quad_vert, hit_param, hit_vert. destruct (has_roots abc); [|discriminate].
  destruct (pick _) as [k|]; [|discriminate]. intros E. f_equal.
  destruct k; cbn [choose2 two_points fst snd] in *; rewrite E; apply along_fin.
Qed.
