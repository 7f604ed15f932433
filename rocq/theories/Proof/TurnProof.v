(** The hemisphere and the cut sphere asked about many rays at once. *)
From Coq Require Import Reals List Arith Bool Lra Lia Psatz.
From Verif.Base Require Import Py Num Vec.
From Verif.Model Require Import RayBundle Boundary Geometry.
From Verif.Spec Require Import GeometrySpec GeomIface.
From Verif.Proof Require Import ListLemmas NumLemmas VecLemmas FlatProof QuadProof GeomProof ShapeProof SelectProof GeomTop GeomCases.
Import ListNotations.
Local Open Scope R_scope.

(** ** Columns with one usable point, in order *)
Fixpoint ordered (m : list (bool * bool)) : Prop :=
  match m with
  | [] => True
  | p :: m => (p = (false, true) -> ~ In (true, false) m) /\ ordered m
  end.

Definition ones (m : list (bool * bool)) := mask_select (map pxor m) m.

Lemma ones_xor m p : In p (ones m) -> p = (true, false) \/ p = (false, true).
Proof.
  unfold ones. rewrite mask_select_filter. rewrite filter_In. intros (_ & H).
  destruct p as [[|] [|]]; try discriminate; auto.
Qed.

Lemma ones_in m p : pxor p = true -> In p (ones m) <-> In p m.
Proof. unfold ones. rewrite mask_select_filter, filter_In. tauto. Qed.

Lemma ones_cons p m : ones (p :: m) = if pxor p then p :: ones m else ones m.
Proof. reflexivity. Qed.

Lemma count_cons b m : count_true (b :: m) = ((if b then 1 else 0) + count_true m)%nat.
Proof. rewrite !count_true_mask. destruct b; simpl; auto. Qed.

Lemma no_first m : (forall p, In p m -> p = (true, false) \/ p = (false, true)) -> ~ In (true, false) m ->
  count_true (map fst m) = 0%nat /\ map xor_row m = repeat 1%nat (count_true (map snd m)).
Proof.
  induction m as [|p m IH]; intros H N; [auto|].
  assert (IH1 : count_true (map fst m) = 0%nat /\ map xor_row m = repeat 1%nat (count_true (map snd m))).
  { apply IH; [intros q Hq; apply H; now right|intros Hq; apply N; now right]. }
  destruct IH1 as (IH1 & IH2).
  destruct (H p (or_introl eq_refl)) as [->| ->]; cbn [map fst snd]; rewrite !count_cons.
  - exfalso. apply N. now left.
  - rewrite IH1, IH2. auto.
Qed.

Lemma rows_ordered m : ordered m <-> rows_major (ones m) = map xor_row (ones m).
Proof.
  induction m as [|p m IH]; [simpl; tauto|].
  rewrite ones_cons. simpl ordered. unfold rows_major.
  pose proof (ones_xor m) as X.
  destruct p as [[|] [|]]; cbn [pxor fst snd xorb].
  - rewrite IH. unfold rows_major. split; [tauto|]. split; [discriminate|tauto].
  - cbn [map fst snd]. rewrite !count_cons. cbn [Nat.add repeat app xor_row fst]. rewrite IH.
    unfold rows_major. split.
    + intros (_ & ->). auto.
    + intros E. injection E as E. split; [discriminate|auto].
  - cbn [map fst snd]. rewrite !count_cons. cbn [Nat.add repeat app xor_row fst]. rewrite IH.
    unfold rows_major. rewrite <- (ones_in m (true, false)) by reflexivity. split.
    + intros (N & E). specialize (N eq_refl). destruct (no_first (ones m) X N) as (Z & F).
      rewrite Z in *. simpl in *. rewrite E. auto.
    + intros E. assert (Z : count_true (map fst (ones m)) = 0%nat).
      { destruct (count_true (map fst (ones m))) eqn:Z; auto. simpl in E. discriminate. }
      assert (N : ~ In (true, false) (ones m)).
      { clear - Z. intros H. induction (ones m) as [|q l IH]; [auto|]. cbn [map] in Z. rewrite count_cons in Z.
        destruct H as [->|H]; [discriminate|]. apply IH; auto. lia. }
      rewrite Z in *. simpl in *. split; [auto|]. injection E as E. auto.
  - rewrite IH. unfold rows_major. split; [tauto|]. split; [discriminate|tauto].
Qed.

Lemma rows_length m : length (rows_major (ones m)) = count_true (map pxor m).
Proof.
  induction m as [|p m IH]; [reflexivity|].
  rewrite ones_cons. cbn [map]. rewrite count_cons. unfold rows_major in *.
  rewrite app_length, !repeat_length in *.
  destruct p as [[|] [|]]; cbn [pxor fst snd xorb map]; rewrite ?count_cons; lia.
Qed.

(** ** The selection *)
Lemma select_turn (pos valid : list (bool * bool)) :
  Forall2 (fun v p => (fst v = true -> fst p = true) /\ (snd v = true -> snd p = true)) valid pos ->
  exists r, select_valid rows_major (map pick pos) valid = Ok r /\ length r = length valid /\
    mask_select (map pxor valid) r = map Some (rows_major (ones valid)) /\
    (ordered valid -> r = map pick valid).
Proof.
  intros F. pose proof (ListLemmas.Forall2_length _ _ _ F) as L.
  unfold select_valid, assign_sel. fold (ones valid). rewrite rows_length, Nat.eqb_refl.
  set (s := fill_mask (map (fun p => negb (por p)) valid) (map pick pos) None).
  assert (Ls : length s = length valid).
  { unfold s. rewrite fill_mask_map2 by (rewrite map_length; auto). apply map2_same_len. rewrite map_length; auto. }
  eexists. split; [reflexivity|]. split; [rewrite put_mask_length; auto|]. split.
  - apply put_mask_select.
    + rewrite map_length; auto.
    + rewrite map_length, rows_length. auto.
  - intros O. apply rows_ordered in O.
    pose proof (select_valid_pick pos valid F) as K. unfold select_valid, assign_sel in K.
    fold (ones valid) in K. unfold ones in K at 1 2. rewrite true_rows_xor in K. fold (ones valid) in K.
    rewrite <- O, rows_length, Nat.eqb_refl in K. fold s in K. injection K as K. exact K.
Qed.

Lemma choice_of {X} (eqb : forall a b : X, {a = b} + {a <> b}) {Y} (y0 : Y) (L : list X) (r : list Y) :
  NoDup L -> length r = length L -> exists s, map s L = r.
Proof.
  revert r. induction L as [|a L IH]; intros [|y r] N E; try discriminate.
  - exists (fun _ => y0). auto.
  - inversion N; subst. injection E as E. destruct (IH r H2 E) as (s & <-).
    exists (fun x => if eqb x a then y else s x). simpl. destruct (eqb a a); [|congruence].
    f_equal. apply map_ext_in. intros x Hx. destruct (eqb x a); [congruence|auto].
Qed.

(** ** One ray *)
Section Ray.
  Variables (A : shape) (okb : nvec -> bool) (r : mat3) (t : vec) (rad : R) (v d : vec).
  Hypothesis O : orthonormal r.
  Hypothesis Hd : tenm 10 < norm2 d.
  Hypothesis HA : forall p, A p <-> placed (mk4 r t) (ball_surface rad) p /\ okb (nfin p) = true.

  Let q := abc_sphere (mk4 r t) rad v d.
  Let h := roots q.
  Definition usable : bool * bool :=
    if has_roots (abc_sphere (mk4 r t) rad v d)
    then valid2 okb (two_points v d (roots (abc_sphere (mk4 r t) rad v d))) (roots (abc_sphere (mk4 r t) rad v d))
    else (false, false).

  Lemma ray_cases :
    has_roots q = false /\ usable = (false, false) /\ (forall u, ~ A (ray_at v d u)) \/
    has_roots q = true /\ exists h0 h1, h = (Fin h0, Fin h1) /\ h0 <= h1 /\
      (forall u, A (ray_at v d u) <-> (u = h0 \/ u = h1) /\ okb (nfin (ray_at v d u)) = true) /\
      usable = (okb (nfin (ray_at v d h0)) && Rltb 0 h0, okb (nfin (ray_at v d h1)) && Rltb 0 h1) /\
      (forall u, 2 * dot d (vsub (ray_at v d u) t) = norm2 d * (2 * u - h0 - h1)).
  Proof.
    pose proof (sphere_roots r t rad v d) as K. unfold usable. unfold h, q in *.
    assert (Eq : abc_sphere (mk4 r t) rad v d = (norm2 d, 2 * dot d (vsub v t), norm2 (vsub v t) - rad * rad)).
    { unfold abc_sphere. rewrite loc_mk4. reflexivity. }
    rewrite Eq in *. set (B := 2 * dot d (vsub v t)) in *. set (C := norm2 (vsub v t) - rad * rad) in *.
    destruct (has_roots (norm2 d, B, C)) eqn:Hr.
    - right. split; auto. destruct (roots_quadratic _ _ _ Hd Hr) as (h0 & h1 & Er & Hle & Hroots).
      exists h0, h1. rewrite Er. split; auto. split; auto. split; [|split].
      + intros u. rewrite HA, (K u O), Hroots. tauto.
      + unfold valid2, two_points. cbn [fst snd]. rewrite !along_fin. cbn [nlt]. reflexivity.
      + pose proof (tenm_pos 10) as Tp.
        assert (V : norm2 d * (h0 + h1) + B = 0).
        { assert (R0 : norm2 d * (h0 * h0) + B * h0 + C = 0) by (apply Hroots; auto).
          assert (R1 : norm2 d * (h1 * h1) + B * h1 + C = 0) by (apply Hroots; auto).
          destruct (Req_dec h0 h1) as [E|E].
          - set (u := - B / norm2 d - h0).
            assert (Ru : norm2 d * (u * u) + B * u + C = 0).
            { rewrite <- R0. unfold u. field. lra. }
            apply Hroots in Ru. assert (u = h0) by (destruct Ru; lra).
            replace B with (- (norm2 d * (u + h0))) by (unfold u; field; lra). subst h1. rewrite H. ring.
          - assert ((h0 - h1) * (norm2 d * (h0 + h1) + B) = 0) by lra.
            apply Rmult_integral in H. destruct H; [lra|auto]. }
        intros u. replace (2 * dot d (vsub (ray_at v d u) t)) with (2 * norm2 d * u + B).
        * lra.
        * unfold B, ray_at. destruct v, d, t. vunfold. ring.
    - left. split; auto. split; auto. intros u H. apply HA in H as (H & _). apply (K u O) in H.
      apply (has_roots_false _ _ _ Hr u H).
  Qed.

  Lemma usable_in : usable = (true, false) <-> comes_in A t v d.
  Proof.
    pose proof (tenm_pos 10). destruct ray_cases as [(_ & E & N)|(_ & h0 & h1 & _ & Hle & Hr & E & Hs)]; rewrite E.
    - split; [discriminate|]. intros ((u & _ & Hu) & _). exfalso. exact (N u Hu).
    - split.
      + intros X. injection X as X0 X1. apply andb_prop in X0 as (X0 & P0). apply Rltb_true in P0.
        assert (Hlt : h0 < h1).
        { destruct (Rle_lt_or_eq_dec _ _ Hle) as [|E']; auto. subst h1. rewrite X0 in X1. simpl in X1.
          apply Rltb_false in X1. lra. }
        assert (A0 : A (ray_at v d h0)) by (apply Hr; auto). split; [eauto|].
        intros u Hu Au. apply Hr in Au as ([->| ->] & Ok).
        * specialize (Hs h0). nra.
        * rewrite Ok in X1. simpl in X1. apply Rltb_false in X1. lra.
      + intros ((u & Hu & Au) & All). pose proof (All u Hu Au) as Neg. apply Hr in Au as (Eu & Ok).
        assert (Hlt : h0 < h1 /\ u = h0).
        { destruct Eu as [->| ->].
          - split; auto. specialize (Hs h0). nra.
          - exfalso. specialize (Hs h1). nra. }
        destruct Hlt as (Hlt & ->). rewrite Ok. f_equal.
        * simpl. apply Rltb_true. auto.
        * destruct (okb (nfin (ray_at v d h1))) eqn:E1; auto. simpl. apply Rltb_false.
          destruct (Rle_lt_dec h1 0) as [|P]; [auto|].
          assert (A1 : A (ray_at v d h1)) by (apply Hr; auto). specialize (All h1 P A1). specialize (Hs h1). nra.
  Qed.

  Lemma usable_out : usable = (false, true) <-> goes_out A t v d.
  Proof.
    pose proof (tenm_pos 10). destruct ray_cases as [(_ & E & N)|(_ & h0 & h1 & _ & Hle & Hr & E & Hs)]; rewrite E.
    - split; [discriminate|]. intros ((u & _ & Hu) & _). exfalso. exact (N u Hu).
    - split.
      + intros X. injection X as X0 X1. apply andb_prop in X1 as (X1 & P1). apply Rltb_true in P1.
        assert (Hlt : h0 < h1).
        { destruct (Rle_lt_or_eq_dec _ _ Hle) as [|E']; auto. subst h1. rewrite X1 in X0. simpl in X0.
          apply Rltb_false in X0. lra. }
        assert (A1 : A (ray_at v d h1)) by (apply Hr; auto). split; [eauto|].
        intros u Hu Au. apply Hr in Au as ([->| ->] & Ok).
        * rewrite Ok in X0. simpl in X0. apply Rltb_false in X0. lra.
        * specialize (Hs h1). nra.
      + intros ((u & Hu & Au) & All). pose proof (All u Hu Au) as Neg. apply Hr in Au as (Eu & Ok).
        assert (Hlt : h0 < h1 /\ u = h1).
        { destruct Eu as [->| ->].
          - exfalso. specialize (Hs h0). nra.
          - split; auto. specialize (Hs h1). nra. }
        destruct Hlt as (Hlt & ->). rewrite Ok. f_equal.
        * destruct (okb (nfin (ray_at v d h0))) eqn:E1; auto. simpl. apply Rltb_false.
          destruct (Rle_lt_dec h0 0) as [|P]; [auto|].
          assert (A0 : A (ray_at v d h0)) by (apply Hr; auto). specialize (All h0 P A0). specialize (Hs h0). nra.
        * simpl. apply Rltb_true. auto.
  Qed.

  (** A wrong choice gives a wrong answer. *)
  Lemma right_choice s : pxor usable = true ->
    first_hit A v d (hit_param (has_roots q) h s) -> s = pick usable \/ exists k, s = Some (S (S k)).
  Proof.
    destruct ray_cases as [(_ & E & _)|(Hq & h0 & h1 & Eh & Hle & Hr & E & Hs)]; rewrite E; [discriminate|].
    intros X F. rewrite Hq, Eh in F. unfold hit_param in F.
    assert (Hlt : h0 < h1).
    { destruct (Rle_lt_or_eq_dec _ _ Hle) as [|E']; auto. subst h1. revert X. unfold pxor. cbn [fst snd].
      destruct (okb (nfin (ray_at v d h0)) && Rltb 0 h0); discriminate. }
    set (b0 := okb (nfin (ray_at v d h0)) && Rltb 0 h0) in *.
    set (b1 := okb (nfin (ray_at v d h1)) && Rltb 0 h1) in *.
    assert (S0 : b0 = true <-> 0 < h0 /\ A (ray_at v d h0)).
    { unfold b0. rewrite andb_true_iff, Rltb_true, Hr. tauto. }
    assert (S1 : b1 = true <-> 0 < h1 /\ A (ray_at v d h1)).
    { unfold b1. rewrite andb_true_iff, Rltb_true, Hr. tauto. }
    destruct s as [[|[|k]]|]; unfold choose2, first_hit, least in F; cbn [fst snd] in F; [| |eauto|].
    - left. destruct F as (F & _). apply S0 in F. unfold pick. cbn [fst]. rewrite F. auto.
    - left. destruct F as (F & _). apply S1 in F. unfold pick. cbn [fst snd]. rewrite F in *.
      destruct b0; [discriminate X|auto].
    - exfalso. destruct b0 eqn:B0; [apply (F h0); apply S0; auto|].
      destruct b1 eqn:B1; [apply (F h1); apply S1; auto|discriminate X].
  Qed.
End Ray.

(** ** The bundle *)
Lemma mapM_map {X A B} (f : A -> res B) (g : X -> A) (k : X -> B) L :
  (forall a, f (g a) = Ok (k a)) -> mapM f (map g L) = Ok (map k L).
Proof.
  intros H. unfold mapM. induction L as [|a L IH]; simpl; auto.
  rewrite H. cbn [bind]. simpl in IH. rewrite IH. reflexivity.
Qed.

Lemma select_many {X} gm frame inv okb (co : X -> nvec * nvec) (h : X -> num * num) L :
  is_quad gm = true -> regular gm = false -> inv_for gm frame inv -> single_ok gm frame inv okb ->
  select_coords gm frame (map co L) (map h L) =
  select_valid rows_major (map pick (positive2 (map h L))) (map (fun a => valid2 okb (co a) (h a)) L).
Proof.
  intros Q Rg I S. destruct gm; try discriminate.
  - simpl in S, I. subst okb. cbn [select_coords ok_of].
    rewrite select_default_pick. cbn [bind]. rewrite I. cbn [bind]. rewrite and_positive_map. reflexivity.
  - destruct bound as [bd|]; [|discriminate]. cbn [select_coords]. cbn [single_ok] in S.
    rewrite select_default_pick. cbn [bind].
    rewrite (mapM_map _ co (fun a => [okb (fst (co a)); okb (snd (co a))])) by (intros a; apply S).
    cbn [bind]. rewrite map2_map. reflexivity.
Qed.

Lemma ordered_filter {X} (c : X -> bool) (f : X -> bool * bool) l :
  ordered (map f (filter c l)) <-> ordered (map (fun a => if c a then f a else (false, false)) l).
Proof.
  assert (E : forall l, In (true, false) (map f (filter c l)) <->
                   In (true, false) (map (fun a => if c a then f a else (false, false)) l)).
  { induction l0 as [|a l0 IH]; simpl; [tauto|]. destruct (c a); simpl; [tauto|]. rewrite IH.
    split; [tauto|]. intros [|]; [discriminate|auto]. }
  induction l as [|a l IH]; simpl; [tauto|]. destruct (c a); simpl.
  - rewrite E, IH. tauto.
  - rewrite IH. split; [|tauto]. split; [discriminate|auto].
Qed.

Lemma ordered_index m : ordered m <->
  forall i j, (i < j)%nat -> nth_error m i = Some (false, true) -> nth_error m j = Some (true, false) -> False.
Proof.
  induction m as [|p m IH]; simpl.
  - split; auto. intros _ i j _ H. destruct i; discriminate.
  - rewrite IH. split.
    + intros (H & K) i j Hij Hi Hj. destruct j; [lia|]. simpl in Hj. destruct i; simpl in Hi.
      * injection Hi as ->. apply (H eq_refl). apply nth_error_In with (n := j). auto.
      * apply (K i j); auto. lia.
    + intros H. split.
      * intros -> X. apply In_nth_error in X as (j & Hj). apply (H 0%nat (S j)); auto. lia.
      * intros i j Hij Hi Hj. apply (H (S i) (S j)); auto. lia.
Qed.

Lemma map_inj {X Y} (f : X -> Y) : (forall a b, f a = f b -> a = b) -> forall l l', map f l = map f l' -> l = l'.
Proof.
  intros H. induction l as [|a l IH]; intros [|b l'] E; try discriminate; auto.
  simpl in E. injection E as E0 E1. f_equal; auto.
Qed.

Section Bundle.
  Variables (gm : geom) (A0 : shape) (okb : nvec -> bool) (r : mat3) (t : vec) (rad : R).
  Let A := placed (mk4 r t) A0.
  Hypothesis O : orthonormal r.
  Hypothesis HA : forall p, A p <-> placed (mk4 r t) (ball_surface rad) p /\ okb (nfin p) = true.
  Hypothesis Q : is_quad gm = true.
  Hypothesis Rg : regular gm = false.
  Hypothesis S1 : single_ok gm (mk4 r t) (rinv r t) okb.
  Hypothesis Eabc : forall v d, abc_of gm (mk4 r t) (rinv r t) v d = abc_sphere (mk4 r t) rad v d.

  Lemma turn_finds : finds_entering_first gm (mk4 r t) (placed (mk4 r t) A0) t.
  Proof.
    unfold finds_entering_first. fold A. intros b vs ds Hb Hd. pose proof Hb as (_ & _ & Ln).
    assert (E : find_intersections gm (mk4 r t) b =
        ('(ps, verts) <- quad_find gm (mk4 r t) vs ds ;; Ok (GFound (mk4 r t) b (DVerts verts), ps))).
    { destruct gm; try discriminate;
        exact (find_open b vs ds (fun vs ds => '(ps, verts) <- quad_find _ (mk4 r t) vs ds ;;
             Ok (GFound (mk4 r t) b (DVerts verts), ps)) Hb). }
    set (n := length vs) in *. set (l := seq 0 n).
    set (pv := fun i => nth i vs (V3 0 0 0)). set (pd := fun i => nth i ds (V3 0 0 0)).
    assert (Evs : vs = map pv l).
    { apply nth_ext with (d := V3 0 0 0) (d' := pv 0%nat); unfold l.
      - rewrite map_length, seq_length. auto.
      - intros i Hi. rewrite map_nth, seq_nth by auto. reflexivity. }
    assert (Eds : ds = map pd l).
    { apply nth_ext with (d := V3 0 0 0) (d' := pd 0%nat); unfold l.
      - rewrite map_length, seq_length. auto.
      - intros i Hi. rewrite map_nth, seq_nth by lia. reflexivity. }
    set (f := abc_of gm (mk4 r t) (rinv r t)).
    set (L := filter (fun a => has_roots (f (pv a) (pd a))) l).
    set (h := fun a => roots (f (pv a) (pd a))).
    set (co := fun a => two_points (pv a) (pd a) (h a)).
    set (va := fun a => valid2 okb (co a) (h a)).
    assert (I : inv_for gm (mk4 r t) (rinv r t)) by (apply rinv_for; auto).
    pose proof (select_many gm (mk4 r t) (rinv r t) okb co h L Q Rg I S1) as Sel.
    assert (F2 : Forall2 (fun v p => (fst v = true -> fst p = true) /\ (snd v = true -> snd p = true))
                   (map va L) (positive2 (map h L))).
    { rewrite positive2_map. apply Forall2_map_same. intros a. apply valid2_positive. }
    destruct (select_turn _ _ F2) as (rs & Er & Lr & Em & Eo).
    change (map (fun a => valid2 okb (co a) (h a)) L) with (map va L) in Sel. rewrite Er in Sel.
    assert (Lr' : length rs = length L) by (rewrite Lr, map_length; auto).
    assert (NL : NoDup L) by (apply NoDup_filter, seq_NoDup).
    destruct (choice_of Nat.eq_dec None L rs NL Lr') as (s & Es).
    rewrite <- Es in Sel, Em, Eo.
    pose proof (quad_find_map pv pd gm (mk4 r t) l f s) as K.
    rewrite E, Evs, Eds, K; clear K.
    2:{ apply (get_ABC_map pv pd gm _ (rinv r t)); auto. }
    2:{ intros L' _. exact Sel. }
    cbn [bind]. eexists; eexists. split; [reflexivity|]. split; [rewrite !map_length; unfold l; rewrite ?seq_length; auto|].
    set (us := fun a => usable okb r t rad (pv a) (pd a)).
    assert (Eus : forall a, us a = if has_roots (f (pv a) (pd a)) then va a else (false, false)).
    { intros a. unfold us, usable, va, co, h, f. rewrite Eabc. reflexivity. }
    assert (Eord : ordered (map va L) <-> ordered (map us l)).
    { unfold L. rewrite ordered_filter.
      replace (map us l) with (map (fun a => if has_roots (f (pv a) (pd a)) then va a else (false, false)) l); [tauto|].
      apply map_ext. intros a. symmetry. apply Eus. }
    assert (Hpd : forall a, In a l -> tenm 10 < norm2 (pd a)).
    { intros a Ha. apply Hd. rewrite Eds. apply in_map. auto. }
    assert (Enth : forall {Y} (g : nat -> Y) i y, nth_error (map g l) i = Some y -> In i l /\ y = g i).
    { intros Y g i y Hi0. assert (Hl : (i < n)%nat).
      { assert (Hi : nth_error (map g l) i <> None) by congruence. apply nth_error_Some in Hi. rewrite map_length in Hi. unfold l in Hi. rewrite seq_length in Hi. auto. }
      split; [apply in_seq; lia|]. rewrite (map_nth_error g i l (d := i)) in Hi0; [congruence|].
      unfold l. rewrite (nth_error_nth' _ 0%nat) by (rewrite seq_length; auto). rewrite seq_nth by auto. auto. }
    assert (Hnth : forall {Y} (g : nat -> Y) i, In i l -> nth_error (map g l) i = Some (g i)).
    { intros Y g i Hi. apply in_seq in Hi. apply map_nth_error. unfold l.
      rewrite (nth_error_nth' _ 0%nat) by (rewrite seq_length; lia). rewrite seq_nth by lia. auto. }
    assert (T : entering_first A t (map pv l) (map pd l) <-> ordered (map us l)).
    { rewrite ordered_index. split.
      - intros H i j Hij Hi Hj. apply Enth in Hi as (Hi & Ui). apply Enth in Hj as (Hj & Uj).
        apply (H i j (pv i) (pd i) (pv j) (pd j)); auto.
        + apply (usable_out A okb r t rad); auto. 
        + apply (usable_in A okb r t rad); auto.
      - intros H i j v d v' d' Hij Hv Hdi Hv' Hdj Go Ci.
        apply Enth in Hv as (Hi & ->). apply Enth in Hdi as (_ & ->).
        apply Enth in Hv' as (Hj & ->). apply Enth in Hdj as (_ & ->).
        apply (H i j); auto; rewrite Hnth by auto; f_equal; unfold us.
        + apply (usable_out A okb r t rad); auto.
        + apply (usable_in A okb r t rad); auto. }
    rewrite T, <- Eord. split.
    - intros Od i v d x Hv Hdi Hx. apply Enth in Hv as (Hi & ->). apply Enth in Hdi as (_ & ->).
      apply Enth in Hx as (_ & ->). cbv zeta.
      assert (Esi : hit_param (has_roots (f (pv i) (pd i))) (roots (f (pv i) (pd i))) (s i) =
                    quad_param okb (abc_sphere (mk4 r t) rad (pv i) (pd i)) (pv i) (pd i)).
      { unfold quad_param. unfold f. rewrite Eabc.
        destruct (has_roots (abc_sphere (mk4 r t) rad (pv i) (pd i))) eqn:Hr; [|reflexivity].
        f_equal. specialize (Eo Od). rewrite map_map in Eo.
        assert (HL : In i L) by (apply filter_In; split; auto; unfold f; rewrite Eabc; auto).
        assert (Eo' : forall a, In a L -> s a = pick (va a)).
        { clear - Eo. induction L as [|a0 L0 IH]; simpl in *; [tauto|]. injection Eo as E0 E1.
          intros a [->|Ha]; auto. }
        rewrite (Eo' i HL). unfold va, co, h, f. rewrite Eabc. reflexivity. }
      rewrite Esi. apply (sphere_part r t rad A0 okb (pv i) (pd i) O (Hpd i Hi)). exact HA.
    - intros Right. apply rows_ordered. apply (map_inj Some); [congruence|]. rewrite <- Em.
      unfold ones. rewrite (map_map va pxor), !mask_select_map, mask_select_filter, !map_map.
      apply map_ext_in. intros a Ha. 
      assert (H01 : s a = Some 0%nat \/ s a = Some 1%nat).
      { assert (X : In (s a) (map Some (rows_major (ones (map va L))))).
        { rewrite <- Em. rewrite !map_map, mask_select_map, mask_select_filter. apply in_map; auto. }
        apply in_map_iff in X as (k & <- & Hk). unfold rows_major in Hk. apply in_app_or in Hk.
        destruct Hk as [Hk|Hk]; apply repeat_spec in Hk; subst k; auto. }
      apply filter_In in Ha as (HL & Hx). apply filter_In in HL as (Hl & Hr).
      assert (Eu : us a = va a) by (rewrite Eus, Hr; auto).
      assert (Rc : first_hit A (pv a) (pd a)
                 (hit_param (has_roots (f (pv a) (pd a))) (roots (f (pv a) (pd a))) (s a))).
      { apply (Right a).
        - exact (Hnth _ pv a Hl).
        - exact (Hnth _ pd a Hl).
        - exact (Hnth _ (fun a => hit_param (has_roots (f (pv a) (pd a))) (roots (f (pv a) (pd a))) (s a)) a Hl). }
      destruct (right_choice A okb r t rad (pv a) (pd a) O (Hpd a Hl) HA (s a)) as [X|(k & X)].
      + fold (us a). rewrite Eu. auto.
      + unfold f in Rc. rewrite Eabc in Rc. exact Rc.
      + rewrite X. fold (us a). rewrite Eu. revert Hx. unfold pick, xor_row, pxor.
        destruct (va a) as [[|] [|]]; try discriminate; reflexivity.
      + rewrite X in H01. destruct H01; discriminate.
  Qed.
End Bundle.

Lemma hemisphere_turn rad gm r t : new_hemisphere rad = Ok gm -> orthonormal r ->
  finds_entering_first gm (mk4 r t) (placed (mk4 r t) (lower_half (ball_surface rad))) t.
Proof.
  intros E O. apply new_hemisphere_ok in E as (_ & ->).
  apply (turn_finds _ _ (ok_of (Hemisphere rad) (rinv r t)) r t rad O); auto; [|reflexivity].
  intros p. rewrite !placed_loc by auto. unfold lower_half. cbn [ok_of].
  destruct (ndot4_rinv r t p) as (_ & _ & ->). cbn [nle]. rewrite Rleb_true. tauto.
Qed.

Lemma cut_sphere_turn rad bd gm r t : new_cut_sphere rad (Some bd) = Ok gm -> orthonormal r ->
  sphere_or_plane bd ->
  finds_entering_first gm (mk4 r t) (placed (mk4 r t) (fun q => ball_surface rad q /\ volume bd q)) t.
Proof.
  intros E O Hbd. apply new_cut_ok in E as (_ & ->).
  assert (K : exists okb, bound_test bd (mk4 r t) okb /\
            forall p, okb (nfin p) = true <-> placed (mk4 r t) (volume bd) p).
  { destruct bd as [c rb|rb tr|tr|tr]; try contradiction.
    - exists (in_sphere (app4 (mk4 r t) c) rb). split; [intros p q; reflexivity|].
      intros p. apply ball_placed; auto.
    - destruct Hbd as (r' & t' & -> & O'). destruct (plane_placed r t r' t' O O') as (i & Hi & Hp).
      exists (plane_ok i). split; [|exact Hp].
      intros p q. unfold transform_frame_b, in_bounds. rewrite Hi. reflexivity. }
  destruct K as (okb & K1 & K2).
  apply (turn_finds _ _ okb r t rad O); auto.
  intros p. rewrite K2, !placed_loc by auto. tauto.
Qed.

Lemma centre_mk4 r t : app4 (mk4 r t) (V3 0 0 0) = t.
Proof. rewrite app4_mk4. destruct r as [[? ? ?] [? ? ?] [? ? ?]], t. vunfold. cbn. veq; ring. Qed.

Lemma hemisphere_in_turn rad gm frame : new_hemisphere rad = Ok gm -> rigid frame ->
  finds_entering_first gm frame (placed frame (lower_half (ball_surface rad))) (app4 frame (V3 0 0 0)).
Proof. intros E (r & t & -> & O). rewrite centre_mk4. apply hemisphere_turn; auto. Qed.

Lemma cut_sphere_in_turn rad bd gm frame : new_cut_sphere rad (Some bd) = Ok gm -> rigid frame -> sphere_or_plane bd ->
  finds_entering_first gm frame (placed frame (fun q => ball_surface rad q /\ volume bd q)) (app4 frame (V3 0 0 0)).
Proof. intros E (r & t & -> & O) Hb. rewrite centre_mk4. apply cut_sphere_turn; auto. Qed.

Lemma one_in_turn A c v d : entering_first A c [v] [d].
Proof. intros i j ? ? ? ? Hij _ _ Hj. destruct j as [|[|j]]; try discriminate. lia. Qed.

(** The lower half of the unit sphere; a ray from below and one from above. *)
Definition below := placed frame0 (lower_half (ball_surface 1)).
Definition up_from : vec := V3 0 0 (-5).
Definition up : vec := V3 0 0 1.
Definition down_from : vec := V3 0 0 5.
Definition down : vec := V3 0 0 (-1).

Lemma below_points p : below p <-> norm2 p = 1 /\ vz p <= 0.
Proof. unfold below. rewrite placed0. unfold lower_half, ball_surface. replace (1 * 1) with 1 by ring. tauto. Qed.

Lemma up_comes_in : comes_in below (V3 0 0 0) up_from up /\ ~ goes_out below (V3 0 0 0) up_from up.
Proof.
  assert (X : below (ray_at up_from up 4)) by (apply below_points; unfold ray_at, up_from, up; vunfold; cbn; lra).
  split.
  - split; [exists 4; split; auto; lra|]. intros t Ht H. apply below_points in H. unfold ray_at, up_from, up in *. vunfold. cbn in *.
    assert (Y : (t - 4) * (t - 6) = 0) by lra. apply Rmult_integral in Y. lra.
  - intros (_ & H). assert (P : 0 < 4) by lra. specialize (H 4 P X). unfold ray_at, up_from, up in *. vunfold. cbn in *. lra.
Qed.
Lemma down_goes_out : goes_out below (V3 0 0 0) down_from down /\ ~ comes_in below (V3 0 0 0) down_from down.
Proof.
  assert (X : below (ray_at down_from down 6)) by (apply below_points; unfold ray_at, down_from, down; vunfold; cbn; lra).
  split.
  - split; [exists 6; split; auto; lra|]. intros t Ht H. apply below_points in H. unfold ray_at, down_from, down in *. vunfold. cbn in *.
    assert (Y : (t - 4) * (t - 6) = 0) by lra. apply Rmult_integral in Y. lra.
  - intros (_ & H). assert (P : 0 < 6) by lra. specialize (H 6 P X). unfold ray_at, down_from, down in *. vunfold. cbn in *. lra.
Qed.

Lemma turn_case : entering_first below (V3 0 0 0) [up_from; down_from] [up; down] /\
  ~ entering_first below (V3 0 0 0) [down_from; up_from] [down; up].
Proof.
  destruct up_comes_in as (U & NU), down_goes_out as (D & ND). split.
  - intros i j v d v' d' Hij Hv Hd Hv' Hd' G C. destruct j as [|[|j]]; [lia| |destruct j; discriminate].
    destruct i; [|lia]. cbn in *. injection Hv as <-. injection Hd as <-. auto.
  - intros H. exact (H 0%nat 1%nat _ _ _ _ (Nat.lt_0_succ 0) eq_refl eq_refl eq_refl eq_refl D U).
Qed.
