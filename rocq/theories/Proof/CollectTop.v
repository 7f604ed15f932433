(** The minidish and PETAL collectors: where light ends. *)
From Coq Require Import Reals ZArith String List Arith Bool Lia Lra Permutation.
From Verif.Base Require Import Py Num Vec.
From Verif.Model Require Import RayBundle Spatial Geometry TraceTree OpticsCallables Engine Objects Surface Assembly Scene Models.
From Verif.Proof Require Import ListLemmas NumLemmas VecLemmas LibraryTop ModelTop DishProof ReceiverProof ReceiverTop MeasureProof FitProof BoxWay CollectProof.
From Verif.Spec Require Import BundleSpec EngineSpec GeometrySpec GeomIface OpticsSpec LibrarySpec AccountSpec FrameSpec SceneSpec ModelSpec DishSpec SunSpec.
Import ListNotations.
Local Open Scope R_scope.

Lemma collector_catches limit sc sc' r A X Y H f eff heff old (Q : mat4 -> surface -> Prop) : collector limit sc sc' r (f + H) X Y H heff old Q ->
  (forall T, Q T = fun s => dish_mirror s T A f eff /\ focuses s T A (app4 T (V3 0 0 f)) eff /\ workable eff s) ->
  tenm 6 < X -> tenm 6 < Y -> 0 < H -> tenm 6 < f -> (forall q, A q -> focal_bowl f q /\ vz q < f) -> 0 <= eff <= 1 -> 0 <= heff <= 1 ->
  catching limit sc' r A X Y H f eff heff.
Proof.
  intros (_ & _ & _ & _ & _ & Sd & id & _ & (ss & V & Bx & Rc & Now) & Put) EQ HX HY HH Hf Ab Hd He. exists id. split.
  - exists (repeat (one_sided_object 1) 4 ++ [one_sided_object 2; default_object 1]), ss. split; auto. rewrite EQ in Bx. apply box_catches; auto. exact rigid_id.
  - intros T RT. destruct (Put T RT) as (sc'' & ss' & P & _ & V' & Bx' & Rc' & Now'). rewrite EQ in Bx'.
    exists sc'', (repeat (one_sided_object 1) 4 ++ [one_sided_object 2; default_object 1]), ss'. do 2 (split; auto). apply box_catches; auto.
Qed.

Lemma catching_collecting limit sc r (A : shape) X Y H f eff heff : 0 < X -> 0 < Y -> 0 < H -> tenm 6 < f -> (forall q, A q -> focal_bowl f q /\ vz q < f) ->
  catching limit sc r A X Y H f eff heff -> collecting limit sc r A X Y H f eff heff.
Proof.
  intros HX HY HH Hf Ab (id & (view & ss & V & C) & Put). exists id. split.
  - exists view, ss. split; auto. apply catches_collects; auto.
  - intros T RT. destruct (Put T RT) as (sc' & view' & ss' & P & V' & C'). exists sc', view', ss'. do 2 (split; auto). apply catches_collects; auto.
Qed.

Lemma below_focus D f q : 0 < f -> D * D < 16 * f * f -> focal_bowl f q /\ vx q * vx q + vy q * vy q <= D / 2 * (D / 2) -> focal_bowl f q /\ vz q < f.
Proof. intros Hf L (B & C). split; auto. destruct (bowl_height f D q Hf B C) as (_ & E). apply Rmult_lt_reg_l with (16 * f); lra. Qed.

Lemma minidish_catches limit D f eff side H heff aspect sc : reached limit sc -> tenm 6 < f -> tenm 6 < side -> tenm 6 < side * aspect -> 0 < H ->
  D * D < 16 * f * f -> 0 <= eff <= 1 -> 0 <= heff <= 1 -> (3 <= limit)%nat ->
  exists sc' r, minidish limit D f eff (f + H) side H heff aspect sc = (sc', Ok r) /\
    catching limit sc' r (round_dish D f) side (side * aspect) H f eff heff.
Proof.
  intros R Hf Hs Ha HH L Hd He Ll. pose proof (tenm_pos 6) as T6.
  assert (0 < aspect) by (apply Rmult_lt_reg_l with side; lra).
  destruct (minidish_top limit D f eff (f + H) side H heff aspect sc) as (sc' & r & E & C); auto; try lra. exists sc', r. split; auto.
  eapply collector_catches; eauto. intros q Aq. apply (below_focus D); auto; lra.
Qed.
Lemma petal_catches limit D f eff side H heff aspect sc : reached limit sc -> tenm 6 < f -> tenm 6 < side -> tenm 6 < side * aspect -> 0 < H ->
  D * D < 16 * f * f -> 0 <= eff <= 1 -> 0 <= heff <= 1 -> (3 <= limit)%nat ->
  exists sc' r, petal limit D f eff (f + H) side H heff aspect sc = (sc', Ok r) /\
    catching limit sc' r (hex_dish D f) side (side * aspect) H f eff heff.
Proof.
  intros R Hf Hs Ha HH L Hd He Ll. pose proof (tenm_pos 6) as T6.
  assert (0 < aspect) by (apply Rmult_lt_reg_l with side; lra).
  destruct (petal_top limit D f eff (f + H) side H heff aspect sc) as (sc' & r & E & C); auto; try lra. exists sc', r. split; auto.
  eapply collector_catches; eauto. intros q Aq. apply (below_focus D); auto using hex_in; lra.
Qed.
Lemma standard_sizes D C v f W H : 0 < D -> 0 < C -> 0 <= v -> (v + 1) * (D / 2 * sqrt (PI / C)) < D -> standard_measures D C v = Ok (f, W, H) ->
  f = D / 4 / (sqrt 2 - 1) /\ W = D / 2 * sqrt (PI / C) /\ 0 < H /\ D * D < 16 * (D / 4 / (sqrt 2 - 1)) * (D / 4 / (sqrt 2 - 1)).
Proof.
  intros HD HC Hv L Em.
  destruct (measures_ok D C v HD HC Hv L) as (f' & W' & H' & Em' & Pf & PW & PH & _ & EW & _). rewrite Em in Em'.
  assert (f' = f) by congruence. assert (W' = W) by congruence. assert (H' = H) by congruence. subst f' W' H'.
  assert (EfW : f = D / 4 / (sqrt 2 - 1) /\ W = D / 2 * sqrt (PI / C)).
  { revert Em. unfold standard_measures. repeat match goal with |- context [if ?b then _ else _] => destruct b end; cbn; try discriminate; intros Em; injection Em as <- <- _; auto. }
  destruct EfW as (-> & ->). do 3 (split; auto).
  assert (S2 : sqrt 2 * sqrt 2 = 2) by (apply sqrt_sqrt; lra). assert (S0 : 0 < sqrt 2) by (apply sqrt_lt_R0; lra). assert (S1 : 1 < sqrt 2) by nra.
  assert (S3 : sqrt 2 < 3 / 2) by nra.
  set (fo := D / 4 / (sqrt 2 - 1)) in *. assert (ED : D = 4 * fo * (sqrt 2 - 1)) by (unfold fo; field; lra).
  rewrite ED. assert (0 < fo * fo) by nra. nra.
Qed.
Lemma standard_catches limit D C v eff heff sc : reached limit sc -> 0 < D -> 0 < C -> 0 <= v -> (v + 1) * (D / 2 * sqrt (PI / C)) < D ->
  tenm 6 < D / 4 / (sqrt 2 - 1) -> tenm 6 < D / 2 * sqrt (PI / C) -> 0 <= eff <= 1 -> 0 <= heff <= 1 -> (3 <= limit)%nat ->
  exists sc' r f W H, standard_minidish limit D C v eff heff sc = (sc', Ok (r, (f, W, H))) /\ standard_measures D C v = Ok (f, W, H) /\
    catching limit sc' r (round_dish D f) W W H f eff heff.
Proof.
  intros R HD HC Hv L T1 T2 Hd He Ll. destruct (standard_top limit D C v eff heff sc R HD HC Hv L Ll) as (sc' & r & f & W & H & E & Em & Co).
  exists sc', r, f, W, H. do 2 (split; auto). destruct (standard_sizes D C v f W H HD HC Hv L Em) as (-> & -> & PH & DD). pose proof (tenm_pos 6).
  eapply collector_catches; eauto. intros q Aq. apply (below_focus D); auto. lra.
Qed.


Lemma below_round D f q : tenm 6 < f -> D * D < 16 * f * f -> round_dish D f q -> focal_bowl f q /\ vz q < f.
Proof. intros Hf L. pose proof (tenm_pos 6). apply below_focus; auto; lra. Qed.
Lemma below_hex D f q : tenm 6 < f -> D * D < 16 * f * f -> hex_dish D f q -> focal_bowl f q /\ vz q < f.
Proof. intros Hf L Aq. pose proof (tenm_pos 6). apply (below_focus D); auto using hex_in; lra. Qed.
Lemma minidish_collects limit D f eff side H heff aspect sc : reached limit sc -> tenm 6 < f -> tenm 6 < side -> tenm 6 < side * aspect -> 0 < H ->
  D * D < 16 * f * f -> 0 <= eff <= 1 -> 0 <= heff <= 1 -> (3 <= limit)%nat ->
  exists sc' r, minidish limit D f eff (f + H) side H heff aspect sc = (sc', Ok r) /\
    collecting limit sc' r (round_dish D f) side (side * aspect) H f eff heff.
Proof.
  intros R Hf Hs Ha HH L Hd He Ll. pose proof (tenm_pos 6) as T6.
  destruct (minidish_catches limit D f eff side H heff aspect sc) as (sc' & r & E & C); auto. exists sc', r. split; auto.
  apply catching_collecting; auto; try lra. intros q. apply below_round; auto.
Qed.
Lemma petal_collects limit D f eff side H heff aspect sc : reached limit sc -> tenm 6 < f -> tenm 6 < side -> tenm 6 < side * aspect -> 0 < H ->
  D * D < 16 * f * f -> 0 <= eff <= 1 -> 0 <= heff <= 1 -> (3 <= limit)%nat ->
  exists sc' r, petal limit D f eff (f + H) side H heff aspect sc = (sc', Ok r) /\
    collecting limit sc' r (hex_dish D f) side (side * aspect) H f eff heff.
Proof.
  intros R Hf Hs Ha HH L Hd He Ll. pose proof (tenm_pos 6) as T6.
  destruct (petal_catches limit D f eff side H heff aspect sc) as (sc' & r & E & C); auto. exists sc', r. split; auto.
  apply catching_collecting; auto; try lra. intros q. apply below_hex; auto.
Qed.
Lemma standard_collects limit D C v eff heff sc : reached limit sc -> 0 < D -> 0 < C -> 0 <= v -> (v + 1) * (D / 2 * sqrt (PI / C)) < D ->
  tenm 6 < D / 4 / (sqrt 2 - 1) -> tenm 6 < D / 2 * sqrt (PI / C) -> 0 <= eff <= 1 -> 0 <= heff <= 1 -> (3 <= limit)%nat ->
  exists sc' r f W H, standard_minidish limit D C v eff heff sc = (sc', Ok (r, (f, W, H))) /\ standard_measures D C v = Ok (f, W, H) /\
    collecting limit sc' r (round_dish D f) W W H f eff heff.
Proof.
  intros R HD HC Hv L T1 T2 Hd He Ll. destruct (standard_catches limit D C v eff heff sc R HD HC Hv L T1 T2 Hd He Ll) as (sc' & r & f & W & H & E & Em & Ca).
  exists sc', r, f, W, H. do 2 (split; auto). destruct (standard_sizes D C v f W H HD HC Hv L Em) as (-> & -> & PH & DD). pose proof (tenm_pos 6).
  apply catching_collecting; auto; try lra. intros q. apply below_round; auto.
Qed.

(** ** Folding *)

Lemma folds_unique X u z q z' q' : folds X u z q -> folds X u z' q' -> z' = z /\ q' = q.
Proof.
  intros (A & E) (A' & E'). assert (HX : 0 < X) by lra. assert (z' = z).
  { assert (B1 : IZR z' - IZR z < 1) by (apply Rmult_lt_reg_r with X; lra). assert (B2 : -1 < IZR z' - IZR z) by (apply Rmult_lt_reg_r with X; lra).
    rewrite <- minus_IZR in B1, B2. apply lt_IZR in B1. apply (lt_IZR (-1)) in B2. lia. }
  subst z'. split; congruence.
Qed.
Lemma folds_exist X u : 0 < X -> (forall z, u <> (IZR z + 1 / 2) * X) -> exists z q, folds X u z q /\ - (X / 2) < q < X / 2.
Proof.
  intros HX Ne. destruct (archimed (u / X - 1 / 2)) as (A1 & A2). set (z := Rdefinitions.up (u / X - 1 / 2)) in *.
  assert (Eu : u = u / X * X) by (field; lra). set (w := u / X) in *.
  assert (B : - (X / 2) < u - IZR z * X < X / 2).
  { split; [|rewrite Eu; apply Rmult_gt_compat_r with (r := X) in A1; lra].
    assert (IZR z - 1 / 2 <= w) by lra. destruct (Req_dec w (IZR z - 1 / 2)) as [Ew|Nw].
    - exfalso. apply (Ne (z - 1)%Z). rewrite minus_IZR, Eu, Ew. lra.
    - rewrite Eu. apply Rmult_lt_compat_r with (r := X) (r1 := IZR z - 1 / 2) (r2 := w) in HX; lra. }
  exists z, (if Z.even z then u - IZR z * X else IZR z * X - u). split; [split; auto|]. destruct (Z.even z); lra.
Qed.

(** ** Energy *)

Lemma ends_energy A X Y H f eff heff v e k o : 0 <= eff <= 1 -> 0 <= heff <= 1 -> 0 <= e -> ends A X Y H f eff heff v e k o ->
  0 <= total (map fst (arriving [o])) <= eff * e /\ (heff = 1 -> o <> None -> total (map fst (arriving [o])) = eff * e).
Proof.
  intros Hd He Pe En. inversion En; subst; cbn.
  - split; [split; [lra|apply Rmult_le_pos; lra]|]. intros _ N. congruence.
  - set (k0 := (Z.abs_nat zx + Z.abs_nat zy)%nat). assert (0 <= heff ^ k0 <= 1).
    { clear - He. induction k0; cbn; [lra|]. split; [apply Rmult_le_pos; lra|]. rewrite <- (Rmult_1_l 1). apply Rmult_le_compat; lra. }
    assert (0 <= e * eff) by (apply Rmult_le_pos; lra). split; [split|].
    + rewrite Rplus_0_r. apply Rmult_le_pos; lra.
    + rewrite Rplus_0_r. rewrite (Rmult_comm eff). rewrite <- (Rmult_1_r (e * eff)) at 2. apply Rmult_le_compat_l; lra.
    + intros -> _. rewrite pow1. ring.
Qed.

Lemma collected_energy A X Y H f eff heff : 0 <= eff <= 1 -> 0 <= heff <= 1 ->
  forall vs es ks os, length es = length vs -> length ks = length vs -> length os = length vs -> Forall (Rle 0) es ->
  (forall j v e k o, nth_error vs j = Some v -> nth_error es j = Some e -> nth_error ks j = Some k -> nth_error os j = Some o -> ends A X Y H f eff heff v e k o) ->
  0 <= total (map fst (arriving os)) <= eff * total es /\ (heff = 1 -> ~ In None os -> total (map fst (arriving os)) = eff * total es).
Proof.
  intros Hd He. induction vs as [|v vs IH]; intros [|e es] [|k ks] [|o os] L1 L2 L3 P En; try discriminate.
  - cbn. split; [split; lra|intros; lra].
  - inversion P; subst. destruct (ends_energy A X Y H f eff heff v e k o Hd He) as (B1 & B2); auto. { apply (En 0%nat); reflexivity. }
    destruct (IH es ks os) as (B3 & B4); auto. { intros j v' e' k' o' E1 E2 E3 E4. apply (En (S j)); auto. }
    assert (Es : total (map fst (arriving (o :: os))) = total (map fst (arriving [o])) + total (map fst (arriving os))).
    { unfold arriving, total. destruct o; cbn [flat_map app map fold_right fst]; ring. }
    rewrite Es. cbn [total fold_right]. fold (total es). rewrite Rmult_plus_distr_l. split; [lra|]. intros E1 N. rewrite B2, B4; auto; intros X1; apply N; [right|left]; auto.
Qed.

(** ** Cases *)

Definition beam (T : mat4) (vs : list vec) (es : list R) : bundle :=
  mkB (Some (map (app4 T) vs)) (Some (map (fun _ => turned T (V3 0 0 (-1))) vs)) (Some es) None None [].
Lemma beam_source T vs es : rigid T -> length es = length vs -> Forall (Rle 0) es -> library_source (beam T vs es) (length vs).
Proof.
  intros RT L P. split.
  - split; [|split; [|split; discriminate]].
    + unfold names_ok, beam. cbn. constructor.
    + split; [eexists; reflexivity|]. intros p l H. destruct p; cbn in H; try discriminate; injection H as <-; rewrite ?map_length; auto.
  - intros k d e D En. unfold dir_at, energy_at, at_col in D, En. cbn in D, En. rewrite nth_error_map in D.
    destruct (nth_error vs k); [|discriminate]. assert (d = turned T (V3 0 0 (-1))) by (cbn in D; congruence). subst d. split; [|split; [|discriminate]].
    + unfold is_unit. rewrite turned_unit by auto. unfold norm2, dot. cbn. ring.
    + apply nth_error_In in En. rewrite Forall_forall in P. auto.
Qed.

Lemma tiny_tens : tenm 6 < / 1000 /\ tenm 10 < tenm 6.
Proof. split; [|apply tenm_lt; lia]. unfold tenm. apply Rinv_lt_contravar; cbn; lra. Qed.

Lemma no_crossing X s : 0 < X -> crosses X 0 s -> False.
Proof. intros HX (_ & k & E). rewrite Rabs_R0, Rmult_0_r in E. pose proof (pos_INR k). assert (0 < (INR k + 1 / 2) * X) by (apply Rmult_lt_0_compat; lra). lra. Qed.

(** Four reflections in the box. *)
Lemma way_example eff heff e : ends (round_dish 2 1) (1 / 5) (1 / 5) 1 1 eff heff (V3 (2 / 3) 0 5) e 5 (Some (e * eff * heff ^ 4, V3 (1 / 20) 0 (1 + 1))) /\
  ends (round_dish 2 1) (1 / 5) (1 / 5) 1 1 eff heff (V3 (1 / 20) 0 5) e 0 None.
Proof.
  destruct tiny_tens as (T1 & T2). pose proof (tenm_pos 10) as T0. split; [|constructor 1; cbn; lra].
  apply (ends_front _ _ _ _ _ _ _ _ _ (V3 (2 / 3) 0 (1 / 9)) (10 / 9) (V3 (- (3 / 5)) 0 (4 / 5)) (-4) 0 (1 / 20) 0 4).
  - cbn. lra.
  - unfold round_dish, focal_bowl. cbn. lra.
  - reflexivity.
  - reflexivity.
  - cbn. lra.
  - unfold is_unit, norm2, dot. cbn. lra.
  - lra.
  - unfold ray_at. vunfold. cbn. veq; lra.
  - unfold clear_way. cbn [vx vy vz]. split; [lra|]. split; [lra|]. split; [|split].
    + intros s (Ps & k & E) Le. rewrite Rabs_Ropp, Rabs_right in * by lra. split; [lra|].
      assert (k <= 3)%nat. { apply INR_le. destruct (le_lt_dec k 3) as [K|K]; [apply le_INR in K; exact K|]. apply lt_INR in K. cbn in K. assert (INR k + 1 / 2 <= 15 / 4) by lra.
        assert (K4 : (4 <= k)%nat). { destruct (le_lt_dec 4 k); auto. exfalso. assert (k <= 3)%nat by lia. apply le_INR in H0. cbn in H0. lra. }
        apply le_INR in K4. cbn in K4. lra. }
      apply le_INR in H. cbn in H. lra.
    + intros s C. exfalso. apply no_crossing in C; auto. lra.
    + intros s s' _ C. exfalso. apply no_crossing in C; auto. lra.
  - split; cbn; lra.
  - split; cbn; lra.
  - reflexivity.
Qed.

(** A standard collector designed for no virtual sources: the light from the edge of
    the dish meets the box. *)
Lemma edge_way f W H z e : standard_measures 1 450 0 = Ok (f, W, H) -> 1 / 2 < z ->
  ends (round_dish 1 f) W W H f 1 1 (V3 (1 / 2) 0 z) e 2 (Some (e * 1 * 1 ^ 1, V3 (H - W) 0 (f + H))).
Proof.
  intros Em Hz. destruct tiny_tens as (T1 & T2). pose proof (tenm_pos 10) as T0.
  assert (E : f = 1 / 4 / (sqrt 2 - 1) /\ W = 1 / 2 * sqrt (PI / 450) /\ H = (0 + 1) * W * f / (1 - (0 + 1) * W)).
  { revert Em. unfold standard_measures. repeat match goal with |- context [if ?b then _ else _] => destruct b end; cbn; try discriminate; intros Em; injection Em as <- <- <-; auto. }
  destruct E as (Ef & EW & EH). clear Em.
  assert (S2 : sqrt 2 * sqrt 2 = 2) by (apply sqrt_sqrt; lra). assert (S0 : 0 < sqrt 2) by (apply sqrt_lt_R0; lra). set (s2 := sqrt 2) in *.
  assert (S3 : 14 / 10 < s2) by nra. assert (S4 : s2 < 145 / 100) by nra.
  assert (Ef' : f = (s2 + 1) / 4). { rewrite Ef. apply Rmult_eq_reg_r with (4 * (s2 - 1)); [|lra]. replace (1 / 4 / (s2 - 1) * (4 * (s2 - 1))) with 1 by (field; lra). lra. }
  clear Ef. pose proof PI_4 as P4. pose proof PI2_3_2 as P3.
  assert (W1 : 1 / 25 < W). { rewrite EW. assert (2 / 25 < sqrt (PI / 450)); [|lra]. rewrite <- (sqrt_square (2 / 25)) by lra. apply sqrt_lt_1; lra. }
  assert (W2 : W < 1 / 20). { rewrite EW. assert (sqrt (PI / 450) < 1 / 10); [|lra]. rewrite <- (sqrt_square (1 / 10)) by lra. apply sqrt_lt_1; lra. }
  clear EW P3 P4.
  assert (EH' : H * (1 - W) = W * f) by (rewrite EH; field; lra). clear EH.
  assert (Hf1 : 6 / 10 < f) by lra. assert (Hf2 : f < 62 / 100) by lra.
  assert (HH0 : 0 < H). { apply Rmult_lt_reg_r with (1 - W); [lra|]. rewrite Rmult_0_l, EH'. apply Rmult_lt_0_compat; lra. }
  assert (HH1 : 6 / 10 * W < H). { apply Rmult_lt_reg_r with (1 - W); [lra|]. rewrite EH'. nra. }
  assert (HH2 : H < 7 / 10 * W). { apply Rmult_lt_reg_r with (1 - W); [lra|]. rewrite EH'. nra. }
  assert (Ez : H / (s2 / 2) = H * s2). { apply Rmult_eq_reg_r with (s2 / 2); [|lra]. replace (H / (s2 / 2) * (s2 / 2)) with H by (field; lra). rewrite Rmult_assoc. replace (s2 * (s2 / 2)) with 1 by lra. ring. }
  apply (ends_front _ _ _ _ _ _ _ _ _ (V3 (1 / 2) 0 ((s2 - 1) / 4)) (s2 / 2) (V3 (- (s2 / 2)) 0 (s2 / 2)) (-1) 0 (H - W) 0 1).
  - cbn. lra.
  - unfold round_dish, focal_bowl. cbn. rewrite Ef'. split; [|lra]. replace (4 * ((s2 + 1) / 4) * ((s2 - 1) / 4)) with ((s2 * s2 - 1) / 4) by field. rewrite S2. field.
  - reflexivity.
  - reflexivity.
  - cbn. lra.
  - unfold is_unit, norm2, dot. cbn. lra.
  - lra.
  - unfold ray_at. vunfold. cbn. veq; lra.
  - unfold clear_way. cbn [vx vy vz]. rewrite Ez. split; [lra|]. split; [rewrite Ef'; nra|]. split; [|split].
    + intros s (Ps & k & E) Le. rewrite Rabs_Ropp, Rabs_right in * by lra. split; [lra|].
      assert (Lk : s * (s2 / 2) <= H). { replace H with (H * s2 * (s2 / 2)); [|rewrite Rmult_assoc; replace (s2 * (s2 / 2)) with 1 by lra; ring]. apply Rmult_le_compat_r; lra. }
      destruct k as [|k].
      * cbn in E. apply Rmult_lt_reg_r with (s2 / 2); [lra|]. rewrite (Rmult_assoc H). replace (s2 * (s2 / 2)) with 1 by lra. rewrite Rmult_plus_distr_r, E.
        assert (tenm 6 * (s2 / 2) < 1 / 1000); [|lra]. replace (1 / 1000) with (/ 1000 * 1) by field. apply Rmult_le_0_lt_compat; lra.
      * exfalso. rewrite S_INR in E. pose proof (pos_INR k). assert (1 * W <= (INR k + 1 + 1 / 2) * W) by (apply Rmult_le_compat_r; lra). lra.
    + intros s C. exfalso. apply no_crossing in C; auto. lra.
    + intros s s' _ C. exfalso. apply no_crossing in C; auto. lra.
  - cbn [vx vz]. rewrite Ez. replace (H * s2 * - (s2 / 2)) with (- H) by (rewrite Rmult_assoc; replace (s2 * - (s2 / 2)) with (-1) by lra; ring). split; cbn; lra.
  - cbn [vy]. rewrite Rmult_0_r. split; cbn; lra.
  - reflexivity.
Qed.

Lemma folds_top X u : 0 < X -> (forall z, u <> (IZR z + 1 / 2) * X) ->
  exists z q, folds X u z q /\ - (X / 2) < q < X / 2 /\ forall z' q', folds X u z' q' -> z' = z /\ q' = q.
Proof. intros HX Ne. destruct (folds_exist X u HX Ne) as (z & q & F & B). exists z, q. do 2 (split; auto). intros z' q' F'. eapply folds_unique; eauto. Qed.
Lemma folds_example : 0 < 1 / 5 /\ forall z, - (3 / 4) <> (IZR z + 1 / 2) * (1 / 5).
Proof.
  split; [lra|]. intros z E. assert (E' : 4 * IZR z = -17) by lra. rewrite <- mult_IZR in E'. apply (eq_IZR (4 * z) (-17)) in E'. lia.
Qed.

(** ** Light from anywhere *)

Lemma course_energy A X Y H f eff heff v d e k o : 0 <= eff <= 1 -> 0 <= heff <= 1 -> 0 <= e -> course A X Y H f eff heff v d e k o ->
  0 <= total (map fst (arriving [o])) <= eff * e /\ (heff = 1 -> o <> None -> total (map fst (arriving [o])) = eff * e).
Proof.
  intros Hd He Pe En. assert (0 <= eff * e) by (apply Rmult_le_pos; lra). inversion En; subst; cbn; try (split; [lra|intros _ N; congruence]).
  set (k0 := (Z.abs_nat zx + Z.abs_nat zy)%nat). assert (0 <= heff ^ k0 <= 1).
  { clear - He. induction k0; cbn; [lra|]. split; [apply Rmult_le_pos; lra|]. rewrite <- (Rmult_1_l 1). apply Rmult_le_compat; lra. }
  rewrite Rplus_0_r, (Rmult_comm e). split; [split; [apply Rmult_le_pos; lra|]|].
  - rewrite <- (Rmult_1_r (eff * e)) at 2. apply Rmult_le_compat_l; lra.
  - intros -> _. rewrite pow1. ring.
Qed.

Lemma caught_energy A X Y H f eff heff : 0 <= eff <= 1 -> 0 <= heff <= 1 ->
  forall vs ds es ks os me, length ds = length vs -> length es = length vs -> length ks = length vs -> length os = length vs -> Forall (Rle 0) es ->
  (forall j v d e k o, nth_error vs j = Some v -> nth_error ds j = Some d -> nth_error es j = Some e -> nth_error ks j = Some k -> nth_error os j = Some o ->
     course A X Y H f eff heff v d e k o) ->
  0 <= total (map fst (strong me (arriving os))) <= eff * total es /\
  (heff = 1 -> ~ In None os -> Forall (fun e => me < eff * e) es -> total (map fst (strong me (arriving os))) = eff * total es).
Proof.
  intros Hd He. induction vs as [|v vs IH]; intros [|d ds] [|e es] [|k ks] [|o os] me L0 L1 L2 L3 P En; try discriminate.
  - cbn. split; [split; lra|intros; lra].
  - inversion P; subst. destruct (course_energy A X Y H f eff heff v d e k o Hd He) as (B1 & B2); auto. { apply (En 0%nat); reflexivity. }
    destruct (IH ds es ks os me) as (B3 & B4); auto. { intros j v' d' e' k' o' E1 E2 E3 E4 E5. apply (En (S j)); auto. }
    assert (0 <= eff * e) by (apply Rmult_le_pos; lra).
    cbn [total fold_right]. fold (total es). rewrite Rmult_plus_distr_l. destruct o as [[e1 p]|].
    + cbn [arriving flat_map app map fst total fold_right] in B1, B2. rewrite Rplus_0_r in B1, B2. unfold arriving. cbn [flat_map app]. fold (arriving os). unfold strong. cbn [filter fst].
      fold (strong me (arriving os)). destruct (Rlt_dec me e1) as [M|M].
      * unfold total in *. cbn [map fold_right fst]. split; [lra|]. intros E1 N F. inversion F; subst. rewrite B2, B4; auto; [|discriminate]. intros X1. apply N. right. auto.
      * split; [lra|]. intros E1 N F. inversion F; subst. exfalso. apply M. rewrite B2; auto. discriminate.
    + unfold arriving. cbn [flat_map app]. fold (arriving os). split; [lra|]. intros E1 N. exfalso. apply N. left. auto.
Qed.

Definition lights (T : mat4) (vs ds : list vec) (es : list R) : bundle :=
  mkB (Some (map (app4 T) vs)) (Some (map (turned T) ds)) (Some es) None None [].
Lemma lights_source T vs ds es : rigid T -> length ds = length vs -> length es = length vs -> Forall is_unit ds -> Forall (Rle 0) es ->
  library_source (lights T vs ds es) (length vs).
Proof.
  intros RT Ld L U P. split.
  - split; [|split; [|split; discriminate]].
    + unfold names_ok, lights. cbn. constructor.
    + split; [eexists; reflexivity|]. intros p l H. destruct p; cbn in H; try discriminate; injection H as <-; rewrite ?map_length; auto.
  - intros k d e D En. unfold dir_at, energy_at, at_col in D, En. cbn in D, En. rewrite nth_error_map in D.
    destruct (nth_error ds k) as [d0|] eqn:Ek; [|discriminate]. assert (d = turned T d0) by (cbn in D; congruence). subst d. split; [|split; [|discriminate]].
    + apply nth_error_In in Ek. rewrite Forall_forall in U. unfold is_unit. rewrite turned_unit by auto. apply U. auto.
    + apply nth_error_In in En. rewrite Forall_forall in P. auto.
Qed.

(** Four rays: into the box and folded once, back past the box, past everything, onto the
    back of the receiver. *)
Definition slant : vec := V3 (200 / 10001) 0 (- (9999 / 10001)).
Definition steep : vec := V3 (24 / 25) 0 (- (7 / 25)).
Lemma directions_unit : Forall is_unit [slant; steep; V3 0 0 (-1); V3 0 0 (-1)].
Proof. repeat constructor; unfold is_unit, norm2, dot, slant, steep; cbn; lra. Qed.

Lemma outside_box X Y H f B z p : In (B, z) (sides X Y H f) -> B p -> - (X / 2) <= vx p <= X / 2 /\ - (Y / 2) <= vy p <= Y / 2 \/ X < 0 \/ Y < 0.
Proof. intros I Bp. cbn [In sides] in I. destruct I as [I|[I|[I|[I|[I|[I|[]]]]]]]; injection I as <- <-; lra. Qed.

Lemma caught_example eff heff e : let A := round_dish (7 / 2) 1 in let c := course A (1 / 2) (1 / 2) (1 / 8) 1 eff heff in
  c (V3 (7 / 5) 0 (2781 / 500)) slant e 2%nat (Some (e * eff * heff ^ 1, V3 (- (30774 / 149586)) 0 (1 + 1 / 8))) /\
  c (V3 (27 / 50) 0 (337 / 400)) steep e 1%nat None /\
  c (V3 5 0 5) (V3 0 0 (-1)) e 0%nat None /\
  c (V3 (1 / 10) 0 5) (V3 0 0 (-1)) e 0%nat None.
Proof.
  intros A c. unfold c. clear c. destruct tiny_tens as (T1 & T2). pose proof (tenm_pos 10) as T0. pose proof (tenm_pos 6) as T6.
  assert (T3 : tenm 6 < / 100000) by (unfold tenm; apply Rinv_lt_contravar; cbn; lra).
  assert (Sd : dish_safe 1 slant) by (left; unfold slant; cbn; lra).
  assert (Axial : forall z, z <> 0 -> dish_safe 1 (V3 0 0 z)) by (intros z Z; right; cbn; auto).
  assert (Out : forall p B z, In (B, z) (sides (1 / 2) (1 / 2) (1 / 8) 1) -> 1 / 4 < vx p -> ~ B p).
  { intros p B z I L Bp. destruct (outside_box _ _ _ _ _ _ _ I Bp) as [?|[?|?]]; lra. }
  split; [|split; [|split]].
  - apply (course_in A _ _ _ _ _ _ _ _ _ (V3 (3 / 2) 0 (9 / 16)) (V3 (- (238576 / 250025)) 0 (74793 / 250025)) (V3 (15625 / 149586) 0 1) (-1) 0 _ 0 1); auto.
    + exists (10001 / 2000), (V3 (- (3 / 5)) 0 (4 / 5)), (- (2 / 5)). split; [lra|]. split; [unfold ray_at, slant; vunfold; cbn; veq; lra|].
      split; [unfold A, round_dish, focal_bowl; cbn; lra|]. split; [|split; [|split; [|split]]].
      * intros B z s I S. eapply Out; [exact I|]. unfold ray_at, slant. cbn. lra.
      * intros s S (F & _). unfold focal_bowl, ray_at, slant in F. cbn in F. assert (Q : 0 <= 7 / 5 + s * (200 / 10001) <= 3 / 2) by lra. nra.
      * unfold is_unit, norm2, dot. cbn. lra.
      * unfold bowl_normal. vunfold. cbn. veq; lra.
      * unfold mirrored, tangential, slant, dot. vunfold. cbn. split; [lra|veq; lra].
    + exists (7 / 16 * (250025 / 74793)). split; [lra|]. split; [unfold ray_at; vunfold; cbn; veq; lra|]. cbn [vx vy vz]. split; [lra|]. split; [lra|]. split; [lra|].
      intros s S (F & _). unfold focal_bowl, ray_at in F. cbn in F.
      assert (Q : 0 <= (3 / 2 + s * - (238576 / 250025)) <= 3 / 2) by lra. nra.
    + unfold clear_inside. cbn [vx vy vz]. split; [lra|]. split; [lra|]. split; [|split].
      * intros s (Ps & z & E) Le. split; [rewrite Rabs_Ropp, Rabs_right; lra|].
        assert (IZR z < 0) by lra. assert (-2 < IZR z) by lra. assert (z = -1)%Z as ->. { apply lt_IZR in H. apply (lt_IZR (-2)) in H0. lia. } lra.
      * intros s (Ps & z & E) Le. exfalso. assert (Q : 2 * IZR z = -1) by lra. rewrite <- mult_IZR in Q. apply (eq_IZR _ (-1)) in Q. lia.
      * intros s s' _ (Ps & z & E). exfalso. assert (Q : 2 * IZR z = -1) by lra. rewrite <- mult_IZR in Q. apply (eq_IZR _ (-1)) in Q. lia.
    + split; cbn; lra.
    + split; cbn; lra.
  - apply (course_spilled A _ _ _ _ _ _ _ _ _ (V3 (3 / 2) 0 (9 / 16)) (V3 0 0 1)).
    + left. unfold steep. cbn. lra.
    + exists 1, (V3 (- (3 / 5)) 0 (4 / 5)), (- (2 / 5)). split; [lra|]. split; [unfold ray_at, steep; vunfold; cbn; veq; lra|].
      split; [unfold A, round_dish, focal_bowl; cbn; lra|]. split; [|split; [|split; [|split]]].
      * intros B z s I S. eapply Out; [exact I|]. unfold ray_at, steep. cbn. lra.
      * intros s S (F & _). unfold focal_bowl, ray_at, steep in F. cbn in F. assert (Q : 0 <= 27 / 50 + s * (24 / 25) <= 3 / 2) by lra. nra.
      * unfold is_unit, norm2, dot. cbn. lra.
      * unfold bowl_normal. vunfold. cbn. veq; lra.
      * unfold mirrored, tangential, steep, dot. vunfold. cbn. split; [lra|veq; lra].
    + apply Axial. lra.
    + left. split.
      * intros t B z s I S. eapply Out; [exact I|]. unfold ray_at. cbn. lra.
      * intros s S (F & _). unfold focal_bowl, ray_at in F. cbn in F. lra.
  - apply course_past; [apply Axial; lra|]. split.
    + intros t B z s I S. eapply Out; [exact I|]. unfold ray_at. cbn. lra.
    + intros s S (_ & F). unfold ray_at in F. cbn in F. lra.
  - apply ends_course; try lra; [|apply ends_back; cbn; lra]. intros q Aq. apply (below_focus (7 / 2)); [lra|lra|exact Aq].
Qed.
