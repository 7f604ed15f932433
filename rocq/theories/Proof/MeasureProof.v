(** The measures of the minidish and the histogram of a receiver. *)
From Coq Require Import Reals List Arith Bool Lia Lra.
From Verif.Base Require Import Py Num Vec.
From Verif.Model Require Import RayBundle Spatial Geometry Engine Objects OpticsCallables Surface Assembly Scene Models.
From Verif.Proof Require Import ListLemmas NumLemmas VecLemmas SpatialProof FlatProof GeomTop FrameProof PlaceTop GrowProof ViewProof SceneProof ActProof ModelProof ModelTop HistProof ReceiverTop.
From Verif.Proof Require GeomCases.
From Verif.Model Require Sources.
From Verif.Spec Require Import BundleSpec EngineSpec GeometrySpec OpticsSpec FrameSpec SceneSpec ModelSpec.
Import ListNotations.
Local Open Scope R_scope.

Lemma sqrt2 : sqrt 2 * sqrt 2 = 2 /\ 1 < sqrt 2.
Proof. split; [apply sqrt_sqrt; lra|]. rewrite <- sqrt_1. apply sqrt_lt_1; lra. Qed.

Lemma measures_ok D C v : 0 < D -> 0 < C -> 0 <= v -> (v + 1) * (D / 2 * sqrt (PI / C)) < D ->
  exists f W H, standard_measures D C v = Ok (f, W, H) /\ 0 < f /\ 0 < W /\ 0 < H /\
    rim_angle D f (PI / 4) /\ W * W * C = PI * (D / 2 * (D / 2)) /\ H * D = (v + 1) * W * (f + H).
Proof.
  intros HD HC Hv L. destruct sqrt2 as (S2 & L2). pose proof PI_RGT_0 as HP.
  assert (Q : 0 < PI / C) by (apply Rdiv_lt_0_compat; auto).
  pose proof (sqrt_lt_R0 _ Q) as Sq. pose proof (sqrt_sqrt _ (Rlt_le _ _ Q)) as SS.
  unfold standard_measures. set (W := D / 2 * sqrt (PI / C)) in *. set (f := D / 4 / (sqrt 2 - 1)).
  assert (Hf : 0 < f) by (unfold f; apply Rdiv_lt_0_compat; lra).
  assert (HW : 0 < W) by (unfold W; nra).
  rewrite (proj2 (Reqb_false C 0)), (proj2 (Rltb_false (PI / C) 0)) by lra.
  cbv zeta. fold W. rewrite (proj2 (Reqb_false (D - (v + 1) * W) 0)) by lra.
  exists f, W, ((v + 1) * W * f / (D - (v + 1) * W)). split; auto. split; auto. split; auto.
  split. { apply Rdiv_lt_0_compat; [|lra]. apply Rmult_lt_0_compat; auto. apply Rmult_lt_0_compat; lra. }
  split; [|split].
  - assert (Ef : f = D * (sqrt 2 + 1) / 4).
    { unfold f. apply (Rmult_eq_reg_r (sqrt 2 - 1)); [|lra]. unfold Rdiv. rewrite (Rmult_assoc _ (/ (sqrt 2 - 1))), Rinv_l by lra. nra. }
    assert (Half : D / sqrt 2 * (1 / sqrt 2) = D / 2).
    { apply (Rmult_eq_reg_r (sqrt 2 * sqrt 2)); [|nra]. transitivity D; [field; lra|]. rewrite S2. field. }
    exists (D * (sqrt 2 - 1) / 4), (D / sqrt 2). split.
    + unfold rim_height, focal_bowl. cbn. rewrite Ef. nra.
    + split; [apply Rdiv_lt_0_compat; lra|]. split; [lra|]. rewrite sin_PI4, cos_PI4. split.
      * rewrite Half. reflexivity.
      * rewrite Half, Ef. field.
  - unfold W. replace (D / 2 * sqrt (PI / C) * (D / 2 * sqrt (PI / C)) * C) with (D / 2 * (D / 2) * (sqrt (PI / C) * sqrt (PI / C)) * C) by ring.
    rewrite SS. field. lra.
  - field. lra.
Qed.

(** As many virtual sources as the documentation allows. *)
Lemma measures_limit D C v : 0 < D -> 0 < C -> v = D / (D / 2 * sqrt (PI / C)) - 1 -> standard_measures D C v = Err ZeroDivisionError.
Proof.
  intros HD HC ->. pose proof PI_RGT_0 as HP. assert (Q : 0 < PI / C) by (apply Rdiv_lt_0_compat; auto).
  pose proof (sqrt_lt_R0 _ Q) as Sq. unfold standard_measures. cbv zeta.
  rewrite (proj2 (Reqb_false C 0)), (proj2 (Rltb_false (PI / C) 0)) by lra.
  set (W := D / 2 * sqrt (PI / C)). assert (HW : 0 < W) by (unfold W; nra).
  rewrite (proj2 (Reqb_true _ 0)); auto. field. lra.
Qed.

Lemma standard_top limit D C v eff heff sc : reached limit sc -> 0 < D -> 0 < C -> 0 <= v -> (v + 1) * (D / 2 * sqrt (PI / C)) < D -> (3 <= limit)%nat ->
  exists sc' r f W H, standard_minidish limit D C v eff heff sc = (sc', Ok (r, (f, W, H))) /\ standard_measures D C v = Ok (f, W, H) /\
    collector limit sc sc' r (f + H) W W H heff (fun _ => False) (round_reflector D f eff).
Proof.
  intros R HD HC Hv L Ll. destruct (measures_ok D C v HD HC Hv L) as (f & W & H & E & Hf & HW & HH & _).
  destruct (minidish_top limit D f eff (f + H) W H heff 1 sc R Hf HW Rlt_0_1 HH Ll) as (sc' & r & Em & Co).
  rewrite Rmult_1_r in Co. exists sc', r, f, W, H. split; auto. unfold standard_minidish.
  erewrite bbind_ok by (apply calc_ok; exact E). cbv iota beta. erewrite bbind_ok by exact Em. reflexivity.
Qed.

(** ** Histograms of hits *)

Lemma local_of frame qs s : rigid frame -> s_frame s = frame ->
  exists ls, global_to_local s (map (app4 frame) qs) = Ok ls /\ map (fun p => (w0 p, w1 p)) ls = map (fun q => (vx q, vy q)) qs.
Proof.
  intros Rg <-. pose proof (global_to_local_top s (map (app4 (s_frame s)) qs)) as T.
  destruct (global_to_local s (map (app4 (s_frame s)) qs)) as [ls|e] eqn:E.
  - exists ls. split; auto. destruct T as (_ & F). clear E. revert ls F. induction qs as [|q qs IH]; intros ls F; inversion F; subst; auto.
    cbn [map]. f_equal; auto. destruct H1 as (_ & U). rewrite <- (U (hom q)); auto.
    destruct Rg as (r & t & -> & _). unfold app4, mk4, mv4, dot4, hom, v4_3. cbn. f_equal; ring.
  - destruct T as (_ & N). exfalso. apply N. destruct Rg as (r & t & -> & O). apply inv4_ok_iff. eexists. apply inv4_mk4. auto.
Qed.

Lemma histogram_top r sc s id o X Y bins g es qs : surface_now (hr_rec r) sc = (sc, Ok s) -> s_opt s = Accountant id o ->
  rigid (s_frame s) -> hr_sides r = (X, Y) -> 0 < X -> 0 < Y -> (0 < bins)%nat ->
  get_all_hits (g_acc g id) = Ok (es, map (app4 (s_frame s)) qs) -> length es = length qs ->
  exists H xe ye, histogram_hits r bins g sc = (sc, Ok (H, xe, ye)) /\
    xe = map (fun i => - (X / 2) + INR i * (X / INR bins)) (seq 0 (S bins)) /\
    ye = map (fun i => - (Y / 2) + INR i * (Y / INR bins)) (seq 0 (S bins)) /\
    length H = bins /\ (forall row, In row H -> length row = bins) /\
    (forall i j, (i < bins)%nat -> (j < bins)%nat -> exists row t, nth_error H i = Some row /\ nth_error row j = Some t /\
       sum_where (fun h => in_bin (- (X / 2)) (X / 2) bins i (vx (fst h)) /\ in_bin (- (Y / 2)) (Y / 2) bins j (vy (fst h))) snd (combine qs es) t) /\
    sum_where (fun h => - (X / 2) <= vx (fst h) <= X / 2 /\ - (Y / 2) <= vy (fst h) <= Y / 2) snd (combine qs es) (total (concat H)) /\
    (Forall (rectangle X Y) qs -> total (concat H) = total es).
Proof.
  intros Es Eo Rg Ed HX HY Hb Eg El. destruct (local_of _ qs s Rg eq_refl) as (ls & Ll & Em).
  assert (V : forall (P : R * R -> Prop) t, sum_where (fun s => P (fst s)) snd (combine (map (fun p => (w0 p, w1 p)) ls) es) t ->
      sum_where (fun h => P (vx (fst h), vy (fst h))) snd (combine qs es) t).
  { rewrite Em. clear. revert es. induction qs as [|q qs IH]; intros es P t Su; [cbn in *; inversion Su; constructor|].
    destruct es as [|e es]; [cbn in *; inversion Su; constructor|]. cbn [map combine] in *. inversion Su; subst; cbn [fst snd] in *.
    - apply (sum_in _ snd (q, e)); auto. 
    - apply (sum_out _ snd (q, e)); auto. }
  destruct (hist_ok (combine (map (fun p => (w0 p, w1 p)) ls) es) bins (X / 2) (Y / 2)) as (H & xe & ye & E & Ex & Ey & Lh & Lr & Ce & To); auto; try lra.
  exists H, xe, ye. split.
  { unfold histogram_hits. erewrite bbind_ok by exact Es. unfold calc. rewrite Eo, Eg. cbn [bind]. rewrite Ll. cbn [bind]. rewrite Ed. cbn [fst snd]. rewrite E. reflexivity. }
  split. { rewrite Ex. apply map_ext. intros i. do 2 f_equal. field. pose proof (lt_0_INR _ Hb). lra. }
  split. { rewrite Ey. apply map_ext. intros i. do 2 f_equal. field. pose proof (lt_0_INR _ Hb). lra. }
  split; auto. split; auto. split.
  { intros i j Hi Hj. destruct (Ce i j Hi Hj) as (row & t & E1 & E2 & Su). exists row, t. split; auto. split; auto.
    apply (V (fun xy => in_bin (- (X / 2)) (X / 2) bins i (fst xy) /\ in_bin (- (Y / 2)) (Y / 2) bins j (snd xy))). exact Su. }
  pose proof (V (fun xy => - (X / 2) <= fst xy <= X / 2 /\ - (Y / 2) <= snd xy <= Y / 2) _ To) as To'. split; [exact To'|].
  intros Fa. clear - To' Fa El. revert es El To'. generalize (total (concat H)). induction qs as [|q qs IH]; intros t es El Su.
  - destruct es; [|discriminate]. inversion Su. reflexivity.
  - destruct es as [|e es]; [discriminate|]. inversion Fa as [|? ? Rq Fq]; subst. inversion Su; subst; cbn [fst snd] in *.
    + cbn. rewrite (IH Fq t0 es); auto.
    + exfalso. match goal with N : ~ _ |- _ => apply N end. destruct Rq as (_ & A & B). lra.
Qed.

(** ** Cases *)

Lemma measures_example : 0 < 10 /\ 0 < 500 /\ 0 <= 4 /\ (4 + 1) * (10 / 2 * sqrt (PI / 500)) < 10.
Proof.
  pose proof PI_4. pose proof PI_RGT_0. split; [lra|]. split; [lra|]. split; [lra|].
  assert (sqrt (PI / 500) < / 10); [|lra]. rewrite <- (sqrt_square (/ 10)) by lra. apply sqrt_lt_1; lra.
Qed.

(** The docstring of PETAL has the aspect change the x dimension. *)
Lemma aspect_refuted limit D f eff pos side H heff aspect sc : reached limit sc -> 0 < f -> 0 < side -> 0 < aspect -> 0 < H -> (3 <= limit)%nat ->
  aspect <> 1 -> exists sc' r, petal limit D f eff pos side H heff aspect sc = (sc', Ok r) /\ hr_sides r <> (side * aspect, side).
Proof.
  intros R Hf Hs Ha HH L Na. destruct (petal_top limit D f eff pos side H heff aspect sc R Hf Hs Ha HH L) as (sc' & r & E & C).
  exists sc', r. split; auto. destruct C as (_ & _ & _ & _ & _ & -> & _). intros X. injection X as X _.
  apply Na. apply (Rmult_eq_reg_l side); [|lra]. lra.
Qed.

Lemma histogram_example : let g := mkG (Sources.mkRng (fun _ => 0) 0) (fun _ => mkAcc [[2; 3]] [[V3 (1 / 4) 0 0; V3 1 1 0]]) in
  get_all_hits (g_acc g 0) = Ok ([2; 3], map (app4 id4) [V3 (1 / 4) 0 0; V3 1 1 0]) /\ rectangle 2 2 (V3 1 1 0) /\ in_bin (-1) 1 2 1 1.
Proof.
  split; [|split].
  - assert (I : forall q, app4 id4 q = q) by (intros []; unfold app4, id4; vunfold; cbn; f_equal; ring). rewrite (map_ext _ (fun q => q) I), map_id. reflexivity.
  - unfold rectangle; cbn; repeat split; rewrite ?Rabs_R1; try lra; try (rewrite Rabs_right; lra).
  - unfold in_bin. cbn. split; [lra|]. right. auto.
Qed.

Lemma bins_partition lo hi n x : lo < hi -> (0 < n)%nat ->
  (lo <= x <= hi -> exists i, (i < n)%nat /\ in_bin lo hi n i x) /\
  (forall i, (i < n)%nat -> in_bin lo hi n i x -> lo <= x <= hi) /\
  forall i j, (i < n)%nat -> (j < n)%nat -> in_bin lo hi n i x -> in_bin lo hi n j x -> i = j.
Proof.
  intros Hr Hn. pose proof (inside_iff lo hi n Hr Hn x) as I. split; [|split].
  - intros B. apply I in B as (i & L & E). exists i. split; auto. apply bin_iff; auto.
  - intros i L B. apply I. exists i. split; auto. apply bin_iff; auto.
  - intros i j Li Lj Bi Bj. apply bin_iff in Bi, Bj; auto. lia.
Qed.

Lemma dish_example : (exists gm, new_dish 4 1 = Ok gm) /\ (exists gm, new_hex_dish 4 1 = Ok gm) /\
  rigid (translate 1 2 3) /\ round_dish 4 1 (V3 2 0 1).
Proof.
  split; [apply GeomCases.dish_accepted; lra|]. split; [apply GeomCases.hex_accepted; lra|]. split; [apply rigid_translate|].
  unfold round_dish, focal_bowl. cbn. lra.
Qed.
