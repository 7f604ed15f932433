(** The tower plant: the field of the example leaves all ways free. *)
From Coq Require Import Reals List Arith Bool Lia Lra.
From Verif.Base Require Import Py Num Vec.
From Verif.Model Require Import RayBundle Spatial Geometry TraceTree Engine Objects OpticsCallables Surface Assembly Scene Models Tower.
From Verif.Proof Require Import NumLemmas VecLemmas SpatialProof StaggerProof ListLemmas ViewProof SceneProof ModelProof ModelTop AimProof ModelExamples TowerProof TowerScene.
From Verif.Spec Require Import GeometrySpec OpticsSpec FrameSpec SceneSpec ModelSpec TowerSpec.
Import ListNotations.
Local Open Scope R_scope.

(** ** Distances in the field *)

Lemma cos_16 : cos (PI / 8) <= 925 / 1000 /\ cos (PI / 16) <= 982 / 1000.
Proof.
  assert (P : 3 < PI) by (pose proof PI2_3_2; lra). pose proof PI_4 as P4.
  assert (S2 : sqrt 2 <= 142 / 100).
  { rewrite <- (sqrt_square (142 / 100)) by lra. apply sqrt_le_1; lra. }
  assert (C4 : cos (PI / 4) <= 71 / 100).
  { rewrite cos_PI4. replace (1 / sqrt 2) with (sqrt 2 / 2); [lra|]. pose proof (sqrt_lt_R0 2 ltac:(lra)). pose proof (sqrt_sqrt 2 ltac:(lra)).
    apply (Rmult_eq_reg_r (2 * sqrt 2)); [field_simplify; nra|lra]. }
  assert (H : forall x b c, cos (2 * x) <= b -> 0 <= c -> (1 + b) / 2 <= c * c -> cos x <= c).
  { intros x b c Hx Hc Hb. rewrite cos_2a_cos in Hx. destruct (Rle_dec (cos x) c); auto. exfalso. nra. }
  assert (C8 : cos (PI / 8) <= 925 / 1000).
  { apply (H _ (71 / 100)); try lra. replace (2 * (PI / 8)) with (PI / 4) by field. auto. }
  split; auto. apply (H _ (925 / 1000)); try lra. replace (2 * (PI / 16)) with (PI / 8) by field. auto.
Qed.

Lemma cos_apart b x : 0 <= b -> b <= Rabs x <= PI -> cos x <= cos b.
Proof.
  intros Hb (A & B). replace (cos x) with (cos (Rabs x)); [apply cos_decr_1; lra|].
  unfold Rabs. destruct (Rcase_abs x); [apply cos_neg|auto].
Qed.

(** Two points given by radius and angle. *)
Lemma polar_distance r a r' a' :
  (r * cos a - r' * cos a') * (r * cos a - r' * cos a') + (r * sin a - r' * sin a') * (r * sin a - r' * sin a') =
  (r - r') * (r - r') + 2 * (r * r') * (1 - cos (a - a')).
Proof.
  rewrite cos_minus. pose proof (sin2_cos2 a) as A. pose proof (sin2_cos2 a') as B. unfold Rsqr in *.
  replace ((r * cos a - r' * cos a') * (r * cos a - r' * cos a') + (r * sin a - r' * sin a') * (r * sin a - r' * sin a')) with
    (r * r * (sin a * sin a + cos a * cos a) + r' * r' * (sin a' * sin a' + cos a' * cos a') - 2 * (r * r') * (cos a * cos a' + sin a * sin a')) by ring.
  rewrite A, B. ring.
Qed.

(** The field of the example, or a sparser one. *)
Definition at_index (rr ar : R) (ij : nat * nat) : vec :=
  let xy := stagger_position (- PI / 4) ar 5 rr ij in V3 (fst xy) (snd xy) 0.
Definition in_plant (rr ar : R) (ij : nat * nat) : Prop := staggered (- PI / 4) (PI / 4 + 1 / 10000) ar 5 20 rr ij.

Lemma plant_positions rr ar : 0 < rr -> 0 < ar -> exists idx, tower_positions rr ar = Ok (map (at_index rr ar) idx) /\
  NoDup idx /\ forall ij, In ij idx <-> in_plant rr ar ij.
Proof.
  intros Hr Ha. destruct (stagger_ok (- PI / 4) (PI / 4 + 1 / 10000) ar 5 20 rr Ha Hr) as (idx & E & Nd & M).
  exists idx. split; [|auto]. unfold tower_positions. rewrite E. cbn [bind]. rewrite map_map. reflexivity.
Qed.

Lemma index_gap i j : (i <> j)%nat -> 1 <= Rabs (INR i - INR j).
Proof.
  intros N. destruct (Nat.lt_ge_cases i j) as [L|L].
  - rewrite Rabs_left1 by (apply lt_INR in L; lra). assert (INR (S i) <= INR j) by (apply le_INR; lia). rewrite S_INR in H. lra.
  - rewrite Rabs_right by (apply le_INR in L; lra). assert (INR (S j) <= INR i) by (apply le_INR; lia). rewrite S_INR in H. lra.
Qed.
Lemma index_gap2 i j : (i <> j)%nat -> (Nat.Even i <-> Nat.Even j) -> 2 <= Rabs (INR i - INR j).
Proof.
  intros N P. assert (K : (i + 2 <= j \/ j + 2 <= i)%nat).
  { destruct (Nat.Even_or_Odd i) as [(x & X)|(x & X)], (Nat.Even_or_Odd j) as [(y & Y)|(y & Y)]; try lia; exfalso.
    - destruct (proj1 P) as (z & Z); [exists x; auto|]. lia.
    - destruct (proj2 P) as (z & Z); [exists y; auto|]. lia. }
  destruct K as [K|K]; apply le_INR in K; rewrite plus_INR in K; cbn in K; [rewrite Rabs_left1|rewrite Rabs_right]; lra.
Qed.

Lemma plant_point rr ar ij : 1 <= rr -> PI / 8 <= ar -> in_plant rr ar ij ->
  25 / 10 <= vx (at_index rr ar ij) /\ vz (at_index rr ar ij) = 0 /\ norm2 (at_index rr ar ij) <= 400.
Proof.
  intros Hr Ha (B1 & B2 & _). unfold at_index, stagger_position. cbn [fst snd vx vz].
  set (r := 5 + INR (fst ij) * rr) in *. set (a := - PI / 4 + INR (snd ij) * (ar / 2)) in *.
  pose proof (pos_INR (fst ij)). pose proof (pos_INR (snd ij)). pose proof PI_RGT_0.
  assert (P : 3 < PI) by (pose proof PI2_3_2; lra).
  assert (5 <= r) by (unfold r; nra). assert (- PI / 4 <= a) by (unfold a; nra).
  assert (C : 1 / 2 <= cos a).
  { rewrite <- cos_PI3. replace (cos a) with (cos (Rabs a)) by (unfold Rabs; destruct (Rcase_abs a); [apply cos_neg|auto]).
    assert (Rabs a <= PI / 3) by (apply Rabs_le; lra). pose proof (Rabs_pos a). apply cos_decr_1; lra. }
  split; [nra|]. split; auto. vunfold. pose proof (sin2_cos2 a) as S. unfold Rsqr in S.
  replace (r * cos a * (r * cos a) + r * sin a * (r * sin a) + 0 * 0) with (r * r * (sin a * sin a + cos a * cos a)) by ring.
  rewrite S. nra.
Qed.

Lemma plant_apart rr ar ij kl : 1 <= rr -> PI / 8 <= ar -> in_plant rr ar ij -> in_plant rr ar kl -> ij <> kl ->
  2 <= norm2 (vsub (at_index rr ar kl) (at_index rr ar ij)).
Proof.
  intros Hr Ha (B1 & B2 & B3) (D1 & D2 & D3) Ne. destruct ij as [i j], kl as [k l]. cbn [fst snd] in *.
  pose proof PI_RGT_0. assert (P : 3 < PI) by (pose proof PI2_3_2; lra).
  unfold at_index, stagger_position. cbn [fst snd].
  set (r := 5 + INR i * rr) in *. set (a := - PI / 4 + INR j * (ar / 2)) in *.
  set (r' := 5 + INR k * rr) in *. set (a' := - PI / 4 + INR l * (ar / 2)) in *.
  replace (norm2 _) with ((r' * cos a' - r * cos a) * (r' * cos a' - r * cos a) + (r' * sin a' - r * sin a) * (r' * sin a' - r * sin a)) by (vunfold; ring).
  rewrite polar_distance. pose proof (pos_INR i). pose proof (pos_INR j). pose proof (pos_INR k). pose proof (pos_INR l).
  assert (5 <= r) by (unfold r; nra). assert (5 <= r') by (unfold r'; nra).
  assert (Aa : - PI / 4 <= a) by (unfold a; nra). assert (Aa' : - PI / 4 <= a') by (unfold a'; nra).
  assert (Er : Rabs (r' - r) = Rabs (INR k - INR i) * rr).
  { unfold r, r'. replace (5 + INR k * rr - (5 + INR i * rr)) with ((INR k - INR i) * rr) by ring. rewrite Rabs_mult, (Rabs_right rr) by lra. auto. }
  assert (Ea : Rabs (a' - a) = Rabs (INR l - INR j) * (ar / 2)).
  { unfold a, a'. replace (- PI / 4 + INR l * (ar / 2) - (- PI / 4 + INR j * (ar / 2))) with ((INR l - INR j) * (ar / 2)) by ring.
    rewrite Rabs_mult, (Rabs_right (ar / 2)) by lra. auto. }
  assert (Hs : Rabs (a' - a) <= PI) by (apply Rabs_le; clear - P Aa Aa' B2 D2; lra).
  assert (Sq : (r' - r) * (r' - r) = Rabs (r' - r) * Rabs (r' - r)) by (rewrite <- Rabs_mult; symmetry; apply Rabs_right, Rle_ge, Rle_0_sqr).
  assert (C1 : cos (a' - a) <= 1) by apply COS_bound.
  assert (RR : 25 <= r' * r) by nra.
  destruct (Nat.eq_dec l j) as [->|Nl].
  - assert (Nk : k <> i) by congruence. pose proof (index_gap2 k i Nk ltac:(tauto)) as G.
    assert (2 <= Rabs (r' - r)) by (rewrite Er; nra). rewrite Sq.
    assert (0 <= 2 * (r' * r) * (1 - cos (a' - a))) by (apply Rmult_le_pos; lra). nra.
  - destruct (Nat.eq_dec k i) as [->|Nk].
    + pose proof (index_gap2 l j Nl ltac:(tauto)) as G.
      assert (Ca : cos (a' - a) <= 925 / 1000).
      { eapply Rle_trans; [|apply (proj1 cos_16)]. apply cos_apart; [lra|]. split; auto. rewrite Ea. nra. }
      assert (2 * 25 * (75 / 1000) <= 2 * (r' * r) * (1 - cos (a' - a))) by (apply Rmult_le_compat; lra).
      assert (0 <= (r' - r) * (r' - r)) by nra. lra.
    + pose proof (index_gap l j Nl) as G. pose proof (index_gap k i Nk) as G'.
      assert (Ca : cos (a' - a) <= 982 / 1000).
      { eapply Rle_trans; [|apply (proj2 cos_16)]. apply cos_apart; [lra|]. split; auto. rewrite Ea. nra. }
      assert (1 <= Rabs (r' - r)) by (rewrite Er; nra).
      assert (R30 : 30 <= r' * r).
      { destruct (Nat.eq_dec i 0) as [->|Ni].
        - assert (1 <= INR k) by (apply (le_INR 1); lia). assert (6 <= r') by (unfold r'; nra). nra.
        - assert (1 <= INR i) by (apply (le_INR 1); lia). assert (6 <= r) by (unfold r; nra). nra. }
      assert (2 * 30 * (18 / 1000) <= 2 * (r' * r) * (1 - cos (a' - a))) by (apply Rmult_le_compat; lra).
      assert (1 <= (r' - r) * (r' - r)) by (rewrite Sq; nra). lra.
Qed.

(** ** All ways are free *)

Lemma sun_above az el : 0 <= az <= 180 -> 0 <= el <= 90 ->
  vx (solar_vector (az * degree) (el * degree)) <= 0 /\ 0 <= vz (solar_vector (az * degree) (el * degree)) <= 1.
Proof.
  intros A E. unfold solar_vector, degree. cbn. pose proof PI_RGT_0.
  split.
  - assert (0 <= sin (az * (PI / 180))) by (apply sin_ge_0; nra). pose proof (sqrt_pos (1 - cos (el * (PI / 180)) * cos (el * (PI / 180)))). nra.
  - split; [apply cos_ge_0; nra|apply COS_bound].
Qed.

Lemma tenm_small k : (1 <= k)%nat -> tenm k <= 1 / 10.
Proof.
  intros K. unfold tenm. replace (1 / 10) with (/ 10 ^ 1) by (simpl; lra). apply Rinv_le_contravar; [apply pow_lt; lra|].
  apply Rle_pow; [lra|auto].
Qed.

Lemma schwarz u v : dot u v * dot u v <= norm2 u * norm2 v.
Proof.
  destruct u as [a b c], v as [d e f]. vunfold.
  pose proof (Rle_0_sqr (a * e - b * d)) as A. pose proof (Rle_0_sqr (a * f - c * d)) as B. pose proof (Rle_0_sqr (b * f - c * e)) as C.
  unfold Rsqr in *. lra.
Qed.

(** A field on the ground, to one side of the tower, no two mirrors close. *)
Lemma ground_free ps sun : is_unit sun -> 0 <= vz sun <= 1 ->
  (forall p, In p ps -> 25 / 10 <= vx p /\ vz p = 0 /\ norm2 p <= 400) ->
  (forall i j p q, nth_error ps i = Some p -> nth_error ps j = Some q -> i <> j -> 2 <= norm2 (vsub q p)) ->
  free_ways ps (V3 0 0 10) sun (1 / 2) (1 / 2) 1 1.
Proof.
  intros Us Sz Gr Ap. pose proof (tenm_small 10 ltac:(lia)). pose proof (tenm_small 6 ltac:(lia)). pose proof (tenm_pos 10). pose proof (tenm_pos 6).
  assert (Ds : forall p, In p ps -> 10 <= distance p (V3 0 0 10) <= 23).
  { intros p Ip. destruct (Gr p Ip) as (A & B & C). unfold distance. destruct p as [x y z]. cbn in A, B. subst z. vunfold.
    split.
    - rewrite <- (sqrt_square 10) at 1 by lra. apply sqrt_le_1; nra.
    - rewrite <- (sqrt_square 23) by lra. apply sqrt_le_1; nra. }
  constructor.
  - intros p Ip. destruct (Gr p Ip) as (A & _). specialize (Ds p Ip). cbn. nra.
  - intros p Ip. specialize (Ds p Ip). lra.
  - intros p Ip. specialize (Ds p Ip). destruct (Gr p Ip) as (A & B & _).
    set (v := vadd sun (direction p (V3 0 0 10))).
    assert (Hz : 10 / 23 <= vz v).
    { unfold v, direction. set (k := distance p (V3 0 0 10)) in *. destruct p as [x y z], sun as [a b c]. cbn in B, Sz |- *. subst z.
      assert (/ 23 <= / k) by (apply Rinv_le_contravar; lra). lra. }
    apply Rlt_le_trans with (10 / 23); [lra|]. rewrite <- (sqrt_square (10 / 23)) by lra. apply sqrt_le_1; try nra.
    + apply norm2_nonneg.
    + destruct v as [a b c]. cbn in Hz. vunfold. nra.
  - intros i j p q Ei Ej N t Ht. specialize (Ap i j p q Ei Ej N). unfold reach.
    set (u := vsub q p) in *. set (s := 1 - t).
    replace (vsub (vadd (vadd p sun) (vscale t (vsub p (vadd p sun)))) q) with (vsub (vscale s sun) u)
      by (unfold u, s; destruct p, q, sun; vunfold; veq; ring).
    replace (norm2 (vsub (vscale s sun) u)) with (s * s * norm2 sun - 2 * s * dot u sun + norm2 u) by (destruct u, sun; vunfold; ring).
    pose proof (schwarz u sun) as Sc. rewrite Us in Sc |- *. set (U := sqrt (norm2 u)).
    assert (HU : U * U = norm2 u) by (apply sqrt_sqrt; lra).
    assert (U0 : 0 <= U) by apply sqrt_pos. rewrite <- HU in *.
    assert (L : 141 / 100 <= U) by nra. assert (D : dot u sun <= U) by nra.
    assert (Hs : 0 <= s <= 1) by (unfold s; lra). nra.
  - intros i j p q Ei Ej N t Ht. specialize (Ap i j p q Ei Ej N). unfold reach.
    assert (Ip : In p ps) by (eapply nth_error_In; eauto). assert (Iq : In q ps) by (eapply nth_error_In; eauto).
    destruct (Gr p Ip) as (_ & B & C). destruct (Gr q Iq) as (_ & B' & _).
    set (u := vsub q p) in *. pose proof (schwarz u p) as Sc.
    set (N0 := norm2 _).
    assert (E : N0 = t * t * (norm2 p + 100) + 2 * t * dot u p + norm2 u).
    { unfold N0, u. destruct p as [x y z], q as [x' y' z']. cbn in B, B'. subst z z'. vunfold. ring. }
    assert (K : 100 * norm2 u <= N0 * (norm2 p + 100)).
    { rewrite E. pose proof (norm2_nonneg p). set (P := norm2 p) in *. set (c := dot u p) in *. set (V := norm2 u) in *.
      replace ((t * t * (P + 100) + 2 * t * c + V) * (P + 100)) with (((P + 100) * t + c) * ((P + 100) * t + c) + (V * P - c * c) + 100 * V) by ring.
      pose proof (Rle_0_sqr ((P + 100) * t + c)). unfold Rsqr in *. lra. }
    pose proof (norm2_nonneg p). assert (0 <= N0) by apply norm2_nonneg.
    destruct (Rlt_dec ((1 / 2 * (1 / 2) + 1 / 2 * (1 / 2)) / 4) N0); auto. exfalso. nra.
  - intros p Ip t Ht. destruct (Gr p Ip) as (_ & B & _). unfold reach.
    destruct p as [x y z], sun as [a b c]. cbn in B, Sz. subst z. vunfold.
    assert (K : 0 <= c * (1 - t) <= 1) by nra.
    replace (0 + c + t * (0 - (0 + c)) - 10) with (c * (1 - t) - 10) by ring. set (k := c * (1 - t)) in *.
    assert (81 <= (k - 10) * (k - 10)) by nra.
    match goal with |- _ < ?A * ?A + ?B * ?B + _ => pose proof (Rle_0_sqr A); pose proof (Rle_0_sqr B) end. unfold Rsqr in *.
    assert (tenm 10 * tenm 10 <= 1) by nra. lra.
Qed.

Lemma plant_free rr ar ps az el : 1 <= rr -> PI / 8 <= ar -> tower_positions rr ar = Ok ps -> 0 <= az <= 180 -> 0 <= el <= 90 ->
  ps <> [] /\ free_ways ps (V3 0 0 10) (solar_vector (az * degree) (el * degree)) (1 / 2) (1 / 2) 1 1.
Proof.
  intros Hr Ha E Az El. pose proof PI_RGT_0. destruct (plant_positions rr ar ltac:(lra) ltac:(lra)) as (idx & E' & Nd & M).
  rewrite E in E'. injection E' as ->. split.
  - assert (I : In (0%nat, 0%nat) idx).
    { apply M. unfold in_plant, staggered. cbn. repeat split; try lra; auto. }
    intros Q. apply map_eq_nil in Q. subst idx. destruct I.
  - destruct (sun_above az el Az El) as (_ & Sz). apply ground_free; auto; [apply solar_unit| |].
    + intros p Ip. apply in_map_iff in Ip as (ij & <- & I). apply plant_point; auto. apply M; auto.
    + intros i j p q Ei Ej N. rewrite nth_error_map in Ei, Ej.
      destruct (nth_error idx i) as [ij|] eqn:Ii; [|discriminate]. destruct (nth_error idx j) as [kl|] eqn:Ij; [|discriminate].
      injection Ei as <-. injection Ej as <-. apply plant_apart; auto; try (apply M; eapply nth_error_In; eauto).
      intros ->. apply N. rewrite NoDup_nth_error in Nd. apply Nd; [apply nth_error_Some; congruence|congruence].
Qed.

Lemma example_built limit rr ar sc : reached limit sc -> (3 <= limit)%nat -> 1 <= rr -> PI / 8 <= ar ->
  exists ps sc' t id, tower_positions rr ar = Ok ps /\ ps <> [] /\ gen_plant limit rr ar sc = (sc', Ok t) /\ reached limit sc' /\ undisturbed sc sc' /\
    ~ exists_in sc (tw_plant t) /\ (sc_acc sc <= id < sc_acc sc')%nat /\ is_tower sc' t ps (1 / 2) (1 / 2) 0 10 1 1 id.
Proof.
  intros R L Hr Ha. pose proof PI_RGT_0. destruct (plant_positions rr ar ltac:(lra) ltac:(lra)) as (idx & E & _).
  destruct (tower_step limit (map (at_index rr ar) idx) (1 / 2) (1 / 2) 0 10 1 1 sc R) as (sc' & t & id & Et & S & T & N & A); try lra; auto.
  exists (map (at_index rr ar) idx), sc', t, id. split; auto.
  split; [apply (plant_free rr ar _ 0 0 Hr Ha E); lra|]. split; [|split; [apply S|split; [eapply step_undisturbed; eauto|auto]]].
  unfold gen_plant. erewrite bbind_ok by (apply calc_ok; exact E). exact Et.
Qed.

Lemma example_aimed limit rr ar ps sc t id az el reps me g : reached limit sc -> (3 <= limit)%nat -> 1 <= rr -> PI / 8 <= ar ->
  tower_positions rr ar = Ok ps -> is_tower sc t ps (1 / 2) (1 / 2) 0 10 1 1 id -> 0 <= az <= 180 -> 0 <= el <= 90 ->
  (2 <= reps)%nat -> 0 <= me < 1 ->
  exists sc' st, aim_field limit t az el reps me g sc = (sc', Ok ([], [], st)) /\ reached limit sc' /\
    is_tower sc' t ps (1 / 2) (1 / 2) 0 10 1 1 id /\ relays (t_tree st) (gen_rays ps az el) ps (V3 0 0 10) 1 /\
    a_absorbed (g_acc (t_g st) id) = a_absorbed (g_acc g id) ++ [map (fun _ => 1) ps] /\
    a_hits (g_acc (t_g st) id) = a_hits (g_acc g id) ++ [map (fun _ => V3 0 0 10) ps].
Proof.
  intros R L Hr Ha E T Az El Rp Me. destruct (plant_free rr ar ps az el Hr Ha E Az El) as (Np & Fw).
  destruct (tower_aimed limit sc t ps (1 / 2) (1 / 2) 0 10 1 1 id az el reps me g R T Np) as (sc' & st & X); auto; try lra.
  rewrite Rminus_0_r in X. exists sc', st. exact X.
Qed.

Lemma tower_example : exists ps sc t id, reached 5 sc /\ tower_positions 1 (PI / 8) = Ok ps /\ In (V3 (5 * cos (- PI / 4)) (5 * sin (- PI / 4)) 0) ps /\
  is_tower sc t ps (1 / 2) (1 / 2) 0 10 1 1 id /\ 0 <= 90 <= 180 /\ 0 <= 45 <= 90 /\ 0 <= 1 / 20 < 1.
Proof.
  pose proof PI_RGT_0. destruct (plant_positions 1 (PI / 8) ltac:(lra) ltac:(lra)) as (idx & E' & _ & M).
  destruct (example_built 5 1 (PI / 8) start (start_reached 5) ltac:(lia) ltac:(lra) ltac:(lra)) as (ps & sc & t & id & E & _ & _ & R & _ & _ & _ & T).
  exists ps, sc, t, id. split; auto. split; auto. split; [|split; [auto|lra]].
  rewrite E in E'. injection E' as ->. apply in_map_iff. exists (0%nat, 0%nat). split.
  - unfold at_index, stagger_position. cbn. veq; try ring; replace (- PI / 4 + 0 * (PI / 8 / 2)) with (- PI / 4) by field; ring.
  - apply M. unfold in_plant, staggered. cbn. repeat split; try lra; auto.
Qed.
