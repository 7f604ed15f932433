(** examples/test_case.py *)
From Coq Require Import Reals ZArith String List Arith Bool Lia Lra Permutation.
From Verif.Base Require Import Py Num Vec.
From Verif.Model Require Import RayBundle Spatial Geometry TraceTree Sources OpticsCallables Engine Objects Surface Assembly Scene Models TestCase.
From Verif.Proof Require Import ListLemmas NumLemmas VecLemmas SpatialProof SourceProof BundleProof ProcessProof GeomTop LibraryTop TraceTop EngineTop ViewProof SceneProof ModelProof ModelTop ReceiverProof ReceiverTop MeasureProof AccountProof FluxProof BoundLedger
  DishProof BoxWay CollectProof CollectTop SpotProof.
From Verif.Spec Require Import BundleSpec EngineSpec SourceSpec LibrarySpec AccountSpec GeometrySpec GeomIface OpticsSpec FrameSpec SceneSpec ModelSpec TowerSpec DishSpec SunSpec TestCaseSpec.
Import ListNotations.
Local Open Scope R_scope.

(** ** The receiver of any collector *)

Lemma sum_where_nonneg {A} (P : A -> Prop) w l t : (forall x, In x l -> 0 <= w x) -> sum_where P w l t -> 0 <= t.
Proof.
  intros N S. induction S as [|x l t Px S IH|x l t Px S IH]; [lra| |].
  - pose proof (N x (or_introl eq_refl)). pose proof (IH (fun y I => N y (or_intror I))). lra.
  - exact (IH (fun y I => N y (or_intror I))).
Qed.

Lemma collector_shows view ss r id T pos X Y eff sc : receives view id T pos X Y eff ss -> rigid T -> 0 < X -> 0 < Y -> 0 <= eff <= 1 ->
  (forall s, nth_error ss 6 = Some s -> workable 1 s) -> hr_sides r = (X, Y) ->
  surface_now (hr_rec r) sc = (sc, Ok (front_of id T pos X Y)) ->
  forall g b n me reps bins, library_source b n -> g_acc g id = mkAcc [] [] -> (0 < bins)%nat ->
  exists vs ds st H xe ye, ray_tracer surface_ops view ss g b reps me TreeTrue = Ok (vs, ds, st) /\ histogram_hits r bins (t_g st) sc = (sc, Ok (H, xe, ye)) /\
    shows ss 4 (t_tree st) reps me X Y (mm4 T (mm4 (translate 0 0 pos) (rotx PI))) bins H /\ (forall row, In row H -> Forall (Rle 0) row) /\
    ((forall prev, In prev (t_tree st) -> never_ties ss prev) -> total (concat H) <= total_energy b).
Proof.
  intros (Hf & Hr) RT HX HY He Hm Hs Sn g b n me reps bins Ls Eg Hb.
  destruct (Hr He Hm) as (An & Sa & Km). pose proof (proj1 An) as La.
  destruct (AnswerProof.tracing_answers view ss An g b n reps me TreeTrue Ls (Km b)) as (vs & ds & st & E); [right; discriminate|].
  destruct (accounts_top view ss La me g b n Ls reps vs ds st E) as (ns & Ts & Rp & Tr & Ac).
  destruct (Ac 4%nat _ id _ Hf eq_refl Sa) as (ls & Ll & Nt & A & H). cbn [absorptivity] in Nt.
  set (F := mm4 T (mm4 (translate 0 0 pos) (rotx PI))). assert (RF : rigid F) by (apply rigid_mm4; auto; apply frame_rigid).
  assert (Fi : finds (s_geom (front_of id T pos X Y)) F (flat_answer F (rectangle X Y))).
  { apply rect_finds; auto. apply ModelProof.rect_ok; auto. }
  assert (Pt : Forall (placed F (rectangle X Y)) (map snd (concat ls))).
  { assert (Q : forall l, In l ls -> Forall (placed F (rectangle X Y)) (map snd l)).
    { intros l Hl. apply In_nth_error in Hl as (L & HL).
      assert (Lt : (L < length ls)%nat) by (apply nth_error_Some; congruence).
      destruct (nth_lt (t_tree st) L) as (prev & Hp); [lia|]. pose proof (Nt L prev l Hp HL) as N.
      destruct (Nat.eq_dec (ns L) 0) as [Z|Z]; [rewrite (noted_none _ _ _ _ _ _ _ N Z); constructor|].
      destruct (Rp L prev Hp) as (tb & R); [lia|lia|].
      apply (noted_reported _ _ _ _ _ _ _ ss _ tb _ N R Hf).
      intros j t v d Rh Hv Hd. exact (register_flat (front_of id T pos X Y) F (rectangle X Y) eq_refl Fi prev j t v d Rh Hv Hd). }
    clear - Q. induction ls as [|l ls IH]; [constructor|]. cbn [concat]. rewrite map_app. apply Forall_app. split; [apply Q; left; auto|].
    apply IH. intros; apply Q; right; auto. }
  destruct (placed_points _ _ _ Pt) as (qs & Eq & Fq).
  assert (Gh : get_all_hits (g_acc (t_g st) id) = Ok (map fst (concat ls), map (app4 F) qs)).
  { rewrite <- Eq, <- hits_concat. f_equal. destruct (g_acc (t_g st) id). cbn in A, H. rewrite Eg in A, H. cbn in A, H. congruence. }
  destruct (histogram_top r sc _ id _ X Y bins (t_g st) (map fst (concat ls)) qs Sn eq_refl RF Hs HX HY Hb Gh) as (Hi & xe & ye & Eh & _ & _ & Lh & Lr & Bi & _ & To).
  { rewrite map_length. rewrite <- (map_length (app4 F) qs), <- Eq, map_length. reflexivity. }
  assert (Pos : Forall (fun e => 0 <= e) (map fst (concat ls))).
  { destruct (library_trace view ss me La g b n reps vs ds st Ls E) as (ns' & Ts' & gs' & C & _ & _ & _ & _ & _ & _ & _ & _ & _ & Hlib).
    assert (Q : forall l, In l ls -> Forall (fun e => 0 <= e) (map fst l)).
    { intros l Hl. apply In_nth_error in Hl as (K & HK). assert (Lt : (K < length ls)%nat) by (apply nth_error_Some; congruence).
      destruct (nth_lt (t_tree st) K) as (prev & Hp); [lia|]. pose proof (Nt K prev l Hp HK) as N.
      apply (noted_energy _ _ _ _ _ _ _ N); [lra|]. exact (LedgerProof.tree_lib view ss me g b n reps (t_tree st) ns' Ts' gs' (t_g st) C Ls Hlib K prev Hp). }
    clear - Q. induction ls as [|l ls IH]; [constructor|]. cbn [concat]. rewrite map_app. apply Forall_app. split; [apply Q; left; auto|].
    apply IH. intros; apply Q; right; auto. }
  exists vs, ds, st, Hi, xe, ye. split; [exact E|]. split; [exact Eh|]. split.
  { exists ns, Ts, ls, qs. split; [exact Rp|]. split; [exact Tr|]. split; [exact Ll|]. split; [exact Nt|]. split; [exact Eq|]. split; [exact Fq|].
    split; [exact Lh|]. split; [exact Lr|]. split; [exact Bi|]. apply To. exact Fq. }
  split.
  { intros row Ir. apply Forall_forall. intros x Ix. apply In_nth_error in Ir as (i & Ei). apply In_nth_error in Ix as (j & Ej).
    assert (Li : (i < bins)%nat) by (rewrite <- Lh; apply nth_error_Some; congruence).
    assert (Lj : (j < bins)%nat) by (rewrite <- (Lr row (nth_error_In _ _ Ei)); apply nth_error_Some; congruence).
    destruct (Bi i j Li Lj) as (row' & t & Er & Et & S). assert (row' = row) by congruence. subst row'. assert (t = x) by congruence. subst t.
    apply (sum_where_nonneg _ _ _ _) in S; auto. intros (q & e) I. cbn [snd]. apply in_combine_r in I. rewrite Forall_forall in Pos. apply Pos. auto. }
  intros Nti. destruct (receiver_bound view ss La me g b n Ls reps vs ds st E Nti 4%nat _ id _ Hf eq_refl Sa Eg) as (es & hs & Ge & Le).
  rewrite Gh in Ge. assert (es = map fst (concat ls)) by congruence. subst es. rewrite (To Fq). exact Le.
Qed.

(** ** The rays in the dish's coordinates *)

Lemma tilt_rigid : rigid tilt.
Proof. apply rigid_rotx. Qed.

Definition untilt (v : vec) : vec := V3 (vx v) ((vy v - vz v) / sqrt 2) ((vy v + vz v) / sqrt 2).
Lemma half_root : / sqrt 2 * / sqrt 2 = 1 / 2.
Proof. rewrite <- Rinv_mult. rewrite sqrt_sqrt by lra. field. Qed.
Lemma tilt_eq : tilt = mk4 (M3 (V3 1 0 0) (V3 0 (/ sqrt 2) (/ sqrt 2)) (V3 0 (- / sqrt 2) (/ sqrt 2))) vzero.
Proof.
  unfold tilt, rotx, mk4, vzero. cbv zeta. replace (- PI / 4) with (- (PI / 4)) by field. rewrite sin_neg, cos_neg, sin_PI4, cos_PI4. cbn. veq; field; apply Rgt_not_eq, sqrt_lt_R0; lra.
Qed.
Lemma tilt_point p : app4 tilt (untilt p) = p.
Proof.
  rewrite tilt_eq, app4_mk4. unfold untilt, vzero. destruct p as [x y z]. pose proof half_root as Hr. cbn [vx vy vz]. unfold mv3. vunfold. unfold Rdiv.
  set (h := / sqrt 2) in *. f_equal; [ring|transitivity (2 * (h * h) * y); [ring|rewrite Hr; field]|transitivity (2 * (h * h) * z); [ring|rewrite Hr; field]].
Qed.
Lemma tilt_dir d : turned tilt (untilt d) = d.
Proof.
  unfold turned. rewrite tilt_eq, rot_mk4. pose proof (tilt_point d) as E. rewrite tilt_eq, app4_mk4 in E. rewrite <- E at 2. unfold vzero.
  destruct (mv3 _ _). vunfold. veq; ring.
Qed.

Lemma root2 : sqrt 2 * sqrt 2 = 2 /\ 0 < sqrt 2.
Proof. split; [apply sqrt_sqrt; lra|apply sqrt_lt_R0; lra]. Qed.
Lemma sun_aligned : app4 tilt (V3 0 0 (7 * sqrt 2)) = sun_center /\ turned tilt downwards = sun_direction /\ is_unit sun_direction.
Proof.
  destruct root2 as (S2 & P2). unfold turned, sun_center, sun_direction, downwards, is_unit. rewrite tilt_eq, app4_mk4, rot_mk4. unfold vzero, mv3. vunfold.
  split; [|split]; [veq; try ring; field; lra|veq; field; lra|]. cbv zeta. vunfold. pose proof half_root. unfold Rdiv. set (h := / sqrt 2) in *. nra.
Qed.


(** C60 in these coordinates. *)
Lemma sun_seen n g b g' : fair g -> (0 < n)%nat -> solar_disk_bundle n sun_center sun_direction (5 / 2) (5 / 1000) (Some 1000) g = Ok (b, g') ->
  exists vs ds es, seen_by_dish b vs ds /\ b_energy b = Some es /\ sunlight n vs ds es /\ library_source b n /\ total_energy b = 1000 * (PI * (5 / 2) ^ 2).
Proof.
  intros Fg Hn E. destruct sun_aligned as (Ac & Ad & Au). pose proof tilt_rigid as RT.
  assert (Ha : 0 <= 5 / 1000 <= PI / 2) by (pose proof PI2_3_2; lra).
  pose proof (solar_disk_top n sun_center sun_direction (5 / 2) (5 / 1000) (Some 1000) g Au Ha Fg) as S. rewrite E in S.
  destruct S as (_ & _ & (ps & Ev & Lv & Fv) & (qs & Ed & Ld & Fd) & (es & e & Ee & Er & Et) & Ep & Ere & Ex).
  assert (Nn : INR n <> 0) by (apply not_0_INR; lia). assert (Np : 0 < INR n) by (apply lt_0_INR; auto).
  assert (Sr : forall k x, SourceSpec.sum (repeat x k) = INR k * x).
  { intros k x. rewrite sum_repeat. reflexivity. }
  rewrite Er, Sr in Et. assert (Ee' : e = 1000 * (PI * (5 / 2) ^ 2) / INR n).
  { apply Rmult_eq_reg_l with (INR n); auto. rewrite Et. field. auto. }
  exists (map untilt ps), (map untilt qs), es. split.
  { split; [rewrite Ev|rewrite Ed]; rewrite map_map; f_equal; rewrite <- map_id at 1; apply map_ext; intros; symmetry; [apply tilt_point|apply tilt_dir]. }
  split; auto. split.
  { split; [rewrite map_length; auto|]. split; [rewrite map_length; auto|]. split; [|split; [|subst es; congruence]].
    - apply Forall_forall. intros v Iv. apply in_map_iff in Iv as (p & <- & Ip). rewrite Forall_forall in Fv. destruct (Fv p Ip) as (O & N).
      assert (W : vsub p sun_center = turned tilt (vsub (untilt p) (V3 0 0 (7 * sqrt 2)))).
      { rewrite <- (tilt_point p) at 1. rewrite <- Ac. destruct RT as (r & t & -> & _). unfold turned. rewrite rot_mk4, !app4_mk4, mv3_vsub. destruct (mv3 r (untilt p)), (mv3 r (V3 0 0 (7 * sqrt 2))), t. vunfold. veq; ring. }
      rewrite W in O, N. rewrite <- Ad, turned_dot in O by auto. rewrite turned_unit in N by auto. split; auto.
    - apply Forall_forall. intros d Id. apply in_map_iff in Id as (q & <- & Iq). rewrite Forall_forall in Fd. destruct (Fd q Iq) as (U & t & Ht & C). split.
      + unfold is_unit in *. rewrite <- (turned_unit tilt) by auto. rewrite tilt_dir. auto.
      + exists t. split; auto. rewrite <- C, <- (turned_dot tilt) by auto. rewrite tilt_dir, Ad. reflexivity. }
  split.
  { split; [split; [|split; [|split]]|].
    - unfold names_ok. rewrite Ex. constructor.
    - split; [cbn; rewrite Ev; cbn; eauto|]. intros [| | | | |nm] l; cbn; rewrite ?Ev, ?Ed, ?Ee, ?Ep, ?Ere, ?Ex; cbn; try discriminate; intros Q; injection Q as <-; rewrite ?map_length; auto.
      rewrite Er. apply repeat_length.
    - congruence.
    - congruence.
    - intros k d e0. unfold dir_at, energy_at, ref_at, at_col. rewrite Ed, Ee, Ere. intros Hd He. apply nth_error_In in Hd, He.
      rewrite Forall_forall in Fd. split; [apply Fd; auto|]. split; [|discriminate].
      rewrite Er in He. apply repeat_spec in He. subst e0. rewrite Ee'. unfold Rdiv. apply Rmult_le_pos; [|apply Rlt_le, Rinv_0_lt_compat; auto].
      pose proof PI_RGT_0. nra. }
  unfold total_energy. rewrite Ee, Er.
  assert (Sm : forall k x, sum_R (repeat x k) = INR k * x).
  { induction k as [|k IH]; intros x; [cbn; ring|]. cbn [repeat]. rewrite TraceProof.sum_R_cons, IH, S_INR. ring. }
  rewrite Sm, Et. ring.
Qed.

(** ** The program *)

(** How it goes once everything is known. *)
Lemma test_case_runs limit f n H side g sc sc1 r sc2 b rnd objs ss vs ds st hist xe ye : side <> 0 ->
  minidish limit 5 f (9 / 10) (f + H) side H (9 / 10) 1 sc = (sc1, Ok r) -> put_at limit (hr_node r) tilt sc1 = (sc2, Ok tt) ->
  solar_disk_bundle n sun_center sun_direction (5 / 2) (5 / 1000) (Some 1000) (g_rng g) = Ok (b, rnd) ->
  engine_view limit (hr_node r) sc2 = (sc2, Ok (objs, ss)) ->
  ray_tracer surface_ops objs ss (mkG rnd (g_acc g)) b 100 (tenm 6) TreeTrue = Ok (vs, ds, st) ->
  histogram_hits r 50 (t_g st) sc2 = (sc2, Ok (hist, xe, ye)) ->
  exists M, test_case limit f n H side g sc = (sc2, Ok (M, t_g st)) /\ in_suns side M hist.
Proof.
  intros Hs E1 E2 E3 E4 E5 E6. eexists. split.
  - unfold test_case. erewrite bbind_ok by exact E1. erewrite bbind_ok by exact E2. erewrite bbind_ok by (apply calc_ok; exact E3). cbv beta iota.
    erewrite bbind_ok by exact E4. cbv beta iota. erewrite bbind_ok by (apply calc_ok; exact E5). cbv beta iota. erewrite bbind_ok by exact E6. cbv beta iota.
    apply calc_ok. destruct (Req_EM_T side 0); [contradiction|reflexivity].
  - unfold in_suns. rewrite map_map, <- map_id at 1. apply map_ext. intros row. rewrite map_map, <- map_id at 1. apply map_ext. intros x. field. auto.
Qed.

Lemma in_suns_total side M H : in_suns side M H -> total (concat H) = total (concat M) * (1000 * (side / 50) ^ 2).
Proof.
  intros ->. set (k := 1000 * (side / 50) ^ 2). clearbody k. induction M as [|row M IH]; [cbn; ring|]. cbn [map concat].
  assert (Ta : forall l l', total (l ++ l') = total l + total l').
  { clear. unfold total. induction l as [|x l IH]; intros l'; cbn; [ring|]. rewrite IH. ring. }
  rewrite !Ta, IH, Rmult_plus_distr_r. f_equal. clear. unfold total. induction row as [|x row IH]; cbn; [ring|]. rewrite IH. ring.
Qed.
Lemma in_suns_shape side M H : in_suns side M H -> length H = length M /\ (forall n, (forall row, In row H -> length row = n) -> forall row, In row M -> length row = n) /\
  (0 < side -> (forall row, In row H -> Forall (Rle 0) row) -> forall row, In row M -> Forall (Rle 0) row).
Proof.
  intros ->. split; [apply map_length|]. split.
  - intros n F row I. rewrite <- (F (map (fun x => x * (1000 * (side / 50) ^ 2)) row)); [rewrite map_length; auto|]. apply in_map. auto.
  - intros Hs F row I. specialize (F _ (in_map (map (fun x => x * (1000 * (side / 50) ^ 2))) _ _ I)). rewrite Forall_map in F.
    assert (K : 0 < 1000 * (side / 50) ^ 2). { assert (0 < side / 50) by lra. cbn [pow]. nra. }
    rewrite Forall_forall in *. intros x Ix. specialize (F x Ix). cbn beta in F. apply Rmult_le_reg_r with (1000 * (side / 50) ^ 2); lra.
Qed.

Lemma sun_made n g : (0 < n)%nat -> fair g -> exists b, solar_disk_bundle n sun_center sun_direction (5 / 2) (5 / 1000) (Some 1000) g = Ok (b, mkRng (draws g) (drawn g + 4 * n)).
Proof.
  intros Hn Fg. destruct sun_aligned as (_ & _ & Au). assert (Ha : 0 <= 5 / 1000 <= PI / 2) by (pose proof PI2_3_2; lra).
  pose proof (solar_disk_top n sun_center sun_direction (5 / 2) (5 / 1000) (Some 1000) g Au Ha Fg) as S.
  destruct (solar_disk_bundle n sun_center sun_direction (5 / 2) (5 / 1000) (Some 1000) g) as [[b g']|e] eqn:E; [|destruct S as (_ & Z & _); lia].
  destruct (solar_disk_draws n sun_center sun_direction (5 / 2) (5 / 1000) (Some 1000) g b g' Au Ha Fg E) as (D1 & D2 & _).
  exists b. rewrite <- D1, <- D2. destruct g'. reflexivity.
Qed.

(** C91 *)
Lemma test_case_top limit f n H side sc g : reached limit sc -> 0 < f -> 0 < side -> 0 < H -> (3 <= limit)%nat -> (0 < n)%nat -> fair (g_rng g) ->
  (forall id, g_acc g id = mkAcc [] []) ->
  exists sc' rays vs ds es objs ss id vs' ds' st hist M,
    test_case limit f n H side g sc = (sc', Ok (M, t_g st)) /\ reached limit sc' /\
    solar_disk_bundle n sun_center sun_direction (5 / 2) (5 / 1000) (Some 1000) (g_rng g) = Ok (rays, mkRng (draws (g_rng g)) (drawn (g_rng g) + 4 * n)) /\
    seen_by_dish rays vs ds /\ b_energy rays = Some es /\ sunlight n vs ds es /\
    ray_tracer surface_ops objs ss (mkG (mkRng (draws (g_rng g)) (drawn (g_rng g) + 4 * n)) (g_acc g)) rays 100 (tenm 6) TreeTrue = Ok (vs', ds', st) /\
    box_receiver tilt (f + H) side side H (9 / 10) (round_reflector 5 f (9 / 10) tilt) ss /\
    nth_error ss 4 = Some (front_of id tilt (f + H) side side) /\
    shows ss 4 (t_tree st) 100 (tenm 6) side side (mm4 tilt (mm4 (translate 0 0 (f + H)) (rotx PI))) 50 hist /\ in_suns side M hist /\
    length M = 50%nat /\ (forall row, In row M -> length row = 50%nat /\ Forall (Rle 0) row) /\
    ((forall prev, In prev (t_tree st) -> never_ties ss prev) -> total (concat M) * (1000 * (side / 50) ^ 2) <= 1000 * (PI * (5 / 2) ^ 2)).
Proof.
  intros R Hf Hs HH L Hn Fg Eg.
  destruct (minidish_top limit 5 f (9 / 10) (f + H) side H (9 / 10) 1 sc R Hf Hs ltac:(lra) HH L) as (sc1 & r & E1 & C). rewrite Rmult_1_r in C.
  destruct C as (_ & _ & _ & _ & _ & Sd & id & _ & _ & C). destruct (C tilt tilt_rigid) as (sc2 & ss & E2 & R2 & E4 & Bx & Rc & Sn).
  destruct (sun_made n (g_rng g) Hn Fg) as (b & E3). destruct (sun_seen n (g_rng g) b _ Fg Hn E3) as (vs & ds & es & Sb & Ee & Sl & Ls & Te).
  set (g1 := mkG (mkRng (draws (g_rng g)) (drawn (g_rng g) + 4 * n)) (g_acc g)).
  pose proof (proj1 Rc) as Hf4.
  assert (Wk : forall s, nth_error ss 6 = Some s -> workable 1 s).
  { intros s Es. destruct Bx as (ws & fr & ba & ma & -> & (xp & xn & yp & yn & -> & _) & _ & _ & Qm). cbn in Es. injection Es as <-.
    apply (dish_works 5 f (9 / 10) tilt); auto; lra. }
  destruct (collector_shows _ ss r id tilt (f + H) side side (9 / 10) sc2 Rc tilt_rigid Hs Hs ltac:(lra) Wk Sd Sn g1 b n (tenm 6) 100%nat 50%nat Ls (Eg id) ltac:(lia))
    as (vs' & ds' & st & hist & xe & ye & E5 & E6 & Sh & Ps & Bd).
  destruct (test_case_runs limit f n H side g sc sc1 r sc2 b _ _ ss vs' ds' st hist xe ye ltac:(lra) E1 E2 E3 E4 E5 E6) as (M & Er & Es).
  destruct (in_suns_shape side M hist Es) as (Sh1 & Sh2 & Sh3).
  exists sc2, b, vs, ds, es, (repeat (one_sided_object 1) 4 ++ [one_sided_object 2; default_object 1]), ss, id, vs', ds', st, hist, M.
  do 11 (split; [auto; fail|]). pose proof Sh as (_ & _ & _ & _ & _ & _ & _ & _ & _ & _ & L1 & L2 & _).
  split; [congruence|]. split; [intros row I; split; [apply (Sh2 50%nat); auto|apply (Sh3 Hs); auto]|].
  intros Nt. rewrite <- (in_suns_total side M hist Es), <- Te. auto.
Qed.

(** Where light ends, if all ways are clear. *)
Lemma test_case_caught limit f n H side sc g : reached limit sc -> tenm 6 < f -> 5 * 5 < 16 * f * f -> tenm 6 < side -> 0 < H -> (3 <= limit)%nat -> (0 < n)%nat -> fair (g_rng g) ->
  (forall id, g_acc g id = mkAcc [] []) ->
  exists rays rnd vs ds es,
    solar_disk_bundle n sun_center sun_direction (5 / 2) (5 / 1000) (Some 1000) (g_rng g) = Ok (rays, rnd) /\
    seen_by_dish rays vs ds /\ b_energy rays = Some es /\ sunlight n vs ds es /\
    forall (ks : list nat) (os : list (option (R * vec))), length ks = n -> length os = n ->
    (forall j v d e k o, nth_error vs j = Some v -> nth_error ds j = Some d -> nth_error es j = Some e -> nth_error ks j = Some k -> nth_error os j = Some o ->
       course (round_dish 5 f) side side H f (9 / 10) (9 / 10) v d e k o /\ (k < 100)%nat) ->
    exists sc' M g' hist, test_case limit f n H side g sc = (sc', Ok (M, g')) /\ in_suns side M hist /\ shown side side 50 hist (strong (tenm 6) (arriving os)) /\
      0 <= total (concat M) * (1000 * (side / 50) ^ 2) <= 9 / 10 * (1000 * (PI * (5 / 2) ^ 2)).
Proof.
  intros R Hf HD Hs HH L Hn Fg Eg. pose proof (tenm_pos 6) as T6.
  destruct (minidish_catches limit 5 f (9 / 10) side H (9 / 10) 1 sc R) as (sc1 & r & E1 & id & _ & C); auto; try lra. rewrite Rmult_1_r in C.
  destruct (C tilt tilt_rigid) as (sc2 & objs & ss & E2 & E4 & Ca). destruct (sun_made n (g_rng g) Hn Fg) as (b & E3).
  destruct (sun_seen n (g_rng g) b _ Fg Hn E3) as (vs & ds & es & Sb & Ee & Sl & Ls & Te).
  exists b, (mkRng (draws (g_rng g)) (drawn (g_rng g) + 4 * n)), vs, ds, es. do 4 (split; [auto; fail|]).
  intros ks os Lk Lo Co. pose proof Sb as (Ev & Ed). pose proof Sl as (Lv & Ld & _ & _ & Es). set (g1 := mkG (mkRng (draws (g_rng g)) (drawn (g_rng g) + 4 * n)) (g_acc g)).
  destruct (Ca g1 b n (tenm 6) 100%nat vs ds es ks os Ls (Eg id) ltac:(lia) ltac:(lra) Ev Ed Ee Lv Lk Lo Co) as (st & ens & hs & E5 & _ & _ & _ & Hi).
  destruct (Hi 50%nat ltac:(lia)) as (hist & xe & ye & E6 & Sw).
  destruct (test_case_runs limit f n H side g sc sc1 r sc2 b _ objs ss [] [] st hist xe ye ltac:(lra) E1 E2 E3 E4 E5 E6) as (M & Er & Es').
  exists sc2, M, (t_g st), hist. do 3 (split; [auto; fail|]). rewrite <- (in_suns_total side M hist Es').
  destruct Sw as (_ & _ & _ & ->).
  assert (Te' : total es = 1000 * (PI * (5 / 2) ^ 2)) by (rewrite <- Te; unfold total_energy; rewrite Ee; reflexivity).
  rewrite <- Te'. destruct (caught_energy (round_dish 5 f) side side H f (9 / 10) (9 / 10) ltac:(lra) ltac:(lra) vs ds es ks os (tenm 6)) as (B & _); auto; try congruence.
  - subst es. rewrite repeat_length. congruence.
  - subst es. apply Forall_forall. intros x Ix. apply repeat_spec in Ix. subst x. unfold Rdiv. apply Rmult_le_pos; [pose proof PI_RGT_0; nra|].
    apply Rlt_le, Rinv_0_lt_compat, lt_0_INR. auto.
  - intros j v d e k o J1 J2 J3 J4 J5. apply (Co j v d e k o); auto.
Qed.
