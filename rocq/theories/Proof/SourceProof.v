(** Light sources. *)
From Coq Require Import Reals List Arith ZArith Bool Lia Lra Psatz.
From Verif.Base Require Import Py Num Vec.
From Verif.Model Require Import RayBundle Spatial Sources.
From Verif.Spec Require Import BundleSpec EngineSpec GeometrySpec OpticsSpec SpatialSpec SourceSpec.
From Verif.Proof Require Import ListLemmas NumLemmas VecLemmas OpticsProof CallProof SpatialProof.
Import ListNotations.
Local Open Scope R_scope.

(** ** Pillbox directions *)

Lemma uniform_nth h n g l g' : uniform h n g = (l, g') ->
  length l = n /\ g' = mkRng (draws g) (drawn g + n) /\
  forall k, (k < n)%nat -> nth_error l k = Some (h * draws g (drawn g + k)).
Proof.
  unfold uniform. intros E. injection E as <- <-. rewrite map_length, seq_length. split; auto. split; auto.
  intros k Hk. rewrite nth_error_map. rewrite (nth_error_nth' _ 0%nat) by (rewrite seq_length; auto).
  rewrite seq_nth by auto. reflexivity.
Qed.

Lemma pillbox_nth n ang g l g' : pillbox_sunshape_directions n ang g = (l, g') ->
  length l = n /\ g' = mkRng (draws g) (drawn g + 2 * n) /\
  forall k, (k < n)%nat -> nth_error l k =
    Some (pillbox_direction ang (2 * PI * draws g (drawn g + k)) (draws g (drawn g + n + k))).
Proof.
  unfold pillbox_sunshape_directions.
  destruct (uniform (2 * PI) n g) as (l1 & g1) eqn:E1. destruct (uniform 1 n g1) as (l2 & g2) eqn:E2.
  intros E. injection E as <- <-.
  destruct (uniform_nth _ _ _ _ _ E1) as (L1 & -> & N1). destruct (uniform_nth _ _ _ _ _ E2) as (L2 & -> & N2).
  cbn [draws drawn] in *. split; [rewrite map2_length; congruence|]. split; [f_equal; lia|].
  intros k Hk. rewrite map2_nth_error, N1, N2 by auto. rewrite Rmult_1_l. reflexivity.
Qed.

(** The direction seen along the axis: the point of the disk of radius [sin ang]
    with polar coordinates [sin ang * sqrt y] and [x]. *)
Lemma pillbox_direction_polar ang x y : 0 <= ang <= PI / 2 -> 0 <= y < 1 ->
  let d := pillbox_direction ang x y in
  V3 (vx d) (vy d) 0 = polar (sin ang * sqrt y) x /\ 0 <= vz d.
Proof.
  intros Ha Hy. unfold pillbox_direction, polar. pose proof (sqrt_01 y Hy) as Sy.
  pose proof (sin_quarter _ Ha) as Sa. pose proof (SIN_bound ang) as Sb.
  assert (Q : 0 <= sin ang * sqrt y <= 1) by (split; nra).
  destruct (asin_range _ Q) as (At & St). set (t := asin (sin ang * sqrt y)) in *. cbn [vx vy vz]. rewrite St.
  split; [f_equal; ring|]. apply cos_ge_0; lra.
Qed.

Lemma pillbox_top n ang g l g' : 0 <= ang <= PI / 2 -> fair g ->
  pillbox_sunshape_directions n ang g = (l, g') ->
  length l = n /\ Forall (deviates (V3 0 0 1) ang) l.
Proof.
  intros Ha F E. destruct (pillbox_spec _ _ _ _ _ Ha E) as (L & _ & D). split; auto.
  apply Forall_forall. intros d Hd. destruct (D d Hd) as (U & T). destruct (T F) as (t & Ht & Et).
  split; auto. exists t. split; auto. rewrite <- Et. destruct d. vunfold. ring.
Qed.

Lemma pillbox_draws n ang g l g' : 0 <= ang <= PI / 2 -> fair g ->
  pillbox_sunshape_directions n ang g = (l, g') ->
  draws g' = draws g /\ drawn g' = (drawn g + 2 * n)%nat /\
  forall k, (k < n)%nat -> exists d, nth_error l k = Some d /\ 0 <= vz d /\
    V3 (vx d) (vy d) 0 =
    polar (sin ang * sqrt (draws g (drawn g + n + k))) (2 * PI * draws g (drawn g + k)).
Proof.
  intros Ha F E. destruct (pillbox_nth _ _ _ _ _ E) as (L & -> & D). split; auto. split; auto.
  intros k Hk. eexists. split; [apply D; auto|].
  destruct (pillbox_direction_polar ang (2 * PI * draws g (drawn g + k)) (draws g (drawn g + n + k)) Ha (F _)) as (A & B).
  auto.
Qed.

(** ** Solar disk *)

Lemma polar_norm2 r a : norm2 (polar r a) = r * r.
Proof.
  unfold polar. vunfold. pose proof (sin2_cos2 a) as S. unfold Rsqr in S.
  replace (r * cos a * (r * cos a) + r * sin a * (r * sin a) + 0 * 0)
    with (r * r * (sin a * sin a + cos a * cos a)) by ring. rewrite S. ring.
Qed.

Lemma sum_repeat x n : sum (repeat x n) = INR n * x.
Proof. induction n; [simpl; ring|]. rewrite S_INR. cbn [repeat]. unfold sum in *. simpl fold_right. rewrite IHn. ring. Qed.

Definition disk_energies (n : nat) (radius : R) (flux : option R) : option (list R) :=
  match flux with None => None | Some f => Some (repeat (PI * (radius * radius) / INR n * f) n) end.

Lemma solar_disk_nth n c dir radius ang flux g :
  match solar_disk_bundle n c dir radius ang flux g with
  | Err e => e = ZeroDivisionError /\ n = 0%nat /\ flux <> None
  | Ok (b, g') => (flux = None \/ n <> 0%nat) /\ g' = mkRng (draws g) (drawn g + 4 * n) /\
      exists vs ds, b = mkB (Some vs) (Some ds) (disk_energies n radius flux) None None [] /\
      length vs = n /\ length ds = n /\
      (forall k, (k < n)%nat -> nth_error vs k = Some (vadd (disk_point (rotation_to_z dir) radius
         (draws g (drawn g + 2 * n + k)) (2 * PI * draws g (drawn g + 3 * n + k))) c)) /\
      (forall k, (k < n)%nat -> nth_error ds k = Some (mv3 (rotation_to_z dir)
         (pillbox_direction ang (2 * PI * draws g (drawn g + k)) (draws g (drawn g + n + k)))))
  end.
Proof.
  unfold solar_disk_bundle. destruct (pillbox_sunshape_directions n ang g) as (a & g1) eqn:E1.
  destruct (pillbox_nth _ _ _ _ _ E1) as (L1 & -> & D1).
  destruct (uniform 1 n (mkRng (draws g) (drawn g + 2 * n))) as (l2 & g2) eqn:E2.
  destruct (uniform_nth _ _ _ _ _ E2) as (L2 & -> & D2). cbn [draws drawn] in *.
  destruct (uniform (2 * PI) n (mkRng (draws g) (drawn g + 2 * n + n))) as (l3 & g3) eqn:E3.
  destruct (uniform_nth _ _ _ _ _ E3) as (L3 & -> & D3). cbn [draws drawn] in *.
  assert (V : forall k, (k < n)%nat ->
    nth_error (map2 (fun x t => vadd (disk_point (rotation_to_z dir) radius x t) c) l2 l3) k =
    Some (vadd (disk_point (rotation_to_z dir) radius (draws g (drawn g + 2 * n + k)) (2 * PI * draws g (drawn g + 3 * n + k))) c)).
  { intros k Hk. rewrite map2_nth_error, D2, D3 by auto. rewrite Rmult_1_l. do 6 f_equal. lia. }
  assert (W : forall k, (k < n)%nat -> nth_error (map (mv3 (rotation_to_z dir)) a) k = Some (mv3 (rotation_to_z dir)
         (pillbox_direction ang (2 * PI * draws g (drawn g + k)) (draws g (drawn g + n + k))))).
  { intros k Hk. rewrite nth_error_map, D1 by auto. reflexivity. }
  destruct flux as [f|].
  - destruct (Nat.eqb_spec n 0) as [Z|Z]; [repeat split; auto; discriminate|].
    split; auto. split; [f_equal; lia|]. do 2 eexists. split; [reflexivity|].
    rewrite map2_length by congruence. rewrite map_length. auto.
  - split; auto. split; [f_equal; lia|]. do 2 eexists. split; [reflexivity|].
    rewrite map2_length by congruence. rewrite map_length. auto.
Qed.

Lemma rotation_to_z_axis v : is_unit v -> mv3 (rotation_to_z v) (V3 0 0 1) = v.
Proof. intros U. apply rotation_to_z_top; auto. Qed.

Lemma turned_deviates dir ang d : is_unit dir -> deviates (V3 0 0 1) ang d ->
  deviates dir ang (mv3 (rotation_to_z dir) d).
Proof.
  intros U (Ud & t & Ht & Et). pose proof (rotation_to_z_orthonormal dir U) as O. split.
  - unfold is_unit. rewrite orthonormal_norm2; auto.
  - exists t. split; auto. rewrite <- (rotation_to_z_axis dir U) at 1. rewrite orthonormal_dot; auto.
Qed.

Lemma vsub_vadd a b : vsub (vadd a b) b = a.
Proof. destruct a, b. vunfold. veq; ring. Qed.

Lemma disk_point_polar dir radius x t : 
  disk_point (rotation_to_z dir) radius x t = mv3 (rotation_to_z dir) (polar (radius * sqrt x) t).
Proof. reflexivity. Qed.

Lemma disk_point_in dir c radius x t : is_unit dir -> 0 <= x < 1 ->
  in_disk c dir radius (vadd (disk_point (rotation_to_z dir) radius x t) c) /\
  norm2 (vsub (vadd (disk_point (rotation_to_z dir) radius x t) c) c) = radius * radius * x.
Proof.
  intros U Hx. pose proof (rotation_to_z_orthonormal dir U) as O.
  assert (N : norm2 (vsub (vadd (disk_point (rotation_to_z dir) radius x t) c) c) = radius * radius * x).
  { rewrite vsub_vadd, disk_point_polar, orthonormal_norm2, polar_norm2 by auto.
    replace (radius * sqrt x * (radius * sqrt x)) with (radius * radius * (sqrt x * sqrt x)) by ring.
    rewrite sqrt_sqrt by lra. reflexivity. }
  split; auto. split; [|rewrite N; nra].
  rewrite vsub_vadd, disk_point_polar. rewrite <- (rotation_to_z_axis dir U) at 2.
  rewrite orthonormal_dot by auto. unfold polar. vunfold. ring.
Qed.

Lemma nth_error_Forall {A} (P : A -> Prop) (l : list A) n : length l = n ->
  (forall k, (k < n)%nat -> exists x, nth_error l k = Some x /\ P x) -> Forall P l.
Proof.
  intros <- H. apply Forall_forall. intros x Hx. apply In_nth_error in Hx. destruct Hx as (k & Hk).
  destruct (H k) as (y & E & Py); [apply nth_error_Some; congruence|]. congruence.
Qed.

(** C60 *)
Lemma solar_disk_top n c dir radius ang flux g : is_unit dir -> 0 <= ang <= PI / 2 -> fair g ->
  match solar_disk_bundle n c dir radius ang flux g with
  | Err e => e = ZeroDivisionError /\ n = 0%nat /\ flux <> None
  | Ok (b, g') => (flux = None \/ n <> 0%nat) /\ fair g' /\
      (exists vs, b_vert b = Some vs /\ length vs = n /\ Forall (in_disk c dir radius) vs) /\
      (exists ds, b_dir b = Some ds /\ length ds = n /\ Forall (deviates dir ang) ds) /\
      match flux with
      | None => b_energy b = None
      | Some f => exists es e, b_energy b = Some es /\ es = repeat e n /\ sum es = f * PI * radius ^ 2
      end /\ b_parents b = None /\ b_ref b = None /\ b_extra b = []
  end.
Proof.
  intros U Ha F. pose proof (solar_disk_nth n c dir radius ang flux g) as H.
  destruct (solar_disk_bundle n c dir radius ang flux g) as [(b & g')|e]; auto.
  destruct H as (Z & -> & vs & ds & -> & Lv & Ld & Hv & Hd). split; auto. split; [exact F|]. cbn [b_vert b_dir b_energy b_parents b_ref b_extra].
  split; [|split; [|split; [|auto]]].
  - exists vs. split; auto. split; auto. eapply nth_error_Forall; eauto. intros k Hk. eexists. split; [apply Hv; auto|].
    apply disk_point_in; auto.
  - exists ds. split; auto. split; auto. eapply nth_error_Forall; eauto. intros k Hk. eexists. split; [apply Hd; auto|].
    apply turned_deviates; auto. split; [apply pillbox_direction_unit|].
    destruct (pillbox_direction_ok ang (2 * PI * draws g (drawn g + k)) (draws g (drawn g + n + k)) Ha (F _)) as (t & Ht & Et).
    exists t. split; auto. rewrite <- Et. set (q := pillbox_direction _ _ _). destruct q. vunfold. ring.
  - destruct flux as [f|]; [|reflexivity]. cbn [disk_energies]. destruct Z as [Z|Z]; [discriminate|].
    do 2 eexists. split; [reflexivity|]. split; [reflexivity|]. rewrite sum_repeat. field. apply not_0_INR; auto.
Qed.

Lemma to_z_frame dir : is_unit dir ->
  right_handed (mv3 (rotation_to_z dir) (V3 1 0 0)) (mv3 (rotation_to_z dir) (V3 0 1 0)) dir.
Proof.
  intros U. pose proof (rotation_to_z_orthonormal dir U) as O.
  split; [|split; [|split]]; unfold is_unit; rewrite ?orthonormal_norm2, ?orthonormal_dot by auto; try (vunfold; ring).
  rewrite rotation_to_z_cols. destruct (to_z_x_ok dir) as (X1 & X2 & _). set (x := to_z_x dir) in *.
  assert (E1 : mv3 (of_cols x (cross dir x) dir) (V3 1 0 0) = x) by (destruct dir, x; vunfold; veq; ring).
  assert (E2 : mv3 (of_cols x (cross dir x) dir) (V3 0 1 0) = cross dir x) by (destruct dir, x; vunfold; veq; ring).
  rewrite E1, E2.
  assert (E3 : cross x (cross dir x) = vsub (vscale (norm2 x) dir) (vscale (dot dir x) x))
    by (destruct dir, x; vunfold; veq; ring).
  rewrite E3, X1, X2. destruct dir, x; vunfold; veq; ring.
Qed.

(** How the random numbers are used. *)
Lemma solar_disk_draws n c dir radius ang flux g b g' : is_unit dir -> 0 <= ang <= PI / 2 -> fair g ->
  solar_disk_bundle n c dir radius ang flux g = Ok (b, g') ->
  draws g' = draws g /\ drawn g' = (drawn g + 4 * n)%nat /\
  exists x y, right_handed x y dir /\
  forall k, (k < n)%nat -> exists p d, vert_at b k = Some p /\ dir_at b k = Some d /\
    V3 (dot (vsub p c) x) (dot (vsub p c) y) 0 =
      polar (radius * sqrt (draws g (drawn g + 2 * n + k))) (2 * PI * draws g (drawn g + 3 * n + k)) /\
    V3 (dot d x) (dot d y) 0 =
      polar (sin ang * sqrt (draws g (drawn g + n + k))) (2 * PI * draws g (drawn g + k)) /\ 0 <= dot d dir.
Proof.
  intros U Ha F E. pose proof (solar_disk_nth n c dir radius ang flux g) as H. rewrite E in H.
  destruct H as (_ & -> & vs & ds & -> & Lv & Ld & Hv & Hd). split; auto. split; auto.
  pose proof (rotation_to_z_orthonormal dir U) as O.
  exists (mv3 (rotation_to_z dir) (V3 1 0 0)), (mv3 (rotation_to_z dir) (V3 0 1 0)). split; [apply to_z_frame; auto|].
  intros k Hk. exists (vadd (disk_point (rotation_to_z dir) radius
         (draws g (drawn g + 2 * n + k)) (2 * PI * draws g (drawn g + 3 * n + k))) c).
  eexists. split; [apply Hv; auto|]. split; [apply Hd; auto|].
  rewrite vsub_vadd, disk_point_polar, !orthonormal_dot by auto.
  assert (Z : forall q, dot (mv3 (rotation_to_z dir) q) dir = vz q).
  { intros q. rewrite <- (rotation_to_z_axis dir U) at 2. rewrite orthonormal_dot by auto. destruct q; vunfold; ring. }
  rewrite Z.
  destruct (pillbox_direction_polar ang (2 * PI * draws g (drawn g + k)) (draws g (drawn g + n + k)) Ha (F _)) as (A & B).
  split; [|split].
  - unfold polar. vunfold. f_equal; ring.
  - rewrite <- A. set (q := pillbox_direction _ _ _). destruct q. vunfold. f_equal; ring.
  - exact B.
Qed.

(** ** Square grid *)

Lemma ceil_spec x : IZR (ceil x) - 1 < x <= IZR (ceil x).
Proof.
  unfold ceil. rewrite opp_IZR, minus_IZR. destruct (archimed (- x)) as (A & B). lra.
Qed.

(** The number of points along a side. *)
Definition side (n : nat) : nat := Z.to_nat (ceil (sqrt (INR n))).

Lemma side_spec n : (0 < n)%nat -> (0 < side n)%nat /\ ((side n - 1) * (side n - 1) < n <= side n * side n)%nat.
Proof.
  intros Hn. apply lt_INR in Hn. simpl INR in Hn at 1. pose proof (sqrt_lt_R0 _ Hn) as S.
  pose proof (sqrt_sqrt (INR n) ltac:(lra)) as Q. unfold side. set (r := sqrt (INR n)) in *.
  destruct (ceil_spec r) as (A & B). assert (P : (0 < ceil r)%Z) by (apply lt_IZR; lra).
  set (z := ceil r) in *. assert (E : INR (Z.to_nat z) = IZR z) by (rewrite INR_IZR_INZ, Z2Nat.id by lia; auto).
  split; [lia|]. assert (L : (1 <= Z.to_nat z)%nat) by lia. split.
  - apply INR_lt. rewrite mult_INR, minus_INR by auto. simpl (INR 1). rewrite E.
    assert (0 <= IZR z - 1) by (apply le_INR in L; simpl (INR 1) in L; lra). nra.
  - apply INR_le. rewrite mult_INR, E. nra.
Qed.

Lemma side_square k : side (k * k) = k.
Proof.
  destruct k as [|k]; [unfold side; simpl; rewrite sqrt_0|].
  - pose proof (ceil_spec 0) as (A & B). assert (ceil 0 = 0%Z); [|rewrite H; auto].
    assert (A' : IZR (ceil 0) < IZR 1) by lra. apply lt_IZR in A'. apply le_IZR in B. lia.
  - destruct (side_spec (S k * S k) ltac:(lia)) as (A & B & C). nia.
Qed.

Lemma grid_flat {A B} (f : A -> A -> B) (l k : list A) i j x y : nth_error l i = Some x -> nth_error k j = Some y ->
  nth_error (concat (map (fun x => map (fun y => f x y) k) l)) (i * length k + j) = Some (f x y).
Proof.
  revert i. induction l as [|a l IH]; intros [|i] Hx Hy; try discriminate; simpl.
  - injection Hx as ->. rewrite nth_error_app1 by (rewrite map_length; apply nth_error_Some; congruence).
    rewrite nth_error_map, Hy. reflexivity.
  - rewrite nth_error_app2 by (rewrite map_length; lia). rewrite map_length.
    replace (length k + i * length k + j - length k)%nat with (i * length k + j)%nat by lia. auto.
Qed.

Lemma grid_length {A B} (f : A -> A -> B) (l k : list A) :
  length (concat (map (fun x => map (fun y => f x y) k) l)) = (length l * length k)%nat.
Proof. induction l; simpl; auto. rewrite app_length, map_length, IHl. auto. Qed.

Lemma grid_range_nth s e h k : (k < Z.to_nat (ceil ((e - s) / h)))%nat ->
  nth_error (grid_range s e h) k = Some (s + INR k * h).
Proof.
  intros H. unfold grid_range. rewrite nth_error_map. rewrite (nth_error_nth' _ 0%nat) by (rewrite seq_length; auto).
  rewrite seq_nth by auto. reflexivity.
Qed.

(** C61: what [square_bundle] makes. *)
Lemma square_bundle_top n c dir w : is_unit dir -> w <> 0 -> (0 < n)%nat ->
  exists b vs x y, square_bundle n c dir w = Ok b /\ b_vert b = Some vs /\ b_dir b = Some (repeat dir n) /\
    b_energy b = None /\ b_parents b = None /\ b_ref b = None /\ b_extra b = [] /\
    right_handed x y dir /\
    (0 < side n)%nat /\ ((side n - 1) * (side n - 1) < n <= side n * side n)%nat /\
    square_grid (vadd c (vscale (- w) (vadd x y))) x y (2 * w / sqrt (INR n)) (side n) vs.
Proof.
  intros U Hw Hn. unfold square_bundle. assert (Rw : Reqb w 0 = false) by (apply Reqb_false; auto). rewrite Rw.
  destruct (Nat.eqb_spec n 0) as [Z|Z]; [lia|].
  pose proof (lt_INR _ _ Hn) as Hr. simpl INR in Hr at 1. pose proof (sqrt_lt_R0 _ Hr) as S.
  assert (Q : (w - - w) / (2 * w / sqrt (INR n)) = sqrt (INR n)) by (field; split; lra).
  pose proof (rotation_to_z_orthonormal dir U) as O.
  do 2 eexists. exists (mv3 (rotation_to_z dir) (V3 1 0 0)), (mv3 (rotation_to_z dir) (V3 0 1 0)).
  do 7 (split; [reflexivity|]). split; [apply to_z_frame; auto|].
  destruct (side_spec n Hn) as (A & B). split; auto. split; auto.
  set (h := 2 * w / sqrt (INR n)) in *.
  assert (Lg : length (grid_range (- w) w h) = side n) by (unfold grid_range; rewrite map_length, seq_length, Q; auto).
  split; [rewrite map_length, grid_length, Lg; auto|].
  intros i j Hi Hj. rewrite nth_error_map. rewrite <- Lg at 1.
  erewrite grid_flat by (apply grid_range_nth; rewrite Q; assumption). cbn [option_map]. f_equal.
  set (R := rotation_to_z dir). destruct R as [[] [] []], c. vunfold. veq; ring.
Qed.

(** As many starting points as directions only for square numbers. *)
Lemma square_bundle_counts n c dir w b vs ds : is_unit dir -> w <> 0 -> (0 < n)%nat ->
  square_bundle n c dir w = Ok b -> b_vert b = Some vs -> b_dir b = Some ds ->
  (length vs = length ds <-> exists k, n = (k * k)%nat).
Proof.
  intros U Hw Hn E Ev Ed. destruct (square_bundle_top n c dir w U Hw Hn) as (b' & vs' & x & y & E' & Ev' & Ed' & H).
  rewrite E in E'. injection E' as <-. rewrite Ev in Ev'. injection Ev' as <-. rewrite Ed in Ed'. injection Ed' as ->.
  destruct H as (_ & _ & _ & _ & _ & _ & _ & L & _). rewrite L, repeat_length. split.
  - intros <-. eexists. reflexivity.
  - intros (k & ->). rewrite side_square. auto.
Qed.

(** The starting points are in the square of side [2 w], on the side facing the
    first corner. *)
Lemma square_bundle_square n c dir w b vs : is_unit dir -> 0 < w -> (0 < n)%nat ->
  square_bundle n c dir w = Ok b -> b_vert b = Some vs ->
  exists x y, right_handed x y dir /\
  (forall p, In p vs -> dot (vsub p c) dir = 0 /\ - w <= dot (vsub p c) x < w /\ - w <= dot (vsub p c) y < w) /\
  In (vadd c (vscale (- w) (vadd x y))) vs /\
  exists p, In p vs /\ w - 2 * w / sqrt (INR n) <= dot (vsub p c) x < w.
Proof.
  intros U Hw Hn E Ev. destruct (square_bundle_top n c dir w U ltac:(lra) Hn) as (b' & vs' & x & y & E' & Ev' & _ & H).
  rewrite E in E'. injection E' as <-. rewrite Ev in Ev'. injection Ev' as <-.
  destruct H as (_ & _ & _ & _ & F & Sd & Sq & L & G). exists x, y. split; auto.
  pose proof F as (Ux & Uy & Oxy & Cxy).
  pose proof (lt_INR _ _ Hn) as Hr. simpl INR in Hr at 1. pose proof (sqrt_lt_R0 _ Hr) as S.
  pose proof (sqrt_sqrt (INR n) ltac:(lra)) as Q. set (r := sqrt (INR n)) in *. set (m := side n) in *.
  set (h := 2 * w / r) in *. assert (Hh : h * r = 2 * w) by (unfold h; field; lra).
  assert (Ph : 0 < h) by (unfold h; apply Rdiv_lt_0_compat; lra).
  assert (Hd : forall i j, let p := vadd (vadd c (vscale (- w) (vadd x y))) (vadd (vscale (INR i * h) x) (vscale (INR j * h) y)) in
    dot (vsub p c) x = INR i * h - w /\ dot (vsub p c) y = INR j * h - w /\ dot (vsub p c) dir = 0).
  { intros i j p. assert (Ep : vsub p c = vadd (vscale (INR i * h - w) x) (vscale (INR j * h - w) y))
      by (unfold p; destruct c, x, y; vunfold; veq; ring).
    rewrite Ep, !dot_vadd_l, !dot_vscale_l. fold (norm2 x) (norm2 y). unfold is_unit in *.
    rewrite <- Cxy. replace (dot x (cross x y)) with 0 by (destruct x, y; vunfold; ring).
    replace (dot y (cross x y)) with 0 by (destruct x, y; vunfold; ring).
    rewrite (dot_comm y x), Oxy, Ux, Uy. split; [ring|]. split; ring. }
  assert (M : (INR m - 1) < r).
  { assert ((INR m - 1) * (INR m - 1) < INR n).
    { destruct Sq as (Sq & _). apply lt_INR in Sq. rewrite mult_INR, minus_INR in Sq by (fold m in Sd; lia). exact Sq. }
    destruct (Rlt_dec (INR m - 1) r) as [|N]; auto. exfalso. nra. }
  assert (Mr : r <= INR m).
  { destruct Sq as (_ & Sq). apply le_INR in Sq. rewrite mult_INR in Sq. fold m in Sq.
    destruct (Rle_dec r (INR m)) as [|N]; auto. exfalso. pose proof (pos_INR m). nra. }
  assert (B : forall i, (i < m)%nat -> - w <= INR i * h - w < w).
  { intros i Hi. pose proof (pos_INR i). assert (INR i <= INR m - 1).
    { apply (proj2 (Nat.le_succ_l _ _)), le_INR in Hi. rewrite S_INR in Hi. lra. }
    split; nra. }
  split; [|split].
  - intros p Hp. apply In_nth_error in Hp. destruct Hp as (k & Hk).
    assert (Lk : (k < m * m)%nat) by (rewrite <- L; apply nth_error_Some; congruence).
    assert (Dk : k = (k / m * m + k mod m)%nat) by (rewrite Nat.mul_comm; apply Nat.div_mod; fold m in Sd; lia).
    assert (Hi : (k / m < m)%nat) by (apply Nat.div_lt_upper_bound; fold m in Sd; lia).
    assert (Hj : (k mod m < m)%nat) by (apply Nat.mod_upper_bound; fold m in Sd; lia).
    pose proof (G _ _ Hi Hj) as Gk. rewrite <- Dk, Hk in Gk.
    destruct (Hd (k / m)%nat (k mod m)%nat) as (D1 & D2 & D3).
    match type of Gk with _ = Some ?q => assert (Eq : p = q) by congruence end.
    rewrite <- Eq in D1, D2, D3. rewrite D1, D2, D3. split; auto.
  - apply nth_error_In with (n := (0 * m + 0)%nat). rewrite (G 0%nat 0%nat) by (fold m in Sd; lia). f_equal. simpl INR.
    destruct c, x, y. vunfold. veq; ring.
  - eexists. split.
    + eapply nth_error_In. apply (G (m - 1)%nat 0%nat); fold m in Sd; lia.
    + destruct (Hd (m - 1)%nat 0%nat) as (-> & _). split; [|apply B; fold m in Sd; lia].
      rewrite minus_INR by (fold m in Sd; lia). simpl (INR 1). nra.
Qed.

Lemma square_bundle_fails n c dir : square_bundle n c dir 0 = Err ValueError.
Proof. unfold square_bundle. assert (R0 : Reqb 0 0 = true) by (apply Reqb_true; auto). rewrite R0. reflexivity. Qed.
