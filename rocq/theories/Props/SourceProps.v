(** C59-C61: light sources. *)
From Coq Require Import Reals List Arith ZArith Bool Lia Lra.
From Verif.Base Require Import Py Num Vec.
From Verif.Model Require Import RayBundle Spatial Sources.
From Verif.Spec Require Import BundleSpec EngineSpec GeometrySpec OpticsSpec SpatialSpec SourceSpec.
From Verif.Proof Require Import VecLemmas SpatialProof SourceProof.
Import ListNotations.
Local Open Scope R_scope.

(** C59 *)
Theorem c59_pillbox : forall n ang g l g', 0 <= ang <= PI / 2 -> fair g ->
  pillbox_sunshape_directions n ang g = (l, g') ->
  length l = n /\ Forall (deviates (V3 0 0 1) ang) l.
Proof. exact pillbox_top. Qed.
Print Assumptions c59_pillbox.

(** Seen from the axis the directions fill a disk of radius [sin ang]: the squared
    radius and the azimuth are proportional to a random number each. *)
Theorem c59_pillbox_draws : forall n ang g l g', 0 <= ang <= PI / 2 -> fair g ->
  pillbox_sunshape_directions n ang g = (l, g') ->
  draws g' = draws g /\ drawn g' = (drawn g + 2 * n)%nat /\
  forall k, (k < n)%nat -> exists d, nth_error l k = Some d /\ 0 <= vz d /\
    V3 (vx d) (vy d) 0 =
    polar (sin ang * sqrt (draws g (drawn g + n + k))) (2 * PI * draws g (drawn g + k)).
Proof. exact pillbox_draws. Qed.
Print Assumptions c59_pillbox_draws.

Example c59_example : fair (mkRng (fun _ => 1/4) 0) /\ 0 <= PI / 6 <= PI / 2 /\
  exists l g', pillbox_sunshape_directions 3 (PI / 6) (mkRng (fun _ => 1/4) 0) = (l, g').
Proof.
  split; [intros k; simpl; lra|]. split; [pose proof PI_RGT_0; lra|]. do 2 eexists. reflexivity.
Qed.

(** C60: rays start in the disk, deviate by at most [ang] from its normal, and carry
    equal shares of [flux * pi * radius^2]; the only failure is sharing a flux
    between no rays. *)
Theorem c60_solar_disk : forall n c dir radius ang flux g, is_unit dir -> 0 <= ang <= PI / 2 -> fair g ->
  match solar_disk_bundle n c dir radius ang flux g with
  | Err e => e = ZeroDivisionError /\ n = 0%nat /\ flux <> None
  | Ok (b, g') => (flux = None \/ n <> 0%nat) /\ fair g' /\
      (exists vs, b_vert b = Some vs /\ length vs = n /\ Forall (in_disk c dir radius) vs) /\
      (exists ds, b_dir b = Some ds /\ length ds = n /\ Forall (deviates dir ang) ds) /\
      match flux with
      | None => b_energy b = None
      | Some f => exists es e, b_energy b = Some es /\ es = repeat e n /\ sum es = f * PI * radius ^ 2
      end /\ b_parents b = None /\ b_ref b = None /\ b_extra b = []
  end.
Proof. exact solar_disk_top. Qed.
Print Assumptions c60_solar_disk.

(** Starting points and directions are uniform in disks of radius [radius] and
    [sin ang], each with its own random numbers. *)
Theorem c60_solar_disk_draws : forall n c dir radius ang flux g b g', is_unit dir -> 0 <= ang <= PI / 2 -> fair g ->
  solar_disk_bundle n c dir radius ang flux g = Ok (b, g') ->
  draws g' = draws g /\ drawn g' = (drawn g + 4 * n)%nat /\
  exists x y, right_handed x y dir /\
  forall k, (k < n)%nat -> exists p d, vert_at b k = Some p /\ dir_at b k = Some d /\
    V3 (dot (vsub p c) x) (dot (vsub p c) y) 0 =
      polar (radius * sqrt (draws g (drawn g + 2 * n + k))) (2 * PI * draws g (drawn g + 3 * n + k)) /\
    V3 (dot d x) (dot d y) 0 =
      polar (sin ang * sqrt (draws g (drawn g + n + k))) (2 * PI * draws g (drawn g + k)) /\ 0 <= dot d dir.
Proof. exact solar_disk_draws. Qed.
Print Assumptions c60_solar_disk_draws.

Example c60_example : is_unit (V3 0 (3/5) (-4/5)) /\ fair (mkRng (fun _ => 1/4) 0) /\
  exists b g', solar_disk_bundle 3 (V3 1 2 3) (V3 0 (3/5) (-4/5)) 2 (PI / 6) (Some 1000) (mkRng (fun _ => 1/4) 0) = Ok (b, g').
Proof.
  split; [unfold is_unit, norm2, dot; cbn [vx vy vz]; field|]. split; [intros k; simpl; lra|]. do 2 eexists. reflexivity.
Qed.

(** C61: what [square_bundle] makes: a square grid with the least side that holds
    [n] points, and [n] directions. *)
Theorem c61_square_bundle : forall n c dir w, is_unit dir -> w <> 0 -> (0 < n)%nat ->
  exists b vs x y, square_bundle n c dir w = Ok b /\ b_vert b = Some vs /\ b_dir b = Some (repeat dir n) /\
    b_energy b = None /\ b_parents b = None /\ b_ref b = None /\ b_extra b = [] /\
    right_handed x y dir /\
    (0 < side n)%nat /\ ((side n - 1) * (side n - 1) < n <= side n * side n)%nat /\
    square_grid (vadd c (vscale (- w) (vadd x y))) x y (2 * w / sqrt (INR n)) (side n) vs.
Proof. exact square_bundle_top. Qed.
Print Assumptions c61_square_bundle.

(** Starting points and directions are equally many for square numbers only. *)
Theorem c61_counts : forall n c dir w b vs ds, is_unit dir -> w <> 0 -> (0 < n)%nat ->
  square_bundle n c dir w = Ok b -> b_vert b = Some vs -> b_dir b = Some ds ->
  (length vs = length ds <-> exists k, n = (k * k)%nat).
Proof. exact square_bundle_counts. Qed.
Print Assumptions c61_counts.

(** The square's side is [2 w], less one step. *)
Theorem c61_square : forall n c dir w b vs, is_unit dir -> 0 < w -> (0 < n)%nat ->
  square_bundle n c dir w = Ok b -> b_vert b = Some vs ->
  exists x y, right_handed x y dir /\
  (forall p, In p vs -> dot (vsub p c) dir = 0 /\ - w <= dot (vsub p c) x < w /\ - w <= dot (vsub p c) y < w) /\
  In (vadd c (vscale (- w) (vadd x y))) vs /\
  exists p, In p vs /\ w - 2 * w / sqrt (INR n) <= dot (vsub p c) x < w.
Proof. exact square_bundle_square. Qed.
Print Assumptions c61_square.

(** Two rays: four starting points. *)
Theorem c61_two_rays_refuted : exists b vs ds, square_bundle 2 (V3 0 0 0) (V3 0 0 1) 1 = Ok b /\
  b_vert b = Some vs /\ b_dir b = Some ds /\ length vs = 4%nat /\ length ds = 2%nat.
Proof.
  destruct (square_bundle_top 2 (V3 0 0 0) (V3 0 0 1) 1 z_unit ltac:(lra) ltac:(lia))
    as (b & vs & x & y & E & Ev & Ed & _ & _ & _ & _ & _ & S & Q & L).
  exists b, vs, (repeat (V3 0 0 1) 2). split; [exact E|]. split; [exact Ev|]. split; [exact Ed|]. split; [|reflexivity].
  destruct L as [L _]. assert (S2 : side 2 = 2%nat).
  { generalize dependent (side 2). intros m _ Q _. destruct m as [|[|[|m]]]; simpl in Q; lia. }
  rewrite L, S2. reflexivity.
Qed.
Print Assumptions c61_two_rays_refuted.

(** A point further than half the width from the centre. *)
Theorem c61_width_refuted : exists b vs p, square_bundle 4 (V3 0 0 0) (V3 0 0 1) 1 = Ok b /\
  b_vert b = Some vs /\ In p vs /\ norm2 p = 2.
Proof.
  destruct (square_bundle_top 4 (V3 0 0 0) (V3 0 0 1) 1 z_unit ltac:(lra) ltac:(lia))
    as (b & vs & x' & y' & E & Ev & _).
  destruct (square_bundle_square 4 (V3 0 0 0) (V3 0 0 1) 1 b vs z_unit ltac:(lra) ltac:(lia) E Ev)
    as (x & y & (Ux & Uy & Oxy & _) & _ & I & _).
  exists b, vs. eexists. split; [exact E|]. split; [exact Ev|]. split; [exact I|].
  transitivity (norm2 x + norm2 y + 2 * dot x y); [destruct x, y; vunfold; ring|].
  rewrite Ux, Uy, Oxy. ring.
Qed.
Print Assumptions c61_width_refuted.

Example c61_example : is_unit (V3 0 0 1) /\ exists b, square_bundle 9 (V3 1 2 3) (V3 0 0 1) 2 = Ok b.
Proof.
  split; [apply z_unit|].
  destruct (square_bundle_top 9 (V3 1 2 3) (V3 0 0 1) 2 z_unit ltac:(lra) ltac:(lia)) as (b & vs & x & y & E & _). eauto.
Qed.
