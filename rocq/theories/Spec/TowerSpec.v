(** A tower plant in which nothing is in the way. *)
From Coq Require Import Reals List Arith Bool.
From Verif.Base Require Import Py Num Vec.
From Verif.Model Require Import RayBundle Spatial Geometry Sources OpticsCallables Engine Objects Surface Assembly Scene Models Tower.
From Verif.Spec Require Import BundleSpec EngineSpec SourceSpec LibrarySpec AccountSpec GeometrySpec FrameSpec SceneSpec ModelSpec.
Import ListNotations.
Local Open Scope R_scope.

(** The direction from [p] to [q]. *)
Definition distance (p q : vec) : R := sqrt (norm2 (vsub q p)).
Definition direction (p q : vec) : vec := vscale (/ distance p q) (vsub q p).

(** All points of the line from [p] to [q], as far as [q], are more than the square
    root of [r2] away from [c]. *)
Definition passes (p q c : vec) (r2 : R) : Prop :=
  forall t, 0 <= t <= 1 -> r2 < norm2 (vsub (vadd p (vscale t (vsub q p))) c).

(** The square of half the diagonal. *)
Definition reach (w h : R) : R := (w * w + h * h) / 4.

(** Mirrors [w] by [h] at [ps] are to send light from the direction [sun] to [target],
    the centre of a receiver [X] by [Y] that faces the direction of x.  The mirrors are
    on this side of the receiver, not too close to it, and need not be turned edge-on
    to the sun.  Light on its last unit of length to the centre of a mirror, or on its
    way from there to the target, does not come near another mirror or, on the way in,
    the receiver. *)
Record free_ways (ps : list vec) (target sun : vec) (w h X Y : R) : Prop := {
  fw_side : forall p, In p ps -> tenm 10 * distance p target < vx p - vx target;
  fw_apart : forall p, In p ps -> tenm 6 < distance p target;
  fw_tilt : forall p, In p ps -> 2 * tenm 10 < sqrt (norm2 (vadd sun (direction p target)));
  fw_in : forall i j p q, nth_error ps i = Some p -> nth_error ps j = Some q -> i <> j -> passes (vadd p sun) p q (reach w h);
  fw_out : forall i j p q, nth_error ps i = Some p -> nth_error ps j = Some q -> i <> j -> passes p target q (reach w h);
  fw_receiver : forall p, In p ps -> passes (vadd p sun) p target (reach X Y + tenm 10 * tenm 10) }.

(** [t] is a plant: a field of mirrors at [ps], whatever way they are turned, and a
    receiver that faces the direction of x, with an account of its own. *)
Definition receiver_frame (aim : R) : mat4 :=
  M4 (V4 0 0 1 0) (V4 0 1 0 0) (V4 (-1) 0 0 aim) (V4 0 0 0 1).
Definition is_tower (sc : scene) (t : tower) (ps : list vec) (w h a aim X Y : R) (id : nat) : Prop :=
  exists ts ss ro s2 F, F = receiver_frame aim /\
    is_field sc (tw_field t) id4 ts w h a ss /\ hf_pos (tw_field t) = ps /\ hf_height (tw_field t) = aim /\
    Forall2 (fun p T => rigid T /\ app4 T vzero = p) ps ts /\ Forall2 (fun s T => global_frame (sc_w sc) s = Some T) ss ts /\
    is_object sc ro (mkO true F
      [mkPart (RectPlate (X / 2) (Y / 2)) (Accountant id (Reflective 1)) id4;
       mkPart (RectPlate (X / 2) (Y / 2)) (Absorbing (Reflective 1)) (translate 0 0 (- tenm 10))]) [tw_rec t; s2] /\
    kind_of (sc_w sc) (tw_plant t) = Some (KAsm [ro] [hf_node (tw_field t)]) /\ transform_of (sc_w sc) (tw_plant t) = Some id4 /\
    global_frame (sc_w sc) (tw_rec t) = Some F /\
    global_frame (sc_w sc) s2 = Some (mm4 F (translate 0 0 (- tenm 10))) /\
    NoDup (ss ++ [tw_rec t; s2]).

(** What a trace finds in it: one ray for each mirror, from the mirror to the target,
    and nothing after that. *)
Definition relays (tree : list bundle) (rays : bundle) (ps : list vec) (target : vec) (e : R) : Prop :=
  exists l1 l2, tree = [rays; l1; l2] /\
    b_vert l1 = Some ps /\ b_dir l1 = Some (map (fun p => direction p target) ps) /\
    b_energy l1 = Some (map (fun _ => e) ps) /\ b_parents l1 = Some (seq 0 (length ps)) /\
    b_vert l2 = Some (map (fun _ => target) ps) /\ b_energy l2 = Some (map (fun _ => 0) ps) /\
    b_parents l2 = Some (seq 0 (length ps)).

(** Rays from a sun of angular radius [ang], [per] rounds over the points [ps]: each
    deviates at most by [ang] from the direction away from the sun, carries one unit
    of energy, and comes after one unit of length to the square of half side [half]
    around its point, at right angles to the direction of the sun and with a
    horizontal side.  Where in the square, and in which direction, is determined by
    four random numbers for each ray. *)
Definition sun_rays (ps : list vec) (sun : vec) (per : nat) (ang half : R) (g : rng) (b : bundle) : Prop :=
  exists x y vs ds, right_handed x y (vopp sun) /\ vz x = 0 /\
    b = mkB (Some vs) (Some ds) (Some (map (fun _ => 1) ds)) None None [] /\
    let n := (per * length ps)%nat in length vs = n /\ length ds = n /\
    forall k v d, nth_error vs k = Some v -> nth_error ds k = Some d ->
      let draw i := draws g (drawn g + i * n + k) in
      let r := sin ang * sqrt (draw 1%nat) in
      deviates (vopp sun) ang d /\
      dot d x = r * cos (2 * PI * draw 0%nat) /\ dot d y = r * sin (2 * PI * draw 0%nat) /\
      exists p u w, nth_error ps (k mod length ps) = Some p /\ - half <= u <= half /\ - half <= w <= half /\
        u = half * (2 * draw 2%nat - 1) /\ w = half * (2 * draw 3%nat - 1) /\
        vadd v d = vadd p (vadd (vscale u x) (vscale w y)).

(** The histogram [H] shows exactly the rays of the trace [tree] that meet surface [i]
    first, each with all its energy, at the place on the rectangle placed by [frame]
    where it meets it. *)
Definition shows (ss : list surface) (i : nat) (tree : list bundle) (reps : nat) (me : R) (X Y : R) (frame : mat4) (bins : nat) (H : list (list R)) : Prop :=
  exists (ns : nat -> nat) (Ts : nat -> reports) ls qs,
  (forall L prev, nth_error tree L = Some prev -> (L < reps)%nat -> (0 < ns L)%nat ->
     exists tb, reported surface_ops ss prev (ns L) (Ts L) tb) /\
  (forall L prev, nth_error tree L = Some prev -> forall j, (j < ns L)%nat <-> is_traced me L prev j) /\
  length ls = Nat.min reps (length tree) /\
  (forall L prev l, nth_error tree L = Some prev -> nth_error ls L = Some l ->
     noted 1 (Ts L) (length ss) prev (ns L) i l) /\
  map snd (concat ls) = map (app4 frame) qs /\ Forall (rectangle X Y) qs /\
  length H = bins /\ (forall row, In row H -> length row = bins) /\
  (forall i j, (i < bins)%nat -> (j < bins)%nat -> exists row t, nth_error H i = Some row /\ nth_error row j = Some t /\
     sum_where (fun h => in_bin (- (X / 2)) (X / 2) bins i (vx (fst h)) /\ in_bin (- (Y / 2)) (Y / 2) bins j (vy (fst h)))
       snd (combine qs (map fst (concat ls))) t) /\
  total (concat H) = total (map fst (concat ls)).

(** Mirrors at [ps] and a receiver at [target] are so far from each other that they do
    not touch, whichever way they are turned. *)
Definition well_apart (ps : list vec) (target : vec) (w h X Y : R) : Prop :=
  (forall i j p q, nth_error ps i = Some p -> nth_error ps j = Some q -> i <> j -> 4 * reach w h < norm2 (vsub p q)) /\
  forall p, In p ps -> 2 * (reach w h + reach X Y + tenm 10 * tenm 10) < norm2 (vsub p target).
