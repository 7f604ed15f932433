(** The way of the light through a dish collector, in the collector's coordinates. *)
From Coq Require Import Reals ZArith List Arith Bool Permutation.
From Verif.Base Require Import Py Num Vec.
From Verif.Model Require Import RayBundle Spatial Geometry OpticsCallables Engine Objects Surface Assembly Scene Models.
From Verif.Spec Require Import BundleSpec EngineSpec GeometrySpec GeomIface OpticsSpec LibrarySpec AccountSpec FrameSpec SceneSpec ModelSpec.
Import ListNotations.
Local Open Scope R_scope.

(** Between two mirrors at -X/2 and X/2 the coordinate of a ray is that of the
    straight line, [u], folded back: the line lies in the [z]th image of the interval. *)
Definition folds (X u : R) (z : Z) (q : R) : Prop :=
  - (X / 2) < u - IZR z * X < X / 2 /\ q = (if Z.even z then u - IZR z * X else IZR z * X - u).

(** The straight line with cosine [a] passes an image of the mirrors after the length [s]. *)
Definition crosses (X a s : R) : Prop := 0 <= s /\ exists k : nat, s * Rabs a = (INR k + 1 / 2) * X.

(** The light that leaves the focus in the direction [c] meets no mirror of the box at
    the edges or corners or almost parallel to it, and passes the dish safely (see
    C30). *)
Definition clear_way (X Y H f : R) (c : vec) : Prop :=
  tenm 10 < vz c /\ 4 * f * tenm 10 < vx c * vx c + vy c * vy c /\
  (forall s, crosses X (vx c) s -> s <= H / vz c -> tenm 10 < Rabs (vx c) /\ s + tenm 6 < H / vz c) /\
  (forall s, crosses Y (vy c) s -> s <= H / vz c -> tenm 10 < Rabs (vy c) /\ s + tenm 6 < H / vz c) /\
  forall s s', crosses X (vx c) s -> crosses Y (vy c) s' -> s <= H / vz c -> s' <= H / vz c -> tenm 6 < Rabs (s - s').

(** A ray of energy [e] coming down the axis at [v] onto the dish [A] of focal length
    [f] with efficiency [eff].  The receiver is [H] above the focus and [X] by [Y]; from
    it a box of mirrors with the efficiency [heff] hangs down to the focus.  After [k]
    reflections the ray ends as [o]: on the back of the receiver, or on its front with
    the given energy at the given place. *)
Inductive ends (A : shape) (X Y H f eff heff : R) (v : vec) (e : R) : nat -> option (R * vec) -> Prop :=
  | ends_back : - (X / 2) <= vx v <= X / 2 -> - (Y / 2) <= vy v <= Y / 2 -> f + H + tenm 10 + tenm 6 < vz v ->
      ends A X Y H f eff heff v e 0 None
  | ends_front : forall m r c zx zy qx qy k,
      ~ (- (X / 2) <= vx v <= X / 2 /\ - (Y / 2) <= vy v <= Y / 2) ->
      (** [m]: the point on the dish; [c]: the direction to the focus *)
      A m -> vx m = vx v -> vy m = vy v -> vz m + tenm 6 < vz v ->
      is_unit c -> 0 < r -> ray_at m c r = V3 0 0 f -> clear_way X Y H f c ->
      folds X (H / vz c * vx c) zx qx -> folds Y (H / vz c * vy c) zy qy ->
      k = (Z.abs_nat zx + Z.abs_nat zy)%nat ->
      ends A X Y H f eff heff v e (1 + k) (Some (e * eff * heff ^ k, V3 qx qy (f + H))).

(** What arrives on the front. *)
Definition arriving (os : list (option (R * vec))) : list (R * vec) :=
  flat_map (fun o => match o with Some x => [x] | None => [] end) os.

(** The histogram has the energy of everything that arrives on the front, each in the
    bin of its place; the receiver's own y axis is opposite to the collector's. *)
Definition shown (X Y : R) (bins : nat) (hist : list (list R)) (arr : list (R * vec)) : Prop :=
  length hist = bins /\ (forall row, In row hist -> length row = bins) /\
  (forall i j, (i < bins)%nat -> (j < bins)%nat -> exists row t, nth_error hist i = Some row /\ nth_error row j = Some t /\
     sum_where (fun h => in_bin (- (X / 2)) (X / 2) bins i (vx (snd h)) /\ in_bin (- (Y / 2)) (Y / 2) bins j (- vy (snd h))) fst arr t) /\
  total (concat hist) = total (map fst arr).

(** All light that comes down the axis and whose way is clear ends as it should: the
    record of accountant [id] has exactly one entry for every ray that is to arrive,
    and the histogram of the receiver [r] shows that. *)
Definition collects (view : list obj) (ss : list surface) (id : nat) (r : receiver) (sc : scene) (T : mat4) (A : shape) (X Y H f eff heff : R) : Prop :=
  forall g b n me reps (vs : list vec) (es : list R) (ks : list nat) (os : list (option (R * vec))),
  library_source b n -> g_acc g id = mkAcc [] [] -> (1 <= reps)%nat -> 0 <= me ->
  b_vert b = Some (map (app4 T) vs) -> b_dir b = Some (map (fun _ => turned T (V3 0 0 (-1))) vs) -> b_energy b = Some es ->
  length vs = n -> length ks = n -> length os = n ->
  (forall j v e k o, nth_error vs j = Some v -> nth_error es j = Some e -> nth_error ks j = Some k -> nth_error os j = Some o ->
     ends A X Y H f eff heff v e k o /\ (k < reps)%nat /\ forall e' p, o = Some (e', p) -> me < e') ->
  exists st ens hs, ray_tracer surface_ops view ss g b reps me TreeTrue = Ok ([], [], st) /\
    get_all_hits (g_acc (t_g st) id) = Ok (ens, hs) /\ length ens = length hs /\
    Permutation (combine ens hs) (map (fun eo => (fst eo, app4 T (snd eo))) (arriving os)) /\
    forall bins, (0 < bins)%nat -> exists hist xe ye, histogram_hits r bins (t_g st) sc = (sc, Ok (hist, xe, ye)) /\ shown X Y bins hist (arriving os).

(** A collector with the reflecting shape [A], where it was made and wherever it is put. *)
Definition collecting (limit : nat) (sc : scene) (r : receiver) (A : shape) (X Y H f eff heff : R) : Prop :=
  exists id,
  (exists view ss, engine_view limit (hr_node r) sc = (sc, Ok (view, ss)) /\ collects view ss id r sc id4 A X Y H f eff heff) /\
  forall T, rigid T -> exists sc' view ss, put_at limit (hr_node r) T sc = (sc', Ok tt) /\ engine_view limit (hr_node r) sc' = (sc', Ok (view, ss)) /\
    collects view ss id r sc' T A X Y H f eff heff.
