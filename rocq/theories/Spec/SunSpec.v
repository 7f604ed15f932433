(** The way of any light through a dish collector, in the collector's coordinates. *)
From Coq Require Import Reals ZArith List Arith Bool Permutation.
From Verif.Base Require Import Py Num Vec.
From Verif.Model Require Import RayBundle Spatial Geometry OpticsCallables Engine Objects Surface Assembly Scene Models.
From Verif.Spec Require Import BundleSpec EngineSpec GeometrySpec GeomIface OpticsSpec LibrarySpec AccountSpec FrameSpec SceneSpec ModelSpec DishSpec.
Import ListNotations.
Local Open Scope R_scope.

(** The receiver [X] by [Y] at [f + H], its back, and the box of mirrors that hangs from
    it down to the focus: the four walls, the front, the back; with each its shape and
    the direction it faces. *)
Definition sides (X Y H f : R) : list (shape * vec) :=
  [(fun p => vx p = X / 2 /\ - (Y / 2) <= vy p <= Y / 2 /\ f <= vz p <= f + H, V3 (-1) 0 0);
   (fun p => vx p = - (X / 2) /\ - (Y / 2) <= vy p <= Y / 2 /\ f <= vz p <= f + H, V3 1 0 0);
   (fun p => vy p = - (Y / 2) /\ - (X / 2) <= vx p <= X / 2 /\ f <= vz p <= f + H, V3 0 1 0);
   (fun p => vy p = Y / 2 /\ - (X / 2) <= vx p <= X / 2 /\ f <= vz p <= f + H, V3 0 (-1) 0);
   (fun p => vz p = f + H /\ - (X / 2) <= vx p <= X / 2 /\ - (Y / 2) <= vy p <= Y / 2, V3 0 0 (-1));
   (fun p => vz p = f + H + tenm 10 /\ - (X / 2) <= vx p <= X / 2 /\ - (Y / 2) <= vy p <= Y / 2, V3 0 0 (-1))].
Definition front_side : nat := 4.

(** Directions for which the dish is met as its shape says (see C30). *)
Definition dish_safe (f : R) (d : vec) : Prop :=
  4 * f * tenm 10 < vx d * vx d + vy d * vy d \/ vx d = 0 /\ vy d = 0 /\ vz d <> 0.

(** Nothing of the receiver and the box is met up to the length [t]. *)
Definition unshaded (X Y H f : R) (v d : vec) (t : R) : Prop :=
  forall B z s, In (B, z) (sides X Y H f) -> 0 <= s <= t -> ~ B (ray_at v d s).
(** Nothing at all is met. *)
Definition passes (A : shape) (X Y H f : R) (v d : vec) : Prop :=
  (forall t, unshaded X Y H f v d t) /\ forall s, 0 < s -> ~ A (ray_at v d s).
(** The first thing that is met is a wall, from outside, or the back of the receiver. *)
Definition stopped (A : shape) (X Y H f : R) (v d : vec) : Prop :=
  exists i B z t, nth_error (sides X Y H f) i = Some (B, z) /\ i <> front_side /\ tenm 6 < t /\ B (ray_at v d t) /\ tenm 10 < dot d z /\
  (forall i' B' z' s, nth_error (sides X Y H f) i' = Some (B', z') -> i' <> i -> 0 <= s <= t -> ~ B' (ray_at v d s)) /\
  forall s, 0 < s <= t -> ~ A (ray_at v d s).
(** The first thing that is met is the dish, at [m], which sends the light on in the
    direction [c]. *)
Definition mirrored_at (A : shape) (X Y H f : R) (v d m c : vec) : Prop :=
  exists t n k, tenm 6 < t /\ m = ray_at v d t /\ A m /\ unshaded X Y H f v d t /\ (forall s, 0 < s < t -> ~ A (ray_at v d s)) /\
  is_unit n /\ n = vscale k (bowl_normal f m) /\ mirrored n d c.
(** From there it goes upwards into the box, through the point [p] at the height of the
    focus. *)
Definition enters (A : shape) (X Y f : R) (m c p : vec) : Prop :=
  exists r, tenm 6 < r /\ p = ray_at m c r /\ vz p = f /\ - (X / 2) < vx p < X / 2 /\ - (Y / 2) < vy p < Y / 2 /\
  forall s, 0 < s <= r -> ~ A (ray_at m c s).

(** The coordinate that starts as [u] and grows by [a] with the length passes an image of
    the mirrors at -X/2 and X/2 after the length [s]. *)
Definition passes_image (X u a s : R) : Prop := 0 <= s /\ exists z : Z, u + s * a = (IZR z + 1 / 2) * X.
(** As [clear_way], for light that enters the box at [p]. *)
Definition clear_inside (X Y H f : R) (p c : vec) : Prop :=
  tenm 10 < vz c /\ 4 * f * tenm 10 < vx c * vx c + vy c * vy c /\
  (forall s, passes_image X (vx p) (vx c) s -> s <= H / vz c -> tenm 10 < Rabs (vx c) /\ s + tenm 6 < H / vz c) /\
  (forall s, passes_image Y (vy p) (vy c) s -> s <= H / vz c -> tenm 10 < Rabs (vy c) /\ s + tenm 6 < H / vz c) /\
  forall s s', passes_image X (vx p) (vx c) s -> passes_image Y (vy p) (vy c) s' -> s <= H / vz c -> s' <= H / vz c -> tenm 6 < Rabs (s - s').

(** A ray of energy [e] from [v] in the direction [d].  It has at most [k] reflections; it
    is lost, or ends on the front of the receiver with the given energy at the given
    place. *)
Inductive course (A : shape) (X Y H f eff heff : R) (v d : vec) (e : R) : nat -> option (R * vec) -> Prop :=
  | course_past : dish_safe f d -> passes A X Y H f v d -> course A X Y H f eff heff v d e 0 None
  | course_stopped : dish_safe f d -> stopped A X Y H f v d -> course A X Y H f eff heff v d e 0 None
  | course_spilled : forall m c, dish_safe f d -> mirrored_at A X Y H f v d m c -> dish_safe f c ->
      passes A X Y H f m c \/ stopped A X Y H f m c -> course A X Y H f eff heff v d e 1 None
  | course_in : forall m c p zx zy qx qy k, dish_safe f d -> mirrored_at A X Y H f v d m c -> enters A X Y f m c p ->
      clear_inside X Y H f p c -> folds X (vx p + H / vz c * vx c) zx qx -> folds Y (vy p + H / vz c * vy c) zy qy ->
      k = (Z.abs_nat zx + Z.abs_nat zy)%nat ->
      course A X Y H f eff heff v d e (1 + k) (Some (e * eff * heff ^ k, V3 qx qy (f + H))).

(** Light that is too weak is not traced on. *)
Definition strong (me : R) (arr : list (R * vec)) : list (R * vec) := filter (fun eo => if Rlt_dec me (fst eo) then true else false) arr.

(** As [collects], for light from anywhere. *)
Definition catches (view : list obj) (ss : list surface) (id : nat) (r : receiver) (sc : scene) (T : mat4) (A : shape) (X Y H f eff heff : R) : Prop :=
  forall g b n me reps (vs ds : list vec) (es : list R) (ks : list nat) (os : list (option (R * vec))),
  library_source b n -> g_acc g id = mkAcc [] [] -> (1 <= reps)%nat -> 0 <= me ->
  b_vert b = Some (map (app4 T) vs) -> b_dir b = Some (map (turned T) ds) -> b_energy b = Some es ->
  length vs = n -> length ks = n -> length os = n ->
  (forall j v d e k o, nth_error vs j = Some v -> nth_error ds j = Some d -> nth_error es j = Some e -> nth_error ks j = Some k -> nth_error os j = Some o ->
     course A X Y H f eff heff v d e k o /\ (k < reps)%nat) ->
  exists st ens hs, ray_tracer surface_ops view ss g b reps me TreeTrue = Ok ([], [], st) /\
    get_all_hits (g_acc (t_g st) id) = Ok (ens, hs) /\ length ens = length hs /\
    Permutation (combine ens hs) (map (fun eo => (fst eo, app4 T (snd eo))) (strong me (arriving os))) /\
    forall bins, (0 < bins)%nat -> exists hist xe ye, histogram_hits r bins (t_g st) sc = (sc, Ok (hist, xe, ye)) /\
      shown X Y bins hist (strong me (arriving os)).

(** A collector with the reflecting shape [A], where it was made and wherever it is put. *)
Definition catching (limit : nat) (sc : scene) (r : receiver) (A : shape) (X Y H f eff heff : R) : Prop :=
  exists id,
  (exists view ss, engine_view limit (hr_node r) sc = (sc, Ok (view, ss)) /\ catches view ss id r sc id4 A X Y H f eff heff) /\
  forall T, rigid T -> exists sc' view ss, put_at limit (hr_node r) T sc = (sc', Ok tt) /\ engine_view limit (hr_node r) sc' = (sc', Ok (view, ss)) /\
    catches view ss id r sc' T A X Y H f eff heff.
