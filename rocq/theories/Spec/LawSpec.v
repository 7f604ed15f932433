(** The laws a single ray of a trace has to follow, and what symmetry makes of them. *)
From Coq Require Import Reals String List Arith Bool.
From Verif.Base Require Import Py Num Vec.
From Verif.Model Require Import RayBundle Geometry OpticsCallables Engine Surface.
From Verif.Spec Require Import BundleSpec EngineSpec GeometrySpec GeomIface OpticsSpec LibrarySpec.
Import ListNotations.
Local Open Scope list_scope.
Local Open Scope R_scope.

(** A ray with direction [d], energy [e] and refractive index [m] meets a surface with
    optics manager [o] and Z axis [z] where its unit normal is [n].  It is sent on as a
    ray with direction [d'], energy [e'] and index [m'], through the surface or not. *)
Definition follows (through : bool) (o : optics) (z n d : vec) (e : R) (m : option R) (d' : vec) (e' : R) (m' : option R) : Prop :=
  match o with
  | Absorbing (Reflective a) | Accountant _ (Reflective a) =>
      through = false /\ mirrored n d d' /\ e' = e * (1 - a) /\ m' = m
  | Absorbing (AbsorberReflector a) | Accountant _ (AbsorberReflector a) =>
      through = false /\ mirrored n d d' /\ (dot d z <= 0 -> e' = e * (1 - a)) /\ (0 < dot d z -> e' = 0) /\ m' = m
  | Absorbing (Lambertian a) | Accountant _ (Lambertian a) =>
      through = false /\ is_unit d' /\ 0 <= dot d' n /\ e' = e * (1 - a) /\ m' = m
  | Refractive i1 i2 => exists k k' f, m = Some k /\ 0 < k /\ 0 < k' /\ other_side i1 i2 k k' /\ 0 <= f <= 1 /\
      (can_refract k k' d n -> reflectance k k' d n f) /\ (~ can_refract k k' d n -> f = 1) /\
      if through then can_refract k k' d n /\ snell k k' n d d' /\ e' = e * (1 - f) /\ m' = Some k'
      else mirrored n d d' /\ e' = e * f /\ m' = Some k
  end.

(** Part of the light passes the surface. *)
Definition refracts (o : optics) (n d : vec) (m : option R) : Prop :=
  match o with
  | Refractive i1 i2 => exists k k', m = Some k /\ other_side i1 i2 k k' /\ can_refract k k' d n
  | _ => False
  end.

(** What ray [k] has of the additional property [x]. *)
Definition extra_at (b : bundle) (x : string) (k : nat) : option pval :=
  match prop b (Extra x) with Some l => nth_error l k | None => None end.

(** Ray [k] of [lvl] was made of ray [j] of [prev], which surface [s] reported to meet
    after the length [t]; [n] is the normal there. *)
Definition made_from (prev : bundle) (j : nat) (s : surface) (t : R) (n : vec) (through : bool) (lvl : bundle) (k : nat) : Prop :=
  exists v d e q g d' e',
    vert_at prev j = Some v /\ dir_at prev j = Some d /\ energy_at prev j = Some e /\
    parent_at lvl k = Some j /\ vert_at lvl k = Some (ray_at v d t) /\ dir_at lvl k = Some d' /\ energy_at lvl k = Some e' /\
    ray_at v d t = app4 (s_frame s) q /\ is_gradient (implicit (s_geom s)) q g /\ good_normal (s_frame s) g d n /\
    follows through (s_opt s) (z_of (s_frame s)) n d e (ref_at prev j) d' e' (ref_at lvl k) /\
    forall x, extra_at lvl x k = extra_at prev x j.

(** The rays of [lvl] are exactly those that the surfaces met by the rays of [prev] send
    on: ray [k] comes from surface [via k], through it or not as [thr k] says.  A met
    surface sends each ray on once, and once more through the surface if it refracts;
    [N i j] is the normal where ray [j] meets surface [i]. *)
Definition sent_on (surfs : list surface) (T : reports) (ns : nat) (prev : bundle)
    (N : nat -> nat -> vec) (via : nat -> nat) (thr : nat -> bool) (lvl : bundle) : Prop :=
  (forall k p, vert_at lvl k = Some p -> exists s j t, nth_error surfs (via k) = Some s /\
     meets_first T (length surfs) ns (via k) j t /\ made_from prev j s t (N (via k) j) (thr k) lvl k) /\
  (forall i s j t d, nth_error surfs i = Some s -> meets_first T (length surfs) ns i j t -> dir_at prev j = Some d ->
     (exists k, parent_at lvl k = Some j /\ via k = i /\ thr k = false) /\
     ((exists k, parent_at lvl k = Some j /\ via k = i /\ thr k = true) <-> refracts (s_opt s) (N i j) d (ref_at prev j))) /\
  (forall k k' j, parent_at lvl k = Some j -> parent_at lvl k' = Some j -> via k = via k' -> thr k = thr k' -> k = k').

(** ** Symmetry *)

(** Ray [k] of level [L] of the tree descends from ray [j] of the source. *)
Inductive descends (tree : list bundle) : nat -> nat -> nat -> Prop :=
| from_source b j v : nth_error tree 0 = Some b -> vert_at b j = Some v -> descends tree 0 j j
| from_parent L lvl k p j : nth_error tree (L + 1) = Some lvl -> parent_at lvl k = Some p -> descends tree L p j -> descends tree (L + 1) k j.

(** The velocity at [p] of a motion that shifts by [u] and turns about [w]; a screw motion
    if it does both. *)
Definition motion (u w p : vec) : vec := vadd u (cross w p).

(** The motion carries the surface along itself: the normals are perpendicular to it. *)
Definition slides (u w : vec) (s : surface) : Prop := forall q g n d,
  is_gradient (implicit (s_geom s)) q g -> good_normal (s_frame s) g d n ->
  dot n (motion u w (app4 (s_frame s) q)) = 0.

(** Does not scatter at random. *)
Definition specular (o : optics) : Prop :=
  match o with Absorbing (Lambertian _) | Accountant _ (Lambertian _) => False | _ => True end.

(** The refractive index, 1 if the rays do not know of it. *)
Definition index (m : option R) : R := match m with Some k => k | None => 1 end.

(** The momentum of a ray along the motion: index times direction, times the velocity
    where the ray is. *)
Definition along (u w : vec) (m : option R) (v d : vec) : R := index m * dot d (motion u w v).

(** The centre of a surface's frame. *)
Definition centre (s : surface) : vec := app4 (s_frame s) (V3 0 0 0).

(** A surface of revolution about the line through [c] along [a]. *)
Definition coaxial (c a : vec) (s : surface) : Prop :=
  match s_geom s with
  | Base | Flat | RectPlate _ _ | RoundPlate _ | Triangle _ _ => cross a (z_of (s_frame s)) = V3 0 0 0
  | Sphere _ | Hemisphere _ | CutSphere _ _ => cross a (vsub (centre s) c) = V3 0 0 0
  | Cylinder _ | FiniteCyl _ _ => cross a (z_of (s_frame s)) = V3 0 0 0 /\ cross a (vsub (centre s) c) = V3 0 0 0
  | Parab x y | ParabDish x y _ _ | HexDish x y _ =>
      x = y /\ cross a (z_of (s_frame s)) = V3 0 0 0 /\ cross a (vsub (centre s) c) = V3 0 0 0
  end.

(** A wall along [a]: a plane that contains it or a tube around it. *)
Definition wall (a : vec) (s : surface) : Prop :=
  match s_geom s with
  | Base | Flat | RectPlate _ _ | RoundPlate _ | Triangle _ _ => dot a (z_of (s_frame s)) = 0
  | Cylinder _ | FiniteCyl _ _ => cross a (z_of (s_frame s)) = V3 0 0 0
  | _ => False
  end.

(** A plane across [a]. *)
Definition layer (a : vec) (s : surface) : Prop :=
  match s_geom s with
  | Base | Flat | RectPlate _ _ | RoundPlate _ | Triangle _ _ => cross a (z_of (s_frame s)) = V3 0 0 0
  | _ => False
  end.
