(** The laws of optics and what optics managers owe for each incoming ray. *)
From Coq Require Import Reals String List Arith Bool Sorted.
From Verif.Base Require Import Py Num Vec.
From Verif.Model Require Import RayBundle Geometry OpticsCallables.
From Verif.Spec Require Import BundleSpec EngineSpec.
Import ListNotations.
Local Open Scope R_scope.

Definition is_unit (v : vec) : Prop := norm2 v = 1.

(** [d'] is [d] mirrored at the plane with unit normal [n]: the normal component
    is reversed and the tangential one kept. *)
Definition tangential (d n : vec) : vec := vsub d (vscale (dot d n) n).
Definition mirrored (n d d' : vec) : Prop :=
  dot d' n = - dot d n /\ tangential d' n = tangential d n.

(** The angle between the ray and the normal line. *)
Definition incidence (d n : vec) (theta : R) : Prop :=
  0 <= theta <= PI / 2 /\ cos theta = Rabs (dot d n).

(** Refraction is possible at all. *)
Definition can_refract (n1 n2 : R) (d n : vec) : Prop :=
  exists theta, incidence d n theta /\ n1 * sin theta <= n2.

(** [d'] is the refracted direction of [d] on passing from index [n1] to [n2]. *)
Definition snell (n1 n2 : R) (n d d' : vec) : Prop :=
  is_unit d' /\
  (exists a b, d' = vadd (vscale a d) (vscale b n)) /\
  (0 <= dot d n -> 0 <= dot d' n) /\ (dot d n < 0 -> dot d' n <= 0) /\
  n1 * norm (cross d n) = n2 * norm (cross d' n) /\
  0 <= dot (tangential d n) (tangential d' n).

(** Reflectance of unpolarised light at angles of incidence [t1] and refraction
    [t2]: the mean of the reflectances of both polarisations. *)
Definition fresnel_law (n1 n2 t1 t2 r : R) : Prop :=
  n1 * cos t1 + n2 * cos t2 <> 0 /\ n1 * cos t2 + n2 * cos t1 <> 0 /\
  r = (((n1 * cos t1 - n2 * cos t2) / (n1 * cos t1 + n2 * cos t2)) ^ 2 +
       ((n1 * cos t2 - n2 * cos t1) / (n1 * cos t2 + n2 * cos t1)) ^ 2) / 2.

(** [r] is the fraction of the energy reflected. *)
Definition reflectance (n1 n2 : R) (d n : vec) (r : R) : Prop :=
  exists t1 t2, incidence d n t1 /\ 0 <= t2 <= PI / 2 /\ n1 * sin t1 = n2 * sin t2 /\
    fresnel_law n1 n2 t1 t2 r.

(** A ray that runs along the surface between equal media has no reflectance. *)
Definition reflectance_defined (n1 n2 : R) (d n : vec) : Prop := dot d n <> 0 \/ n1 <> n2.

(** ** Optics managers *)

(** What a geometry manager tells about the selected rays. *)
Definition told (gs : gstate) (pts ns : list vec) (z : vec) : Prop :=
  get_points gs = Ok pts /\ get_normals gs = Ok ns /\ up gs = Ok z /\ length pts = length ns.

(** Ray [r] of [o] comes from ray [i] of [b]: it starts at [p] with direction [d]
    and energy [e] in a medium of index [n], is marked as a child of [i], and has
    all of its parent's additional properties. *)
Record child (b o : bundle) (r i : nat) (p d : vec) (e : R) (n : option R) : Prop := {
  ch_vert : vert_at o r = Some p;
  ch_dir : dir_at o r = Some d;
  ch_energy : energy_at o r = Some e;
  ch_parent : parent_at o r = Some i;
  ch_ref : ref_at o r = n;
  ch_extra : forall x, match prop b (Extra x) with
             | None => prop o (Extra x) = None
             | Some l => exists l', prop o (Extra x) = Some l' /\ nth_error l' r = nth_error l i
             end }.

(** Everything known about selected ray number [k]: ray [i] of the bundle, with
    direction [d], energy [e], hit point [p], normal [n]. *)
Definition incoming (b : bundle) (sel : list nat) (pts ns : list vec)
    (k i : nat) (d : vec) (e : R) (p n : vec) : Prop :=
  nth_error sel k = Some i /\ dir_at b i = Some d /\ energy_at b i = Some e /\
  nth_error pts k = Some p /\ nth_error ns k = Some n.

(** The outgoing bundle [o] has exactly one ray per selected ray, related to it
    as described by [P]. *)
Definition one_each (b : bundle) (sel : list nat) (pts ns : list vec) (o : bundle)
    (P : vec -> R -> vec -> vec -> R -> Prop) : Prop :=
  traceable o (length sel) /\ same_set o b /\
  forall k i d e p n, incoming b sel pts ns k i d e p n ->
    exists d' e', P d e n d' e' /\ child b o k i p d' e' (ref_at b i).

(** *** Receivers *)

(** Incoming energy and hit point of every selected ray of one call. *)
Definition batch_of (gs : gstate) (b : bundle) (sel : list nat) (l : list (R * vec)) : Prop :=
  exists pts es, get_points gs = Ok pts /\ b_energy b = Some es /\
    picks es sel (map fst l) /\ map snd l = pts.

(** [ls] are the batches of rays the optics manager [o] of accountant [id] was
    called with in the history [evs], since the last reset of the accountant. *)
Inductive batches_since (id : nat) (o : absorbing) : list event -> list (list (R * vec)) -> Prop :=
  | bs_start : batches_since id o [] []
  | bs_reset evs ls : batches_since id o evs ls -> batches_since id o (evs ++ [EReset id]) []
  | bs_hit evs ls gs b sel l : batches_since id o evs ls -> batch_of gs b sel l ->
      batches_since id o (evs ++ [ECall (Accountant id o) gs b sel]) (ls ++ [l])
  | bs_other evs ls e : batches_since id o evs ls ->
      e <> EReset id -> (forall o' gs b sel, e <> ECall (Accountant id o') gs b sel) ->
      batches_since id o (evs ++ [e]) ls.

(** Accountant [id] always wraps the manager [o], and is called with rays of the
    bundle the geometry manager has found hit points for. *)
Definition proper_call (id : nat) (o : absorbing) (e : event) : Prop :=
  match e with
  | ECall (Accountant id' o') gs b sel => id' = id ->
      o' = o /\ exists n pts, traceable b n /\ (forall i, In i sel -> (i < n)%nat) /\
        get_points gs = Ok pts /\ length pts = length sel
  | _ => True
  end.

(** *** Refraction *)

(** [m'] is the index on the other side of a surface between [i1] and [i2], seen
    from the side with index [m]. *)
Definition other_side (i1 i2 m m' : R) : Prop := (m = i1 -> m' = i2) /\ (m <> i1 -> m' = i1).

(** The outgoing bundle first has a reflected ray for every selected ray, then a
    refracted one for the selected rays at positions [refr], those not totally
    reflected. *)
Definition splits (i1 i2 : R) (b : bundle) (sel : list nat) (pts ns : list vec) (o : bundle) : Prop :=
  exists refr, Sorted.StronglySorted lt refr /\ (forall k, In k refr -> (k < length sel)%nat) /\
    traceable o (length sel + length refr) /\ same_set o b /\
    forall k i d e p n m m', incoming b sel pts ns k i d e p n -> ref_at b i = Some m ->
      other_side i1 i2 m m' ->
      (In k refr <-> can_refract m m' d n) /\
      exists d1 f, 0 <= f <= 1 /\ mirrored n d d1 /\ child b o k i p d1 (e * f) (Some m) /\
        (can_refract m m' d n -> reflectance m m' d n f) /\
        (~ can_refract m m' d n -> f = 1) /\
        forall j, nth_error refr j = Some k ->
          exists d2, snell m m' n d d2 /\
            child b o (length sel + j) i p d2 (e * (1 - f)) (Some m').

(** What a refractive surface may be given: unit directions and normals, positive
    refractive indices, and no ray running along a surface between equal media. *)
Definition refractive_input (i1 i2 : R) (gs : gstate) (b : bundle) (n : nat) (sel : list nat) (pts ns : list vec) (z : vec) : Prop :=
  traceable b n /\ (forall i, In i sel -> (i < n)%nat) /\ told gs pts ns z /\ length pts = length sel /\
  Forall is_unit ns /\ sel <> [] /\ 
  (forall k i d e p n, incoming b sel pts ns k i d e p n -> is_unit d /\ 
     exists m, ref_at b i = Some m /\ 0 < m /\
     forall m', other_side i1 i2 m m' -> can_refract m m' d n -> reflectance_defined m m' d n).

(** Every ray leaves its hit point with the energy that was not absorbed. *)
Definition balanced (o : absorbing) (b : bundle) (sel : list nat) (pts : list vec) (r : bundle) : Prop :=
  forall k i e p, nth_error sel k = Some i -> energy_at b i = Some e -> nth_error pts k = Some p ->
    vert_at r k = Some p /\
    exists e', energy_at r k = Some e' /\ e' + e * absorptivity o = e.
