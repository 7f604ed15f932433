(** What the surfaces of the optical models are to do, in global coordinates. *)
From Coq Require Import Reals List Arith Bool.
From Verif.Base Require Import Py Num Vec.
From Verif.Model Require Import RayBundle Spatial Geometry OpticsCallables Engine Objects Surface Assembly Scene Models.
From Verif.Spec Require Import BundleSpec EngineSpec GeometrySpec GeomIface OpticsSpec LibrarySpec AccountSpec FrameSpec SceneSpec.
Import ListNotations.
Local Open Scope R_scope.

(** Asked about any rays, [s] reports parameters as described by [Hit]; told which
    of the hits to take, it sends one ray on from each hit point, as described by
    [Out] for the point and the old and new directions and energies. *)
Definition acts (s : surface) (Hit : vec -> vec -> num -> Prop) (Out : vec -> vec -> R -> vec -> R -> Prop) : Prop :=
  forall b n, traceable b n ->
  exists s1 ps, surf_register s b = Ok (s1, ps) /\ length ps = n /\
    (forall j v d x, vert_at b j = Some v -> dir_at b j = Some d -> nth_error ps j = Some x -> Hit v d x) /\
    forall sel g, all_hit ps sel ->
    exists s2 o g', surf_select s1 sel = Ok s2 /\ surf_outgoing s2 g = Ok (o, g') /\ traceable o (length sel) /\
      forall k i v d e t, nth_error sel k = Some i -> vert_at b i = Some v -> dir_at b i = Some d ->
        energy_at b i = Some e -> nth_error ps i = Some (Fin t) ->
        exists d' e', Out (ray_at v d t) d e d' e' /\ child b o k i (ray_at v d t) d' e' (ref_at b i).

(** Rays not almost parallel to the flat set [A] with unit normal [z] meet it at
    the first point; others pass. *)
Definition meets_flat (A : shape) (z : vec) (v d : vec) (x : num) : Prop :=
  (tenm 10 < Rabs (dot d z) -> first_hit0 A v d x) /\ (~ tenm 10 < Rabs (dot d z) -> x = PInf).

(** A flat mirror: rays that meet it against [z] keep the part [eff] of their
    energy, those that meet it from behind lose all. *)
Definition one_way_mirror (s : surface) (A : shape) (z : vec) (eff : R) : Prop :=
  acts s (meets_flat A z) (fun p d e d' e' => mirrored z d d' /\
    (dot d z <= 0 -> e' = e * eff) /\ (0 < dot d z -> e' = 0)).
(** A flat mirror with the same efficiency on both sides. *)
Definition flat_mirror (s : surface) (A : shape) (z : vec) (eff : R) : Prop :=
  acts s (meets_flat A z) (fun p d e d' e' => mirrored z d d' /\ e' = e * eff).

(** Nothing that exists has changed or moved. *)
Definition undisturbed (sc sc' : scene) : Prop :=
  forall n, exists_in sc n -> same_in sc sc' n /\ placed_array (sc_w sc') n = placed_array (sc_w sc) n.

(** The walls of a box of sides [X] and [Y] around the z axis, from 0 to [H], in
    its own coordinates, and the directions to the inside. *)
Local Open Scope R_scope.
Definition across_x (x Y H : R) : shape := fun p => vx p = x /\ - (Y / 2) <= vy p <= Y / 2 /\ 0 <= vz p <= H.
Definition across_y (y X H : R) : shape := fun p => vy p = y /\ - (X / 2) <= vx p <= X / 2 /\ 0 <= vz p <= H.
Definition turned (frame : mat4) (v : vec) : vec := mv3 (rot_of frame) v.

(** Four one-way mirrors, the sides of the box placed by [T], reflective inside. *)
Definition mirror_box (T : mat4) (X Y H eff : R) (ss : list surface) : Prop :=
  exists xp xn yp yn, ss = [xp; xn; yp; yn] /\
  one_way_mirror xp (placed T (across_x (X / 2) Y H)) (turned T (V3 (-1) 0 0)) eff /\
  one_way_mirror xn (placed T (across_x (- (X / 2)) Y H)) (turned T (V3 1 0 0)) eff /\
  one_way_mirror yp (placed T (across_y (Y / 2) X H)) (turned T (V3 0 (-1) 0)) eff /\
  one_way_mirror yn (placed T (across_y (- (Y / 2)) X H)) (turned T (V3 0 1 0)) eff.

(** A new transform for node [n]. *)
Definition put_at (limit n : nat) (t : mat4) : B unit := r <+ literal (A44 t) ;+ place limit n r.

(** ** Heliostats *)

(** A mirror [w] by [h] centred at [pos], its second side horizontal, that sends
    light from the direction [sun] to [target]. *)
Definition aims (s : surface) (pos sun target : vec) (w h eff : R) : Prop :=
  exists frame, rigid frame /\ app4 frame vzero = pos /\ vz (turned frame (V3 0 1 0)) = 0 /\
    one_way_mirror s (placed frame (rectangle w h)) (z_of frame) eff /\
    dot (vopp sun) (z_of frame) < 0 /\
    (exists d', mirrored (z_of frame) (vopp sun) d') /\
    forall d', mirrored (z_of frame) (vopp sun) d' ->
      is_unit d' /\ exists k, 0 < k /\ ray_at pos d' k = target.

(** A mirror [w] by [h] centred at [pos], sides along the x and y axes, facing down. *)
Definition faces_down (s : surface) (pos : vec) (w h eff : R) : Prop :=
  one_way_mirror s (fun p => vz p = vz pos /\ - (w / 2) <= vx p - vx pos <= w / 2 /\ - (h / 2) <= vy p - vy pos <= h / 2)
    (V3 0 0 (-1)) eff.

(** Mirrors with the transforms [ts] of their own, in an assembly placed by [T]. *)
Definition mirrors (T : mat4) (ts : list mat4) (w h a : R) : adesc :=
  mkA T (map (fun t => mkO true t [mkPart (RectPlate (w / 2) (h / 2)) (Absorbing (AbsorberReflector a)) id4]) ts) [].

(** [f] is a field of such mirrors. *)
Definition is_field (sc : scene) (f : field) (T : mat4) (ts : list mat4) (w h a : R) (ss : list nat) : Prop :=
  is_assembly sc (hf_node f) (mirrors T ts w h a) ss /\ kind_of (sc_w sc) (hf_node f) = Some (KAsm (hf_stats f) []) /\
  length ts = length (hf_pos f) /\ NoDup ss /\ NoDup (hf_stats f).

(** ** Radial stagger *)

(** Ring [i] and spoke [j] belong to the field when both are within the limits
    and of equal parity. *)
Definition staggered (start_ang end_ang az_space rmin rmax r_space : R) (ij : nat * nat) : Prop :=
  rmin + INR (fst ij) * r_space < rmax /\ start_ang + INR (snd ij) * (az_space / 2) < end_ang /\
  (Nat.Even (fst ij) <-> Nat.Even (snd ij)).
Definition stagger_position (start_ang az_space rmin r_space : R) (ij : nat * nat) : R * R :=
  let r := rmin + INR (fst ij) * r_space in let a := start_ang + INR (snd ij) * (az_space / 2) in (r * cos a, r * sin a).

(** The same angle measured clockwise from the x axis, seen from above. *)
Definition clockwise_position (r a : R) : R * R := (r * cos a, - (r * sin a)).

(** ** The sun *)

(** With north along x and up along z, east is along -y.  The direction at the
    angle [az] counterclockwise from east, [el] away from up. *)
Definition from_east (az el : R) : vec :=
  let east := V3 0 (-1) 0 in let north := V3 1 0 0 in let up := V3 0 0 1 in
  vadd (vscale (sin el) (vadd (vscale (cos az) east) (vscale (sin az) north))) (vscale (cos el) up).

(** ** Dishes *)

(** Along the gradient of x^2 + y^2 - 4 f z. *)
Definition bowl_normal (f : R) (q : vec) : vec := V3 (vx q) (vy q) (- (2 * f)).

(** The part [A] of a paraboloid of focal length [f], placed by [T], reflecting the
    part [eff] of the energy.  Rays that are almost, but not exactly, along the axis
    are left out: see C30. *)
Definition dish_mirror (s : surface) (T : mat4) (A : shape) (f eff : R) : Prop :=
  acts s (fun v d x => bowl_safe T (2 * sqrt f) (2 * sqrt f) d -> first_hit (placed T A) v d x)
    (fun p d e d' e' => e' = e * eff /\
      exists q n k, p = app4 T q /\ (bowl_safe T (2 * sqrt f) (2 * sqrt f) d -> A q) /\
        is_unit n /\ n = vscale k (turned T (bowl_normal f q)) /\ mirrored n d d').

(** Rays coming down the axis are sent to [target]. *)
Definition focuses (s : surface) (T : mat4) (A : shape) (target : vec) (eff : R) : Prop :=
  acts s (fun v d x => d = turned T (V3 0 0 (-1)) -> first_hit (placed T A) v d x)
    (fun p d e d' e' => d = turned T (V3 0 0 (-1)) ->
      e' = e * eff /\ is_unit d' /\ exists k, 0 < k /\ ray_at p d' k = target).

(** A receiver [X] by [Y] at the height [pos], facing down, its opaque back, the box
    hanging from it, and a reflector; everything placed by [T]. *)
Definition box_receiver (T : mat4) (pos X Y H eff : R) (reflector : surface -> Prop) (ss : list surface) : Prop :=
  let F := mm4 T (mm4 (translate 0 0 pos) (rotx PI)) in
  exists walls front back main, ss = walls ++ [front; back; main] /\
  mirror_box F X Y H eff walls /\
  flat_mirror front (placed T (fun p => vz p = pos /\ - (X / 2) <= vx p <= X / 2 /\ - (Y / 2) <= vy p <= Y / 2))
    (turned T (V3 0 0 (-1))) 0 /\
  flat_mirror back (placed T (fun p => vz p = pos + / 10 ^ 10 /\ - (X / 2) <= vx p <= X / 2 /\ - (Y / 2) <= vy p <= Y / 2))
    (turned T (V3 0 0 (-1))) 0 /\
  reflector main.

(** The height of the rim of a dish, and the angle between the axis and the line
    from the focus to the rim. *)
Definition rim_height (diameter f z : R) : Prop := focal_bowl f (V3 (diameter / 2) 0 z).
Definition rim_angle (diameter f a : R) : Prop :=
  exists z r, rim_height diameter f z /\ 0 < r /\ 0 <= a <= PI /\ diameter / 2 = r * sin a /\ f - z = r * cos a.

(** The front of the receiver, with accountant [id]. *)
Definition front_of (id : nat) (T : mat4) (pos X Y : R) : surface :=
  Surface.new_surface (RectPlate (X / 2) (Y / 2)) (Accountant id (Reflective 1)) (mm4 T (mm4 (translate 0 0 pos) (rotx PI))).

(** Rays of any energy can be traced on from [s], which keeps no account; [eff] is
    the part of the energy it sends on. *)
Definition workable (eff : R) (s : surface) : Prop :=
  (exists a, s_opt s = Absorbing a) /\ geom_ok (s_geom s) /\ (0 <= eff <= 1 -> lib_surface s).

(** The surfaces [ss] of the objects [view] have the front of the receiver as number
    4.  If the reflector, the last one, is workable, rays can be traced, and only
    the front reports to accountant [id]. *)
Definition receives (view : list obj) (id : nat) (T : mat4) (pos X Y eff : R) (ss : list surface) : Prop :=
  nth_error ss 4 = Some (front_of id T pos X Y) /\
  (0 <= eff <= 1 -> (forall s, nth_error ss 6 = Some s -> workable 1 s) ->
   answering_assembly view ss /\ sole_account ss 4 id /\ forall b, knows_media ss b).

(** Node [hr_node r] of [sc'], made from [sc], is such a collector.  Its receiver
    remembers hits in an accountant nobody else has.  [old] is what existed and may
    have been moved. *)
Definition collector (limit : nat) (sc sc' : scene) (r : receiver) (pos X Y H eff : R) (old : nat -> Prop)
    (reflector : mat4 -> surface -> Prop) : Prop :=
  let view := repeat (one_sided_object 1) 4 ++ [one_sided_object 2; default_object 1] in
  reached limit sc' /\
  (forall n, exists_in sc n -> same_in sc sc' n /\ (~ old n -> placed_array (sc_w sc') n = placed_array (sc_w sc) n)) /\
  ~ exists_in sc (hr_node r) /\ ~ exists_in sc (hr_rec r) /\ ~ exists_in sc (hr_hom r) /\ hr_sides r = (X, Y) /\
  exists id, (sc_acc sc <= id < sc_acc sc')%nat /\
  (exists ss, engine_view limit (hr_node r) sc' = (sc', Ok (view, ss)) /\ box_receiver id4 pos X Y H eff (reflector id4) ss /\
    receives view id id4 pos X Y eff ss /\ surface_now (hr_rec r) sc' = (sc', Ok (front_of id id4 pos X Y))) /\
  forall T, rigid T -> exists sc'' ss, put_at limit (hr_node r) T sc' = (sc'', Ok tt) /\ reached limit sc'' /\
    engine_view limit (hr_node r) sc'' = (sc'', Ok (view, ss)) /\ box_receiver T pos X Y H eff (reflector T) ss /\
    receives view id T pos X Y eff ss /\ surface_now (hr_rec r) sc'' = (sc'', Ok (front_of id T pos X Y)).

(** The two kinds of dishes. *)
Definition round_reflector (D f eff : R) (T : mat4) (s : surface) : Prop :=
  dish_mirror s T (round_dish D f) f eff /\ focuses s T (round_dish D f) (app4 T (V3 0 0 f)) eff /\ workable eff s.
Definition hex_reflector (D f eff : R) (T : mat4) (s : surface) : Prop :=
  dish_mirror s T (hex_dish D f) f eff /\ focuses s T (hex_dish D f) (app4 T (V3 0 0 f)) eff /\ workable eff s.

(** ** External dimensions *)

(** The cylinder around the z axis, standing on the origin. *)
Definition standing_cylinder (diameter height : R) : shape := fun q =>
  vx q * vx q + vy q * vy q <= (diameter / 2) * (diameter / 2) /\ 0 <= vz q <= height.

(** All points at which rays with [safe] directions are reported to meet [s]. *)
Definition hits_within (s : surface) (safe : vec -> Prop) (A : shape) : Prop :=
  forall b n s1 ps, traceable b n -> surf_register s b = Ok (s1, ps) ->
  forall j v d t, vert_at b j = Some v -> dir_at b j = Some d -> nth_error ps j = Some (Fin t) -> safe d ->
  A (ray_at v d t).

(** Wherever the collector [r] is put, rays meet its surfaces only inside the
    cylinder of these dimensions. *)
Definition fits (limit : nat) (sc : scene) (r : receiver) (f : R) (dims : R * R) : Prop :=
  forall T, rigid T -> exists sc' objs ss, put_at limit (hr_node r) T sc = (sc', Ok tt) /\
    engine_view limit (hr_node r) sc' = (sc', Ok (objs, ss)) /\ length ss = 7%nat /\
    forall s, In s ss -> hits_within s (bowl_safe T (2 * sqrt f) (2 * sqrt f)) (placed T (standing_cylinder (fst dims) (snd dims))).

(** ** Histograms *)

(** [x] is in bin [i] of [n] equal parts of the range from [lo] to [hi]; the last
    part has both ends. *)
Definition in_bin (lo hi : R) (n i : nat) (x : R) : Prop :=
  let w := (hi - lo) / INR n in
  lo + INR i * w <= x /\ (x < lo + INR (S i) * w \/ S i = n /\ x = hi).

(** [t] is the sum of the numbers [w] over the members of [l] with the property. *)
Inductive sum_where {A : Type} (P : A -> Prop) (w : A -> R) : list A -> R -> Prop :=
  | sum_nil : sum_where P w [] 0
  | sum_in x l t : P x -> sum_where P w l t -> sum_where P w (x :: l) (w x + t)
  | sum_out x l t : ~ P x -> sum_where P w l t -> sum_where P w (x :: l) t.

Definition total (l : list R) : R := fold_right Rplus 0 l.

(** Whatever is traced through the surfaces [ss], from an empty account [id]: the
    histogram of receiver [r] shows exactly the rays that meet surface 4 first, at
    any level of the tree, each with all its energy, at the place [qs] on the
    rectangle placed by [frame] where it meets it. *)
Definition measured (view : list obj) (ss : list surface) (r : receiver) (id : nat) (X Y : R) (frame : mat4) (sc : scene) : Prop :=
  forall g b n me reps bins, library_source b n -> g_acc g id = mkAcc [] [] -> (0 < bins)%nat ->
  exists vs ds st (ns : nat -> nat) (Ts : nat -> reports) ls qs H xe ye,
  ray_tracer surface_ops view ss g b reps me TreeTrue = Ok (vs, ds, st) /\
  (forall L prev, nth_error (t_tree st) L = Some prev -> (L < reps)%nat -> (0 < ns L)%nat ->
     exists tb, reported surface_ops ss prev (ns L) (Ts L) tb) /\
  (forall L prev, nth_error (t_tree st) L = Some prev -> forall j, (j < ns L)%nat <-> is_traced me L prev j) /\
  length ls = Nat.min reps (length (t_tree st)) /\
  (forall L prev l, nth_error (t_tree st) L = Some prev -> nth_error ls L = Some l ->
     noted 1 (Ts L) (length ss) prev (ns L) 4 l) /\
  map snd (concat ls) = map (app4 frame) qs /\ Forall (rectangle X Y) qs /\
  histogram_hits r bins (t_g st) sc = (sc, Ok (H, xe, ye)) /\
  (forall i j, (i < bins)%nat -> (j < bins)%nat -> exists row t, nth_error H i = Some row /\ nth_error row j = Some t /\
     sum_where (fun h => in_bin (- (X / 2)) (X / 2) bins i (vx (fst h)) /\ in_bin (- (Y / 2)) (Y / 2) bins j (vy (fst h)))
       snd (combine qs (map fst (concat ls))) t) /\
  total (concat H) = total (map fst (concat ls)).
