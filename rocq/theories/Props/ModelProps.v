(** Properties of the optical models in tracer/models. *)
From Coq Require Import Reals List Arith Bool Lia Lra.
From Verif.Base Require Import Py Num Vec.
From Verif.Model Require Import RayBundle Spatial Geometry TraceTree Engine Objects OpticsCallables Surface Assembly Scene Models.
From Verif.Proof Require SharedProof.
From Verif.Proof Require Import SceneProof ActProof ModelProof ModelTop ModelExamples HelioProof HelioExamples StaggerProof DishProof.
From Verif.Proof Require ReceiverTop MeasureProof FluxProof FitProof.
From Verif.Model Require Sources.
From Verif.Spec Require Import BundleSpec EngineSpec LibrarySpec GeometrySpec OpticsSpec FrameSpec SceneSpec ModelSpec.
Import ListNotations.
Local Open Scope R_scope.

(** C62: the one-sided mirror and the one-sided receiver are new objects with a
    replaced [surfaces_for_next_iteration]. *)
Theorem c62_mirror : forall limit sc w h a, reached limit sc -> 0 < w -> 0 < h -> (0 < limit)%nat ->
  exists sc' n s, rect_one_sided_mirror limit w h a sc = (sc', Ok n) /\ reached limit sc' /\ undisturbed sc sc' /\
    ~ exists_in sc n /\ ~ exists_in sc s /\
    is_object sc' n (mkO true id4 [mkPart (RectPlate (w / 2) (h / 2)) (Absorbing (AbsorberReflector a)) id4]) [s].
Proof. exact mirror_top. Qed.
Print Assumptions c62_mirror.

Theorem c62_receiver : forall limit sc w h a, reached limit sc -> 0 < w -> 0 < h -> (0 < limit)%nat ->
  exists sc' n front back id, one_sided_receiver limit w h a sc = (sc', Ok (front, n)) /\ reached limit sc' /\ undisturbed sc sc' /\
    ~ exists_in sc n /\ ~ exists_in sc front /\ ~ exists_in sc back /\ front <> back /\ (sc_acc sc <= id < sc_acc sc')%nat /\
    is_object sc' n (mkO true id4 [mkPart (RectPlate (w / 2) (h / 2)) (Accountant id (Reflective a)) id4;
      mkPart (RectPlate (w / 2) (h / 2)) (Absorbing (Reflective 1)) (translate 0 0 (- / 10 ^ 10))]) [front; back].
Proof. exact receiver_top. Qed.
Print Assumptions c62_receiver.

(** What their surfaces do, wherever the object is. *)
Theorem c62_surfaces : forall T w h a id, rigid T -> 0 < w -> 0 < h ->
  one_way_mirror (seen_part T (mkPart (RectPlate (w / 2) (h / 2)) (Absorbing (AbsorberReflector a)) id4))
    (placed T (rectangle w h)) (z_of T) (1 - a) /\
  flat_mirror (seen_part T (mkPart (RectPlate (w / 2) (h / 2)) (Accountant id (Reflective a)) id4))
    (placed T (rectangle w h)) (z_of T) (1 - a) /\
  flat_mirror (seen_part T (mkPart (RectPlate (w / 2) (h / 2)) (Absorbing (Reflective 1)) (translate 0 0 (- / 10 ^ 10))))
    (placed T (placed (translate 0 0 (- / 10 ^ 10)) (rectangle w h))) (z_of T) 0.
Proof. exact sided_surfaces. Qed.
Print Assumptions c62_surfaces.

(** Such an object somewhere in an assembly: a ray it emits is not put to its own
    surfaces in the next iteration. *)
Theorem c62_untested : forall limit sc n d ls, is_assembly sc n d ls -> NoDup ls -> has_objects d -> well_placed (sc_w sc) n ->
  (S (depth d) <= limit)%nat -> (forall s, In s (seen_surfaces id4 d) -> lib_surface s) ->
  engine_view limit n sc = (sc, Ok (seen_objects d, seen_surfaces id4 d)) /\
  forall me g b m, library_source b m -> forall reps vs ds st,
  ray_tracer surface_ops (seen_objects d) (seen_surfaces id4 d) g b reps me TreeTrue = Ok (vs, ds, st) ->
  exists (ns : nat -> nat) (Ts : nat -> reports),
  (forall L prev, nth_error (t_tree st) L = Some prev -> (L < reps)%nat -> (0 < ns L)%nat ->
     exists tb, reported surface_ops (seen_surfaces id4 d) prev (ns L) (Ts L) tb) /\
  (forall L prev, nth_error (t_tree st) L = Some prev -> forall j, (j < ns L)%nat <-> is_traced me L prev j) /\
  (forall L lvl, nth_error (t_tree st) (L + 1) = Some lvl -> (L + 1 < reps)%nat ->
     forall j, is_traced me (L + 1) lvl j -> exists i oi owns next r,
       emitted_by (seen_objects d) i oi owns next lvl j r /\
       forall o, nth_error (flat_objs d) oi = Some o -> o_sided o = true ->
       forall i', nth_error (surf_ownership (seen_objects d)) i' = Some oi -> Ts (L + 1)%nat i' j = None).
Proof. exact sided_untested. Qed.
Print Assumptions c62_untested.

(** A homogenizer is an assembly of four such objects. *)
Example c62_example : exists sc n ls, let d := mkA id4 (walls 1 2 3 (9 / 10)) [] in
  is_assembly sc n d ls /\ NoDup ls /\ has_objects d /\ well_placed (sc_w sc) n /\ (S (depth d) <= 5)%nat /\
  (forall s, In s (seen_surfaces id4 d) -> lib_surface s) /\ forall o, In o (flat_objs d) -> o_sided o = true.
Proof. exact sided_example. Qed.

(** C63 *)
Theorem c63_homogenizer : forall limit X Y H eff sc, reached limit sc -> 0 < X -> 0 < Y -> 0 < H -> (2 <= limit)%nat ->
  exists sc' n ss, rect_homogenizer limit X Y H eff sc = (sc', Ok n) /\ reached limit sc' /\ undisturbed sc sc' /\ ~ exists_in sc n /\
    engine_view limit n sc' = (sc', Ok (repeat (one_sided_object 1) 4, ss)) /\ mirror_box id4 X Y H eff ss /\
    forall T, rigid T -> exists sc'' ss', put_at limit n T sc' = (sc'', Ok tt) /\ reached limit sc'' /\ undisturbed sc sc'' /\
      engine_view limit n sc'' = (sc'', Ok (repeat (one_sided_object 1) 4, ss')) /\ mirror_box T X Y H eff ss'.
Proof. exact homogenizer_top. Qed.
Print Assumptions c63_homogenizer.
Example c63_example : exists sc, reached 2 sc /\ 0 < 1 /\ 0 < 2 /\ 0 < 3 /\ (2 <= 2)%nat /\ rigid (translate 1 2 3).
Proof. exists start. repeat split; try lra; try lia; [apply start_reached|apply rigid_translate]. Qed.

(** C64: a new field faces down. *)
Theorem c64_built : forall limit w h a ps aim sc, reached limit sc -> 0 < w -> 0 < h -> (2 <= limit)%nat -> ps <> [] ->
  exists sc' f ss surfs, heliostat_field limit ps w h a aim sc = (sc', Ok f) /\ reached limit sc' /\ undisturbed sc sc' /\
    ~ exists_in sc (hf_node f) /\ is_field sc' f id4 (map (with_loc (rotx PI)) ps) w h a ss /\ hf_pos f = ps /\ hf_height f = aim /\
    (forall j, In j (hf_stats f ++ ss) -> ~ exists_in sc j) /\
    engine_view limit (hf_node f) sc' = (sc', Ok (repeat (one_sided_object 1) (length ps), surfs)) /\
    Forall2 (fun p s => faces_down s p w h (1 - a)) ps surfs.
Proof. exact field_built. Qed.
Print Assumptions c64_built.

(** Aiming, in any state of the field and of everything else: what the engine then
    gets are mirrors sending the sun to the target. *)
Theorem c64_aimed : forall limit sc f T ts w h a ss az el, reached limit sc -> is_field sc f T ts w h a ss -> hf_pos f <> [] ->
  0 < w -> 0 < h -> (2 <= limit)%nat ->
  (forall p, In p (hf_pos f) -> p <> V3 0 0 (hf_height f) /\
     forall tw k, 0 < k -> V3 0 0 (hf_height f) = vadd p (vscale k tw) -> is_unit tw -> vadd (solar_vector az el) tw <> vzero) ->
  exists sc' ts' surfs, aim_to_sun limit f az el sc = (sc', Ok tt) /\ reached limit sc' /\ is_field sc' f T ts' w h a ss /\
    Forall2 (fun p t => rigid t /\ app4 t vzero = p) (hf_pos f) ts' /\
    Forall2 (fun l t => global_frame (sc_w sc') l = Some t) ss ts' /\
    (forall j, exists_in sc j -> ~ In j (hf_stats f) -> same_in sc sc' j) /\
    (forall l, exists_in sc l -> ~ In l ss -> placed_array (sc_w sc') l = placed_array (sc_w sc) l) /\
    engine_view limit (hf_node f) sc' = (sc', Ok (repeat (one_sided_object 1) (length (hf_pos f)), surfs)) /\
    Forall2 (fun p s => aims s p (solar_vector az el) (V3 0 0 (hf_height f)) w h (1 - a)) (hf_pos f) surfs.
Proof. exact field_aimed. Qed.
Print Assumptions c64_aimed.
Example c64_example : exists sc f ss, reached 5 sc /\ heliostat_field 5 [V3 10 0 0] 1 1 0 20 start = (sc, Ok f) /\
  is_field sc f id4 [with_loc (rotx PI) (V3 10 0 0)] 1 1 0 ss /\ hf_pos f = [V3 10 0 0] /\ hf_height f = 20 /\
  forall p, In p (hf_pos f) -> p <> V3 0 0 (hf_height f) /\
     forall tw k, 0 < k -> V3 0 0 (hf_height f) = vadd p (vscale k tw) -> is_unit tw -> vadd (solar_vector 0 0) tw <> vzero.
Proof. exact field_example. Qed.

(** [set_aim_height] changes the height to aim at in what was just said, and nothing
    else. *)
Theorem c64_aim_height : forall sc f T ts w h a ss height, is_field sc f T ts w h a ss ->
  let f' := set_aim_height f height in
  is_field sc f' T ts w h a ss /\ hf_height f' = height /\ hf_pos f' = hf_pos f /\
  hf_stats f' = hf_stats f /\ hf_node f' = hf_node f.
Proof. intros sc f T ts w h a ss height F. repeat split; apply F. Qed.
Print Assumptions c64_aim_height.

(** A field can be moved as a whole, *)
Theorem c64_moved : forall limit sc f T ts w h a ss T', reached limit sc -> is_field sc f T ts w h a ss -> ts <> [] -> (2 <= limit)%nat ->
  exists sc', put_at limit (hf_node f) T' sc = (sc', Ok tt) /\ reached limit sc' /\ is_field sc' f T' ts w h a ss /\
    well_placed (sc_w sc') (hf_node f).
Proof. exact field_put. Qed.
Print Assumptions c64_moved.

(** but aiming it afterwards puts the heliostats back where they would be without
    the move: their global frames no longer follow from the transforms above them. *)
Theorem c64_moved_refuted : exists sc f sc1 sc2, reached 5 sc /\ heliostat_field 5 [V3 10 0 0] 1 1 0 20 start = (sc, Ok f) /\
  put_at 5 (hf_node f) (translate 1 0 0) sc = (sc1, Ok tt) /\ well_placed (sc_w sc1) (hf_node f) /\
  aim_to_sun 5 f 0 0 sc1 = (sc2, Ok tt) /\ ~ well_placed (sc_w sc2) (hf_node f).
Proof. exact moved_refuted. Qed.
Print Assumptions c64_moved_refuted.

(** C65 *)
Theorem c65_stagger : forall start_ang end_ang az_space rmin rmax r_space, 0 < az_space -> 0 < r_space ->
  exists idx, radial_stagger start_ang end_ang az_space rmin rmax r_space =
      Ok (map (stagger_position start_ang az_space rmin r_space) idx) /\
    NoDup idx /\ forall ij, In ij idx <-> staggered start_ang end_ang az_space rmin rmax r_space ij.
Proof. exact stagger_ok. Qed.
Print Assumptions c65_stagger.
Example c65_example : 0 < 2 /\ 0 < 1 /\ staggered 0 10 2 5 9 1 (1, 3)%nat /\ ~ staggered 0 10 2 5 9 1 (1, 2)%nat.
Proof.
  split; [lra|]. split; [lra|]. split.
  - repeat split; cbn; try lra; intros (k & E); lia.
  - intros (_ & _ & _ & H). destruct H as (k & E); [exists 1%nat; reflexivity|]. cbn in E. lia.
Qed.

(** The documentation measures the angles clockwise; the code does not. *)
Theorem c65_clockwise_refuted : exists l x y, radial_stagger 1 2 2 1 2 1 = Ok l /\ In (x, y) l /\
  ~ exists r a, 1 <= r < 2 /\ 1 <= a < 2 /\ (x, y) = clockwise_position r a.
Proof. exact clockwise_refuted. Qed.
Print Assumptions c65_clockwise_refuted.

(** C76: the azimuth is documented as counterclockwise from east; it is clockwise. *)
Theorem c76_clockwise : forall az el, 0 <= el <= PI -> solar_vector az el = from_east (- az) el.
Proof. exact solar_clockwise. Qed.
Print Assumptions c76_clockwise.
Example c76_example : 0 <= 1 <= PI.
Proof. pose proof PI2_3_2. lra. Qed.
Theorem c76_counterclockwise_refuted : exists az el, 0 <= el <= PI / 2 /\ solar_vector az el <> from_east az el.
Proof. exact solar_refuted. Qed.
Print Assumptions c76_counterclockwise_refuted.

(** C77: a dish reflects about the normals of its paraboloid, and light that comes
    down its axis goes to its focus, wherever it is placed. *)
Theorem c77_round : forall D f gm T a, new_dish D f = Ok gm -> rigid T ->
  let s := Surface.new_surface gm (Absorbing (Reflective a)) T in
  dish_mirror s T (round_dish D f) f (1 - a) /\ focuses s T (round_dish D f) (app4 T (V3 0 0 f)) (1 - a).
Proof. exact round_top. Qed.
Print Assumptions c77_round.
Theorem c77_hexagonal : forall D f gm T a, new_hex_dish D f = Ok gm -> rigid T ->
  let s := Surface.new_surface gm (Absorbing (Reflective a)) T in
  dish_mirror s T (hex_dish D f) f (1 - a) /\ focuses s T (hex_dish D f) (app4 T (V3 0 0 f)) (1 - a).
Proof. exact hexagonal_top. Qed.
Print Assumptions c77_hexagonal.
Example c77_example : (exists gm, new_dish 4 1 = Ok gm) /\ (exists gm, new_hex_dish 4 1 = Ok gm) /\
  rigid (translate 1 2 3) /\ round_dish 4 1 (V3 2 0 1).
Proof. exact MeasureProof.dish_example. Qed.

(** C68: the measures of the minidish: a rim angle of 45 degrees, the concentration
    asked for, and a receiver from which the dish fills the view through
    [v + 1] widths at the focal plane. *)
Theorem c68_measures : forall D C v, 0 < D -> 0 < C -> 0 <= v -> (v + 1) * (D / 2 * sqrt (PI / C)) < D ->
  exists f W H, standard_measures D C v = Ok (f, W, H) /\ 0 < f /\ 0 < W /\ 0 < H /\
    rim_angle D f (PI / 4) /\ W * W * C = PI * (D / 2 * (D / 2)) /\ H * D = (v + 1) * W * (f + H).
Proof. exact MeasureProof.measures_ok. Qed.
Print Assumptions c68_measures.
Example c68_example : 0 < 10 /\ 0 < 500 /\ 0 <= 4 /\ (4 + 1) * (10 / 2 * sqrt (PI / 500)) < 10.
Proof. exact MeasureProof.measures_example. Qed.

(** The number of virtual sources may be D/W - 1 according to the documentation. *)
Theorem c68_limit_refuted : forall D C v, 0 < D -> 0 < C -> v = D / (D / 2 * sqrt (PI / C)) - 1 ->
  standard_measures D C v = Err ZeroDivisionError.
Proof. exact MeasureProof.measures_limit. Qed.
Print Assumptions c68_limit_refuted.

(** What is built around a reflector: a receiver that faces it with an opaque back
    and the box of mirrors, wherever the whole is put. *)
Theorem c68_receiver : forall limit main pm pos X Y H eff sc (Q : mat4 -> surface -> Prop), reached limit sc -> is_part sc main pm ->
  0 < X -> 0 < Y -> 0 < H -> (3 <= limit)%nat -> (forall T, rigid T -> Q T (seen_part T pm)) ->
  exists sc' r, homogenized_receiver limit main pos (X, Y) H eff sc = (sc', Ok r) /\ hr_main r = main /\
    collector limit sc sc' r pos X Y H eff (fun l => l = main) Q.
Proof. exact ReceiverTop.receiver_top. Qed.
Print Assumptions c68_receiver.

Theorem c68_minidish : forall limit D f eff pos side H heff aspect sc, reached limit sc ->
  0 < f -> 0 < side -> 0 < aspect -> 0 < H -> (3 <= limit)%nat ->
  exists sc' r, minidish limit D f eff pos side H heff aspect sc = (sc', Ok r) /\
    collector limit sc sc' r pos side (side * aspect) H heff (fun _ => False) (round_reflector D f eff).
Proof. exact ReceiverTop.minidish_top. Qed.
Print Assumptions c68_minidish.

Theorem c68_petal : forall limit D f eff pos side H heff aspect sc, reached limit sc ->
  0 < f -> 0 < side -> 0 < aspect -> 0 < H -> (3 <= limit)%nat ->
  exists sc' r, petal limit D f eff pos side H heff aspect sc = (sc', Ok r) /\
    collector limit sc sc' r pos side (side * aspect) H heff (fun _ => False) (hex_reflector D f eff).
Proof. exact ReceiverTop.petal_top. Qed.
Print Assumptions c68_petal.

Theorem c68_standard : forall limit D C v eff heff sc, reached limit sc ->
  0 < D -> 0 < C -> 0 <= v -> (v + 1) * (D / 2 * sqrt (PI / C)) < D -> (3 <= limit)%nat ->
  exists sc' r f W H, standard_minidish limit D C v eff heff sc = (sc', Ok (r, (f, W, H))) /\ standard_measures D C v = Ok (f, W, H) /\
    collector limit sc sc' r (f + H) W W H heff (fun _ => False) (round_reflector D f eff).
Proof. exact MeasureProof.standard_top. Qed.
Print Assumptions c68_standard.
Example c68_scene : reached 5 start /\ (3 <= 5)%nat.
Proof. split; [apply start_reached|lia]. Qed.

(** According to its documentation the aspect of PETAL's receiver changes x and
    leaves y; it is the other way round. *)
Theorem c68_aspect_refuted : forall limit D f eff pos side H heff aspect sc, reached limit sc ->
  0 < f -> 0 < side -> 0 < aspect -> 0 < H -> (3 <= limit)%nat -> aspect <> 1 ->
  exists sc' r, petal limit D f eff pos side H heff aspect sc = (sc', Ok r) /\ hr_sides r <> (side * aspect, side).
Proof. exact MeasureProof.aspect_refuted. Qed.
Print Assumptions c68_aspect_refuted.

(** C81: the homogenizer and the receiver of a collector have one transform array, so
    to move the homogenizer moves the receiver when the collector is next placed, by
    whatever [T]. *)
Theorem c81_receiver_refuted : forall limit main pm pos X Y H eff sc, reached limit sc -> is_part sc main pm ->
  0 < X -> 0 < Y -> 0 < H -> (3 <= limit)%nat ->
  exists sc' r, homogenized_receiver limit main pos (X, Y) H eff sc = (sc', Ok r) /\
    global_frame (sc_w sc') (hr_rec r) = Some (mm4 (translate 0 0 pos) (rotx PI)) /\
    forall v, exists sc2 F, (q <+ literal (A3 v) ;+ put_location limit (hr_hom r) q) sc' = (sc2, Ok tt) /\
      moved_to v (mm4 (translate 0 0 pos) (rotx PI)) F /\
      forall T, exists w3, transform_children limit (hr_node r) T (sc_w sc2) = (w3, Ok tt) /\ global_frame w3 (hr_rec r) = Some (mm4 T F).
Proof. exact SharedProof.receiver_moved_along. Qed.
Print Assumptions c81_receiver_refuted.

Theorem c81_minidish_refuted : forall limit D f eff pos side H heff aspect sc, reached limit sc ->
  0 < f -> 0 < side -> 0 < aspect -> 0 < H -> (3 <= limit)%nat ->
  exists sc' r, minidish limit D f eff pos side H heff aspect sc = (sc', Ok r) /\
    global_frame (sc_w sc') (hr_rec r) = Some (mm4 (translate 0 0 pos) (rotx PI)) /\
    forall v, exists sc2 F, (q <+ literal (A3 v) ;+ put_location limit (hr_hom r) q) sc' = (sc2, Ok tt) /\
      moved_to v (mm4 (translate 0 0 pos) (rotx PI)) F /\
      forall T, exists w3, transform_children limit (hr_node r) T (sc_w sc2) = (w3, Ok tt) /\ global_frame w3 (hr_rec r) = Some (mm4 T F).
Proof. exact SharedProof.minidish_moved_along. Qed.
Print Assumptions c81_minidish_refuted.

(** C69: [histogram_hits] has the energy of every hit in the bin of its place on the
    receiver, and all of it if all hits are on the receiver. *)
Theorem c69_histogram : forall r sc s id o X Y bins g es qs, surface_now (hr_rec r) sc = (sc, Ok s) -> s_opt s = Accountant id o ->
  rigid (s_frame s) -> hr_sides r = (X, Y) -> 0 < X -> 0 < Y -> (0 < bins)%nat ->
  get_all_hits (g_acc g id) = Ok (es, map (app4 (s_frame s)) qs) -> length es = length qs ->
  exists H xe ye, histogram_hits r bins g sc = (sc, Ok (H, xe, ye)) /\
    xe = map (fun i => - (X / 2) + INR i * (X / INR bins)) (seq 0 (S bins)) /\
    ye = map (fun i => - (Y / 2) + INR i * (Y / INR bins)) (seq 0 (S bins)) /\
    length H = bins /\ (forall row, In row H -> length row = bins) /\
    (forall i j, (i < bins)%nat -> (j < bins)%nat -> exists row t, nth_error H i = Some row /\ nth_error row j = Some t /\
       sum_where (fun h => in_bin (- (X / 2)) (X / 2) bins i (vx (fst h)) /\ in_bin (- (Y / 2)) (Y / 2) bins j (vy (fst h))) snd (combine qs es) t) /\
    sum_where (fun h => - (X / 2) <= vx (fst h) <= X / 2 /\ - (Y / 2) <= vy (fst h) <= Y / 2) snd (combine qs es) (total (concat H)) /\
    (Forall (rectangle X Y) qs -> total (concat H) = total es).
Proof. exact MeasureProof.histogram_top. Qed.
Print Assumptions c69_histogram.
Example c69_example : let g := mkG (Sources.mkRng (fun _ => 0) 0) (fun _ => mkAcc [[2; 3]] [[V3 (1 / 4) 0 0; V3 1 1 0]]) in
  get_all_hits (g_acc g 0) = Ok ([2; 3], map (app4 id4) [V3 (1 / 4) 0 0; V3 1 1 0]) /\ rectangle 2 2 (V3 1 1 0) /\ in_bin (-1) 1 2 1 1.
Proof. exact MeasureProof.histogram_example. Qed.

(** The histogram after any trace through a collector. *)
Theorem c69_minidish : forall limit D f eff pos side H heff aspect sc, reached limit sc ->
  0 < f -> 0 < side -> 0 < aspect -> 0 < H -> (3 <= limit)%nat -> 0 <= eff <= 1 -> 0 <= heff <= 1 ->
  exists sc' r, minidish limit D f eff pos side H heff aspect sc = (sc', Ok r) /\
  forall T, rigid T -> exists sc'' objs ss id, put_at limit (hr_node r) T sc' = (sc'', Ok tt) /\
    engine_view limit (hr_node r) sc'' = (sc'', Ok (objs, ss)) /\
    measured objs ss r id side (side * aspect) (mm4 T (mm4 (translate 0 0 pos) (rotx PI))) sc''.
Proof. exact FluxProof.minidish_flux. Qed.
Print Assumptions c69_minidish.

Theorem c69_petal : forall limit D f eff pos side H heff aspect sc, reached limit sc ->
  0 < f -> 0 < side -> 0 < aspect -> 0 < H -> (3 <= limit)%nat -> 0 <= eff <= 1 -> 0 <= heff <= 1 ->
  exists sc' r, petal limit D f eff pos side H heff aspect sc = (sc', Ok r) /\
  forall T, rigid T -> exists sc'' objs ss id, put_at limit (hr_node r) T sc' = (sc'', Ok tt) /\
    engine_view limit (hr_node r) sc'' = (sc'', Ok (objs, ss)) /\
    measured objs ss r id side (side * aspect) (mm4 T (mm4 (translate 0 0 pos) (rotx PI))) sc''.
Proof. exact FluxProof.petal_flux. Qed.
Print Assumptions c69_petal.

(** Every point within the range is in exactly one bin. *)
Theorem c69_bins : forall lo hi n x, lo < hi -> (0 < n)%nat ->
  (lo <= x <= hi -> exists i, (i < n)%nat /\ in_bin lo hi n i x) /\
  (forall i, (i < n)%nat -> in_bin lo hi n i x -> lo <= x <= hi) /\
  forall i j, (i < n)%nat -> (j < n)%nat -> in_bin lo hi n i x -> in_bin lo hi n j x -> i = j.
Proof. exact MeasureProof.bins_partition. Qed.
Print Assumptions c69_bins.

(** C84: what [get_external_dimensions] reports bounds the collector, up to the
    offset of the back of the receiver. *)
Theorem c84_minidish : forall limit D f eff pos side H heff aspect sc, reached limit sc ->
  0 < f -> 0 < side -> 0 < aspect -> 0 < H -> (3 <= limit)%nat ->
  H <= pos -> side * side + (side * aspect) * (side * aspect) <= D * D -> D * D <= 16 * f * pos ->
  exists sc' r, minidish limit D f eff pos side H heff aspect sc = (sc', Ok r) /\
    let '(d, h) := external_dimensions D f eff pos side H heff aspect in fits limit sc' r f (d, h + / 10 ^ 10).
Proof. exact FitProof.minidish_fits. Qed.
Print Assumptions c84_minidish.

Theorem c84_petal : forall limit D f eff pos side H heff aspect sc, reached limit sc ->
  0 < f -> 0 < side -> 0 < aspect -> 0 < H -> (3 <= limit)%nat ->
  H <= pos -> side * side + (side * aspect) * (side * aspect) <= D * D -> D * D <= 16 * f * pos ->
  exists sc' r, petal limit D f eff pos side H heff aspect sc = (sc', Ok r) /\
    let '(d, h) := external_dimensions D f eff pos side H heff aspect in fits limit sc' r f (d, h + / 10 ^ 10).
Proof. exact FitProof.petal_fits. Qed.
Print Assumptions c84_petal.
Example c84_example : 0 < 10 /\ 0 < 1 /\ 1 <= 11 /\ 1 * 1 + (1 * 1) * (1 * 1) <= 20 * 20 /\ 20 * 20 <= 16 * 10 * 11.
Proof. exact FitProof.fit_example. Qed.

Theorem c84_standard : forall limit D C v eff heff sc, reached limit sc -> 0 < D -> PI / 2 <= C -> 0 <= v ->
  (v + 1) * (D / 2 * sqrt (PI / C)) < D -> (3 <= limit)%nat ->
  exists sc' r f W H, standard_minidish limit D C v eff heff sc = (sc', Ok (r, (f, W, H))) /\
    let '(d, h) := external_dimensions D f eff (f + H) W H heff 1 in fits limit sc' r f (d, h + / 10 ^ 10).
Proof. exact FitProof.standard_fits. Qed.
Print Assumptions c84_standard.
Example c84_standard_example : 0 < 10 /\ PI / 2 <= 500 /\ 0 <= 4 /\ (4 + 1) * (10 / 2 * sqrt (PI / 500)) < 10.
Proof. exact FitProof.standard_fit_example. Qed.

(** The reported cylinder itself is never large enough, and a cylinder lower than the
    rim of the dish is too low. *)
Theorem c84_minidish_refuted : forall limit D f eff pos side H heff aspect sc, reached limit sc ->
  0 < f -> 0 < side -> 0 < aspect -> 0 < H -> (3 <= limit)%nat ->
  exists sc' r, minidish limit D f eff pos side H heff aspect sc = (sc', Ok r) /\
    ~ fits limit sc' r f (external_dimensions D f eff pos side H heff aspect) /\
    forall h, 16 * f * h < D * D -> ~ fits limit sc' r f (D, h).
Proof. exact FitProof.minidish_not_fits. Qed.
Print Assumptions c84_minidish_refuted.

Theorem c84_petal_refuted : forall limit D f eff pos side H heff aspect sc, reached limit sc ->
  0 <= D -> 0 < f -> 0 < side -> 0 < aspect -> 0 < H -> (3 <= limit)%nat ->
  exists sc' r, petal limit D f eff pos side H heff aspect sc = (sc', Ok r) /\
    ~ fits limit sc' r f (external_dimensions D f eff pos side H heff aspect) /\
    forall h, 16 * f * h < D * D -> ~ fits limit sc' r f (D, h).
Proof. exact FitProof.petal_not_fits. Qed.
Print Assumptions c84_petal_refuted.
Example c84_refuted_example : 16 * 1 * 1 < 8 * 8.
Proof. exact FitProof.unfit_example. Qed.
