(** Model of examples/tower_gui.py: a field of heliostats around a receiver, and the
    rays traced through it.  (For the window see
    Model/TowerGui.v.) *)
From Coq Require Import Reals List Arith Bool.
From Verif.Base Require Import Py Num Vec.
From Verif.Model Require Import RayBundle Spatial Geometry TraceTree Sources OpticsCallables Engine Objects Surface Assembly Scene Models.
Import ListNotations.
Local Open Scope R_scope.

(** [scipy.constants.degree] *)
Definition degree : R := PI / 180.

(** tower_gui.py:57-58 *)
Definition tower_positions (radial_res ang_res : R) : res (list vec) :=
  xy <- radial_stagger (- PI / 4) (PI / 4 + 1 / 10000) ang_res 5 20 radial_res ;;
  Ok (map (fun p => V3 (fst p) (snd p) 0) xy).

(** The attributes [plant], [field] (which has [pos]) and [rec]. *)
Record tower : Type := mkTower { tw_plant : nat; tw_field : field; tw_rec : nat }.

(** tower_gui.py:59-66, for any positions and measures.  [rec_trans[2,3] = aim] changes
    the last entry of a column that is zero. *)
Definition tower_plant (limit : nat) (pos : list vec) (width height absorpt aim rec_w rec_h : R) : B tower :=
  f <+ heliostat_field limit pos width height absorpt aim ;+
  ' (rec, rec_obj) <+ one_sided_receiver limit rec_w rec_h 1 ;+
  r <+ literal (A44 (with_loc (roty (PI / 2)) (V3 0 0 aim))) ;+
  _ <+ place limit rec_obj r ;+
  n <+ make_assembly limit [rec_obj] [hf_node f] None None ;+
  bret (mkTower n f rec).

(** tower_gui.py:56-66 *)
Definition gen_plant (limit : nat) (radial_res ang_res : R) : B tower :=
  pos <+ calc (tower_positions radial_res ang_res) ;+
  tower_plant limit pos (1 / 2) (1 / 2) 0 10 1 1.

(** tower_gui.py:48-54, angles in degrees. *)
Definition gen_rays (pos : list vec) (sun_az sun_elev : R) : bundle :=
  let sun_vec := solar_vector (sun_az * degree) (sun_elev * degree) in
  mkB (Some (map (fun p => vadd p sun_vec) pos)) (Some (map (fun _ => vopp sun_vec) pos))
    (Some (map (fun _ => 1) pos)) None None [].

(** tower_gui.py:69-75 and scene_view.py:105-106, 152-154, up to the drawing of the
    rays.  The scene has 200000000 for [reps] and 0.05 for [min_energy]. *)
Definition aim_field (limit : nat) (t : tower) (sun_az sun_elev : R) (reps : nat) (min_energy : R) (g : shared)
    : B (list vec * list vec * tstate surface shared) :=
  let rays := gen_rays (hf_pos (tw_field t)) sun_az sun_elev in
  _ <+ aim_to_sun limit (tw_field t) (sun_az * degree) (sun_elev * degree) ;+
  ' (objs, surfs) <+ engine_view limit (tw_plant t) ;+
  calc (ray_tracer surface_ops objs surfs g rays reps min_energy TreeTrue).

(** tower_gui.py:77-80 *)
Definition replace_plant (limit : nat) (radial_res ang_res sun_az sun_elev : R) (reps : nat) (min_energy : R) (g : shared)
    : B (tower * (list vec * list vec * tstate surface shared)) :=
  t <+ gen_plant limit radial_res ang_res ;+
  r <+ aim_field limit t sun_az sun_elev reps min_energy g ;+
  bret (t, r).

(** [random.uniform(low, high, size=n)] *)
Definition uniform_between (low high : R) (n : nat) (g : rng) : list R * rng :=
  let '(u, g) := uniform 1 n g in (map (fun x => low + (high - low) * x) u, g).

(** tower_gui.py:91-103, for a field of [num] heliostats at [pos], a sun of angular
    radius [ang] and squares of half side [half].  Adding arrays of different lengths
    is left out, [num] being the length of [pos]. *)
Definition flux_rays (pos : list vec) (num : nat) (sun_az sun_elev : R) (hstat_rays : nat) (ang half : R) (g : rng) : res (bundle * rng) :=
  let sun_vec := solar_vector (sun_az * degree) (sun_elev * degree) in
  let num_rays := (hstat_rays * num)%nat in
  let rot_sun := rotation_to_z (vopp sun_vec) in
  let '(a, g) := pillbox_sunshape_directions num_rays ang g in
  let direct := map (mv3 rot_sun) a in
  let '(x, g) := uniform_between (- half) half num_rays g in
  let '(y, g) := uniform_between (- half) half num_rays g in
  let base_pos := concat (repeat pos hstat_rays) in
  if negb (Nat.eqb (length base_pos) num_rays) then Err OutOfModel else
  let base_pos := map2 vadd base_pos (map2 (fun x y => mv3 rot_sun (V3 x y 0)) x y) in
  let base_pos := map2 vsub base_pos direct in
  Ok (mkB (Some base_pos) (Some direct) (Some (repeat 1 num_rays)) None None [], g).

(** tower_gui.py:106: [get_optics_manager().reset()] of the receiver. *)
Definition reset_hits (rec : nat) (g : shared) : B shared :=
  s <+ surface_now rec ;+
  calc (match s_opt s with
        | Accountant id _ => Ok (mkG (g_rng g) (upd (g_acc g) id (reset (g_acc g id))))
        | _ => Err AttributeError
        end).

(** tower_gui.py:111-118 *)
Definition receiver_map (rec : nat) (bins : nat) (rngx rngy : R) (g : shared) : B (list (list R) * list R * list R) :=
  s <+ surface_now rec ;+
  calc (match s_opt s with
        | Accountant id _ =>
            '(energy, pts) <- get_all_hits (g_acc g id) ;;
            local <- global_to_local s pts ;;
            histogram2d (combine (map (fun p => (w0 p, w1 p)) local) energy) bins rngx rngy
        | _ => Err AttributeError
        end).

(** tower_gui.py:87-118 [_fmap_btn_fired], up to drawing the map.  The example has 1000
    rays for each heliostat, 1000 iterations, 0.05 for [min_energy], and 50 bins. *)
Definition flux_map (limit : nat) (t : tower) (sun_az sun_elev : R) (hstat_rays : nat) (ang half : R)
    (reps : nat) (min_energy : R) (bins : nat) (rngx rngy : R) (g : shared) : B (list (list R) * list R * list R * shared) :=
  ' (rays, rnd) <+ calc (flux_rays (hf_pos (tw_field t)) (length (hf_stats (tw_field t))) sun_az sun_elev hstat_rays ang half (g_rng g)) ;+
  g <+ reset_hits (tw_rec t) (mkG rnd (g_acc g)) ;+
  ' (objs, surfs) <+ engine_view limit (tw_plant t) ;+
  ' (_, _, st) <+ calc (ray_tracer surface_ops objs surfs g rays reps min_energy TreeTrue) ;+
  ' (H, xbins, ybins) <+ receiver_map (tw_rec t) bins rngx rngy (t_g st) ;+
  bret (H, xbins, ybins, t_g st).
