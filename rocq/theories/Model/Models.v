(** Model of tracer/models/one_sided_mirror.py, homogenizer.py, heliostat_field.py,
    homogenized_local_receiver.py, tau_minidish.py and PETAL_dish.py.  (The lens and
    the triangulated surface have files of their own.) *)
From Coq Require Import Reals List Arith ZArith Bool.
From Verif.Base Require Import Py Num Vec.
From Verif.Model Require Import RayBundle Spatial Geometry Sources OpticsCallables Engine Objects Surface Assembly Scene.
Import ListNotations.
Local Open Scope R_scope.

(** ** one_sided_mirror.py *)

(** one_sided_mirror.py:30-46 *)
Definition rect_one_sided_mirror (limit : nat) (width height absorptivity : R) : B nat :=
  g <+ calc (new_rect_plate width height) ;+
  surf <+ make_surface limit g (Absorbing (AbsorberReflector absorptivity)) None None ;+
  obj <+ make_object limit [surf] [] None ;+
  _ <+ make_sided obj ;+
  bret obj.

(** one_sided_mirror.py:48-73: the front surface and the object. *)
Definition one_sided_receiver (limit : nat) (width height absorptivity : R) : B (nat * nat) :=
  g <+ calc (new_rect_plate width height) ;+
  o <+ accountant (Reflective absorptivity) ;+
  front <+ make_surface limit g o None None ;+
  g <+ calc (new_rect_plate width height) ;+
  l <+ literal (A3 (V3 0 0 (- tenm 10))) ;+
  back <+ make_surface limit g (Absorbing (Reflective 1)) (Some l) None ;+
  obj <+ make_object limit [front; back] [] None ;+
  _ <+ make_sided obj ;+
  bret (front, obj).

(** ** homogenizer.py *)

(** homogenizer.py:27-29, and the same for the other walls. *)
Definition wall (limit : nat) (width height abs : R) (t : mat4) : B nat :=
  n <+ rect_one_sided_mirror limit width height abs ;+
  r <+ literal (A44 t) ;+
  _ <+ place limit n r ;+
  bret n.

(** homogenizer.py:11-43 *)
Definition rect_homogenizer (limit : nat) (xdim ydim height opt_eff : R) : B nat :=
  let abs := 1 - opt_eff in
  xp <+ wall limit height ydim abs (mm4 (translate (xdim / 2) 0 (height / 2)) (roty (- PI / 2))) ;+
  xn <+ wall limit height ydim abs (mm4 (translate (- xdim / 2) 0 (height / 2)) (roty (PI / 2))) ;+
  yp <+ wall limit xdim height abs (mm4 (translate 0 (ydim / 2) (height / 2)) (rotx (PI / 2))) ;+
  yn <+ wall limit xdim height abs (mm4 (translate 0 (- ydim / 2) (height / 2)) (rotx (- PI / 2))) ;+
  make_assembly limit [xp; xn; yp; yn] [] None None.

(** ** heliostat_field.py *)

(** The assembly [hf_node] and the attributes of the instance.  The list of
    heliostats is the same Python list as that of the assembly's objects; lists
    are values here. *)
Record field : Type := mkField {
  hf_node : nat; hf_pos : list vec; hf_height : R; hf_stats : list nat }.

(** heliostat_field.py:35, 38-42: one heliostat, facing down. *)
Definition heliostat (limit : nat) (width height absorpt : R) (pos : vec) : B nat :=
  n <+ rect_one_sided_mirror limit width height absorpt ;+
  r <+ literal (A44 (with_loc (rotx PI) pos)) ;+
  _ <+ place limit n r ;+
  bret n.

(** heliostat_field.py:20-45 *)
Definition heliostat_field (limit : nat) (positions : list vec) (width height absorpt aim_height : R) : B field :=
  hs <+ bmap (heliostat limit width height absorpt) positions ;+
  n <+ make_assembly limit hs [] None None ;+
  bret (mkField n positions aim_height hs).

(** heliostat_field.py:51-53 *)
Definition set_aim_height (f : field) (h : R) : field := mkField (hf_node f) (hf_pos f) h (hf_stats f).

(** heliostat_field.py:84-98 *)
Definition solar_vector (azimuth elevation : R) : vec :=
  let sun_z := cos elevation in
  let s := sqrt (1 - sun_z * sun_z) in
  V3 (- sin azimuth * s) (- cos azimuth * s) sun_z.

(** [N.arctan2] *)
Definition arctan2 (y x : R) : R :=
  if Rltb 0 x then atan (y / x)
  else if Rltb x 0 then (if Rleb 0 y then atan (y / x) + PI else atan (y / x) - PI)
  else if Rltb 0 y then PI / 2 else if Rltb y 0 then - (PI / 2) else 0.

(** heliostat_field.py:66-70: the normal of a heliostat at [pos]. *)
Definition aim_normal (sun pos : vec) (height : R) : res vec :=
  tower <- normalised (vadd (vopp pos) (V3 0 0 height)) ;;
  normalised (vadd sun tower).

(** heliostat_field.py:72-80: its transform. *)
Definition aim_transform (sun pos : vec) (height : R) : res mat4 :=
  n <- aim_normal sun pos height ;;
  let az := arctan2 (vy n) (vx n) in
  let elev := acos (vz n) in
  Ok (with_loc (mm4 (rotz az) (roty elev)) pos).

(** heliostat_field.py:75-82: the loop over heliostats. *)
Fixpoint aim_all (limit : nat) (stats : list nat) (ts : list mat4) : B unit :=
  match ts with
  | [] => bret tt
  | t :: ts' =>
      r <+ literal (A44 t) ;+
      match stats with
      | [] => calc (Err IndexError)
      | n :: stats' => _ <+ place limit n r ;+ aim_all limit stats' ts'
      end
  end.

(** heliostat_field.py:55-82.  All normals are computed before the loop. *)
Definition aim_to_sun (limit : nat) (f : field) (azimuth elevation : R) : B unit :=
  let sun := solar_vector azimuth elevation in
  ts <+ calc (mapM (fun p => aim_transform sun p (hf_height f)) (hf_pos f)) ;+
  aim_all limit (hf_stats f) ts.

(** [l[::2]] and [l[1::2]] *)
Fixpoint evens {A : Type} (l : list A) : list A :=
  match l with
  | [] => []
  | [x] => [x]
  | x :: _ :: r => x :: evens r
  end.
Definition odds {A : Type} (l : list A) : list A :=
  match l with [] => [] | _ :: r => evens r end.

(** [N.outer(rs, f(angs)).flatten()] *)
Definition outer_flat (rs : list R) (cs : list R) : list R :=
  concat (map (fun r => map (fun c => r * c) cs) rs).

(** [N.r_[start:stop:step]], which is [N.arange]: a zero step raises, and a
    negative one counts down. *)
Definition r_range (start stop step : R) : res (list R) :=
  if Reqb step 0 then Err ZeroDivisionError else Ok (grid_range start stop step).

(** heliostat_field.py:100-129 *)
Definition radial_stagger (start_ang end_ang az_space rmin rmax r_space : R) : res (list (R * R)) :=
  rs <- r_range rmin rmax r_space ;;
  angs <- r_range start_ang end_ang (az_space / 2) ;;
  let xs1 := outer_flat (evens rs) (map cos (evens angs)) in
  let ys1 := outer_flat (evens rs) (map sin (evens angs)) in
  let xs2 := outer_flat (odds rs) (map cos (odds angs)) in
  let ys2 := outer_flat (odds rs) (map sin (odds angs)) in
  Ok (combine (xs1 ++ xs2) (ys1 ++ ys2)).

(** ** homogenized_local_receiver.py *)

(** The assembly and the attributes [_sides], [_rec], [_hom] and [_mr]. *)
Record receiver : Type := mkRec {
  hr_node : nat; hr_sides : R * R; hr_rec : nat; hr_hom : nat; hr_main : nat }.

(** homogenized_local_receiver.py:15-46, for a pair of sides.  Both the receiver
    and the homogenizer get the array [receiver_frame] itself. *)
Definition homogenized_receiver (limit : nat) (main : nat) (pos : R) (sides : R * R) (depth opt_eff : R) : B receiver :=
  ' (front, rec_obj) <+ one_sided_receiver limit (fst sides) (snd sides) 1 ;+
  frame <+ literal (A44 (mm4 (translate 0 0 pos) (rotx PI))) ;+
  _ <+ place limit rec_obj frame ;+
  hom <+ rect_homogenizer limit (fst sides) (snd sides) depth opt_eff ;+
  _ <+ place limit hom frame ;+
  refl <+ make_object limit [main] [] None ;+
  n <+ make_assembly limit [rec_obj; refl] [hom] None None ;+
  bret (mkRec n sides front hom main).

(** [N.linspace(lo, hi, n + 1)] *)
Definition bin_edges (lo hi : R) (n : nat) : list R :=
  map (fun i => lo + INR i * ((hi - lo) / INR n)) (seq 0 (S n)).

(** The bin [N.histogramdd] puts a sample in, 0 for those before the first edge:
    [N.digitize], and one less on the last edge.  (numpy compares with the last
    edge after rounding both; here exactly.) *)
Definition bin_of (edges : list R) (x : R) : nat :=
  let k := length (filter (fun e => Rleb e x) edges) in
  if Reqb x (last edges 0) then (k - 1)%nat else k.

(** [N.histogram2d(x, y, n, range=([-rx, rx], [-ry, ry]), weights=w)] *)
Definition histogram2d (samples : list (R * R * R)) (n : nat) (rx ry : R) : res (list (list R) * list R * list R) :=
  if Nat.eqb n 0 then Err ValueError else
  let xe := bin_edges (- rx) rx n in
  let ye := bin_edges (- ry) ry n in
  let cell i j := fold_right Rplus 0 (map (fun s => snd s)
    (filter (fun s => Nat.eqb (bin_of xe (fst (fst s))) (S i) && Nat.eqb (bin_of ye (snd (fst s))) (S j))%bool samples)) in
  Ok (map (fun i => map (cell i) (seq 0 n)) (seq 0 n), xe, ye).

(** homogenized_local_receiver.py:59-83.  [g] has the hits recorded so far. *)
Definition histogram_hits (r : receiver) (bins : nat) (g : shared) : B (list (list R) * list R * list R) :=
  s <+ surface_now (hr_rec r) ;+
  calc (match s_opt s with
        | Accountant id _ =>
            '(energy, pts) <- get_all_hits (g_acc g id) ;;
            local <- global_to_local s pts ;;
            histogram2d (combine (map (fun p => (w0 p, w1 p)) local) energy) bins (fst (hr_sides r) / 2) (snd (hr_sides r) / 2)
        | _ => Err AttributeError
        end).

(** ** tau_minidish.py, PETAL_dish.py *)

(** tau_minidish.py:23-42 *)
Definition minidish (limit : nat) (diameter focal opt_eff pos side depth homog_eff aspect : R) : B receiver :=
  g <+ calc (new_dish diameter focal) ;+
  dish <+ make_surface limit g (Absorbing (Reflective (1 - opt_eff))) None None ;+
  homogenized_receiver limit dish pos (side, side * aspect) depth homog_eff.

(** PETAL_dish.py:13-36 *)
Definition petal (limit : nat) (diameter focal opt_eff pos side depth homog_eff aspect : R) : B receiver :=
  g <+ calc (new_hex_dish diameter focal) ;+
  dish <+ make_surface limit g (Absorbing (Reflective (1 - opt_eff))) None None ;+
  homogenized_receiver limit dish pos (side, side * aspect) depth homog_eff.

(** tau_minidish.py:44-56, PETAL_dish.py:38-50: [get_external_dimensions] of a collector
    made with these arguments, the diameter and the height. *)
Definition external_dimensions (diameter focal opt_eff pos side depth homog_eff aspect : R) : R * R :=
  (diameter, pos).

(** tau_minidish.py:59-79: [f], [W], [H].  [math.sqrt] of a negative number raises. *)
Definition standard_measures (diameter concentration virt_sources : R) : res (R * R * R) :=
  let f := diameter / 4 / (sqrt 2 - 1) in
  if Reqb concentration 0 then Err ZeroDivisionError else
  if Rltb (PI / concentration) 0 then Err ValueError else
  let W := diameter / 2 * sqrt (PI / concentration) in
  let n := virt_sources + 1 in
  if Reqb (diameter - n * W) 0 then Err ZeroDivisionError else
  Ok (f, W, n * W * f / (diameter - n * W)).

(** tau_minidish.py:81-102 *)
Definition standard_minidish (limit : nat) (diameter concentration virt_sources dish_eff homog_eff : R)
    : B (receiver * (R * R * R)) :=
  ' (f, W, H) <+ calc (standard_measures diameter concentration virt_sources) ;+
  d <+ minidish limit diameter f dish_eff (f + H) W H homog_eff 1 ;+
  bret (d, (f, W, H)).
