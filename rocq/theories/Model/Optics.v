(** Model of tracer/optics.py.

    The functions work column by column; the model gives the value for one ray
    and, for [refractions], the arrays.  Arrays are of equal length; where numpy
    would go on with a non-finite number the result is [OutOfModel].  Indices of
    refraction are floats (integer arrays would be divided as integers). *)
From Coq Require Import Reals List Bool.
From Verif.Base Require Import Py Num Vec.
Import ListNotations.
Local Open Scope R_scope.

(** [N.sqrt] of a finite number. *)
Definition np_sqrt (x : R) : res R := if Rltb x 0 then Err OutOfModel else Ok (sqrt x).
(** Division of finite numbers. *)
Definition np_div (x y : R) : res R := if Reqb y 0 then Err OutOfModel else Ok (x / y).
(** [N.arccos] *)
Definition np_arccos (x : R) : res R :=
  if Rltb 1 (Rabs x) then Err OutOfModel else Ok (acos x).

Definition sq (x : R) : R := x * x.

(** optics.py:10-37 [fresnel] *)
Definition fresnel (d n : vec) (n1 n2 : R) : res R :=
  theta_in <- np_arccos (Rabs (dot n d)) ;;
  let foo := cos theta_in in
  r <- np_div n1 n2 ;;
  bar <- np_sqrt (1 - sq (r * sin theta_in)) ;;
  rs <- np_div (n1 * foo - n2 * bar) (n1 * foo + n2 * bar) ;;
  rp <- np_div (n1 * bar - n2 * foo) (n1 * bar + n2 * foo) ;;
  Ok ((sq rs + sq rp) / 2).

(** optics.py:39-51 [reflections] *)
Definition reflection (d n : vec) : vec :=
  let vertical := vscale (dot d n) n in
  vsub d (vscale 2 vertical).

(** optics.py:74: which rays are not totally reflected; [n = n2/n1]. *)
Definition is_refracted (n : R) (d nrm : vec) : bool :=
  Rleb (1 - sq n) (sq (dot nrm d)).

(** optics.py:82-84, for a ray that is refracted. *)
Definition refracted_dir (n : R) (d nrm : vec) : res vec :=
  let cos1 := dot nrm d in
  if Reqb n 0 then Err OutOfModel else
  let r := vscale (/ n) (vsub d (vscale cos1 nrm)) in
  cos2 <- np_sqrt (1 - 1 / sq n * (1 - sq cos1)) ;;
  Ok (vadd r (vscale (if Rltb cos1 0 then -1 else 1) (vscale cos2 nrm))).

(** optics.py:53-86 [refractions]: the mask, and the directions of the rays in it. *)
Definition refractions (n1 n2 : list R) (ds ns : list vec) : res (list bool * list vec) :=
  if negb (same_len n1 n2 && same_len n1 ds && same_len n1 ns) then Err ValueError else
  n <- sequence (map2 np_div n2 n1) ;;
  let refr := map3 is_refracted n ds ns in
  dirs <- sequence (map3 refracted_dir (mask_select refr n) (mask_select refr ds)
                      (mask_select refr ns)) ;;
  Ok (refr, dirs).

(** optics.py:88-97 [refr_idx_hartmann] *)
Definition refr_idx_hartmann (wavelength a b c d e : R) : res R :=
  q <- np_div b (c - wavelength) ;;
  Ok (a + q).
