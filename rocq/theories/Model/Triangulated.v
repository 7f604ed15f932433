(** Model of tracer/models/triangulated_surface.py. *)
From Coq Require Import Reals List Arith ZArith Bool.
From Verif.Base Require Import Py Num Vec.
From Verif.Model Require Import RayBundle Geometry OpticsCallables Surface Assembly Scene.
Import ListNotations.
Local Open Scope R_scope.

(** [a[i]] with an integer that may count from the end. *)
Definition at_index {A : Type} (l : list A) (i : Z) : res A :=
  let n := Z.of_nat (length l) in
  if (Z.ltb i (- n) || Z.leb n i)%bool then Err IndexError
  else take1 l (Z.to_nat (if Z.ltb i 0 then i + n else i)).

(** One row of [faces]. *)
Record row : Type := mkRow { f0 : Z; f1 : Z; f2 : Z }.

(** triangulated_surface.py:34: a row of [xs]; [edge_norms] is not zero there. *)
Definition first_axis (e : vec * vec) : vec := vscale (/ norm (fst e)) (fst e).
(** triangulated_surface.py:35-36: a row of [zs].  The cross product of collinear
    edges is zero; divided by its length it is a row of NaNs, [None] here. *)
Definition normal_axis (x : vec) (e : vec * vec) : option vec :=
  let z := cross x (snd e) in
  if Reqb (norm z) 0 then None else Some (vscale (/ norm z) z).
(** triangulated_surface.py:37 for a row; NaN is not greater than anything. *)
Definition far_from_zero (z : option vec) : bool :=
  match z with
  | Some z => Rltb (tenm 6) (Rabs (vx z)) || Rltb (tenm 6) (Rabs (vy z)) || Rltb (tenm 6) (Rabs (vz z))
  | None => false
  end.
(** A row of NaNs left by the selection would go on into the frames. *)
Definition known (z : option vec) : res vec := match z with Some z => Ok z | None => Err OutOfModel end.

(** triangulated_surface.py:29-45: the rows of [rots] and of [edges_local], from
    [edges]. *)
Definition face_frames (edges : list (vec * vec)) : res (list (mat3 * (vec * vec))) :=
  let non_degenerate := map (fun e => Rltb (tenm 8) (Rabs (norm (fst e))) && Rltb (tenm 8) (Rabs (norm (snd e)))) edges in
  let edges := mask_select non_degenerate edges in
  let xs := map first_axis edges in
  let zs := map2 normal_axis xs edges in
  let non_collinear := map far_from_zero zs in
  let xs := mask_select non_collinear xs in
  zs <- mapM known (mask_select non_collinear zs) ;;
  let ys := map2 cross zs xs in
  let edges := mask_select non_collinear edges in
  let rots := map2 (fun xy z => of_cols (fst xy) (snd xy) z) (combine xs ys) zs in
  Ok (map2 (fun (r : mat3) e => (r, (mv3 (tr3 r) (fst e), mv3 (tr3 r) (snd e)))) rots edges).

(** triangulated_surface.py:47-48 for one [face_ix]: its rows of [pos], [rots] and
    [edges_local].  (The rows are views of one array each; nobody else has them.) *)
Definition one_face (limit : nat) (o : optics) (f : vec * (mat3 * (vec * vec))) : B nat :=
  let '(p, (r, (e0, e1))) := f in
  l <+ literal (A3 p) ;+
  m <+ literal (A33 r) ;+
  make_surface limit (new_triangle e0 e1) o (Some l) (Some m).

(** triangulated_surface.py:12-51.  There are as many rotations as faces that were
    kept, and at least as many positions; [combine] stops with the rotations. *)
Definition triangulated_surface (limit : nat) (vertices : list vec) (faces : list row) (o : optics) (tr : option ref) : B nat :=
  pos <+ calc (mapM (fun f => at_index vertices (f0 f)) faces) ;+
  firsts <+ calc (mapM (fun f => at_index vertices (f1 f)) faces) ;+
  seconds <+ calc (mapM (fun f => at_index vertices (f2 f)) faces) ;+
  let edges := map2 (fun p fs => (vsub (fst fs) p, vsub (snd fs) p)) pos (combine firsts seconds) in
  frames <+ calc (face_frames edges) ;+
  face_list <+ bmap (one_face limit o) (combine pos frames) ;+
  make_object limit face_list [] tr.
