(** 3-vectors, 3x3 and homogeneous 4x4 matrices over the reals. *)
From Coq Require Import Reals List Bool.
From Verif.Base Require Import Py Num.
Import ListNotations.
Local Open Scope R_scope.

Record vec : Type := V3 { vx : R; vy : R; vz : R }.

Definition vadd (a b : vec) := V3 (vx a + vx b) (vy a + vy b) (vz a + vz b).
Definition vsub (a b : vec) := V3 (vx a - vx b) (vy a - vy b) (vz a - vz b).
Definition vscale (k : R) (a : vec) := V3 (k * vx a) (k * vy a) (k * vz a).
Definition vopp (a : vec) := V3 (- vx a) (- vy a) (- vz a).
Definition dot (a b : vec) : R := vx a * vx b + vy a * vy b + vz a * vz b.
Definition cross (a b : vec) : vec :=
  V3 (vy a * vz b - vz a * vy b) (vz a * vx b - vx a * vz b)
     (vx a * vy b - vy a * vx b).
Definition vzero := V3 0 0 0.
Definition norm2 (a : vec) : R := dot a a.
Definition norm (a : vec) : R := sqrt (norm2 a).
Definition veqb (a b : vec) : bool :=
  Reqb (vx a) (vx b) && Reqb (vy a) (vy b) && Reqb (vz a) (vz b).

(** 3x3 matrix, by rows. *)
Record mat3 : Type := M3 { r1 : vec; r2 : vec; r3 : vec }.

Definition mv3 (m : mat3) (v : vec) : vec := V3 (dot (r1 m) v) (dot (r2 m) v) (dot (r3 m) v).
Definition col1 (m : mat3) := V3 (vx (r1 m)) (vx (r2 m)) (vx (r3 m)).
Definition col2 (m : mat3) := V3 (vy (r1 m)) (vy (r2 m)) (vy (r3 m)).
Definition col3 (m : mat3) := V3 (vz (r1 m)) (vz (r2 m)) (vz (r3 m)).
Definition tr3 (m : mat3) : mat3 := M3 (col1 m) (col2 m) (col3 m).
Definition of_cols (a b c : vec) : mat3 := tr3 (M3 a b c).
Definition mm3 (a b : mat3) : mat3 :=
  of_cols (mv3 a (col1 b)) (mv3 a (col2 b)) (mv3 a (col3 b)).
Definition id3 : mat3 := M3 (V3 1 0 0) (V3 0 1 0) (V3 0 0 1).
Definition det3 (m : mat3) : R := dot (r1 m) (cross (r2 m) (r3 m)).
Definition madd3 (a b : mat3) := M3 (vadd (r1 a) (r1 b)) (vadd (r2 a) (r2 b)) (vadd (r3 a) (r3 b)).
Definition mscale3 (k : R) (a : mat3) := M3 (vscale k (r1 a)) (vscale k (r2 a)) (vscale k (r3 a)).

(** 4-vectors and 4x4 matrices, by rows. *)
Record vec4 : Type := V4 { w0 : R; w1 : R; w2 : R; w3 : R }.
Definition dot4 (a b : vec4) : R := w0 a * w0 b + w1 a * w1 b + w2 a * w2 b + w3 a * w3 b.

Record mat4 : Type := M4 { q0 : vec4; q1 : vec4; q2 : vec4; q3 : vec4 }.
Definition mv4 (m : mat4) (v : vec4) : vec4 :=
  V4 (dot4 (q0 m) v) (dot4 (q1 m) v) (dot4 (q2 m) v) (dot4 (q3 m) v).
Definition c4_0 (m : mat4) := V4 (w0 (q0 m)) (w0 (q1 m)) (w0 (q2 m)) (w0 (q3 m)).
Definition c4_1 (m : mat4) := V4 (w1 (q0 m)) (w1 (q1 m)) (w1 (q2 m)) (w1 (q3 m)).
Definition c4_2 (m : mat4) := V4 (w2 (q0 m)) (w2 (q1 m)) (w2 (q2 m)) (w2 (q3 m)).
Definition c4_3 (m : mat4) := V4 (w3 (q0 m)) (w3 (q1 m)) (w3 (q2 m)) (w3 (q3 m)).
Definition tr4 (m : mat4) := M4 (c4_0 m) (c4_1 m) (c4_2 m) (c4_3 m).
Definition mm4 (a b : mat4) : mat4 :=
  tr4 (M4 (mv4 a (c4_0 b)) (mv4 a (c4_1 b)) (mv4 a (c4_2 b)) (mv4 a (c4_3 b))).
Definition id4 : mat4 := M4 (V4 1 0 0 0) (V4 0 1 0 0) (V4 0 0 1 0) (V4 0 0 0 1).

(** Upper-left 3x3 block, last column, homogeneous points. *)
Definition v4_3 (a : vec4) : vec := V3 (w0 a) (w1 a) (w2 a).
Definition rot_of (m : mat4) : mat3 := M3 (v4_3 (q0 m)) (v4_3 (q1 m)) (v4_3 (q2 m)).
Definition loc_of (m : mat4) : vec := v4_3 (c4_3 m).
Definition hom (v : vec) : vec4 := V4 (vx v) (vy v) (vz v) 1.
Definition mk4 (r : mat3) (t : vec) : mat4 :=
  M4 (V4 (vx (r1 r)) (vy (r1 r)) (vz (r1 r)) (vx t))
     (V4 (vx (r2 r)) (vy (r2 r)) (vz (r2 r)) (vy t))
     (V4 (vx (r3 r)) (vy (r3 r)) (vz (r3 r)) (vz t))
     (V4 0 0 0 1).
(** First three components of the image of a point. *)
Definition app4 (m : mat4) (p : vec) : vec := v4_3 (mv4 m (hom p)).

(** [N.linalg.inv] of a 4x4 matrix: cofactors over the determinant; a singular
    matrix raises LinAlgError. *)
Definition minor3 (a b c d e f g h i : R) : R :=
  a * (e * i - f * h) - b * (d * i - f * g) + c * (d * h - e * g).

Definition cof4 (m : mat4) (i j : nat) : R :=
  let row k := match k with 0%nat => q0 m | 1%nat => q1 m | 2%nat => q2 m | _ => q3 m end in
  let el (r : vec4) k := match k with 0%nat => w0 r | 1%nat => w1 r | 2%nat => w2 r | _ => w3 r end in
  let oth k := match k with 0%nat => (1%nat, 2%nat, 3%nat) | 1%nat => (0%nat, 2%nat, 3%nat)
                          | 2%nat => (0%nat, 1%nat, 3%nat) | _ => (0%nat, 1%nat, 2%nat) end in
  let '(a, b, c) := oth i in
  let '(x, y, z) := oth j in
  let s := if Nat.even (i + j) then 1 else -1 in
  s * minor3 (el (row a) x) (el (row a) y) (el (row a) z)
             (el (row b) x) (el (row b) y) (el (row b) z)
             (el (row c) x) (el (row c) y) (el (row c) z).

Definition det4 (m : mat4) : R :=
  w0 (q0 m) * cof4 m 0 0 + w1 (q0 m) * cof4 m 0 1
  + w2 (q0 m) * cof4 m 0 2 + w3 (q0 m) * cof4 m 0 3.

Definition adj4 (m : mat4) : mat4 :=
  M4 (V4 (cof4 m 0 0) (cof4 m 1 0) (cof4 m 2 0) (cof4 m 3 0))
     (V4 (cof4 m 0 1) (cof4 m 1 1) (cof4 m 2 1) (cof4 m 3 1))
     (V4 (cof4 m 0 2) (cof4 m 1 2) (cof4 m 2 2) (cof4 m 3 2))
     (V4 (cof4 m 0 3) (cof4 m 1 3) (cof4 m 2 3) (cof4 m 3 3)).

Definition sc4 (k : R) (a : vec4) := V4 (k * w0 a) (k * w1 a) (k * w2 a) (k * w3 a).

Definition inv4 (m : mat4) : res mat4 :=
  if Reqb (det4 m) 0 then Err LinAlgError
  else Ok (M4 (sc4 (/ det4 m) (q0 (adj4 m))) (sc4 (/ det4 m) (q1 (adj4 m)))
              (sc4 (/ det4 m) (q2 (adj4 m))) (sc4 (/ det4 m) (q3 (adj4 m)))).

(** Vectors with possibly non-finite components. *)
Record nvec : Type := NV { nx : num; ny : num; nz : num }.
Definition nfin (v : vec) : nvec := NV (Fin (vx v)) (Fin (vy v)) (Fin (vz v)).
Definition fin_vec (v : nvec) : option vec :=
  match nx v, ny v, nz v with
  | Fin a, Fin b, Fin c => Some (V3 a b c)
  | _, _, _ => None
  end.
(** [v + d*t] with a possibly infinite [t]. *)
Definition along (v d : vec) (t : num) : nvec :=
  NV (nadd (Fin (vx v)) (nmul (Fin (vx d)) t))
     (nadd (Fin (vy v)) (nmul (Fin (vy d)) t))
     (nadd (Fin (vz v)) (nmul (Fin (vz d)) t)).
(** Row of a 4x4 matrix times the homogeneous version of a point. *)
Definition ndot4 (r : vec4) (p : nvec) : num :=
  nadd (nadd (nadd (nmul (Fin (w0 r)) (nx p)) (nmul (Fin (w1 r)) (ny p)))
             (nmul (Fin (w2 r)) (nz p))) (Fin (w3 r)).
