(** Numbers.  Python floats are modelled by exact reals; [num] adds the values
    inf, -inf and nan where the code can produce them.  Rounding, overflow and
    the sign of zero are not modelled (a zero is a positive zero). *)
From Coq Require Import Reals List Bool.
Import ListNotations.
Local Open Scope R_scope.

Definition Rleb (x y : R) : bool := if Rle_dec x y then true else false.
Definition Rltb (x y : R) : bool := if Rlt_dec x y then true else false.
Definition Reqb (x y : R) : bool := if Req_EM_T x y then true else false.

(** [10^-k] as a real literal. *)
Definition tenm (k : nat) : R := / (10 ^ k).

Inductive num : Type := Fin (r : R) | PInf | NInf | NaN.

Definition sgn_inf (x : R) : num :=
  if Rltb 0 x then PInf else if Rltb x 0 then NInf else NaN.

Definition nneg (x : num) : num :=
  match x with Fin r => Fin (- r) | PInf => NInf | NInf => PInf | NaN => NaN end.

Definition nadd (x y : num) : num :=
  match x, y with
  | NaN, _ => NaN | _, NaN => NaN
  | Fin a, Fin b => Fin (a + b)
  | PInf, NInf => NaN | NInf, PInf => NaN
  | PInf, _ => PInf | _, PInf => PInf
  | NInf, _ => NInf | _, NInf => NInf
  end.

Definition nsub (x y : num) : num := nadd x (nneg y).

Definition nmul (x y : num) : num :=
  match x, y with
  | NaN, _ => NaN | _, NaN => NaN
  | Fin a, Fin b => Fin (a * b)
  | Fin a, PInf => sgn_inf a | PInf, Fin a => sgn_inf a
  | Fin a, NInf => sgn_inf (- a) | NInf, Fin a => sgn_inf (- a)
  | PInf, PInf => PInf | NInf, NInf => PInf
  | PInf, NInf => NInf | NInf, PInf => NInf
  end.

(** Division of finite numbers: x/0 is inf, -inf or nan as in IEEE 754. *)
Definition fdiv (a b : R) : num := if Reqb b 0 then sgn_inf a else Fin (a / b).

(** Division by a finite number. *)
Definition ndivf (x : num) (b : R) : num :=
  match x with
  | Fin a => fdiv a b
  | _ => if Reqb b 0 then x else nmul x (Fin (/ b))
  end.

Definition nlt (x y : num) : bool :=
  match x, y with
  | NaN, _ => false | _, NaN => false
  | Fin a, Fin b => Rltb a b
  | NInf, NInf => false | NInf, _ => true
  | PInf, _ => false
  | Fin _, PInf => true | Fin _, NInf => false
  end.

Definition nle (x y : num) : bool :=
  match x, y with
  | NaN, _ => false | _, NaN => false
  | Fin a, Fin b => Rleb a b
  | NInf, _ => true
  | PInf, PInf => true | PInf, _ => false
  | Fin _, PInf => true | Fin _, NInf => false
  end.

Definition neqb (x y : num) : bool :=
  match x, y with
  | Fin a, Fin b => Reqb a b
  | PInf, PInf => true | NInf, NInf => true
  | _, _ => false
  end.

Definition nisinf (x : num) : bool :=
  match x with PInf => true | NInf => true | _ => false end.
Definition nisnan (x : num) : bool := match x with NaN => true | _ => false end.
Definition nisfin (x : num) : bool := match x with Fin _ => true | _ => false end.

Definition nabs (x : num) : num :=
  match x with Fin r => Fin (Rabs r) | PInf => PInf | NInf => PInf | NaN => NaN end.

(** [N.minimum]: NaN if either is NaN. *)
Definition nmin2 (x y : num) : num :=
  match x, y with
  | NaN, _ => NaN | _, NaN => NaN
  | _, _ => if nle x y then x else y
  end.

Definition fin_of (x : num) : option R :=
  match x with Fin r => Some r | _ => None end.
