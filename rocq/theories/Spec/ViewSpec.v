(** What a picture of a trace should show. *)
From Coq Require Import Reals List Arith Bool.
From Verif.Base Require Import Py Num Vec.
From Verif.Model Require Import RayBundle.
From Verif.Spec Require Import BundleSpec EngineSpec.
Import ListNotations.
Local Open Scope R_scope.

(** The levels of a trace: complete bundles; below the first one each ray has a parent
    in the level above. *)
Definition drawable (t : list bundle) : Prop := t <> [] /\
  (forall b, In b t -> exists n, traceable b n) /\
  forall L b c, nth_error t L = Some b -> nth_error t (L + 1) = Some c ->
    exists n m, rays b n /\ rays c m /\ b_parents c <> None /\ forall k, (k < m)%nat -> exists j, parent_at c k = Some j /\ (j < n)%nat.

(** The rays to show: [pick b j] says whether ray [j] of [b] was chosen. *)
Definition shown (pick : bundle -> nat -> Prop) (b : bundle) (j : nat) : Prop :=
  exists e, energy_at b j = Some e /\ e <> 0 /\ pick b j.

(** A line to be drawn: from the parent of ray [k] of level [L + 1] to that ray, or
    from ray [j] of level [L] into the open. *)
Inductive stroke : Type := ToChild (L k : nat) | Open (L j : nat).

Definition childless (t : list bundle) (L j : nat) : Prop :=
  forall c k, nth_error t (L + 1) = Some c -> parent_at c k <> Some j.

Definition belongs (t : list bundle) (pick : bundle -> nat -> Prop) (s : stroke) : Prop :=
  match s with
  | ToChild L k => exists c m, nth_error t (L + 1) = Some c /\ rays c m /\ (k < m)%nat
  | Open L j => exists b, nth_error t L = Some b /\ shown pick b j /\ childless t L j
  end.

(** Where the line runs. *)
Definition runs (t : list bundle) (esc : R) (s : stroke) (p q : vec) : Prop :=
  match s with
  | ToChild L k => exists b c j, nth_error t L = Some b /\ nth_error t (L + 1) = Some c /\ parent_at c k = Some j /\
      vert_at b j = Some p /\ vert_at c k = Some q
  | Open L j => exists b d, nth_error t L = Some b /\ vert_at b j = Some p /\ dir_at b j = Some d /\ q = vadd p (vscale esc d)
  end.

(** Points and pairs of point numbers, drawn as lines [l] with [along p q]. *)
Definition depicts (pts : list vec) (cs : list (nat * nat)) (ss : list stroke) (along : stroke -> vec -> vec -> Prop) : Prop :=
  Forall2 (fun c s => exists p q, nth_error pts (fst c) = Some p /\ nth_error pts (snd c) = Some q /\ along s p q) cs ss.

(** Exactly the lines that belong there, each once. *)
Definition lines_of (t : list bundle) (pick : bundle -> nat -> Prop) (ss : list stroke) : Prop :=
  NoDup ss /\ forall s, In s ss <-> belongs t pick s.

Definition faithful (t : list bundle) (pick : bundle -> nat -> Prop) (esc : R) (pts : list vec) (cs : list (nat * nat)) : Prop :=
  exists ss, lines_of t pick ss /\ depicts pts cs ss (runs t esc).

(** The choice made by a selector function. *)
Definition chosen (sel : option (bundle -> list bool)) (b : bundle) (j : nat) : Prop :=
  match sel with None => True | Some f => nth_error (f b) j = Some true end.
(** It answers for each ray of the trace. *)
Definition answers_all (sel : option (bundle -> list bool)) (t : list bundle) : Prop :=
  match sel with None => True | Some f => forall b n, In b t -> rays b n -> length (f b) = n end.

(** How many numbers below [j] have the property. *)
Definition number_before (P : nat -> Prop) (j r : nat) : Prop :=
  exists l, NoDup l /\ length l = r /\ forall i, In i l <-> (i < j)%nat /\ P i.

(** Where lines into the open run if they start at the wrong place: the ray with the
    number that [j] has among the shown rays. *)
Definition starts_by_count (t : list bundle) (pick : bundle -> nat -> Prop) (esc : R) (s : stroke) (p q : vec) : Prop :=
  match s with
  | ToChild _ _ => runs t esc s p q
  | Open L j => exists b v d r, nth_error t L = Some b /\ vert_at b j = Some v /\ dir_at b j = Some d /\
      q = vadd v (vscale esc d) /\ number_before (shown pick b) j r /\ vert_at b r = Some p
  end.

(** A shown ray without children comes after shown rays only. *)
Definition hidden_last (t : list bundle) (pick : bundle -> nat -> Prop) : Prop :=
  forall L b i j, nth_error t L = Some b -> shown pick b j -> childless t L j -> (i < j)%nat -> shown pick b i.
