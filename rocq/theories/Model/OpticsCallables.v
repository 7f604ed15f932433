(** Model of tracer/optics_callables.py.

    State shared between surfaces: the random numbers, and the logs of the
    accountants (several surfaces may share an optics manager, so accountants are
    referred to by a number).  When a call raises, its partial effect on that
    state is not represented.  Selectors are arrays of non-negative indices. *)
From Coq Require Import Reals List Arith Bool.
From Verif.Base Require Import Py Num Vec.
From Verif.Model Require Import RayBundle Geometry Spatial Sources Optics.
Import ListNotations.
Local Open Scope R_scope.

(** [_absorbed] and [_hits] of an AbsorptionAccountant. *)
Record account : Type := mkAcc { a_absorbed : list (list R); a_hits : list (list vec) }.
Record shared : Type := mkG { g_rng : rng; g_acc : nat -> account }.

(** Optics managers with an absorptivity. *)
Inductive absorbing : Type :=
  | Reflective (a : R)            (** optics_callables.py:9-30 *)
  | AbsorberReflector (a : R)     (** optics_callables.py:80-97 *)
  | Lambertian (a : R).           (** optics_callables.py:163-189 *)

Inductive optics : Type :=
  | Absorbing (o : absorbing)
  | Accountant (id : nat) (o : absorbing)     (** optics_callables.py:34-78, 191-195 *)
  | Refractive (n1 n2 : R).                   (** optics_callables.py:99-161 *)

(** The attribute [_abs]. *)
Definition absorptivity (o : absorbing) : R :=
  match o with Reflective a | AbsorberReflector a | Lambertian a => a end.

(** Element-wise product of equally long arrays. *)
Definition scaled (k : R) (l : list R) : list R := map (fun e => e * k) l.

(** optics_callables.py:23-30 *)
Definition call_reflective (a : R) (gs : gstate) (b : bundle) (sel : list nat) : res bundle :=
  pts <- get_points gs ;;
  ds <- get_directions b ;; ds <- take ds sel ;;
  ns <- get_normals gs ;;
  if negb (same_len ds ns) then Err ValueError else
  es <- get_energy b ;; es <- take es sel ;;
  inherit b (SIdx sel)
    (mkB (Some pts) (Some (map2 reflection ds ns)) (Some (scaled (1 - a) es)) (Some sel) None []).

(** optics_callables.py:86-97 *)
Definition call_absorber (a : R) (gs : gstate) (b : bundle) (sel : list nat) : res bundle :=
  outg <- call_reflective a gs b sel ;;
  energy <- get_energy outg ;;
  ds <- get_directions b ;; ds <- take ds sel ;;
  u <- Geometry.up gs ;;
  let proj := map (fun d => dot d u) ds in
  if negb (same_len proj energy) then Err IndexError else
  Ok (set_energy (fill_mask (map (Rltb 0) proj) energy 0) outg).

(** optics_callables.py:172-189.  One rotation per normal. *)
Definition call_lambertian (a : R) (gs : gstate) (b : bundle) (sel : list nat) (g : rng)
    : res (bundle * rng) :=
  let '(directs, g) := pillbox_sunshape_directions (length sel) (PI / 2) g in
  ns <- get_normals gs ;;
  if negb (same_len ns directs) then Err ValueError else
  let directs := map2 (fun n d => mv3 (rotation_to_z n) d) ns directs in
  pts <- get_points gs ;;
  es <- get_energy b ;; es <- take es sel ;;
  o <- inherit b (SIdx sel)
         (mkB (Some pts) (Some directs) (Some (scaled (1 - a) es)) (Some sel) None []) ;;
  Ok (o, g).

Definition call_absorbing (o : absorbing) (gs : gstate) (b : bundle) (sel : list nat) (g : rng)
    : res (bundle * rng) :=
  match o with
  | Reflective a => r <- call_reflective a gs b sel ;; Ok (r, g)
  | AbsorberReflector a => r <- call_absorber a gs b sel ;; Ok (r, g)
  | Lambertian a => call_lambertian a gs b sel g
  end.

(** optics_callables.py:51-54 *)
Definition reset (a : account) : account := mkAcc [] [].

(** optics_callables.py:57-58 *)
Definition record_hits (abs : R) (gs : gstate) (b : bundle) (sel : list nat) (a : account)
    : res account :=
  es <- get_energy b ;; es <- take es sel ;;
  pts <- get_points gs ;;
  Ok (mkAcc (a_absorbed a ++ [scaled abs es]) (a_hits a ++ [pts])).

(** [N.hstack] of a list of non-empty arrays. *)
Definition hstack {A : Type} (l : list (list A)) : res (list A) :=
  match l with [] => Err ValueError | _ => Ok (concat l) end.
Definition nonempty {A : Type} (l : list A) : bool := negb (Nat.eqb (length l) 0).

(** optics_callables.py:61-73 *)
Definition get_all_hits (a : account) : res (list R * list vec) :=
  if Nat.eqb (length (a_absorbed a)) 0 then Ok ([], []) else
  x <- hstack (filter nonempty (a_absorbed a)) ;;
  h <- hstack (filter nonempty (a_hits a)) ;;
  Ok (x, h).

Definition upd {A : Type} (f : nat -> A) (k : nat) (v : A) : nat -> A :=
  fun j => if Nat.eqb j k then v else f j.

(** optics_callables.py:114-127 [toggle_ref_idx] *)
Definition toggle_ref_idx (i1 i2 : R) (current : list R) : list R :=
  map (fun c => if Reqb c i1 then i2 else i1) current.

(** optics_callables.py:129-161 *)
Definition call_refractive (i1 i2 : R) (gs : gstate) (b : bundle) (sel : list nat) : res bundle :=
  if Nat.eqb (length sel) 0 then Err AttributeError else
  n1 <- get_ref_index b ;; n1 <- take n1 sel ;;
  let n2 := toggle_ref_idx i1 i2 n1 in
  ds <- get_directions b ;; ds <- take ds sel ;;
  ns <- get_normals gs ;;
  '(refr, out_dirs) <- refractions n1 n2 ds ns ;;
  if negb (any refr) then call_reflective 0 gs b sel else
  rf <- sequence (map3 (fun d n ii => fresnel d n (fst ii) (snd ii))
          (mask_select refr ds) (mask_select refr ns)
          (combine (mask_select refr n1) (mask_select refr n2))) ;;
  let r := put_mask refr (repeat 1 (length sel)) rf in
  inters <- get_points gs ;;
  if negb (same_len ds inters) then Err ValueError else
  es <- get_energy b ;; es <- take es sel ;;
  reflected <- inherit b (SIdx sel)
    (mkB (Some inters) (Some (map2 reflection ds ns)) (Some (map2 Rmult es r)) (Some sel) None []) ;;
  refracted <- inherit b (SIdx (mask_select refr sel))
    (mkB (Some (mask_select refr inters)) (Some out_dirs)
         (Some (map2 (fun e x => e * (1 - x)) (mask_select refr es) (mask_select refr r)))
         (Some (mask_select refr sel)) (Some (mask_select refr n2)) []) ;;
  Ok (add_bundles reflected refracted).

(** Calling an optics manager: [opt(geometry, rays, selector)]. *)
Definition call_optics (o : optics) (gs : gstate) (b : bundle) (sel : list nat) (g : shared)
    : res (bundle * shared) :=
  match o with
  | Absorbing o =>
      '(r, rg) <- call_absorbing o gs b sel (g_rng g) ;; Ok (r, mkG rg (g_acc g))
  | Accountant id o =>
      acc <- record_hits (absorptivity o) gs b sel (g_acc g id) ;;
      '(r, rg) <- call_absorbing o gs b sel (g_rng g) ;;
      Ok (r, mkG rg (upd (g_acc g) id acc))
  | Refractive i1 i2 => r <- call_refractive i1 i2 gs b sel ;; Ok (r, g)
  end.

(** A history of optics calls (optics_callables.py:56-59 and the other classes'
    [__call__]) and resets (51-54) of accountants. *)
Inductive event : Type :=
  | EReset (id : nat)
  | ECall (o : optics) (gs : gstate) (b : bundle) (sel : list nat).

Definition step (g : shared) (e : event) : res shared :=
  match e with
  | EReset id => Ok (mkG (g_rng g) (upd (g_acc g) id (reset (g_acc g id))))
  | ECall o gs b sel => '(_, g') <- call_optics o gs b sel g ;; Ok g'
  end.

Fixpoint run (g : shared) (evs : list event) : res shared :=
  match evs with
  | [] => Ok g
  | e :: r => g' <- step g e ;; run g' r
  end.
