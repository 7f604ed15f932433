(** Specification vocabulary for the tracer engine: what surfaces report, which
    surface a ray meets first, and what a consistent ray tree is. *)
From Coq Require Import Reals List Arith ZArith Bool Sorted.
From Verif.Base Require Import Py Num Vec.
From Verif.Model Require Import RayBundle Engine.
From Verif.Spec Require Import BundleSpec.
Import ListNotations.

(** Entries of a bundle, ray by ray. *)
Definition at_col {A : Type} (c : option (list A)) (k : nat) : option A :=
  match c with Some l => nth_error l k | None => None end.
Definition vert_at (b : bundle) := at_col (b_vert b).
Definition dir_at (b : bundle) := at_col (b_dir b).
Definition energy_at (b : bundle) := at_col (b_energy b).
Definition parent_at (b : bundle) := at_col (b_parents b).
Definition ref_at (b : bundle) := at_col (b_ref b).

(** A bundle of [n] rays fit for tracing: equal-length arrays, with vertices,
    directions and energies set. *)
Definition traceable (b : bundle) (n : nat) : Prop :=
  names_ok b /\ rays b n /\ b_dir b <> None /\ b_energy b <> None.

(** [b'] consists of the rays of [b] at positions [idx], with all properties. *)
Definition rays_picked (b : bundle) (idx : list nat) (b' : bundle) : Prop :=
  forall p, match prop b p with
            | None => prop b' p = None
            | Some l => exists l', prop b' p = Some l' /\ picks l idx l'
            end.

Definition at2 {A : Type} (m : list (list A)) (i j : nat) : option A :=
  match nth_error m i with Some r => nth_error r j | None => None end.

(** Surface [i] may be asked about ray [j]: the ray is un-owned or owned by the
    object of the surface, and the surface is relevant to it. *)
Definition may_test (sown : list nat) (own : list Z) (rel : list (list bool)) (i j : nat) : Prop :=
  exists so o, nth_error sown i = Some so /\ nth_error own j = Some o /\
    (o = (-1)%Z \/ o = Z.of_nat so) /\ at2 rel i j = Some true.

(** [T i j = Some x]: surface [i] was asked about ray [j] and reported [x]. *)
Definition reports := nat -> nat -> option num.

(** Some surface was not asked about some ray, or reported at most 1e-10. *)
Definition cutoff_on (T : reports) (nsurf n : nat) : Prop :=
  exists i j, i < nsurf /\ j < n /\
    match T i j with None => True | Some x => nle x (Fin (tenm 10)) = true end.

(** Parameter [t] is discarded as a self-intersection. *)
Definition discarded (T : reports) (nsurf n : nat) (t : R) : Prop :=
  cutoff_on T nsurf n /\ (t <= tenm 6)%R.

(** Surface [i] is the (a) first one that ray [j] meets, at parameter [t]. *)
Definition meets_first (T : reports) (nsurf n i j : nat) (t : R) : Prop :=
  i < nsurf /\ j < n /\ T i j = Some (Fin t) /\ ~ discarded T nsurf n t /\
  forall i', i' < nsurf ->
    match T i' j with
    | None => True
    | Some (Fin t') => discarded T nsurf n t' \/ (t <= t')%R
    | Some PInf => True
    | Some NInf => False
    | Some NaN => False
    end.

(** The rays surface [i] was asked about. *)
Definition asked (T : reports) (n i : nat) : list nat :=
  filter (fun j => match T i j with Some _ => true | None => false end) (seq 0 n).

(** [T] is what surface [i], in state [s], answers when registering the rays of
    [b] it is asked about; [s'] is its state afterwards. *)
Definition answers {S G : Type} (ops : surf_ops S G) (b : bundle) (n : nat) (T : reports)
    (i : nat) (s s' : S) : Prop :=
  (asked T n i = [] /\ s' = s) \/
  (asked T n i <> [] /\
   exists sub params,
     names_ok sub /\ rays_picked b (asked T n i) sub /\
     register_incoming ops s sub = Ok (s', params) /\
     Forall2 (fun j x => T i j = Some x) (asked T n i) params).

(** Requirements on a surface.  [good] are the states a surface has between
    traces, [RP] is a property of single rays (direction, energy, refractive
    index) the surface may rely on and has to maintain. *)
Definition ray_prop := vec -> R -> option R -> Prop.
Definition all_rays (RP : ray_prop) (b : bundle) : Prop :=
  forall k d e, dir_at b k = Some d -> energy_at b k = Some e -> RP d e (ref_at b k).

(** The energy carried on by the rays of [b] whose parent is [j]. *)
Definition sum_R (l : list R) : R := fold_right Rplus 0%R l.
Definition energy_from (b : bundle) (j : nat) : R :=
  match b_parents b, b_energy b with
  | Some ps, Some es => sum_R (map snd (filter (fun pe => Nat.eqb (fst pe) j) (combine ps es)))
  | _, _ => 0%R
  end.
Definition total_energy (b : bundle) : R :=
  match b_energy b with Some es => sum_R es | None => 0%R end.

(** Same properties set, apart from parents. *)
Definition same_set (a b : bundle) : Prop :=
  forall p, p <> Parents -> (prop a p = None <-> prop b p = None).

Record surface_contract {S G : Type} (ops : surf_ops S G) (RP : ray_prop) (good : S -> Prop)
  : Prop := {
  sc_done_idle : forall s, good s -> done ops s = s;
  sc_done_registered : forall s b s1 ps,
    good s -> register_incoming ops s b = Ok (s1, ps) -> done ops s1 = s;
  sc_done_selected : forall s b s1 ps idx s2,
    good s -> register_incoming ops s b = Ok (s1, ps) -> select_rays ops s1 idx = Ok s2 ->
    done ops s2 = s;
  (** Outgoing rays start at the reported point of their parent, and every
      selected ray has at least one child. *)
  sc_outgoing : forall s b n s1 ps idx s2 g o g1,
    good s -> traceable b n -> all_rays RP b ->
    register_incoming ops s b = Ok (s1, ps) ->
    NoDup idx -> idx <> [] -> (forall i, In i idx -> exists t, nth_error ps i = Some (Fin t)) ->
    select_rays ops s1 idx = Ok s2 -> get_outgoing ops s2 g = Ok (o, g1) ->
    exists m, traceable o m /\ all_rays RP o /\ same_set o b /\ b_parents o <> None /\
      (forall k, k < m -> exists i t v d,
         parent_at o k = Some i /\ In i idx /\ nth_error ps i = Some (Fin t) /\
         vert_at b i = Some v /\ dir_at b i = Some d /\
         vert_at o k = Some (vadd v (vscale t d))) /\
      (forall i, In i idx -> exists k, k < m /\ parent_at o k = Some i) }.

(** The surface does not emit more energy than it received. *)
Definition no_energy_made {S G : Type} (ops : surf_ops S G) (RP : ray_prop) (good : S -> Prop)
  : Prop :=
  forall s b n s1 ps idx s2 g o g1,
    good s -> traceable b n -> all_rays RP b ->
    register_incoming ops s b = Ok (s1, ps) ->
    NoDup idx -> idx <> [] -> (forall i, In i idx -> exists t, nth_error ps i = Some (Fin t)) ->
    select_rays ops s1 idx = Ok s2 -> get_outgoing ops s2 g = Ok (o, g1) ->
    forall i e, In i idx -> energy_at b i = Some e -> (energy_from o i <= e)%R.

(** [lvl] is recorded after tracing the first [ns] rays of [prev]. *)
Definition children_of (T : reports) (nsurf : nat) (prev : bundle) (ns : nat) (lvl : bundle)
    (m : nat) : Prop :=
  (forall k, k < m -> exists i j t v d,
     parent_at lvl k = Some j /\ j < ns /\ meets_first T nsurf ns i j t /\ (tenm 10 < t)%R /\
     vert_at prev j = Some v /\ dir_at prev j = Some d /\
     vert_at lvl k = Some (vadd v (vscale t d))) /\
  (forall i j t, meets_first T nsurf ns i j t -> exists k v d,
     k < m /\ parent_at lvl k = Some j /\
     vert_at prev j = Some v /\ dir_at prev j = Some d /\
     vert_at lvl k = Some (vadd v (vscale t d))).

(** Continuing rays first, then the discarded ones. *)
Definition split_by_energy (lvl : bundle) (m ns : nat) (min_energy : R) : Prop :=
  ns <= m /\ forall k e, energy_at lvl k = Some e -> (k < ns <-> (min_energy < e)%R).

(** Ray [j] of the traced bundle [b] was emitted by surface [i], number [ri] of
    object [oi]: it is ray [r] of a bundle [e] that was submitted to the object's
    [own_rays] and [surfaces_for_next_iteration]. *)
Definition emitted_by (objs : list obj) (i oi : nat) (owns : list bool) (next : list (list bool))
    (b : bundle) (j r : nat) : Prop :=
  exists ob ri e,
    nth_error (surf_ownership objs) i = Some oi /\ nth_error objs oi = Some ob /\
    surfs_until objs oi + ri = i /\
    own_rays ob e ri = Ok owns /\ surfaces_for_next ob e ri = Ok next /\
    (forall p, match prop b p, prop e p with
               | Some l, Some l' => nth_error l j = nth_error l' r /\ r < length l'
               | None, None => True
               | _, _ => False
               end).

(** The surfaces a ray is to be tested against: those of the owning object if it is
    owned, and of the emitting object's surfaces only the relevant ones. *)
Definition next_surfaces (objs : list obj) (oi : nat) (owns : list bool) (next : list (list bool))
    (r i : nat) : Prop :=
  exists oj, nth_error (surf_ownership objs) i = Some oj /\
    (nth_error owns r = Some true -> oj = oi) /\
    (oj = oi -> at2 next (i - surfs_until objs oi) r = Some true).

(** What the engine relies on objects for: one ownership flag per ray. *)
Definition object_contract (ob : obj) : Prop :=
  forall b n ri owns, rays b n -> own_rays ob b ri = Ok owns -> length owns = n.

(** [o'] is what surface [i] (in state [s] before the iteration) emits for the
    rays [hits], with parents referring to the traced bundle [b]: the surface was
    told about the rays it is asked about, then that only [hits] matter.  The
    shared state is [g] before and [g1] afterwards. *)
Definition emission {S G : Type} (ops : surf_ops S G) (b : bundle) (n : nat) (T : reports)
    (i : nat) (s : S) (hits : list nat) (g : G) (o' : bundle) (g1 : G) : Prop :=
  exists sub params s1 idx s2 o ps ps',
    names_ok sub /\ rays_picked b (asked T n i) sub /\
    register_incoming ops s sub = Ok (s1, params) /\
    Forall2 (fun j x => T i j = Some x) (asked T n i) params /\
    picks (asked T n i) idx hits /\
    select_rays ops s1 idx = Ok s2 /\
    get_outgoing ops s2 g = Ok (o, g1) /\
    (forall p, p <> Parents -> prop o' p = prop o p) /\
    b_parents o = Some ps /\ b_parents o' = Some ps' /\ picks (asked T n i) ps ps'.

(** The steps [l] take place one after the other and change the shared state from
    [g] to [g']. *)
Inductive in_turn {A G : Type} (step : A -> G -> G -> Prop) : list A -> G -> G -> Prop :=
| turn_none g : in_turn step [] g g
| turn_next x l g g1 g2 : step x g g1 -> in_turn step l g1 g2 -> in_turn step (x :: l) g g2.

(** All emissions of one iteration: for every surface met first by some ray, in the
    order of the surfaces, with the rays in order. *)
Definition emissions {S G : Type} (ops : surf_ops S G) (surfs : list S) (b : bundle) (n : nat)
    (T : reports) (g : G) (ems : list (nat * bundle)) (g' : G) : Prop :=
  Sorted.StronglySorted lt (map fst ems) /\
  (forall i, In i (map fst ems) <-> exists j t, meets_first T (length surfs) n i j t) /\
  in_turn (fun io h h' => exists s hits, nth_error surfs (fst io) = Some s /\
    Sorted.StronglySorted lt hits /\
    (forall j, In j hits <-> exists t, meets_first T (length surfs) n (fst io) j t) /\
    emission ops b n T (fst io) s hits h (snd io) h') ems g g'.

(** The recorded level holds every emitted ray once: first those above the
    energy limit in order of emission, then the others in order of emission. *)
Definition level_order (rc : bundle) (m : nat) (min_energy : R) (lvl : bundle) (ns : nat) : Prop :=
  exists strong weak, length strong = ns /\ rays_picked rc (strong ++ weak) lvl /\
    (forall k, In k strong <-> k < m /\ exists e, energy_at rc k = Some e /\ (min_energy < e)%R) /\
    (forall k, In k weak <-> k < m /\ exists e, energy_at rc k = Some e /\ (e <= min_energy)%R) /\
    Sorted.StronglySorted lt strong /\ Sorted.StronglySorted lt weak.

(** The reports [T] are the answers of the surfaces to the first [ns] rays of
    [prev]. *)
Definition reported {S G : Type} (ops : surf_ops S G) (surfs : list S) (prev : bundle) (ns : nat)
    (T : reports) (b : bundle) : Prop :=
  traceable b ns /\ rays_picked prev (seq 0 ns) b /\
  (forall i j, T i j <> None -> i < length surfs /\ j < ns) /\
  forall i s, nth_error surfs i = Some s -> exists s', answers ops b ns T i s s'.

(** Ray [j] of level [L] of the tree is traced on: it is a source ray or its energy
    exceeds the limit. *)
Definition is_traced (min_energy : R) (L : nat) (prev : bundle) (j : nat) : Prop :=
  exists e, energy_at prev j = Some e /\ (L = 0 \/ (min_energy < e)%R).

(** A ray tree consistent with what the surfaces reported.  [ns L] is the number of
    rays of level [L] that were traced on, [Ts L] the reports about them and [gs L]
    the shared state before; it was [g] at first and is [g'] at the end.  The tree
    ends early only where nothing is traced on, or nothing is met ([ct_end]). *)
Record consistent_tree {S G : Type} (ops : surf_ops S G) (objs : list obj) (surfs : list S)
    (me : R) (b : bundle) (n : nat) (reps : nat) (tree : list bundle) (ns : nat -> nat)
    (Ts : nat -> reports) (g : G) (gs : nat -> G) (g' : G) : Prop := {
  ct_before : gs 0 = g;
  ct_after : gs (length tree - 1) = g';
  ct_source : nth_error tree 0 = Some b;
  ct_source_n : ns 0 = n;
  ct_level : forall L prev lvl,
    nth_error tree L = Some prev -> nth_error tree (L + 1) = Some lvl ->
    exists tb rc m ems,
      reported ops surfs prev (ns L) (Ts L) tb /\
      emissions ops surfs tb (ns L) (Ts L) (gs L) ems (gs (L + 1)) /\
      concatenate_rays (map snd ems) = Ok rc /\
      level_order rc m me lvl (ns (L + 1)) /\
      traceable lvl m /\ 0 < m /\
      children_of (Ts L) (length surfs) prev (ns L) lvl m /\
      split_by_energy lvl m (ns (L + 1)) me /\ traceable rc m;
  ct_end : forall L prev,
    nth_error tree L = Some prev -> nth_error tree (L + 1) = None -> L < reps ->
    L = 0 \/ 0 < ns L ->
    exists tb, reported ops surfs prev (ns L) (Ts L) tb /\
      forall i j t, ~ meets_first (Ts L) (length surfs) (ns L) i j t;
  ct_first : 0 < reps ->
    forall i j, i < length surfs -> j < n -> Ts 0 i j <> None;
  ct_owned : forall L lvl, nth_error tree (L + 1) = Some lvl ->
    forall j, j < ns (L + 1) -> exists i p t oi owns next r,
      parent_at lvl j = Some p /\ meets_first (Ts L) (length surfs) (ns L) i p t /\
      emitted_by objs i oi owns next lvl j r /\
      (L + 1 < reps -> forall i', i' < length surfs ->
         (Ts (L + 1) i' j <> None <-> next_surfaces objs oi owns next r i'));
  ct_set : forall L prev lvl,
    nth_error tree L = Some prev -> nth_error tree (L + 1) = Some lvl -> same_set lvl prev }.

(** No ray is met first by two surfaces at once. *)
Definition no_ties (T : reports) (nsurf n : nat) : Prop :=
  forall i i' j t t', meets_first T nsurf n i j t -> meets_first T nsurf n i' j t' -> i = i'.

(** Surface [i], in state [s], answers [T] whenever asked. *)
Definition will_answer {S G : Type} (ops : surf_ops S G) (b : bundle) (n : nat) (T : reports)
    (i : nat) (s : S) : Prop :=
  asked T n i = [] \/
  forall sub, names_ok sub -> rays_picked b (asked T n i) sub ->
    exists s' params, register_incoming ops s sub = Ok (s', params) /\
      Forall2 (fun j x => T i j = Some x) (asked T n i) params.

(** The arrays describing which surface may be tested for which ray fit. *)
Definition fits (nsurf n : nat) (sown : list nat) (own : list Z) (rel : list (list bool)) : Prop :=
  length sown = nsurf /\ length own = n /\ length rel = nsurf /\
  Forall (fun r => length r = n) rel.

(** Surfaces in states [P], which they do not leave, whose outgoing rays do not
    depend on the shared state (random numbers, accounts). *)
Definition deterministic {S G : Type} (ops : surf_ops S G) (P : S -> Prop) : Prop :=
  (forall s b s' ps, P s -> register_incoming ops s b = Ok (s', ps) -> P s') /\
  (forall s idx s', P s -> select_rays ops s idx = Ok s' -> P s') /\
  (forall s, P s -> P (done ops s)) /\
  forall s g g', P s ->
    match get_outgoing ops s g, get_outgoing ops s g' with
    | Ok (o, _), Ok (o', _) => o = o'
    | Err e, Err e' => e = e'
    | _, _ => False
    end.

(** An object that answers for every bundle, with arrays of the right shape. *)
Definition object_answers (ob : obj) : Prop :=
  forall b n ri, rays b n -> ri < o_nsurf ob ->
  exists owns next, own_rays ob b ri = Ok owns /\ length owns = n /\
    surfaces_for_next ob b ri = Ok next /\ length next = o_nsurf ob /\
    Forall (fun r => length r = n) next.

(** [l] are the indices of ray [i] of level [L], its parent, its parent's parent and
    so on, down to the source bundle. *)
Inductive ancestors (t : list bundle) : nat -> nat -> list nat -> Prop :=
| anc_source i : ancestors t 0 i [i]
| anc_step L i b p l : nth_error t (Datatypes.S L) = Some b -> parent_at b i = Some p ->
    ancestors t L p l -> ancestors t (Datatypes.S L) i (i :: l).
