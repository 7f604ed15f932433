(** The trace of Model/Engine.v with library surfaces, for ray bundles with
    identities: tracer/tracer_engine.py, surface.py, optics_callables.py and the
    arrays that geometry managers hand out.

    Arrays that no two of these keep (normals, local coordinates, parameters, masks)
    are values.  The functions follow those of Model/Engine.v, Surface.v and
    OpticsCallables.v. *)
From Coq Require Import Reals String List Arith ZArith Bool.
From Verif.Base Require Import Py Num Vec.
From Verif.Model Require Import RayBundle BundleHeap TraceTree Geometry Spatial Sources Optics
  OpticsCallables Engine Surface.
Import ListNotations.
Local Open Scope R_scope.

(** A surface during a trace.  [q_points] is what the geometry manager returns from
    [get_intersection_points_global]; [_working_bundle] of the geometry manager is the
    [_current_bundle] of the surface. *)
Record hsurf : Type := mkQ {
  q_geom : geom;
  q_opt : optics;
  q_frame : mat4;
  q_gstate : gstate;
  q_points : option nat;
  q_bundle : option nat;
  q_selected : option nat }.

(** [_absorbed] and [_hits] of the accountants are lists of arrays. *)
Record hshared : Type := mkHG { hg_rng : rng; hg_acc : nat -> list nat * list nat }.

(** The array of a property, for reading. *)
Definition read_p (p : prop) (o : nat) : H (list (elt (kind_of p))) :=
  a <! the_array p o ;! hread (fun h => rd (kind_of p) h a).

(** The data of a geometry manager, with the bundle as it is now. *)
Definition with_bundle (gs : gstate) (b : bundle) : gstate :=
  match gs with
  | GIdle => GIdle
  | GFound fr _ d => GFound fr b d
  | GSelFlat fr _ idxs back pts => GSelFlat fr b idxs back pts
  | GSelQuad fr _ idxs pts norms => GSelQuad fr b idxs pts norms
  end.

(** geometry managers' [get_intersection_points_global]: flat_surface.py:94,
    quadric.py:160. *)
Definition q_get_points (q : hsurf) : H nat :=
  match q_points q with Some a => hret a | None => hlift (Err OutOfModel) end.

(** optics_callables.py:23-30.  The selector becomes the array of parents, and the
    points the array of vertices. *)
Definition h_reflective (a : R) (q : hsurf) (o sel : nat) : H nat :=
  pts <! q_get_points q ;!
  idx <! hread (fun h => rd KIdx h sel) ;!
  ds <! read_p PDirections o ;! ds <! hlift (take ds idx) ;!
  ns <! hlift (get_normals (q_gstate q)) ;!
  if negb (same_len ds ns) then hlift (Err ValueError) else
  es <! read_p PEnergy o ;! es <! hlift (take es idx) ;!
  d <! array KVec (map2 reflection ds ns) ;!
  e <! array KNum (scaled (1 - a) es) ;!
  h_inherit o (SIdx idx) (mkHB (Some pts) (Some d) (Some e) (Some sel) None []).

(** optics_callables.py:86-97; line 95 writes into the array of energies. *)
Definition h_absorber (a : R) (q : hsurf) (o sel : nat) : H nat :=
  outg <! h_reflective a q o sel ;!
  energy <! the_array PEnergy outg ;!
  idx <! hread (fun h => rd KIdx h sel) ;!
  ds <! read_p PDirections o ;! ds <! hlift (take ds idx) ;!
  u <! hlift (Geometry.up (q_gstate q)) ;!
  es <! hread (fun h => rd KNum h energy) ;!
  let proj := map (fun d => dot d u) ds in
  if negb (same_len proj es) then hlift (Err IndexError) else
  _ <! (fun h => (wr KNum energy (fill_mask (map (Rltb 0) proj) es 0) h, Ok tt)) ;!
  _ <! set_p PEnergy energy outg ;!
  hret outg.

(** optics_callables.py:172-189 *)
Definition h_lambertian (a : R) (q : hsurf) (o sel : nat) (g : rng) : H (nat * rng) :=
  idx <! hread (fun h => rd KIdx h sel) ;!
  let '(directs, g) := pillbox_sunshape_directions (length idx) (PI / 2) g in
  ns <! hlift (get_normals (q_gstate q)) ;!
  if negb (same_len ns directs) then hlift (Err ValueError) else
  let directs := map2 (fun n d => mv3 (rotation_to_z n) d) ns directs in
  pts <! q_get_points q ;!
  es <! read_p PEnergy o ;! es <! hlift (take es idx) ;!
  d <! array KVec directs ;!
  e <! array KNum (scaled (1 - a) es) ;!
  outg <! h_inherit o (SIdx idx) (mkHB (Some pts) (Some d) (Some e) (Some sel) None []) ;!
  hret (outg, g).

Definition h_absorbing (x : absorbing) (q : hsurf) (o sel : nat) (g : rng) : H (nat * rng) :=
  match x with
  | Reflective a => r <! h_reflective a q o sel ;! hret (r, g)
  | AbsorberReflector a => r <! h_absorber a q o sel ;! hret (r, g)
  | Lambertian a => h_lambertian a q o sel g
  end.

(** optics_callables.py:57-58: the accountant keeps the array of points. *)
Definition h_record_hits (abs : R) (q : hsurf) (o sel : nat) (acc : list nat * list nat)
    : H (list nat * list nat) :=
  idx <! hread (fun h => rd KIdx h sel) ;!
  es <! read_p PEnergy o ;! es <! hlift (take es idx) ;!
  e <! array KNum (scaled abs es) ;!
  pts <! q_get_points q ;!
  hret (fst acc ++ [e], snd acc ++ [pts]).

(** optics_callables.py:129-161 *)
Definition h_refractive (i1 i2 : R) (q : hsurf) (o sel : nat) : H nat :=
  idx <! hread (fun h => rd KIdx h sel) ;!
  if Nat.eqb (length idx) 0 then hlift (Err AttributeError) else
  n1 <! read_p PRefIndex o ;! n1 <! hlift (take n1 idx) ;!
  let n2 := toggle_ref_idx i1 i2 n1 in
  ds <! read_p PDirections o ;! ds <! hlift (take ds idx) ;!
  ns <! hlift (get_normals (q_gstate q)) ;!
  '(refr, out_dirs) <! hlift (refractions n1 n2 ds ns) ;!
  if negb (any refr) then h_reflective 0 q o sel else
  rf <! hlift (sequence (map3 (fun d n ii => fresnel d n (fst ii) (snd ii))
          (mask_select refr ds) (mask_select refr ns)
          (combine (mask_select refr n1) (mask_select refr n2)))) ;!
  let r := put_mask refr (repeat 1 (length idx)) rf in
  inters <! q_get_points q ;!
  pts <! hread (fun h => rd KVec h inters) ;!
  if negb (same_len ds pts) then hlift (Err ValueError) else
  es <! read_p PEnergy o ;! es <! hlift (take es idx) ;!
  d1 <! array KVec (map2 reflection ds ns) ;!
  e1 <! array KNum (map2 Rmult es r) ;!
  reflected <! h_inherit o (SIdx idx)
    (mkHB (Some inters) (Some d1) (Some e1) (Some sel) None []) ;!
  sel2 <! array KIdx (mask_select refr idx) ;!
  pts2 <! array KVec (mask_select refr pts) ;!
  d2 <! array KVec out_dirs ;!
  e2 <! array KNum (map2 (fun e x => e * (1 - x)) (mask_select refr es) (mask_select refr r)) ;!
  m2 <! array KNum (mask_select refr n2) ;!
  refracted <! h_inherit o (SIdx (mask_select refr idx))
    (mkHB (Some pts2) (Some d2) (Some e2) (Some sel2) (Some m2) []) ;!
  h_add reflected refracted.

Definition h_optics (x : optics) (q : hsurf) (o sel : nat) (g : hshared) : H (nat * hshared) :=
  match x with
  | Absorbing x => '(r, rg) <! h_absorbing x q o sel (hg_rng g) ;! hret (r, mkHG rg (hg_acc g))
  | Accountant id x =>
      acc <! h_record_hits (absorptivity x) q o sel (hg_acc g id) ;!
      '(r, rg) <! h_absorbing x q o sel (hg_rng g) ;!
      hret (r, mkHG rg (upd (hg_acc g) id acc))
  | Refractive i1 i2 => r <! h_refractive i1 i2 q o sel ;! hret (r, g)
  end.

(** surface.py:44-59 *)
Definition h_register (q : hsurf) (o : nat) : H (hsurf * list num) :=
  b <! hread (fun h => contents h o) ;!
  '(gs, ps) <! hlift (find_intersections (q_geom q) (q_frame q) b) ;!
  hret (mkQ (q_geom q) (q_opt q) (q_frame q) gs None (Some o) (q_selected q), ps).

(** surface.py:61-71, with the new array of points (flat_surface.py:76, 163,
    quadric.py:139). *)
Definition h_select (q : hsurf) (sel : nat) : H hsurf :=
  gs <! hread (fun h => match q_bundle q with
                        | Some o => with_bundle (q_gstate q) (contents h o)
                        | None => q_gstate q
                        end) ;!
  idx <! hread (fun h => rd KIdx h sel) ;!
  gs <! hlift (select_geom (q_geom q) gs idx) ;!
  pts <! hlift (get_points gs) ;!
  a <! array KVec pts ;!
  hret (mkQ (q_geom q) (q_opt q) (q_frame q) gs (Some a) (q_bundle q) (Some sel)).

(** surface.py:73-83 *)
Definition h_outgoing (q : hsurf) (g : hshared) : H (nat * hshared) :=
  match q_bundle q, q_selected q with
  | Some o, Some sel => h_optics (q_opt q) q o sel g
  | _, _ => hlift (Err AttributeError)
  end.

(** surface.py:85-93 *)
Definition h_done (q : hsurf) : hsurf :=
  mkQ (q_geom q) (q_opt q) (q_frame q) (done_geom (q_gstate q)) None None (q_selected q).

(** tracer_engine.py:51-60: a part of the bundle is a new bundle, the whole bundle is
    passed on itself (line 58). *)
Definition h_test_surface (o : nat) (n : nat) (ray_own : list Z) (q : hsurf) (so : nat)
    (rel : list bool) : H (hsurf * list num * list bool) :=
  if negb (Nat.eqb (length ray_own) n && Nat.eqb (length rel) n) then hlift (Err ValueError) else
  let owned := owned_row ray_own so rel in
  if negb (any owned) then hret (q, repeat (Fin 0) n, owned) else
  in_rays <! (if any (map negb owned) then h_inherit o (SMask owned) no_slots else hret o) ;!
  '(q', params) <! h_register q in_rays ;!
  if Nat.eqb (length params) (count_true owned)
  then hret (q', put_mask owned (repeat (Fin 0) n) params, owned)
  else hlift (Err ValueError).

Fixpoint h_test_surfaces (o : nat) (n : nat) (ray_own : list Z) (qs : list hsurf)
    (sown : list nat) (rel : list (list bool))
    : H (list hsurf * list (list num) * list (list bool)) :=
  match qs, sown, rel with
  | [], _, _ => hret ([], [], [])
  | q :: qs', so :: sown', r :: rel' =>
      '(q', row, owned) <! h_test_surface o n ray_own q so r ;!
      '(ss, rows, owneds) <! h_test_surfaces o n ray_own qs' sown' rel' ;!
      hret (q' :: ss, row :: rows, owned :: owneds)
  | _, _, _ => hlift (Err IndexError)
  end.

(** tracer_engine.py:29-77 *)
Definition h_intersect_ray (o : nat) (qs : list hsurf) (sown : list nat)
    (ray_own : list Z) (rel : list (list bool))
    : H (list hsurf * list (list bool) * list (list bool)) :=
  n <! num_rays o ;!
  '(ss, stack, owned) <! h_test_surfaces o n ray_own qs sown rel ;!
  if any2 (fun x => nlt x (Fin (- tenm 16))) stack then hlift (Err ValueError) else
  let stack := clear_zeros stack in
  mins <! hlift (col_min stack) ;!
  hret (ss, front stack mins, owned).

Record hblock : Type := mkHK {
  hk_strong : nat;
  hk_rec : nat;
  hk_weak : list bool;
  hk_own : list Z;
  hk_rel : list (list bool) }.

(** tracer_engine.py:129-164.  [new_record] is [new_outg] itself (line 135), whose
    parents are then replaced (line 139). *)
Definition h_process_surface (objs : list obj) (min_energy : R) (idx : nat) (q : hsurf) (g : hshared)
    (fr owned : list bool) : H (hsurf * hshared * option hblock) :=
  let inters := mask_select owned fr in
  if negb (any inters) then hret (h_done q, g, None) else
  sel <! array KIdx (nonzero inters) ;!
  q1 <! h_select q sel ;!
  '(o, g1) <! h_outgoing q1 g ;!
  ps <! read_p PParents o ;!
  parents <! hlift (take (nonzero owned) ps) ;!
  pa <! array KIdx parents ;!
  _ <! set_p PParents pa o ;!
  e <! read_p PEnergy o ;!
  let delete := map (fun x => Rleb x min_energy) e in
  strong <! (if any delete then h_delete o (nonzero delete) else hret o) ;!
  let q2 := h_done q1 in
  obj_idx <! hlift (take1 (surf_ownership objs) idx) ;!
  ob <! hlift (take1 objs obj_idx) ;!
  let rel_idx := (idx - surfs_until objs obj_idx)%nat in
  bs <! hread (fun h => contents h strong) ;!
  owns <! hlift (own_rays ob bs rel_idx) ;!
  n <! num_rays strong ;!
  next <! hlift (surfaces_for_next ob bs rel_idx) ;!
  rel <! hlift (relevancy_block (surf_ownership objs) obj_idx n next) ;!
  hret (q2, g1, Some (mkHK strong o delete
        (map (fun b : bool => if b then Z.of_nat obj_idx else (-1)%Z) owns) rel)).

Fixpoint h_process_surfaces (objs : list obj) (min_energy : R) (idx : nat) (qs : list hsurf) (g : hshared)
    (frs owneds : list (list bool)) : H (list hsurf * hshared * list hblock) :=
  match qs, frs, owneds with
  | [], _, _ => hret ([], g, [])
  | q :: qs', f :: frs', o :: owneds' =>
      '(q', g', k) <! h_process_surface objs min_energy idx q g f o ;!
      '(ss, g'', ks) <! h_process_surfaces objs min_energy (S idx) qs' g' frs' owneds' ;!
      hret (q' :: ss, g'', match k with Some k => k :: ks | None => ks end)
  | _, _, _ => hlift (Err IndexError)
  end.

(** The variables of [ray_tracer]; the tree is a list of bundles. *)
Record hstate : Type := mkHT {
  ht_surfs : list hsurf;
  ht_g : hshared;
  ht_bund : nat;
  ht_own : list Z;
  ht_rel : list (list bool);
  ht_tree : list nat;
  ht_record : option (list nat) }.

(** tracer_engine.py:120-178 *)
Definition h_iteration (objs : list obj) (min_energy : R) (ta : tree_arg) (st : hstate)
    : H (hstate * bool) :=
  '(ss, fr, owned) <! h_intersect_ray (ht_bund st) (ht_surfs st) (surf_ownership objs)
                        (ht_own st) (ht_rel st) ;!
  '(ss, g, blocks) <! h_process_surfaces objs min_energy 0 ss (ht_g st) fr owned ;!
  bund <! h_concatenate (map hk_strong blocks) ;!
  tr <! (match ta with
         | TreeFalse => hret (ht_tree st)
         | _ =>
             rec <! h_concatenate (map hk_rec blocks) ;!
             k <! num_rays rec ;!
             if Nat.eqb k 0 then hret (ht_tree st) else
             weak <! h_inherit rec (SIdx (nonzero (concat (map hk_weak blocks)))) no_slots ;!
             level <! h_add bund weak ;!
             hret (ht_tree st ++ [level])
         end) ;!
  n <! num_rays bund ;!
  let st' := mkHT ss g bund (ht_own st) (ht_rel st) tr (Some (map hk_rec blocks)) in
  if Nat.eqb n 0 then hret (st', false)
  else hret (mkHT ss g bund (concat (map hk_own blocks))
             (hstack_rows (length (ht_surfs st)) (map hk_rel blocks)) tr
             (Some (map hk_rec blocks)), true).

Fixpoint h_iterate (objs : list obj) (min_energy : R) (ta : tree_arg) (reps : nat) (st : hstate)
    : H hstate :=
  match reps with
  | O => hret st
  | S reps' =>
      '(st', go) <! h_iteration objs min_energy ta st ;!
      if go then h_iterate objs min_energy ta reps' st' else hret st'
  end.

(** tracer_engine.py:103-117; the source bundle itself is the first level (line 106). *)
Definition h_start (objs : list obj) (qs : list hsurf) (g : hshared) (o : nat) (ta : tree_arg)
    : H hstate :=
  n <! num_rays o ;!
  hret (mkHT qs g o (repeat (-1)%Z n) (repeat (repeat true n) (length qs))
        (match ta with TreeTrue => [o] | _ => [] end) None).

(** tracer_engine.py:79-188: the arrays returned are those of the last bundle. *)
Definition h_ray_tracer (objs : list obj) (qs : list hsurf) (g : hshared) (o : nat)
    (reps : nat) (min_energy : R) (ta : tree_arg)
    : H (nat * nat * hstate) :=
  st0 <! h_start objs qs g o ta ;!
  st <! h_iterate objs min_energy ta reps st0 ;!
  st <! (match ta with
         | TreeFalse =>
             match ht_record st with
             | None => hlift (Err UnboundLocalError)
             | Some bs =>
                 rec <! h_concatenate bs ;!
                 hret (mkHT (ht_surfs st) (ht_g st) (ht_bund st) (ht_own st) (ht_rel st)
                       (ht_tree st ++ [rec]) (ht_record st))
             end
         | _ => hret st
         end) ;!
  v <! get_p PVertices (ht_bund st) ;!
  d <! get_p PDirections (ht_bund st) ;!
  hret (v, d, st).
