(** Theorems for C99: the order of surfaces and rays does not matter, nor does the grouping
    of surfaces into objects. *)
From Coq Require Import Reals String List Arith Bool Lra Lia Permutation.
From Verif.Base Require Import Py Num Vec.
From Verif.Model Require Import RayBundle Geometry TraceTree Sources Optics OpticsCallables Engine Objects Surface.
From Verif.Proof Require Import EngineTop AnswerProof OrderProof OrderBooks OrderCase.
From Verif.Spec Require Import BundleSpec EngineSpec GeometrySpec GeomIface OpticsSpec LibrarySpec AccountSpec LawSpec OrderSpec.
Import ListNotations.
Local Open Scope nat_scope.

(** C99: the levels have the same rays, of the same parents, in different order. *)
Theorem c99_order : forall qs surfs qs' surfs' p p', library_assembly (map made qs) surfs -> library_assembly (map made qs') surfs' ->
  rearranged qs surfs qs' surfs' p p' -> (forall s, In s surfs -> geom_ok (s_geom s) /\ specular (s_opt s)) ->
  forall me n b b' f g, library_source b n -> library_source b' n -> reordered n f g b b' ->
  forall rg rg' reps vs ds st vs' ds' st', fair (g_rng rg) -> fair (g_rng rg') ->
  ray_tracer surface_ops (map made qs) surfs rg b reps me TreeTrue = Ok (vs, ds, st) ->
  ray_tracer surface_ops (map made qs') surfs' rg' b' reps me TreeTrue = Ok (vs', ds', st') ->
  (forall i i', ~ shut qs i i') \/ (forall L prev, nth_error (t_tree st) L = Some prev -> never_ties surfs prev) ->
  length (t_tree st') = length (t_tree st) /\
  exists F G : nat -> nat -> nat, F 0 = f /\ G 0 = g /\
  forall L lvl lvl', nth_error (t_tree st) L = Some lvl -> nth_error (t_tree st') L = Some lvl' ->
  (exists m, reordered m (F L) (G L) lvl lvl') /\
  forall L', L = L' + 1 -> forall k j, parent_at lvl k = Some j -> parent_at lvl' (F L k) = Some (F L' j).
Proof. exact order_top. Qed.
Print Assumptions c99_order.

(** Without one-sided objects, for any other order of the surfaces. *)
Theorem c99_plain : forall qs surfs qs' surfs', plain_objects qs -> plain_objects qs' ->
  library_assembly (map made qs) surfs -> library_assembly (map made qs') surfs' ->
  Permutation surfs surfs' -> (forall s, In s surfs -> geom_ok (s_geom s) /\ specular (s_opt s)) ->
  forall me n b b' f g, library_source b n -> library_source b' n -> reordered n f g b b' ->
  forall rg rg' reps vs ds st vs' ds' st', fair (g_rng rg) -> fair (g_rng rg') ->
  ray_tracer surface_ops (map made qs) surfs rg b reps me TreeTrue = Ok (vs, ds, st) ->
  ray_tracer surface_ops (map made qs') surfs' rg' b' reps me TreeTrue = Ok (vs', ds', st') ->
  length (t_tree st') = length (t_tree st) /\
  exists F G : nat -> nat -> nat, F 0 = f /\ G 0 = g /\
  forall L lvl lvl', nth_error (t_tree st) L = Some lvl -> nth_error (t_tree st') L = Some lvl' ->
  (exists m, reordered m (F L) (G L) lvl lvl') /\
  forall L', L = L' + 1 -> forall k j, parent_at lvl k = Some j -> parent_at lvl' (F L k) = Some (F L' j).
Proof. exact order_plain. Qed.
Print Assumptions c99_plain.

(** Two mirrors, in one object or in two, and two rays, of which the first meets a mirror. *)
Example c99_example : forall rng rng', fair rng -> fair rng' ->
  let g := mkG rng (fun _ => mkAcc [] []) in let g' := mkG rng' (fun _ => mkAcc [] []) in
  exists vs ds st vs' ds' st' lvl k,
  plain_objects joined /\ plain_objects apart /\
  library_assembly (map made joined) (pair_of 0 (-1)) /\ library_assembly (map made apart) (pair_of (-1) 0) /\
  Permutation (pair_of 0 (-1)) (pair_of (-1) 0) /\
  (forall s, In s (pair_of 0 (-1)) -> geom_ok (s_geom s) /\ specular (s_opt s)) /\
  library_source (drops [1; 2]%R) 2 /\ library_source (drops [2; 1]%R) 2 /\
  reordered 2 swapped swapped (drops [1; 2]%R) (drops [2; 1]%R) /\
  ray_tracer surface_ops (map made joined) (pair_of 0 (-1)) g (drops [1; 2]%R) 3 (1 / 10) TreeTrue = Ok (vs, ds, st) /\
  ray_tracer surface_ops (map made apart) (pair_of (-1) 0) g' (drops [2; 1]%R) 3 (1 / 10) TreeTrue = Ok (vs', ds', st') /\
  nth_error (t_tree st) 1 = Some lvl /\ parent_at lvl k = Some 0.
Proof.
  intros rng rng' Fr Fr' g g'.
  destruct (pair_trace joined 0 (-1) g 1 2 3 TreeTrue (or_introl eq_refl) ltac:(lia)) as (vs & ds & st & E).
  destruct (pair_trace apart (-1) 0 g' 2 1 3 TreeTrue (or_intror eq_refl) ltac:(lia)) as (vs' & ds' & st' & E').
  destruct (pair_level g 3 vs ds st Fr ltac:(lia) E) as (lvl & k & H & Hk).
  exists vs, ds, st, vs', ds', st', lvl, k.
  split; [intros q [<-|[]]; reflexivity|]. split; [intros q [<-|[<-|[]]]; reflexivity|].
  split; [apply pair_library; auto|]. split; [apply pair_library; auto|]. split; [apply pair_swap|]. split; [apply pair_kind|].
  split; [apply (drops_source [1; 2]%R)|]. split; [apply (drops_source [2; 1]%R)|]. split; [apply drops_swapped|].
  split; [exact E|]. split; [exact E'|]. split; [exact H|exact Hk].
Qed.

(** Each surface's account has the same energies at the same points, in each iteration and
    so in all. *)
Theorem c99_accounts : forall qs surfs qs' surfs' p p', library_assembly (map made qs) surfs -> library_assembly (map made qs') surfs' ->
  rearranged qs surfs qs' surfs' p p' -> (forall s, In s surfs -> geom_ok (s_geom s) /\ specular (s_opt s)) ->
  forall me n b b' f g, library_source b n -> library_source b' n -> reordered n f g b b' ->
  forall rg rg' reps vs ds st vs' ds' st', fair (g_rng rg) -> fair (g_rng rg') ->
  ray_tracer surface_ops (map made qs) surfs rg b reps me TreeTrue = Ok (vs, ds, st) ->
  ray_tracer surface_ops (map made qs') surfs' rg' b' reps me TreeTrue = Ok (vs', ds', st') ->
  (forall i i', ~ shut qs i i') \/ (forall L prev, nth_error (t_tree st) L = Some prev -> never_ties surfs prev) ->
  forall i s id ab, nth_error surfs i = Some s -> s_opt s = Accountant id ab -> sole_account surfs i id ->
  (exists ls ls' : list (list (R * vec)), Forall2 (@Permutation _) ls ls' /\
    a_absorbed (g_acc (t_g st) id) = a_absorbed (g_acc rg id) ++ map (map fst) (filter nonempty ls) /\
    a_hits (g_acc (t_g st) id) = a_hits (g_acc rg id) ++ map (map snd) (filter nonempty ls) /\
    a_absorbed (g_acc (t_g st') id) = a_absorbed (g_acc rg' id) ++ map (map fst) (filter nonempty ls') /\
    a_hits (g_acc (t_g st') id) = a_hits (g_acc rg' id) ++ map (map snd) (filter nonempty ls')) /\
  (g_acc rg id = mkAcc [] [] -> g_acc rg' id = mkAcc [] [] ->
   exists hs hs' : list (R * vec), Permutation hs hs' /\
    get_all_hits (g_acc (t_g st) id) = Ok (map fst hs, map snd hs) /\ get_all_hits (g_acc (t_g st') id) = Ok (map fst hs', map snd hs')).
Proof. exact books_top. Qed.
Print Assumptions c99_accounts.

Example c99_accounts_example : forall rng rng', fair rng -> fair rng' ->
  let g := mkG rng (fun _ => mkAcc [] []) in let g' := mkG rng' (fun _ => mkAcc [] []) in
  exists vs ds st vs' ds' st',
  library_assembly (map made joined) watched /\ library_assembly (map made apart) watched' /\ rearranged joined watched apart watched' swapped swapped /\
  (forall s, In s watched -> geom_ok (s_geom s) /\ specular (s_opt s)) /\
  library_source (drops [1; 2]%R) 2 /\ library_source (drops [2; 1]%R) 2 /\
  reordered 2 swapped swapped (drops [1; 2]%R) (drops [2; 1]%R) /\
  ray_tracer surface_ops (map made joined) watched g (drops [1; 2]%R) 3 (1 / 10) TreeTrue = Ok (vs, ds, st) /\
  ray_tracer surface_ops (map made apart) watched' g' (drops [2; 1]%R) 3 (1 / 10) TreeTrue = Ok (vs', ds', st') /\
  (forall i i', ~ shut joined i i') /\
  nth_error watched 0 = Some receiver /\ s_opt receiver = Accountant 0 (Reflective 1) /\ sole_account watched 0 0.
Proof.
  intros rng rng' Fr Fr' g g'. destruct watched_answers as (A & A').
  destruct (tracing_answers _ _ A g (drops [1; 2]%R) 2 3 (1 / 10)%R TreeTrue) as (vs & ds & st & E); auto.
  { apply (drops_source [1; 2]%R). } { apply watched_media. }
  destruct (tracing_answers _ _ A' g' (drops [2; 1]%R) 2 3 (1 / 10)%R TreeTrue) as (vs' & ds' & st' & E'); auto.
  { apply (drops_source [2; 1]%R). } { apply watched_media. }
  exists vs, ds, st, vs', ds', st'. split; [apply A|]. split; [apply A'|]. split; [apply watched_swapped|]. split; [apply watched_kind|].
  split; [apply (drops_source [1; 2]%R)|]. split; [apply (drops_source [2; 1]%R)|]. split; [apply drops_swapped|].
  split; [exact E|]. split; [exact E'|]. split; [exact watched_open|]. split; [reflexivity|]. split; [reflexivity|exact watched_sole].
Qed.
