(** Properties of the energy accounts after a trace. *)
From Coq Require Import Reals List Arith Bool Lia Lra.
From Verif.Base Require Import Py Num Vec.
From Verif.Model Require Import RayBundle Geometry OpticsCallables Engine Objects Surface.
From Verif.Proof Require Import AccountProof LedgerProof BoundLedger EngineTop EngineExamples TraceTop AnswerProof.
From Verif.Spec Require Import BundleSpec EngineSpec GeometrySpec OpticsSpec LibrarySpec AccountSpec.
Import ListNotations.

(** C78 *)
Theorem c78_accounts : forall objs surfs, library_assembly objs surfs ->
  forall me g b n, library_source b n -> forall reps vs ds st,
  ray_tracer surface_ops objs surfs g b reps me TreeTrue = Ok (vs, ds, st) ->
  exists (ns : nat -> nat) (Ts : nat -> reports),
  (forall L prev, nth_error (t_tree st) L = Some prev -> L < reps -> 0 < ns L ->
     exists tb, reported surface_ops surfs prev (ns L) (Ts L) tb) /\
  (forall L prev, nth_error (t_tree st) L = Some prev -> forall j, j < ns L <-> is_traced me L prev j) /\
  forall i s id ab, nth_error surfs i = Some s -> s_opt s = Accountant id ab -> sole_account surfs i id ->
  exists ls, length ls = Nat.min reps (length (t_tree st)) /\
    (forall L prev l, nth_error (t_tree st) L = Some prev -> nth_error ls L = Some l ->
       noted (absorptivity ab) (Ts L) (length surfs) prev (ns L) i l) /\
    a_absorbed (g_acc (t_g st) id) = a_absorbed (g_acc g id) ++ map (map fst) (filter nonempty ls) /\
    a_hits (g_acc (t_g st) id) = a_hits (g_acc g id) ++ map (map snd) (filter nonempty ls).
Proof. exact accounts_top. Qed.
Print Assumptions c78_accounts.

(** From an empty account, all hits are what met the surface. *)
Theorem c78_all_hits : forall objs surfs, library_assembly objs surfs ->
  forall me g b n, library_source b n -> forall reps vs ds st,
  ray_tracer surface_ops objs surfs g b reps me TreeTrue = Ok (vs, ds, st) ->
  exists (ns : nat -> nat) (Ts : nat -> reports),
  (forall L prev, nth_error (t_tree st) L = Some prev -> L < reps -> 0 < ns L ->
     exists tb, reported surface_ops surfs prev (ns L) (Ts L) tb) /\
  (forall L prev, nth_error (t_tree st) L = Some prev -> forall j, j < ns L <-> is_traced me L prev j) /\
  forall i s id ab, nth_error surfs i = Some s -> s_opt s = Accountant id ab -> sole_account surfs i id ->
  g_acc g id = mkAcc [] [] ->
  exists ls, length ls = Nat.min reps (length (t_tree st)) /\
    (forall L prev l, nth_error (t_tree st) L = Some prev -> nth_error ls L = Some l ->
       noted (absorptivity ab) (Ts L) (length surfs) prev (ns L) i l) /\
    get_all_hits (g_acc (t_g st) id) = Ok (map fst (concat ls), map snd (concat ls)).
Proof. exact accounts_read. Qed.
Print Assumptions c78_all_hits.

Theorem c78_others : forall objs surfs, library_assembly objs surfs ->
  forall me g b n, library_source b n -> forall reps vs ds st,
  ray_tracer surface_ops objs surfs g b reps me TreeTrue = Ok (vs, ds, st) ->
  forall id, (forall s ab, In s surfs -> s_opt s <> Accountant id ab) -> g_acc (t_g st) id = g_acc g id.
Proof. exact accounts_kept. Qed.
Print Assumptions c78_others.

Example c78_example : forall g reps, library_assembly [default_object 1] one_receiver /\ library_source (drops [1; 2]%R) 2 /\
  sole_account one_receiver 0 0 /\
  exists vs ds st, ray_tracer surface_ops [default_object 1] one_receiver g (drops [1; 2]%R) reps (1 / 10) TreeTrue = Ok (vs, ds, st).
Proof.
  intros g reps. destruct one_receiver_answers as (A & B & C). split; [apply A|]. split; [apply (drops_source [1; 2]%R)|]. split; auto.
  apply (tracing_answers _ _ A g _ 2 reps); auto; [apply (drops_source [1; 2]%R)|right; discriminate].
Qed.

(** C79 *)
Theorem c79_sent_on : forall objs surfs, library_assembly objs surfs ->
  forall me g b n, library_source b n -> forall reps vs ds st,
  ray_tracer surface_ops objs surfs g b reps me TreeTrue = Ok (vs, ds, st) ->
  exists (ns : nat -> nat) (Ts : nat -> reports),
  (forall L prev, nth_error (t_tree st) L = Some prev -> L < reps -> 0 < ns L ->
     exists tb, reported surface_ops surfs prev (ns L) (Ts L) tb) /\
  (forall L prev, nth_error (t_tree st) L = Some prev -> forall j, j < ns L <-> is_traced me L prev j) /\
  forall L prev lvl, nth_error (t_tree st) L = Some prev -> nth_error (t_tree st) (L + 1) = Some lvl -> never_ties surfs prev ->
  (forall i s j t d e, meets_first (Ts L) (length surfs) (ns L) i j t -> nth_error surfs i = Some s -> dir_at prev j = Some d ->
     energy_at prev j = Some e -> sends_on (s_opt s) (z_of (s_frame s)) d e (energy_from lvl j)) /\
  (forall j, (forall i t, ~ meets_first (Ts L) (length surfs) (ns L) i j t) -> energy_from lvl j = 0%R).
Proof. exact sent_top. Qed.
Print Assumptions c79_sent_on.

Theorem c79_ledger : forall objs surfs, library_assembly objs surfs -> keeps_books surfs ->
  forall me g b n, library_source b n -> fresh_books surfs g -> forall reps vs ds st,
  ray_tracer surface_ops objs surfs g b reps me TreeTrue = Ok (vs, ds, st) ->
  (forall prev, In prev (t_tree st) -> never_ties surfs prev) ->
  exists (ns : nat -> nat) (Ts : nat -> reports) outs xs lvl,
  (forall L prev, nth_error (t_tree st) L = Some prev -> L < reps -> 0 < ns L ->
     exists tb, reported surface_ops surfs prev (ns L) (Ts L) tb) /\
  (forall L prev, nth_error (t_tree st) L = Some prev -> forall j, j < ns L <-> is_traced me L prev j) /\
  length (t_tree st) = length outs + 1 /\ nth_error (t_tree st) (length outs) = Some lvl /\
  (forall L prev out, nth_error (t_tree st) L = Some prev -> nth_error outs L = Some out ->
     unmet (Ts L) (length surfs) prev (ns L) out) /\
  Forall2 (on_record (t_g st)) surfs xs /\
  total_energy b =
    (sum_R (map (fun po => energy_of (fst po) (snd po)) (combine (t_tree st) outs)) + sum_R xs + total_energy lvl)%R.
Proof. exact ledger_top. Qed.
Print Assumptions c79_ledger.

(** A receiver records no more than was sent, whatever the other surfaces are. *)
Theorem c79_receiver_bound : forall objs surfs, library_assembly objs surfs ->
  forall me g b n, library_source b n -> forall reps vs ds st,
  ray_tracer surface_ops objs surfs g b reps me TreeTrue = Ok (vs, ds, st) ->
  (forall prev, In prev (t_tree st) -> never_ties surfs prev) ->
  forall i s id o, nth_error surfs i = Some s -> s_opt s = Accountant id o -> sole_account surfs i id -> g_acc g id = mkAcc [] [] ->
  exists es hs, get_all_hits (g_acc (t_g st) id) = Ok (es, hs) /\ (sum_R es <= total_energy b)%R.
Proof. exact receiver_bound. Qed.
Print Assumptions c79_receiver_bound.

Example c79_example : forall rg reps, let g := mkG rg (fun _ => mkAcc [] []) in
  library_assembly [default_object 1] one_receiver /\ keeps_books one_receiver /\ library_source (drops [1; 2]%R) 2 /\
  fresh_books one_receiver g /\ (forall b, never_ties one_receiver b) /\
  exists vs ds st, ray_tracer surface_ops [default_object 1] one_receiver g (drops [1; 2]%R) reps (1 / 10) TreeTrue = Ok (vs, ds, st).
Proof.
  intros rg reps g. destruct one_receiver_answers as (A & B & C). split; [apply A|].
  split. { intros [|[|i]] s H; try discriminate. injection H as <-. exact B. }
  split; [apply (drops_source [1; 2]%R)|]. split. { intros s id o _ _. reflexivity. }
  split. { intros b [|[|i]] [|[|i']] s s' j t H H' _ _; try discriminate. reflexivity. }
  apply (tracing_answers _ _ A g _ 2 reps); auto; [apply (drops_source [1; 2]%R)|right; discriminate].
Qed.
