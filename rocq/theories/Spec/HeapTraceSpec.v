(** The trace with identities of arrays against the trace on values. *)
From Coq Require Import Reals List Arith Bool.
From Verif.Base Require Import Py Num Vec.
From Verif.Model Require Import RayBundle BundleHeap Geometry OpticsCallables Engine Surface HeapTrace.
From Verif.Spec Require Import HeapSpec.
Import ListNotations.

(** A surface that is not being traced: new, or as the last trace left it. *)
Definition ready (h : heap) (q : hsurf) (s : surface) : Prop :=
  q_geom q = s_geom s /\ q_opt q = s_opt s /\ q_frame q = s_frame s /\
  q_gstate q = GIdle /\ s_gstate s = GIdle /\ q_bundle q = None /\ s_bundle s = None /\
  match q_selected q, s_selected s with
  | None, None => True
  | Some a, Some l => a < h_next h /\ rd KIdx h a = l
  | _, _ => False
  end.

(** The random numbers and the accounts, whose arrays exist. *)
Definition same_shared (h : heap) (g : hshared) (v : shared) : Prop :=
  hg_rng g = g_rng v /\
  forall id, map (rd KNum h) (fst (hg_acc g id)) = a_absorbed (g_acc v id) /\
             map (rd KVec h) (snd (hg_acc g id)) = a_hits (g_acc v id) /\
             forall a, In a (fst (hg_acc g id) ++ snd (hg_acc g id)) -> a < h_next h.
Definition accounted (g : hshared) (a : nat) : Prop :=
  exists id, In a (fst (hg_acc g id) ++ snd (hg_acc g id)).

(** The levels of the tree, apart from the source bundle, and what was returned after
    at least one iteration, have arrays made during the trace that nothing else has. *)
Record separate (h h' : heap) (src : nat) (reps va da : nat) (st : hstate) : Prop := mkSep {
  sp_source : forall o, In o (ht_tree st) -> o = src \/ own_arrays h h' o;
  sp_levels : forall i j o o', nth_error (ht_tree st) i = Some o -> nth_error (ht_tree st) j = Some o' ->
    i <> j -> o <> o' /\ apart h' o o' /\ independent h' o o';
  sp_earlier : forall o o', In o (ht_tree st) -> o <> src -> made h o' -> independent h' o o';
  sp_accounts : forall o a, In o (ht_tree st) -> o <> src -> accounted (ht_g st) a -> ~ refers (h_obj h' o) a;
  sp_returned : reps <> 0 -> forall a, a = va \/ a = da ->
    h_next h <= a /\ ~ accounted (ht_g st) a /\ forall o, In o (ht_tree st) -> ~ refers (h_obj h' o) a }.

(** One trace after the other with the same assembly. *)
Record job : Type := mkJob { j_src : nat; j_reps : nat; j_energy : R; j_tree : tree_arg }.
Fixpoint h_jobs (objs : list obj) (qs : list hsurf) (g : hshared) (js : list job) : H (list hstate) :=
  match js with
  | [] => hret []
  | j :: js =>
      '(_, _, st) <! h_ray_tracer objs qs g (j_src j) (j_reps j) (j_energy j) (j_tree j) ;!
      sts <! h_jobs objs (ht_surfs st) (ht_g st) js ;!
      hret (st :: sts)
  end.
(** The same with values: [c] is what the source bundles hold, before all of them. *)
Fixpoint v_jobs (objs : list obj) (ss : list surface) (g : shared) (c : nat -> bundle) (js : list job)
    : res (list (tstate surface shared)) :=
  match js with
  | [] => Ok []
  | j :: js =>
      '(_, _, st) <- ray_tracer surface_ops objs ss g (c (j_src j)) (j_reps j) (j_energy j) (j_tree j) ;;
      sts <- v_jobs objs (t_surfs st) (t_g st) c js ;;
      Ok (st :: sts)
  end.
