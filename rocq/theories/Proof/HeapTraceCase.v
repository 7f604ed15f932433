(** Two rays falling on a mirror, with identities of arrays. *)
From Coq Require Import Reals String List Arith ZArith Bool Lia Lra.
From Verif.Base Require Import Py Num Vec.
From Verif.Model Require Import RayBundle BundleHeap TraceTree Geometry Spatial Sources Optics
  OpticsCallables Engine Objects Surface HeapTrace.
From Verif.Proof Require Import LibraryTop EngineTop TraceTop HeapProof HeapShare HeapOptics HeapTraceProof.
From Verif.Spec Require Import HeapSpec HeapTraceSpec.
Import ListNotations.
Local Open Scope R_scope.

Definition drop_heap : heap :=
  mkH (hupd (hupd (fun _ => []) 0 [V3 0 0 1; V3 0 0 2]) 1 [V3 0 0 (-1); V3 0 0 (-1)])
      (hupd (fun _ => []) 2 [1; 1]) (fun _ => []) (fun _ => []) 3
      (fun _ => mkHB (Some 0) (Some 1) (Some 2) None None [])%nat 1.
Definition drop_mirror : hsurf :=
  mkQ (s_geom (mirror 0)) (s_opt (mirror 0)) (s_frame (mirror 0)) GIdle None None None.
Definition no_accounts (r : rng) : hshared := mkHG r (fun _ => ([], [])).

Lemma drop_case r reps ta : (1 <= reps)%nat -> made drop_heap 0 /\ Forall2 (ready drop_heap) [drop_mirror] one_mirror /\
  same_shared drop_heap (no_accounts r) (mkG r (fun _ => mkAcc [] [])) /\ contents drop_heap 0 = drops [1; 2] /\
  exists h' va da st, h_ray_tracer [default_object 1] [drop_mirror] (no_accounts r) 0 reps (1/10) ta drop_heap = (h', Ok (va, da, st)).
Proof.
  intros L.
  assert (M : made drop_heap 0).
  { split; [cbn; lia|]. intros a. unfold refers. cbn.
    intros [X|[X|[X|[X|[X|[n X]]]]]]; try contradiction; try discriminate; injection X as <-; lia. }
  assert (F : Forall2 (ready drop_heap) [drop_mirror] one_mirror) by (constructor; [now repeat split|constructor]).
  assert (S : same_shared drop_heap (no_accounts r) (mkG r (fun _ => mkAcc [] []))).
  { split; [reflexivity|]. intros id. repeat split. intros a []. }
  assert (C : contents drop_heap 0 = drops [1; 2]) by reflexivity.
  repeat (split; [assumption|]).
  pose proof (trace_ok [default_object 1] _ _ _ _ _ _ reps (1/10) ta M F S) as T.
  rewrite C in T. destruct (mirror_trace (mkG r (fun _ => mkAcc [] [])) reps ta L) as (vs & ds & vst & E). rewrite E in T.
  unfold agrees in T. destruct (h_ray_tracer _ _ _ _ _ _ _ _) as [h' [[[va da] st]|e]]; [|now destruct T].
  eauto.
Qed.

(** Changing the source bundle after the trace changes the record. *)
Theorem source_changes r reps : (1 <= reps)%nat -> exists h' va da st c,
  h_ray_tracer [default_object 1] [drop_mirror] (no_accounts r) 0 reps (1/10) TreeTrue drop_heap = (h', Ok (va, da, st)) /\
  map (contents (make_change 0 c h')) (ht_tree st) <> map (contents h') (ht_tree st).
Proof.
  intros L. destruct (drop_case r reps TreeTrue L) as (M & F & S & C & h' & va & da & st & E).
  exists h', va, da, st, (Entries PEnergy [0] (SIdx [0%nat])). split; [exact E|]. intros X.
  pose proof (source_first _ _ _ _ _ _ _ _ _ _ _ E) as N. destruct (ht_tree st) as [|o l]; [discriminate|].
  injection N as ->. cbn [map] in X. apply (f_equal (hd no_bundle)) in X. cbn [hd] in X.
  pose proof (trace_ok [default_object 1] _ _ _ _ _ _ reps (1/10) TreeTrue M F S) as T.
  unfold agrees in T. rewrite E in T. destruct T as [U _].
  pose proof U as (_ & _ & U3 & U4).
  assert (O : h_obj h' 0%nat = mkHB (Some 0%nat) (Some 1%nat) (Some 2%nat) None None []) by (rewrite U4; [reflexivity|cbn; lia]).
  assert (R2 : rd KNum h' 2 = [1; 1]) by (rewrite U3; [reflexivity|cbn; lia]).
  apply (f_equal b_energy) in X. unfold contents in X at 2. rewrite O in X. cbn [values b_energy option_map hb_energy] in X.
  change (rd KNum h' 2 = [1; 1]) in R2. cbn in R2.
  unfold make_change, set_p_sel, the_array, hbind, hread in X. cbn [slot] in X. rewrite O in X. cbn [hb_energy hret] in X.
  unfold write_sel in X. cbn [kind_of] in X. change (rd KNum h' 2) with (h_num h' 2) in X. rewrite R2 in X.
  cbn in X. unfold contents in X. cbn in X. rewrite O in X. cbn in X. injection X as X. lra.
Qed.

(** The same bundle traced twice. *)
Lemma drop_jobs r reps : (1 <= reps)%nat ->
  let js := [mkJob 0 reps (1/10) TreeTrue; mkJob 0 reps (1/10) TreeTrue] in
  Forall (fun j => made drop_heap (j_src j)) js /\
  exists h' st st', h_jobs [default_object 1] [drop_mirror] (no_accounts r) js drop_heap = (h', Ok [st; st']) /\
    (2 <= length (ht_tree st))%nat /\ (2 <= length (ht_tree st'))%nat.
Proof.
  intros L js. destruct (drop_case r reps TreeTrue L) as (M & F & S & C & _).
  assert (Fm : Forall (fun j => made drop_heap (j_src j)) js) by (constructor; [exact M|constructor; [exact M|constructor]]).
  split; [exact Fm|].
  pose proof (jobs_history [default_object 1] drop_heap js _ _ _ _ Fm F S) as T.
  set (g := mkG r (fun _ => mkAcc [] [])) in *.
  destruct (mirror_trace g reps TreeTrue L) as (vs & ds & vst & E).
  destruct (trace_again [default_object 1] one_mirror (1/10) g (t_g vst) (drops [1; 2]) 2 reps TreeTrue vs ds vst) as (vst' & E' & Et);
    [apply one_mirror_library|apply (drops_source [1; 2])|discriminate|exact E|right; intros s [<-|[]]; exact I|].
  unfold js in T. cbn [v_jobs j_src j_reps j_energy j_tree] in T. rewrite C, E in T. cbn [bind] in T. rewrite E' in T. cbn [bind] in T.
  unfold agrees in T. fold js in T.
  destruct (h_jobs _ _ _ _ _) as [h' [sts|e]]; [|now destruct T]. destruct T as (_ & T & _).
  destruct (mirror_level g reps vs ds vst L E) as (lvl & N & _).
  assert (K : (2 <= length (t_tree vst))%nat) by (apply nth_error_Some; rewrite N; discriminate).
  inversion T as [|st ? sts1 ? T1 T2]; subst. inversion T2 as [|st' ? sts2 ? T3 T4]; subst. inversion T4; subst.
  exists h', st, st'. split; [reflexivity|].
  rewrite Et in T3. split; [rewrite <- (map_length (contents h')), T1|rewrite <- (map_length (contents h')), T3]; exact K.
Qed.
