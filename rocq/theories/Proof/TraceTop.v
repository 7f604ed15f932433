(** Traces of library assemblies: what the ray tree and the returned arrays hold. *)
From Coq Require Import Reals String List Arith ZArith Bool Permutation Lia Lra.
From Verif.Base Require Import Py Num Vec.
From Verif.Model Require Import RayBundle TraceTree Boundary Geometry Spatial Optics OpticsCallables Engine Objects Surface.
From Verif.Spec Require Import BundleSpec EngineSpec GeometrySpec GeomIface OpticsSpec LibrarySpec.
From Verif.Proof Require Import ListLemmas NumLemmas VecLemmas GeomProof BundleProof
  IntersectProof ProcessProof IterProof TraceProof TreeProof EngineMore SurfaceProof SimProof TreeArgProof LibraryTop
  ProgressProof AnswerProof ObjectProof EngineTop.
Import ListNotations.

(** ** Trees, whatever the surfaces *)
Lemma ct_traced {S G} (ops : surf_ops S G) objs surfs me b n reps tree ns Ts g gs g' :
  consistent_tree ops objs surfs me b n reps tree ns Ts g gs g' -> traceable b n ->
  forall L prev, nth_error tree L = Some prev -> exists m, traceable prev m /\ ns L <= m /\
    (forall j, j < ns L <-> is_traced me L prev j) /\ (L = 0 -> m = n) /\ (1 <= L -> 0 < m).
Proof.
  intros C Ht L prev Hp. destruct L as [|L].
  - rewrite (ct_source _ _ _ _ _ _ _ _ _ _ _ _ _ C) in Hp. injection Hp as <-. exists n.
    rewrite (ct_source_n _ _ _ _ _ _ _ _ _ _ _ _ _ C). split; auto. split; auto. split.
    + intros j. unfold is_traced. split.
      * intros Hj. destruct (traceable_energy _ _ j Ht Hj) as (e & He). exists e. auto.
      * intros (e & He & _). eapply traceable_energy_lt; eauto.
    + split; auto. lia.
  - destruct (nth_error tree L) as [pp|] eqn:Ep.
    2:{ apply nth_error_None in Ep. assert (Datatypes.S L < length tree) by (apply nth_error_Some; congruence). lia. }
    rewrite <- Nat.add_1_r in Hp.
    destruct (ct_level _ _ _ _ _ _ _ _ _ _ _ _ _ C L pp prev Ep Hp)
      as (tb & rc & m & ems & R1 & R2 & R3 & R4 & R5 & R6 & R7 & (R8 & R9) & R10).
    rewrite Nat.add_1_r in *. exists m. split; auto. split; auto. split.
    + intros j. unfold is_traced. split.
      * intros Hj. destruct (traceable_energy _ _ j R5) as (e & He); [lia|]. exists e. split; auto. right. apply (R9 j e He). auto.
      * intros (e & He & [|Hm]); [discriminate|]. apply (R9 j e He). auto.
    + split; [discriminate|auto].
Qed.

Section Trace.
Variable objs : list obj.
Variable surfs : list surface.
Hypothesis HA : library_assembly objs surfs.
Variables (me : R) (g : shared) (b : bundle) (n : nat).
Hypothesis Hb : library_source b n.

Section One.
Variables (reps : nat) (vs ds : list vec) (st : tstate surface shared).
Hypothesis Hrun : ray_tracer surface_ops objs surfs g b reps me TreeTrue = Ok (vs, ds, st).

(** C09 *)
Lemma tree_geometry : nth_error (t_tree st) 0 = Some b /\
  forall L prev lvl, nth_error (t_tree st) L = Some prev -> nth_error (t_tree st) (L + 1) = Some lvl ->
  exists m, traceable lvl m /\ forall k, k < m -> exists j v d s t,
    parent_at lvl k = Some j /\ is_traced me L prev j /\ vert_at prev j = Some v /\ dir_at prev j = Some d /\
    (0 < t)%R /\ In s surfs /\ reports_hit s prev j t /\ vert_at lvl k = Some (vadd v (vscale t d)).
Proof.
  destruct (library_trace objs surfs me HA g b n reps vs ds st Hb Hrun) as (ns & Ts & gs & C & _).
  split; [exact (ct_source _ _ _ _ _ _ _ _ _ _ _ _ _ C)|]. intros L prev lvl Hp Hl.
  destruct (ct_level _ _ _ _ _ _ _ _ _ _ _ _ _ C L prev lvl Hp Hl)
      as (tb & rc & m & ems & R1 & R2 & R3 & R4 & R5 & R6 & (R7 & _) & R8).
  destruct (ct_traced _ _ _ _ _ _ _ _ _ _ _ _ _ C (proj1 Hb) L prev Hp) as (mp & _ & _ & Htr & _).
  exists m. split; auto. intros k Hk. destruct (R7 k Hk) as (i & j & t & v & d & A1 & A2 & A3 & A4 & A5 & A6 & A7).
  pose proof A3 as (B1 & B2 & B3 & _). destruct (nth_lt surfs i B1) as (s & Hs).
  exists j, v, d, s, t. split; auto. split; [apply Htr; auto|]. do 2 (split; auto).
  split; [pose proof (tenm_pos 10); lra|]. split; [eapply nth_error_In; eauto|]. split; auto.
  eapply reported_hit; eauto.
Qed.

(** The tree is complete: a traced ray has no child only if no surface is met. *)
Lemma tree_complete : exists Ts : nat -> reports,
  forall L prev, nth_error (t_tree st) L = Some prev -> L < reps -> (exists j, is_traced me L prev j) ->
  exists ns tb, reported surface_ops surfs prev ns (Ts L) tb /\ (forall j, j < ns <-> is_traced me L prev j) /\
    match nth_error (t_tree st) (L + 1) with
    | None => forall i j t, ~ meets_first (Ts L) (length surfs) ns i j t
    | Some lvl => forall i j t, meets_first (Ts L) (length surfs) ns i j t ->
        exists k v d, parent_at lvl k = Some j /\ vert_at prev j = Some v /\ dir_at prev j = Some d /\
          vert_at lvl k = Some (vadd v (vscale t d))
    end.
Proof.
  destruct (library_trace objs surfs me HA g b n reps vs ds st Hb Hrun) as (ns & Ts & gs & C & _).
  exists Ts. intros L prev Hp HL (j0 & Hj0).
  destruct (ct_traced _ _ _ _ _ _ _ _ _ _ _ _ _ C (proj1 Hb) L prev Hp) as (mp & _ & _ & Htr & _).
  exists (ns L). destruct (nth_error (t_tree st) (L + 1)) as [lvl|] eqn:El.
  - destruct (ct_level _ _ _ _ _ _ _ _ _ _ _ _ _ C L prev lvl Hp El)
      as (tb & rc & m & ems & R1 & R2 & R3 & R4 & R5 & R6 & (_ & R7) & R8).
    exists tb. split; auto. split; auto. intros i j t M. destruct (R7 i j t M) as (k & v & d & _ & A). eauto.
  - destruct (ct_end _ _ _ _ _ _ _ _ _ _ _ _ _ C L prev Hp El HL) as (tb & R & M).
    + right. apply Htr in Hj0. lia.
    + exists tb. auto.
Qed.

(** C10 *)
Lemma level_contents L prev lvl : nth_error (t_tree st) L = Some prev -> nth_error (t_tree st) (L + 1) = Some lvl ->
  exists nprev T tb gl ems rc m ns vs1 ds1 st1,
    reported surface_ops surfs prev nprev T tb /\ (forall j, j < nprev <-> is_traced me L prev j) /\
    emissions surface_ops surfs tb nprev T gl ems (t_g st1) /\ (L = 0 -> gl = g) /\ concatenate_rays (map snd ems) = Ok rc /\
    traceable rc m /\ traceable lvl m /\ level_order rc m me lvl ns /\
    (forall k e, energy_at lvl k = Some e -> (k < ns <-> (me < e)%R)) /\
    ray_tracer surface_ops objs surfs g b (L + 1) me TreeTrue = Ok (vs1, ds1, st1) /\
    traceable (t_bund st1) ns /\ rays_picked lvl (seq 0 ns) (t_bund st1).
Proof.
  intros Hp Hl.
  destruct (library_trace objs surfs me HA g b n reps vs ds st Hb Hrun) as (ns & Ts & gs & C & _ & Hlen & _).
  assert (HL : L + 1 <= reps) by (assert (L + 1 < length (t_tree st)) by (apply nth_error_Some; congruence); lia).
  destruct (trace_prefix objs surfs me HA g b n (L + 1) (reps - (L + 1)) vs ds st Hb) as (vs1 & ds1 & st1 & x & H1 & Ex).
  { replace (L + 1 + (reps - (L + 1))) with reps by lia. exact Hrun. }
  destruct (library_trace objs surfs me HA g b n (L + 1) vs1 ds1 st1 Hb H1)
    as (ns1 & Ts1 & gs1 & C1 & _ & Hlen1 & B1 & B2 & B3 & _ & B4 & B5 & _).
  assert (Hsame : L + 1 < length (t_tree st1)).
  { destruct (le_lt_dec (length (t_tree st1)) (L + 1)) as [Hle|]; auto. exfalso.
    assert (Hv : vs1 = []) by (apply B5; lia).
    pose proof (trace_stops objs surfs me g b (L + 1) (reps - (L + 1)) vs1 ds1 st1 ltac:(lia) H1 Hv) as H2.
    replace (L + 1 + (reps - (L + 1))) with reps in H2 by lia. rewrite Hrun in H2. injection H2 as _ _ <-.
    assert (L + 1 < length (t_tree st)) by (apply nth_error_Some; congruence). lia. }
  assert (Hl1 : nth_error (t_tree st1) (L + 1) = Some lvl).
  { rewrite <- Hl, Ex, nth_error_app1; auto. }
  assert (Hp1 : nth_error (t_tree st1) L = Some prev).
  { rewrite <- Hp, Ex, nth_error_app1; auto. lia. }
  destruct (ct_level _ _ _ _ _ _ _ _ _ _ _ _ _ C1 L prev lvl Hp1 Hl1)
      as (tb & rc & m & ems & R1 & R2 & R3 & R4 & R5 & R6 & R7 & (R8 & R9) & R10).
  destruct (ct_traced _ _ _ _ _ _ _ _ _ _ _ _ _ C1 (proj1 Hb) L prev Hp1) as (mp & _ & _ & Htr & _).
  destruct (B4 ltac:(lia) lvl Hl1) as (D1 & D2).
  assert (Eg : gs1 (L + 1) = t_g st1).
  { rewrite <- (ct_after _ _ _ _ _ _ _ _ _ _ _ _ _ C1). f_equal. lia. }
  rewrite Eg in R2.
  exists (ns1 L), (Ts1 L), tb, (gs1 L), ems, rc, m, (ns1 (L + 1)), vs1, ds1, st1.
  split; auto. split; auto. split; auto.
  split; [intros ->; exact (ct_before _ _ _ _ _ _ _ _ _ _ _ _ _ C1)|]. split; auto. split.
  { exact R10. }
  split; auto. split; auto. split; auto. split; auto. rewrite D1 in B3. auto.
Qed.

(** C11 *)
Lemma only_strong_traced :
  (1 <= reps -> b_vert (t_bund st) = Some vs /\ b_dir (t_bund st) = Some ds /\ traceable (t_bund st) (length vs) /\
     forall k e, energy_at (t_bund st) k = Some e -> (me < e)%R) /\
  exists (ns : nat -> nat) (Ts : nat -> reports),
    forall L prev, nth_error (t_tree st) L = Some prev ->
      (forall lvl, nth_error (t_tree st) (L + 1) = Some lvl ->
         (exists tb, reported surface_ops surfs prev (ns L) (Ts L) tb) /\
         forall k j, parent_at lvl k = Some j -> j < ns L) /\
      (nth_error (t_tree st) (L + 1) = None -> L < reps -> ns L <> 0 ->
         exists tb, reported surface_ops surfs prev (ns L) (Ts L) tb) /\
      forall j, j < ns L -> 1 <= L -> exists e, energy_at prev j = Some e /\ (me < e)%R.
Proof.
  destruct (library_trace objs surfs me HA g b n reps vs ds st Hb Hrun) as (ns & Ts & gs & C & _ & Hlen & B1 & B2 & B3 & B4 & _).
  split; [intros Hr; repeat (split; [assumption|]); exact (B4 Hr)|].
  exists ns, Ts. intros L prev Hp. split; [|split].
  - intros lvl Hl. destruct (ct_level _ _ _ _ _ _ _ _ _ _ _ _ _ C L prev lvl Hp Hl)
      as (tb & rc & m & ems & R1 & R2 & R3 & R4 & R5 & R6 & (R7 & _) & R8). split; [eauto|].
    intros k j Hj. assert (Hk : k < m).
    { destruct R5 as (_ & (_ & Hr) & _). unfold parent_at, at_col in Hj. destruct (b_parents lvl) as [l|] eqn:E; [|discriminate].
      specialize (Hr Parents (map PNat l)). rewrite map_length in Hr. rewrite <- Hr; [|simpl; rewrite E; auto].
      apply nth_error_Some. congruence. }
    destruct (R7 k Hk) as (i & j' & t & v & d & A1 & A2 & _). congruence.
  - intros Hl HL Hn. destruct (ct_end _ _ _ _ _ _ _ _ _ _ _ _ _ C L prev Hp Hl HL) as (tb & R & _); [lia|eauto].
  - intros j Hj HL. destruct (ct_traced _ _ _ _ _ _ _ _ _ _ _ _ _ C (proj1 Hb) L prev Hp) as (mp & _ & _ & Htr & _).
    apply Htr in Hj. destruct Hj as (e & He & [|Hm]); [lia|eauto].
Qed.

(** C12 *)
Lemma bounded_trace : length (t_tree st) <= reps + 1 /\ nth_error (t_tree st) 0 = Some b /\
  (forall L lvl, 1 <= L -> nth_error (t_tree st) L = Some lvl -> exists m, traceable lvl m /\ 0 < m) /\
  b_vert (t_bund st) = Some vs /\ b_dir (t_bund st) = Some ds /\ length ds = length vs /\
  (length (t_tree st) < reps + 1 -> vs = [] /\ ds = []) /\
  (forall lvl, nth_error (t_tree st) reps = Some lvl -> exists ns,
     rays_picked lvl (seq 0 ns) (t_bund st) /\ forall j, j < ns <-> is_traced me reps lvl j) /\
  (forall L prev, nth_error (t_tree st) L = Some prev -> (forall j, ~ is_traced me L prev j) ->
     nth_error (t_tree st) (L + 1) = None) /\
  (1 <= reps -> vs = [] -> forall more,
     ray_tracer surface_ops objs surfs g b (reps + more) me TreeTrue = Ok (vs, ds, st)).
Proof.
  destruct (library_trace objs surfs me HA g b n reps vs ds st Hb Hrun) as (ns & Ts & gs & C & _ & Hlen & B1 & B2 & B3 & B4 & B5 & B6 & _).
  assert (Lds : length ds = length vs).
  { destruct B3 as (_ & (_ & Hr) & _). specialize (Hr Directions (map PVec ds)). rewrite map_length in Hr. apply Hr. simpl. rewrite B2. auto. }
  split; auto. split; [exact (ct_source _ _ _ _ _ _ _ _ _ _ _ _ _ C)|].
  split.
  { intros L lvl HL Hl. destruct (ct_traced _ _ _ _ _ _ _ _ _ _ _ _ _ C (proj1 Hb) L lvl Hl) as (m & A1 & _ & _ & _ & A2). eauto. }
  do 3 (split; auto). split.
  { intros Hlt. assert (vs = []) by auto. split; auto. subst vs. destruct ds; [auto|discriminate]. }
  split.
  { intros lvl Hl. assert (reps < length (t_tree st)) by (apply nth_error_Some; congruence).
    destruct (B5 ltac:(lia) lvl Hl) as (E1 & E2). exists (ns reps). split; auto.
    destruct (ct_traced _ _ _ _ _ _ _ _ _ _ _ _ _ C (proj1 Hb) reps lvl Hl) as (mp & _ & _ & Htr & _). auto. }
  split.
  { intros L prev Hp Hno. destruct (nth_error (t_tree st) (L + 1)) as [lvl|] eqn:Hl; auto. exfalso.
    destruct (ct_level _ _ _ _ _ _ _ _ _ _ _ _ _ C L prev lvl Hp Hl)
      as (tb & rc & m & ems & R1 & R2 & R3 & R4 & R5 & R6 & (R7 & _) & R8).
    destruct (R7 0 R6) as (i & j & t & v & d & A1 & A2 & _).
    destruct (ct_traced _ _ _ _ _ _ _ _ _ _ _ _ _ C (proj1 Hb) L prev Hp) as (mp & _ & _ & Htr & _).
    apply (Hno j). apply Htr. auto. }
  intros Hr Hv more. apply (trace_stops objs surfs me g b reps more vs ds st); auto.
Qed.

(** C14 *)
Lemma tests_right_surfaces : exists (ns : nat -> nat) (Ts : nat -> reports),
  (forall L prev, nth_error (t_tree st) L = Some prev -> L < reps -> 0 < ns L ->
     exists tb, reported surface_ops surfs prev (ns L) (Ts L) tb) /\
  (forall L prev, nth_error (t_tree st) L = Some prev -> forall j, j < ns L <-> is_traced me L prev j) /\
  (0 < reps -> forall i j, i < length surfs -> j < n -> Ts 0 i j <> None) /\
  (forall L lvl, nth_error (t_tree st) (L + 1) = Some lvl -> L + 1 < reps ->
     forall j, is_traced me (L + 1) lvl j -> exists i oi owns next r,
       emitted_by objs i oi owns next lvl j r /\
       forall i', i' < length surfs -> (Ts (L + 1) i' j <> None <-> next_surfaces objs oi owns next r i')).
Proof.
  destruct (library_trace objs surfs me HA g b n reps vs ds st Hb Hrun) as (ns & Ts & gs & C & _ & Hlen & _).
  exists ns, Ts. split; [|split; [|split]].
  - intros L prev Hp HL Hn. destruct (nth_error (t_tree st) (L + 1)) as [lvl|] eqn:Hl.
    + destruct (ct_level _ _ _ _ _ _ _ _ _ _ _ _ _ C L prev lvl Hp Hl) as (tb & rc & m & ems & R1 & _). eauto.
    + destruct (ct_end _ _ _ _ _ _ _ _ _ _ _ _ _ C L prev Hp Hl HL) as (tb & R & _); eauto.
  - intros L prev Hp j. destruct (ct_traced _ _ _ _ _ _ _ _ _ _ _ _ _ C (proj1 Hb) L prev Hp) as (mp & _ & _ & Htr & _). auto.
  - exact (ct_first _ _ _ _ _ _ _ _ _ _ _ _ _ C).
  - intros L lvl Hl HL j Hj.
    destruct (ct_traced _ _ _ _ _ _ _ _ _ _ _ _ _ C (proj1 Hb) (L + 1) lvl Hl) as (mp & _ & _ & Htr & _).
    apply Htr in Hj.
    destruct (ct_owned _ _ _ _ _ _ _ _ _ _ _ _ _ C L lvl Hl j Hj) as (i & p & t & oi & owns & next & r & A1 & A2 & A3 & A4).
    exists i, oi, owns, next, r. split; auto.
Qed.

(** C15 *)
Lemma energy_not_created L prev lvl : nth_error (t_tree st) L = Some prev -> nth_error (t_tree st) (L + 1) = Some lvl ->
  never_ties surfs prev ->
  (forall j e, energy_at prev j = Some e -> (0 <= energy_from lvl j <= e)%R) /\
  (total_energy lvl <= total_energy prev)%R.
Proof.
  intros Hp Hl Hn.
  destruct (library_trace objs surfs me HA g b n reps vs ds st Hb Hrun)
    as (ns & Ts & gs & C & _ & Hlen & B1 & B2 & B3 & B4 & B5 & B6 & B7 & B8).
  destruct (ct_level _ _ _ _ _ _ _ _ _ _ _ _ _ C L prev lvl Hp Hl)
      as (tb & rc & m & ems & R1 & R2 & R3 & R4 & R5 & R6 & (R7 & _) & R8).
  destruct (ct_traced _ _ _ _ _ _ _ _ _ _ _ _ _ C (proj1 Hb) L prev Hp) as (mp & T1 & T2 & Htr & _).
  assert (Hprev : all_rays lib_ray prev).
  { destruct L as [|L].
    - rewrite (ct_source _ _ _ _ _ _ _ _ _ _ _ _ _ C) in Hp. injection Hp as <-. apply Hb.
    - apply (B8 L). rewrite Nat.add_1_r. exact Hp. }
  assert (Hnn : forall bb mm, traceable bb mm -> all_rays lib_ray bb -> forall j e, energy_at bb j = Some e -> (0 <= e)%R).
  { intros bb mm Ht Ha j e He. destruct (traceable_dir bb mm j Ht) as (d & Hd); [eapply traceable_energy_lt; eauto|].
    apply (Ha j d e Hd He). }
  assert (Hpar : forall k p, parent_at lvl k = Some p -> p < ns L).
  { intros k p Hk. assert (Hkm : k < m).
    { destruct R5 as (_ & (_ & Hr) & _). unfold parent_at, at_col in Hk. destruct (b_parents lvl) as [l|] eqn:E; [|discriminate].
      specialize (Hr Parents (map PNat l)). rewrite map_length in Hr. rewrite <- Hr; [|simpl; rewrite E; auto].
      apply nth_error_Some. congruence. }
    destruct (R7 k Hkm) as (i & j' & t & v & d & A1 & A2 & _). congruence. }
  assert (Hpn : b_parents lvl <> None).
  { destruct (R7 0 R6) as (i & j & t & v & d & A1 & _). unfold parent_at, at_col in A1. destruct (b_parents lvl); congruence. }
  pose proof (never_ties_no_ties _ _ _ _ _ R1 Hn) as Hnt.
  assert (Hle : forall j e, j < ns L -> energy_at prev j = Some e -> (energy_from lvl j <= e)%R).
  { intros j e Hj He. apply (B7 L prev lvl Hp Hl Hnt j e Hj He). eapply Hnn; eauto. }
  pose proof (B8 L lvl Hl) as Hlv.
  assert (Hpos : forall j, (0 <= energy_from lvl j)%R).
  { intros j. unfold energy_from. destruct (b_parents lvl) as [ps|]; [|lra]. destruct (b_energy lvl) as [es|] eqn:Ee; [|lra].
    assert (Hes : Forall (Rle 0) es).
    { apply Forall_forall. intros e He. apply In_nth_error in He as (k & Hk). eapply (Hnn lvl m R5 Hlv k).
      unfold energy_at, at_col. rewrite Ee. exact Hk. }
    clear -Hes. revert ps. induction Hes as [|e es He Hes IH]; intros [|p ps]; simpl; try lra.
    destruct (Nat.eqb p j); simpl; specialize (IH ps); unfold sum_R in *; lra. }
  split.
  - intros j e He. split; [apply Hpos|]. destruct (lt_dec j (ns L)) as [Hj|Hj]; [auto|].
    assert (energy_from lvl j = 0%R) as ->; [|eapply Hnn; eauto].
    unfold energy_from. destruct (b_parents lvl) as [ps|] eqn:Ep; auto. destruct (b_energy lvl) as [es|]; auto.
    assert (Hps : forall p, In p ps -> p <> j).
    { intros p Hpp ->. apply In_nth_error in Hpp as (k & Hk). apply Hj. apply (Hpar k). unfold parent_at, at_col. rewrite Ep. auto. }
    clear -Hps. revert es. induction ps as [|p ps IH]; intros [|e es]; simpl; auto.
    destruct (Nat.eqb_spec p j) as [->|]; [exfalso; apply (Hps j); [left; auto|auto]|]. apply IH. intros; apply Hps; right; auto.
  - eapply (total_energy_le prev mp (ns L) lvl m); eauto.
Qed.
End One.
End Trace.

(** ** The ray tree (C19, C20) *)
Lemma all_parents t : (forall b, In b t -> b_parents b <> None) ->
  exists pss, mapM get_parents t = Ok pss /\ length pss = length t /\
    forall k b, nth_error t k = Some b -> exists ps, nth_error pss k = Some ps /\ b_parents b = Some ps.
Proof.
  intros H. induction t as [|b t IH].
  - exists []. split; auto. split; auto. intros [|k] b Hk; discriminate.
  - destruct IH as (pss & E & L & Hk). { intros; apply H; right; auto. }
    destruct (b_parents b) as [ps|] eqn:Eb; [|exfalso; apply (H b); auto; left; auto].
    assert (Eg : get_parents b = Ok ps) by (unfold get_parents; rewrite Eb; reflexivity).
    exists (ps :: pss). rewrite mapM_cons, Eg. cbn [bind]. rewrite E. cbn [bind].
    split; auto. split; [simpl; lia|]. intros [|k] b1 H1; simpl in *; [injection H1 as <-; eauto|auto].
Qed.
Lemma ordered_parents_spec t : (forall b, In b (tl t) -> b_parents b <> None) ->
  exists pss, ordered_parents t = Ok pss /\ length pss = num_bunds t - 1 /\
    forall k b, nth_error t (k + 1) = Some b -> exists ps, nth_error pss k = Some ps /\ b_parents b = Some ps.
Proof.
  intros H. unfold ordered_parents, num_bunds. destruct (all_parents (tl t) H) as (pss & E & L & Hk).
  exists pss. split; auto. split. { rewrite L. destruct t; simpl; lia. }
  intros k b Hb. apply Hk. rewrite Nat.add_1_r in Hb. destruct t; [discriminate|exact Hb].
Qed.

Lemma ordered_parents_raises t b : In b (tl t) -> b_parents b = None -> exists e, ordered_parents t = Err e.
Proof.
  intros Hin Hb. unfold ordered_parents. induction (tl t) as [|c l IH]; [destruct Hin|]. rewrite mapM_cons.
  destruct Hin as [->|Hin].
  - unfold get_parents, get_prop. rewrite Hb. cbn. eauto.
  - destruct (get_parents c); cbn [bind]; [|eauto]. destruct (IH Hin) as (e & ->). cbn. eauto.
Qed.

Lemma history_from_spec t : forall L pix level i l, ancestors t L i l -> level - pix + 1 = L -> pix <= level ->
  history_from t level pix (L - 1) i = Ok (removelast (tl l)).
Proof.
  induction L as [|L IH]; intros pix level i l HA HL Hle; [lia|].
  inversion HA as [|L' i' bb p l' Hb Hp HA']; subst. simpl. rewrite Nat.sub_0_r.
  destruct L as [|L].
  - simpl. inversion HA'; subst. reflexivity.
  - cbn [history_from]. rewrite HL. unfold get_bundle, take1. rewrite Hb. cbn [bind].
    unfold parent_at, at_col in Hp. destruct (b_parents bb) as [ps|] eqn:Eb; [|discriminate].
    assert (Eg : get_parents bb = Ok ps) by (unfold get_parents; rewrite Eb; reflexivity).
    rewrite Eg. cbn [bind]. rewrite Hp. cbn [bind].
    pose proof (IH (Datatypes.S pix) level p l' HA' ltac:(lia) ltac:(lia)) as E.
    replace (Datatypes.S L - 1) with L in E by lia. rewrite E. cbn [bind]. f_equal. cbn [tl].
    inversion HA' as [|? ? ? ? ? _ _ HA'']; subst. inversion HA''; subst; reflexivity.
Qed.

Lemma ray_history_raises t args : exists e, ray_history t args = Err e.
Proof. destruct args as [|[|k] [|y l]]; simpl; eauto. Qed.
Lemma history_explicit t L i l : ancestors t (L + 1) i l -> ray_history_body t i (Some (L + 1)) = Ok (removelast l).
Proof.
  intros HA. rewrite Nat.add_1_r in *. unfold ray_history_body.
  pose proof (history_from_spec t (Datatypes.S L) 1 (Datatypes.S L) i l HA ltac:(lia) ltac:(lia)) as E.
  replace (Datatypes.S L - 1) with L in E by lia. rewrite E. cbn [bind].
  inversion HA as [|L' i' bb p l' Hb Hp HA']; subst. cbn [tl]. inversion HA'; subst; reflexivity.
Qed.
Lemma history_default t i : 2 <= num_bunds t -> ray_history_body t i None = Err IndexError.
Proof.
  intros H. unfold ray_history_body, num_bunds in *. destruct (length t) as [|[|k]] eqn:E; try lia.
  cbn [history_from]. unfold get_bundle, take1. replace (Datatypes.S (Datatypes.S k) - 1 + 1) with (length t) by lia.
  rewrite (proj2 (nth_error_None t (length t))); auto.
Qed.
Lemma history_level0 t i : ray_history_body t i (Some 0) = Err IndexError.
Proof. reflexivity. Qed.

(** ** A concrete trace: two rays falling on a mirror from heights 1 and 2 *)
Local Open Scope R_scope.
Definition one_mirror : list surface := [mirror 0].
Lemma one_mirror_library : library_assembly [default_object 1] one_mirror.
Proof.
  split; [|split].
  - intros ob [<-|[]]. apply default_object_ok.
  - intros s [<-|[]]. apply mirror_lib.
  - reflexivity.
Qed.
Lemma one_mirror_answers : answering_assembly [default_object 1] one_mirror.
Proof.
  split; [apply one_mirror_library|]. split; [discriminate|]. split.
  - intros ob [<-|[]]. apply default_object_ok.
  - intros s [<-|[]]. split; exact I.
Qed.
Lemma no_media b : knows_media one_mirror b.
Proof. intros (s & [<-|[]] & H). destruct H. Qed.

Lemma mirror_trace g reps ta : (1 <= reps)%nat -> exists vs ds st,
  ray_tracer surface_ops [default_object 1] one_mirror g (drops [1; 2]) reps (1/10) ta = Ok (vs, ds, st).
Proof.
  intros Hr. apply (tracing_answers _ _ one_mirror_answers g _ 2 reps); auto using no_media.
  apply (drops_source [1; 2]).
Qed.

Lemma mirror_level g reps vs ds st : (1 <= reps)%nat ->
  ray_tracer surface_ops [default_object 1] one_mirror g (drops [1; 2]) reps (1/10) TreeTrue = Ok (vs, ds, st) ->
  exists lvl, nth_error (t_tree st) 1 = Some lvl /\ (exists k, parent_at lvl k = Some 0%nat /\ vert_at lvl k = Some (V3 0 0 0)) /\
    (exists k, parent_at lvl k = Some 1%nat /\ vert_at lvl k = Some (V3 0 0 0)).
Proof.
  intros Hr H. pose proof (drops_source [1; 2]) as Hb.
  destruct (library_trace _ _ _ one_mirror_library g _ _ reps vs ds st Hb H) as (ns & Ts & gs & C & _ & Hlen & _).
  pose proof (ct_source _ _ _ _ _ _ _ _ _ _ _ _ _ C) as Hp. pose proof (ct_source_n _ _ _ _ _ _ _ _ _ _ _ _ _ C) as Hn.
  assert (Hm : forall tb, reported surface_ops one_mirror (drops [1; 2]) (ns 0%nat) (Ts 0%nat) tb ->
     meets_first (Ts 0%nat) 1 (ns 0%nat) 0 0 1 /\ meets_first (Ts 0%nat) 1 (ns 0%nat) 0 1 2).
  { intros tb R. rewrite Hn in *. simpl in R.
    assert (E : forall j z, (j < 2)%nat -> 0 <= z -> nth_error [1; 2] j = Some z -> Ts 0%nat 0%nat j = Some (Fin z)).
    { intros j z Hj Hz Hnth. pose proof (ct_first _ _ _ _ _ _ _ _ _ _ _ _ _ C Hr 0%nat j ltac:(simpl; lia) ltac:(simpl; lia)) as K.
      destruct (Ts 0%nat 0%nat j) as [x|] eqn:Ex; [|congruence]. f_equal.
      rewrite (reported_param one_mirror _ _ _ _ 0 j (mirror 0) _ (V3 0 0 z) (V3 0 0 (-1)) id4 R eq_refl eq_refl I Ex).
      - cbn [s_geom s_frame mirror new_surface]. rewrite mirror_report.
        assert (Rltb (z - 0) 0 = false) as -> by (apply Rltb_false; lra). f_equal. ring.
      - cbn [vert_at at_col drops b_vert]. rewrite nth_error_map, Hnth. reflexivity.
      - cbn [dir_at at_col drops b_dir]. rewrite nth_error_map, Hnth. reflexivity. }
    pose proof (E 0%nat 1 ltac:(lia) ltac:(lra) eq_refl) as E0. pose proof (E 1%nat 2 ltac:(lia) ltac:(lra) eq_refl) as E1.
    assert (D : forall z, 1 <= z -> ~ discarded (Ts 0%nat) 1 2 z).
    { intros z Hz (_ & K). unfold tenm in K. simpl in K. lra. }
    split; (split; [simpl; lia|]); (split; [simpl; lia|]); (split; [assumption|]); (split; [apply D; lra|]); intros i' Hi';
      assert (i' = 0%nat) by lia; subst i'; [rewrite E0|rewrite E1]; right; lra. }
  destruct (nth_error (t_tree st) 1) as [lvl|] eqn:El.
  2:{ exfalso. destruct (ct_end _ _ _ _ _ _ _ _ _ _ _ _ _ C 0%nat _ Hp El ltac:(lia) ltac:(auto)) as (tb & R & M).
      destruct (Hm tb R) as (M1 & _). exact (M _ _ _ M1). }
  exists lvl. split; auto.
  destruct (ct_level _ _ _ _ _ _ _ _ _ _ _ _ _ C 0%nat _ lvl Hp El) as (tb & rc & m & ems & R1 & R2 & R3 & R4 & R5 & R6 & (_ & R7) & _).
  destruct (Hm tb R1) as (M1 & M2).
  split.
  - destruct (R7 _ _ _ M1) as (k & v & d & K1 & K2 & K3 & K4 & K5). exists k. split; auto. rewrite K5.
    injection K3 as <-. injection K4 as <-. vunfold. f_equal. f_equal; ring.
  - destruct (R7 _ _ _ M2) as (k & v & d & K1 & K2 & K3 & K4 & K5). exists k. split; auto. rewrite K5.
    injection K3 as <-. injection K4 as <-. vunfold. f_equal. f_equal; ring.
Qed.

(** One mirror never ties. *)
Lemma one_mirror_never_ties b : never_ties one_mirror b.
Proof.
  intros i i' s s' j t Hs Hs' _ _. destruct i as [|[|i]]; [|discriminate|discriminate].
  destruct i' as [|[|i']]; [reflexivity|discriminate|discriminate].
Qed.
