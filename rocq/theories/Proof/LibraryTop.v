(** Traces through library surfaces. *)
From Coq Require Import Reals String List Arith ZArith Bool Lia Lra Permutation.
From Verif.Base Require Import Py Num Vec.
From Verif.Model Require Import RayBundle TraceTree Geometry Spatial Sources Optics OpticsCallables Engine Surface.
From Verif.Spec Require Import BundleSpec EngineSpec GeometrySpec GeomIface OpticsSpec LibrarySpec.
From Verif.Proof Require Import ListLemmas NumLemmas VecLemmas BundleProof IntersectProof ProcessProof IterProof
  TraceProof TreeProof EngineMore TreeArgProof SimProof SurfaceProof.
Import ListNotations.

(** ** Transfer from the surfaces that forget their selection *)
Lemma same_refl s : same_surface s s.
Proof. unfold same_surface. auto. Qed.
Lemma same_trans a b c : same_surface a b -> same_surface b c -> same_surface a c.
Proof. unfold same_surface. intros (? & ? & ? & ? & ?) (? & ? & ? & ? & ?). repeat split; congruence. Qed.
Lemma same_sym a b : same_surface a b -> same_surface b a.
Proof. unfold same_surface. intros (? & ? & ? & ? & ?). repeat split; congruence. Qed.
Lemma same_lib a b : same_surface a b -> lib_surface a -> lib_surface b.
Proof. unfold same_surface, lib_surface, idle. intros (E1 & E2 & E3 & E4 & E5). rewrite E2, E3, E4, E5. auto. Qed.

Lemma same_sim (ops1 ops2 : surf_ops surface shared) :
  (ops1 = canon_ops \/ ops1 = surface_ops) -> (ops2 = canon_ops \/ ops2 = surface_ops) ->
  sim ops1 ops2 same_surface.
Proof.
  intros H1 H2.
  assert (D : forall ops a, (ops = canon_ops \/ ops = surface_ops) ->
     s_geom (done ops a) = s_geom a /\ s_opt (done ops a) = s_opt a /\ s_frame (done ops a) = s_frame a /\
     s_gstate (done ops a) = GIdle /\ s_bundle (done ops a) = None).
  { intros ops a [->| ->]; cbn; repeat split; auto. }
  assert (E : forall ops, (ops = canon_ops \/ ops = surface_ops) -> register_incoming ops = surf_register /\
     select_rays ops = surf_select /\ get_outgoing ops = surf_outgoing).
  { intros ops [->| ->]; auto. }
  destruct (E ops1 H1) as (R1 & S1 & O1). destruct (E ops2 H2) as (R2 & S2 & O2).
  constructor.
  - intros a b k (E1 & E2 & E3 & E4 & E5). rewrite R1, R2. unfold surf_register. rewrite E1, E2, E3.
    apply rel_same. intros [gs ps] _. cbn. repeat split; auto.
  - intros a b idx (E1 & E2 & E3 & E4 & E5). rewrite S1, S2, O1, O2. unfold surf_select. rewrite E1, E2, E3, E4, E5.
    apply rel_same. intros gs _. cbn [rel_res]. split; [intros; reflexivity|].
    destruct (D ops1 (mkS (s_geom a) (s_opt a) (s_frame a) gs (s_bundle a) (Some idx)) H1) as (A1 & A2 & A3 & A4 & A5).
    destruct (D ops2 (mkS (s_geom a) (s_opt a) (s_frame a) gs (s_bundle a) (Some idx)) H2) as (B1 & B2 & B3 & B4 & B5).
    unfold same_surface. repeat split; congruence.
  - intros a b (E1 & E2 & E3 & E4 & E5). 
    destruct (D ops1 a H1) as (A1 & A2 & A3 & A4 & A5). destruct (D ops2 b H2) as (B1 & B2 & B3 & B4 & B5).
    unfold same_surface. repeat split; congruence.
Qed.

Lemma canon_same s : lib_surface s -> canon_good (canon_done s) /\ same_surface (canon_done s) s.
Proof.
  intros (Hf & Ho & Hg & Hb). unfold canon_good, lib_surface, idle, same_surface, canon_done, new_surface. cbn.
  repeat split; auto.
Qed.
Lemma canon_surfs surfs : (forall s, In s surfs -> lib_surface s) ->
  (forall s, In s (map canon_done surfs) -> canon_good s) /\ Forall2 same_surface (map canon_done surfs) surfs.
Proof.
  intros H. split.
  - intros s Hs. apply in_map_iff in Hs as (s0 & <- & Hs). apply canon_same; auto.
  - induction surfs as [|s surfs IH]; constructor.
    + apply canon_same. apply H. left; auto.
    + apply IH. intros; apply H; right; auto.
Qed.

Section Library.
Variables (objs : list obj) (surfs : list surface) (me : R).
Hypothesis HA : library_assembly objs surfs.

Let csurfs := map canon_done surfs.

Lemma lib_sim_trace g b reps ta : rel_res (fun x y => fst x = fst y /\ state_rel same_surface (snd x) (snd y))
    (ray_tracer canon_ops objs csurfs g b reps me ta) (ray_tracer surface_ops objs surfs g b reps me ta).
Proof.
  apply ray_tracer_sim; [apply same_sim; auto|]. apply canon_surfs. apply HA.
Qed.

Lemma canon_of g b reps ta vs ds st : ray_tracer surface_ops objs surfs g b reps me ta = Ok (vs, ds, st) ->
  exists st1, ray_tracer canon_ops objs csurfs g b reps me ta = Ok (vs, ds, st1) /\ state_rel same_surface st1 st.
Proof.
  intros H. pose proof (lib_sim_trace g b reps ta) as R. rewrite H in R.
  destruct (ray_tracer canon_ops objs csurfs g b reps me ta) as [[[v d] st1]|]; cbn [rel_res] in R; [|destruct R].
  destruct R as (E & R). cbn [fst snd] in E, R. injection E as -> ->. eauto.
Qed.
Lemma lib_of g b reps ta vs ds st1 : ray_tracer canon_ops objs csurfs g b reps me ta = Ok (vs, ds, st1) ->
  exists st, ray_tracer surface_ops objs surfs g b reps me ta = Ok (vs, ds, st) /\ state_rel same_surface st1 st.
Proof.
  intros H. pose proof (lib_sim_trace g b reps ta) as R. rewrite H in R.
  destruct (ray_tracer surface_ops objs surfs g b reps me ta) as [[[v d] st]|]; cbn [rel_res] in R; [|destruct R].
  destruct R as (E & R). cbn [fst snd] in E, R. injection E as <- <-. eauto.
Qed.
Lemma canon_len : length csurfs = length (surf_ownership objs).
Proof. unfold csurfs. rewrite map_length. apply HA. Qed.

Lemma canon_back ss : Forall2 same_surface csurfs ss -> Forall2 same_surface surfs ss.
Proof.
  pose proof (proj2 (canon_surfs surfs (proj1 (proj2 HA)))) as H. fold csurfs in H. clearbody csurfs.
  clear HA. revert surfs H ss. induction csurfs as [|c cs IH]; intros l H ss K; inversion H; inversion K; subst; constructor.
  - eapply same_trans; [apply same_sym; eassumption|eassumption].
  - apply IH; auto.
Qed.

Lemma library_trace g b n reps vs ds st : library_source b n ->
  ray_tracer surface_ops objs surfs g b reps me TreeTrue = Ok (vs, ds, st) ->
  exists ns Ts gs, consistent_tree surface_ops objs surfs me b n reps (t_tree st) ns Ts g gs (t_g st) /\
    Forall2 same_surface surfs (t_surfs st) /\ length (t_tree st) <= reps + 1 /\
    b_vert (t_bund st) = Some vs /\ b_dir (t_bund st) = Some ds /\
    traceable (t_bund st) (length vs) /\
    (1 <= reps -> strong_bundle me (t_bund st)) /\
    (length (t_tree st) = reps + 1 -> forall lvl, nth_error (t_tree st) reps = Some lvl ->
       length vs = ns reps /\ rays_picked lvl (seq 0 (ns reps)) (t_bund st)) /\
    (length (t_tree st) < reps + 1 -> vs = []) /\
    (forall L prev lvl,
       nth_error (t_tree st) L = Some prev -> nth_error (t_tree st) (L + 1) = Some lvl ->
       no_ties (Ts L) (length surfs) (ns L) ->
       forall j e, j < ns L -> energy_at prev j = Some e -> (0 <= e)%R -> (energy_from lvl j <= e)%R) /\
    (forall L lvl, nth_error (t_tree st) (L + 1) = Some lvl -> all_rays lib_ray lvl).
Proof.
  intros (Ht & Ha) H. destruct (canon_of _ _ _ _ _ _ _ H) as (st1 & H1 & (R1 & R2 & R3 & R4 & R5 & R6 & R7)).
  destruct (canon_surfs surfs (proj1 (proj2 HA))) as (Hg & Hsm).
  destruct (trace_tree canon_ops lib_ray canon_good canon_contract objs (proj1 HA) me csurfs g b n reps vs ds st1
              Ht Ha Hg canon_len H1) as (ns & Ts & gs & C & Es & A1 & A2 & A3 & A4 & A5 & A6 & A7 & A8 & A9).
  rewrite R2, R3, R6 in *. exists ns, Ts, gs. split.
  { eapply consistent_sim; [apply same_sim; [left|right]; reflexivity|exact Hsm|exact C]. }
  split. { apply canon_back. rewrite Es in R1. exact R1. }
  do 7 (split; auto).
  split; auto. intros L prev lvl Hp Hl Hn. unfold csurfs in A8. rewrite map_length in A8. apply (A8 canon_no_energy L prev lvl Hp Hl Hn).
Qed.

Lemma library_surfs g b n reps ta vs ds st : library_source b n ->
  ray_tracer surface_ops objs surfs g b reps me ta = Ok (vs, ds, st) -> ta <> TreeTruthy ->
  Forall2 same_surface surfs (t_surfs st).
Proof.
  intros Hs H Hta. destruct ta; [|congruence|].
  - destruct (library_trace g b n reps vs ds st Hs H) as (ns & Ts & gs & _ & F & _). exact F.
  - destruct Hs as (Ht & Ha).
    destruct (canon_of _ _ _ _ _ _ _ H) as (st1 & H1 & (R1 & R2 & R3 & R4 & R5 & R6 & R7)).
    destruct (canon_surfs surfs (proj1 (proj2 HA))) as (Hg & Hsm).
    destruct reps as [|reps].
    { rewrite (false_unbound _ _ _ _ _ b n) in H by apply Ht. discriminate. }
    destruct (false_true canon_ops lib_ray canon_good canon_contract objs (proj1 HA) me csurfs g b n _ vs ds st1
      Ht Ha Hg canon_len H1) as (st2 & H2).
    destruct (true_false canon_ops lib_ray canon_good canon_contract objs (proj1 HA) me csurfs g b n (Datatypes.S reps) vs ds st2
      Ht Ha Hg canon_len ltac:(lia) H2) as (st3 & rc & m & H3 & _ & _ & E3 & _).
    assert (st3 = st1) by congruence. subst st3.
    destruct (trace_tree canon_ops lib_ray canon_good canon_contract objs (proj1 HA) me csurfs g b n _ vs ds st2
              Ht Ha Hg canon_len H2) as (ns & Ts & gs & _ & Es & _).
    apply canon_back. rewrite E3, Es in R1. exact R1.
Qed.
End Library.

(** ** Picking from picked rays *)
Lemma picks_trans {A} (l : list A) idx l' idx' l'' idx'' :
  picks l idx l' -> picks l' idx' l'' -> picks idx idx' idx'' -> picks l idx'' l''.
Proof.
  unfold picks. rewrite !Forall2_nth. intros (L1 & H1) (L2 & H2) (L3 & H3). split; [congruence|].
  intros k i x Hi Hx.
  destruct (nth_error idx' k) as [i'|] eqn:E'.
  - rewrite <- (H2 k i' x E' Hx). pose proof (H3 k i' i E' Hi) as H4.
    destruct (nth_error l' i') as [y|] eqn:Ey.
    + exact (H1 i' i y H4 Ey).
    + exfalso. apply nth_error_None in Ey. assert (i' < length idx) by (apply nth_error_Some; congruence). lia.
  - apply nth_error_None in E'. assert (k < length idx'') by (apply nth_error_Some; congruence). lia.
Qed.
Lemma picks_seq n idx : (forall i, In i idx -> i < n) -> picks (seq 0 n) idx idx.
Proof.
  intros H. unfold picks. rewrite Forall2_nth. split; auto. intros k i x Hi Hx.
  assert (x = i) by congruence. subst x. assert (i < n) by (apply H; eapply nth_error_In; eauto).
  rewrite nth_error_nth' with (d := 0) by (rewrite seq_length; auto). rewrite seq_nth by auto. auto.
Qed.
Lemma picked_from_seq b n b1 idx b2 : (forall i, In i idx -> i < n) ->
  rays_picked b (seq 0 n) b1 -> rays_picked b1 idx b2 -> rays_picked b idx b2.
Proof.
  intros Hi H1 H2 p. specialize (H1 p). specialize (H2 p). destruct (prop b p) as [l|].
  - destruct H1 as (l1 & E1 & P1). rewrite E1 in H2. destruct H2 as (l2 & E2 & P2).
    exists l2. split; auto. eapply picks_trans; eauto. apply picks_seq; auto.
  - rewrite H1 in H2. auto.
Qed.

Lemma asked_in T n i j : In j (asked T n i) <-> j < n /\ T i j <> None.
Proof.
  unfold asked. rewrite filter_In, in_seq.
  destruct (T i j); split; intros H; intuition (try lia; try congruence).
Qed.

Lemma reported_hit surfs prev ns T tb i j s t : reported surface_ops surfs prev ns T tb ->
  nth_error surfs i = Some s -> T i j = Some (Fin t) -> reports_hit s prev j t.
Proof.
  intros (Ht & Hp & Hr & Ha) Hs HT. destruct (Hr i j) as (_ & Hj); [congruence|].
  assert (Hin : In j (asked T ns i)) by (apply asked_in; split; auto; congruence).
  destruct (Ha i s Hs) as (s' & [(E & _)|(_ & sub & ps & Hn & Hsub & Hreg & HF)]).
  { rewrite E in Hin. destruct Hin. }
  destruct (In_nth_error _ _ Hin) as (q & Hq). rewrite Forall2_nth in HF. destruct HF as (L & HF).
  destruct (nth_error ps q) as [x|] eqn:Ex.
  2:{ apply nth_error_None in Ex. assert (q < length (asked T ns i)) by (apply nth_error_Some; congruence). lia. }
  exists sub, (asked T ns i), q, s', ps. split.
  { eapply picked_from_seq; [|exact Hp|exact Hsub]. intros k Hk. apply asked_in in Hk. tauto. }
  split; auto. split; [exact Hreg|]. rewrite Ex. rewrite (HF q j x Hq Ex) in HT. congruence.
Qed.

Lemma nth_lt {A} (l : list A) i : i < length l -> exists x, nth_error l i = Some x.
Proof. intros H. destruct (nth_error l i) eqn:E; eauto. apply nth_error_None in E. lia. Qed.

Lemma never_ties_no_ties surfs prev ns T tb : reported surface_ops surfs prev ns T tb ->
  never_ties surfs prev -> no_ties T (length surfs) ns.
Proof.
  intros Hr Hn i i' j t t' (A1 & A2 & A3 & A4 & A5) (B1 & B2 & B3 & B4 & B5).
  assert (t = t').
  { pose proof (A5 i' B1) as H1. rewrite B3 in H1. pose proof (B5 i A1) as H2. rewrite A3 in H2.
    destruct H1 as [H1|H1]; [contradiction|]. destruct H2 as [H2|H2]; [contradiction|]. lra. }
  subst t'. destruct (nth_lt surfs i A1) as (s & Es). destruct (nth_lt surfs i' B1) as (s' & Es').
  apply (Hn i i' s s' j t Es Es'); eapply reported_hit; eauto.
Qed.

(** ** Prefixes of a trace *)
Section Prefix.
Context {S G : Type}.
Variables (ops : surf_ops S G) (objs : list obj) (me : R) (ta : tree_arg).

Lemma iteration_go st st' go : iteration ops objs me ta st = Ok (st', go) ->
  exists n, get_num_rays (t_bund st') = Ok n /\ go = negb (Nat.eqb n 0).
Proof.
  intros H. unfold iteration in H.
  apply bind_ok in H. destruct H as ([[ss fr] ow] & _ & H).
  apply bind_ok in H. destruct H as ([[ss2 g2] bl] & _ & H).
  apply bind_ok in H. destruct H as (bund & _ & H). apply bind_ok in H. destruct H as (tr & _ & H).
  apply bind_ok in H. destruct H as (n & En & H).
  exists n. destruct (Nat.eqb n 0); injection H as <- <-; cbn [t_bund]; auto.
Qed.

Lemma iterate_plus a : forall c st st2, iterate ops objs me ta (a + c) st = Ok st2 ->
  exists st1, iterate ops objs me ta a st = Ok st1 /\
    ((1 <= a /\ get_num_rays (t_bund st1) = Ok 0 /\ st2 = st1) \/ iterate ops objs me ta c st1 = Ok st2).
Proof.
  induction a as [|a IH]; intros c st st2 H; cbn [iterate Nat.add] in *.
  - eauto.
  - apply bind_ok in H. destruct H as ([st1 go] & E & H). rewrite E. cbn [bind]. destruct go.
    + destruct (IH c st1 st2 H) as (st3 & E3 & [(A & B & C)|B]); exists st3; split; auto.
    + injection H as <-. exists st1. split; auto. left. split; [lia|]. split; auto.
      destruct (iteration_go _ _ _ E) as (n & En & Eg). destruct n; [auto|discriminate].
Qed.

Lemma iterate_stops a : forall c st st1, 1 <= a -> iterate ops objs me ta a st = Ok st1 ->
  get_num_rays (t_bund st1) = Ok 0 -> iterate ops objs me ta (a + c) st = Ok st1.
Proof.
  induction a as [|a IH]; intros c st st1 Ha H H0; [lia|]. cbn [iterate Nat.add] in *.
  apply bind_ok in H. destruct H as ([st2 go] & E & H). rewrite E. cbn [bind].
  destruct (iteration_go _ _ _ E) as (n & En & Eg). destruct go; [|auto].
  destruct a as [|a].
  - cbn [iterate] in H. injection H as <-. rewrite En in H0. injection H0 as ->. discriminate.
  - apply IH; auto. lia.
Qed.

Lemma iteration_tree st st' go : iteration ops objs me ta st = Ok (st', go) -> exists x, t_tree st' = t_tree st ++ x.
Proof.
  intros H. unfold iteration in H.
  apply bind_ok in H. destruct H as ([[ss fr] ow] & _ & H).
  apply bind_ok in H. destruct H as ([[ss2 g2] bl] & _ & H).
  apply bind_ok in H. destruct H as (bund & _ & H). apply bind_ok in H. destruct H as (tr & Et & H).
  apply bind_ok in H. destruct H as (n & En & H).
  assert (exists x, tr = t_tree st ++ x) as (x & ->).
  { destruct ta.
    1,2: apply bind_ok in Et; destruct Et as (rc & _ & Et); apply bind_ok in Et; destruct Et as (k & _ & Et);
      destruct (Nat.eqb k 0); [injection Et as <-; exists []; rewrite app_nil_r; auto|];
      apply bind_ok in Et; destruct Et as (w & _ & Et); injection Et as <-; unfold append; eauto.
    injection Et as <-. exists []. rewrite app_nil_r. auto. }
  exists x. destruct (Nat.eqb n 0); injection H as <- <-; reflexivity.
Qed.
Lemma iterate_tree a : forall st st', iterate ops objs me ta a st = Ok st' -> exists x, t_tree st' = t_tree st ++ x.
Proof.
  induction a as [|a IH]; intros st st' H; cbn [iterate] in H.
  - injection H as <-. exists []. rewrite app_nil_r. auto.
  - apply bind_ok in H. destruct H as ([st1 go] & E & H). destruct (iteration_tree _ _ _ E) as (x & Ex). destruct go.
    + destruct (IH _ _ H) as (y & ->). rewrite Ex, <- app_assoc. eauto.
    + injection H as <-. eauto.
Qed.
End Prefix.

Section Library2.
Variables (objs : list obj) (surfs : list surface) (me : R).
Hypothesis HA : library_assembly objs surfs.

(** Stopping. *)
Lemma trace_stops g b a c vs ds st : 1 <= a ->
  ray_tracer surface_ops objs surfs g b a me TreeTrue = Ok (vs, ds, st) -> vs = [] ->
  ray_tracer surface_ops objs surfs g b (a + c) me TreeTrue = Ok (vs, ds, st).
Proof.
  intros Ha H Hv. unfold ray_tracer in *. apply bind_ok in H. destruct H as (st0 & E0 & H).
  apply bind_ok in H. destruct H as (st1 & E1 & H). rewrite E0. cbn [bind] in *.
  rewrite (iterate_stops _ _ _ _ a c st0 st1 Ha E1); [exact H|].
  apply bind_ok in H. destruct H as (v & Ev & H). apply bind_ok in H. destruct H as (d & Ed & H).
  injection H as -> -> ->. unfold get_num_rays. unfold get_vertices, get_prop in Ev.
  destruct (b_vert (t_bund st)) as [l|]; [|discriminate]. cbn [select] in Ev. injection Ev as ->. subst vs. auto.
Qed.

(** The start of a trace is the trace with fewer repetitions. *)
Lemma trace_prefix g b n a c vs ds st : library_source b n ->
  ray_tracer surface_ops objs surfs g b (a + c) me TreeTrue = Ok (vs, ds, st) ->
  exists vs1 ds1 st1 x, ray_tracer surface_ops objs surfs g b a me TreeTrue = Ok (vs1, ds1, st1) /\
    t_tree st = t_tree st1 ++ x.
Proof.
  intros Hb H. destruct (canon_of objs surfs me HA _ _ _ _ _ _ _ H) as (st2 & H2 & R2).
  assert (K : exists vs1 ds1 st1 x, ray_tracer canon_ops objs (map canon_done surfs) g b a me TreeTrue = Ok (vs1, ds1, st1) /\
    t_tree st2 = t_tree st1 ++ x).
  { clear R2 H. unfold ray_tracer in *. apply bind_ok in H2. destruct H2 as (st0 & E0 & H).
    apply bind_ok in H. destruct H as (st3 & E1 & H). rewrite E0. cbn [bind] in *.
    assert (st3 = st2) as ->.
    { apply bind_ok in H. destruct H as (v & Ev & H). apply bind_ok in H. destruct H as (d & Ed & H). congruence. }
    destruct (iterate_plus _ _ _ _ a c st0 st2 E1) as (st1 & E2 & Hx). rewrite E2. cbn [bind].
    assert (Hx' : exists x, t_tree st2 = t_tree st1 ++ x).
    { destruct Hx as [(_ & _ & ->)|Hx]; [exists []; rewrite app_nil_r; auto|]. eapply iterate_tree; eauto. }
    clear Hx H. destruct Hx' as (x & Hx).
    assert (exists m, traceable (t_bund st1) m) as (m & Hm).
    { unfold start in E0. apply bind_ok in E0. destruct E0 as (k & Ek & E0). injection E0 as <-.
      destruct (canon_surfs surfs (proj1 (proj2 HA))) as (Hg & Hsm).
      edestruct (iterate_run canon_ops lib_ray canon_good canon_contract objs (proj1 HA) me TreeTrue a) with (st' := st1) (n := n)
        as (es & Hrun & _); [| | | |exact E2|];
        [exact (proj1 Hb)|exact (proj2 Hb)|exact Hg|exact (canon_len objs surfs HA)|].
      destruct (run_final _ _ _ _ _ _ _ _ _ _ Hrun) as [(_ & ->)|(q & e & Hne & Hq & Eq & ->)].
      - exists n. exact (proj1 Hb).
      - destruct (run_entries _ _ _ _ _ _ _ _ _ _ Hrun q e Eq) as (Hok & _). eexists.
        exact (it_bund_ok _ _ _ _ _ _ _ _ _ _ _ _ _ _ Hok). }
    destruct Hm as (_ & ((v & Hv) & _) & Hd & _). unfold get_vertices, get_directions.
    assert (exists v', b_vert (t_bund st1) = Some v') as (v' & ->).
    { cbn [prop] in Hv. destruct (b_vert (t_bund st1)); [eauto|discriminate]. }
    destruct (b_dir (t_bund st1)) as [d'|]; [|congruence]. cbn. eexists _, _, _, x. split; [reflexivity|auto]. }
  destruct K as (vs1 & ds1 & st1 & x & K & Ex).
  destruct (lib_of objs surfs me HA _ _ _ _ _ _ _ K) as (st1' & K' & R1).
  exists vs1, ds1, st1', x. split; auto.
  destruct R1 as (_ & _ & _ & _ & _ & <- & _). destruct R2 as (_ & _ & _ & _ & _ & <- & _). exact Ex.
Qed.

(** [tree=False]. *)
Lemma library_false g b n reps vs ds st : library_source b n -> 1 <= reps ->
  ray_tracer surface_ops objs surfs g b reps me TreeTrue = Ok (vs, ds, st) ->
  exists st' rc m, ray_tracer surface_ops objs surfs g b reps me TreeFalse = Ok (vs, ds, st') /\
    t_tree st' = [rc] /\ traceable rc m /\
    (m = 0 \/ exists before lvl idx, t_tree st = before ++ [lvl] /\ before <> [] /\
       rays_picked rc idx lvl /\ Permutation idx (seq 0 m)).
Proof.
  intros (Ht & Ha) Hr H. destruct (canon_of objs surfs me HA _ _ _ _ _ _ _ H) as (st1 & H1 & R1).
  destruct (canon_surfs surfs (proj1 (proj2 HA))) as (Hg & Hsm).
  destruct (true_false canon_ops lib_ray canon_good canon_contract objs (proj1 HA) me _ g b n reps vs ds st1
      Ht Ha Hg (canon_len objs surfs HA) Hr H1) as (st3 & rc & m & H3 & Et & Tr & _ & Hm).
  destruct (lib_of objs surfs me HA _ _ _ _ _ _ _ H3) as (st' & H4 & R4).
  exists st', rc, m. split; auto. 
  destruct R1 as (_ & _ & _ & _ & _ & E1 & _). destruct R4 as (_ & _ & _ & _ & _ & E4 & _).
  rewrite <- E1, <- E4. auto.
Qed.
Lemma library_true g b n reps vs ds st : library_source b n ->
  ray_tracer surface_ops objs surfs g b reps me TreeFalse = Ok (vs, ds, st) ->
  exists st', ray_tracer surface_ops objs surfs g b reps me TreeTrue = Ok (vs, ds, st').
Proof.
  intros (Ht & Ha) H. destruct (canon_of objs surfs me HA _ _ _ _ _ _ _ H) as (st1 & H1 & R1).
  destruct (canon_surfs surfs (proj1 (proj2 HA))) as (Hg & Hsm).
  destruct (false_true canon_ops lib_ray canon_good canon_contract objs (proj1 HA) me _ g b n reps vs ds st1
      Ht Ha Hg (canon_len objs surfs HA) H1) as (st3 & H3).
  destruct (lib_of objs surfs me HA _ _ _ _ _ _ _ H3) as (st' & H4 & R4). eauto.
Qed.

(** Tracing again. *)
Lemma trace_again_same g ss2 b reps ta vs ds st : Forall2 same_surface surfs ss2 ->
  ray_tracer surface_ops objs surfs g b reps me ta = Ok (vs, ds, st) ->
  exists st', ray_tracer surface_ops objs ss2 g b reps me ta = Ok (vs, ds, st') /\
    t_tree st' = t_tree st /\ t_g st' = t_g st /\ Forall2 same_surface (t_surfs st) (t_surfs st').
Proof.
  intros Hf H. pose proof (ray_tracer_sim _ _ _ (same_sim surface_ops surface_ops (or_intror eq_refl) (or_intror eq_refl))
    objs me surfs ss2 g b reps ta Hf) as R. rewrite H in R.
  destruct (ray_tracer surface_ops objs ss2 g b reps me ta) as [[[v d] st']|]; cbn [rel_res] in R; [|destruct R].
  destruct R as (E & (R1 & R2 & R3 & R4 & R5 & R6 & R7)). cbn [fst snd] in *. injection E as <- <-.
  exists st'. auto.
Qed.
End Library2.

Lemma library_deterministic : deterministic surface_ops (fun s => not_random (s_opt s)).
Proof.
  repeat split.
  - intros s b s' ps Hs H. apply bind_ok in H. destruct H as ([gs q] & _ & H). injection H as <- <-. exact Hs.
  - intros s idx s' Hs H. apply bind_ok in H. destruct H as (gs & _ & H). injection H as <-. exact Hs.
  - intros s Hs. exact Hs.
  - intros s g g' Hs. cbn [get_outgoing surface_ops]. unfold surf_outgoing.
    destruct (s_bundle s) as [b|]; [|reflexivity]. destruct (s_selected s) as [sel|]; [|reflexivity].
    assert (Ha : forall o gg gg', not_random (Absorbing o) ->
      match call_absorbing o (s_gstate s) b sel gg, call_absorbing o (s_gstate s) b sel gg' with
      | Ok (r, _), Ok (r', _) => r = r' | Err e, Err e' => e = e' | _, _ => False end).
    { intros o gg gg' Ho. destruct o; cbn [not_random call_absorbing] in *; [| |contradiction].
      - destruct (call_reflective _ _ _ _); cbn; auto.
      - destruct (call_absorber _ _ _ _); cbn; auto. }
    destruct (s_opt s) as [o|id o|i1 i2]; cbn [call_optics] in *.
    + specialize (Ha o (g_rng g) (g_rng g') Hs).
      destruct (call_absorbing o (s_gstate s) b sel (g_rng g)) as [[r rg]|];
      destruct (call_absorbing o (s_gstate s) b sel (g_rng g')) as [[r' rg']|]; cbn in *; auto.
    + specialize (Ha o (g_rng g) (g_rng g') Hs). unfold record_hits.
      destruct (get_energy b) as [es|]; cbn [bind]; auto. destruct (take es sel) as [es'|]; cbn [bind]; auto.
      destruct (get_points (s_gstate s)) as [pts|]; cbn [bind]; auto.
      destruct (call_absorbing o (s_gstate s) b sel (g_rng g)) as [[r rg]|];
      destruct (call_absorbing o (s_gstate s) b sel (g_rng g')) as [[r' rg']|]; cbn in *; auto.
    + destruct (call_refractive i1 i2 (s_gstate s) b sel); cbn; auto.
Qed.

Lemma trace_again objs surfs me g g' b n reps ta vs ds st :
  library_assembly objs surfs -> library_source b n -> ta <> TreeTruthy ->
  ray_tracer surface_ops objs surfs g b reps me ta = Ok (vs, ds, st) ->
  (g' = g \/ forall s, In s surfs -> not_random (s_opt s)) ->
  exists st', ray_tracer surface_ops objs (t_surfs st) g' b reps me ta = Ok (vs, ds, st') /\
    t_tree st' = t_tree st.
Proof.
  intros HA Hb Hta H Hg. pose proof (library_surfs objs surfs me HA g b n reps ta vs ds st Hb H Hta) as Hf.
  destruct Hg as [->|Hd].
  - destruct (trace_again_same objs surfs me g (t_surfs st) b reps ta vs ds st Hf H) as (st' & H' & Et & _). eauto.
  - edestruct (ray_tracer_g surface_ops _ library_deterministic objs me surfs g g') as (g2 & H2); [|exact H|].
    { apply Forall_forall. exact Hd. }
    destruct (trace_again_same objs surfs me g' (t_surfs st) b reps ta vs ds _ Hf H2) as (st' & H' & Et & _). eauto.
Qed.
