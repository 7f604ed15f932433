(** The trace with identities of arrays. *)
From Coq Require Import Reals String List Arith ZArith Bool Lia Lra.
From Verif.Base Require Import Py Num Vec.
From Verif.Model Require Import RayBundle BundleHeap TraceTree Geometry Spatial Sources Optics
  OpticsCallables Engine Surface HeapTrace.
From Verif.Proof Require Import HeapProof HeapShare HeapOptics.
From Verif.Spec Require Import HeapSpec HeapTraceSpec.
Import ListNotations.
Local Open Scope R_scope.

(** ** Surfaces *)

Record surf_ok (h : heap) (q : hsurf) (s : surface) : Prop := mkSok {
  so_geom : q_geom q = s_geom s;
  so_opt : q_opt q = s_opt s;
  so_frame : q_frame q = s_frame s;
  so_gstate : q_gstate q = s_gstate s;
  so_bundle : match q_bundle q, s_bundle s with
              | Some o, Some b => obj_ok 0 h o b /\ with_bundle (q_gstate q) b = q_gstate q
              | None, None => True
              | _, _ => False
              end;
  so_selected : slot_ok KIdx 0 h (q_selected q) (s_selected s) }.
Lemma surf_mono h h' q s : untouched h h' -> surf_ok h q s -> surf_ok h' q s.
Proof.
  intros U [A B C D E F]. constructor; auto; [|now apply (slot_mono _ _ h)].
  destruct (q_bundle q), (s_bundle s); auto. destruct E as [E1 E2]. split; [now apply (obj_mono _ h)|exact E2].
Qed.
Lemma surfs_mono h h' qs ss : untouched h h' -> Forall2 (surf_ok h) qs ss -> Forall2 (surf_ok h') qs ss.
Proof. intros U F. induction F; constructor; auto. now apply (surf_mono h). Qed.
Lemma ready_ok h q s : ready h q s -> surf_ok h q s.
Proof.
  intros (A & B & C & D & E & F & G & X). constructor; auto; [congruence|now rewrite F, G|].
  destruct (q_selected q), (s_selected s); auto. destruct X. repeat split; [lia|assumption|assumption].
Qed.
Lemma ready_mono h h' q s : untouched h h' -> ready h q s -> ready h' q s.
Proof.
  intros (U & _ & V & _) (A & B & C & D & E & F & G & X). repeat split; auto.
  destruct (q_selected q), (s_selected s); auto. destruct X as [X Y]. split; [lia|]. rewrite V; auto.
Qed.
Lemma readys_mono h h' qs ss : untouched h h' -> Forall2 (ready h) qs ss -> Forall2 (ready h') qs ss.
Proof. intros U F. induction F; constructor; auto. now apply (ready_mono h). Qed.

Lemma done_ready h q s : surf_ok h q s -> ready h (h_done q) (surf_done s).
Proof.
  intros [A B C D E F]. unfold h_done, surf_done, done_geom. repeat split; auto. cbn.
  destruct (q_selected q), (s_selected s); auto. now destruct F as (_ & X & Y).
Qed.

Lemma find_bundle gm fr b gs ps : find_intersections gm fr b = Ok (gs, ps) -> with_bundle gs b = gs.
Proof.
  unfold find_intersections. destruct gm; try discriminate;
  (destruct (get_directions b) as [ds|]; [|discriminate]; cbn [bind];
   destruct (get_vertices b) as [vs|]; [|discriminate]; cbn [bind];
   destruct (negb (same_len ds vs)); [discriminate|]);
  repeat match goal with
  | |- context [let '(_, _) := ?x in _] => destruct x
  | |- context [bind ?x _] => destruct x as [[? ?]|] || destruct x; cbn [bind]
  end; try discriminate; intros X; injection X as <- <-; reflexivity.
Qed.
Lemma select_points gm gs idx gs' : select_geom gm gs idx = Ok gs' -> exists l, get_points gs' = Ok l.
Proof.
  unfold select_geom. destruct gs as [|fr b [ps back|glob back|verts]|? ? ? ? ?|? ? ? ? ?]; try discriminate;
  repeat match goal with
  | |- context [bind ?x _] => destruct x; cbn [bind]; try discriminate
  end; intros X; injection X as <-; cbn; eauto.
Qed.

Lemma register_ok h q s o b : obj_ok 0 h o b -> surf_ok h q s ->
  agrees h (h_register q o) (surf_register s b)
    (fun h' r r' => surf_ok h' (fst r) (fst r') /\ snd r = snd r').
Proof.
  intros O [A B C D E F]. unfold h_register, surf_register. apply agrees_read.
  rewrite (obj_contents 0 h o b O), A, C.
  destruct (find_intersections (s_geom s) (s_frame s) b) as [[gs ps]|e] eqn:X; cbn.
  - split; [apply untouched_refl|]. split; [|reflexivity]. constructor; cbn; auto.
    split; [exact O|]. now apply (find_bundle _ _ _ _ _ X).
  - now split; [apply untouched_refl|].
Qed.

(** ** Testing the surfaces *)

Lemma test_surface_ok h o b n ray_own q s so rel : obj_ok 0 h o b -> surf_ok h q s ->
  agrees h (h_test_surface o n ray_own q so rel) (test_surface surface_ops b n ray_own s so rel)
    (fun h' r r' => surf_ok h' (fst (fst r)) (fst (fst r')) /\ snd (fst r) = snd (fst r') /\ snd r = snd r').
Proof.
  intros O S. pose proof (untouched_refl h) as U. unfold h_test_surface, test_surface. rewrite <- after_agrees.
  apply after_if; intros _; [now apply after_err|].
  apply after_if; intros _; [now apply after_ret|].
  eapply (step_bind _ _ _ _ (fun h' o' v' => obj_ok 0 h' o' v')); [exact U| |].
  - destruct (any _).
    + rewrite <- after_agrees. eapply after_weaken; [apply (inherit_after 0); [lia|exact U|exact O|apply no_slots_ok|discriminate]|].
      now intros h' o' v' _ (_ & [_ A] & _).
    + now split.
  - intros h1 o1 v1 U1 _ O1. cbn [register_incoming surface_ops].
    eapply step_bind; [exact U1|apply register_ok; [exact O1|now apply (surf_mono h)]|].
    intros h2 [q' ps] [s' ps'] U2 T2 [S' E]. cbn in S', E. subst ps'.
    apply after_if; intros _; [now apply after_ret|now apply after_err].
Qed.

Lemma test_surfaces_ok o b n ray_own : forall qs ss sown rel h, obj_ok 0 h o b -> Forall2 (surf_ok h) qs ss ->
  agrees h (h_test_surfaces o n ray_own qs sown rel) (test_surfaces surface_ops b n ray_own ss sown rel)
    (fun h' r r' => Forall2 (surf_ok h') (fst (fst r)) (fst (fst r')) /\
       snd (fst r) = snd (fst r') /\ snd r = snd r').
Proof.
  induction qs as [|q qs IH]; intros ss sown rel h O F; inversion F as [|? s ? ss' S F']; subst.
  - now split; [apply untouched_refl|].
  - cbn [h_test_surfaces test_surfaces]. rewrite <- after_agrees. pose proof (untouched_refl h) as U.
    destruct sown as [|so sown]; [now apply after_err|]. destruct rel as [|r rel]; [now apply after_err|].
    eapply step_bind; [exact U|now apply test_surface_ok|].
    intros h1 [[q' row] owned] [[s' row'] owned'] U1 T1 (A & B & C). cbn in A, B, C. subst row' owned'.
    eapply step_bind; [exact T1|apply IH; [now apply (obj_mono _ h)|now apply (surfs_mono h)]|].
    intros h2 [[qs' rows] ows] [[ss2 rows'] ows'] U2 T2 (A2 & B2 & C2). cbn in A2, B2, C2. subst rows' ows'.
    apply after_ret; [exact T2|]. cbn. split; [|now split]. constructor; [now apply (surf_mono h1)|exact A2].
Qed.

Lemma intersect_ok h o b qs ss sown ray_own rel : obj_ok 0 h o b -> Forall2 (surf_ok h) qs ss ->
  agrees h (h_intersect_ray o qs sown ray_own rel) (intersect_ray surface_ops b ss sown ray_own rel)
    (fun h' r r' => Forall2 (surf_ok h') (fst (fst r)) (fst (fst r')) /\
       snd (fst r) = snd (fst r') /\ snd r = snd r').
Proof.
  intros O F. pose proof (untouched_refl h) as U. unfold h_intersect_ray, intersect_ray. rewrite <- after_agrees.
  eapply step_bind; [exact U|now apply num_rays_ok|]. intros h1 n n' U1 T1 ->.
  eapply step_bind; [exact T1|apply test_surfaces_ok; [now apply (obj_mono _ h)|now apply (surfs_mono h)]|].
  intros h2 [[qs' rows] ows] [[ss2 rows'] ows'] U2 T2 (A2 & B2 & C2). cbn in A2, B2, C2. subst rows' ows'.
  apply after_if; intros _; [now apply after_err|].
  apply after_lift; [exact T2|]. intros mins _. now apply after_ret.
Qed.

(** ** One surface of an iteration *)

(** Setting the parents of a bundle made since [h0]. *)
Lemma set_parents_ok lo h0 h o v a l : untouched h0 h -> (h_onext h0 <= o)%nat -> obj_ok lo h o v ->
  arr_ok KIdx lo h a l ->
  let '(h', r) := set_p PParents a o h in
  r = Ok tt /\ untouched h0 h' /\ obj_ok lo h' o (set_parents l v) /\
  (forall k x, rd k h' x = rd k h x) /\ h_next h' = h_next h /\ h_onext h' = h_onext h.
Proof.
  intros (U1 & U2 & U3 & U4) L [O B] A. unfold set_p, hbind, hread. cbn [slot]. unfold put_obj.
  split; [reflexivity|]. split.
  { split; [exact U1|]. split; [exact U2|]. split; [intros k x X; rewrite <- (U3 k x X); now destruct k|].
    intros x X. cbn. unfold hupd. destruct (Nat.eqb_spec x o); [lia|now apply U4]. }
  split; [|split; [now intros []|now split]].
  split; [exact O|]. cbn. unfold hupd. rewrite Nat.eqb_refl. destruct B as [B1 B2 B3 B4 B5 B6].
  assert (K : forall k s w, slot_ok k lo h s w -> slot_ok k lo (mkH (h_vec h) (h_num h) (h_idx h) (h_cell h) (h_next h)
     (hupd (h_obj h) o (set_slot PParents a (h_obj h o))) (h_onext h)) s w).
  { intros k [x|] [w|]; cbn; auto. }
  constructor; cbn.
  - exact (K KVec _ _ B1).
  - exact (K KVec _ _ B2).
  - exact (K KNum _ _ B3).
  - exact (K KIdx (Some a) (Some l) A).
  - exact (K KNum _ _ B5).
  - clear - B6 K. induction B6 as [|x y xs ys [F1 F2] F IH]; constructor; [|exact IH].
    split; [exact F1|]. exact (K KCell _ _ F2).
Qed.

Definition block_ok (h : heap) (k : hblock) (vk : block) : Prop :=
  obj_ok 0 h (hk_strong k) (k_strong vk) /\ obj_ok 0 h (hk_rec k) (k_rec vk) /\
  hk_weak k = k_weak vk /\ hk_own k = k_own vk /\ hk_rel k = k_rel vk.
Lemma block_mono h h' k vk : untouched h h' -> block_ok h k vk -> block_ok h' k vk.
Proof. intros U (A & B & C). split; [now apply (obj_mono _ h)|]. split; [now apply (obj_mono _ h)|exact C]. Qed.
Definition oblock_ok (h : heap) (k : option hblock) (vk : option block) : Prop :=
  match k, vk with Some k, Some vk => block_ok h k vk | None, None => True | _, _ => False end.

Lemma select_ok lo h q s sel idx : surf_ok h q s -> (lo <= h_next h)%nat -> arr_ok KIdx lo h sel idx ->
  agrees h (h_select q sel) (surf_select s idx)
    (fun h' q1 s1 => surf_ok h' q1 s1 /\
       forall g vg, shared_ok h' g vg ->
       after h' h' (h_outgoing q1 g) (surf_outgoing s1 vg)
         (fun h'' r r' => sent lo h' h'' (fst r) (fst r') /\ shared_ok h'' (snd r) (snd r') /\
            forall id, grows lo (hg_acc g id) (hg_acc (snd r) id))).
Proof.
  intros [A B C D E F] Lo P. unfold h_select, surf_select. apply agrees_read. apply agrees_read.
  pose proof P as (P1 & P2 & P3). rewrite P3.
  assert (G : match q_bundle q with Some o => with_bundle (q_gstate q) (contents h o) | None => q_gstate q end = s_gstate s).
  { destruct (q_bundle q) as [o|], (s_bundle s) as [b|]; try contradiction; [|exact D].
    destruct E as [E1 E2]. rewrite (obj_contents 0 h o b E1). now rewrite E2. }
  rewrite G, A. rewrite <- after_agrees. pose proof (untouched_refl h) as U.
  apply after_lift; [exact U|]. intros gs X. destruct (select_points _ _ _ _ X) as [l L]. rewrite L.
  assert (W : forall b, with_bundle (s_gstate s) b = s_gstate s -> with_bundle gs b = gs).
  { intros b. clear - X. revert X. unfold select_geom.
    destruct (s_gstate s) as [|fr b0 [ps back|glob back|verts]|? ? ? ? ?|? ? ? ? ?]; try discriminate;
    repeat match goal with
    | |- context [bind ?x _] => destruct x; cbn [bind]; try discriminate
    end; intros X; injection X as <-; cbn; intros Y; injection Y as ->; reflexivity. }
  cbn [hlift hbind]. unfold hbind at 1. cbn [hlift].
  eapply step_extra; [exact U|apply (agrees_array KVec)|]. intros h1 a U1 T1 Pa.
  assert (S1 : surf_ok h1 (mkQ (s_geom s) (q_opt q) (q_frame q) gs (Some a) (q_bundle q) (Some sel))
                 (mkS (s_geom s) (s_opt s) (s_frame s) gs (s_bundle s) (Some idx))).
  { constructor; cbn; auto.
    - destruct (q_bundle q) as [o|], (s_bundle s) as [b|]; auto. destruct E as [E1 E2]. rewrite D in E2.
      split; [now apply (obj_mono _ h)|now apply W].
    - apply (arr_weaken KIdx lo); [lia|]. now apply (arr_mono _ _ h). }
  apply after_ret; [exact T1|]. split; [exact S1|].
  intros g vg Sh. unfold h_outgoing, surf_outgoing. cbn [q_bundle q_selected s_bundle s_selected q_opt s_opt s_gstate].
  destruct (q_bundle q) as [o|], (s_bundle s) as [b|]; try contradiction; [|now apply after_err, untouched_refl].
  rewrite B. apply optics_ok; [now apply (next_mono lo h)| |exact Sh].
  constructor; cbn; [reflexivity| | |].
  - exists l. split; [exact L|]. apply (arr_weaken KVec (h_next h)); assumption.
  - apply (obj_mono _ h); [exact U1|apply E].
  - now apply (arr_mono _ _ h).
Qed.

Lemma process_surface_ok objs me idx h q s g vg fr owned : surf_ok h q s -> shared_ok h g vg ->
  after h h (h_process_surface objs me idx q g fr owned) (process_surface surface_ops objs me idx s vg fr owned)
    (fun h' r r' => ready h' (fst (fst r)) (fst (fst r')) /\ shared_ok h' (snd (fst r)) (snd (fst r')) /\
       (forall id, grows (h_next h) (hg_acc g id) (hg_acc (snd (fst r)) id)) /\ oblock_ok h' (snd r) (snd r')).
Proof.
  intros S G. pose proof (untouched_refl h) as U. unfold h_process_surface, process_surface.
  cbn [done select_rays get_outgoing surface_ops].
  apply after_if; intros _.
  { apply after_ret; [exact U|]. split; [now apply done_ready|]. split; [exact G|].
    split; [intros id; apply grows_refl|exact I]. }
  eapply step_extra; [exact U|apply (agrees_array KIdx)|]. intros h1 sel U1 T1 Ps.
  eapply step_bind; [exact T1|apply (select_ok (h_next h)); [now apply (surf_mono h)|apply T1|exact Ps]|].
  intros h2 q1 s1 U2 T2 [S2 K2].
  eapply step_bind; [exact T2|apply K2; now apply (shared_mono h)|].
  intros h3 [o g1] [v vg1] U3 T3 ([A1 A2] & A3 & A4). cbn [fst snd] in A1, A2, A3, A4.
  unfold get_parents, get_energy.
  eapply (read_slot_ok _ _ PParents); [exact T3|reflexivity| |].
  { apply (slot_weaken _ (h_next h)); [lia|apply A2]. }
  intros ps _. apply after_lift; [exact T3|]. intros parents _.
  eapply step_extra; [exact T3|apply (agrees_array KIdx)|]. intros h4 pa U4 T4 Pp.
  assert (O4 : obj_ok (h_next h) h4 o v) by now apply (obj_mono _ h3).
  assert (Lo : (h_onext h <= o)%nat) by (destruct T2 as (_ & X & _); lia).
  assert (P4 : arr_ok KIdx (h_next h) h4 pa parents) by (apply (arr_weaken _ (h_next h3)); [apply T3|exact Pp]).
  pose proof (set_parents_ok (h_next h) h h4 o v pa parents T4 Lo O4 P4) as SP.
  unfold after. unfold hbind at 1. destruct (set_p PParents pa o h4) as [h5 r5].
  destruct SP as (-> & T5 & O5 & RD & NX & ON). cbn [bind].
  assert (V5 : forall k lo x l, arr_ok k lo h4 x l -> arr_ok k lo h5 x l).
  { intros k lo x l (X1 & X2 & X3). split; [exact X1|]. split; [now rewrite NX|]. now rewrite RD. }
  assert (G5 : shared_ok h5 g1 vg1).
  { destruct (shared_mono _ _ _ _ U4 A3) as [X Y]. split; [exact X|]. intros id. destruct (Y id) as [Y1 Y2].
    split; [clear - Y1 V5; induction Y1; constructor; auto|clear - Y2 V5; induction Y2; constructor; auto]. }
  assert (S5 : ready h5 (h_done q1) (surf_done s1)).
  { pose proof (done_ready _ _ _ (surf_mono _ _ _ _ (untouched_trans _ _ _ U3 U4) S2)) as Z.
    destruct Z as (Z1 & Z2 & Z3 & Z4 & Z5 & Z6 & Z7 & Z8). repeat split; auto.
    destruct (q_selected (h_done q1)), (s_selected (surf_done s1)); auto. now rewrite NX, RD. }
  match goal with |- let '(h', r) := ?m h5 in untouched h h' /\ match r with Ok a => match ?v with _ => _ end | Err _ => _ end =>
    change (after h h5 m v (fun h' r r' => ready h' (fst (fst r)) (fst (fst r')) /\ shared_ok h' (snd (fst r)) (snd (fst r')) /\
       (forall id, grows (h_next h) (hg_acc g id) (hg_acc (snd (fst r)) id)) /\ oblock_ok h' (snd r) (snd r'))) end.
  eapply (read_slot_ok _ _ PEnergy); [exact T5|reflexivity| |].
  { apply (slot_weaken _ (h_next h)); [lia|apply O5]. }
  intros e _. cbn zeta.
  eapply (step_bind _ _ _ _ (fun h' o' v' => obj_ok 0 h' o' v')); [exact T5| |].
  { destruct (any _).
    - eapply agrees_weaken; [apply delete_ok; apply (obj_weaken (h_next h)); [lia|exact O5]|].
      intros h' o' v' _ [_ X]. eapply obj_weaken; [|exact X]. lia.
    - split; [apply untouched_refl|]. apply (obj_weaken (h_next h)); [lia|exact O5]. }
  intros h6 strong vs U6 T6 O6.
  apply after_lift; [exact T6|]. intros obj_idx _.
  apply after_lift; [exact T6|]. intros ob _. apply after_read. rewrite (obj_contents _ _ _ _ O6).
  apply after_lift; [exact T6|]. intros owns _.
  eapply step_bind; [exact T6|now apply num_rays_ok|]. intros h7 n n' U7 T7 ->.
  apply after_lift; [exact T7|]. intros next _.
  apply after_lift; [exact T7|]. intros rel _.
  pose proof (untouched_trans _ _ _ U6 U7) as U57.
  apply after_ret; [exact T7|]. cbn [fst snd]. split; [now apply (ready_mono h5)|].
  split; [now apply (shared_mono h5)|]. split; [exact A4|].
  split; [now apply (obj_mono _ h6)|]. split; [|now repeat split].
  apply (obj_weaken (h_next h)); [lia|]. now apply (obj_mono _ h5).
Qed.

Lemma grows_trans lo lo' a b c : (lo <= lo')%nat -> grows lo a b -> grows lo' b c -> grows lo a c.
Proof. intros L A B x X. destruct (B x X) as [Y|Y]; [now apply A|right; lia]. Qed.

Lemma process_surfaces_ok objs me : forall qs ss idx h g vg frs owneds, Forall2 (surf_ok h) qs ss -> shared_ok h g vg ->
  after h h (h_process_surfaces objs me idx qs g frs owneds) (process_surfaces surface_ops objs me idx ss vg frs owneds)
    (fun h' r r' => Forall2 (ready h') (fst (fst r)) (fst (fst r')) /\ shared_ok h' (snd (fst r)) (snd (fst r')) /\
       (forall id, grows (h_next h) (hg_acc g id) (hg_acc (snd (fst r)) id)) /\
       Forall2 (block_ok h') (snd r) (snd r')).
Proof.
  induction qs as [|q qs IH]; intros ss idx h g vg frs owneds F G; inversion F as [|? s ? ss' S F']; subst;
    pose proof (untouched_refl h) as U; cbn [h_process_surfaces process_surfaces].
  - apply after_ret; [exact U|]. split; [constructor|]. split; [exact G|].
    split; [intros id; apply grows_refl|constructor].
  - destruct frs as [|f frs]; [now apply after_err|]. destruct owneds as [|ow owneds]; [now apply after_err|].
    eapply after_bind; [apply process_surface_ok; [exact S|exact G]|].
    intros h1 [[q' g1] k] [[s' vg1] vk] U1 (A1 & A2 & A3 & A4). cbn [fst snd] in *.
    eapply step_bind; [exact U1|apply IH; [now apply (surfs_mono h)|exact A2]|].
    intros h2 [[qs2 g2] ks] [[ss2 vg2] vks] U2 T2 (B1 & B2 & B3 & B4). cbn [fst snd] in *.
    apply after_ret; [exact T2|]. cbn [fst snd].
    split; [constructor; [now apply (ready_mono h1)|exact B1]|]. split; [exact B2|].
    split; [intros id; apply (grows_trans _ (h_next h1) _ (hg_acc g1 id)); [apply U1|apply A3|apply B3]|].
    destruct k, vk; try contradiction; [|exact B4]. constructor; [|exact B4]. now apply (block_mono h1).
Qed.

(** ** Iterations *)

Record st_ok (h : heap) (st : hstate) (vst : tstate surface shared) : Prop := mkStok {
  k_surfs : Forall2 (ready h) (ht_surfs st) (t_surfs vst);
  k_g : shared_ok h (ht_g st) (t_g vst);
  k_bund : obj_ok 0 h (ht_bund st) (t_bund vst);
  k_owns : ht_own st = t_own vst;
  k_rels : ht_rel st = t_rel vst;
  k_tree : Forall2 (obj_ok 0 h) (ht_tree st) (t_tree vst);
  k_record : match ht_record st, t_record vst with
             | Some l, Some l' => Forall2 (obj_ok 0 h) l l'
             | None, None => True
             | _, _ => False
             end }.

(** Nothing but the source is shared. *)
Record store (h0 : heap) (src : nat) (h : heap) (tree : list nat) (bund : nat) (g : hshared) : Prop := mkStore {
  r_own : forall o, In o tree -> o = src \/ own_arrays h0 h o;
  r_pairs : ForallOrdPairs (fun o o' => o <> o' /\ apart h o o') tree;
  r_acc : forall a, accounted g a -> (a < h_next h)%nat /\
    (forall o, In o tree -> o <> src -> ~ refers (h_obj h o) a) /\ (bund <> src -> ~ refers (h_obj h bund) a);
  r_bund : bund = src \/ (own_arrays h0 h bund /\ forall o, In o tree -> o <> bund /\ apart h o bund) }.

Lemma acc_bound h g vg a : shared_ok h g vg -> accounted g a -> (a < h_next h)%nat.
Proof.
  intros [_ S] [id I]. destruct (S id) as [A B]. apply in_app_iff in I. destruct I as [I|I].
  - clear B. induction A as [|x l xs ls X A IH]; [contradiction|]. destruct I as [->|I]; [apply X|auto].
  - clear A. induction B as [|x l xs ls X A IH]; [contradiction|]. destruct I as [->|I]; [apply X|auto].
Qed.
Lemma objs_in h os vs o : Forall2 (obj_ok 0 h) os vs -> In o os -> exists v, obj_ok 0 h o v.
Proof. intros F I. induction F as [|x v xs vs' X F IH]; [contradiction|]. destruct I as [->|I]; eauto. Qed.
Lemma pairs_snoc {A} (P : A -> A -> Prop) l x : ForallOrdPairs P l -> (forall y, In y l -> P y x) ->
  ForallOrdPairs P (l ++ [x]).
Proof.
  intros F K. induction F as [|y l Y F IH]; cbn; [constructor; constructor|].
  constructor; [|apply IH; intros z Z; apply K; now right].
  apply Forall_app. split; [exact Y|]. constructor; [|constructor]. apply K. now left.
Qed.
Lemma pairs_map {A} (P Q : A -> A -> Prop) l : ForallOrdPairs P l ->
  (forall x y, In x l -> In y l -> P x y -> Q x y) -> ForallOrdPairs Q l.
Proof.
  intros F K. induction F as [|y l Y F IH]; constructor.
  - rewrite Forall_forall in *. intros z Z. apply K; [now left|now right|auto].
  - apply IH. intros x z X Z. apply K; now right.
Qed.

(** The same heap extended, and the accounts of later. *)
Lemma own_mono h0 h h' o v : untouched h h' -> obj_ok 0 h o v -> own_arrays h0 h o -> own_arrays h0 h' o.
Proof. intros (_ & _ & _ & U) [L _] [A B]. split; [exact A|]. now rewrite U. Qed.

(** A new level (or none) and a new bundle. *)
Lemma store_level h0 src h h1 h2 tree vtree o v g g' vg' bund bund' bv :
  store h0 src h tree bund g -> untouched h0 h -> untouched h h1 -> untouched h1 h2 ->
  Forall2 (obj_ok 0 h) tree vtree -> shared_ok h1 g' vg' ->
  (forall id, grows (h_next h) (hg_acc g id) (hg_acc g' id)) ->
  (h_onext h1 <= bund')%nat -> obj_ok (h_next h1) h2 bund' bv -> (src < h_onext h0)%nat ->
  forall h3, untouched h2 h3 ->
  store h0 src h3 tree bund' g' /\
  ((h_onext h2 <= o)%nat -> obj_ok (h_next h2) h3 o v -> store h0 src h3 (tree ++ [o]) bund' g').
Proof.
  intros [R1 R2 R3 R4] T0 U1 U2 F Sh Gr Lb Ob Ls h3 U3.
  pose proof (untouched_trans _ _ _ U1 U2) as U02. pose proof (untouched_trans _ _ _ U02 U3) as U03.
  pose proof (untouched_trans _ _ _ T0 U1) as T1. pose proof (untouched_trans _ _ _ T1 U2) as T2.
  pose proof (obj_mono _ _ _ _ _ U3 Ob) as Ob3.
  assert (Same : forall x, In x tree -> h_obj h3 x = h_obj h x /\ (x < h_onext h)%nat /\
    forall a, refers (h_obj h x) a -> (a < h_next h)%nat).
  { intros x X. destruct (objs_in _ _ _ _ F X) as [w [W1 W2]]. split; [|split].
    - destruct U03 as (_ & _ & _ & K). now apply K.
    - exact W1.
    - intros a Ra. now apply (bun_refers 0 h _ _ W2). }
  assert (Bsame : h_obj h3 bund' = h_obj h2 bund') by (destruct U3 as (_ & _ & _ & K); apply K; apply Ob).
  assert (Bref : forall a, refers (h_obj h3 bund') a -> (h_next h1 <= a < h_next h2)%nat).
  { intros a Ra. rewrite Bsame in Ra. now apply (bun_refers _ _ _ _ (proj2 Ob)). }
  assert (Bne : bund' <> src) by (destruct T1 as (_ & X & _); lia).
  assert (Base : store h0 src h3 tree bund' g').
  { constructor.
    - intros x X. destruct (R1 x X) as [->|Y]; [now left|]. right. destruct (objs_in _ _ _ _ F X) as [w W].
      now apply (own_mono h0 h h3 x w).
    - eapply pairs_map; [exact R2|]. intros x y X Y [N D]. split; [exact N|]. unfold apart.
      destruct (Same x X) as (-> & _). destruct (Same y Y) as (-> & _). exact D.
    - intros a A. pose proof (acc_bound _ _ _ _ Sh A) as La.
      split; [destruct U2 as (X & _); destruct U3 as (Y & _); lia|]. split.
      + intros x X N. destruct (Same x X) as (-> & _ & Bd). destruct A as [id A].
        destruct (Gr id a A) as [A'|A'].
        * apply (R3 a (ex_intro _ id A')); assumption.
        * intros Ra. specialize (Bd a Ra). lia.
      + intros _ Ra. specialize (Bref a Ra). lia.
    - right. split.
      + split; [destruct T1 as (_ & X & _); lia|]. intros a Ra. specialize (Bref a Ra). destruct T1 as (X & _). lia.
      + intros x X. destruct (Same x X) as (Sx & Lx & Bd). split; [destruct U1 as (_ & Y & _); lia|].
        intros a Ra Rb. rewrite Sx in Ra. specialize (Bd a Ra). specialize (Bref a Rb). destruct U1 as (Y & _). lia. }
  split; [exact Base|]. intros Lo Oo. destruct Base as [S1 S2 S3 S4].
  assert (Oref : forall a, refers (h_obj h3 o) a -> (h_next h2 <= a)%nat).
  { intros a Ra. now apply (bun_refers _ _ _ _ (proj2 Oo)). }
  constructor.
  - intros x X. apply in_app_iff in X. destruct X as [X|[<-|[]]]; [auto|]. right.
    split; [destruct T2 as (_ & X & _); lia|]. intros a Ra. specialize (Oref a Ra). destruct T2 as (X & _). lia.
  - apply pairs_snoc; [exact S2|]. intros y Y. destruct (Same y Y) as (Sy & Ly & Bd).
    split; [destruct U02 as (_ & X & _); lia|]. intros a Ra Rb. rewrite Sy in Ra. specialize (Bd a Ra).
    specialize (Oref a Rb). destruct U02 as (X & _). lia.
  - intros a A. destruct (S3 a A) as (La & A1 & A2). split; [exact La|]. split; [|exact A2].
    intros x X N. apply in_app_iff in X. destruct X as [X|[<-|[]]]; [auto|]. intros Ra. specialize (Oref a Ra).
    pose proof (acc_bound _ _ _ _ Sh A). destruct U2 as (X & _). lia.
  - destruct S4 as [S4|[S4 S5]]; [contradiction|]. right. split; [exact S4|].
    intros x X. apply in_app_iff in X. destruct X as [X|[<-|[]]]; [auto|].
    split; [destruct Ob as [X _]; lia|]. intros a Ra Rb. specialize (Oref a Ra). specialize (Bref a Rb). lia.
Qed.

Lemma iteration_ok objs me ta h0 src h st vst : (src < h_onext h0)%nat -> untouched h0 h -> st_ok h st vst ->
  store h0 src h (ht_tree st) (ht_bund st) (ht_g st) ->
  after h h (h_iteration objs me ta st) (iteration surface_ops objs me ta vst)
    (fun h' r r' => snd r = snd r' /\ st_ok h' (fst r) (fst r') /\
       store h0 src h' (ht_tree (fst r)) (ht_bund (fst r)) (ht_g (fst r)) /\ ht_bund (fst r) <> src).
Proof.
  intros Ls T0 [K1 K2 K3 K4 K5 K6 K7] St. pose proof (untouched_refl h) as U.
  unfold h_iteration, iteration. rewrite K4, K5.
  eapply step_bind; [exact U|apply intersect_ok; [exact K3|]|].
  { clear - K1. induction K1; constructor; auto. now apply ready_ok. }
  intros h1 [[qs1 fr] ow] [[ss1 fr'] ow'] U1 T1 (A1 & A2 & A3). cbn [fst snd] in A1, A2, A3. subst fr' ow'.
  eapply step_bind; [exact T1|apply process_surfaces_ok; [exact A1|now apply (shared_mono h)]|].
  intros h2 [[qs2 g2] ks] [[ss2 vg2] vks] U2 T2 (B1 & B2 & B3 & B4). cbn [fst snd] in B1, B2, B3, B4.
  assert (Gr : forall id, grows (h_next h) (hg_acc (ht_g st) id) (hg_acc g2 id)).
  { intros id x X. destruct (B3 id x X) as [Y|Y]; [now left|]. right. destruct U1 as (Z & _). lia. }
  assert (Os : Forall2 (obj_ok 0 h2) (map hk_strong ks) (map k_strong vks)).
  { clear - B4. induction B4 as [|x y xs ys X F IH]; constructor; [apply X|exact IH]. }
  assert (Or : Forall2 (obj_ok 0 h2) (map hk_rec ks) (map k_rec vks)).
  { clear - B4. induction B4 as [|x y xs ys X F IH]; constructor; [apply X|exact IH]. }
  assert (Ew : map hk_weak ks = map k_weak vks).
  { clear - B4. induction B4 as [|x y xs ys X F IH]; cbn; [reflexivity|]. f_equal; [apply X|exact IH]. }
  assert (Eo : map hk_own ks = map k_own vks).
  { clear - B4. induction B4 as [|x y xs ys X F IH]; cbn; [reflexivity|]. f_equal; [apply X|exact IH]. }
  assert (Er : map hk_rel ks = map k_rel vks).
  { clear - B4. induction B4 as [|x y xs ys X F IH]; cbn; [reflexivity|]. f_equal; [apply X|exact IH]. }
  eapply step_bind; [exact T2|now apply concatenate_ok|].
  intros h3 bund vb U3 T3 [C1 C2].
  assert (Bne : bund <> src) by (destruct T0 as (_ & X & _); destruct T2 as (_ & Y & _); lia).
  pose proof (fun o v h4 => store_level h0 src h h2 h3 (ht_tree st) (t_tree vst) o v (ht_g st) g2 vg2 (ht_bund st) bund vb
     St T0 T2 U3 K6 B2 Gr C1 C2 Ls h4) as SL.
  eapply (step_bind _ _ _ _ (fun h4 tr vtr => Forall2 (obj_ok 0 h4) tr vtr /\ store h0 src h4 tr bund g2)); [exact T3| |].
  { assert (Same : forall h4, untouched h3 h4 -> Forall2 (obj_ok 0 h4) (ht_tree st) (t_tree vst)).
    { intros h4 V. pose proof (untouched_trans _ _ _ T3 V) as W. clear - K6 W. induction K6; constructor; auto. now apply (obj_mono _ h). }
    assert (None_ : after h3 h3 (hret (ht_tree st)) (Ok (t_tree vst))
       (fun h4 tr vtr => Forall2 (obj_ok 0 h4) tr vtr /\ store h0 src h4 tr bund g2)).
    { apply after_ret; [apply untouched_refl|]. split; [apply Same, untouched_refl|].
      apply (SL 0%nat no_bundle h3), untouched_refl. }
    assert (Some_ : after h3 h3
       (rec <! h_concatenate (map hk_rec ks) ;!
        k <! num_rays rec ;!
        if Nat.eqb k 0 then hret (ht_tree st) else
        weak <! h_inherit rec (SIdx (nonzero (concat (map hk_weak ks)))) no_slots ;!
        level <! h_add bund weak ;!
        hret (ht_tree st ++ [level]))
       (rec <- concatenate_rays (map k_rec vks) ;;
        k <- get_num_rays rec ;;
        if Nat.eqb k 0 then Ok (t_tree vst) else
        weak <- inherit rec (SIdx (nonzero (concat (map k_weak vks)))) no_bundle ;;
        Ok (append (t_tree vst) (add_bundles vb weak)))
       (fun h4 tr vtr => Forall2 (obj_ok 0 h4) tr vtr /\ store h0 src h4 tr bund g2)).
    { pose proof (untouched_refl h3) as U33. rewrite Ew.
      eapply step_bind; [exact U33|apply concatenate_ok; eapply objs_mono; [exact U3|exact Or]|].
      intros h4 rc vrc U4 _ [D1 D2].
      assert (O4 : obj_ok 0 h4 rc vrc) by (eapply obj_weaken; [apply Nat.le_0_l|exact D2]).
      eapply step_bind; [exact U4|now apply num_rays_ok|]. intros h5 n n' U5 T5 ->.
      apply after_if; intros _.
      { apply after_ret; [exact T5|]. split; [now apply Same|]. now apply (SL 0%nat no_bundle h5). }
      eapply after_bind; [apply (inherit_after 0); [lia|exact T5|now apply (obj_mono _ h4)|apply no_slots_ok|discriminate]|].
      intros h6 weak vweak T6 (U6 & [E1 E2] & _).
      change (Ok (append (t_tree vst) (add_bundles vb vweak))) with
        (x <- Ok (add_bundles vb vweak) ;; Ok (append (t_tree vst) x)).
      eapply step_bind; [exact T6|apply add_ok; [|exact E2]|].
      { apply (obj_mono _ h3); [exact T6|]. eapply obj_weaken; [apply Nat.le_0_l|exact C2]. }
      intros h7 level vlevel U7 T7 [F1 F2]. apply after_ret; [exact T7|]. split.
      - unfold append. apply Forall2_app; [now apply Same|]. constructor; [|constructor].
        eapply obj_weaken; [apply Nat.le_0_l|exact F2].
      - apply (SL level vlevel h7 T7).
        + destruct T6 as (_ & X & _). lia.
        + eapply obj_weaken; [|exact F2]. apply T6. }
    rewrite <- after_agrees. destruct ta; assumption. }
  intros h4 tr vtr U4 T4 [D1 D2].
  assert (O4 : obj_ok 0 h4 bund vb) by (apply (obj_mono _ h3); [exact U4|eapply obj_weaken; [apply Nat.le_0_l|exact C2]]).
  eapply step_bind; [exact T4|now apply num_rays_ok|]. intros h5 n n' U5 T5 ->.
  pose proof (untouched_trans _ _ _ U3 U4) as U24. pose proof (untouched_trans _ _ _ U24 U5) as U25.
  assert (X : forall own own' rel rel', own = own' -> rel = rel' ->
    st_ok h5 (mkHT qs2 g2 bund own rel tr (Some (map hk_rec ks))) (mkT ss2 vg2 vb own' rel' vtr (Some (map k_rec vks)))).
  { intros own own' rel rel' -> ->. constructor; cbn; auto.
    - now apply (readys_mono h2).
    - now apply (shared_mono h2).
    - now apply (obj_mono _ h4).
    - eapply objs_mono; [exact U5|exact D1].
    - eapply objs_mono; [exact U25|exact Or]. }
  assert (Y : store h0 src h5 tr bund g2).
  { destruct D2 as [S1 S2 S3 S4].
    assert (Sm : forall o, In o tr -> h_obj h5 o = h_obj h4 o).
    { intros o I. destruct (objs_in _ _ _ _ D1 I) as [v [V _]]. destruct U5 as (_ & _ & _ & K). now apply K. }
    assert (Sb : h_obj h5 bund = h_obj h4 bund) by (destruct U5 as (_ & _ & _ & K); apply K; apply O4).
    constructor.
    - intros o I. destruct (S1 o I) as [->|[P Q]]; [now left|]. right. split; [exact P|]. now rewrite Sm.
    - eapply pairs_map; [exact S2|]. intros x y I J [P Q]. split; [exact P|]. unfold apart. now rewrite !Sm.
    - intros a A. destruct (S3 a A) as (P & Q & R'). split; [destruct U5 as (Z & _); lia|]. split.
      + intros o I N. rewrite Sm by exact I. now apply Q.
      + intros N. rewrite Sb. now apply R'.
    - destruct S4 as [S4|[S4 S5]]; [now left|]. right. split.
      + destruct S4 as [P Q]. split; [exact P|]. now rewrite Sb.
      + intros o I. destruct (S5 o I) as [P Q]. split; [exact P|]. unfold apart. now rewrite Sm, Sb. }
  apply after_if; intros _; apply after_ret; try exact T5; cbn [fst snd ht_tree ht_bund ht_g].
  - split; [reflexivity|]. split; [now apply X|]. now split.
  - split; [reflexivity|]. split; [|now split]. apply X; [now rewrite Eo|].
    rewrite Er. f_equal. clear - K1. now induction K1; cbn; f_equal.
Qed.

Lemma iterate_ok objs me ta h0 src : (src < h_onext h0)%nat -> forall reps h st vst, untouched h0 h -> st_ok h st vst ->
  store h0 src h (ht_tree st) (ht_bund st) (ht_g st) ->
  after h h (h_iterate objs me ta reps st) (iterate surface_ops objs me ta reps vst)
    (fun h' r r' => st_ok h' r r' /\ store h0 src h' (ht_tree r) (ht_bund r) (ht_g r) /\
       (reps <> 0%nat \/ ht_bund st <> src -> ht_bund r <> src)).
Proof.
  intros Ls. induction reps as [|reps IH]; intros h st vst T0 K St; pose proof (untouched_refl h) as U; cbn [h_iterate iterate].
  - apply after_ret; [exact U|]. split; [exact K|]. split; [exact St|]. now intros [X|X].
  - eapply after_bind; [apply (iteration_ok objs me ta h0 src); assumption|].
    intros h1 [st1 go] [vst1 go'] U1 (A1 & A2 & A3 & A4). cbn [fst snd] in *. subst go'.
    destruct go; [|now apply after_ret].
    eapply step_last; [exact U1|apply IH; [now apply (untouched_trans _ h)|exact A2|exact A3]|].
    intros h2 r r' _ _ (B1 & B2 & B3). split; [exact B1|]. split; [exact B2|]. auto.
Qed.

(** One more level. *)
Lemma store_add h0 src h h' tree vtree bund bv g vg o v : store h0 src h tree bund g -> untouched h0 h -> untouched h h' ->
  Forall2 (obj_ok 0 h) tree vtree -> obj_ok 0 h bund bv -> shared_ok h g vg ->
  (h_onext h <= o)%nat -> obj_ok (h_next h) h' o v -> store h0 src h' (tree ++ [o]) bund g.
Proof.
  intros [R1 R2 R3 R4] T0 U F Ob Sh Lo Oo.
  assert (Same : forall x, In x tree -> h_obj h' x = h_obj h x /\ (x < h_onext h)%nat /\
    forall a, refers (h_obj h x) a -> (a < h_next h)%nat).
  { intros x X. destruct (objs_in _ _ _ _ F X) as [w [W1 W2]]. split; [|split].
    - destruct U as (_ & _ & _ & K). now apply K.
    - exact W1.
    - intros a Ra. now apply (bun_refers 0 h _ _ W2). }
  assert (Bsame : h_obj h' bund = h_obj h bund) by (destruct U as (_ & _ & _ & K); apply K; apply Ob).
  assert (Oref : forall a, refers (h_obj h' o) a -> (h_next h <= a)%nat).
  { intros a Ra. now apply (bun_refers _ _ _ _ (proj2 Oo)). }
  constructor.
  - intros x X. apply in_app_iff in X. destruct X as [X|[<-|[]]].
    + destruct (R1 x X) as [->|[P Q]]; [now left|]. right. split; [exact P|]. now destruct (Same x X) as (-> & _).
    + right. split; [destruct T0 as (_ & X & _); lia|]. intros a Ra. specialize (Oref a Ra). destruct T0 as (X & _). lia.
  - apply pairs_snoc.
    + eapply pairs_map; [exact R2|]. intros x y X Y [N D]. split; [exact N|]. unfold apart.
      destruct (Same x X) as (-> & _). destruct (Same y Y) as (-> & _). exact D.
    + intros y Y. destruct (Same y Y) as (Sy & Ly & Bd). split; [lia|]. intros a Ra Rb. rewrite Sy in Ra.
      specialize (Bd a Ra). specialize (Oref a Rb). lia.
  - intros a A. destruct (R3 a A) as (La & A1 & A2). split; [destruct U as (X & _); lia|]. split.
    + intros x X N. apply in_app_iff in X. destruct X as [X|[<-|[]]].
      * destruct (Same x X) as (-> & _). now apply A1.
      * intros Ra. specialize (Oref a Ra). lia.
    + intros N. rewrite Bsame. now apply A2.
  - destruct R4 as [R4|[R4 R5]]; [now left|]. right. split.
    + destruct R4 as [P Q]. split; [exact P|]. now rewrite Bsame.
    + intros x X. apply in_app_iff in X. destruct X as [X|[<-|[]]].
      * destruct (R5 x X) as [P Q]. split; [exact P|]. unfold apart. rewrite Bsame. destruct (Same x X) as (-> & _). exact Q.
      * split; [destruct Ob as [X _]; lia|]. intros a Ra Rb. rewrite Bsame in Rb. specialize (Oref a Ra).
        pose proof (proj2 (bun_refers 0 h _ _ (proj2 Ob) a Rb)). lia.
Qed.

Lemma shared_of h g v : same_shared h g v -> shared_ok h g v.
Proof.
  intros [A B]. split; [exact A|]. intros id. destruct (B id) as (C & D & E).
  split; [rewrite <- C|rewrite <- D].
  - assert (X : forall a, In a (fst (hg_acc g id)) -> (a < h_next h)%nat) by (intros a I; apply E, in_app_iff; now left).
    clear - X. induction (fst (hg_acc g id)) as [|a l IH]; cbn; constructor.
    + repeat split; [lia|apply X; now left].
    + apply IH. intros b I. apply X. now right.
  - assert (X : forall a, In a (snd (hg_acc g id)) -> (a < h_next h)%nat) by (intros a I; apply E, in_app_iff; now right).
    clear - X. induction (snd (hg_acc g id)) as [|a l IH]; cbn; constructor.
    + repeat split; [lia|apply X; now left].
    + apply IH. intros b I. apply X. now right.
Qed.
Lemma arrs_map k h l m : Forall2 (arr_ok k 0 h) l m -> map (rd k h) l = m.
Proof. intros F. induction F as [|a b l m (_ & _ & E) F IH]; cbn; [reflexivity|]. now rewrite E, IH. Qed.
Lemma of_shared h g v : shared_ok h g v -> same_shared h g v.
Proof.
  intros S. split; [apply S|]. intros id. destruct (proj2 S id) as [A B].
  split; [now apply (arrs_map KNum)|]. split; [now apply (arrs_map KVec)|].
  intros a I. eapply acc_bound; [exact S|]. now exists id.
Qed.
Lemma objs_contents h os vs : Forall2 (obj_ok 0 h) os vs -> map (contents h) os = vs /\ Forall (made h) os.
Proof.
  intros F. induction F as [|o v os vs O F [IH1 IH2]]; cbn; [now split|].
  split; [f_equal; [now apply (obj_contents 0)|exact IH1]|]. constructor; [now apply (obj_made 0 _ _ v)|exact IH2].
Qed.

Definition traced (h h' : heap) (src reps : nat) (r : nat * nat * hstate)
    (r' : list vec * list vec * tstate surface shared) : Prop :=
  let '(va, da, st) := r in let '(v, d, vst) := r' in
  rd KVec h' va = v /\ rd KVec h' da = d /\
  map (contents h') (ht_tree st) = t_tree vst /\ Forall (made h') (ht_tree st) /\
  Forall2 (ready h') (ht_surfs st) (t_surfs vst) /\ same_shared h' (ht_g st) (t_g vst) /\
  separate h h' src reps va da st.

Lemma the_array_ok {C} h0 h p o s l (m : nat -> H C) D (v : res D) Q : slot p (h_obj h o) = Some (Some s) ->
  rd (kind_of p) h s = l -> after h0 h (m s) v Q -> after h0 h (hbind (get_p p o) m) v Q.
Proof. intros E _ K. unfold get_p, the_array, after, hbind, hread in *. rewrite E. exact K. Qed.

Lemma pairs_nth {A} (P : A -> A -> Prop) l : ForallOrdPairs P l ->
  forall i j x y, nth_error l i = Some x -> nth_error l j = Some y -> (i < j)%nat -> P x y.
Proof.
  intros F. induction F as [|z l Z F IH]; intros i j x y I J L; [now destruct i|].
  destruct j as [|j]; [lia|]. cbn in J. destruct i as [|i]; cbn in I.
  - injection I as ->. rewrite Forall_forall in Z. apply Z. now apply (nth_error_In _ j).
  - apply (IH i j); auto. lia.
Qed.

Theorem trace_ok objs qs ss g vg h src reps me ta : made h src -> Forall2 (ready h) qs ss -> same_shared h g vg ->
  agrees h (h_ray_tracer objs qs g src reps me ta) (ray_tracer surface_ops objs ss vg (contents h src) reps me ta)
    (fun h' r r' => traced h h' src reps r r').
Proof.
  intros M F Sh. pose proof (untouched_refl h) as U. pose proof (made_obj _ _ M) as O. pose proof (shared_of _ _ _ Sh) as S0.
  unfold h_ray_tracer, ray_tracer, h_start, start. rewrite <- after_agrees.
  eapply (step_bind _ _ _ _ (fun h' st vst => st_ok h' st vst /\ store h src h' (ht_tree st) (ht_bund st) (ht_g st) /\ ht_bund st = src)); [exact U| |].
  { rewrite <- after_agrees. eapply step_bind; [exact U|now apply num_rays_ok|]. intros h1 n n' U1 _ ->.
    apply after_ret; [exact U1|].
    assert (El : length qs = length ss) by (clear - F; induction F; cbn; congruence).
    assert (T1 : Forall2 (obj_ok 0 h1) (match ta with TreeTrue => [src] | _ => [] end)
       (match ta with TreeTrue => append new_tree (contents h src) | _ => new_tree end)).
    { destruct ta; cbn; constructor; [|constructor]. now apply (obj_mono _ h). }
    split; [|split; [|reflexivity]].
    - constructor; cbn [ht_surfs ht_g ht_bund ht_own ht_rel ht_tree ht_record t_surfs t_g t_bund t_own t_rel t_tree t_record];
        [now apply (readys_mono h)|now apply (shared_mono h)|now apply (obj_mono _ h)|reflexivity|now rewrite El|exact T1|exact I].
    - constructor; cbn.
      + intros o I. left. destruct ta; cbn in I; tauto || (destruct I as [I|[]]; now symmetry).
      + destruct ta; constructor; constructor.
      + intros a A. split; [eapply acc_bound; [apply (shared_mono h); [exact U1|exact S0]|exact A]|]. split; [|congruence].
        intros o I N. exfalso. apply N. destruct ta; cbn in I; tauto || (destruct I as [I|[]]; now symmetry).
      + now left. }
  intros h1 st0 vst0 U1 T1 (A1 & A2 & A3).
  eapply step_bind; [exact T1|apply (iterate_ok objs me ta h src); [apply O|exact T1|exact A1|exact A2]|].
  intros h2 st vst U2 T2 (B1 & B2 & B3).
  eapply (step_bind _ _ _ _ (fun h' st' vst' => st_ok h' st' vst' /\
    store h src h' (ht_tree st') (ht_bund st') (ht_g st') /\ ht_bund st' = ht_bund st)); [exact T2| |].
  { pose proof (untouched_refl h2) as U22.
    assert (X : after h2 h2 (hret st) (Ok vst) (fun h' st' vst' => st_ok h' st' vst' /\
       store h src h' (ht_tree st') (ht_bund st') (ht_g st') /\ ht_bund st' = ht_bund st)) by (apply after_ret; auto).
    destruct ta; [exact X|exact X|]. clear X. rewrite <- after_agrees.
    pose proof (k_record _ _ _ B1) as K. destruct (ht_record st) as [bs|], (t_record vst) as [vbs|]; try contradiction;
      [|now apply after_err].
    eapply step_bind; [exact U22|now apply concatenate_ok|]. intros h3 rc vrc U3 _ [C1 C2].
    destruct B1 as [K1 K2 K3 K4 K5 K6 _].
    apply after_ret; [exact U3|]. split; [|split; [|reflexivity]].
    - constructor; cbn [ht_surfs ht_g ht_bund ht_own ht_rel ht_tree ht_record t_surfs t_g t_bund t_own t_rel t_tree t_record];
        [now apply (readys_mono h2)|now apply (shared_mono h2)|now apply (obj_mono _ h2)|exact K4|exact K5| |].
      + unfold append. apply Forall2_app; [eapply objs_mono; [exact U3|exact K6]|]. constructor; [|constructor].
        eapply obj_weaken; [apply Nat.le_0_l|exact C2].
      + eapply objs_mono; [exact U3|exact K].
    - cbn. eapply (store_add h src h2); [exact B2|exact T2|exact U3|exact K6|exact K3|exact K2|exact C1|exact C2]. }
  intros h3 st' vst' U3 T3 (C1 & C2 & C3).
  pose proof (k_bund _ _ _ C1) as [Lb [Bv Bd _ _ _ _]].
  unfold get_vertices, get_directions.
  destruct (hb_vert (h_obj h3 (ht_bund st'))) as [va|] eqn:Ev, (b_vert (t_bund vst')) as [v|] eqn:Fv; try contradiction;
    cbn [get_prop bind select].
  2:{ unfold get_p, the_array, after, hbind, hread. cbn [slot]. rewrite Ev. now split. }
  eapply (the_array_ok _ _ PVertices _ va v); [cbn [slot]; now rewrite Ev|apply Bv|].
  destruct (hb_dir (h_obj h3 (ht_bund st'))) as [da|] eqn:Ed, (b_dir (t_bund vst')) as [d|] eqn:Fd; try contradiction;
    cbn [get_prop bind select].
  2:{ unfold get_p, the_array, after, hbind, hread. cbn [slot]. rewrite Ed. now split. }
  eapply (the_array_ok _ _ PDirections _ da d); [cbn [slot]; now rewrite Ed|apply Bd|].
  apply after_ret; [exact T3|]. destruct (objs_contents _ _ _ (k_tree _ _ _ C1)) as [D1 D2].
  split; [apply Bv|]. split; [apply Bd|]. split; [exact D1|]. split; [exact D2|]. split; [apply C1|].
  split; [apply of_shared, C1|]. destruct C2 as [R1 R2 R3 R4].
  rewrite Forall_forall in D2.
  constructor.
  - exact R1.
  - assert (P : forall i j o o', nth_error (ht_tree st') i = Some o -> nth_error (ht_tree st') j = Some o' ->
      (i < j)%nat -> o <> o' /\ apart h3 o o' /\ independent h3 o o').
    { intros i j o o' I J L. destruct (pairs_nth _ _ R2 i j o o' I J L) as [N D]. split; [exact N|]. split; [exact D|].
      apply apart_independent; auto; apply D2; [now apply (nth_error_In _ i)|now apply (nth_error_In _ j)]. }
    intros i j o o' I J N. destruct (Nat.lt_gt_cases i j) as [[L|L] _]; [exact N|now apply (P i j)|].
    destruct (P j i o' o J I L) as (N' & A & X & Y). split; [congruence|]. split; [|now split].
    intros a Ra Rb. now apply (A a).
  - intros o o' I N M'. destruct (untouched_contents _ _ _ T3 M') as [_ M3].
    destruct (R1 o I) as [->|[X Y]]; [contradiction|].
    apply apart_independent; [now apply D2|exact M3|destruct M' as [Z _]; lia|].
    intros a Ra Rb. specialize (Y a Ra). destruct T3 as (_ & _ & _ & Z). rewrite Z in Rb by apply M'.
    pose proof (proj2 M' a Rb). lia.
  - intros o a I N A. now apply (R3 a A).
  - intros N a E. rewrite C3 in *. assert (Nb : ht_bund st <> src) by (apply B3; now left).
    destruct R4 as [R4|[[R4 R5] R6]]; [contradiction|].
    assert (Ra : refers (h_obj h3 (ht_bund st)) a) by (unfold refers; destruct E as [->| ->]; tauto).
    split; [now apply R5|]. split; [intros A; now apply (proj2 (proj2 (R3 a A)) Nb)|].
    intros o I Ro. now apply (proj2 (R6 o I) a).
Qed.

(** ** The source bundle is the first level *)

Lemma bind_inv {A C} (m : H A) (f : A -> H C) h h' c : hbind m f h = (h', Ok c) ->
  exists h1 a, m h = (h1, Ok a) /\ f a h1 = (h', Ok c).
Proof. unfold hbind. destruct (m h) as [h1 [a|e]]; [|discriminate]. eauto. Qed.

Lemma iteration_tree objs me ta st h h' st' go : h_iteration objs me ta st h = (h', Ok (st', go)) ->
  exists more, ht_tree st' = ht_tree st ++ more.
Proof.
  intros X. unfold h_iteration in X.
  apply bind_inv in X as (h1 & [[qs1 fr] ow] & _ & X). apply bind_inv in X as (h2 & [[qs2 g2] ks] & _ & X).
  apply bind_inv in X as (h3 & bund & _ & X). apply bind_inv in X as (h4 & tr & Y & X).
  apply bind_inv in X as (h5 & n & _ & X).
  assert (E : exists more, tr = ht_tree st ++ more).
  { assert (K : (rec <! h_concatenate (map hk_rec ks) ;!
        k <! num_rays rec ;!
        if Nat.eqb k 0 then hret (ht_tree st) else
        weak <! h_inherit rec (SIdx (nonzero (concat (map hk_weak ks)))) no_slots ;!
        level <! h_add bund weak ;!
        hret (ht_tree st ++ [level])) h3 = (h4, Ok tr) -> exists more, tr = ht_tree st ++ more).
    { clear Y. intros Y. apply bind_inv in Y as (h6 & rc & _ & Y). apply bind_inv in Y as (h7 & k & _ & Y).
      destruct (Nat.eqb k 0); [injection Y as <- <-; exists []; now rewrite app_nil_r|].
      apply bind_inv in Y as (h8 & w & _ & Y). apply bind_inv in Y as (h9 & lv & _ & Y).
      injection Y as <- <-. now exists [lv]. }
    destruct ta; [now apply K|now apply K|]. injection Y as <- <-. exists []. now rewrite app_nil_r. }
  destruct (Nat.eqb n 0); injection X as <- <- <-; exact E.
Qed.
Lemma iterate_tree objs me ta : forall reps st h h' st', h_iterate objs me ta reps st h = (h', Ok st') ->
  exists more, ht_tree st' = ht_tree st ++ more.
Proof.
  induction reps as [|reps IH]; intros st h h' st' X; cbn [h_iterate] in X.
  - injection X as <- <-. exists []. now rewrite app_nil_r.
  - apply bind_inv in X as (h1 & [st1 go] & Y & X). destruct (iteration_tree _ _ _ _ _ _ _ _ Y) as [m1 E1].
    destruct go; [|injection X as <- <-; now exists m1].
    destruct (IH _ _ _ _ X) as [m2 E2]. exists (m1 ++ m2). now rewrite E2, E1, app_assoc.
Qed.
Theorem source_first objs qs g src reps me h h' va da st :
  h_ray_tracer objs qs g src reps me TreeTrue h = (h', Ok (va, da, st)) -> nth_error (ht_tree st) 0 = Some src.
Proof.
  intros X. unfold h_ray_tracer in X. apply bind_inv in X as (h1 & st0 & Y & X).
  apply bind_inv in X as (h2 & st1 & Z & X). apply bind_inv in X as (h3 & st2 & W & X).
  injection W as <- <-. apply bind_inv in X as (h4 & v & _ & X). apply bind_inv in X as (h5 & d & _ & X).
  injection X as <- <- <- <-. unfold h_start in Y. apply bind_inv in Y as (h6 & n & _ & Y). injection Y as <- <-.
  destruct (iterate_tree _ _ _ _ _ _ _ _ Z) as [m ->]. reflexivity.
Qed.

(** ** Several traces *)

Definition levels_apart (h : heap) (js : list job) (sts : list hstate) : Prop :=
  forall n m i j st st' o o', nth_error sts n = Some st -> nth_error sts m = Some st' ->
    nth_error (ht_tree st) i = Some o -> nth_error (ht_tree st') j = Some o' -> (n, i) <> (m, j) ->
    In o (map j_src js) /\ In o' (map j_src js) \/ o <> o' /\ apart h o o'.

Record kept (h0 : heap) (h : heap) (js : list job) (sts : list hstate) (vsts : list (tstate surface shared)) : Prop := mkKept {
  kt_tree : Forall2 (fun st vst => map (contents h) (ht_tree st) = t_tree vst) sts vsts;
  kt_made : forall st o, In st sts -> In o (ht_tree st) -> made h o /\ (In o (map j_src js) \/ own_arrays h0 h o);
  kt_apart : levels_apart h js sts }.

Lemma own_earlier h0 h1 h o : untouched h0 h1 -> own_arrays h1 h o -> own_arrays h0 h o.
Proof.
  intros (U1 & U2 & _) [X Y]. split; [lia|]. intros a R. specialize (Y a R). lia.
Qed.
Lemma own_later h0 h1 h o : untouched h1 h -> made h1 o -> own_arrays h0 h1 o -> own_arrays h0 h o.
Proof.
  intros (_ & _ & _ & U) [M _] [X Y]. split; [exact X|]. now rewrite U.
Qed.
Lemma apart_later h1 h o o' : untouched h1 h -> made h1 o -> made h1 o' -> apart h1 o o' -> apart h o o'.
Proof. intros (_ & _ & _ & U) [M _] [M' _]. unfold apart. now rewrite !U. Qed.
(** [o] was there at [h1], and [o'] has arrays made later. *)
Lemma apart_new h1 h o o' : untouched h1 h -> made h1 o -> own_arrays h1 h o' -> o <> o' /\ apart h o o'.
Proof.
  intros (_ & _ & _ & U) [M N] [X Y]. split; [lia|]. intros a Ra Rb. rewrite U in Ra by exact M.
  specialize (N a Ra). specialize (Y a Rb). lia.
Qed.
Lemma apart_sym h o o' : apart h o o' -> apart h o' o.
Proof. intros A a Ra Rb. now apply (A a). Qed.

Theorem jobs_ok objs h0 : forall js h qs ss g vg, untouched h0 h -> Forall (fun j => made h0 (j_src j)) js ->
  Forall2 (ready h) qs ss -> same_shared h g vg ->
  agrees h (h_jobs objs qs g js) (v_jobs objs ss vg (contents h0) js) (fun h' sts vsts => kept h h' js sts vsts).
Proof.
  induction js as [|[src reps me ta] js IH]; intros h qs ss g vg U M F Sh; rewrite <- after_agrees; cbn [h_jobs v_jobs j_src j_reps j_energy j_tree];
    pose proof (untouched_refl h) as Ur.
  - apply after_ret; [exact Ur|]. constructor; [constructor|intros st o []|intros [|n]; discriminate].
  - inversion M as [|? ? M1 M2]; subst. cbn [j_src] in M1.
    destruct (untouched_contents _ _ _ U M1) as [E Ms]. rewrite <- E.
    eapply step_bind; [exact Ur|now apply trace_ok|].
    intros h1 [[va da] st] [[v d] vst] U1 T1 (_ & _ & A3 & A4 & A5 & A6 & A7).
    eapply step_bind; [exact T1|apply (IH h1); auto; now apply (untouched_trans _ h)|].
    intros h2 sts vsts U2 T2 K. apply after_ret; [exact T2|].
    rewrite Forall_forall in A4. destruct A7 as [S1 S2 S3 S4 S5]. destruct K as [K1 K2 K3].
    assert (Hd : forall o, In o (ht_tree st) -> made h2 o /\ (In o (src :: map j_src js) \/ own_arrays h h2 o)).
    { intros o I. split; [apply (untouched_contents h1); auto|]. destruct (S1 o I) as [->|X]; [left; now left|].
      right. apply (own_later h h1); auto. }
    constructor.
    + constructor; [|exact K1]. rewrite <- A3. apply map_ext_in. intros o I. apply (untouched_contents h1); auto.
    + intros st' o [<-|I] I'; [now apply Hd|]. destruct (K2 st' o I I') as [X [Y|Y]]; split; auto.
      * left. now right.
      * right. now apply (own_earlier h h1).
    + assert (C : forall st' o o', In o (ht_tree st) -> In st' sts -> In o' (ht_tree st') ->
        In o (src :: map j_src js) /\ In o' (src :: map j_src js) \/ o <> o' /\ apart h2 o o').
      { intros st' o o' I I' I2. destruct (K2 st' o' I' I2) as [X [Y|Y]].
        - destruct (S1 o I) as [->|Z]; [left; split; [now left|now right]|]. right.
          assert (Mo : made h o').
          { apply in_map_iff in Y as (j & <- & Y). apply (untouched_contents h0); [exact U|].
            rewrite Forall_forall in M2. now apply M2. }
          destruct (apart_new h h2 o' o) as [N A]; [now apply (untouched_trans _ h1)|exact Mo|apply (own_later h h1); auto|].
          split; [congruence|now apply apart_sym].
        - right. apply (apart_new h1); auto. }
      intros n m i j st1 st2 o o' N1 N2 I J D. cbn [map j_src].
      destruct n as [|n], m as [|m]; cbn in N1, N2.
      * injection N1 as <-. injection N2 as <-. right. destruct (S2 i j o o' I J) as (X & Y & _); [congruence|].
        split; [exact X|]. apply (apart_later h1); auto; apply A4; [now apply (nth_error_In _ i)|now apply (nth_error_In _ j)].
      * injection N1 as <-. apply (C st2); [now apply (nth_error_In _ i)|now apply (nth_error_In _ m)|now apply (nth_error_In _ j)].
      * injection N2 as <-. destruct (C st1 o' o) as [[X Y]|[X Y]];
          [now apply (nth_error_In _ j)|now apply (nth_error_In _ n)|now apply (nth_error_In _ i)|now left|].
        right. split; [congruence|now apply apart_sym].
      * destruct (K3 n m i j st1 st2 o o' N1 N2 I J) as [[X Y]|X]; [congruence|left; split; now right|now right].
Qed.

Theorem jobs_history objs h js qs ss g vg : Forall (fun j => made h (j_src j)) js ->
  Forall2 (ready h) qs ss -> same_shared h g vg ->
  agrees h (h_jobs objs qs g js) (v_jobs objs ss vg (contents h) js) (fun h' sts vsts =>
    Forall2 (fun st vst => map (contents h') (ht_tree st) = t_tree vst) sts vsts /\
    forall n m i j st st' o o', nth_error sts n = Some st -> nth_error sts m = Some st' ->
      nth_error (ht_tree st) i = Some o -> nth_error (ht_tree st') j = Some o' -> (n, i) <> (m, j) ->
      In o (map j_src js) /\ In o' (map j_src js) \/ independent h' o o').
Proof.
  intros M F Sh. apply after_agrees. eapply after_weaken; [apply (jobs_ok objs h); auto; apply untouched_refl|].
  intros h' sts vsts _ [K1 K2 K3]. split; [exact K1|].
  intros n m i j st st' o o' N1 N2 I J D. destruct (K3 n m i j st st' o o' N1 N2 I J D) as [X|[X Y]]; [now left|right].
  apply apart_independent; auto.
  - apply (K2 st); [now apply (nth_error_In _ n)|now apply (nth_error_In _ i)].
  - apply (K2 st'); [now apply (nth_error_In _ m)|now apply (nth_error_In _ j)].
Qed.
