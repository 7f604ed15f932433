(** Wrong use of bundles, surfaces, optics, sources and assemblies: the exception. *)
From Coq Require Import Reals String List Arith Bool Lia Lra.
From Verif.Base Require Import Py Num Vec.
From Verif.Model Require Import RayBundle Geometry Boundary Optics OpticsCallables Engine TraceTree View Surface Sources Assembly Scene Models Tower.
From Verif.Proof Require Import ListLemmas BundleProof SetterProof.
From Verif.Spec Require Import BundleSpec MisuseSpec.
Import ListNotations.

Lemma take_outside {A} (l : list A) idx i : In i idx -> length l <= i -> take l idx = Err IndexError.
Proof.
  intros I L. destruct (take l idx) as [r|e] eqn:E.
  - apply take_range in E. rewrite Forall_forall in E. specialize (E _ I). lia.
  - apply take_err in E as [-> _]. reflexivity.
Qed.

Lemma select_outside {A} (l : list A) sel : unreadable (length l) sel -> select sel l = Err IndexError.
Proof.
  destruct sel as [|idx|m]; simpl; [tauto| |].
  - intros (i & I & L). eapply take_outside; eauto.
  - intros N. unfold same_len. destruct (Nat.eqb_spec (length m) (length l)); [congruence|reflexivity].
Qed.

Lemma set_nth_length' {A} i (v : A) l : length (set_nth i v l) = length l.
Proof. revert i. induction l; intros [|i]; simpl; auto. Qed.

Lemma assign_outside {A} idx : forall (l vals : list A) i,
  length vals = length idx -> In i idx -> length l <= i -> assign l idx vals = Err IndexError.
Proof.
  induction idx as [|j idx IH]; simpl; [tauto|]. intros l [|v vals] i E I L; [discriminate|].
  destruct (Nat.ltb_spec j (length l)); [|reflexivity].
  destruct I as [->|I]; [lia|]. eapply IH; eauto. rewrite set_nth_length'. auto.
Qed.

Lemma assign_count {A} idx : forall (l vals : list A),
  (forall i, In i idx -> i < length l) -> length vals <> length idx -> assign l idx vals = Err ValueError.
Proof.
  induction idx as [|j idx IH]; simpl; intros l [|v vals] F N; auto; [exfalso; apply N; reflexivity|].
  destruct (Nat.ltb_spec j (length l)); [|specialize (F j (or_introl eq_refl)); lia].
  apply IH; [|simpl in N; lia]. intros i I. rewrite set_nth_length'. auto.
Qed.

Lemma assign_sel_misfit {A} (l vals : list A) sel e :
  misfit (length l) sel (length vals) e -> RayBundle.assign_sel l sel vals = Err e.
Proof.
  intros M. remember (length vals) as k. destruct M as [idx i I L|m k N|sel k O N N1]; subst; cbn [RayBundle.assign_sel].
  - eapply assign_outside; eauto.
  - unfold same_len. destruct (Nat.eqb_spec (length m) (length l)); [congruence|reflexivity].
  - destruct sel as [|idx|m].
    + cbn [positions] in N. rewrite seq_length in N. cbn [RayBundle.assign_sel]. unfold same_len.
      destruct (Nat.eqb_spec (length vals) (length l)); [congruence|reflexivity].
    + apply assign_count; auto.
    + cbn [sel_ok] in O. rewrite positions_mask in N by auto. cbn [RayBundle.assign_sel]. unfold same_len.
      destruct (Nat.eqb_spec (length m) (length l)); [|congruence].
      destruct (Nat.eqb_spec (length vals) (count_true m)); [congruence|reflexivity].
Qed.

Lemma set_prop_misfit {A} (f : A -> pval) (p : option (list A)) l vals sel e : option_map (map f) p = Some l ->
  misfit (length l) sel (length vals) e -> set_prop_sel p sel vals = Err e.
Proof.
  destruct p as [q|]; [|discriminate]. cbn. intros [= <-]. rewrite map_length. intros M.
  rewrite (assign_sel_misfit _ _ _ _ M). reflexivity.
Qed.

Lemma setters_misfit b sel e :
  (forall l v, prop b Vertices = Some l -> misfit (length l) sel (length v) e -> set_vertices_sel v sel b = Err e) /\
  (forall l v, prop b Directions = Some l -> misfit (length l) sel (length v) e -> set_directions_sel v sel b = Err e) /\
  (forall l v, prop b Energy = Some l -> misfit (length l) sel (length v) e -> set_energy_sel v sel b = Err e) /\
  (forall l v, prop b Parents = Some l -> misfit (length l) sel (length v) e -> set_parents_sel v sel b = Err e) /\
  (forall l v, prop b RefIndex = Some l -> misfit (length l) sel (length v) e -> set_ref_index_sel v sel b = Err e) /\
  (forall name l v, prop b (Extra name) = Some l -> misfit (length l) sel (length v) e -> set_named_sel name v sel b = Err e).
Proof.
  unfold set_vertices_sel, set_directions_sel, set_energy_sel, set_parents_sel, set_ref_index_sel, set_named_sel.
  cbn [prop].
  split; [|split; [|split; [|split; [|split]]]].
  6:{ intros name l v E M. destruct (lookup name (b_extra b)) as [p|]; [|discriminate].
      rewrite (set_prop_misfit PCell p l v sel e); auto. }
  all: intros l v E M; erewrite set_prop_misfit by eassumption; reflexivity.
Qed.

Lemma get_prop_outside {A} (f : A -> pval) (p : option (list A)) l sel : option_map (map f) p = Some l ->
  unreadable (length l) sel -> get_prop p sel = Err IndexError.
Proof.
  destruct p as [q|]; [|discriminate]. cbn [option_map get_prop]. intros [= <-]. rewrite map_length. apply select_outside.
Qed.

Lemma getters_outside b sel :
  (forall l, prop b Vertices = Some l -> unreadable (length l) sel -> get_prop (b_vert b) sel = Err IndexError) /\
  (forall l, prop b Directions = Some l -> unreadable (length l) sel -> get_prop (b_dir b) sel = Err IndexError) /\
  (forall l, prop b Energy = Some l -> unreadable (length l) sel -> get_prop (b_energy b) sel = Err IndexError) /\
  (forall l, prop b Parents = Some l -> unreadable (length l) sel -> get_prop (b_parents b) sel = Err IndexError) /\
  (forall l, prop b RefIndex = Some l -> unreadable (length l) sel -> get_prop (b_ref b) sel = Err IndexError) /\
  (forall name l, prop b (Extra name) = Some l -> unreadable (length l) sel -> get_named name b sel = Err IndexError).
Proof.
  cbn [prop].
  split; [|split; [|split; [|split; [|split]]]].
  6:{ unfold get_named. intros name l E M. destruct (lookup name (b_extra b)) as [p|]; [|discriminate].
      apply (get_prop_outside PCell p l sel); auto. }
  all: intros; eapply get_prop_outside; eassumption.
Qed.

(** ** Surfaces *)
Lemma base_geometry frame b o : find_intersections Base frame b = Err TypeError /\
  surf_register (Surface.new_surface Base o frame) b = Err TypeError.
Proof. split; reflexivity. Qed.

Lemma base_boundary ps : in_bounds PBase ps = Err TypeError.
Proof. reflexivity. Qed.

Lemma outgoing_first s g : s_bundle s = None \/ s_selected s = None -> surf_outgoing s g = Err AttributeError.
Proof. unfold surf_outgoing. intros [-> | ->]; [reflexivity|]. destruct (s_bundle s); reflexivity. Qed.

Lemma outgoing_new gm o frame g : surf_outgoing (Surface.new_surface gm o frame) g = Err AttributeError.
Proof. reflexivity. Qed.
Lemma outgoing_registered gm o frame b g s ps : surf_register (Surface.new_surface gm o frame) b = Ok (s, ps) ->
  surf_outgoing s g = Err AttributeError.
Proof.
  unfold surf_register. cbn. destruct (find_intersections gm frame b) as [[gs q]|]; [|discriminate].
  cbn. intros [= <- <-]. reflexivity.
Qed.
Lemma outgoing_done s g : surf_outgoing (surf_done s) g = Err AttributeError.
Proof. reflexivity. Qed.
Lemma up_done st : Geometry.up (done_geom st) = Err AttributeError.
Proof. destruct st; reflexivity. Qed.

(** ** Optics *)
Lemma refractions_misfit n1 n2 ds ns :
  ~ (length n1 = length n2 /\ length n1 = length ds /\ length n1 = length ns) ->
  refractions n1 n2 ds ns = Err ValueError.
Proof.
  intros N. unfold refractions, same_len.
  destruct (Nat.eqb_spec (length n1) (length n2)), (Nat.eqb_spec (length n1) (length ds)),
    (Nat.eqb_spec (length n1) (length ns)); cbn [andb negb]; auto; tauto.
Qed.

Lemma histogram_no_accountant r bins g sc sc' s : surface_now (hr_rec r) sc = (sc', Ok s) ->
  (forall id o, s_opt s <> Accountant id o) -> snd (histogram_hits r bins g sc) = Err AttributeError.
Proof.
  intros E N. unfold histogram_hits, bbind. rewrite E. destruct (s_opt s) eqn:O; try reflexivity. congruence.
Qed.

(** ** Assemblies *)
Lemma add_wrong_kind limit w n x c tr : w_node w n = Some x ->
  ((forall os ms, n_kind x <> KAsm os ms) -> 
     snd (add_object limit n c tr w) = Err AttributeError /\ snd (add_assembly limit n c tr w) = Err AttributeError /\
     w_node (fst (add_object limit n c tr w)) = w_node w /\ w_node (fst (add_assembly limit n c tr w)) = w_node w) /\
  ((forall ss bs, n_kind x <> KObj ss bs) ->
     add_surface limit n c w = (w, Err AttributeError) /\ add_boundary limit n c w = (w, Err AttributeError)) /\
  ((forall os ms, n_kind x <> KAsm os ms) -> get_objects (S limit) n w = (w, Err AttributeError)) /\
  ((forall ss bs, n_kind x <> KObj ss bs) -> (forall os ms, n_kind x <> KAsm os ms) ->
     get_surfaces (S limit) n w = (w, Err AttributeError)).
Proof.
  intros E.
  assert (D : forall v, exists w' r, default tr v w = (w', Ok r) /\ w_node w' = w_node w).
  { intros v. destruct tr as [r|]; [exists w, r; auto|]. do 2 eexists. split; reflexivity. }
  assert (G : get_node n w = (w, Ok x)) by (unfold get_node; rewrite E; reflexivity).
  split; [|split; [|split]].
  - intros N. destruct (D (A44 id4)) as (w' & r & D' & E').
    assert (G' : get_node n w' = (w', Ok x)) by (unfold get_node; rewrite E', E; reflexivity).
    unfold add_object, add_assembly, mbind. rewrite D', G'.
    destruct (n_kind x); try (repeat split; auto; fail). exfalso. eapply N. reflexivity.
  - intros N. unfold add_surface, add_boundary, mbind. rewrite G.
    destruct (n_kind x); try (split; reflexivity). exfalso. eapply N. reflexivity.
  - intros N. cbn [get_objects]. unfold mbind. rewrite G.
    destruct (n_kind x); try reflexivity. exfalso. eapply N. reflexivity.
  - intros N N'. cbn [get_surfaces]. unfold mbind. rewrite G.
    destruct (n_kind x); try reflexivity; exfalso; [eapply N|eapply N']; reflexivity.
Qed.

Lemma tower_no_accountant rec bins rx ry g sc sc' s : surface_now rec sc = (sc', Ok s) ->
  (forall id o, s_opt s <> Accountant id o) ->
  snd (reset_hits rec g sc) = Err AttributeError /\ snd (receiver_map rec bins rx ry g sc) = Err AttributeError.
Proof.
  intros E N. unfold reset_hits, receiver_map, bbind. rewrite E. destruct (s_opt s) eqn:O; try (split; reflexivity). congruence.
Qed.

Lemma square_no_width n c d : square_bundle n c d 0 = Err ValueError.
Proof. unfold square_bundle, Reqb. destruct (Req_EM_T 0 0); [reflexivity|congruence]. Qed.

(** ** Drawing *)
Lemma draw_misfit b b2 rest esc sel es v d ps v2 :
  b_energy b = Some es -> b_vert b = Some v -> b_dir b = Some d -> length v = length es -> length d = length es ->
  (forall f, sel = Some f -> length (f b) = length es) ->
  b_parents b2 = Some ps -> b_vert b2 = Some v2 -> length ps <> length v2 ->
  show_rays (b :: b2 :: rest) esc sel = Err ValueError.
Proof.
  intros Ee Ev Ed Lv Ld F Ep Ev2 N.
  assert (ND : exists nd, non_degenerate sel b = Ok nd /\ length nd = length es).
  { unfold non_degenerate, get_energy, get_prop. rewrite Ee. cbn [select bind].
    destruct sel as [f|]; [|eexists; split; [reflexivity|apply map_length]].
    unfold same_len. rewrite map_length, (F f eq_refl), Nat.eqb_refl.
    eexists; split; [reflexivity|]. rewrite map2_length; rewrite map_length; [reflexivity|symmetry; exact (F f eq_refl)]. }
  destruct ND as (nd & ND & L).
  unfold show_rays, get_bundle, take1. cbn [nth_error bind].
  unfold get_num_rays. unfold get_vertices at 1, get_prop at 1. rewrite Ev. cbn [select bind draw_levels hd_error].
  unfold level_ends. rewrite ND. cbn [bind]. unfold get_vertices, get_directions, get_parents, get_prop.
  rewrite Ev, Ed, Ep, Ev2. cbn [select bind]. unfold same_len at 1 2. rewrite L, Lv, Ld, Nat.eqb_refl. cbn [bind].
  set (k := map _ (nonzero nd)). unfold ends, same_len.
  assert (S : forall A (l : list A), length l = length es -> length (mask_select k (mask_select nd l)) = length (nonzero k)).
  { intros A l Ll. assert (K : length k = length (mask_select nd l)).
    { unfold k. rewrite map_length. rewrite mask_select_length by congruence.
      change (count_true nd = length (mask_select nd nd)). apply count_true_mask. }
    rewrite mask_select_length by exact K. symmetry. apply count_true_mask. }
  rewrite !app_length, map2_length; rewrite !S by auto; [|reflexivity].
  destruct (Nat.eqb_spec (length ps + length (nonzero k)) (length v2 + length (nonzero k))); [lia|]. reflexivity.
Qed.
Lemma draw_selector b rest esc f es v : b_energy b = Some es -> b_vert b = Some v -> length (f b) <> length es -> length (f b) <> 1 ->
  show_rays (b :: rest) esc (Some f) = Err ValueError.
Proof.
  intros Ee Ev N O. assert (ND : non_degenerate (Some f) b = Err ValueError).
  { unfold non_degenerate, get_energy, get_prop. rewrite Ee. cbn [select bind]. unfold same_len. rewrite map_length.
    destruct (Nat.eqb_spec (length (f b)) (length es)); [congruence|]. destruct (Nat.eqb_spec (length (f b)) 1); [congruence|reflexivity]. }
  unfold show_rays, get_bundle, take1. cbn [nth_error bind]. unfold get_num_rays. unfold get_vertices at 1, get_prop at 1. rewrite Ev. cbn [select bind draw_levels hd_error].
  unfold level_ends at 1. rewrite ND. reflexivity.
Qed.
Lemma trace_nothing {S G} (ops : surf_ops S G) objs g b n reps me ta : rays b n -> 0 < n -> 0 < reps ->
  ray_tracer ops objs [] g b reps me ta = Err ValueError.
Proof.
  intros Rb _ Hr. pose proof (rays_num b n Rb) as En. destruct reps as [|reps]; [lia|]. unfold ray_tracer, start. rewrite En. cbn [bind].
  cbn [iterate]. unfold iteration, intersect_ray. cbn [t_bund t_surfs t_own t_rel]. rewrite En. reflexivity.
Qed.
