(** The engine on surface objects does what it does on surfaces as values, if no two
    surfaces share a geometry manager. *)
From Coq Require Import Reals List Arith ZArith Bool Lia.
From Verif.Base Require Import Py Num Vec.
From Verif.Model Require Import RayBundle TraceTree Geometry OpticsCallables Engine Surface SharingEngine.
From Verif.Spec Require Import SharingSpec.
Import ListNotations.

(** ** Any heap *)
Section Sim.
Variables H S G : Type.
Variable hops : heap_ops H G.
Variable ops : surf_ops S G.
Variable view : H -> nat -> S.
Variable ks : list nat.
Variable inv : H -> Prop.
Hypothesis Nd : NoDup ks.

(** A change that concerns surface [k] only. *)
Definition only (k : nat) (h h' : H) : Prop := inv h' /\ forall j, In j ks -> j <> k -> view h' j = view h j.

Hypothesis reg : forall h k b, inv h -> In k ks ->
  match at_register hops h k b with
  | Ok (h', ps) => register_incoming ops (view h k) b = Ok (view h' k, ps) /\ only k h h'
  | Err e => register_incoming ops (view h k) b = Err e
  end.
Hypothesis sel : forall h k l, inv h -> In k ks ->
  match at_select hops h k l with
  | Ok h' => select_rays ops (view h k) l = Ok (view h' k) /\ only k h h'
  | Err e => select_rays ops (view h k) l = Err e
  end.
Hypothesis out : forall h k g, inv h -> In k ks -> get_outgoing ops (view h k) g = at_outgoing hops h k g.
Hypothesis don : forall h k, inv h -> In k ks -> done ops (view h k) = view (at_done hops h k) k /\ only k h (at_done hops h k).

(** A change that concerns the surfaces [l] only. *)
Definition onlys (l : list nat) (h h' : H) : Prop := inv h' /\ forall j, In j ks -> ~ In j l -> view h' j = view h j.

Lemma only_refl l h : inv h -> onlys l h h.
Proof. split; auto. Qed.
Lemma only_trans k h h1 h2 : only k h h1 -> only k h1 h2 -> only k h h2.
Proof. intros (_ & A) (I & B). split; auto. intros j Hj N. rewrite B, A; auto. Qed.
Lemma onlys_cons k l h h1 h2 : only k h h1 -> onlys l h1 h2 -> onlys (k :: l) h h2.
Proof. intros (_ & A) (I & B). split; auto. intros j Hj N. cbn in N. rewrite B, A; auto. Qed.

Lemma test_sim b n own h k so rel : inv h -> In k ks ->
  match test_at hops b n own h k so rel with
  | Ok (h', row, owned) => test_surface ops b n own (view h k) so rel = Ok (view h' k, row, owned) /\ only k h h'
  | Err e => test_surface ops b n own (view h k) so rel = Err e
  end.
Proof.
  intros I Hk. unfold test_at, test_surface.
  destruct (negb _); [reflexivity|]. destruct (negb (any _)). { split; [reflexivity|]. split; auto. }
  destruct (if any _ then _ else _) as [r|e]; cbn [bind]; [|reflexivity].
  pose proof (reg h k r I Hk) as Q. destruct (at_register hops h k r) as [[h' ps]|e]; [|rewrite Q; reflexivity].
  destruct Q as (-> & O). cbn [bind]. destruct (Nat.eqb _ _); auto.
Qed.

Lemma view_map l h h' : (forall j, In j l -> view h' j = view h j) -> map (view h') l = map (view h) l.
Proof. intros E. apply map_ext_in. exact E. Qed.

Lemma test_all_sim b n own l : forall h sown rel, inv h -> (forall k, In k l -> In k ks) -> NoDup l ->
  match test_all hops b n own h l sown rel with
  | Ok (h', rows, owneds) => test_surfaces ops b n own (map (view h) l) sown rel = Ok (map (view h') l, rows, owneds) /\ onlys l h h'
  | Err e => test_surfaces ops b n own (map (view h) l) sown rel = Err e
  end.
Proof.
  induction l as [|k l IH]; intros h sown rel I Hl D; cbn [test_all map test_surfaces].
  { split; [reflexivity|apply only_refl; auto]. }
  destruct sown as [|so sown]; [reflexivity|]. destruct rel as [|r rel]; [reflexivity|]. inversion D as [|? ? Nk D']; subst.
  pose proof (test_sim b n own h k so r I (Hl k (or_introl eq_refl))) as Q.
  destruct (test_at hops b n own h k so r) as [[[h1 row] owned]|e]; [|rewrite Q; reflexivity].
  destruct Q as (-> & O). cbn [bind].
  assert (E : map (view h) l = map (view h1) l).
  { symmetry. apply view_map. intros j Hj. apply O; [apply Hl; right; auto|]. intros ->. auto. }
  rewrite E. specialize (IH h1 sown rel (proj1 O) (fun j Hj => Hl j (or_intror Hj)) D').
  destruct (test_all hops b n own h1 l sown rel) as [[[h2 rows] owneds]|e]; [|rewrite IH; reflexivity].
  destruct IH as (-> & O2). cbn [bind]. split; [|eapply onlys_cons; eauto].
  rewrite (proj2 O2 k (Hl k (or_introl eq_refl)) Nk). reflexivity.
Qed.

Lemma intersect_sim b h sown own rel : inv h ->
  match intersect_at hops b h ks sown own rel with
  | Ok (h', fr, owneds) => intersect_ray ops b (map (view h) ks) sown own rel = Ok (map (view h') ks, fr, owneds) /\ inv h'
  | Err e => intersect_ray ops b (map (view h) ks) sown own rel = Err e
  end.
Proof.
  intros I. unfold intersect_at, intersect_ray. destruct (get_num_rays b) as [n|e]; cbn [bind]; [|reflexivity].
  pose proof (test_all_sim b n own ks h sown rel I (fun _ h => h) Nd) as Q.
  destruct (test_all hops b n own h ks sown rel) as [[[h1 rows] owneds]|e]; [|rewrite Q; reflexivity].
  destruct Q as (-> & O). cbn [bind]. destruct (any2 _ rows); [reflexivity|].
  destruct (col_min (clear_zeros rows)) as [m|e]; cbn [bind]; [|reflexivity]. split; [reflexivity|apply O].
Qed.

Lemma process_sim objs me idx h k g fr owned : inv h -> In k ks ->
  match process_at hops objs me idx h k g fr owned with
  | Ok (h', g', b) => process_surface ops objs me idx (view h k) g fr owned = Ok (view h' k, g', b) /\ only k h h'
  | Err e => process_surface ops objs me idx (view h k) g fr owned = Err e
  end.
Proof.
  intros I Hk. unfold process_at, process_surface.
  destruct (negb _). { destruct (don h k I Hk) as (-> & O). split; auto. }
  pose proof (sel h k (nonzero (mask_select owned fr)) I Hk) as Q.
  destruct (at_select hops h k _) as [h1|e]; cbn [bind]; [|rewrite Q; reflexivity].
  destruct Q as (-> & O). cbn [bind]. rewrite (out h1 k g (proj1 O) Hk).
  destruct (don h1 k (proj1 O) Hk) as (Ed & Od). rewrite Ed.
  destruct (at_outgoing hops h1 k g) as [[o g1]|e]; cbn [bind]; [|reflexivity].
  repeat match goal with
  | |- match bind ?x _ with _ => _ end => destruct x; cbn [bind]; [|reflexivity]
  end.
  split; [reflexivity|]. eapply only_trans; eauto.
Qed.

Lemma process_all_sim objs me l : forall idx h g frs owneds, inv h -> (forall k, In k l -> In k ks) -> NoDup l ->
  match process_all hops objs me idx h l g frs owneds with
  | Ok (h', g', bs) => process_surfaces ops objs me idx (map (view h) l) g frs owneds = Ok (map (view h') l, g', bs) /\ onlys l h h'
  | Err e => process_surfaces ops objs me idx (map (view h) l) g frs owneds = Err e
  end.
Proof.
  induction l as [|k l IH]; intros idx h g frs owneds I Hl D; cbn [process_all map process_surfaces].
  { split; [reflexivity|apply only_refl; auto]. }
  destruct frs as [|f frs]; [reflexivity|]. destruct owneds as [|o owneds]; [reflexivity|]. inversion D as [|? ? Nk D']; subst.
  pose proof (process_sim objs me idx h k g f o I (Hl k (or_introl eq_refl))) as Q.
  destruct (process_at hops objs me idx h k g f o) as [[[h1 g1] b]|e]; [|rewrite Q; reflexivity].
  destruct Q as (-> & O). cbn [bind].
  assert (E : map (view h) l = map (view h1) l).
  { symmetry. apply view_map. intros j Hj. apply O; [apply Hl; right; auto|]. intros ->. auto. }
  rewrite E. specialize (IH (Datatypes.S idx) h1 g1 frs owneds (proj1 O) (fun j Hj => Hl j (or_intror Hj)) D').
  destruct (process_all hops objs me (Datatypes.S idx) h1 l g1 frs owneds) as [[[h2 g2] bs]|e]; [|rewrite IH; reflexivity].
  destruct IH as (-> & O2). cbn [bind]. split; [|eapply onlys_cons; eauto].
  rewrite (proj2 O2 k (Hl k (or_introl eq_refl)) Nk). reflexivity.
Qed.

Definition lower (h : H) (st : tstate nat G) : tstate S G :=
  mkT (map (view h) (t_surfs st)) (t_g st) (t_bund st) (t_own st) (t_rel st) (t_tree st) (t_record st).

Lemma iteration_sim objs me ta h st : inv h -> t_surfs st = ks ->
  match iteration_at hops objs me ta h st with
  | Ok (h', st', go) => iteration ops objs me ta (lower h st) = Ok (lower h' st', go) /\ inv h' /\ t_surfs st' = ks
  | Err e => iteration ops objs me ta (lower h st) = Err e
  end.
Proof.
  intros I Es. unfold iteration_at, iteration, lower. cbn [t_surfs t_g t_bund t_own t_rel t_tree t_record]. rewrite Es.
  pose proof (intersect_sim (t_bund st) h (surf_ownership objs) (t_own st) (t_rel st) I) as Q.
  destruct (intersect_at hops (t_bund st) h ks _ _ _) as [[[h1 fr] owned]|e]; [|rewrite Q; reflexivity].
  destruct Q as (-> & I1). cbn [bind].
  pose proof (process_all_sim objs me ks 0 h1 (t_g st) fr owned I1 (fun _ h => h) Nd) as Q.
  destruct (process_all hops objs me 0 h1 ks (t_g st) fr owned) as [[[h2 g2] bs]|e]; [|rewrite Q; reflexivity].
  destruct Q as (-> & (I2 & _)). cbn [bind].
  destruct (concatenate_rays (map k_strong bs)) as [bund|e]; cbn [bind]; [|reflexivity].
  destruct (match ta with TreeFalse => _ | _ => _ end) as [tr|e]; cbn [bind]; [|reflexivity].
  destruct (get_num_rays bund) as [n|e]; cbn [bind]; [|reflexivity]. rewrite map_length.
  destruct (Nat.eqb n 0); cbn [t_surfs t_g t_bund t_own t_rel t_tree t_record]; auto.
Qed.

Lemma iterate_sim objs me ta reps : forall h st, inv h -> t_surfs st = ks ->
  match iterate_at hops objs me ta reps h st with
  | Ok (h', st') => iterate ops objs me ta reps (lower h st) = Ok (lower h' st') /\ inv h' /\ t_surfs st' = ks
  | Err e => iterate ops objs me ta reps (lower h st) = Err e
  end.
Proof.
  induction reps as [|reps IH]; intros h st I Es; cbn [iterate_at iterate]; auto.
  pose proof (iteration_sim objs me ta h st I Es) as Q.
  destruct (iteration_at hops objs me ta h st) as [[[h1 st1] go]|e]; [|rewrite Q; reflexivity].
  destruct Q as (-> & I1 & E1). cbn [bind]. destruct go; [apply IH; auto|auto].
Qed.

Lemma tracer_sim objs h g b reps me ta : inv h ->
  match ray_tracer_at hops objs h ks g b reps me ta with
  | Ok (v, d, (h', st)) => ray_tracer ops objs (map (view h) ks) g b reps me ta = Ok (v, d, lower h' st) /\ inv h' /\ t_surfs st = ks
  | Err e => ray_tracer ops objs (map (view h) ks) g b reps me ta = Err e
  end.
Proof.
  intros I. unfold ray_tracer_at, ray_tracer, start. destruct (get_num_rays b) as [n|e]; cbn [bind]; [|reflexivity].
  set (st0 := mkT ks g b _ _ _ None). rewrite map_length.
  change (mkT (map (view h) ks) g b (repeat (-1)%Z n) (repeat (repeat true n) (length ks)) _ None) with (lower h st0).
  pose proof (iterate_sim objs me ta reps h st0 I eq_refl) as Q.
  destruct (iterate_at hops objs me ta reps h st0) as [[h1 st1]|e]; [|rewrite Q; reflexivity].
  destruct Q as (-> & I1 & E1). cbn [bind]. unfold lower at 1.
  destruct ta; cbn [bind].
  1,2: cbn [t_surfs t_g t_bund t_own t_rel t_tree t_record lower];
    destruct (get_vertices (t_bund st1)); cbn [bind]; [|reflexivity]; destruct (get_directions (t_bund st1)); cbn [bind]; auto.
  unfold lower. cbn [t_surfs t_g t_bund t_own t_rel t_tree t_record]. destruct (t_record st1) as [bs|] eqn:Er; cbn [bind]; [|reflexivity].
  destruct (concatenate_rays bs) as [r|e]; cbn [bind]; [|reflexivity].
  cbn [t_surfs t_g t_bund t_own t_rel t_tree t_record].
  destruct (get_vertices (t_bund st1)); cbn [bind]; [|reflexivity]; destruct (get_directions (t_bund st1)); cbn [bind]; auto.
Qed.
End Sim.

(** ** Surface objects *)
Definition gm (h : heap) (k : nat) : nat := so_geom (hp_surf h k).

Section Objects.
Variable h0 : heap.
Variable ks : list nat.
Hypothesis Un : unshared h0 ks.

Definition intact (h : heap) : Prop := (forall k, gm h k = gm h0 k) /\ elsewhere_same ks h0 h.

Lemma gm_apart j k : In j ks -> In k ks -> j <> k -> gm h0 j <> gm h0 k.
Proof.
  unfold unshared in Un. fold (gm h0) in Un. clear -Un. induction ks as [|x l IH]; cbn; [tauto|]. cbn in Un. inversion Un as [|? ? N D]; subst.
  intros [->|Hj] [->|Hk] Nk; try congruence.
  - intros E. apply N. apply in_map_iff. exists k. auto.
  - intros E. apply N. apply in_map_iff. exists j. auto.
  - auto.
Qed.

Lemma ks_distinct : NoDup ks.
Proof. apply (NoDup_map_inv (gm h0)). exact Un. Qed.

Lemma upd_eq {A} (f : nat -> A) k v : upd f k v k = v.
Proof. unfold upd. rewrite Nat.eqb_refl. reflexivity. Qed.
Lemma upd_ne {A} (f : nat -> A) k v j : j <> k -> upd f k v j = f j.
Proof. unfold upd. intros N. apply Nat.eqb_neq in N. rewrite N. reflexivity. Qed.

(** Setting the trace data of a surface and of its geometry manager. *)
Definition poke (h : heap) (k : nat) (b : option bundle) (l : option (list nat)) (gs : gstate) : heap :=
  let s := hp_surf h k in put_geom (put_surf h k (mkSO (so_geom s) (so_opt s) (so_frame s) b l)) (so_geom s) gs.

Lemma poke_view h k b l gs : surf_at (poke h k b l gs) k =
  mkS (s_geom (surf_at h k)) (s_opt (surf_at h k)) (s_frame (surf_at h k)) gs b l.
Proof. unfold surf_at, poke. cbn [put_geom put_surf hp_surf hp_geom]. rewrite !upd_eq. cbn [so_geom so_opt so_frame so_bundle so_selected go_geom]. reflexivity. Qed.

Lemma poke_only h k b l gs : intact h -> In k ks -> only heap surface surf_at ks intact k h (poke h k b l gs).
Proof.
  intros (Hg & He) Hk. 
  assert (Ej : forall j, j <> k -> hp_surf (poke h k b l gs) j = hp_surf h j) by (intros j N; unfold poke; cbn [put_geom put_surf hp_surf]; apply upd_ne; auto).
  assert (Em : forall m, m <> gm h k -> hp_geom (poke h k b l gs) m = hp_geom h m) by (intros m N; unfold poke; cbn [put_geom put_surf hp_geom]; apply upd_ne; exact N).
  split; [split|].
  - intros j. destruct (Nat.eq_dec j k) as [->|N]; [|unfold gm; rewrite Ej; [apply Hg|exact N]].
    rewrite <- Hg. unfold gm, poke. cbn [put_geom put_surf hp_surf]. rewrite upd_eq. reflexivity.
  - destruct He as (E1 & E2). split.
    + intros j N. rewrite Ej; [auto|]. intros ->. auto.
    + intros m N. rewrite Em; [auto|]. rewrite Hg. apply not_eq_sym. apply N; auto.
  - intros j Hj N. unfold surf_at. rewrite Ej by exact N. rewrite Em; [reflexivity|].
    change (gm h j <> gm h k). rewrite !Hg. apply gm_apart; auto.
Qed.

Lemma objects_sim objs g b reps me ta :
  match ray_tracer_at object_ops objs h0 ks g b reps me ta with
  | Ok (v, d, (h', st)) => ray_tracer surface_ops objs (map (surf_at h0) ks) g b reps me ta = Ok (v, d, by_value h' st) /\
      t_surfs st = ks /\ unshared h' ks /\ elsewhere_same ks h0 h'
  | Err e => ray_tracer surface_ops objs (map (surf_at h0) ks) g b reps me ta = Err e
  end.
Proof.
  pose proof (tracer_sim heap surface shared object_ops surface_ops surf_at ks intact ks_distinct) as T.
  assert (reg : forall h k b, intact h -> In k ks ->
    match at_register object_ops h k b with
    | Ok (h', ps) => register_incoming surface_ops (surf_at h k) b = Ok (surf_at h' k, ps) /\ only heap surface surf_at ks intact k h h'
    | Err e => register_incoming surface_ops (surf_at h k) b = Err e
    end).
  { intros h k r I Hk. cbn [at_register object_ops register_incoming surface_ops]. unfold obj_register, surf_register.
    cbn [put_surf hp_geom]. change (s_geom (surf_at h k)) with (go_geom (hp_geom h (so_geom (hp_surf h k)))).
    change (s_frame (surf_at h k)) with (so_frame (hp_surf h k)).
    destruct (find_intersections _ _ r) as [[gs ps]|e]; cbn [bind]; [|reflexivity].
    change (put_geom _ _ gs) with (poke h k (Some r) (so_selected (hp_surf h k)) gs).
    split; [|apply poke_only; auto]. rewrite poke_view. reflexivity. }
  assert (sel : forall h k l, intact h -> In k ks ->
    match at_select object_ops h k l with
    | Ok h' => select_rays surface_ops (surf_at h k) l = Ok (surf_at h' k) /\ only heap surface surf_at ks intact k h h'
    | Err e => select_rays surface_ops (surf_at h k) l = Err e
    end).
  { intros h k l I Hk. cbn [at_select object_ops select_rays surface_ops]. unfold obj_select, surf_select.
    cbn [put_surf hp_geom]. change (s_geom (surf_at h k)) with (go_geom (hp_geom h (so_geom (hp_surf h k)))).
    change (s_gstate (surf_at h k)) with (go_state (hp_geom h (so_geom (hp_surf h k)))).
    destruct (select_geom _ _ l) as [gs|e]; cbn [bind]; [|reflexivity].
    change (put_geom _ _ gs) with (poke h k (so_bundle (hp_surf h k)) (Some l) gs).
    split; [|apply poke_only; auto]. rewrite poke_view. reflexivity. }
  assert (out : forall h k g, intact h -> In k ks -> get_outgoing surface_ops (surf_at h k) g = at_outgoing object_ops h k g) by reflexivity.
  assert (don : forall h k, intact h -> In k ks -> done surface_ops (surf_at h k) = surf_at (at_done object_ops h k) k /\
    only heap surface surf_at ks intact k h (at_done object_ops h k)).
  { intros h k I Hk. cbn [at_done object_ops done surface_ops]. unfold obj_done.
    change (put_geom _ _ _) with (poke h k None (so_selected (hp_surf h k)) (done_geom (go_state (hp_geom h (so_geom (hp_surf h k)))))).
    split; [|apply poke_only; auto]. rewrite poke_view. reflexivity. }
  specialize (T reg sel out don objs h0 g b reps me ta).
  assert (I0 : intact h0) by (split; [auto|split; auto]). specialize (T I0).
  destruct (ray_tracer_at object_ops objs h0 ks g b reps me ta) as [[[v d] [h' st]]|e]; [|exact T].
  destruct T as (E & (Hg & He) & Es). split; [exact E|]. split; [exact Es|]. split; [|exact He].
  unfold unshared. fold (gm h'). rewrite (map_ext _ _ Hg). exact Un.
Qed.
End Objects.
