(** Bundles with vertices, directions and energies replaced element by element. *)
From Coq Require Import Reals String List Arith ZArith Bool Lia.
From Verif.Base Require Import Py Num Vec.
From Verif.Model Require Import RayBundle TraceTree Engine.
From Verif.Proof Require Import ListLemmas NumLemmas SimProof.
Import ListNotations.

Definition rmap {A B} (f : A -> B) (x : res A) : res B := match x with Ok a => Ok (f a) | Err e => Err e end.

Lemma rmap_id {A} (x : res A) : rmap (fun a => a) x = x. Proof. destruct x; auto. Qed.
Lemma bind_rmap {A B C} (f : A -> B) x (k : B -> res C) : bind (rmap f x) k = bind x (fun a => k (f a)).
Proof. destruct x; auto. Qed.
Lemma rmap_bind {A B C} (f : B -> C) (x : res A) k : rmap f (bind x k) = bind x (fun a => rmap f (k a)).
Proof. destruct x; auto. Qed.
Lemma bind_ext {A B} (x : res A) (f g : A -> res B) : (forall a, x = Ok a -> f a = g a) -> bind x f = bind x g.
Proof. destruct x; simpl; auto. Qed.
Lemma rel_rmap {A B} (f : A -> B) x : rel_res (fun a b => b = f a) x (rmap f x).
Proof. destruct x; simpl; auto. Qed.
Lemma rel_of_eq {A B} (f : A -> B) x y : y = rmap f x -> rel_res (fun a b => b = f a) x y.
Proof. intros ->. apply rel_rmap. Qed.
Lemma rel_refl {A} (x : res A) : rel_res eq x x. Proof. destruct x; simpl; auto. Qed.
Lemma rel_imp {A B} (P Q : A -> B -> Prop) x y : (forall a b, P a b -> Q a b) -> rel_res P x y -> rel_res Q x y.
Proof. destruct x, y; simpl; auto. Qed.

Lemma take1_map {A B} (f : A -> B) l i : take1 (map f l) i = rmap f (take1 l i).
Proof. unfold take1. rewrite nth_error_map. destruct (nth_error l i); auto. Qed.
Lemma sequence_rmap {A B C} (f : B -> C) (k : A -> res B) l :
  sequence (map (fun a => rmap f (k a)) l) = rmap (map f) (sequence (map k l)).
Proof.
  induction l as [|a l IH]; simpl; auto. destruct (k a); simpl; auto. rewrite IH.
  destruct (sequence (map k l)); auto.
Qed.
Lemma take_rmap {A B} (f : A -> B) l idx : take (map f l) idx = rmap (map f) (take l idx).
Proof.
  unfold take, mapM. rewrite <- (sequence_rmap f (take1 l)). f_equal. apply map_ext. intros i. apply take1_map.
Qed.
Lemma same_len_map_l {A B C} (f : A -> B) l (k : list C) : same_len (map f l) k = same_len l k.
Proof. unfold same_len. rewrite map_length. auto. Qed.
Lemma same_len_map_r {A B C} (f : A -> B) l (k : list C) : same_len k (map f l) = same_len k l.
Proof. unfold same_len. rewrite map_length. auto. Qed.
Lemma select_rmap {A B} (f : A -> B) sel l : select sel (map f l) = rmap (map f) (select sel l).
Proof.
  destruct sel; simpl; auto.
  - apply take_rmap.
  - rewrite same_len_map_r. destruct (same_len m l); auto. rewrite mask_select_map. auto.
Qed.
Lemma get_prop_rmap {A B} (f : A -> B) p sel : get_prop (option_map (map f) p) sel = rmap (map f) (get_prop p sel).
Proof. destruct p; simpl; auto. apply select_rmap. Qed.
Lemma inherit_prop_rmap {A B} (f : A -> B) sel given own :
  inherit_prop sel (option_map (map f) given) (option_map (map f) own) =
  rmap (option_map (map f)) (inherit_prop sel given own).
Proof. destruct given; simpl; auto. destruct own; simpl; auto. rewrite select_rmap. destruct (select sel l); auto. Qed.
Lemma add_prop_map {A B} (f : A -> B) a b :
  add_prop (option_map (map f) a) (option_map (map f) b) = option_map (map f) (add_prop a b).
Proof. destruct a, b; simpl; auto. rewrite map_app. auto. Qed.

Lemma fill_mask_map {A B} (f : A -> B) m l v : fill_mask m (map f l) (f v) = map f (fill_mask m l v).
Proof. revert l; induction m; intros [|x l]; simpl; auto. rewrite IHm. destruct a; auto. Qed.

Section Moved.
Variables (f g : vec -> vec) (h : R -> R).

Definition mvb (b : bundle) : bundle :=
  mkB (option_map (map f) (b_vert b)) (option_map (map g) (b_dir b)) (option_map (map h) (b_energy b))
      (b_parents b) (b_ref b) (b_extra b).

Lemma mvb_vertices b : get_vertices (mvb b) = rmap (map f) (get_vertices b).
Proof. apply get_prop_rmap. Qed.
Lemma mvb_directions b : get_directions (mvb b) = rmap (map g) (get_directions b).
Proof. apply get_prop_rmap. Qed.
Lemma mvb_energy b : get_energy (mvb b) = rmap (map h) (get_energy b).
Proof. apply get_prop_rmap. Qed.
Lemma mvb_parents b : get_parents (mvb b) = get_parents b. Proof. reflexivity. Qed.
Lemma mvb_ref b : get_ref_index (mvb b) = get_ref_index b. Proof. reflexivity. Qed.
Lemma mvb_num b : get_num_rays (mvb b) = get_num_rays b.
Proof. unfold get_num_rays. simpl. destruct (b_vert b); simpl; rewrite ?map_length; auto. Qed.
Lemma mvb_set_parents p b : set_parents p (mvb b) = mvb (set_parents p b). Proof. reflexivity. Qed.
Lemma mvb_set_energy e b : set_energy (map h e) (mvb b) = mvb (set_energy e b). Proof. reflexivity. Qed.

Lemma mvb_inherit b sel ov : inherit (mvb b) sel (mvb ov) = rmap mvb (inherit b sel ov).
Proof.
  unfold inherit. cbn [mvb b_vert b_dir b_energy b_parents b_ref b_extra].
  rewrite !inherit_prop_rmap. rewrite !rmap_bind, bind_rmap. apply bind_ext. intros v _.
  rewrite !rmap_bind, bind_rmap. apply bind_ext. intros d _.
  rewrite !rmap_bind, bind_rmap. apply bind_ext. intros e _.
  rewrite !rmap_bind. apply bind_ext. intros p _.
  rewrite !rmap_bind. apply bind_ext. intros n _.
  rewrite !rmap_bind. apply bind_ext. intros x _. reflexivity.
Qed.
Lemma mvb_none : mvb no_bundle = no_bundle. Proof. reflexivity. Qed.
Lemma mvb_inherit0 b sel : inherit (mvb b) sel no_bundle = rmap mvb (inherit b sel no_bundle).
Proof. rewrite <- mvb_none at 1. apply mvb_inherit. Qed.
Lemma mvb_delete b sel : delete_rays (mvb b) sel = rmap mvb (delete_rays b sel).
Proof. unfold delete_rays. rewrite mvb_num, rmap_bind. apply bind_ext. intros n _. apply mvb_inherit0. Qed.
Lemma mvb_add a b : add_bundles (mvb a) (mvb b) = mvb (add_bundles a b).
Proof. unfold add_bundles, mvb. cbn [b_vert b_dir b_energy b_parents b_ref b_extra]. rewrite !add_prop_map. auto. Qed.

Lemma concat_prop_mvb {A B} (k : A -> B) (get : bundle -> option (list A)) (get' : bundle -> option (list B)) bs :
  (forall b, get' (mvb b) = option_map (map k) (get b)) ->
  concat_prop get' (map mvb bs) = rmap (option_map (map k)) (concat_prop get bs).
Proof.
  intros E. unfold concat_prop. destruct bs as [|b bs]; [reflexivity|].
  change (map mvb (b :: bs)) with (mvb b :: map mvb bs). cbn [map]. rewrite E. destruct (get b); [|reflexivity].
  change (mvb b :: map mvb bs) with (map mvb (b :: bs)).
  unfold mapM. rewrite map_map.
  rewrite (map_ext (fun x => get_prop (get' (mvb x)) SAll) (fun x => rmap (map k) (get_prop (get x) SAll))).
  2:{ intros x. rewrite E. apply get_prop_rmap. }
  rewrite sequence_rmap, bind_rmap, rmap_bind. apply bind_ext. intros ls _. simpl. rewrite concat_map. auto.
Qed.

Lemma concat_extras_mvb own bs : concat_extras own (map mvb bs) = concat_extras own bs.
Proof.
  induction own as [|[n v] own IH]; simpl; auto. destruct v; auto. rewrite IH. unfold mapM. rewrite map_map. reflexivity.
Qed.

Lemma option_map_map_id {A} (o : option (list A)) : option_map (map (fun x => x)) o = o.
Proof. destruct o; simpl; auto. rewrite map_id. auto. Qed.

Lemma mvb_concat bs : concatenate_rays (map mvb bs) = rmap mvb (concatenate_rays bs).
Proof.
  destruct bs as [|b bs]; [reflexivity|]. unfold concatenate_rays.
  change (map mvb (b :: bs)) with (mvb b :: map mvb bs). cbv iota.
  change (mvb b :: map mvb bs) with (map mvb (b :: bs)).
  rewrite (concat_prop_mvb f b_vert b_vert), (concat_prop_mvb g b_dir b_dir), (concat_prop_mvb h b_energy b_energy) by auto.
  rewrite !rmap_bind, bind_rmap. apply bind_ext. intros v _.
  rewrite !rmap_bind, bind_rmap. apply bind_ext. intros d _.
  rewrite !rmap_bind, bind_rmap. apply bind_ext. intros e _.
  rewrite (concat_prop_mvb (fun x => x) b_parents b_parents) by (intros; rewrite option_map_map_id; auto).
  rewrite !rmap_bind, bind_rmap. apply bind_ext. intros p _. rewrite option_map_map_id.
  rewrite (concat_prop_mvb (fun x => x) b_ref b_ref) by (intros; rewrite option_map_map_id; auto).
  rewrite !rmap_bind, bind_rmap. apply bind_ext. intros n _. rewrite option_map_map_id.
  rewrite concat_extras_mvb. cbn [mvb b_extra].
  rewrite !rmap_bind. apply bind_ext. intros x _. reflexivity.
Qed.

(** ** The engine *)
Variables (me me' : R).
Hypothesis Hh : forall x, Rleb (h x) me' = Rleb x me.

Context {S1 S2 G1 G2 : Type}.
Variables (ops1 : surf_ops S1 G1) (ops2 : surf_ops S2 G2) (Rl : S1 -> S2 -> Prop) (Rg : G1 -> G2 -> Prop).

Record msim : Prop := {
  msim_reg : forall a b k, Rl a b ->
    rel_res (fun x y => Rl (fst x) (fst y) /\ snd x = snd y)
      (register_incoming ops1 a k) (register_incoming ops2 b (mvb k));
  msim_sel : forall a b idx, Rl a b ->
    rel_res (fun x y => (forall g1 g2, Rg g1 g2 ->
                rel_res (fun p q => fst q = mvb (fst p) /\ Rg (snd p) (snd q)) (get_outgoing ops1 x g1) (get_outgoing ops2 y g2)) /\
                        Rl (done ops1 x) (done ops2 y))
      (select_rays ops1 a idx) (select_rays ops2 b idx);
  msim_done : forall a b, Rl a b -> Rl (done ops1 a) (done ops2 b) }.

Hypothesis Hs : msim.
Variable objs : list obj.
Hypothesis Hown : forall o b k, In o objs -> own_rays o (mvb b) k = own_rays o b k.
Hypothesis Hnext : forall o b k, In o objs -> surfaces_for_next o (mvb b) k = surfaces_for_next o b k.

Lemma test_surface_mv b n own s1 s2 so rel : Rl s1 s2 ->
  rel_res (fun x y => Rl (fst (fst x)) (fst (fst y)) /\ snd (fst x) = snd (fst y) /\ snd x = snd y)
    (test_surface ops1 b n own s1 so rel) (test_surface ops2 (mvb b) n own s2 so rel).
Proof.
  intros H. unfold test_surface.
  destruct (negb (Nat.eqb (length own) n && Nat.eqb (length rel) n)); [reflexivity|].
  destruct (negb (any (owned_row own so rel))); [simpl; auto|].
  eapply rel_bind with (R := fun k k' => k' = mvb k).
  { destruct (any (map negb (owned_row own so rel))); [|simpl; auto].
    apply rel_of_eq. apply mvb_inherit0. }
  intros k k' ->. eapply rel_bind; [apply (msim_reg Hs _ _ k H)|].
  intros [a p] [c q] (Ha & Hp). cbn [fst snd] in *. subst q.
  destruct (Nat.eqb (length p) (count_true (owned_row own so rel))); simpl; auto.
Qed.

Lemma test_surfaces_mv b n own ss1 : forall ss2 sown rel, Forall2 Rl ss1 ss2 ->
  rel_res (stack_rel Rl) (test_surfaces ops1 b n own ss1 sown rel) (test_surfaces ops2 (mvb b) n own ss2 sown rel).
Proof.
  induction ss1 as [|a ss1 IH]; intros [|c ss2] sown rel H; inversion H; subst.
  - cbn [test_surfaces rel_res]. split; [constructor|]. auto.
  - cbn [test_surfaces]. destruct sown as [|so sown], rel as [|r rel]; try reflexivity.
    eapply rel_bind; [apply (test_surface_mv b n own a c so r); auto|].
    intros [[x row] ow] [[y row'] ow'] (Hx & E1 & E2). cbn [fst snd] in *. subst row' ow'.
    eapply rel_bind; [apply IH; auto|].
    intros [[xs rows] ows] [[ys rows'] ows'] (Hxs & E1 & E2). cbn [fst snd] in *. subst rows' ows'.
    cbn [rel_res]. split; [constructor; auto|]. auto.
Qed.

Lemma intersect_ray_mv b ss1 ss2 sown own rel : Forall2 Rl ss1 ss2 ->
  rel_res (fun x y => Forall2 Rl (fst (fst x)) (fst (fst y)) /\ snd (fst x) = snd (fst y) /\ snd x = snd y)
    (intersect_ray ops1 b ss1 sown own rel) (intersect_ray ops2 (mvb b) ss2 sown own rel).
Proof.
  intros H. unfold intersect_ray. rewrite mvb_num. apply rel_same. intros n _.
  eapply rel_bind; [apply test_surfaces_mv; eauto|].
  intros [[xs st] ow] [[ys st'] ow'] (Hx & E1 & E2). cbn [fst snd] in *. subst st' ow'.
  destruct (any2 (fun x => nlt x (Fin (- tenm 16))) st); [reflexivity|].
  apply rel_same. intros m _. cbn [rel_res fst snd]. auto.
Qed.

Definition mvk (k : block) : block := mkBlock (mvb (k_strong k)) (mvb (k_rec k)) (k_weak k) (k_own k) (k_rel k).

Lemma process_surface_mv idx a c g1 g2 fr o : Rl a c -> Rg g1 g2 ->
  rel_res (fun x y => Rl (fst (fst x)) (fst (fst y)) /\ Rg (snd (fst x)) (snd (fst y)) /\ snd y = option_map mvk (snd x))
    (process_surface ops1 objs me idx a g1 fr o) (process_surface ops2 objs me' idx c g2 fr o).
Proof.
  intros H HG. unfold process_surface. destruct (negb (any (mask_select o fr))).
  - cbn [rel_res fst snd]. split; auto. apply (msim_done Hs); auto.
  - eapply rel_bind; [apply (msim_sel Hs _ _ _ H)|]. intros x y (Ho & Hd). cbn [bind].
    eapply rel_bind; [apply (Ho g1 g2 HG)|]. intros [ob ga] [ob' gb] (Eo & Hg). cbn [fst snd] in *. subst ob'.
    rewrite mvb_parents. apply rel_same. intros ps _. apply rel_same. intros parents _.
    rewrite mvb_set_parents, mvb_energy.
    eapply rel_bind with (R := fun e e' => e' = map h e); [apply rel_rmap|]. intros e e' ->.
    rewrite map_map, (map_ext (fun x0 => Rleb (h x0) me') (fun x0 => Rleb x0 me)) by auto.
    eapply rel_bind with (R := fun k k' => k' = mvb k).
    { destruct (any (map (fun x0 => Rleb x0 me) e)); [|simpl; auto].
      apply rel_of_eq, mvb_delete. }
    intros strong strong' ->. apply rel_same. intros oi _. apply rel_same. intros oj Hoj.
    assert (Hin : In oj objs).
    { unfold take1 in Hoj. destruct (nth_error objs oi) eqn:E; inversion Hoj; subst. eapply nth_error_In; eauto. }
    rewrite Hown by auto. apply rel_same. intros owns _. rewrite mvb_num. apply rel_same. intros n _.
    rewrite Hnext by auto. apply rel_same. intros next _. apply rel_same. intros rel _. cbn [rel_res fst snd]. auto.
Qed.

Lemma process_surfaces_mv ss1 : forall idx ss2 g1 g2 frs os, Forall2 Rl ss1 ss2 -> Rg g1 g2 ->
  rel_res (fun x y => Forall2 Rl (fst (fst x)) (fst (fst y)) /\ Rg (snd (fst x)) (snd (fst y)) /\ snd y = map mvk (snd x))
    (process_surfaces ops1 objs me idx ss1 g1 frs os) (process_surfaces ops2 objs me' idx ss2 g2 frs os).
Proof.
  induction ss1 as [|a ss1 IH]; intros idx [|c ss2] g1 g2 frs os H HG; inversion H; subst.
  - cbn [process_surfaces rel_res fst snd]. split; [constructor|]. auto.
  - cbn [process_surfaces]. destruct frs as [|fr frs], os as [|o os]; try reflexivity.
    eapply rel_bind; [apply (process_surface_mv idx a c g1 g2 fr o); auto|].
    intros [[x ga] k] [[y gb] k'] (Hx & E1 & E2). cbn [fst snd] in *. subst k'.
    eapply rel_bind; [apply IH; eauto|].
    intros [[xs gc] ks] [[ys gd] ks'] (Hxs & E3 & E4). cbn [fst snd] in *. subst ks'.
    cbn [rel_res fst snd]. split; [constructor; auto|]. split; auto. destruct k; auto.
Qed.

Definition mv_state (x : tstate S1 G1) (y : tstate S2 G2) : Prop :=
  Forall2 Rl (t_surfs x) (t_surfs y) /\ Rg (t_g x) (t_g y) /\ t_bund y = mvb (t_bund x) /\
  t_own y = t_own x /\ t_rel y = t_rel x /\ t_tree y = map mvb (t_tree x) /\
  t_record y = option_map (map mvb) (t_record x).

Lemma strong_mv ks : map k_strong (map mvk ks) = map mvb (map k_strong ks).
Proof. rewrite !map_map. reflexivity. Qed.
Lemma rec_mv ks : map k_rec (map mvk ks) = map mvb (map k_rec ks).
Proof. rewrite !map_map. reflexivity. Qed.
Lemma weak_mv ks : map k_weak (map mvk ks) = map k_weak ks.
Proof. rewrite map_map. reflexivity. Qed.
Lemma own_mv ks : map k_own (map mvk ks) = map k_own ks.
Proof. rewrite map_map. reflexivity. Qed.
Lemma relv_mv ks : map k_rel (map mvk ks) = map k_rel ks.
Proof. rewrite map_map. reflexivity. Qed.

Lemma iteration_mv ta x y : mv_state x y ->
  rel_res (fun p q => mv_state (fst p) (fst q) /\ snd p = snd q)
    (iteration ops1 objs me ta x) (iteration ops2 objs me' ta y).
Proof.
  destruct x as [ss1 ga b own rel tr rc], y as [ss2 gb b' own' rel' tr' rc'].
  unfold mv_state. cbn [t_surfs t_g t_bund t_own t_rel t_tree t_record].
  intros (H & HG & -> & -> & -> & -> & ->). pose proof (proj1 (proj1 (Forall2_nth _ _ _) H)) as HL.
  unfold iteration. cbn [t_surfs t_g t_bund t_own t_rel t_tree t_record].
  eapply rel_bind; [apply intersect_ray_mv; eauto|].
  intros [[xs fr] ow] [[ys fr'] ow'] (Hx & E1 & E2). cbn [fst snd] in *. subst fr' ow'.
  eapply rel_bind; [apply process_surfaces_mv; eauto|].
  intros [[xs2 g2] ks] [[ys2 g2'] ks'] (Hx2 & E1 & E2). cbn [fst snd] in *. subst ks'.
  rewrite strong_mv, !rec_mv, weak_mv, own_mv, relv_mv, !mvb_concat.
  eapply rel_bind with (R := fun k k' => k' = mvb k); [apply rel_rmap|]. intros bund bund' ->.
  eapply rel_bind with (R := fun k k' => k' = map mvb k).
  { destruct ta; [| |simpl; auto];
    (eapply rel_bind with (R := fun k k' => k' = mvb k); [apply rel_rmap|]; intros r r' ->;
     rewrite mvb_num; apply rel_same; intros n _; destruct (Nat.eqb n 0); [simpl; auto|];
     rewrite mvb_inherit0; eapply rel_bind with (R := fun k k' => k' = mvb k); [apply rel_rmap|];
     intros w w' ->; simpl; unfold append; rewrite mvb_add, map_app; reflexivity). }
  intros t t' ->. rewrite mvb_num. apply rel_same. intros n _.
  rewrite HL. destruct (Nat.eqb n 0); cbn [rel_res fst snd t_surfs t_g t_bund t_own t_rel t_tree t_record]; repeat split; auto.
Qed.

Lemma iterate_mv ta reps : forall x y, mv_state x y ->
  rel_res mv_state (iterate ops1 objs me ta reps x) (iterate ops2 objs me' ta reps y).
Proof.
  induction reps as [|reps IH]; intros x y H; cbn [iterate]; [exact H|].
  eapply rel_bind; [apply iteration_mv; eauto|]. intros [p go] [q go'] (Hp & E). cbn [fst snd] in *. subst go'.
  destruct go; auto.
Qed.

Lemma ray_tracer_mv ss1 ss2 g1 g2 b reps ta : Forall2 Rl ss1 ss2 -> Rg g1 g2 ->
  rel_res (fun x y => fst y = (map f (fst (fst x)), map g (snd (fst x))) /\ mv_state (snd x) (snd y))
    (ray_tracer ops1 objs ss1 g1 b reps me ta) (ray_tracer ops2 objs ss2 g2 (mvb b) reps me' ta).
Proof.
  intros H HG. unfold ray_tracer. pose proof (proj1 (proj1 (Forall2_nth _ _ _) H)) as HL.
  eapply rel_bind with (R := mv_state).
  { unfold start. rewrite mvb_num. apply rel_same. intros n _. rewrite HL. cbn [rel_res]. repeat split; auto.
    destruct ta; reflexivity. }
  intros x y Hxy. eapply rel_bind; [apply iterate_mv; eauto|]. clear x y Hxy. intros x y Hxy.
  eapply rel_bind with (R := mv_state).
  { destruct Hxy as (A & B & C & D & E & F & K). destruct ta; [repeat split; auto|repeat split; auto|].
    rewrite K. destruct (t_record x) as [bs|] eqn:Er; [|reflexivity]. cbn [option_map]. rewrite mvb_concat.
    eapply rel_bind with (R := fun k k' => k' = mvb k); [apply rel_rmap|]. intros r r' ->. cbn [rel_res].
    rewrite C, D, E, F. repeat split; auto. cbn [t_tree]. unfold append. rewrite map_app. auto. }
  clear x y Hxy. intros x y Hxy. pose proof Hxy as (A & B & C & D & E & F & K). rewrite C.
  rewrite mvb_vertices, mvb_directions.
  eapply rel_bind with (R := fun k k' => k' = map f k); [apply rel_rmap|]. intros v v' ->.
  eapply rel_bind with (R := fun k k' => k' = map g k); [apply rel_rmap|]. intros d d' ->.
  cbn [rel_res fst snd]. auto.
Qed.
End Moved.
