(** The scene keeps track of what it shows. *)
From Coq Require Import Reals List Arith ZArith Bool Lia Lra Permutation.
From Verif.Base Require Import Py Num Vec.
From Verif.Model Require Import RayBundle TraceTree Geometry OpticsCallables Engine Objects Surface Mesh View.
From Verif.Proof Require Import ListLemmas NumLemmas.
From Verif.Spec Require Import SceneViewSpec.
Import ListNotations.
Local Open Scope R_scope.

Definition keys (m : list (nat * option nat)) : list nat := map fst m.
Definition part (pic : nat -> drawing) (x : nat * option nat) : list (nat * drawing) :=
  match snd x with Some h => [(h, pic (fst x))] | None => [] end.

Record tracks (v : viewer) (pic : nat -> drawing) (ls : list (nat * drawing)) : Prop := {
  tr_handles : NoDup (map fst (v_drawn v));
  tr_below : forall x, In x (v_drawn v) -> (fst x < v_next v)%nat;
  tr_keys : NoDup (keys (v_meshes v));
  tr_perm : Permutation (v_drawn v) (flat_map (part pic) (v_meshes v) ++ ls) }.
(** The drawings [ls] that are not of surfaces are those of rays. *)
Definition only_rays (v : viewer) (ls : list (nat * drawing)) : Prop :=
  match v_lines v with None => ls = [] | Some h => exists p c, ls = [(h, Lines p c)] end.
Lemma only_rays_same v v' ls : only_rays v ls -> v_lines v' = v_lines v -> only_rays v' ls.
Proof. unfold only_rays. intros H ->. auto. Qed.

Definition complete (v : viewer) : Prop := forall x, In x (v_meshes v) -> snd x <> None.
Definition same_rest (v v' : viewer) : Prop :=
  v_lines v' = v_lines v /\ v_asm v' = v_asm v /\ v_source v' = v_source v /\ v_esc v' = v_esc v /\ v_selector v' = v_selector v /\
  v_iters v' = v_iters v /\ v_min_energy v' = v_min_energy v /\ v_disabled v' = v_disabled v.
Lemma same_rest_refl v : same_rest v v. Proof. repeat split. Qed.
Lemma same_rest_trans a b c : same_rest a b -> same_rest b c -> same_rest a c.
Proof. unfold same_rest. intuition congruence. Qed.

(** ** Dictionaries *)
Lemma find_split k m : In k (keys m) -> NoDup (keys m) ->
  exists m1 o m2, m = m1 ++ (k, o) :: m2 /\ ~ In k (keys m1) /\ ~ In k (keys m2) /\ find k m = Some o /\
    (forall y, put k y m = m1 ++ (k, y) :: m2) /\ del k m = m1 ++ m2.
Proof.
  induction m as [|(x, z) m IH]; intros Hi Hn; [destruct Hi|]. simpl in Hi, Hn. apply NoDup_cons_iff in Hn as (Hx & Hn).
  destruct (Nat.eq_dec x k) as [->|Hk].
  - exists [], z, m. simpl. rewrite Nat.eqb_refl. repeat split; auto.
    unfold del. simpl. try rewrite Nat.eqb_refl. simpl. clear - Hx. induction m as [|(a, b) m IH]; auto. simpl in *.
    destruct (Nat.eqb_spec a k); [tauto|]. simpl. f_equal. apply IH. tauto.
  - destruct Hi as [Hi|Hi]; [congruence|]. destruct (IH Hi Hn) as (m1 & o & m2 & E & H1 & H2 & F & P & D).
    exists ((x, z) :: m1), o, m2. split; [simpl; congruence|]. split; [simpl; intros [?|?]; auto|]. split; auto.
    simpl. apply Nat.eqb_neq in Hk. rewrite Hk. split; auto. split; [intros y; simpl; rewrite P; auto|].
    unfold del in *. simpl. try rewrite Hk. simpl. rewrite D. auto.
Qed.
Lemma find_none k m : find k m = None <-> ~ In k (keys m).
Proof.
  induction m as [|(x, z) m IH]; simpl; [tauto|]. destruct (Nat.eqb_spec x k).
  - split; [discriminate|tauto].
  - rewrite IH. tauto.
Qed.
Lemma put_none k y m : ~ In k (keys m) -> put k y m = m ++ [(k, y)].
Proof.
  induction m as [|(x, z) m IH]; simpl; auto. intros H. destruct (Nat.eqb_spec x k); [tauto|]. f_equal. apply IH. tauto.
Qed.
Lemma keys_app a b : keys (a ++ b) = keys a ++ keys b.
Proof. apply map_app. Qed.
Lemma mem_spec k l : mem k l = true <-> In k l.
Proof.
  unfold mem. rewrite existsb_exists. split.
  - intros (x & H & E). apply Nat.eqb_eq in E. congruence.
  - intros H. exists k. split; auto. apply Nat.eqb_refl.
Qed.

Lemma part_ext pic pic' m : (forall k, In k (keys m) -> pic' k = pic k) -> flat_map (part pic') m = flat_map (part pic) m.
Proof.
  induction m as [|(x, z) m IH]; intros H; auto. simpl. rewrite IH by (intros; apply H; right; auto). f_equal.
  unfold part. simpl. destruct z; auto. rewrite H; auto. left; auto.
Qed.

Lemma filter_perm {A : Type} (f : A -> bool) l l' : Permutation l l' -> Permutation (filter f l) (filter f l').
Proof.
  intros H. induction H; simpl; auto.
  - destruct (f x); auto.
  - destruct (f x), (f y); auto. constructor.
  - etransitivity; eauto.
Qed.

Lemma remove_perm (d rest : list (nat * drawing)) h x : Permutation d ((h, x) :: rest) -> NoDup (map fst d) ->
  Permutation (filter (fun x => negb (Nat.eqb (fst x) h)) d) rest.
Proof.
  intros P N. rewrite (filter_perm _ _ _ P). simpl. rewrite Nat.eqb_refl. simpl.
  assert (H : ~ In h (map fst rest)).
  { pose proof (Permutation_NoDup (Permutation_map fst P) N) as N'. simpl in N'. apply NoDup_cons_iff in N'. tauto. }
  clear - H. induction rest as [|(a, b) r IH]; auto. simpl in *. destruct (Nat.eqb_spec a h); [tauto|]. simpl. constructor. apply IH. tauto.
Qed.

Lemma filter_sub {A : Type} (f : A -> bool) l : forall x, In x (filter f l) -> In x l.
Proof. intros x H. apply filter_In in H. tauto. Qed.
Lemma filter_nodup_fst (f : nat * drawing -> bool) l : NoDup (map fst l) -> NoDup (map fst (filter f l)).
Proof.
  induction l as [|x l IH]; simpl; auto. intros H. apply NoDup_cons_iff in H as (H1 & H2). destruct (f x); auto. simpl. constructor; auto.
  intros H. apply H1. apply in_map_iff in H as (y & E & H). apply in_map_iff. exists y. split; auto. eapply filter_sub; eauto.
Qed.

Lemma perm_middle4 {A : Type} (a b c : list A) x : Permutation ((a ++ x :: b) ++ c) (x :: (a ++ b) ++ c).
Proof. rewrite <- !app_assoc. simpl. symmetry. apply Permutation_middle. Qed.

(** ** Showing a surface *)
Section Methods.
Variable order : list nat -> list nat.
Hypothesis Horder : some_order order.
Variable w : world.

Lemma portrait_unique c r o sid d d' : portrait w c r o sid d -> portrait w c r o sid d' -> d = d'.
Proof.
  intros (m & r1 & c1 & o1 & Hr & Hc & Ho & E & ->) (m' & r2 & c2 & o2 & Hr' & Hc' & Ho' & E' & ->).
  unfold annotated in *.
  assert (r1 = r2) by (destruct Hr as [?|(? & ?)], Hr' as [?|(? & ?)]; congruence).
  assert (c1 = c2) by (destruct Hc as [?|(? & ?)], Hc' as [?|(? & ?)]; congruence).
  assert (o1 = o2) by (destruct Ho as [?|(? & ?)], Ho' as [?|(? & ?)]; congruence). congruence.
Qed.
Lemma or_else_annotated {A : Type} (o : option A) d : annotated o d (or_else o d).
Proof. destruct o; [left|right]; auto. Qed.
Lemma annotated_or_else {A : Type} (o : option A) d x : annotated o d x -> x = or_else o d.
Proof. intros [->|(-> & ->)]; reflexivity. Qed.

Definition set_pic (pic : nat -> drawing) (k : nat) (d : drawing) : nat -> drawing := fun i => if Nat.eqb i k then d else pic i.

(** The drawing of [sid], removed if it has one. *)
Lemma undrawn v pic ls sid m1 o m2 : tracks v pic ls -> v_meshes v = m1 ++ (sid, o) :: m2 ->
  let v0 := match o with Some h => remove v h | None => v end in
  NoDup (map fst (v_drawn v0)) /\ (forall x, In x (v_drawn v0) -> (fst x < v_next v0)%nat) /\
  Permutation (v_drawn v0) (flat_map (part pic) (m1 ++ m2) ++ ls) /\ v_meshes v0 = v_meshes v /\ same_rest v v0 /\ v_next v0 = v_next v.
Proof.
  intros T E. pose proof (tr_perm _ _ _ T) as P. rewrite E, flat_map_app in P. cbn [flat_map] in P. rewrite flat_map_app. destruct o as [h|]; intros v0.
  - unfold v0, remove, with_drawn. cbn [v_drawn v_next v_meshes].
    split; [apply filter_nodup_fst, (tr_handles _ _ _ T)|]. split; [intros x H; apply filter_sub in H; apply (tr_below _ _ _ T); auto|].
    split; [|split; [reflexivity|]; split; [repeat split|reflexivity]].
    apply remove_perm with (x := pic sid); [|apply (tr_handles _ _ _ T)]. rewrite P. unfold part at 2. simpl. apply perm_middle4.
  - unfold v0. split; [apply (tr_handles _ _ _ T)|]. split; [apply (tr_below _ _ _ T)|]. split; [exact P|]. repeat split.
Qed.

Lemma show_surface_ok c r o u v pic ls sid : tracks v pic ls -> In sid (keys (v_meshes v)) ->
  (selected u sid -> exists d, portrait w c r o sid d) -> exists v', show_surface w c r o u v sid = Ok v'.
Proof.
  intros T I H. unfold show_surface.
  destruct (match u with Some l => negb (mem sid l) | None => false end) eqn:E; [eauto|].
  destruct H as (d & m & r1 & c1 & o1 & Hr & _ & _ & M & _).
  { destruct u as [l|]; simpl; auto. apply mem_spec. destruct (mem sid l); [auto|discriminate]. }
  rewrite <- (annotated_or_else _ _ _ Hr), M. cbn [bind]. destruct (draw _ _). eauto.
Qed.

Lemma show_surface_spec c r o u v pic ls sid v' : tracks v pic ls -> In sid (keys (v_meshes v)) ->
  show_surface w c r o u v sid = Ok v' ->
  exists pic', tracks v' pic' ls /\ keys (v_meshes v') = keys (v_meshes v) /\ same_rest v v' /\
    (selected u sid -> portrait w c r o sid (pic' sid) /\ exists h, In (sid, Some h) (v_meshes v')) /\
    (~ selected u sid -> pic' sid = pic sid) /\ (forall k, k <> sid -> pic' k = pic k) /\
    (forall x, In x (v_meshes v) -> snd x <> None -> exists h, In (fst x, Some h) (v_meshes v')).
Proof.
  intros T I. unfold show_surface.
  destruct (match u with Some l => negb (mem sid l) | None => false end) eqn:Eu.
  { intros E. injection E as <-. exists pic. split; auto. split; auto. split; [apply same_rest_refl|]. split; [|split; auto; split; auto].
    - destruct u as [l|]; [|discriminate]. simpl. intros H. apply mem_spec in H. rewrite H in Eu. discriminate.
    - intros (a, [h|]) H Hn; simpl in *; [eauto|congruence]. }
  assert (Hu : selected u sid). { destruct u as [l|]; simpl; auto. apply mem_spec. destruct (mem sid l); [auto|discriminate]. }
  destruct (find_split sid (v_meshes v) I (tr_keys _ _ _ T)) as (m1 & ob & m2 & E & N1 & N2 & F & P & _). rewrite F.
  pose proof (undrawn v pic ls sid m1 ob m2 T E) as U. cbv zeta in U.
  replace (match ob with Some h => remove v h | None => v end) with (match Some ob with Some (Some h) => remove v h | _ => v end) in U by (destruct ob; reflexivity).
  set (v0 := match Some ob with Some (Some h) => remove v h | _ => v end) in *. clearbody v0. destruct U as (U1 & U2 & U3 & U4 & U5 & U6).
  destruct (surf_mesh (w_surface w sid) (or_else (w_resolution w sid) r)) as [m|] eqn:M; [|discriminate]. cbn [bind draw].
  intros X. injection X as <-. set (d := MeshOf m (or_else (w_colour w sid) c) (or_else (w_opacity w sid) o)).
  cbn [v_meshes]. rewrite U4, P.
  assert (E1 : forall mm, ~ In sid (keys mm) -> flat_map (part (set_pic pic sid d)) mm = flat_map (part pic) mm).
  { intros mm H. apply part_ext. intros k Hk. unfold set_pic. destruct (Nat.eqb_spec k sid); congruence. }
  exists (set_pic pic sid d). split; [|split; [|split; [|split; [|split; [|split]]]]].
  - constructor; unfold with_meshes; cbn [v_drawn v_next v_meshes v_lines].
    + rewrite map_app. simpl. apply (Permutation_NoDup (Permutation_cons_append _ _)). constructor; auto.
      intros H. apply in_map_iff in H as (x & Ex & H). apply U2 in H. lia.
    + intros x H. apply in_app_iff in H as [H|[<-|[]]]; [apply U2 in H; lia|simpl; lia].
    + replace (keys (m1 ++ (sid, Some (v_next v0)) :: m2)) with (keys (v_meshes v)) by (rewrite E, !keys_app; reflexivity). apply (tr_keys _ _ _ T).
    + rewrite flat_map_app. cbn [flat_map]. rewrite !E1 by auto. unfold part at 2. cbn [snd fst]. rewrite U3, flat_map_app.
      unfold set_pic at 1. rewrite Nat.eqb_refl. simpl. rewrite perm_middle4. symmetry. apply Permutation_cons_append.
  - cbn [with_meshes v_meshes]. rewrite E, !keys_app. reflexivity.
  - destruct U5 as (V1 & V2 & V3 & V4 & V5 & V6 & V7 & V8). repeat split; auto.
  - intros _. split.
    + unfold set_pic. rewrite Nat.eqb_refl. exists m, (or_else (w_resolution w sid) r), (or_else (w_colour w sid) c), (or_else (w_opacity w sid) o).
      split; [apply or_else_annotated|]. split; [apply or_else_annotated|]. split; [apply or_else_annotated|]. auto.
    + exists (v_next v0). cbn [with_meshes v_meshes]. apply in_app_iff. right; left; auto.
  - tauto.
  - intros k Hk. unfold set_pic. destruct (Nat.eqb_spec k sid); congruence.
  - intros (a, ob') Hx Hn. cbn [with_meshes v_meshes fst snd] in *. rewrite E in Hx. apply in_app_iff in Hx as [Hx|[Hx|Hx]].
    + destruct ob' as [h|]; [|congruence]. exists h. apply in_app_iff. auto.
    + injection Hx as <- <-. exists (v_next v0). apply in_app_iff. right; left; auto.
    + destruct ob' as [h|]; [|congruence]. exists h. apply in_app_iff. right; right; auto.
Qed.

Lemma show_fold c r o u ls : forall l v pic, tracks v pic ls -> NoDup l -> (forall k, In k l -> In k (keys (v_meshes v))) ->
  ((forall k, In k l -> selected u k -> exists d, portrait w c r o k d) -> exists v', foldM (show_surface w c r o u) v l = Ok v') /\
  forall v', foldM (show_surface w c r o u) v l = Ok v' ->
  exists pic', tracks v' pic' ls /\ keys (v_meshes v') = keys (v_meshes v) /\ same_rest v v' /\
    (forall k, In k l -> selected u k -> portrait w c r o k (pic' k) /\ exists h, In (k, Some h) (v_meshes v')) /\
    (forall k, ~ (In k l /\ selected u k) -> pic' k = pic k) /\
    (forall x, In x (v_meshes v) -> snd x <> None -> exists h, In (fst x, Some h) (v_meshes v')).
Proof.
  induction l as [|sid l IH]; intros v pic T N I; simpl.
  - split; [eauto|]. intros v' E. injection E as <-. exists pic. split; auto. split; auto. split; [apply same_rest_refl|].
    split; [tauto|]. split; auto. intros (a, [h|]) H Hn; simpl in *; [eauto|congruence].
  - apply NoDup_cons_iff in N as (Nl & N).
    assert (Is : In sid (keys (v_meshes v))) by (apply I; left; auto).
    assert (K : forall v1 pic1, keys (v_meshes v1) = keys (v_meshes v) -> tracks v1 pic1 ls -> forall k, In k l -> In k (keys (v_meshes v1))).
    { intros v1 pic1 -> _ k Hk. apply I. right; auto. }
    split.
    + intros H. destruct (show_surface_ok c r o u v pic ls sid T Is) as (v1 & E1); [intros Hs; apply H; auto|].
      rewrite E1. cbn [bind]. destruct (show_surface_spec _ _ _ _ _ _ _ _ _ T Is E1) as (pic1 & T1 & K1 & _).
      apply (proj1 (IH v1 pic1 T1 N (K _ _ K1 T1))). intros k Hk. apply H. auto.
    + intros v' E. destruct (show_surface w c r o u v sid) as [v1|] eqn:E1; [|discriminate]. cbn [bind] in E.
      destruct (show_surface_spec _ _ _ _ _ _ _ _ _ T Is E1) as (pic1 & T1 & K1 & R1 & S1 & U1 & O1 & C1).
      destruct (proj2 (IH v1 pic1 T1 N (K _ _ K1 T1)) _ E) as (pic' & T' & K' & R' & S' & U' & C').
      exists pic'. split; auto. split; [congruence|]. split; [eapply same_rest_trans; eauto|].
      split; [|split].
      * intros k [<-|Hk] Hs; auto. destruct (S1 Hs) as (P1 & h & Hh). split.
        -- rewrite U' by tauto. auto.
        -- destruct (C' _ Hh) as (h' & Hh'); simpl in *; [discriminate|eauto].
      * intros k Hk. rewrite U' by tauto. destruct (Nat.eq_dec k sid) as [->|]; auto.
        apply U1. tauto.
      * intros x Hx Hn. destruct (C1 x Hx Hn) as (h & Hh). destruct (C' _ Hh) as (h' & Hh'); simpl in *; [discriminate|eauto].
Qed.

Lemma show_assembly_spec c r u o v pic ls : tracks v pic ls ->
  ((forall k, In k (keys (v_meshes v)) -> selected u k -> exists d, portrait w c r o k d) -> exists v', show_assembly order w c r u o v = Ok v') /\
  forall v', show_assembly order w c r u o v = Ok v' ->
  exists pic', tracks v' pic' ls /\ keys (v_meshes v') = keys (v_meshes v) /\ same_rest v v' /\
    (forall k, In k (keys (v_meshes v)) -> selected u k -> portrait w c r o k (pic' k)) /\
    (forall k, In k (keys (v_meshes v)) -> ~ selected u k -> pic' k = pic k) /\
    ((forall x, In x (v_meshes v) -> snd x = None -> selected u (fst x)) -> complete v').
Proof.
  intros T. unfold show_assembly.
  pose proof (Horder (map fst (v_meshes v))) as P.
  assert (N : NoDup (order (map fst (v_meshes v)))) by (apply (Permutation_NoDup (Permutation_sym P)), (tr_keys _ _ _ T)).
  assert (I : forall k, In k (order (map fst (v_meshes v))) <-> In k (keys (v_meshes v))).
  { intros k. split; intros H; [apply (Permutation_in _ P H)|apply (Permutation_in _ (Permutation_sym P) H)]. }
  destruct (show_fold c r o u ls (order (map fst (v_meshes v))) v pic T N (fun k H => proj1 (I k) H)) as (A & B).
  split; [intros H; apply A; intros k Hk; apply H, I; auto|].
  intros v' E. destruct (B v' E) as (pic' & T' & K' & R' & S' & U' & C'). exists pic'. split; auto. split; auto. split; auto.
  split; [intros k Hk Hs; apply S'; auto; apply I; auto|]. split; [intros k Hk Hs; apply U'; tauto|].
  intros H (k, ob) Hx. destruct ob as [h|]; [discriminate|]. exfalso.
  assert (Kv : In k (keys (v_meshes v))) by (rewrite <- K'; apply in_map_iff; exists (k, None); auto).
  assert (exists h, In (k, Some h) (v_meshes v')) as (h & Hh).
  { apply in_map_iff in Kv as ((k', ob) & Ek & Hk). simpl in Ek. subst k'. destruct ob as [h|].
    - apply (C' (k, Some h) Hk). discriminate.
    - apply S'; [apply I, in_map_iff; exists (k, None); auto|]. apply (H (k, None)); auto. }
  pose proof (tr_keys _ _ _ T') as N'. clear - Hx Hh N'.
  destruct (find_split k (v_meshes v')) as (m1 & ob & m2 & E & N1 & N2 & _); [apply in_map_iff; exists (k, None); auto|auto|].
  rewrite E in Hx, Hh. assert (X : forall y, In (k, y) (m1 ++ (k, ob) :: m2) -> y = ob).
  { intros y Hy. apply in_app_iff in Hy as [Hy|[Hy|Hy]]; [|congruence|]; exfalso.
    - apply N1, in_map_iff. exists (k, y). auto.
    - apply N2, in_map_iff. exists (k, y). auto. }
  apply X in Hx, Hh. congruence.
Qed.

(** ** Updating *)
Lemma drop_fold ids : forall l v pic ls, tracks v pic ls -> complete v -> NoDup l -> (forall k, In k l -> In k (keys (v_meshes v))) ->
  exists v', foldM (drop_vanished ids) v l = Ok v' /\ tracks v' pic ls /\ complete v' /\ same_rest v v' /\
    forall k, In k (keys (v_meshes v')) <-> In k (keys (v_meshes v)) /\ (In k ids \/ ~ In k l).
Proof.
  induction l as [|sid l IH]; intros v pic ls T C N I; simpl.
  - exists v. split; auto. split; auto. split; auto. split; [apply same_rest_refl|]. intros k. tauto.
  - apply NoDup_cons_iff in N as (Nl & N). unfold drop_vanished at 1. destruct (mem sid ids) eqn:M.
    + apply mem_spec in M. destruct (IH v pic ls T C N) as (v' & E & T' & C' & R' & K'); [intros; apply I; right; auto|].
      exists v'. split; auto. split; auto. split; auto. split; auto. intros k. rewrite K'.
      destruct (Nat.eq_dec sid k) as [->|]; tauto.
    + destruct (find_split sid (v_meshes v)) as (m1 & ob & m2 & E & N1 & N2 & F & _ & D); [apply I; left; auto|apply (tr_keys _ _ _ T)|].
      rewrite F. destruct ob as [h|].
      2:{ exfalso. apply (C (sid, None)); auto. rewrite E. apply in_app_iff. right; left; auto. }
      cbn [bind]. pose proof (undrawn v pic ls sid m1 (Some h) m2 T E) as (U1 & U2 & U3 & U4 & U5 & U6). rewrite U4, D.
      set (v0 := remove v h) in *. clearbody v0.
      assert (T1 : tracks (with_meshes v0 (m1 ++ m2)) pic ls).
      { constructor; cbn [with_meshes v_drawn v_next v_meshes v_lines]; auto.
        - pose proof (tr_keys _ _ _ T) as NK. rewrite E, keys_app in NK. simpl in NK. apply NoDup_remove_1 in NK. rewrite keys_app. auto. }
      assert (C1 : complete (with_meshes v0 (m1 ++ m2))).
      { intros x Hx. apply C. rewrite E. cbn [with_meshes v_meshes] in Hx. apply in_app_iff in Hx. apply in_app_iff. simpl. tauto. }
      assert (K1 : forall k, In k (keys (m1 ++ m2)) <-> In k (keys (v_meshes v)) /\ k <> sid).
      { intros k. rewrite E, !keys_app. simpl. rewrite !in_app_iff. simpl. split.
        - intros [H|H]; split; auto; intros ->; auto.
        - intros ([H|[H|H]] & Hn); auto. congruence. }
      destruct (IH _ pic ls T1 C1 N) as (v' & E' & T' & C' & R' & K').
      { intros k Hk. apply K1. split; [apply I; right; auto|congruence]. }
      exists v'. split; auto. split; auto. split; auto. split.
      { eapply same_rest_trans; [exact U5|]. eapply same_rest_trans; [|exact R']. repeat split. }
      intros k. rewrite K'. cbn [with_meshes v_meshes]. rewrite K1. split.
      * intros ((H1 & H2) & H3). split; auto. destruct H3; auto. right. intros [?|?]; congruence.
      * intros (H1 & H2). assert (k <> sid).
        { intros ->. destruct H2 as [H2|H2]; [apply mem_spec in H2; congruence|auto]. }
        tauto.
Qed.

Lemma add_new_spec : forall ids m m' new, add_new ids m = (m', new) -> NoDup (keys m) ->
  m' = m ++ map (fun s => (s, None)) new /\ NoDup (keys m') /\ (forall k, In k new <-> In k ids /\ ~ In k (keys m)).
Proof.
  induction ids as [|sid ids IH]; intros m m' new E N; simpl in E.
  - injection E as <- <-. rewrite app_nil_r. split; auto. split; auto. simpl. tauto.
  - destruct (find sid m) eqn:F.
    + destruct (IH _ _ _ E N) as (E' & N' & K). split; auto. split; auto. intros k. rewrite K. simpl. split; [tauto|].
      intros ([<-|H] & H'); auto. exfalso. apply find_none in H'. congruence.
    + apply find_none in F. rewrite (put_none _ _ _ F) in E. destruct (add_new ids (m ++ [(sid, None)])) as (m1, new1) eqn:E1.
      injection E as <- <-. destruct (IH _ _ _ E1) as (E' & N' & K).
      { rewrite keys_app. simpl. apply (Permutation_NoDup (Permutation_cons_append _ _)). constructor; auto. }
      split; [rewrite E', <- app_assoc; reflexivity|]. split; auto. intros k. simpl. rewrite K, keys_app, in_app_iff. simpl.
      destruct (Nat.eq_dec sid k) as [->|]; tauto.
Qed.

Lemma part_nones pic l : flat_map (part pic) (map (fun s => (s, None)) l) = [].
Proof. induction l; auto. Qed.

Lemma each_in l k : In k (each l) <-> In k l.
Proof. apply nodup_In. Qed.
Lemma each_perm l l' : NoDup l' -> (forall k, In k l' <-> In k l) -> Permutation l' (each l).
Proof. intros N H. apply NoDup_Permutation; auto; [apply NoDup_nodup|]. intros k. rewrite each_in. auto. Qed.

Lemma update_spec v pic ls : tracks v pic ls -> complete v ->
  ((forall k, In k (w_surfaces w (v_asm v)) -> ~ In k (keys (v_meshes v)) -> exists d, plain_portrait w k d) ->
    exists v', update_surfaces order w v = Ok v') /\
  forall v', update_surfaces order w v = Ok v' ->
  exists pic', tracks v' pic' ls /\ complete v' /\ same_rest v v' /\ Permutation (keys (v_meshes v')) (each (w_surfaces w (v_asm v))) /\
    (forall k, In k (w_surfaces w (v_asm v)) -> In k (keys (v_meshes v)) -> pic' k = pic k) /\
    (forall k, In k (w_surfaces w (v_asm v)) -> ~ In k (keys (v_meshes v)) -> plain_portrait w k (pic' k)).
Proof.
  intros T C. unfold update_surfaces. set (ids := w_surfaces w (v_asm v)).
  pose proof (Horder (map fst (v_meshes v))) as P.
  destruct (drop_fold ids (order (map fst (v_meshes v))) v pic ls T C) as (v1 & E1 & T1 & C1 & R1 & K1).
  { apply (Permutation_NoDup (Permutation_sym P)), (tr_keys _ _ _ T). }
  { intros k H. apply (Permutation_in _ P H). }
  assert (K1' : forall k, In k (keys (v_meshes v1)) <-> In k (keys (v_meshes v)) /\ In k ids).
  { intros k. rewrite K1. split; [|tauto]. intros (H1 & [H2|H2]); auto. destruct H2. apply (Permutation_in _ (Permutation_sym P) H1). }
  rewrite E1. cbn [bind]. destruct (add_new ids (v_meshes v1)) as (m, new) eqn:E2.
  destruct (add_new_spec _ _ _ _ E2 (tr_keys _ _ _ T1)) as (Em & Nm & Kn).
  assert (T2 : tracks (with_meshes v1 m) pic ls).
  { constructor; cbn [with_meshes v_drawn v_next v_meshes v_lines]; try apply T1; auto.
    rewrite Em, flat_map_app, part_nones, app_nil_r. apply T1. }
  assert (Km : forall k, In k (keys m) <-> In k ids).
  { intros k. rewrite Em, keys_app, in_app_iff. unfold keys at 2. rewrite map_map, map_id, Kn, K1'.
    destruct (in_dec Nat.eq_dec k (keys (v_meshes v))); tauto. }
  assert (Sn : forall k, In k ids -> (selected (Some new) k <-> ~ In k (keys (v_meshes v)))).
  { intros k Hk. simpl. rewrite Kn, K1'. tauto. }
  destruct (show_assembly_spec grey 10 (Some new) 1 _ pic ls T2) as (A & B). cbn [with_meshes v_meshes] in A, B. split.
  - intros H. apply A. intros k Hk Hs. apply Km in Hk. apply H; auto. apply Sn; auto.
  - intros v' E. destruct (B v' E) as (pic' & T' & K' & R' & S' & U' & C'). exists pic'. split; auto. split; [|split; [|split; [|split]]].
    + apply C'. intros x Hx Hn. rewrite Em in Hx. apply in_app_iff in Hx as [Hx|Hx]; [destruct (C1 x Hx Hn)|].
      apply in_map_iff in Hx as (y & <- & Hy). exact Hy.
    + eapply same_rest_trans; [exact R1|]. eapply same_rest_trans; [|exact R']. repeat split.
    + apply each_perm; [rewrite K'; auto|]. intros k. rewrite K'. apply Km.
    + intros k Hk Ho. apply U'; [apply Km; auto|]. intros Hs. apply Sn in Hs; auto.
    + intros k Hk Ho. apply S'; [apply Km; auto|]. apply Sn; auto.
Qed.

(** ** Rays *)
Definition settings_of (v : viewer) : settings :=
  mkSet (v_asm v) (v_source v) (v_esc v) (v_selector v) (v_iters v) (v_min_energy v).

Definition same_settings (v v' : viewer) : Prop :=
  v_asm v' = v_asm v /\ v_source v' = v_source v /\ v_esc v' = v_esc v /\ v_selector v' = v_selector v /\
  v_iters v' = v_iters v /\ v_min_energy v' = v_min_energy v.

Lemma lines_removed v pic ls h x : tracks v pic ls -> ls = [(h, x)] ->
  Permutation (v_drawn (remove v h)) (flat_map (part pic) (v_meshes v)).
Proof.
  intros T ->. unfold remove, with_drawn. cbn [v_drawn]. apply remove_perm with (x := x); [|apply T].
  rewrite (tr_perm _ _ _ T). symmetry. apply Permutation_cons_append.
Qed.

Lemma plot_spec v pic ls v' : tracks v pic ls -> only_rays v ls -> plot_ray_trace w v = Ok v' ->
  exists ls', tracks v' pic ls' /\ only_rays v' ls' /\ replotted w (settings_of v) (map snd ls) (map snd ls') /\ same_settings v v' /\ v_meshes v' = v_meshes v /\
    (v_disabled v = false -> v_disabled v' = false).
Proof.
  intros T Tl. unfold plot_ray_trace. destruct (v_source v) as [b|] eqn:Es.
  2:{ intros E. injection E as <-. exists ls. split; auto. split; auto. split; [|split; [repeat split|split; [reflexivity|auto]]]. unfold replotted. simpl. rewrite Es. reflexivity. }
  cbn [with_disabled v_lines].
  set (v0 := match v_lines v with Some h => _ | None => _ end).
  assert (H0 : NoDup (map fst (v_drawn v0)) /\ (forall x, In x (v_drawn v0) -> (fst x < v_next v0)%nat) /\
    Permutation (v_drawn v0) (flat_map (part pic) (v_meshes v)) /\ v_meshes v0 = v_meshes v /\ same_settings v v0).
  { unfold only_rays in Tl. unfold v0. destruct (v_lines v) as [h|] eqn:El.
    - destruct Tl as (p & c & ->). split; [|split; [|split; [|split; [reflexivity|repeat split; auto]]]].
      + apply filter_nodup_fst, T.
      + intros x Hx. apply filter_sub in Hx. apply (tr_below _ _ _ T x Hx).
      + apply (lines_removed v pic _ h (Lines p c) T eq_refl).
    - subst ls. split; [apply T|]. split; [apply T|]. split; [|split; [reflexivity|repeat split; auto]].
      pose proof (tr_perm _ _ _ T) as Pm. rewrite app_nil_r in Pm. exact Pm. }
  clearbody v0. destruct H0 as (U1 & U2 & U3 & U4 & V1 & V2 & V3 & V4 & V5 & V6). rewrite V1, V3, V4, V5, V6.
  destruct (ray_tracer _ _ _ _ _ _ _ _) as [[[vs ds] st]|] eqn:Et; [|discriminate]. cbn [bind].
  destruct (show_rays _ _ _) as [[pts cs]|] eqn:Er; [|discriminate]. cbn [bind draw]. intros E. injection E as <-.
  exists [(v_next v0, Lines pts cs)]. split; [|split; [|split; [|split; [|split; [|reflexivity]]]]].
  - constructor; cbn [with_disabled with_lines v_drawn v_next v_meshes v_lines].
    + rewrite map_app. simpl. apply (Permutation_NoDup (Permutation_cons_append _ _)). constructor; auto.
      intros H. apply in_map_iff in H as (x & Ex & H). apply U2 in H. lia.
    + intros x H. apply in_app_iff in H as [H|[<-|[]]]; [apply U2 in H; lia|simpl; lia].
    + rewrite U4. apply T.
    + rewrite U4. apply Permutation_app; auto.
  - exists pts, cs. reflexivity.
  - unfold replotted. cbn [settings_of st_source]. rewrite Es. exists (Lines pts cs). split; [|reflexivity].
    exists vs, ds, st, pts, cs. auto.
  - unfold same_settings. cbn [with_disabled with_lines v_asm v_source v_esc v_selector v_iters v_min_energy]. repeat split; auto.
  - exact U4.
Qed.

(** ** Clearing and replacing *)
Lemma clear_fold (l : list (nat * option nat)) : forall v,
  let v' := fold_left (fun v x => match snd x with Some h => remove v h | None => v end) l v in
  (v_drawn v = [] -> v_drawn v' = []) /\ v_meshes v' = v_meshes v /\ v_lines v' = v_lines v /\ same_settings v v' /\ v_disabled v' = v_disabled v.
Proof.
  induction l as [|x l IH]; intros v; cbn [fold_left].
  - split; auto. split; auto. split; auto. split; auto. repeat split.
  - destruct (IH (match snd x with Some h => remove v h | None => v end)) as (A & B & D & E & E').
    assert (F : (v_drawn v = [] -> v_drawn (match snd x with Some h => remove v h | None => v end) = []) /\
      v_meshes (match snd x with Some h => remove v h | None => v end) = v_meshes v /\
      v_lines (match snd x with Some h => remove v h | None => v end) = v_lines v /\
      same_settings v (match snd x with Some h => remove v h | None => v end) /\
      v_disabled (match snd x with Some h => remove v h | None => v end) = v_disabled v).
    { destruct (snd x); [|split; auto; split; auto; split; auto; split; auto; repeat split].
      split; [intros Hd; unfold remove, with_drawn; cbn [v_drawn]; rewrite Hd; reflexivity|]. repeat split. }
    destruct F as (F1 & F2 & F3 & F4 & F5). split; [auto|]. split; [congruence|]. split; [congruence|]. split; [|congruence].
    unfold same_settings in *. intuition congruence.
Qed.

Lemma clear_spec v : v_drawn (clear_scene v) = [] /\ keys (v_meshes (clear_scene v)) = keys (v_meshes v) /\
  (forall x, In x (v_meshes (clear_scene v)) -> snd x = None) /\ v_lines (clear_scene v) = None /\ same_settings v (clear_scene v) /\
  v_disabled (clear_scene v) = v_disabled v.
Proof.
  unfold clear_scene. cbn [with_drawn with_lines v_meshes].
  match goal with |- context [fold_left ?f ?l ?u] => destruct (clear_fold l u) as (A & B & D & E & E'); set (v' := fold_left f l u) in * end.
  cbn [v_drawn v_meshes v_lines] in *. cbn [with_meshes v_drawn v_meshes v_lines].
  split; [auto|]. rewrite B. split; [unfold keys; rewrite map_map; reflexivity|].
  split; [intros x Hx; apply in_map_iff in Hx as (y & <- & _); reflexivity|]. split; auto.
Qed.

Lemma nones_empty m pic : (forall x, In x m -> snd x = None) -> flat_map (part pic) m = [].
Proof. induction m as [|x m IH]; intros H; auto. simpl. unfold part at 1. rewrite (H x) by (left; auto). apply IH. intros y Hy. apply H. right; auto. Qed.

Lemma clear_tracks v pic : NoDup (keys (v_meshes v)) -> tracks (clear_scene v) pic [].
Proof.
  intros N. destruct (clear_spec v) as (A & B & D & E & _ & _). constructor.
  - rewrite A. constructor.
  - rewrite A. intros x [].
  - rewrite B. auto.
  - rewrite A, nones_empty by auto. constructor.
Qed.

(** Replacing the assembly of a scene that shows the drawings [ls] only. *)
Lemma set_assembly_spec a v ls : NoDup (map fst (v_drawn v)) -> (forall x, In x (v_drawn v) -> (fst x < v_next v)%nat) ->
  Permutation (v_drawn v) ls ->
  ((forall k, In k (w_surfaces w a) -> exists d, plain_portrait w k d) -> exists v', set_assembly order w a v = Ok v') /\
  forall v', set_assembly order w a v = Ok v' ->
  exists pic, tracks v' pic ls /\ complete v' /\ Permutation (keys (v_meshes v')) (each (w_surfaces w a)) /\
    (forall k, In k (w_surfaces w a) -> plain_portrait w k (pic k)) /\
    v_asm v' = a /\ v_source v' = v_source v /\ v_esc v' = v_esc v /\ v_selector v' = v_selector v /\
    v_iters v' = v_iters v /\ v_min_energy v' = v_min_energy v /\ v_lines v' = v_lines v /\ v_disabled v' = v_disabled v.
Proof.
  intros N L P. unfold set_assembly.
  set (v0 := with_meshes (with_asm v a) (map (fun s => (s, None)) (nodup Nat.eq_dec (w_surfaces w a)))).
  assert (T0 : tracks v0 (fun _ => Lines [] []) ls).
  { constructor; cbn [v0 with_meshes with_asm v_drawn v_next v_meshes v_lines]; auto.
    - unfold keys. rewrite map_map, map_id. apply NoDup_nodup.
    - rewrite part_nones. auto. }
  assert (K0 : keys (v_meshes v0) = each (w_surfaces w a)).
  { unfold keys. cbn [v0 with_meshes v_meshes]. rewrite map_map, map_id. reflexivity. }
  destruct (show_assembly_spec grey 10 None 1 v0 _ ls T0) as (A & B). split.
  - intros H. apply A. intros k Hk _. apply H. rewrite K0 in Hk. apply each_in; auto.
  - intros v' E. destruct (B v' E) as (pic & T' & K' & R' & S' & U' & C'). exists pic. split; auto.
    split; [apply C'; intros; exact I|]. split; [rewrite K', K0; reflexivity|].
    split; [intros k Hk; apply S'; [rewrite K0; apply each_in; auto|exact I]|].
    destruct R' as (R1 & R2 & R3 & R4 & R5 & R6 & R7 & R8). repeat split; auto.
Qed.

(** ** Histories *)
Definition fits_history (v : viewer) (s : settings) (ids : list nat) (pic : nat -> drawing) (rs : list drawing) : Prop :=
  exists ls, tracks v pic ls /\ only_rays v ls /\ map snd ls = rs /\ complete v /\ Permutation (keys (v_meshes v)) ids /\ has_settings v s /\ v_disabled v = false.

Lemma tracks_ext v pic pic' ls : tracks v pic ls -> (forall k, In k (keys (v_meshes v)) -> pic' k = pic k) -> tracks v pic' ls.
Proof. intros T H. constructor; try apply T. rewrite (part_ext pic pic') by auto. apply T. Qed.

Lemma replotted_unique s rs rs1 rs2 : replotted w s rs rs1 -> replotted w s rs rs2 -> rs1 = rs2.
Proof.
  unfold replotted. destruct (st_source s) as [b|]; [|congruence].
  intros (d & (vs & ds & st & p & c & E1 & E2 & ->) & ->) (d' & (vs' & ds' & st' & p' & c' & E1' & E2' & ->) & ->).
  rewrite E1 in E1'. injection E1' as <- <- <-. congruence.
Qed.
End Methods.

Lemma settings_eta v s : has_settings v s -> settings_of v = s.
Proof. destruct s. unfold has_settings, settings_of. simpl. intuition congruence. Qed.
Lemma has_settings_of v : has_settings v (settings_of v).
Proof. repeat split. Qed.
Lemma same_has v v' s : has_settings v s -> same_settings v v' -> has_settings v' s.
Proof. unfold has_settings, same_settings. intuition congruence. Qed.
Lemma rest_settings v v' : same_rest v v' -> same_settings v v'.
Proof. unfold same_rest, same_settings. tauto. Qed.

Theorem history_fits order w v s ids pic rs : some_order order -> history order w v s ids pic rs -> fits_history v s ids pic rs.
Proof.
  intros O H. induction H as
    [w v a src esc sel pic rs E Hp Hr | w w' v s ids pic rs H IH | w v v' s ids pic pic' rs H IH E Ho Hn
    | w v v' s ids pic pic' rs c r u o H IH E Hs Hn | w v v' s ids pic rs rs' src s' H IH E Es Hr | w v v' s ids pic rs rs' H IH E Hr
    | w v s ids pic rs i e s' H IH Hi He H1 H2 H3 H4 | w v v' s ids pic pic' rs a H IH E Hp | w v v' s ids pic pic' rs c r o H IH E Hp ].
  - unfold new_viewer in E. destruct (set_assembly _ _ _ _) as [v1|] eqn:E1; [|discriminate]. cbn [bind] in E.
    destruct (set_assembly_spec order O w a (mkV [] 0 a [] None src esc sel (Z.to_nat 200000000) (5 / 100) false) []) as (_ & B);
      [constructor|intros x []|constructor|].
    destruct (B v1 E1) as (pic1 & T1 & C1 & K1 & P1 & S1 & S2 & S3 & S4 & S5 & S6 & Sl & Sd). cbn [v_source v_esc v_selector v_iters v_min_energy v_lines v_disabled] in *.
    assert (Tl1 : only_rays v1 []) by (unfold only_rays; rewrite Sl; reflexivity).
    destruct (plot_spec w _ _ _ _ T1 Tl1 E) as (ls' & T2 & Tl2 & R2 & S' & M' & Q'). exists ls'.
    assert (Hs1 : has_settings v1 (mkSet a src esc sel (Z.to_nat 200000000) (5 / 100))) by (repeat split; auto).
    rewrite (settings_eta _ _ Hs1) in R2.
    split; [|split; [exact Tl2|split; [|split; [|split]]]].
    + eapply tracks_ext; [exact T2|]. intros k Hk. rewrite M' in Hk. apply (Permutation_in _ K1) in Hk. apply (proj1 (each_in _ _)) in Hk.
      eapply portrait_unique; [apply Hp|apply P1]; auto.
    + exact (replotted_unique w _ _ _ _ R2 Hr).
    + unfold complete. rewrite M'. exact C1.
    + rewrite M'. exact K1.
    + split; [eapply same_has; eauto|auto].
  - exact IH.
  - destruct IH as (ls & T & Tl & L & C & K & S & Dz). destruct (update_spec order O w v pic ls T C) as (_ & B).
    destruct (B v' E) as (pic1 & T1 & C1 & R1 & K1 & O1 & N1). destruct S as (Sa & S). rewrite Sa in *.
    exists ls. split; [|split; [apply (only_rays_same v); [exact Tl|apply R1]|split; [exact L|split; [exact C1|split; [exact K1|]]]]].
    + eapply tracks_ext; [exact T1|]. intros k Hk. apply (Permutation_in _ K1) in Hk. apply (proj1 (each_in _ _)) in Hk.
      destruct (in_dec Nat.eq_dec k (keys (v_meshes v))) as [Hi|Hi].
      * rewrite (Ho k Hk (Permutation_in _ K Hi)). symmetry. apply O1; auto.
      * eapply portrait_unique; [apply Hn; auto|apply N1; auto]. intros Hi'. apply Hi. apply (Permutation_in _ (Permutation_sym K) Hi').
    + split; [eapply same_has; [|apply rest_settings; exact R1]; split; auto|]. rewrite <- Dz. apply R1.
  - destruct IH as (ls & T & Tl & L & C & K & S & Dz). destruct (show_assembly_spec order O w c r u o v pic ls T) as (_ & B).
    destruct (B v' E) as (pic1 & T1 & K1 & R1 & S1 & U1 & C1).
    exists ls. split; [|split; [apply (only_rays_same v); [exact Tl|apply R1]|split; [exact L|split; [|split]]]].
    + eapply tracks_ext; [exact T1|]. intros k Hk. rewrite K1 in Hk. pose proof (Permutation_in _ K Hk) as Hi.
      assert (D : selected u k \/ ~ selected u k). { destruct u as [l|]; simpl; [|auto]. destruct (in_dec Nat.eq_dec k l); auto. }
      destruct D as [D|D]; [eapply portrait_unique; [apply Hs; auto|apply S1; auto]|rewrite Hn, U1; auto].
    + apply C1. intros x Hx Hnone. destruct (C x Hx Hnone).
    + rewrite K1. exact K.
    + split; [eapply same_has; [exact S|apply rest_settings; exact R1]|]. rewrite <- Dz. apply R1.
  - destruct IH as (ls & T & Tl & L & C & K & S & Dz). unfold set_source in E.
    assert (T0 : tracks (with_source v src) pic ls) by (constructor; apply T).
    destruct (plot_spec w _ _ _ _ T0 Tl E) as (ls' & T2 & Tl2 & R2 & S' & M' & Q').
    assert (Hs1 : has_settings (with_source v src) s').
    { rewrite Es. destruct S as (A1 & A2 & A3 & A4 & A5 & A6). repeat split; auto. }
    rewrite (settings_eta _ _ Hs1), L in R2. exists ls'.
    split; [exact T2|]. split; [exact Tl2|]. split; [exact (replotted_unique w _ _ _ _ R2 Hr)|]. unfold complete. rewrite M'. split; [exact C|]. split; [exact K|]. split; [eapply same_has; eauto|auto].
  - destruct IH as (ls & T & Tl & L & C & K & S & Dz). destruct (plot_spec w _ _ _ _ T Tl E) as (ls' & T2 & Tl2 & R2 & S' & M' & Q').
    rewrite (settings_eta _ _ S), L in R2. exists ls'.
    split; [exact T2|]. split; [exact Tl2|]. split; [exact (replotted_unique w _ _ _ _ R2 Hr)|]. unfold complete. rewrite M'. split; [exact C|]. split; [exact K|]. split; [eapply same_has; eauto|auto].
  - destruct IH as (ls & T & Tl & L & C & K & S & Dz). exists ls. split; [constructor; apply T|]. split; [exact Tl|]. split; [exact L|]. split; [exact C|]. split; [exact K|].
    destruct S as (A1 & A2 & A3 & A4 & A5 & A6). apply annotated_or_else in Hi, He. unfold has_settings, set_trace_control.
    cbn [v_asm v_source v_esc v_selector v_iters v_min_energy]. rewrite A5, A6. split; [repeat split; congruence|exact Dz].
  - destruct IH as (ls & T & Tl & L & C & K & S & Dz). destruct (clear_spec v) as (D1 & D2 & D3 & D4 & D5 & D6).
    destruct (set_assembly_spec order O w a (clear_scene v) []) as (_ & B);
      [rewrite D1; constructor|rewrite D1; intros x []|rewrite D1; constructor|].
    destruct (B v' E) as (pic1 & T1 & C1 & K1 & P1 & S1 & S2 & S3 & S4 & S5 & S6 & Sl & Sd). exists [].
    split; [|split; [unfold only_rays; rewrite Sl, D4; reflexivity|split; [reflexivity|split; [exact C1|split; [exact K1|]]]]].
    + eapply tracks_ext; [exact T1|]. intros k Hk. apply (Permutation_in _ K1) in Hk. apply (proj1 (each_in _ _)) in Hk.
      eapply portrait_unique; [apply Hp|apply P1]; auto.
    + split; [|congruence]. pose proof (same_has _ _ _ S D5) as (A1 & A2 & A3 & A4 & A5 & A6). repeat split; cbn [st_asm st_source st_esc st_selector st_iters st_min_energy]; congruence.
  - destruct IH as (ls & T & Tl & L & C & K & S & Dz). destruct (clear_spec v) as (D1 & D2 & D3 & D4 & D5 & D6).
    destruct (show_assembly_spec order O w c r None o (clear_scene v) pic []) as (_ & B); [apply clear_tracks, T|].
    destruct (B v' E) as (pic1 & T1 & K1 & R1 & S1 & U1 & C1). exists [].
    split; [|split; [unfold only_rays; rewrite (proj1 R1), D4; reflexivity|split; [reflexivity|split; [|split]]]].
    + eapply tracks_ext; [exact T1|]. intros k Hk. rewrite K1 in Hk. rewrite D2 in Hk. pose proof (Permutation_in _ K Hk) as Hi.
      eapply portrait_unique; [apply Hp; auto|]. apply S1; [rewrite D2; auto|exact I].
    + apply C1. intros x Hx _. exact I.
    + rewrite K1, D2. exact K.
    + split; [eapply same_has; [|apply rest_settings; exact R1]; eapply same_has; eauto|]. rewrite <- Dz, <- D6. apply R1.
Qed.

Lemma complete_drawn m pic : (forall x, In x m -> snd x <> None) -> map snd (flat_map (part pic) m) = map pic (keys m).
Proof.
  induction m as [|(k, [h|]) m IH]; intros H; auto; simpl.
  - f_equal. apply IH. intros x Hx. apply H. right; auto.
  - destruct (H (k, None)); auto. left; auto.
Qed.

Theorem history_shows order w v s ids pic rs : some_order order -> history order w v s ids pic rs ->
  shows v ids pic rs /\ has_settings v s /\ v_disabled v = false.
Proof.
  intros O H. destruct (history_fits _ _ _ _ _ _ _ O H) as (ls & T & Tl & L & C & K & S & Dz). split; [|split; auto]. split; [|split].
  - apply (Permutation_NoDup K), T.
  - unfold in_scene. eapply Permutation_trans; [apply (Permutation_map snd (tr_perm _ _ _ T))|]. rewrite map_app, L. apply Permutation_app_tail.
    rewrite complete_drawn by exact C. apply Permutation_map, K.
  - unfold only_rays in Tl. subst rs. destruct (v_lines v); [destruct Tl as (p & c & ->); right; exists p, c; reflexivity|subst; left; reflexivity].
Qed.

Theorem control_kept order w v s ids pic rs : some_order order -> history order w v s ids pic rs ->
  trace_control v = (st_iters s, st_min_energy s).
Proof.
  intros O H. destruct (history_shows _ _ _ _ _ _ _ O H) as (_ & (_ & _ & _ & _ & I & E) & _).
  unfold trace_control. rewrite I, E. reflexivity.
Qed.

(** The methods go on histories. *)
Theorem update_goes_on order w v s ids pic rs : some_order order -> history order w v s ids pic rs ->
  (forall sid, In sid (w_surfaces w (st_asm s)) -> ~ In sid ids -> exists d, plain_portrait w sid d) ->
  exists v' pic', update_surfaces order w v = Ok v' /\ history order w v' s (each (w_surfaces w (st_asm s))) pic' rs /\
    (forall sid, In sid (w_surfaces w (st_asm s)) -> In sid ids -> pic' sid = pic sid) /\
    (forall sid, In sid (w_surfaces w (st_asm s)) -> ~ In sid ids -> plain_portrait w sid (pic' sid)).
Proof.
  intros O H P. destruct (history_fits _ _ _ _ _ _ _ O H) as (ls & T & Tl & L & C & K & S & Dz).
  destruct (update_spec order O w v pic ls T C) as (A & B). destruct S as (Sa & _). rewrite Sa in *.
  destruct A as (v' & E). { intros k Hk Hn. apply P; auto. intros Hi. apply Hn, (Permutation_in _ (Permutation_sym K) Hi). }
  destruct (B v' E) as (pic1 & T1 & C1 & R1 & K1 & O1 & N1). exists v', pic1. split; auto.
  assert (X : forall sid, In sid (w_surfaces w (st_asm s)) -> In sid ids -> pic1 sid = pic sid).
  { intros sid Hs Hi. apply O1; auto. apply (Permutation_in _ (Permutation_sym K) Hi). }
  assert (Y : forall sid, In sid (w_surfaces w (st_asm s)) -> ~ In sid ids -> plain_portrait w sid (pic1 sid)).
  { intros sid Hs Hi. apply N1; auto. intros Hi'. apply Hi, (Permutation_in _ K Hi'). }
  split; [|split; auto]. eapply h_update; eauto.
Qed.

(** ** Other sequences of calls *)
Theorem replaced_uncleared order w v s ids pic rs a v' : some_order order -> history order w v s ids pic rs ->
  set_assembly order w a v = Ok v' ->
  exists pic', (forall sid, In sid (w_surfaces w a) -> plain_portrait w sid (pic' sid)) /\
    Permutation (in_scene v') (map pic ids ++ map pic' (each (w_surfaces w a)) ++ rs).
Proof.
  intros O H E. destruct (history_fits _ _ _ _ _ _ _ O H) as (ls & T & Tl & L & C & K & S & Dz).
  destruct (set_assembly_spec order O w a v (v_drawn v)) as (_ & B); [apply T|apply T|reflexivity|].
  destruct (B v' E) as (pic' & T' & C' & K' & P' & _). exists pic'. split; auto.
  unfold in_scene. eapply Permutation_trans; [apply (Permutation_map snd (tr_perm _ _ _ T'))|]. rewrite map_app, complete_drawn by exact C'.
  pose proof (Permutation_map snd (tr_perm _ _ _ T)) as P. rewrite map_app, L, complete_drawn in P by exact C.
  rewrite (Permutation_map pic K) in P. rewrite (Permutation_map pic' K'), P.
  rewrite !app_assoc. apply Permutation_app_tail. apply Permutation_app_comm.
Qed.

Theorem cleared_vanished order w v s ids pic rs sid : some_order order -> history order w v s ids pic rs ->
  In sid ids -> ~ In sid (w_surfaces w (st_asm s)) -> update_surfaces order w (clear_scene v) = Err AttributeError.
Proof.
  intros O H Hi Hn. destruct (history_fits _ _ _ _ _ _ _ O H) as (ls & T & Tl & L & C & K & S & Dz).
  destruct (clear_spec v) as (D1 & D2 & D3 & D4 & D5 & D6). unfold update_surfaces.
  replace (v_asm (clear_scene v)) with (st_asm s) by (pose proof (same_has _ _ _ S D5) as (A & _); congruence).
  set (idsn := w_surfaces w (st_asm s)) in *. set (u := clear_scene v) in *.
  assert (X : forall l, In sid l -> (forall k, In k l -> In k (keys (v_meshes u))) -> foldM (drop_vanished idsn) u l = Err AttributeError).
  { induction l as [|k l IH]; intros Hs Hl; [destruct Hs|]. simpl. unfold drop_vanished at 1. destruct (mem k idsn) eqn:M.
    - cbn [bind]. apply IH; [|intros; apply Hl; right; auto]. destruct Hs as [<-|Hs]; auto. apply mem_spec in M. tauto.
    - destruct (find k (v_meshes u)) as [ob|] eqn:F.
      + assert (ob = None).
        { assert (Fi : forall m, find k m = Some ob -> In (k, ob) m).
          { induction m as [|(x, z) m IHm]; simpl; [discriminate|]. destruct (Nat.eqb_spec x k); [intros E; injection E as ->; subst; left; auto|auto]. }
          apply (D3 (k, ob)); auto. }
        subst ob. reflexivity.
      + apply find_none in F. destruct F. apply Hl. left; auto. }
  rewrite X; [reflexivity| |].
  - apply (Permutation_in _ (Permutation_sym (O _))). change (map fst (v_meshes u)) with (keys (v_meshes u)). rewrite D2. apply (Permutation_in _ (Permutation_sym K) Hi).
  - intros k Hk. apply (Permutation_in _ (O _) Hk).
Qed.

Theorem cleared_undrawn order w v s ids pic rs v' : some_order order -> history order w v s ids pic rs ->
  update_surfaces order w (clear_scene v) = Ok v' -> (forall sid, In sid (w_surfaces w (st_asm s)) -> In sid ids) -> in_scene v' = [].
Proof.
  intros O H E Hn. destruct (history_fits _ _ _ _ _ _ _ O H) as (ls & T & Tl & L & C & K & S & Dz).
  destruct (clear_spec v) as (D1 & D2 & D3 & D4 & D5 & D6). unfold update_surfaces in E.
  replace (v_asm (clear_scene v)) with (st_asm s) in E by (pose proof (same_has _ _ _ S D5) as (A & _); congruence).
  set (idsn := w_surfaces w (st_asm s)) in *. set (u := clear_scene v) in *.
  assert (X : forall l u', (forall x, In x (v_meshes u) -> snd x = None) -> foldM (drop_vanished idsn) u l = Ok u' -> u' = u).
  { intros l u' Hu. induction l as [|k l IH]; simpl; [congruence|]. unfold drop_vanished at 1. destruct (mem k idsn); [exact IH|].
    destruct (find k (v_meshes u)) as [ob|] eqn:F; [|discriminate].
    assert (ob = None).
    { assert (Fi : forall m, find k m = Some ob -> In (k, ob) m).
      { induction m as [|(x, z) m IHm]; simpl; [discriminate|]. destruct (Nat.eqb_spec x k); [intros E'; injection E' as ->; subst; left; auto|auto]. }
      apply (Hu (k, ob)); auto. }
    subst ob. discriminate. }
  destruct (foldM (drop_vanished idsn) u _) as [u'|] eqn:E1; [|discriminate]. cbn [bind] in E. apply X in E1; [|exact D3]. subst u'.
  destruct (add_new idsn (v_meshes u)) as (m, new) eqn:E2.
  destruct (add_new_spec _ _ _ _ E2) as (Em & Nm & Kn); [change (v_meshes (clear_scene v)) with (v_meshes u) in D2; rewrite D2; apply T|].
  assert (new = []) as ->.
  { destruct new as [|k new]; auto. exfalso. destruct (proj1 (Kn k) (or_introl eq_refl)) as (A1 & A2). apply A2.
    change (v_meshes (clear_scene v)) with (v_meshes u) in D2. rewrite D2. apply (Permutation_in _ (Permutation_sym K)), Hn, A1. }
  unfold show_assembly in E.
  assert (Y : forall l, foldM (show_surface w grey 10 1 (Some [])) (with_meshes u m) l = Ok (with_meshes u m)).
  { induction l; [reflexivity|]. exact IHl. }
  rewrite Y in E. injection E as <-. unfold in_scene. cbn [with_meshes v_drawn]. rewrite D1. reflexivity.
Qed.

Theorem source_removed w v : exists v', set_source w None v = Ok v' /\ in_scene v' = in_scene v.
Proof. exists (with_source v None). split; reflexivity. Qed.

(** ** A case: three plates; one leaves the assembly and another one joins it *)
Definition plate (i : nat) : surface := new_surface (RectPlate 1 1) (Absorbing (Reflective (1 / 2))) (mk4 id3 (V3 0 0 (INR i))).
Definition plates (l : list nat) (g : shared) : world :=
  mkW plate (fun _ => None) (fun i => if Nat.eqb i 2 then Some (V3 1 0 0) else None) (fun _ => None) (fun _ => l) (fun _ => [default_object 2]) g.

Lemma plate_portrait l g i : exists d, plain_portrait (plates l g) i d.
Proof.
  eexists. unfold plain_portrait, portrait. eexists _, 10, (or_else (w_colour (plates l g) i) (V3 (1 / 2) (1 / 2) (1 / 2))), 1.
  split; [right; split; reflexivity|]. split; [apply or_else_annotated|]. split; [right; split; reflexivity|].
  split; [unfold surf_mesh; cbn [plates w_surface plate s_geom geom_mesh rect_mesh bind]; reflexivity|reflexivity].
Qed.

Lemma plates_case g order : some_order order -> exists v v' pic pic',
  history order (plates [0; 1]%nat g) v (mkSet 0 None 1 None (Z.to_nat 200000000) (5 / 100)) [0; 1]%nat pic [] /\
  update_surfaces order (plates [2; 1]%nat g) v = Ok v' /\
  history order (plates [2; 1]%nat g) v' (mkSet 0 None 1 None (Z.to_nat 200000000) (5 / 100)) [2; 1]%nat pic' [] /\
  Permutation (in_scene v) [pic 0; pic 1]%nat /\ Permutation (in_scene v') [pic' 2; pic 1]%nat.
Proof.
  intros O.
  destruct (set_assembly_spec order O (plates [0; 1]%nat g) 0 (mkV [] 0 0 [] None None 1 None (Z.to_nat 200000000) (5 / 100) false) []) as (A & B);
    [constructor|intros x []|constructor|].
  destruct A as (v & E); [intros k _; apply plate_portrait|].
  destruct (B v E) as (pic & T & C & K & P & S).
  assert (H : history order (plates [0; 1]%nat g) v (mkSet 0 None 1 None (Z.to_nat 200000000) (5 / 100)) [0; 1]%nat pic []).
  { change [0; 1]%nat with (each (w_surfaces (plates [0; 1]%nat g) 0)) at 2. apply h_new; auto; [|reflexivity].
    unfold new_viewer. rewrite E. cbn [bind]. unfold plot_ray_trace. destruct S as (_ & -> & _). reflexivity. }
  pose proof (h_world order _ (plates [2; 1]%nat g) _ _ _ _ _ H) as Hw.
  destruct (update_goes_on order _ _ _ _ _ _ O Hw) as (v' & pic' & E' & H' & Q1 & Q2); [intros sid _ _; apply plate_portrait|].
  exists v, v', pic, pic'. split; auto. split; auto. split; [exact H'|].
  destruct (history_shows _ _ _ _ _ _ _ O H) as ((_ & Q & _) & _ & _). rewrite app_nil_r in Q. split; [exact Q|].
  destruct (history_shows _ _ _ _ _ _ _ O H') as ((_ & Q' & _) & _ & _). rewrite app_nil_r in Q'.
  rewrite <- (Q1 1%nat); [exact Q'|right; left; auto|right; left; auto].
Qed.
