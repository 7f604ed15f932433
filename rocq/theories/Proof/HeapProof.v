(** Ray bundles with identities behave as the bundles of Model/RayBundle.v. *)
From Coq Require Import Reals String List Arith Bool Lia.
From Verif.Base Require Import Py Num Vec.
From Verif.Model Require Import RayBundle BundleHeap.
From Verif.Spec Require Import HeapSpec.
Import ListNotations.

(** ** Heaps *)

Lemma rd_wr_same k a l h : rd k (wr k a l h) a = l.
Proof. destruct k; cbn; unfold hupd; now rewrite Nat.eqb_refl. Qed.
Lemma rd_wr_other k k' a b l h : b <> a -> rd k' (wr k a l h) b = rd k' h b.
Proof.
  intros N. destruct k, k'; cbn; try reflexivity; unfold hupd;
    destruct (Nat.eqb_spec b a); congruence.
Qed.
Lemma wr_next k a l h : h_next (wr k a l h) = h_next h.
Proof. now destruct k. Qed.
Lemma wr_onext k a l h : h_onext (wr k a l h) = h_onext h.
Proof. now destruct k. Qed.
Lemma wr_obj k a l h : h_obj (wr k a l h) = h_obj h.
Proof. now destruct k. Qed.

Lemma untouched_refl h : untouched h h.
Proof. repeat split; auto. Qed.
Lemma untouched_trans h1 h2 h3 : untouched h1 h2 -> untouched h2 h3 -> untouched h1 h3.
Proof.
  intros (A & B & C & D) (A' & B' & C' & D').
  split; [lia|]. split; [lia|]. split.
  - intros k a L. rewrite C', C; [reflexivity|exact L|lia].
  - intros o L. rewrite D', D; [reflexivity|exact L|lia].
Qed.

Definition arr_ok (k : kind) (lo : nat) (h : heap) (a : nat) (l : list (elt k)) : Prop :=
  lo <= a /\ a < h_next h /\ rd k h a = l.
Definition slot_ok (k : kind) (lo : nat) (h : heap) (a : option nat) (l : option (list (elt k))) : Prop :=
  match a, l with
  | None, None => True
  | Some a, Some l => arr_ok k lo h a l
  | _, _ => False
  end.
Definition slots_ok (lo : nat) (h : heap) (x : list (string * option nat)) (y : extras) : Prop :=
  Forall2 (fun nv nw => fst nv = fst nw /\ slot_ok KCell lo h (snd nv) (snd nw)) x y.
Record bun_ok (lo : nat) (h : heap) (b : hbundle) (v : bundle) : Prop := mkBok {
  bo_vert : slot_ok KVec lo h (hb_vert b) (b_vert v);
  bo_dir : slot_ok KVec lo h (hb_dir b) (b_dir v);
  bo_energy : slot_ok KNum lo h (hb_energy b) (b_energy v);
  bo_parents : slot_ok KIdx lo h (hb_parents b) (b_parents v);
  bo_ref : slot_ok KNum lo h (hb_ref b) (b_ref v);
  bo_extra : slots_ok lo h (hb_extra b) (b_extra v) }.
Definition obj_ok (lo : nat) (h : heap) (o : nat) (v : bundle) : Prop :=
  o < h_onext h /\ bun_ok lo h (h_obj h o) v.

Lemma arr_mono k lo h h' a l : untouched h h' -> arr_ok k lo h a l -> arr_ok k lo h' a l.
Proof. intros (A & _ & C & _) (L & N & E). repeat split; [exact L|lia|rewrite C; auto]. Qed.
Lemma arr_weaken k lo lo' h a l : lo' <= lo -> arr_ok k lo h a l -> arr_ok k lo' h a l.
Proof. intros L (A & B & C). repeat split; [lia|exact B|exact C]. Qed.
Lemma slot_mono k lo h h' a l : untouched h h' -> slot_ok k lo h a l -> slot_ok k lo h' a l.
Proof. intros U. destruct a, l; cbn; auto. apply arr_mono, U. Qed.
Lemma slot_weaken k lo lo' h a l : lo' <= lo -> slot_ok k lo h a l -> slot_ok k lo' h a l.
Proof. intros U. destruct a, l; cbn; auto. apply arr_weaken, U. Qed.
Lemma slots_mono lo h h' x y : untouched h h' -> slots_ok lo h x y -> slots_ok lo h' x y.
Proof.
  intros U F. induction F as [|n m x y [E S] F IH]; constructor; [|exact IH].
  split; [exact E|now apply (slot_mono _ _ h)].
Qed.
Lemma slots_weaken lo lo' h x y : lo' <= lo -> slots_ok lo h x y -> slots_ok lo' h x y.
Proof.
  intros U F. induction F as [|n m x y [E S] F IH]; constructor; [|exact IH].
  split; [exact E|now apply (slot_weaken _ lo)].
Qed.
Lemma bun_mono lo h h' b v : untouched h h' -> bun_ok lo h b v -> bun_ok lo h' b v.
Proof.
  intros U [A B C D E F].
  constructor; try (now apply (slot_mono _ _ h)). now apply (slots_mono _ h).
Qed.
Lemma bun_weaken lo lo' h b v : lo' <= lo -> bun_ok lo h b v -> bun_ok lo' h b v.
Proof.
  intros U [A B C D E F].
  constructor; try (now apply (slot_weaken _ lo)). now apply (slots_weaken lo).
Qed.
Lemma obj_mono lo h h' o v : untouched h h' -> obj_ok lo h o v -> obj_ok lo h' o v.
Proof.
  intros U [L B]. pose proof U as (X & Y & Z & T). split; [lia|].
  rewrite T by exact L. now apply (bun_mono _ h).
Qed.
Lemma obj_weaken lo lo' h o v : lo' <= lo -> obj_ok lo h o v -> obj_ok lo' h o v.
Proof. intros U [L B]. split; [exact L|now apply (bun_weaken lo)]. Qed.

(** ** A computation against its value *)

Definition agrees {A C : Type} (h : heap) (m : H A) (v : res C) (Q : heap -> A -> C -> Prop) : Prop :=
  let '(h', r) := m h in
  untouched h h' /\
  match r, v with
  | Ok a, Ok c => Q h' a c
  | Err e, Err e' => e = e'
  | _, _ => False
  end.

Lemma agrees_bind {A A' C C'} h (m : H A) (v : res C) Q (f : A -> H A') (g : C -> res C') Q' :
  agrees h m v Q ->
  (forall h' a c, untouched h h' -> Q h' a c -> agrees h' (f a) (g c) Q') ->
  agrees h (hbind m f) (bind v g) Q'.
Proof.
  intros M K. unfold agrees, hbind in *. destruct (m h) as [h1 r]. destruct M as [U M].
  destruct r as [a|e], v as [c|e']; try contradiction; cbn [bind].
  - specialize (K h1 a c U M). destruct (f a h1) as [h2 r]. destruct K as [U' K].
    split; [now apply (untouched_trans _ h1)|exact K].
  - subst. now split.
Qed.
Lemma agrees_ret {A C} h (a : A) (c : C) (Q : heap -> A -> C -> Prop) :
  Q h a c -> agrees h (hret a) (Ok c) Q.
Proof. intros X. split; [apply untouched_refl|exact X]. Qed.
Lemma agrees_lift {A} h (r : res A) : agrees h (hlift r) r (fun _ a c => a = c).
Proof. unfold agrees, hlift. split; [apply untouched_refl|]. now destruct r. Qed.
Lemma agrees_read {A C} h (f : heap -> A) (m : A -> H C) D (v : res D) Q :
  agrees h (m (f h)) v Q -> agrees h (hbind (hread f) m) v Q.
Proof. auto. Qed.
Lemma agrees_weaken {A C} h (m : H A) (v : res C) (Q Q' : heap -> A -> C -> Prop) :
  agrees h m v Q -> (forall h' a c, untouched h h' -> Q h' a c -> Q' h' a c) -> agrees h m v Q'.
Proof.
  unfold agrees. destruct (m h) as [h' r]. intros [U M] K. split; [exact U|].
  destruct r, v; auto.
Qed.

Lemma agrees_array k h l : agrees h (array k l) (Ok l) (fun h' a c => arr_ok k (h_next h) h' a c).
Proof.
  unfold agrees, array. split.
  - unfold untouched. rewrite wr_next, wr_onext, wr_obj. cbn. repeat split; auto.
    intros k' a L. rewrite rd_wr_other by lia. now destruct k'.
  - unfold arr_ok. rewrite wr_next, rd_wr_same. cbn. repeat split; lia.
Qed.

Lemma agrees_new h b v lo : bun_ok lo h b v ->
  agrees h (new_bundle b) (Ok v) (fun h' o c => h_onext h <= o /\ obj_ok lo h' o c).
Proof.
  intros B.
  assert (U : untouched h (mkH (h_vec h) (h_num h) (h_idx h) (h_cell h) (h_next h)
      (hupd (h_obj h) (h_onext h) b) (S (h_onext h)))).
  { unfold untouched. cbn. split; [auto|]. split; [auto|]. split.
    - intros k a L. now destruct k.
    - intros o L. unfold hupd. destruct (Nat.eqb_spec o (h_onext h)); [lia|reflexivity]. }
  unfold agrees, new_bundle. split; [exact U|]. split; [apply le_n|].
  split; [cbn; lia|]. cbn [h_obj]. unfold hupd. rewrite Nat.eqb_refl.
  now apply (bun_mono _ h).
Qed.

Lemma agrees_val {A C} h (m : H A) (v v' : res C) Q : agrees h m v Q -> v = v' -> agrees h m v' Q.
Proof. now intros X <-. Qed.

(** ** The methods *)

Lemma bind_ret {A} (m : res A) : (x <- m ;; Ok x) = m.
Proof. now destruct m. Qed.

Lemma get_array_ok k lo h a sel l : lo <= h_next h ->
  arr_ok k 0 h a l -> (sel = SAll -> lo <= a) ->
  agrees h (get_array k a sel) (select sel l) (fun h' a' l' => arr_ok k lo h' a' l').
Proof.
  intros Lo (_ & N & E) S. destruct sel as [|idx|m]; cbn [get_array].
  - apply agrees_ret. repeat split; auto.
  - apply agrees_read. rewrite E.
    eapply agrees_val; [|apply bind_ret].
    eapply agrees_bind; [apply agrees_lift|]. intros h' x c U ->.
    eapply agrees_weaken; [apply agrees_array|]. intros h2 b q _ X.
    apply (arr_weaken _ (h_next h')); [destruct U; lia|exact X].
  - apply agrees_read. rewrite E.
    eapply agrees_val; [|apply bind_ret].
    eapply agrees_bind; [apply agrees_lift|]. intros h' x c U ->.
    eapply agrees_weaken; [apply agrees_array|]. intros h2 b q _ X.
    apply (arr_weaken _ (h_next h')); [destruct U; lia|exact X].
Qed.

Lemma inherit_slot_ok k lo h sel given own vg vo : lo <= h_next h ->
  slot_ok k lo h given vg -> slot_ok k 0 h own vo ->
  (sel = SAll -> slot_ok k lo h own vo) ->
  agrees h (inherit_slot k sel given own) (inherit_prop sel vg vo) (fun h' a l => slot_ok k lo h' a l).
Proof.
  intros Lo G O S. unfold inherit_slot, inherit_prop.
  destruct given as [a|], vg as [l|]; try contradiction.
  - now apply agrees_ret.
  - destruct own as [b|], vo as [l|]; try contradiction.
    + eapply agrees_bind.
      * apply (get_array_ok k lo h b sel l Lo O). intros E. apply (S E).
      * intros h' a' c U X. now apply agrees_ret.
    + now apply agrees_ret.
Qed.

Lemma lookup_ok lo h x y n : slots_ok lo h x y ->
  match lookup n x, lookup n y with
  | None, None => True
  | Some a, Some l => slot_ok KCell lo h a l
  | _, _ => False
  end.
Proof.
  intros F. induction F as [|[p v] [q w] x y [E S] F IH]; cbn; [exact I|].
  cbn in E, S. subst q. destruct (String.eqb p n); [exact S|exact IH].
Qed.
Lemma given_ok lo h x y n : slots_ok lo h x y ->
  slot_ok KCell lo h (given_slot n x) (given_extra n y).
Proof.
  intros F. pose proof (lookup_ok lo h x y n F) as L. unfold given_slot, given_extra.
  destruct (lookup n x), (lookup n y); try contradiction; [exact L|exact I].
Qed.

Lemma inherit_slots_ok lo sel given vg : forall own vo h, lo <= h_next h ->
  slots_ok lo h given vg -> slots_ok 0 h own vo -> (sel = SAll -> slots_ok lo h own vo) ->
  agrees h (inherit_slots sel given own) (inherit_extras sel vg vo) (fun h' x y => slots_ok lo h' x y).
Proof.
  induction own as [|[n v] own IH]; intros vo h Lo G O S; inversion O as [|? [m w] ? vo' [E X] F]; subst.
  - apply agrees_ret. constructor.
  - cbn in E, X. subst m. cbn [inherit_slots inherit_extras].
    eapply agrees_bind.
    + apply (inherit_slot_ok KCell lo h); [exact Lo|now apply given_ok|exact X|].
      intros Es. specialize (S Es). inversion S as [|? ? ? ? [_ Z] _]; subst. exact Z.
    + intros h1 v' w' U1 V. eapply agrees_bind.
      * apply IH; [destruct U1; lia|now apply (slots_mono _ h)|now apply (slots_mono _ h)|].
        intros Es. specialize (S Es). inversion S as [|? ? ? ? _ Z]; subst. now apply (slots_mono _ h).
      * intros h2 x y U2 W. apply agrees_ret. constructor; [|exact W].
        split; [reflexivity|]. now apply (slot_mono _ _ h1).
Qed.

Lemma filter_ok lo h x y own vo : slots_ok 0 h own vo -> slots_ok lo h x y ->
  slots_ok lo h (filter (fun nv => match lookup (fst nv) own with Some _ => false | None => true end) x)
    (new_extras y vo).
Proof.
  intros O F. unfold new_extras. induction F as [|[p v] [q w] x y [E S] F IH]; cbn; [constructor|].
  cbn in E, S. subst q. pose proof (lookup_ok 0 h own vo p O) as L.
  destruct (lookup p own), (lookup p vo); try contradiction; [exact IH|].
  constructor; [now split|exact IH].
Qed.

Lemma slots_app lo h x y x' y' : slots_ok lo h x y -> slots_ok lo h x' y' ->
  slots_ok lo h (x ++ x') (y ++ y').
Proof. apply Forall2_app. Qed.

Theorem inherit_ok lo h o v sel ov vov : lo <= h_next h ->
  obj_ok 0 h o v -> bun_ok lo h ov vov -> (sel = SAll -> obj_ok lo h o v) ->
  agrees h (h_inherit o sel ov) (inherit v sel vov)
    (fun h' o' v' => h_onext h <= o' /\ obj_ok lo h' o' v').
Proof.
  intros Lo [_ [A B C D E F]] [A' B' C' D' E' F'] S. unfold h_inherit, inherit. apply agrees_read.
  assert (S' : sel = SAll -> bun_ok lo h (h_obj h o) v) by (intros X; apply (S X)).
  eapply agrees_bind.
  { apply (inherit_slot_ok KVec lo h); eauto. intros X. apply (S' X). }
  intros h1 v1 w1 U1 R1. cbn beta in R1. assert (L1 : lo <= h_next h1) by (destruct U1; lia).
  eapply agrees_bind.
  { apply (inherit_slot_ok KVec lo h1); eauto using slot_mono. intros X. eapply slot_mono; [exact U1|]. apply (S' X). }
  intros h2 v2 w2 U2 R2. pose proof (untouched_trans _ _ _ U1 U2) as T2. assert (L2 : lo <= h_next h2) by (destruct U2; lia).
  eapply agrees_bind.
  { apply (inherit_slot_ok KNum lo h2); eauto using slot_mono. intros X. eapply slot_mono; [exact T2|]. apply (S' X). }
  intros h3 v3 w3 U3 R3. pose proof (untouched_trans _ _ _ T2 U3) as T3. assert (L3 : lo <= h_next h3) by (destruct U3; lia).
  eapply agrees_bind.
  { apply (inherit_slot_ok KIdx lo h3); eauto using slot_mono. intros X. eapply slot_mono; [exact T3|]. apply (S' X). }
  intros h4 v4 w4 U4 R4. pose proof (untouched_trans _ _ _ T3 U4) as T4. assert (L4 : lo <= h_next h4) by (destruct U4; lia).
  eapply agrees_bind.
  { apply (inherit_slot_ok KNum lo h4); eauto using slot_mono. intros X. eapply slot_mono; [exact T4|]. apply (S' X). }
  intros h5 v5 w5 U5 R5. pose proof (untouched_trans _ _ _ T4 U5) as T5. assert (L5 : lo <= h_next h5) by (destruct U5; lia).
  eapply agrees_bind.
  { apply (inherit_slots_ok lo sel (hb_extra ov) (b_extra vov)); eauto using slots_mono. intros X. eapply slots_mono; [exact T5|]. apply (S' X). }
  intros h6 x y U6 R6. pose proof (untouched_trans _ _ _ T5 U6) as T6.
  pose proof (untouched_trans _ _ _ U5 U6) as W4.
  pose proof (untouched_trans _ _ _ U4 W4) as W3.
  pose proof (untouched_trans _ _ _ U3 W3) as W2.
  pose proof (untouched_trans _ _ _ U2 W2) as W1.
  eapply agrees_weaken.
  - apply (agrees_new h6 _ _ lo). constructor; cbn; eauto using slot_mono.
    apply slots_app; [exact R6|]. apply filter_ok; (eapply slots_mono; [exact T6|assumption]).
  - intros h7 o' c U7 [X Y]. split; [destruct T6 as (_ & Q & _); lia|exact Y].
Qed.

Lemma no_slots_ok lo h : bun_ok lo h no_slots no_bundle.
Proof. constructor; cbn; try exact I. constructor. Qed.

Lemma num_rays_ok h o v : obj_ok 0 h o v ->
  agrees h (num_rays o) (get_num_rays v) (fun _ n m => n = m).
Proof.
  intros [_ B]. unfold num_rays, get_num_rays. apply agrees_read. pose proof (bo_vert _ _ _ _ B) as V.
  destruct (hb_vert (h_obj h o)) as [a|], (b_vert v) as [l|]; try contradiction.
  - destruct V as (_ & _ & E). split; [apply untouched_refl|]. now rewrite E.
  - now split; [apply untouched_refl|].
Qed.

Theorem delete_ok h o v sel : obj_ok 0 h o v ->
  agrees h (h_delete o sel) (delete_rays v sel)
    (fun h' o' v' => h_onext h <= o' /\ obj_ok (h_next h) h' o' v').
Proof.
  intros O. unfold h_delete, delete_rays. eapply agrees_bind; [now apply num_rays_ok|].
  intros h1 n m U ->. eapply agrees_weaken.
  - apply (inherit_ok (h_next h1)); [apply le_n|now apply (obj_mono _ h)|apply no_slots_ok|discriminate].
  - intros h2 o' c U2 [X Y]. destruct U as (P & Q & _). split; [lia|].
    now apply (obj_weaken (h_next h1)).
Qed.

Lemma add_slot_ok k lo h x y vx vy : lo <= h_next h ->
  slot_ok k 0 h x vx -> slot_ok k 0 h y vy ->
  agrees h (add_slot k x y) (Ok (add_prop vx vy)) (fun h' a l => slot_ok k lo h' a l).
Proof.
  intros Lo X Y. unfold add_slot, add_prop.
  destruct x as [a|], vx as [l|]; try contradiction; [|now apply agrees_ret].
  destruct y as [b|], vy as [m|]; try contradiction; [|now apply agrees_ret].
  apply agrees_read. destruct X as (_ & _ & ->), Y as (_ & _ & ->).
  change (Ok (Some (l ++ m))) with (z <- Ok (l ++ m) ;; Ok (Some z)).
  eapply agrees_bind; [apply agrees_array|]. intros h1 c z U Z. apply agrees_ret.
  now apply (arr_weaken _ (h_next h)).
Qed.

Lemma add_slots_ok lo : forall x y vx vy h, lo <= h_next h ->
  slots_ok 0 h x vx -> slots_ok 0 h y vy ->
  agrees h (add_slots x y) (Ok (add_extras vx vy)) (fun h' a l => slots_ok lo h' a l).
Proof.
  induction x as [|[n v] x IH]; intros y vx vy h Lo X Y; inversion X as [|? [m w] ? vx' [E S] F]; subst.
  - apply agrees_ret. constructor.
  - cbn in E, S. subst m. cbn [add_slots add_extras].
    pose proof (lookup_ok 0 h y vy n Y) as L.
    destruct v as [a|], w as [l|]; try contradiction; [|now apply IH].
    destruct (lookup n y) as [[b|]|], (lookup n vy) as [[m|]|]; try contradiction;
      try (now apply IH).
    change (Ok ((n, Some (l ++ m)) :: add_extras vx' vy))
      with (c <- Ok (add_prop (Some l) (Some m)) ;; r <- Ok (add_extras vx' vy) ;; Ok ((n, c) :: r)).
    eapply agrees_bind; [apply (add_slot_ok KCell lo h (Some a) (Some b) (Some l) (Some m)); [exact Lo|exact S|exact L]|].
    intros h1 c z U1 Z. eapply agrees_bind.
    + apply IH; [destruct U1; lia|now apply (slots_mono _ h)|now apply (slots_mono _ h)].
    + intros h2 r q U2 W. apply agrees_ret. constructor; [|exact W].
      split; [reflexivity|now apply (slot_mono _ _ h1)].
Qed.

Theorem add_ok h o1 o2 v1 v2 : obj_ok 0 h o1 v1 -> obj_ok 0 h o2 v2 ->
  agrees h (h_add o1 o2) (Ok (add_bundles v1 v2))
    (fun h' o' v' => h_onext h <= o' /\ obj_ok (h_next h) h' o' v').
Proof.
  intros [_ [A B C D E F]] [_ [A' B' C' D' E' F']]. unfold h_add, add_bundles.
  apply agrees_read. apply agrees_read. set (lo := h_next h).
  match goal with |- agrees _ _ (Ok (mkB ?q1 ?q2 ?q3 ?q4 ?q5 ?q6)) _ =>
    change (agrees h (v <! add_slot KVec (hb_vert (h_obj h o1)) (hb_vert (h_obj h o2)) ;!
      d <! add_slot KVec (hb_dir (h_obj h o1)) (hb_dir (h_obj h o2)) ;!
      e <! add_slot KNum (hb_energy (h_obj h o1)) (hb_energy (h_obj h o2)) ;!
      p <! add_slot KIdx (hb_parents (h_obj h o1)) (hb_parents (h_obj h o2)) ;!
      n <! add_slot KNum (hb_ref (h_obj h o1)) (hb_ref (h_obj h o2)) ;!
      x <! add_slots (hb_extra (h_obj h o1)) (hb_extra (h_obj h o2)) ;!
      new_bundle (mkHB v d e p n x))
      (v <- Ok q1 ;; w <- Ok q2 ;; x <- Ok q3 ;; y <- Ok q4 ;; z <- Ok q5 ;; t <- Ok q6 ;; Ok (mkB v w x y z t))
      (fun h' o' v' => h_onext h <= o' /\ obj_ok lo h' o' v')) end.
  eapply agrees_bind.
  { apply (add_slot_ok KVec lo h); eauto. }
  intros h1 a1 w1 U1 R1. cbn beta in R1. assert (L1 : lo <= h_next h1) by (destruct U1; lia).
  eapply agrees_bind.
  { apply (add_slot_ok KVec lo h1); eauto using slot_mono. }
  intros h2 a2 w2 U2 R2. pose proof (untouched_trans _ _ _ U1 U2) as T2. assert (L2 : lo <= h_next h2) by (destruct U2; lia).
  eapply agrees_bind.
  { apply (add_slot_ok KNum lo h2); eauto using slot_mono. }
  intros h3 a3 w3 U3 R3. pose proof (untouched_trans _ _ _ T2 U3) as T3. assert (L3 : lo <= h_next h3) by (destruct U3; lia).
  eapply agrees_bind.
  { apply (add_slot_ok KIdx lo h3); eauto using slot_mono. }
  intros h4 a4 w4 U4 R4. pose proof (untouched_trans _ _ _ T3 U4) as T4. assert (L4 : lo <= h_next h4) by (destruct U4; lia).
  eapply agrees_bind.
  { apply (add_slot_ok KNum lo h4); eauto using slot_mono. }
  intros h5 a5 w5 U5 R5. pose proof (untouched_trans _ _ _ T4 U5) as T5. assert (L5 : lo <= h_next h5) by (destruct U5; lia).
  eapply agrees_bind.
  { apply (add_slots_ok lo); [exact L5| |]; (eapply slots_mono; [exact T5|eassumption]). }
  intros h6 x y U6 R6. pose proof (untouched_trans _ _ _ T5 U6) as T6.
  pose proof (untouched_trans _ _ _ U5 U6) as W4.
  pose proof (untouched_trans _ _ _ U4 W4) as W3.
  pose proof (untouched_trans _ _ _ U3 W3) as W2.
  pose proof (untouched_trans _ _ _ U2 W2) as W1.
  eapply agrees_weaken.
  - apply (agrees_new h6 _ _ lo). constructor; cbn; eauto using slot_mono.
  - intros h7 o' c U7 [X Y]. split; [destruct T6 as (_ & Q & _); lia|exact Y].
Qed.

Theorem empty_ok h :
  agrees h h_empty (Ok empty_bund) (fun h' o' v' => h_onext h <= o' /\ obj_ok (h_next h) h' o' v').
Proof.
  unfold h_empty.
  change (Ok empty_bund) with (a <- Ok (@nil vec) ;; e <- Ok (@nil R) ;; p <- Ok (@nil nat) ;; n <- Ok (@nil R) ;;
    Ok (mkB (Some a) (Some a) (Some e) (Some p) (Some n) [])).
  eapply agrees_bind; [apply (agrees_array KVec)|]. intros h1 a c1 U1 R1.
  eapply agrees_bind; [apply (agrees_array KNum)|]. intros h2 e c2 U2 R2.
  eapply agrees_bind; [apply (agrees_array KIdx)|]. intros h3 p c3 U3 R3.
  eapply agrees_bind; [apply (agrees_array KNum)|]. intros h4 n c4 U4 R4.
  pose proof (untouched_trans _ _ _ U3 U4) as W2.
  pose proof (untouched_trans _ _ _ U2 W2) as W1.
  pose proof (untouched_trans _ _ _ U1 W1) as W0.
  pose proof (untouched_trans _ _ _ U1 U2) as V2. pose proof (untouched_trans _ _ _ V2 U3) as V3.
  eapply agrees_weaken.
  - apply (agrees_new h4 _ _ (h_next h)). constructor; cbn.
    + eapply arr_mono; [exact W1|exact R1].
    + eapply arr_mono; [exact W1|exact R1].
    + eapply arr_weaken; [|eapply arr_mono; [exact W2|exact R2]]. apply U1.
    + eapply arr_weaken; [|eapply arr_mono; [exact U4|exact R3]]. apply V2.
    + eapply arr_weaken; [|exact R4]. apply V3.
    + constructor.
  - intros h7 o' c U7 [X Y]. split; [destruct W0 as (_ & Q & _); lia|exact Y].
Qed.

(** [hmap] of reads. *)
Lemma reads_ok {A C} (h : heap) (f : nat -> H A) (g : bundle -> res C) (eqv : A -> C -> Prop) :
  forall os vs,
  Forall2 (fun o v => agrees h (f o) (g v) (fun h' a c => h' = h /\ eqv a c) /\ fst (f o h) = h) os vs ->
  agrees h (hmap f os) (mapM g vs) (fun h' l m => h' = h /\ Forall2 eqv l m) /\ fst (hmap f os h) = h.
Proof.
  induction os as [|o os IH]; intros vs F; inversion F as [|? v ? vs' [A1 A2] F']; subst.
  - split; [|reflexivity]. apply agrees_ret. split; [reflexivity|constructor].
  - specialize (IH vs' F'). destruct IH as [I1 I2]. cbn [hmap]. unfold mapM in *. cbn [map sequence].
    unfold agrees in *. unfold hbind. destruct (f o h) as [h1 r1]. cbn in A2. subst h1.
    destruct A1 as [_ A1]. destruct r1 as [a|e], (g v) as [c|e']; try contradiction; cbn [bind fst].
    + destruct (hmap f os h) as [h2 r2]. cbn in I2. subst h2. destruct I1 as [_ I1].
      destruct r2 as [l|e], (sequence (map g vs')) as [m|e']; try contradiction; cbn.
      * split; [|reflexivity]. split; [apply untouched_refl|]. split; [reflexivity|].
        constructor; [apply A1|apply I1].
      * split; [|reflexivity]. split; [apply untouched_refl|exact I1].
    + split; [|reflexivity]. split; [apply untouched_refl|exact A1].
Qed.

Lemma concat_eq {A} (x y : list (list A)) : Forall2 eq x y -> concat x = concat y.
Proof. intros F. induction F; cbn; congruence. Qed.

Lemma concat_slot_ok k lo h (get : hbundle -> option nat) (vget : bundle -> option (list (elt k)))
    (Hg : forall b v, bun_ok 0 h b v -> slot_ok k 0 h (get b) (vget v)) o os v vs :
  lo <= h_next h -> Forall2 (obj_ok 0 h) (o :: os) (v :: vs) ->
  agrees h (concat_slot k get (h_obj h o) (o :: os)) (concat_prop vget (v :: vs))
    (fun h' a l => slot_ok k lo h' a l).
Proof.
  intros Lo F. unfold concat_slot. cbn [concat_prop].
  assert (S : slot_ok k 0 h (get (h_obj h o)) (vget v)).
  { inversion F as [|? ? ? ? [_ B] _]; subst. now apply Hg. }
  destruct (get (h_obj h o)) as [a|], (vget v) as [l|]; try contradiction; [|now apply agrees_ret].
  eapply agrees_bind.
  - apply (reads_ok h _ (fun c => get_prop (vget c) SAll) eq).
    clear S. induction F as [|p w ps ws [_ B] F IH]; constructor; [|exact IH].
    apply Hg in B. unfold hbind, hread, hlift, agrees.
    destruct (get (h_obj h p)) as [b|], (vget w) as [m|]; try contradiction; cbn.
    + split; [|reflexivity]. split; [apply untouched_refl|]. split; [reflexivity|]. apply B.
    + split; [|reflexivity]. now split; [apply untouched_refl|].
  - intros h' x y U [-> X]. apply concat_eq in X. rewrite X.
    change (Ok (Some (concat y))) with (z <- Ok (concat y) ;; Ok (Some z)).
    eapply agrees_bind; [apply agrees_array|]. intros h1 c z U1 Z. apply agrees_ret.
    now apply (arr_weaken _ (h_next h)).
Qed.

Lemma extra_slot_ok lo h b v n : bun_ok lo h b v ->
  slot_ok KCell lo h (extra_slot n b) (given_extra n (b_extra v)).
Proof. intros B. apply (given_ok lo h _ _ n (bo_extra _ _ _ _ B)). Qed.

Lemma concat_slots_ok lo os vs : forall x y h, lo <= h_next h -> Forall2 (obj_ok 0 h) os vs ->
  slots_ok 0 h x y ->
  agrees h (concat_slots x os) (concat_extras y vs) (fun h' a l => slots_ok lo h' a l).
Proof.
  induction x as [|[n v] x IH]; intros y h Lo F X; inversion X as [|? [m w] ? y' [E S] G]; subst.
  - apply agrees_ret. constructor.
  - cbn in E, S. subst m. cbn [concat_slots concat_extras].
    destruct v as [a|], w as [l|]; try contradiction; [|now apply IH].
    eapply agrees_bind.
    + apply (reads_ok h _ (fun c => get_extra n c SAll) eq).
      clear - F. induction F as [|p w ps ws [_ B] F IH]; constructor; [|exact IH].
      apply (extra_slot_ok _ _ _ _ n) in B. unfold hbind, hread, hlift, agrees, get_extra.
      unfold given_extra in B. destruct (extra_slot n (h_obj h p)) as [b|].
      * destruct (lookup n (b_extra w)) as [[m|]|]; try contradiction; cbn.
        split; [|reflexivity]. split; [apply untouched_refl|]. split; [reflexivity|]. apply B.
      * destruct (lookup n (b_extra w)) as [[m|]|]; try contradiction; cbn;
          (split; [|reflexivity]); now split; [apply untouched_refl|].
    + intros h' ls ms U [-> Z]. apply concat_eq in Z.
      match goal with |- context [array KCell ?q] => replace q with (@concat (elt KCell) ms) end.
      eapply agrees_val.
      * eapply (agrees_bind _ _ (Ok (concat ms)) _ _ (fun c => r <- concat_extras y' vs ;; Ok ((n, Some c) :: r))).
        { apply (agrees_array KCell). }
        intros h1 c z U1 Q. eapply agrees_bind.
        { apply IH; [destruct U1; lia| |now apply (slots_mono _ h)].
          clear - F U1. induction F; constructor; auto. now apply (obj_mono _ h). }
        intros h2 r q U2 W. apply agrees_ret. constructor; [|exact W].
        split; [reflexivity|]. cbn. eapply arr_weaken; [exact Lo|]. now apply (arr_mono _ _ h1).
      * reflexivity.
Qed.

Lemma objs_mono lo h h' os vs : untouched h h' -> Forall2 (obj_ok lo h) os vs -> Forall2 (obj_ok lo h') os vs.
Proof. intros U F. induction F; constructor; auto. now apply (obj_mono _ h). Qed.

Theorem concatenate_ok h os vs : Forall2 (obj_ok 0 h) os vs ->
  agrees h (h_concatenate os) (concatenate_rays vs)
    (fun h' o' v' => h_onext h <= o' /\ obj_ok (h_next h) h' o' v').
Proof.
  intros F. destruct os as [|o os]; inversion F as [|? v ? vs' [O B] F']; subst; [apply empty_ok|].
  unfold h_concatenate, concatenate_rays. apply agrees_read. set (lo := h_next h).
  assert (Eo : forall h', untouched h h' -> h_obj h' o = h_obj h o) by (intros h' U; apply U, O).
  eapply agrees_bind.
  { apply (concat_slot_ok KVec lo h hb_vert b_vert); [intros ? ? [ ]; assumption|apply le_n|exact F]. }
  intros h1 a1 w1 U1 R1. cbn beta in R1. assert (L1 : lo <= h_next h1) by (destruct U1; lia).
  eapply agrees_bind.
  { rewrite <- (Eo h1 U1). apply (concat_slot_ok KVec lo h1 hb_dir b_dir); [intros ? ? [ ]; assumption|exact L1|now apply (objs_mono _ h)]. }
  intros h2 a2 w2 U2 R2. pose proof (untouched_trans _ _ _ U1 U2) as T2. assert (L2 : lo <= h_next h2) by (destruct U2; lia).
  eapply agrees_bind.
  { rewrite <- (Eo h2 T2). apply (concat_slot_ok KNum lo h2 hb_energy b_energy); [intros ? ? [ ]; assumption|exact L2|now apply (objs_mono _ h)]. }
  intros h3 a3 w3 U3 R3. pose proof (untouched_trans _ _ _ T2 U3) as T3. assert (L3 : lo <= h_next h3) by (destruct U3; lia).
  eapply agrees_bind.
  { rewrite <- (Eo h3 T3). apply (concat_slot_ok KIdx lo h3 hb_parents b_parents); [intros ? ? [ ]; assumption|exact L3|now apply (objs_mono _ h)]. }
  intros h4 a4 w4 U4 R4. pose proof (untouched_trans _ _ _ T3 U4) as T4. assert (L4 : lo <= h_next h4) by (destruct U4; lia).
  eapply agrees_bind.
  { rewrite <- (Eo h4 T4). apply (concat_slot_ok KNum lo h4 hb_ref b_ref); [intros ? ? [ ]; assumption|exact L4|now apply (objs_mono _ h)]. }
  intros h5 a5 w5 U5 R5. pose proof (untouched_trans _ _ _ T4 U5) as T5. assert (L5 : lo <= h_next h5) by (destruct U5; lia).
  eapply agrees_bind.
  { apply (concat_slots_ok lo (o :: os) (v :: vs')); [exact L5|now apply (objs_mono _ h)|].
    eapply slots_mono; [exact T5|]. apply B. }
  intros h6 x y U6 R6. pose proof (untouched_trans _ _ _ T5 U6) as T6.
  pose proof (untouched_trans _ _ _ U5 U6) as W4.
  pose proof (untouched_trans _ _ _ U4 W4) as W3.
  pose proof (untouched_trans _ _ _ U3 W3) as W2.
  pose proof (untouched_trans _ _ _ U2 W2) as W1.
  eapply agrees_weaken.
  - apply (agrees_new h6 _ _ lo). constructor; cbn; eauto using slot_mono.
  - intros h7 o' c U7 [X Y]. split; [destruct T6 as (_ & Q & _); lia|exact Y].
Qed.
