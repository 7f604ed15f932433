(** Which bundles share storage. *)
From Coq Require Import Reals String List Arith Bool Lia.
From Verif.Base Require Import Py Num Vec.
From Verif.Model Require Import RayBundle BundleHeap.
From Verif.Proof Require Import SetterProof HeapProof.
From Verif.Spec Require Import HeapSpec.
Import ListNotations.

Lemma slot_values k lo h a v : slot_ok k lo h a v -> option_map (rd k h) a = v.
Proof. destruct a, v; cbn; try contradiction; [|reflexivity]. now intros (_ & _ & ->). Qed.
Lemma slots_values lo h x y : slots_ok lo h x y ->
  map (fun nv => (fst nv, option_map (rd KCell h) (snd nv))) x = y.
Proof.
  intros F. induction F as [|[n v] [m w] x y [E S] F IH]; cbn; [reflexivity|].
  cbn in E. subst m. f_equal; [|exact IH]. f_equal. exact (slot_values KCell lo h v w S).
Qed.
Lemma bun_values lo h b v : bun_ok lo h b v -> values h b = v.
Proof.
  intros [A B C D E F]. destruct v as [q1 q2 q3 q4 q5 q6]; cbn in *. unfold values.
  rewrite (slot_values _ _ _ _ _ A), (slot_values _ _ _ _ _ B), (slot_values _ _ _ _ _ C),
    (slot_values _ _ _ _ _ D), (slot_values _ _ _ _ _ E). f_equal. now apply (slots_values lo).
Qed.
Lemma bun_refers lo h b v : bun_ok lo h b v -> forall a, refers b a -> lo <= a < h_next h.
Proof.
  intros [A B C D E F] a.
  assert (K : forall k s l, slot_ok k lo h s l -> s = Some a -> lo <= a < h_next h).
  { intros k s l S ->. destruct l; [|contradiction]. destruct S as (X & Y & _). now split. }
  intros [X|[X|[X|[X|[X|[n X]]]]]]; eauto.
  clear - F X K. revert F X. generalize (hb_extra b) (b_extra v). intros x0 y0 F X.
  induction F as [|[m v'] [m' w] x y [_ S] F IH]; [contradiction|].
  destruct X as [X|X]; [|auto]. injection X as -> ->. now apply (K KCell _ _ S).
Qed.
Lemma obj_contents lo h o v : obj_ok lo h o v -> contents h o = v.
Proof. intros [_ B]. now apply (bun_values lo). Qed.
Lemma obj_made lo h o v : obj_ok lo h o v -> made h o.
Proof. intros [L B]. split; [exact L|]. intros a X. now apply (bun_refers _ _ _ _ B). Qed.

Lemma made_bun h b : (forall a, refers b a -> a < h_next h) -> bun_ok 0 h b (values h b).
Proof.
  intros M.
  assert (K : forall k s, (forall a, s = Some a -> refers b a) -> slot_ok k 0 h s (option_map (rd k h) s)).
  { intros k [a|] X; cbn; [|exact I]. repeat split; [lia|]. apply M, X. reflexivity. }
  constructor; cbn; try (apply K; intros a X; unfold refers; tauto).
  assert (X : forall n a, In (n, Some a) (hb_extra b) -> a < h_next h).
  { intros n a X. apply M. unfold refers. do 5 right. now exists n. }
  clear - X. induction (hb_extra b) as [|[n v] x IH]; cbn; constructor.
  - split; [reflexivity|]. cbn. destruct v as [a|]; cbn; [|exact I].
    repeat split; [lia|]. apply (X n). now left.
  - apply IH. intros m a Y. apply (X m). now right.
Qed.
Lemma made_obj h o : made h o -> obj_ok 0 h o (contents h o).
Proof. intros [L M]. split; [exact L|]. now apply made_bun. Qed.

Lemma values_same h h' b : (forall k a, refers b a -> rd k h' a = rd k h a) -> values h' b = values h b.
Proof.
  intros M. unfold values.
  assert (K : forall k s, (forall a, s = Some a -> refers b a) -> option_map (rd k h') s = option_map (rd k h) s).
  { intros k [a|] X; cbn; [|reflexivity]. f_equal. apply M, X. reflexivity. }
  f_equal; try (apply K; intros a X; unfold refers; tauto).
  apply map_ext_in. intros [n v] I. cbn. f_equal. refine (K KCell v _). intros a ->.
  unfold refers. do 5 right. now exists n.
Qed.

Lemma untouched_contents h h' o : untouched h h' -> made h o -> contents h' o = contents h o /\ made h' o.
Proof.
  intros U M. pose proof (obj_mono _ _ _ _ _ U (made_obj _ _ M)) as X.
  split; [now apply (obj_contents 0)|now apply (obj_made 0 _ _ (contents h o))].
Qed.

(** ** Changes *)

Lemma slot_refers p b a : slot p b = Some (Some a) -> refers b a.
Proof.
  unfold refers. destruct p; cbn; intros X; try (injection X as X; tauto).
  do 5 right. exists name. revert X. induction (hb_extra b) as [|[n v] x IH]; cbn; [discriminate|].
  destruct (String.eqb_spec n name) as [->|N]; [|now right; apply IH].
  intros X. injection X as ->. now left.
Qed.
Lemma replace_in n (v : option nat) x m w : In (m, w) (replace n v x) -> w = v \/ In (m, w) x.
Proof.
  induction x as [|[p q] x IH]; cbn; [tauto|].
  destruct (String.eqb p n); cbn.
  - intros [X|X]; [injection X as -> ->; now left|right; now right].
  - intros [X|X]; [right; now left|]. destruct (IH X) as [E|E]; [now left|right; now right].
Qed.
Lemma set_slot_refers p a b x : refers (set_slot p a b) x -> x = a \/ refers b x.
Proof.
  unfold refers. destruct p; cbn;
    try (intros [X|[X|[X|[X|[X|X]]]]]; try (right; tauto); left; congruence).
  intros [X|[X|[X|[X|[X|[n X]]]]]]; try (right; tauto).
  apply replace_in in X. destruct X as [X|X]; [left; congruence|].
  right. do 5 right. now exists n.
Qed.

Lemma change_other h o o' c : made h o -> made h o' -> o <> o' -> apart h o o' ->
  contents (make_change o c h) o' = contents h o' /\
  made (make_change o c h) o /\ made (make_change o c h) o' /\ apart (make_change o c h) o o'.
Proof.
  intros M M' N D. destruct c as [p vals sel|p vals]; cbn [make_change].
  - unfold set_p_sel, the_array, hbind, hread. destruct (slot p (h_obj h o)) as [[a|]|] eqn:S; cbn [fst hlift hret]; auto.
    unfold write_sel. destruct (assign_sel _ _ _) as [l|e]; cbn [fst]; auto.
    apply slot_refers in S. unfold contents, made, apart. rewrite wr_obj, wr_next, wr_onext.
    repeat split; auto; try apply M; try apply M'.
    apply values_same. intros k b R. apply rd_wr_other. intros ->. now apply (D a).
  - unfold hbind, array. set (h1 := wr _ _ _ _).
    assert (O1 : h_obj h1 = h_obj h) by (unfold h1; now rewrite wr_obj).
    assert (U : untouched h h1) by (exact (proj1 (agrees_array (kind_of p) h vals))).
    unfold set_p, hbind, hread. rewrite O1.
    assert (A1 : contents h1 o' = contents h o' /\ made h1 o /\ made h1 o' /\ apart h1 o o').
    { split; [now apply untouched_contents|]. split; [now apply (untouched_contents h)|].
      split; [now apply (untouched_contents h)|]. unfold apart. now rewrite O1. }
    destruct (slot p (h_obj h o)) as [s|] eqn:S; cbn [fst hlift]; [|exact A1].
    unfold put_obj. cbn [fst]. destruct A1 as (C1 & Mo & Mo' & D1).
    assert (X1 : h_next h < h_next h1) by (unfold h1; rewrite wr_next; cbn; lia).
    unfold contents, made, apart. cbn [h_obj h_next h_onext]. unfold hupd.
    rewrite (Nat.eqb_refl o). destruct (Nat.eqb_spec o' o) as [->|_]; [congruence|].
    split.
    { unfold contents in C1. rewrite <- C1. apply values_same. intros k b _. now destruct k. }
    split; [|split].
    + split; [apply Mo|]. intros a R. apply set_slot_refers in R. destruct R as [->|R]; [exact X1|].
      destruct M as [_ M]. apply M in R. lia.
    + exact Mo'.
    + intros a R R'. apply set_slot_refers in R. rewrite O1 in R'. destruct R as [->|R].
      * destruct M' as [_ M']. apply M' in R'. lia.
      * now apply (D a).
Qed.

Lemma changes_other cs : forall h o o', made h o -> made h o' -> o <> o' -> apart h o o' ->
  contents (make_changes o cs h) o' = contents h o'.
Proof.
  induction cs as [|c cs IH]; intros h o o' M M' N D; [reflexivity|].
  destruct (change_other h o o' c M M' N D) as (E & A & B & C).
  unfold make_changes in *. cbn [fold_left]. rewrite IH by assumption. exact E.
Qed.

Theorem apart_independent h o1 o2 : made h o1 -> made h o2 -> o1 <> o2 -> apart h o1 o2 ->
  independent h o1 o2.
Proof.
  intros A B N D. split; intros cs; apply changes_other; auto.
  intros a X Y. now apply (D a).
Qed.

(** ** New bundles *)

Lemma makes_of h m v :
  agrees h m v (fun h' o' v' => h_onext h <= o' /\ obj_ok (h_next h) h' o' v') -> makes h m v.
Proof.
  unfold agrees, makes. destruct (m h) as [h' r]. intros [U M]. split; [exact U|].
  destruct r as [o|e], v as [b|e']; auto. destruct M as [L O].
  pose proof (obj_made _ _ _ _ O) as Mo.
  split; [exact Mo|]. split; [now apply (obj_contents (h_next h))|].
  split; [split; [exact L|intros a R; now apply (bun_refers _ _ _ _ (proj2 O))]|].
  intros o' M'. destruct (untouched_contents h h' o' U M') as [_ M2].
  apply apart_independent; auto.
  - destruct M'. lia.
  - intros a R R'. destruct U as (_ & _ & _ & U). rewrite U in R by apply M'.
    apply M' in R. apply (bun_refers _ _ _ _ (proj2 O)) in R'. lia.
Qed.

Theorem inherit_makes h o sel : made h o -> sel <> SAll ->
  makes h (h_inherit o sel no_slots) (inherit (contents h o) sel no_bundle).
Proof.
  intros M N. apply makes_of. apply inherit_ok; [apply le_n|now apply made_obj|apply no_slots_ok|congruence].
Qed.
Theorem delete_makes h o sel : made h o -> makes h (h_delete o sel) (delete_rays (contents h o) sel).
Proof. intros M. apply makes_of. now apply delete_ok, made_obj. Qed.
Theorem add_makes h o1 o2 : made h o1 -> made h o2 ->
  makes h (h_add o1 o2) (Ok (add_bundles (contents h o1) (contents h o2))).
Proof. intros M M'. apply makes_of. apply add_ok; now apply made_obj. Qed.
Theorem concatenate_makes h os : Forall (made h) os ->
  makes h (h_concatenate os) (concatenate_rays (map (contents h) os)).
Proof.
  intros M. apply makes_of. apply concatenate_ok. induction M; cbn; constructor; auto. now apply made_obj.
Qed.
Theorem empty_makes h : makes h h_empty (Ok empty_bund).
Proof. apply makes_of, empty_ok. Qed.

(** [inherit] with values: what was passed is used as it is. *)
Theorem inherit_values h o sel ov : made h o -> (forall a, refers ov a -> a < h_next h) ->
  let '(h', r) := h_inherit o sel ov h in
  untouched h h' /\
  match r, inherit (contents h o) sel (values h ov) with
  | Ok o', Ok b => made h' o' /\ contents h' o' = b /\ h_onext h <= o'
  | Err e, Err e' => e = e'
  | _, _ => False
  end.
Proof.
  intros M V.
  pose proof (inherit_ok 0 h o (contents h o) sel ov (values h ov) (Nat.le_0_l _) (made_obj h o M)
                (made_bun h ov V) (fun _ => made_obj h o M)) as X.
  unfold agrees in X. destruct (h_inherit o sel ov h) as [h' r]. destruct X as [U X]. split; [exact U|].
  destruct r as [o'|e], (inherit (contents h o) sel (values h ov)) as [b|e']; auto. destruct X as [L O].
  split; [now apply (obj_made 0 _ _ b)|]. split; [now apply (obj_contents 0)|exact L].
Qed.

(** ** Bundles that hold the same arrays *)

Lemma inherit_slots_all x h : inherit_slots SAll [] x h = (h, Ok x).
Proof.
  revert h. induction x as [|[n v] x IH]; intros h; cbn; [reflexivity|].
  unfold hbind. destruct v; cbn; now rewrite IH.
Qed.
Theorem inherit_default h o : exists h', h_inherit o SAll no_slots h = (h', Ok (h_onext h)) /\
  h_obj h' (h_onext h) = h_obj h o.
Proof.
  unfold h_inherit, hbind, hread. destruct (h_obj h o) as [v d e p n x] eqn:E. cbn [hb_vert hb_dir hb_energy hb_parents hb_ref hb_extra no_slots].
  destruct v, d, e, p, n; cbn [inherit_slot get_array hbind]; unfold hbind, hret; rewrite inherit_slots_all; cbn [filter];
    unfold new_bundle; eexists; (split; [reflexivity|]); cbn; unfold hupd; rewrite Nat.eqb_refl, app_nil_r; reflexivity.
Qed.
Theorem new_keeps h b h' o : new_bundle b h = (h', Ok o) -> h_obj h' o = b /\ untouched h h'.
Proof.
  intros X. unfold new_bundle in X. injection X as <- <-. cbn. unfold hupd at 1. rewrite Nat.eqb_refl.
  split; [reflexivity|]. split; [cbn; lia|]. split; [cbn; lia|]. split; [now intros []|].
  intros o L. cbn. unfold hupd. destruct (Nat.eqb_spec o (h_onext h)); [lia|reflexivity].
Qed.

(** ** Writing entries *)
Theorem write_entries h p vals sel o :
  let '(h', r) := set_p_sel p vals sel o h in
  h_obj h' = h_obj h /\ h_next h' = h_next h /\ h_onext h' = h_onext h /\
  match slot p (h_obj h o) with
  | None => r = Err AttributeError /\ h' = h
  | Some None => r = Err KeyError /\ h' = h
  | Some (Some a) =>
      (forall k b, b <> a -> rd k h' b = rd k h b) /\
      match assign_sel (rd (kind_of p) h a) sel vals with
      | Ok l => r = Ok tt /\ rd (kind_of p) h' a = l
      | Err e => r = Err e /\ h' = h
      end
  end.
Proof.
  unfold set_p_sel, the_array, hbind, hread.
  destruct (slot p (h_obj h o)) as [[a|]|]; cbn [hret hlift]; try (repeat split; reflexivity).
  unfold write_sel. destruct (assign_sel _ _ _) as [l|e]; [|repeat split; reflexivity].
  rewrite wr_obj, wr_next, wr_onext. split; [reflexivity|]. split; [reflexivity|].
  split; [reflexivity|]. split; [|split; [reflexivity|apply rd_wr_same]].
  intros k b N. now apply rd_wr_other.
Qed.

Theorem set_whole h p a o :
  let '(h', r) := set_p p a o h in
  (forall k b, rd k h' b = rd k h b) /\ h_next h' = h_next h /\ h_onext h' = h_onext h /\
  match slot p (h_obj h o) with
  | None => r = Err AttributeError /\ h' = h
  | Some _ => r = Ok tt /\ slot p (h_obj h' o) = Some (Some a) /\
      (forall p', p' <> p -> slot p' (h_obj h' o) = slot p' (h_obj h o)) /\
      forall o', o' <> o -> h_obj h' o' = h_obj h o'
  end.
Proof.
  unfold set_p, hbind, hread. destruct (slot p (h_obj h o)) as [x|] eqn:E; cbn [hlift put_obj h_next h_onext h_obj].
  2:{ repeat split; reflexivity. }
  split; [now intros []|]. split; [reflexivity|]. split; [reflexivity|]. split; [reflexivity|].
  assert (O : hupd (h_obj h) o (set_slot p a (h_obj h o)) o = set_slot p a (h_obj h o)) by (unfold hupd; now rewrite Nat.eqb_refl).
  rewrite O. split; [|split].
  - destruct p; cbn; try reflexivity. cbn in E. rewrite lookup_replace by congruence. now rewrite String.eqb_refl.
  - intros p' N. destruct p, p'; cbn; try reflexivity; try contradiction. cbn in E. rewrite lookup_replace by congruence.
    destruct (String.eqb_spec name name0) as [->|_]; [contradiction|reflexivity].
  - intros o' N. unfold hupd. apply Nat.eqb_neq in N. now rewrite N.
Qed.

Theorem get_whole h p o : get_p p o h =
  (h, match slot p (h_obj h o) with
      | None => Err AttributeError
      | Some None => Err KeyError
      | Some (Some a) => Ok a
      end).
Proof.
  unfold get_p, the_array, hbind, hread. now destruct (slot p (h_obj h o)) as [[a|]|].
Qed.
