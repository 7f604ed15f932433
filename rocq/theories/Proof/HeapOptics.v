(** Optics managers on ray bundles with identities. *)
From Coq Require Import Reals String List Arith ZArith Bool Lia.
From Verif.Base Require Import Py Num Vec.
From Verif.Model Require Import RayBundle BundleHeap TraceTree Geometry Spatial Sources Optics
  OpticsCallables Engine Surface HeapTrace.
From Verif.Proof Require Import HeapProof HeapShare.
From Verif.Spec Require Import HeapSpec.
Import ListNotations.
Local Open Scope R_scope.

(** As [agrees], for computations that may write into what was made since [h0]. *)
Definition after {A C : Type} (h0 h : heap) (m : H A) (v : res C) (Q : heap -> A -> C -> Prop) : Prop :=
  let '(h', r) := m h in
  untouched h0 h' /\
  match r, v with
  | Ok a, Ok c => Q h' a c
  | Err e, Err e' => e = e'
  | _, _ => False
  end.

Lemma after_agrees {A C} h (m : H A) (v : res C) Q : after h h m v Q <-> agrees h m v Q.
Proof. reflexivity. Qed.

Lemma after_bind {A A' C C'} h0 h (m : H A) (v : res C) Q (f : A -> H A') (g : C -> res C') Q' :
  after h0 h m v Q ->
  (forall h' a c, untouched h0 h' -> Q h' a c -> after h0 h' (f a) (g c) Q') ->
  after h0 h (hbind m f) (bind v g) Q'.
Proof.
  intros M K. unfold after, hbind in *. destruct (m h) as [h1 r]. destruct M as [U M].
  destruct r as [a|e], v as [c|e']; try contradiction; cbn [bind].
  - exact (K h1 a c U M).
  - subst. now split.
Qed.
Lemma step_bind {A A' C C'} h0 h (m : H A) (v : res C) Q (f : A -> H A') (g : C -> res C') Q' :
  untouched h0 h -> agrees h m v Q ->
  (forall h' a c, untouched h h' -> untouched h0 h' -> Q h' a c -> after h0 h' (f a) (g c) Q') ->
  after h0 h (hbind m f) (bind v g) Q'.
Proof.
  intros U0 M K. unfold after, agrees, hbind in *. destruct (m h) as [h1 r]. destruct M as [U M].
  pose proof (untouched_trans _ _ _ U0 U) as T.
  destruct r as [a|e], v as [c|e']; try contradiction; cbn [bind].
  - exact (K h1 a c U T M).
  - subst. now split.
Qed.
(** The same for a step that computes nothing the value level has. *)
Lemma step_extra {A A' C C'} h0 h (m : H A) (c : C) Q (f : A -> H A') (v : res C') Q' :
  untouched h0 h -> agrees h m (Ok c) Q ->
  (forall h' a, untouched h h' -> untouched h0 h' -> Q h' a c -> after h0 h' (f a) v Q') ->
  after h0 h (hbind m f) v Q'.
Proof.
  intros U0 M K. unfold after, agrees, hbind in *. destruct (m h) as [h1 r]. destruct M as [U M].
  pose proof (untouched_trans _ _ _ U0 U) as T.
  destruct r as [a|e]; try contradiction. exact (K h1 a U T M).
Qed.
Lemma step_last {A C} h0 h (m : H A) (v : res C) Q (Q' : heap -> A -> C -> Prop) :
  untouched h0 h -> agrees h m v Q ->
  (forall h' a c, untouched h h' -> untouched h0 h' -> Q h' a c -> Q' h' a c) -> after h0 h m v Q'.
Proof.
  intros U0 M K. unfold after, agrees in *. destruct (m h) as [h1 r]. destruct M as [U M].
  pose proof (untouched_trans _ _ _ U0 U) as T. split; [exact T|].
  destruct r as [a|e], v as [c|e']; try contradiction; auto.
Qed.
Lemma after_ret {A C} h0 h (a : A) (c : C) (Q : heap -> A -> C -> Prop) :
  untouched h0 h -> Q h a c -> after h0 h (hret a) (Ok c) Q.
Proof. intros U X. now split. Qed.
Lemma after_err {A C} h0 h e (Q : heap -> A -> C -> Prop) : untouched h0 h -> after h0 h (hlift (Err e)) (Err e) Q.
Proof. now split. Qed.
Lemma after_read {A B C} h0 h (f : heap -> A) (m : A -> H B) (v : res C) Q :
  after h0 h (m (f h)) v Q -> after h0 h (hbind (hread f) m) v Q.
Proof. auto. Qed.
Lemma after_lift {A B C} h0 h (r : res A) (m : A -> H B) (g : A -> res C) Q :
  untouched h0 h -> (forall a, r = Ok a -> after h0 h (m a) (g a) Q) ->
  after h0 h (hbind (hlift r) m) (bind r g) Q.
Proof. intros U K. destruct r as [a|e]; [now apply K|]. now split. Qed.
Lemma after_if {A C} h0 h (b : bool) (m m' : H A) (v v' : res C) Q :
  (b = true -> after h0 h m v Q) -> (b = false -> after h0 h m' v' Q) ->
  after h0 h (if b then m else m') (if b then v else v') Q.
Proof. destruct b; auto. Qed.

(** Reading a property. *)
Lemma read_slot_ok {B C} h0 h p o vs s (m : list (elt (kind_of p)) -> H B)
    (g : list (elt (kind_of p)) -> res C) Q :
  untouched h0 h -> slot p (h_obj h o) = Some s -> slot_ok (kind_of p) 0 h s vs ->
  (forall l, vs = Some l -> after h0 h (m l) (g l) Q) ->
  after h0 h (hbind (read_p p o) m) (bind (get_prop vs SAll) g) Q.
Proof.
  intros U S O K. unfold read_p, the_array.
  assert (R : forall a, s = Some a -> hbind (hbind (hbind (hread (fun h => h_obj h o)) (fun b =>
      match slot p b with
      | None => hlift (Err AttributeError) | Some None => hlift (Err KeyError) | Some (Some a) => hret a end))
      (fun a => hread (fun h => rd (kind_of p) h a))) m h = m (rd (kind_of p) h a) h).
  { intros a ->. unfold hbind, hread. rewrite S. reflexivity. }
  destruct s as [a|], vs as [l|]; try contradiction.
  - unfold after. rewrite (R a eq_refl). destruct O as (_ & _ & ->). cbn. apply (K l eq_refl).
  - unfold after, hbind, hread. rewrite S. cbn. now split.
Qed.

Section Call.
Variables (lo : nat).

(** The surface as an optics manager sees it. *)
Record seen (h : heap) (q : hsurf) (gs : gstate) (o sel : nat) (b : bundle) (idx : list nat) : Prop := mkSeen {
  sn_gs : q_gstate q = gs;
  sn_points : match q_points q with
              | Some a => exists l, get_points gs = Ok l /\ arr_ok KVec lo h a l
              | None => get_points gs = Err OutOfModel
              end;
  sn_obj : obj_ok 0 h o b;
  sn_sel : arr_ok KIdx lo h sel idx }.

Lemma seen_mono h h' q gs o sel b idx : untouched h h' -> seen h q gs o sel b idx -> seen h' q gs o sel b idx.
Proof.
  intros U [A B C D]. constructor; [exact A| |now apply (obj_mono _ h)|now apply (arr_mono _ _ h)].
  destruct (q_points q); [|exact B]. destruct B as (l & E & X). exists l. split; [exact E|now apply (arr_mono _ _ h)].
Qed.

Lemma points_ok {B C} h0 h q gs o sel b idx (m : nat -> H B) (g : list vec -> res C) Q :
  untouched h0 h -> seen h q gs o sel b idx ->
  (forall a l, arr_ok KVec lo h a l -> after h0 h (m a) (g l) Q) ->
  after h0 h (hbind (q_get_points q) m) (bind (get_points gs) g) Q.
Proof.
  intros U S K. pose proof (sn_points _ _ _ _ _ _ _ S) as P. unfold q_get_points.
  destruct (q_points q) as [a|].
  - destruct P as (l & -> & X). cbn. now apply K.
  - rewrite P. cbn. now split.
Qed.

(** [inherit] uses the array of energies it is given. *)
Lemma inherit_energy h o sel ov h' o' e : h_inherit o sel ov h = (h', Ok o') ->
  hb_energy ov = Some e -> hb_energy (h_obj h' o') = Some e.
Proof.
  intros X E. unfold h_inherit, hbind, hread in X. rewrite E in X. cbn [inherit_slot] in X.
  destruct (inherit_slot KVec sel (hb_vert ov) (hb_vert (h_obj h o)) h) as [h1 [v|]]; [|discriminate].
  destruct (inherit_slot KVec sel (hb_dir ov) (hb_dir (h_obj h o)) h1) as [h2 [d|]]; [|discriminate].
  unfold hret at 1 in X.
  destruct (inherit_slot KIdx sel (hb_parents ov) (hb_parents (h_obj h o)) h2) as [h3 [p|]]; [|discriminate].
  destruct (inherit_slot KNum sel (hb_ref ov) (hb_ref (h_obj h o)) h3) as [h4 [n|]]; [|discriminate].
  destruct (inherit_slots sel (hb_extra ov) (hb_extra (h_obj h o)) h4) as [h5 [x|]]; [|discriminate].
  unfold new_bundle in X. injection X as <- <-. cbn. unfold hupd. now rewrite Nat.eqb_refl.
Qed.

Lemma inherit_slot_next k sel g own h : (h_next h <= h_next (fst (inherit_slot k sel g own h)))%nat.
Proof.
  destruct g as [a|]; [apply le_n|]. destruct own as [a|]; [|apply le_n].
  destruct sel as [|i|i]; [apply le_n| |]; cbn [inherit_slot get_array]; unfold hbind, hread, hlift;
    match goal with |- context [select ?x ?y] => destruct (select x y) end; try apply le_n;
    unfold array, hret; cbn [fst]; rewrite wr_next; cbn; lia.
Qed.
Lemma inherit_slot_new k sel own h h' a : sel <> SAll ->
  inherit_slot k sel None own h = (h', Ok (Some a)) -> (h_next h <= a)%nat.
Proof.
  intros N X. destruct own as [b|]; [|discriminate].
  destruct sel as [|i|i]; [contradiction| |]; cbn [inherit_slot get_array] in X; unfold hbind, hread, hlift in X;
    match type of X with context [select ?x ?y] => destruct (select x y) end; try discriminate;
    unfold array, hret in X; injection X as <- <-; apply le_n.
Qed.
(** An array of refractive indices is always a new one. *)
Lemma inherit_ref h o sel ov h' o' : sel <> SAll -> h_inherit o sel ov h = (h', Ok o') ->
  hb_ref ov = None -> forall a, hb_ref (h_obj h' o') = Some a -> (h_next h <= a)%nat.
Proof.
  intros N X E a A. unfold h_inherit, hbind, hread in X. rewrite E in X.
  pose proof (inherit_slot_next KVec sel (hb_vert ov) (hb_vert (h_obj h o)) h) as I1.
  destruct (inherit_slot KVec sel (hb_vert ov) (hb_vert (h_obj h o)) h) as [h1 [v|]]; [|discriminate].
  pose proof (inherit_slot_next KVec sel (hb_dir ov) (hb_dir (h_obj h o)) h1) as I2.
  destruct (inherit_slot KVec sel (hb_dir ov) (hb_dir (h_obj h o)) h1) as [h2 [d|]]; [|discriminate].
  pose proof (inherit_slot_next KNum sel (hb_energy ov) (hb_energy (h_obj h o)) h2) as I3.
  destruct (inherit_slot KNum sel (hb_energy ov) (hb_energy (h_obj h o)) h2) as [h3 [e|]]; [|discriminate].
  pose proof (inherit_slot_next KIdx sel (hb_parents ov) (hb_parents (h_obj h o)) h3) as I4.
  destruct (inherit_slot KIdx sel (hb_parents ov) (hb_parents (h_obj h o)) h3) as [h4 [p|]]; [|discriminate].
  destruct (inherit_slot KNum sel None (hb_ref (h_obj h o)) h4) as [h5 [n|]] eqn:R; [|discriminate].
  destruct (inherit_slots sel (hb_extra ov) (hb_extra (h_obj h o)) h5) as [h6 [x|]]; [|discriminate].
  unfold new_bundle in X. injection X as <- <-. cbn in A. unfold hupd in A. rewrite Nat.eqb_refl in A.
  cbn in A. subst n. cbn in *. pose proof (inherit_slot_new _ _ _ _ _ _ N R). lia.
Qed.

(** What the optics managers give to [inherit]. *)
Lemma given_ok5 h a1 a2 a3 a4 r l1 l2 l3 l4 lr :
  arr_ok KVec lo h a1 l1 -> arr_ok KVec lo h a2 l2 -> arr_ok KNum lo h a3 l3 -> arr_ok KIdx lo h a4 l4 ->
  slot_ok KNum lo h r lr ->
  bun_ok lo h (mkHB (Some a1) (Some a2) (Some a3) (Some a4) r [])
    (mkB (Some l1) (Some l2) (Some l3) (Some l4) lr []).
Proof. intros A B C D E. constructor; cbn; auto. constructor. Qed.

Definition sent (h : heap) (h' : heap) (o' : nat) (v' : bundle) : Prop :=
  (h_onext h <= o')%nat /\ obj_ok lo h' o' v'.

Lemma inherit_after h0 h o b sel ov vov : (lo <= h_next h)%nat -> untouched h0 h ->
  obj_ok 0 h o b -> bun_ok lo h ov vov -> sel <> SAll ->
  after h0 h (h_inherit o sel ov) (inherit b sel vov)
    (fun h' o' v' => untouched h h' /\ sent h h' o' v' /\
       (forall e, hb_energy ov = Some e -> hb_energy (h_obj h' o') = Some e) /\
       (hb_ref ov = None -> forall a, hb_ref (h_obj h' o') = Some a -> (h_next h <= a)%nat)).
Proof.
  intros Lo U O G N. pose proof (inherit_ok lo h o b sel ov vov Lo O G ltac:(congruence)) as I.
  unfold agrees in I. unfold after.
  destruct (h_inherit o sel ov h) as [h3 r] eqn:X. destruct I as [U3 I].
  split; [now apply (untouched_trans _ h)|].
  destruct r as [o'|x], (inherit b sel vov) as [v'|x']; try contradiction; [|exact I].
  split; [exact U3|]. split; [exact I|]. split.
  - intros e E. now apply (inherit_energy _ _ _ _ _ _ _ X).
  - intros E. now apply (inherit_ref _ _ _ _ _ _ N X).
Qed.

Lemma arr_new k h h' a l : (lo <= h_next h)%nat -> arr_ok k (h_next h) h' a l -> arr_ok k lo h' a l.
Proof. intros L. now apply arr_weaken. Qed.
Lemma next_mono h h' : untouched h h' -> (lo <= h_next h)%nat -> (lo <= h_next h')%nat.
Proof. intros (A & _). lia. Qed.

Lemma after_weaken {A C} h0 h (m : H A) (v : res C) (Q Q' : heap -> A -> C -> Prop) :
  after h0 h m v Q -> (forall h' a c, untouched h0 h' -> Q h' a c -> Q' h' a c) -> after h0 h m v Q'.
Proof.
  unfold after. destruct (m h) as [h' r]. intros [U M] K. split; [exact U|].
  destruct r, v; auto.
Qed.

Lemma reflective_ok a h q gs o sel b idx : (lo <= h_next h)%nat -> seen h q gs o sel b idx ->
  after h h (h_reflective a q o sel) (call_reflective a gs b idx)
    (fun h' o' v' => sent h h' o' v' /\ exists e, hb_energy (h_obj h' o') = Some e /\ (h_next h <= e)%nat /\
       hb_ref (h_obj h' o') <> Some e).
Proof.
  intros Lo S. pose proof (untouched_refl h) as U. unfold h_reflective, call_reflective.
  eapply points_ok; [exact U|exact S|]. intros pts l P. apply after_read.
  pose proof (sn_sel _ _ _ _ _ _ _ S) as (Ls & Ns & Es). rewrite Es.
  pose proof (sn_obj _ _ _ _ _ _ _ S) as O. pose proof (proj2 O) as B.
  unfold get_directions, get_energy.
  eapply (read_slot_ok _ _ PDirections); [exact U|reflexivity|apply B|]. intros ds _.
  apply after_lift; [exact U|]. intros ds' _. rewrite (sn_gs _ _ _ _ _ _ _ S).
  apply after_lift; [exact U|]. intros ns _.
  apply after_if; intros _; [now apply after_err|].
  eapply (read_slot_ok _ _ PEnergy); [exact U|reflexivity|apply B|]. intros es _.
  apply after_lift; [exact U|]. intros es' _.
  eapply step_extra; [exact U|apply (agrees_array KVec)|]. intros h1 d U1 T1 D.
  eapply step_extra; [exact T1|apply (agrees_array KNum)|]. intros h2 e U2 T2 E.
  pose proof (next_mono _ _ T1 Lo) as L1. pose proof (next_mono _ _ T2 Lo) as L2.
  eapply after_weaken.
  - apply inherit_after; [exact L2|exact T2|now apply (obj_mono _ h)| |discriminate].
    apply given_ok5; [now apply (arr_mono _ _ h)|apply (arr_new _ h); [exact Lo|now apply (arr_mono _ _ h1)]
      |now apply (arr_new _ h1)|apply (arr_mono _ _ h); [exact T2|now repeat split]|exact I].
  - intros h' o' v' _ (U3 & [A1 A2] & E3 & R3). split; [split; [destruct T2 as (_ & X & _); lia|exact A2]|].
    exists e. split; [now apply E3|]. destruct E as (X & Y & _). destruct U1 as (Z & _).
    split; [lia|]. intros X'. specialize (R3 eq_refl _ X'). lia.
Qed.

Lemma absorber_ok a h q gs o sel b idx : (lo <= h_next h)%nat -> seen h q gs o sel b idx ->
  after h h (h_absorber a q o sel) (call_absorber a gs b idx) (sent h).
Proof.
  intros Lo S. unfold h_absorber, call_absorber.
  eapply after_bind; [now apply reflective_ok|]. intros h1 o1 v1 U1 ([A1 A2] & e & E & Le & Re).
  pose proof (seen_mono _ _ _ _ _ _ _ _ U1 S) as S1.
  pose proof (sn_sel _ _ _ _ _ _ _ S1) as (Ls & Ns & Es).
  pose proof (sn_obj _ _ _ _ _ _ _ S1) as O. pose proof (proj2 O) as B.
  pose proof (bo_energy _ _ _ _ (proj2 A2)) as Be. rewrite E in Be.
  destruct (b_energy v1) as [es|] eqn:Ev; [|contradiction]. destruct Be as (Be1 & Be2 & Be3).
  assert (X : forall (m : nat -> H nat) (v : res bundle) Q, after h h1 (m e) v Q -> after h h1 (hbind (the_array PEnergy o1) m) v Q).
  { intros m v Q K. unfold after, the_array, hbind, hread in *. cbn [slot]. rewrite E. exact K. }
  apply X. clear X. apply after_read. rewrite Es. unfold get_energy, get_directions.
  rewrite Ev. cbn [get_prop bind select].
  eapply (read_slot_ok _ _ PDirections); [exact U1|reflexivity|apply B|]. intros ds _.
  apply after_lift; [exact U1|]. intros ds' _. rewrite (sn_gs _ _ _ _ _ _ _ S1).
  apply after_lift; [exact U1|]. intros u _. apply after_read. rewrite Be3.
  apply after_if; intros _; [now apply after_err|].
  set (l := fill_mask _ _ _).
  assert (U2 : untouched h (wr KNum e l h1)).
  { destruct U1 as (X1 & X2 & X3 & X4). split; [now rewrite wr_next|]. split; [now rewrite wr_onext|].
    split; [|now rewrite wr_obj]. intros k x Lx. rewrite rd_wr_other by lia. now apply X3. }
  unfold after, set_p, hbind, hread. cbv beta iota.
  rewrite wr_obj. cbn [slot]. unfold put_obj. cbv beta iota.
  set (h2 := mkH _ _ _ _ _ _ _).
  assert (RD : forall k x, rd k h2 x = rd k (wr KNum e l h1) x) by now intros [].
  assert (NX : h_next h2 = h_next h1) by apply wr_next.
  assert (ON : h_onext h2 = h_onext h1) by apply wr_onext.
  assert (OB : h_obj h2 o1 = set_slot PEnergy e (h_obj h1 o1)) by (cbn; unfold hupd; now rewrite Nat.eqb_refl).
  split.
  - destruct U2 as (X1 & X2 & X3 & X4). rewrite wr_next in X1. rewrite wr_onext in X2. rewrite wr_obj in X4.
    split; [now rewrite NX|]. split; [now rewrite ON|]. split; [intros k x Lx; rewrite RD; now apply X3|].
    intros x Lx. cbn. unfold hupd. destruct (Nat.eqb_spec x o1); [lia|now apply X4].
  - split; [exact A1|]. split; [rewrite ON; apply A2|]. rewrite OB.
    destruct A2 as [_ [B1 B2 B3 B4 B5 B6]].
    assert (K : forall k s w, (k <> KNum \/ s <> Some e) -> slot_ok k lo h1 s w -> slot_ok k lo h2 s w).
    { intros k [x|] [w|] Hk; cbn; auto. intros (Y1 & Y2 & Y3). split; [exact Y1|]. split; [now rewrite NX|].
      rewrite RD. destruct k; try exact Y3. destruct Hk as [Hk|Hk]; [congruence|].
      rewrite rd_wr_other by congruence. exact Y3. }
    constructor; cbn.
    + apply (K KVec); [now left|exact B1].
    + apply (K KVec); [now left|exact B2].
    + split; [exact Be1|]. split; [now rewrite NX|]. rewrite RD. apply rd_wr_same.
    + apply (K KIdx); [now left|exact B4].
    + apply (K KNum); [now right|exact B5].
    + induction B6 as [|x y xs ys [F1 F2] F IH]; constructor; [|exact IH].
      split; [exact F1|]. apply (K KCell); [now left|exact F2].
Qed.

Lemma lambertian_ok a h q gs o sel b idx g : (lo <= h_next h)%nat -> seen h q gs o sel b idx ->
  after h h (h_lambertian a q o sel g) (call_lambertian a gs b idx g)
    (fun h' r r' => sent h h' (fst r) (fst r') /\ snd r = snd r').
Proof.
  intros Lo S. pose proof (untouched_refl h) as U. unfold h_lambertian, call_lambertian. apply after_read.
  pose proof (sn_sel _ _ _ _ _ _ _ S) as (Ls & Ns & Es). rewrite Es.
  destruct (pillbox_sunshape_directions _ _ _) as [directs g'].
  pose proof (sn_obj _ _ _ _ _ _ _ S) as O. pose proof (proj2 O) as B.
  unfold get_energy. rewrite (sn_gs _ _ _ _ _ _ _ S).
  apply after_lift; [exact U|]. intros ns _.
  apply after_if; intros _; [now apply after_err|].
  eapply points_ok; [exact U|exact S|]. intros pts l P.
  eapply (read_slot_ok _ _ PEnergy); [exact U|reflexivity|apply B|]. intros es _.
  apply after_lift; [exact U|]. intros es' _.
  eapply step_extra; [exact U|apply (agrees_array KVec)|]. intros h1 d U1 T1 D.
  eapply step_extra; [exact T1|apply (agrees_array KNum)|]. intros h2 e U2 T2 E.
  pose proof (next_mono _ _ T1 Lo) as L1. pose proof (next_mono _ _ T2 Lo) as L2.
  eapply after_bind.
  - apply inherit_after; [exact L2|exact T2|now apply (obj_mono _ h)| |discriminate].
    apply given_ok5; [now apply (arr_mono _ _ h)|apply (arr_new _ h); [exact Lo|now apply (arr_mono _ _ h1)]
      |now apply (arr_new _ h1)|apply (arr_mono _ _ h); [exact T2|now repeat split]|exact I].
  - intros h' o' v' T3 (U3 & [A1 A2] & _). apply after_ret; [exact T3|]. split; [|reflexivity].
    split; [destruct T2 as (_ & X & _); cbn; lia|exact A2].
Qed.

Lemma absorbing_ok x h q gs o sel b idx g : (lo <= h_next h)%nat -> seen h q gs o sel b idx ->
  after h h (h_absorbing x q o sel g) (call_absorbing x gs b idx g)
    (fun h' r r' => sent h h' (fst r) (fst r') /\ snd r = snd r').
Proof.
  intros Lo S. destruct x; cbn [h_absorbing call_absorbing]; [| |now apply lambertian_ok].
  - eapply after_bind; [now apply reflective_ok|]. intros h' o' v' U [A _]. now apply after_ret.
  - eapply after_bind; [now apply absorber_ok|]. intros h' o' v' U A. now apply after_ret.
Qed.

(** An account refers to arrays. *)
Definition acc_ok (h : heap) (ids : list nat * list nat) (a : account) : Prop :=
  Forall2 (arr_ok KNum 0 h) (fst ids) (a_absorbed a) /\ Forall2 (arr_ok KVec 0 h) (snd ids) (a_hits a).
(** New arrays only. *)
Definition grows (ids ids' : list nat * list nat) : Prop :=
  forall x, In x (fst ids' ++ snd ids') -> In x (fst ids ++ snd ids) \/ (lo <= x)%nat.

Lemma acc_mono h h' ids a : untouched h h' -> acc_ok h ids a -> acc_ok h' ids a.
Proof.
  intros U [A B]. split; [clear B|clear A].
  - induction A; constructor; auto. now apply (arr_mono _ _ h).
  - induction B; constructor; auto. now apply (arr_mono _ _ h).
Qed.

Lemma record_ok abs h q gs o sel b idx ids a : (lo <= h_next h)%nat -> seen h q gs o sel b idx -> acc_ok h ids a ->
  after h h (h_record_hits abs q o sel ids) (record_hits abs gs b idx a)
    (fun h' r r' => acc_ok h' r r' /\ grows ids r).
Proof.
  intros Lo S A. pose proof (untouched_refl h) as U. unfold h_record_hits, record_hits. apply after_read.
  pose proof (sn_sel _ _ _ _ _ _ _ S) as (Ls & Ns & Es). rewrite Es.
  pose proof (sn_obj _ _ _ _ _ _ _ S) as O. pose proof (proj2 O) as B. unfold get_energy.
  eapply (read_slot_ok _ _ PEnergy); [exact U|reflexivity|apply B|]. intros es _.
  apply after_lift; [exact U|]. intros es' _.
  eapply step_extra; [exact U|apply (agrees_array KNum)|]. intros h1 e U1 T1 E.
  eapply points_ok; [exact T1|exact (seen_mono _ _ _ _ _ _ _ _ T1 S)|]. intros pts l P.
  apply after_ret; [exact T1|]. destruct (acc_mono _ _ _ _ U1 A) as [A1 A2]. split; [split|]; cbn.
  - apply Forall2_app; [exact A1|]. constructor; [|constructor]. apply (arr_weaken _ (h_next h)); [apply Nat.le_0_l|exact E].
  - apply Forall2_app; [exact A2|]. constructor; [|constructor]. apply (arr_weaken _ lo); [apply Nat.le_0_l|exact P].
  - intros x. cbn [fst snd]. rewrite !in_app_iff. cbn [In]. destruct E as (E1 & _). destruct P as (P1 & _).
    intros [[X|[X|[]]]|[X|[X|[]]]]; try tauto; right; subst; lia.
Qed.

Lemma refractive_ok i1 i2 h q gs o sel b idx : (lo <= h_next h)%nat -> seen h q gs o sel b idx ->
  after h h (h_refractive i1 i2 q o sel) (call_refractive i1 i2 gs b idx) (sent h).
Proof.
  intros Lo S. pose proof (untouched_refl h) as U. unfold h_refractive, call_refractive. apply after_read.
  pose proof (sn_sel _ _ _ _ _ _ _ S) as (Ls & Ns & Es). rewrite Es.
  pose proof (sn_obj _ _ _ _ _ _ _ S) as O. pose proof (proj2 O) as B.
  unfold get_energy, get_directions, get_ref_index.
  apply after_if; intros _; [now apply after_err|].
  eapply (read_slot_ok _ _ PRefIndex); [exact U|reflexivity|apply B|]. intros n1 _.
  apply after_lift; [exact U|]. intros n1' _.
  eapply (read_slot_ok _ _ PDirections); [exact U|reflexivity|apply B|]. intros ds _.
  apply after_lift; [exact U|]. intros ds' _. rewrite (sn_gs _ _ _ _ _ _ _ S).
  apply after_lift; [exact U|]. intros ns _.
  apply after_lift; [exact U|]. intros [refr out_dirs] _.
  apply after_if; intros _.
  { eapply after_weaken; [now apply reflective_ok|]. now intros h' o' v' _ [A _]. }
  apply after_lift; [exact U|]. intros rf _.
  eapply points_ok; [exact U|exact S|]. intros inters pts P. apply after_read.
  pose proof P as (_ & _ & Pe). rewrite Pe.
  apply after_if; intros _; [now apply after_err|].
  eapply (read_slot_ok _ _ PEnergy); [exact U|reflexivity|apply B|]. intros es _.
  apply after_lift; [exact U|]. intros es' _.
  eapply step_extra; [exact U|apply (agrees_array KVec)|]. intros h1 d U1 T1 D.
  eapply step_extra; [exact T1|apply (agrees_array KNum)|]. intros h2 e U2 T2 E.
  pose proof (next_mono _ _ T1 Lo) as L1. pose proof (next_mono _ _ T2 Lo) as L2.
  eapply after_bind.
  { apply inherit_after; [exact L2|exact T2|now apply (obj_mono _ h)| |discriminate].
    apply given_ok5; [now apply (arr_mono _ _ h)|apply (arr_new _ h); [exact Lo|now apply (arr_mono _ _ h1)]
      |now apply (arr_new _ h1)|apply (arr_mono _ _ h); [exact T2|now repeat split]|exact I]. }
  intros h3 o3 v3 T3 (U3 & [A1 A2] & _).
  eapply step_extra; [exact T3|apply (agrees_array KIdx)|]. intros h4 sel2 U4 T4 Q4.
  eapply step_extra; [exact T4|apply (agrees_array KVec)|]. intros h5 pts2 U5 T5 Q5.
  eapply step_extra; [exact T5|apply (agrees_array KVec)|]. intros h6 d2 U6 T6 Q6.
  eapply step_extra; [exact T6|apply (agrees_array KNum)|]. intros h7 e2 U7 T7 Q7.
  eapply step_extra; [exact T7|apply (agrees_array KNum)|]. intros h8 m2 U8 T8 Q8.
  pose proof (next_mono _ _ T3 Lo) as L3. pose proof (next_mono _ _ T4 Lo) as L4.
  pose proof (next_mono _ _ T5 Lo) as L5. pose proof (next_mono _ _ T6 Lo) as L6.
  pose proof (next_mono _ _ T7 Lo) as L7. pose proof (next_mono _ _ T8 Lo) as L8.
  assert (V7 : untouched h6 h8) by now apply (untouched_trans _ h7).
  assert (V6 : untouched h5 h8) by now apply (untouched_trans _ h6).
  assert (V5 : untouched h4 h8) by now apply (untouched_trans _ h5).
  assert (V4 : untouched h3 h8) by now apply (untouched_trans _ h4).
  eapply after_bind.
  { apply inherit_after; [exact L8|exact T8|now apply (obj_mono _ h)| |discriminate].
    apply given_ok5.
    - apply (arr_new _ h4); [exact L4|now apply (arr_mono _ _ h5)].
    - apply (arr_new _ h5); [exact L5|now apply (arr_mono _ _ h6)].
    - apply (arr_new _ h6); [exact L6|now apply (arr_mono _ _ h7)].
    - apply (arr_new _ h3); [exact L3|now apply (arr_mono _ _ h4)].
    - now apply (arr_new _ h7). }
  intros h9 o9 v9 T9 (U9 & [B1 B2] & _).
  assert (V9 : untouched h3 h9) by now apply (untouched_trans _ h8).
  eapply step_last; [exact T9|apply add_ok|].
  - eapply obj_weaken; [apply Nat.le_0_l|]. apply (obj_mono lo h3); [exact V9|exact A2].
  - eapply obj_weaken; [apply Nat.le_0_l|exact B2].
  - intros h' a c W1 W2 [C1 C2]. split; [destruct T9 as (_ & X & _); lia|].
    eapply obj_weaken; [|exact C2]. now apply (next_mono h).
Qed.

Definition shared_ok (h : heap) (g : hshared) (vg : shared) : Prop :=
  hg_rng g = g_rng vg /\ forall id, acc_ok h (hg_acc g id) (g_acc vg id).
Lemma shared_mono h h' g vg : untouched h h' -> shared_ok h g vg -> shared_ok h' g vg.
Proof. intros U [A B]. split; [exact A|]. intros id. apply (acc_mono h); [assumption|first [apply B | apply G2]]. Qed.
Lemma grows_refl ids : grows ids ids.
Proof. intros x X. now left. Qed.

Lemma optics_ok x h q gs o sel b idx g vg : (lo <= h_next h)%nat -> seen h q gs o sel b idx -> shared_ok h g vg ->
  after h h (h_optics x q o sel g) (call_optics x gs b idx vg)
    (fun h' r r' => sent h h' (fst r) (fst r') /\ shared_ok h' (snd r) (snd r') /\
       forall id, grows (hg_acc g id) (hg_acc (snd r) id)).
Proof.
  intros Lo S [G1 G2]. destruct x as [x|id x|i1 i2]; cbn [h_optics call_optics].
  - eapply after_bind; [rewrite <- G1; now apply absorbing_ok|]. intros h' [o' rg] [v' rg'] U [A E]. cbn in A, E. subst rg'.
    apply after_ret; [exact U|]. split; [exact A|]. split; [|intros i; apply grows_refl].
    split; [reflexivity|]. intros i. apply (acc_mono h); [assumption|first [apply B | apply G2]].
  - eapply after_bind; [apply record_ok; [exact Lo|exact S|apply G2]|]. intros h1 acc vacc U1 [A1 A2].
    eapply step_bind; [exact U1|rewrite <- after_agrees; rewrite <- G1; apply absorbing_ok; [now apply (next_mono h)|exact (seen_mono _ _ _ _ _ _ _ _ U1 S)]|].
    intros h' [o' rg] [v' rg'] U2 U [A E]. cbn in A, E. subst rg'.
    apply after_ret; [exact U|]. split; [|split].
    + destruct A as [X Y]. split; [cbn; destruct U1 as (_ & Z & _); lia|exact Y].
    + split; [reflexivity|]. intros i. cbn. unfold upd. destruct (Nat.eqb i id).
      * now apply (acc_mono h1).
      * apply (acc_mono h); [assumption|first [apply B | apply G2]].
    + intros i. cbn. unfold upd. destruct (Nat.eqb_spec i id) as [->|_]; [exact A2|apply grows_refl].
  - eapply after_bind; [now apply refractive_ok|]. intros h' o' v' U A. apply after_ret; [exact U|].
    split; [exact A|]. split; [|intros i; apply grows_refl]. split; [exact G1|]. intros i. apply (acc_mono h); [assumption|first [apply B | apply G2]].
Qed.
End Call.
