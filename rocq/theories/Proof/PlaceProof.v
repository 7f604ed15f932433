(** Where surfaces are after a transform. *)
From Coq Require Import Reals List Arith Bool Lia Lra.
From Verif.Base Require Import Py Num Vec.
From Verif.Model Require Import Assembly.
From Verif.Spec Require Import FrameSpec.
From Verif.Proof Require Import VecLemmas FrameProof FrameHistory.
Import ListNotations.

Lemma mm4_assoc a b c : mm4 (mm4 a b) c = mm4 a (mm4 b c).
Proof.
  destruct a as [[] [] [] []], b as [[] [] [] []], c as [[] [] [] []].
  unfold mm4; cbn. repeat (f_equal; try ring).
Qed.
Lemma mm4_id_l a : mm4 id4 a = a.
Proof.
  unfold mm4, id4, tr4, c4_0, c4_1, c4_2, c4_3, mv4, dot4. cbn [w0 w1 w2 w3 q0 q1 q2 q3].
  destruct a as [[] [] [] []]. cbn [Vec.w0 Vec.w1 Vec.w2 Vec.w3 q0 q1 q2 q3]. veq; ring.
Qed.

(** What placing needs: transforms are 4x4 arrays, locations have 3 components. *)
Definition pinv (w : world) : Prop := forall n x, w_node w n = Some x ->
  (exists a m, f_tr (n_fr x) = Whole a /\ a < w_next w /\ w_arr w a = A44 m) /\
  (exists v, read w (f_loc (n_fr x)) = A3 v) /\
  base (f_loc (n_fr x)) < w_next w /\ base (f_rot (n_fr x)) < w_next w /\ temp_ok w (n_fr x).

Lemma inv_pinv w : inv w -> pinv w.
Proof.
  intros (A & _) n x E. destruct (A n x E) as (_ & F & T). pose proof (frame_ok_base _ _ F) as (_ & B2 & B3).
  destruct F as (a & m & Ht & La & Ea & Hl & _). split; [eauto|]. split; auto.
  destruct Hl as [->|(b & -> & _ & Eb)]; simpl; [rewrite Ea|]; eauto.
Qed.
Lemma pinv_node w n x : pinv w -> w_node w n = Some x -> exists a m, f_tr (n_fr x) = Whole a /\
  a < w_next w /\ w_arr w a = A44 m /\ transform_of w n = Some m.
Proof.
  intros A E. destruct (A n x E) as ((a & m & Ht & La & Ea) & _). exists a, m.
  unfold transform_of. rewrite E, Ht. simpl. rewrite Ea. auto.
Qed.
Lemma quiet_pinv w w' : quiet_ok w w' -> pinv w -> pinv w'.
Proof.
  intros (Q & T) A n x' E. destruct (quiet_some _ _ _ _ Q E) as (x & Ex & _ & (S1 & S2 & S3)).
  destruct (A n x Ex) as ((a & m & Ht & La & Ea) & (v & Ev) & B2 & B3 & Tx).
  pose proof Q as (L & _ & Ar & _). rewrite S1, S2, S3. split; [|split; [|split; [lia|split; [lia|]]]].
  - exists a, m. rewrite Ar by auto. repeat split; auto; lia.
  - exists v. rewrite (quiet_read w w'); auto.
  - apply (T n x' E). intros y Ey. rewrite Ex in Ey. inj Ey. auto.
Qed.
Lemma quiet_same_pinv w w' n : quiet w w' -> pinv w -> same_node w w' n.
Proof.
  intros Q A. apply quiet_same; auto. intros x E. destruct (A n x E) as ((a & m & -> & La & _) & _ & B2 & B3 & _). auto.
Qed.

(** [D l P]: [l] may be placed by [P]. *)
Definition effect (w : world) (D : nat -> mat4 -> Prop) (w' : world) : Prop :=
  quiet_ok w w' /\ forall l,
    (exists P, D l P /\ placed_by w' l P) \/
    ((forall P, ~ D l P) /\ placed_array w' l = placed_array w l).

Lemma same_placed_by w w' l P : same_node w w' l -> placed_array w' l = placed_array w l ->
  placed_by w l P -> placed_by w' l P.
Proof.
  intros (K & T & L & _) A. unfold placed_by. rewrite K, T, L, A. auto.
Qed.

Lemma effect_trans w w1 w2 D1 D2 : pinv w -> effect w D1 w1 -> effect w1 D2 w2 ->
  effect w (fun l P => D1 l P \/ D2 l P) w2.
Proof.
  intros I (Q1 & E1) (Q2 & E2). split; [eapply quiet_ok_trans; eauto|]. intros l.
  destruct (E2 l) as [(P & H & Pl)|(N2 & A2)]; [left; exists P; auto|].
  assert (I1 : pinv w1) by (eapply quiet_pinv; eauto).
  destruct (E1 l) as [(P & H & Pl)|(N1 & A1)].
  - left. exists P. split; auto. eapply same_placed_by; eauto. apply quiet_same_pinv; auto. apply Q2.
  - right. split; [|congruence]. intros P [H|H]; [eapply N1|eapply N2]; eauto.
Qed.

Lemma effect_iff w w' D D' : (forall l P, D l P <-> D' l P) -> effect w D w' -> effect w D' w'.
Proof.
  intros E (Q & F). split; auto. intros l. destruct (F l) as [(P & H & Pl)|(N & A)].
  - left. exists P. split; auto. apply E; auto.
  - right. split; auto. intros P H. eapply N. apply E; eauto.
Qed.

Lemma effect_none w : effect w (fun _ _ => False) w.
Proof. split; [apply quiet_ok_refl|]. intros l. right. auto. Qed.

Lemma each_effect w f D l : pinv w ->
  (forall c w0 w1, In c l -> quiet_ok w w0 -> f c w0 = (w1, Ok tt) -> effect w0 (D c) w1) ->
  forall w0 w1, quiet_ok w w0 -> each f l w0 = (w1, Ok tt) ->
  effect w0 (fun k P => exists c, In c l /\ D c k P) w1.
Proof.
  intros I. induction l as [|c l IH]; intros F w0 w1 Q H; simpl in H.
  - inj H. eapply effect_iff; [|apply effect_none]. intros k P. split; [tauto|]. intros (c & [] & _).
  - apply mthen_inv in H. destruct H as (w2 & r2 & H1 & H2).
    destruct r2 as [[]|e]; [|destruct H2; discriminate].
    assert (E1 : effect w0 (D c) w2) by (eapply F; eauto; simpl; auto).
    assert (Q2 : quiet_ok w w2) by (eapply quiet_ok_trans; [exact Q|apply E1]).
    assert (E2 : effect w2 (fun k P => exists c, In c l /\ D c k P) w1)
      by (apply IH; auto; intros; eapply F; eauto; simpl; auto).
    eapply effect_iff; [|eapply effect_trans; [eapply quiet_pinv; eauto|exact E1|exact E2]].
    intros k P. simpl. split.
    + intros [H|(d & Hd & H)]; [exists c|exists d]; auto.
    + intros (d & [->|Hd] & H); [auto|right; eauto].
Qed.

Lemma transform_frame_effect c t w w' : pinv w -> transform_frame c t w = (w', Ok tt) ->
  effect w (fun l P => l = c /\ P = t) w'.
Proof.
  intros I H. pose proof (transform_frame_ok _ _ _ _ _ H) as Q. split; auto.
  destruct (transform_frame_cases c t w) as [(x & v & E & Pl & H')|(e & H')]; rewrite H' in H; [|discriminate].
  injection H as H. subst w'.
  intros l. destruct (Nat.eq_dec l c) as [->|N].
  - left. exists t. split; auto.
    destruct (quiet_same_pinv _ _ c (proj1 Q) I) as (K & T & L & _).
    unfold placed_by. rewrite K, T, L.
    assert (A : placed_array (with_temp w c x v) c = Some v).
    { unfold placed_array, with_temp. cbn [w_node]. rewrite upd_same. cbn [n_fr f_temp read w_arr].
      rewrite upd_same. auto. }
    rewrite A. unfold kind_of, transform_of, location_of. rewrite E. unfold placement in Pl.
    destruct (n_kind x); destruct Pl as (m & -> & ->); eauto.
  - right. split; [intros P (C & _); auto|].
    unfold placed_array, with_temp. cbn [w_node]. rewrite upd_other by auto.
    destruct (w_node w l) as [y|] eqn:Ey; auto. destruct (f_temp (n_fr y)) as [r|] eqn:Er; auto.
    destruct (I l y Ey) as (_ & _ & _ & _ & T). specialize (T r Er).
    destruct r; simpl in *; rewrite upd_other by lia; auto.
Qed.

Lemma path_same w w' : (forall k, same_node w w' k) -> forall n l T, path w n l T -> path w' n l T.
Proof.
  intros S n l T H. induction H.
  - destruct (S n) as (K & Tr & _). econstructor; [rewrite K; eauto|auto|congruence].
  - destruct (S n) as (K & Tr & _). econstructor; [rewrite K; eauto|eauto|congruence|auto].
Qed.

Lemma same_node_sym w w' k : same_node w w' k -> same_node w' w k.
Proof. intros (A & B & C & D). repeat split; auto. Qed.

Lemma dot_tr_ok t r w w' p : dot_tr t r w = (w', Ok p) -> exists m, read w r = A44 m /\ p = mm4 t m.
Proof. unfold dot_tr. destruct (read w r); intros H; inj H; eauto; discriminate. Qed.

Lemma in_swap {A} (c : A) a b : In c (a ++ b) -> In c (b ++ a).
Proof. rewrite !in_app_iff. tauto. Qed.

(** The main effect. *)
Lemma transform_children_effect_p limit : forall n t w w', pinv w ->
  transform_children limit n t w = (w', Ok tt) ->
  effect w (fun l P => exists T, path w n l T /\ P = mm4 t T) w'.
Proof.
  induction limit as [|limit IH]; simpl; intros n t w w' I H; [discriminate|].
  apply mbind_inv in H. destruct H as (w1 & r1 & H1 & H). unfold get_node in H1.
  destruct (w_node w n) as [x|] eqn:Ex; inj H1; [|destruct H; discriminate].
  destruct (pinv_node w1 n x I Ex) as (a & m & Ht & La & Ea & Tm).
  assert (Kx : kind_of w1 n = Some (n_kind x)) by (unfold kind_of; rewrite Ex; auto).
  assert (Dt : forall w0, quiet_ok w1 w0 -> dot_tr t (f_tr (n_fr x)) w0 = (w0, Ok (mm4 t m))).
  { intros w0 (Q & _). unfold dot_tr. rewrite (quiet_read w1 w0) by (auto; rewrite Ht; auto).
    rewrite Ht. simpl. rewrite Ea. auto. }
  destruct (n_kind x) as [| | |ss bs|os ms] eqn:Kd; try discriminate.
  - eapply effect_iff; [|eapply (each_effect w1 _ (fun c l P => l = c /\ P = mm4 t m));
      [exact I| |apply quiet_ok_refl|exact H]].
    + intros l P. split.
      * intros (c & Hc & -> & ->). exists m. split; auto. econstructor; eauto.
      * intros (T & Pt & ->). exists l. inversion Pt; subst; try congruence.
        rewrite Kx in H0. inj H0. split; auto. split; auto. congruence.
    + cbn beta. intros c w0 w2 _ Q H'. erewrite mbind_ok in H' by (apply Dt; auto).
      apply transform_frame_effect; auto. eapply quiet_pinv; eauto.
  - eapply effect_iff; [|eapply (each_effect w1 _ (fun c l P => exists T, path w1 c l T /\ P = mm4 (mm4 t m) T));
      [exact I| |apply quiet_ok_refl|exact H]].
    + intros l P. split.
      * intros (c & Hc & T & Pt & ->). exists (mm4 m T). rewrite mm4_assoc. split; auto.
        eapply path_asm; eauto. apply in_swap; auto.
      * intros (T & Pt & ->). inversion Pt; subst; try congruence.
        rewrite Kx in H0. inj H0. exists c. split; [apply in_swap; auto|].
        exists T'. rewrite mm4_assoc. split; auto. congruence.
    + cbn beta. intros c w0 w2 _ Q H'. erewrite mbind_ok in H' by (apply Dt; auto).
      assert (I0 : pinv w0) by (eapply quiet_pinv; eauto).
      apply IH in H'; auto. eapply effect_iff; [|exact H'].
      intros l P. split; intros (T & Pt & E); exists T; (split; [|auto]).
      * apply (path_same w0 w1); auto. intros k. apply same_node_sym, quiet_same_pinv; auto. apply Q.
      * apply (path_same w1 w0); auto. intros k. apply quiet_same_pinv; auto. apply Q.
Qed.

Lemma transform_children_effect limit n t w w' : inv w ->
  transform_children limit n t w = (w', Ok tt) ->
  effect w (fun l P => exists T, path w n l T /\ P = mm4 t T) w'.
Proof. intros I. apply transform_children_effect_p, inv_pinv; auto. Qed.

(** ** When [transform_children] succeeds *)

Lemma each_ok_iff w f l (Good : nat -> Prop) : pinv w ->
  (forall c w0, In c l -> quiet_ok w w0 -> exists w1 r, f c w0 = (w1, r) /\ quiet_ok w0 w1 /\ (r = Ok tt <-> Good c)) ->
  forall w0, quiet_ok w w0 -> (snd (each f l w0) = Ok tt <-> Forall Good l).
Proof.
  intros I. induction l as [|c l IH]; intros F w0 Q; simpl.
  - split; auto.
  - destruct (F c w0) as (w1 & r & E & Q1 & G); simpl; auto. unfold mthen, mbind. rewrite E.
    assert (IH' := IH (fun c w0 H => F c w0 (or_intror H)) w1 (quiet_ok_trans _ _ _ Q Q1)).
    destruct r as [[]|e]; simpl.
    + rewrite IH'. split; intros H; [constructor; tauto|inversion H; auto].
    + split; [discriminate|]. intros H. inversion H; subst. apply G in H2. discriminate.
Qed.

Lemma built_same w w' : (forall k, kind_of w' k = kind_of w k) -> forall d n, built w d n -> built w' d n.
Proof.
  intros S. fix IH 3. intros d n H. destruct H as [d n ss bs K F|d n os ms K F].
  - apply (built_obj w' d n ss bs); [congruence|]. eapply Forall_impl; [|exact F]. intros l. rewrite S. auto.
  - apply (built_asm w' d n os ms); [congruence|]. clear K. induction F; constructor; auto.
Qed.

Lemma transform_frame_succeeds c t w : pinv w -> (snd (transform_frame c t w) = Ok tt <-> kind_of w c <> None).
Proof.
  intros I. destruct (transform_frame_cases c t w) as [(x & v & E & Pl & ->)|(e & H)].
  - unfold kind_of. rewrite E. simpl. split; [discriminate|auto].
  - split; [rewrite H; discriminate|]. intros K. exfalso. unfold kind_of in K.
    destruct (w_node w c) as [x|] eqn:E; [|congruence].
    destruct (I c x E) as ((a & m & Ht & La & Ea) & (v & Lo) & _).
    unfold transform_frame in H. erewrite mbind_ok in H by (unfold get_node; rewrite E; reflexivity). cbn beta in H.
    rewrite Ht in H. cbn [read] in H. rewrite Ea in H.
    rewrite Lo in H.
    destruct (n_kind x); (erewrite mbind_ok in H by reflexivity);
      (erewrite put_frame_eq in H by (cbn [w_node]; exact E)); discriminate.
Qed.

Lemma transform_children_succeeds_p limit : forall n t w, pinv w ->
  (snd (transform_children limit n t w) = Ok tt <-> built w limit n).
Proof.
  induction limit as [|limit IH]; simpl; intros n t w I.
  - split; [discriminate|]. intros H; inversion H.
  - destruct (w_node w n) as [x|] eqn:Ex.
    2: { unfold mbind, get_node. rewrite Ex. simpl. split; [discriminate|].
         intros H; inversion H; subst; unfold kind_of in *; rewrite Ex in *; discriminate. }
    erewrite mbind_ok by (unfold get_node; rewrite Ex; reflexivity).
    destruct (pinv_node w n x I Ex) as (a & m & Ht & La & Ea & Tm).
    assert (Kx : kind_of w n = Some (n_kind x)) by (unfold kind_of; rewrite Ex; auto).
    assert (Dt : forall w0, quiet_ok w w0 -> dot_tr t (f_tr (n_fr x)) w0 = (w0, Ok (mm4 t m))).
    { intros w0 (Q & _). unfold dot_tr. rewrite (quiet_read w w0) by (auto; rewrite Ht; auto).
      rewrite Ht. simpl. rewrite Ea. auto. }
    destruct (n_kind x) as [| | |ss bs|os ms] eqn:Kd;
      try (simpl; split; [discriminate|]; intros H; inversion H; congruence).
    + rewrite (each_ok_iff w _ _ (fun l => kind_of w l <> None) I); [| |apply quiet_ok_refl].
      * split; [intros H; eapply built_obj; eauto|]. intros H; inversion H; subst; try congruence.
      * cbn beta. intros c w0 _ Q. erewrite mbind_ok by (apply Dt; auto).
        destruct (transform_frame c (mm4 t m) w0) as [w1 r] eqn:E. exists w1, r. split; auto.
        split; [eapply transform_frame_ok; eauto|].
        assert (I0 : pinv w0) by (eapply quiet_pinv; eauto).
        pose proof (transform_frame_succeeds c (mm4 t m) w0 I0) as S. rewrite E in S. simpl in S. rewrite S.
        destruct (quiet_same_pinv w w0 c (proj1 Q) I) as (-> & _). tauto.
    + rewrite (each_ok_iff w _ _ (built w limit) I); [| |apply quiet_ok_refl].
      * rewrite Forall_app. split; [intros H; eapply built_asm; eauto; rewrite Forall_app; tauto|].
        intros H; inversion H; subst; try congruence.
        rewrite Kx in H1. inj H1. rewrite Forall_app in *. tauto.
      * cbn beta. intros c w0 _ Q. erewrite mbind_ok by (apply Dt; auto).
        destruct (transform_children limit c (mm4 t m) w0) as [w1 r] eqn:E. exists w1, r. split; auto.
        split; [eapply transform_children_ok; eauto|].
        assert (I0 : pinv w0) by (eapply quiet_pinv; eauto).
        pose proof (IH c (mm4 t m) w0 I0) as S. rewrite E in S. simpl in S. rewrite S.
        assert (Sk : forall k, kind_of w0 k = kind_of w k)
          by (intros k; destruct (quiet_same_pinv w w0 k (proj1 Q) I) as (-> & _); auto).
        split; apply built_same; auto.
Qed.

Lemma transform_children_succeeds limit n t w : inv w ->
  (snd (transform_children limit n t w) = Ok tt <-> built w limit n).
Proof. intros I. apply transform_children_succeeds_p, inv_pinv; auto. Qed.

Lemma built_more w : forall d n, built w d n -> forall d', d <= d' -> built w d' n.
Proof.
  fix IH 3. intros d n H. destruct H as [d n ss bs K F|d n os ms K F]; intros d' L;
    (destruct d' as [|d']; [lia|]).
  - eapply built_obj; eauto.
  - eapply built_asm; eauto. clear K. induction F; constructor; auto. apply (IH d x); auto. lia.
Qed.
