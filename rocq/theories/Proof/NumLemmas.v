(** Facts about the extended numbers of [Base.Num]. *)
From Coq Require Import Reals List Bool Lra Lia.
From Verif.Base Require Import Py Num Vec.
Import ListNotations.
Local Open Scope R_scope.

Lemma Rleb_true x y : Rleb x y = true <-> x <= y.
Proof. unfold Rleb; destruct (Rle_dec x y); split; intros; auto; try discriminate; contradiction. Qed.
Lemma Rleb_false x y : Rleb x y = false <-> y < x.
Proof. unfold Rleb; destruct (Rle_dec x y); split; intros; auto; try discriminate; lra. Qed.
Lemma Rltb_true x y : Rltb x y = true <-> x < y.
Proof. unfold Rltb; destruct (Rlt_dec x y); split; intros; auto; try discriminate; contradiction. Qed.
Lemma Rltb_false x y : Rltb x y = false <-> y <= x.
Proof. unfold Rltb; destruct (Rlt_dec x y); split; intros; auto; try discriminate; lra. Qed.
Lemma Reqb_true x y : Reqb x y = true <-> x = y.
Proof. unfold Reqb; destruct (Req_EM_T x y); split; intros; auto; try discriminate; contradiction. Qed.
Lemma Reqb_false x y : Reqb x y = false <-> x <> y.
Proof. unfold Reqb; destruct (Req_EM_T x y); split; intros; auto; try discriminate; contradiction. Qed.

Lemma Rleb_spec x y : BoolSpec (x <= y) (y < x) (Rleb x y).
Proof. unfold Rleb; destruct (Rle_dec x y); constructor; lra. Qed.
Lemma Rltb_spec x y : BoolSpec (x < y) (y <= x) (Rltb x y).
Proof. unfold Rltb; destruct (Rlt_dec x y); constructor; lra. Qed.
Lemma Reqb_spec x y : BoolSpec (x = y) (x <> y) (Reqb x y).
Proof. unfold Reqb; destruct (Req_EM_T x y); constructor; lra. Qed.

(** Decide every real comparison in sight. *)
Ltac rdec :=
  repeat match goal with
  | |- context [Rleb ?x ?y] => destruct (Rleb_spec x y)
  | |- context [Rltb ?x ?y] => destruct (Rltb_spec x y)
  | |- context [Reqb ?x ?y] => destruct (Reqb_spec x y)
  | H : context [Rleb ?x ?y] |- _ => destruct (Rleb_spec x y)
  | H : context [Rltb ?x ?y] |- _ => destruct (Rltb_spec x y)
  | H : context [Reqb ?x ?y] |- _ => destruct (Reqb_spec x y)
  end.

Lemma tenm_pos k : 0 < tenm k.
Proof. unfold tenm. apply Rinv_0_lt_compat. apply pow_lt; lra. Qed.

Lemma tenm_10_6 : tenm 10 < tenm 6.
Proof. unfold tenm. apply Rinv_lt_contravar; simpl; lra. Qed.

Lemma tenm_lt i j : (i < j)%nat -> tenm j < tenm i.
Proof.
  intros H. unfold tenm. apply Rinv_lt_contravar.
  - apply Rmult_lt_0_compat; apply pow_lt; lra.
  - apply Rlt_pow; [lra|auto].
Qed.

(** Minimum *)
Lemma nmin2_nan x y : nmin2 x y = NaN <-> x = NaN \/ y = NaN.
Proof.
  destruct x, y; simpl; rdec; split; intros K; auto; try discriminate; destruct K; discriminate.
Qed.

Lemma nle_refl x : x <> NaN -> nle x x = true.
Proof. destruct x; simpl; intros H; auto; try congruence. apply Rleb_true; lra. Qed.

Lemma nle_trans x y z : nle x y = true -> nle y z = true -> nle x z = true.
Proof.
  destruct x, y, z; simpl; intros; auto; try discriminate.
  apply Rleb_true. apply Rleb_true in H, H0. lra.
Qed.

Lemma nle_total x y : x <> NaN -> y <> NaN -> nle x y = false -> nle y x = true.
Proof.
  destruct x, y; simpl; intros Hx Hy H; auto; try discriminate; try congruence.
  apply Rleb_false in H. apply Rleb_true. lra.
Qed.

Lemma nmin2_cases x y : x <> NaN -> y <> NaN ->
  (nmin2 x y = x /\ nle x y = true) \/ (nmin2 x y = y /\ nle y x = true).
Proof.
  intros Hx Hy. destruct (nle x y) eqn:E.
  - left. split; auto. destruct x, y; try congruence; unfold nmin2; rewrite E; auto.
  - right. split; [|apply nle_total; auto].
    destruct x, y; try congruence; unfold nmin2; rewrite E; auto.
Qed.

Lemma fold_nmin_nan l a : fold_left nmin2 l a = NaN <-> In NaN (a :: l).
Proof.
  revert a; induction l as [|x l IH]; intros a; simpl.
  - split; intros; [auto|destruct H; [auto|contradiction]].
  - rewrite IH. simpl. rewrite nmin2_nan. tauto.
Qed.

Lemma fold_nmin_spec l a m : fold_left nmin2 l a = m -> m <> NaN ->
  In m (a :: l) /\ forall x, In x (a :: l) -> nle m x = true.
Proof.
  revert a; induction l as [|x l IH]; intros a H Hm; simpl in H.
  - subst m. split; [left; auto|]. intros x [<-|[]]. apply nle_refl; auto.
  - assert (Hn : nmin2 a x <> NaN).
    { intros E. apply Hm. rewrite <- H. apply fold_nmin_nan. left; auto. }
    assert (a <> NaN /\ x <> NaN) as (Ha & Hx).
    { rewrite nmin2_nan in Hn. tauto. }
    destruct (IH _ H Hm) as (Hi & Hle). split.
    + destruct Hi as [<-|Hi]; [|right; right; auto].
      destruct (nmin2_cases a x Ha Hx) as [(-> & _)|(-> & _)]; [left|right; left]; auto.
    + assert (Hm2 : nle m (nmin2 a x) = true) by (apply Hle; left; auto).
      destruct (nmin2_cases a x Ha Hx) as [(E & L)|(E & L)]; rewrite E in Hm2.
      * intros y [<-|[<-|Hy]]; auto; [eapply nle_trans; eauto|apply Hle; right; auto].
      * intros y [<-|[<-|Hy]]; auto; [eapply nle_trans; eauto|apply Hle; right; auto].
Qed.

Lemma neqb_fin x y : neqb x y && negb (nisinf x) = true <-> exists t, x = Fin t /\ y = Fin t.
Proof.
  destruct x, y; simpl; split; intros H; try discriminate; try (destruct H as (t & ? & ?); discriminate).
  - rewrite andb_true_r in H. apply Reqb_true in H. subst; eauto.
  - destruct H as (t & E1 & E2). injection E1 as <-. injection E2 as <-.
    rewrite andb_true_r. apply Reqb_true; auto.
Qed.
