(** Further rows of parameters that are nowhere the least. *)
From Coq Require Import Reals String List Arith Bool ZArith Lra Lia.
From Verif.Base Require Import Py Num Vec.
From Verif.Model Require Import RayBundle TraceTree Engine Objects.
From Verif.Proof Require Import ListLemmas NumLemmas IntersectProof ResumeProof SurfaceProof DrawProof.
Import ListNotations.
Local Open Scope R_scope.

Lemma tens : 0 < tenm 10 < tenm 6.
Proof. unfold tenm. split; [apply Rinv_0_lt_compat; lra|apply Rinv_lt_contravar; lra]. Qed.

(** No entry of [r] is the least of its column. *)
Definition behind (stack : list (list num)) (j : nat) (x : num) : Prop :=
  x = PInf \/ exists t', x = Fin t' /\ tenm 6 < t' /\ exists row t, In row stack /\ nth_error row j = Some (Fin t) /\ tenm 6 < t < t'.
Definition hidden_row (stack : list (list num)) (n : nat) (r : list num) : Prop :=
  length r = n /\ forall j x, nth_error r j = Some x -> behind stack j x.

Lemma behind_high stack j x : behind stack j x -> nlt x (Fin (- tenm 16)) = false /\ nle x (Fin (tenm 10)) = false /\ nle x (Fin (tenm 6)) = false.
Proof.
  intros [->|(t' & -> & H & _)]; [repeat split|]. pose proof tens. cbn. unfold Rltb, Rleb.
  assert (0 < tenm 16) by (unfold tenm; apply Rinv_0_lt_compat; lra).
  repeat split; match goal with |- (if ?c then _ else _) = _ => destruct c; auto; lra end.
Qed.

Lemma any2_app f (a b : list (list num)) : any2 f (a ++ b) = any2 f a || any2 f b.
Proof. unfold any2. apply existsb_app. Qed.
Lemma any2_hidden f stack n R : Forall (hidden_row stack n) R -> (forall j x, behind stack j x -> f x = false) -> any2 f R = false.
Proof.
  intros H Hf. unfold any2. induction H as [|r R (_ & Hr) _ IH]; [reflexivity|]. cbn. rewrite IH, orb_false_r.
  destruct (existsb f r) eqn:E; auto. apply existsb_exists in E as (x & Hx & E). destruct (In_nth_error _ _ Hx) as (j & Hj).
  rewrite (Hf j x (Hr j x Hj)) in E. discriminate.
Qed.

Lemma clear_keeps stack R n : Forall (hidden_row stack n) R -> clear_zeros (stack ++ R) = clear_zeros stack ++ R.
Proof.
  intros H. unfold clear_zeros. rewrite any2_app, (any2_hidden _ stack n R H), orb_false_r by (intros j x Hb; apply (behind_high _ _ _ Hb)).
  destruct (any2 _ stack); [|reflexivity]. rewrite map_app. f_equal.
  induction H as [|r R (_ & Hr) _ IH]; [reflexivity|]. cbn. f_equal; auto. rewrite <- (map_id r) at 2. apply map_ext_in.
  intros x Hx. destruct (In_nth_error _ _ Hx) as (j & Hj). rewrite (proj2 (proj2 (behind_high _ _ _ (Hr j x Hj)))). reflexivity.
Qed.
Lemma clear_hidden stack n R : Forall (hidden_row stack n) R -> Forall (hidden_row (clear_zeros stack) n) R.
Proof.
  apply Forall_impl. intros r (L & H). split; auto. intros j x Hx. destruct (H j x Hx) as [->|(t' & -> & Ht & row & t & I & Hj & Lt)]; [left; reflexivity|].
  right. exists t'. split; auto. split; auto. rewrite clear_zeros_map. eexists; exists t. split; [apply in_map; exact I|]. split; [|exact Lt].
  rewrite nth_error_map, Hj. cbn. unfold clr. destruct (cut stack); auto. cbn. unfold Rleb. destruct (Rle_dec t (tenm 6)); auto. lra.
Qed.

Lemma least_kept m x stack j mins n : (forall r, In r stack -> length r = n) -> col_min stack = Ok mins -> (j < n)%nat ->
  nth_error mins j = Some m -> behind stack j x -> nmin2 m x = m /\ neqb x m && negb (nisinf x) = false.
Proof.
  intros Hl Hm Hj Em [->|(t' & -> & Ht & row & t & I & Hr & Lt)].
  - split; [destruct m; reflexivity|]. destruct m; reflexivity.
  - destruct (col_min_spec stack mins n Hl Hm j Hj) as (m' & Em' & _ & H). assert (m' = m) by congruence. subst m'.
    destruct m as [a| | |]; [| | |split; reflexivity].
    all: specialize (proj2 (H ltac:(discriminate)) row (Fin t) I Hr) as Le; cbn in Le; try discriminate.
    + unfold Rleb in Le. destruct (Rle_dec a t); [|discriminate]. cbn. unfold Rleb, Reqb. destruct (Rle_dec a t'); [|lra]. split; auto.
      destruct (Req_EM_T t' a); [lra|reflexivity].
    + split; reflexivity.
Qed.
Lemma mins_kept stack R n mins : (forall r, In r stack -> length r = n) -> Forall (hidden_row stack n) R -> col_min stack = Ok mins ->
  col_min (stack ++ R) = Ok mins.
Proof.
  intros Hl H Hm. destruct stack as [|r rs]; [discriminate|]. cbn [app col_min]. rewrite fold_left_app. f_equal.
  assert (Em : fold_left (map2 nmin2) rs r = mins) by (cbn in Hm; congruence). rewrite Em.
  assert (Lm : length mins = n).
  { destruct (Nat.lt_trichotomy (length mins) n) as [Lt|[E|Gt]]; auto; exfalso.
    - destruct (col_min_spec _ _ n Hl Hm _ Lt) as (mj & E & _). assert (length mins < length mins)%nat by (apply nth_error_Some; congruence). lia.
    - assert (K : forall (l : list (list num)) a, (length (fold_left (map2 nmin2) l a) <= length a)%nat).
      { induction l as [|x l IH]; intros a; cbn; auto. eapply Nat.le_trans; [apply IH|].
        clear. revert x. induction a as [|y a IH]; intros [|z x]; cbn; try lia. specialize (IH x). lia. }
      specialize (K rs r). rewrite Em in K. rewrite (Hl r (or_introl eq_refl)) in K. lia. }
  clear Em. induction H as [|x R (Lx & Hx) _ IH]; [reflexivity|]. cbn [fold_left].
  assert (E : map2 nmin2 mins x = mins); [|rewrite E; exact IH].
  clear IH. apply SurfaceProof.nth_error_ext. intros j. rewrite map2_nth_error.
  destruct (nth_error mins j) as [m|] eqn:Ej; auto.
  assert (Hj : (j < n)%nat) by (rewrite <- Lm; apply nth_error_Some; congruence).
  destruct (nth_error x j) as [y|] eqn:Ey; [|apply nth_error_None in Ey; lia].
  f_equal. apply (least_kept m y _ j mins n Hl Hm Hj Ej). auto.
Qed.
Lemma front_none stack R n mins : (forall r, In r stack -> length r = n) -> Forall (hidden_row stack n) R -> col_min stack = Ok mins ->
  Forall (fun f => forall b, In b f -> b = false) (front R mins).
Proof.
  intros Hl H Hm. unfold front. induction H as [|x R (Lx & Hx) _ IH]; [constructor|]. cbn [map]. constructor; [|exact IH].
  intros b Hb. apply In_nth_error in Hb as (j & Hj). rewrite map2_nth_error in Hj.
  destruct (nth_error x j) as [y|] eqn:Ey; [|discriminate]. destruct (nth_error mins j) as [m|] eqn:Ej; [|discriminate].
  assert (j < n)%nat by (rewrite <- Lx; apply nth_error_Some; congruence).
  pose proof (least_kept m y _ j mins n Hl Hm ltac:(auto) Ej (Hx j y Ey)). destruct H0. congruence.
Qed.

Lemma any_select_none (f o : list bool) : (forall b, In b f -> b = false) -> any (mask_select o f) = false.
Proof.
  intros H. revert o. induction f as [|x f IH]; intros [|y o]; auto. cbn. destruct y; [|apply IH; intros; apply H; right; auto].
  cbn. rewrite (H x (or_introl eq_refl)). apply IH. intros; apply H; right; auto.
Qed.

(** ** One more object *)
Lemma ownership_more objs ob : surf_ownership (objs ++ [ob]) = surf_ownership objs ++ repeat (length objs) (o_nsurf ob).
Proof.
  unfold surf_ownership. rewrite app_length. cbn [length]. rewrite Nat.add_1_r, seq_S. cbn [Nat.add].
  rewrite DrawProof.combine_app by (rewrite seq_length; reflexivity). rewrite map_app, concat_app. cbn. rewrite app_nil_r. reflexivity.
Qed.
