(** The radial stagger layout and the sun's direction. *)
From Coq Require Import Reals List Arith ZArith Bool Lia Lra FinFun.
From Verif.Base Require Import Py Num Vec.
From Verif.Model Require Import Sources Models.
From Verif.Proof Require Import NumLemmas VecLemmas.
From Verif.Spec Require Import ModelSpec.
Import ListNotations.

Lemma evens_ind {A} (P : list A -> Prop) : P [] -> (forall x, P [x]) -> (forall x y l, P l -> P (x :: y :: l)) -> forall l, P l.
Proof. intros H0 H1 H2. fix IH 1. intros [|x [|y l]]; [exact H0|apply H1|apply H2, IH]. Qed.
Lemma evens_map {A B} (f : A -> B) l : evens (map f l) = map f (evens l).
Proof. induction l using evens_ind; simpl; congruence. Qed.
Lemma odds_map {A B} (f : A -> B) l : odds (map f l) = map f (odds l).
Proof. destruct l; simpl; auto. apply evens_map. Qed.

Lemma evens_in {A} (l : list A) x : In x (evens l) -> In x l.
Proof. induction l using evens_ind; simpl; tauto. Qed.
Lemma evens_seq n : forall s, (forall k, In k (evens (seq s n)) <-> s <= k < s + n /\ Nat.Even (k - s)) /\ NoDup (evens (seq s n)).
Proof.
  induction n as [n IH] using lt_wf_ind. intros s. destruct n as [|[|n]]; simpl.
  - split; [intros k; split; [tauto|lia]|constructor].
  - split; [|repeat constructor; auto]. intros k. split; [intros [<-|[]]; split; [lia|exists 0; lia]|]. intros (A & _). left. lia.
  - destruct (IH n ltac:(lia) (S (S s))) as (I & N). split.
    + intros k. rewrite I. split.
      * intros [<-|(A & m & E)]; [split; [lia|exists 0; lia]|]. split; [lia|]. exists (S m). lia.
      * intros (A & m & E). destruct m; [left; lia|]. right. split; [lia|]. exists m. lia.
    + constructor; auto. rewrite I. lia.
Qed.
Lemma odds_seq n : (forall k, In k (odds (seq 0 n)) <-> k < n /\ ~ Nat.Even k) /\ NoDup (odds (seq 0 n)).
Proof.
  destruct n as [|n]; [simpl; split; [intros; split; [tauto|lia]|constructor]|]. cbn [odds seq].
  destruct (evens_seq n 1) as (I & N). split; auto. intros k. rewrite I. split.
  - intros (A & m & E). split; [lia|]. intros (q & Q). lia.
  - intros (A & B). destruct (Nat.Even_or_Odd k) as [|(m & ->)]; [tauto|]. split; [lia|]. exists m. lia.
Qed.
Lemma evens_seq0 n : (forall k, In k (evens (seq 0 n)) <-> k < n /\ Nat.Even k) /\ NoDup (evens (seq 0 n)).
Proof. destruct (evens_seq n 0) as (I & N). split; auto. intros k. rewrite I, Nat.sub_0_r. intuition lia. Qed.

Lemma nodup_prod {A B} (l : list A) (m : list B) : NoDup l -> NoDup m -> NoDup (list_prod l m).
Proof.
  intros Nl Nm. induction Nl as [|x l Nx Nl IH]; simpl; [constructor|].
  assert (X : forall l1 l2 : list (A * B), NoDup l1 -> NoDup l2 -> (forall y, In y l1 -> ~ In y l2) -> NoDup (l1 ++ l2)).
  { induction l1; simpl; auto. intros l2 H1 H2 H. inversion H1; subst. constructor; auto. rewrite in_app_iff. intros [|]; [auto|]. eapply H; eauto. }
  apply X; auto.
  - apply Injective_map_NoDup; auto. intros a b E. congruence.
  - intros (a & b) I J. apply in_map_iff in I as (c & E & _). injection E as <- <-. apply in_prod_iff in J. tauto.
Qed.

Local Open Scope R_scope.
Lemma ceil_bounds x : x <= IZR (ceil x) < x + 1.
Proof. unfold ceil. rewrite opp_IZR, minus_IZR. destruct (archimed (- x)). lra. Qed.
Lemma below_ceil k x : (k < Z.to_nat (ceil x))%nat <-> INR k < x.
Proof.
  pose proof (ceil_bounds x) as C. rewrite INR_IZR_INZ. split; intros H.
  - assert (Z.of_nat k <= ceil x - 1)%Z as L by lia. apply IZR_le in L. rewrite minus_IZR in L. lra.
  - assert (IZR (Z.of_nat k) < IZR (ceil x)) as L by lra. apply lt_IZR in L. lia.
Qed.
Lemma in_range s e h k : 0 < h -> (k < Z.to_nat (ceil ((e - s) / h)))%nat <-> s + INR k * h < e.
Proof.
  intros Hh. rewrite below_ceil. split; intros H.
  - apply (Rmult_lt_compat_r h) in H; auto. unfold Rdiv in H. rewrite Rmult_assoc, Rinv_l in H by lra. lra.
  - apply (Rmult_lt_reg_r h); auto. unfold Rdiv. rewrite Rmult_assoc, Rinv_l by lra. lra.
Qed.

Lemma combine_app {A B} (a c : list A) (b d : list B) : length a = length b -> combine (a ++ c) (b ++ d) = combine a b ++ combine c d.
Proof. revert b. induction a as [|x a IH]; intros [|y b] H; simpl in *; try discriminate; auto. f_equal. apply IH. auto. Qed.
Lemma combine_maps {A B C} (f : A -> B) (g : A -> C) l : combine (map f l) (map g l) = map (fun x => (f x, g x)) l.
Proof. induction l; simpl; congruence. Qed.
Lemma outer_length rs cs ds : length cs = length ds -> length (outer_flat rs cs) = length (outer_flat rs ds).
Proof. intros L. unfold outer_flat. induction rs; simpl; auto. rewrite !app_length, !map_length, IHrs, L. auto. Qed.
Lemma outer_prod (f : nat -> R) (g : nat -> R) rs angs :
  combine (outer_flat (map f rs) (map cos (map g angs))) (outer_flat (map f rs) (map sin (map g angs))) =
  map (fun ij => (f (fst ij) * cos (g (snd ij)), f (fst ij) * sin (g (snd ij)))) (list_prod rs angs).
Proof.
  unfold outer_flat. induction rs as [|r rs IH]; simpl; auto. rewrite !map_map, combine_app by (rewrite !map_length; auto).
  rewrite map_app, combine_maps, map_map. f_equal. rewrite <- IH, !map_map. reflexivity.
Qed.

Lemma odd_not_even k : Nat.Odd k -> ~ Nat.Even k.
Proof. intros (a & A) (b & B). lia. Qed.

Lemma stagger_ok start_ang end_ang az_space rmin rmax r_space : 0 < az_space -> 0 < r_space ->
  exists idx, radial_stagger start_ang end_ang az_space rmin rmax r_space =
      Ok (map (stagger_position start_ang az_space rmin r_space) idx) /\
    NoDup idx /\ forall ij, In ij idx <-> staggered start_ang end_ang az_space rmin rmax r_space ij.
Proof.
  intros Ha Hr. unfold radial_stagger, r_range.
  destruct (Reqb_spec r_space 0); [lra|]. destruct (Reqb_spec (az_space / 2) 0); [lra|]. cbn [bind].
  unfold grid_range. set (n := Z.to_nat (ceil ((rmax - rmin) / r_space))). set (m := Z.to_nat (ceil ((end_ang - start_ang) / (az_space / 2)))).
  rewrite !evens_map, !odds_map, combine_app by (apply outer_length; rewrite !map_length; auto).
  rewrite !outer_prod, <- map_app.
  exists (list_prod (evens (seq 0 n)) (evens (seq 0 m)) ++ list_prod (odds (seq 0 n)) (odds (seq 0 m))).
  split; [reflexivity|].
  destruct (evens_seq0 n) as (In1 & Nd1), (evens_seq0 m) as (Im1 & Md1), (odds_seq n) as (In2 & Nd2), (odds_seq m) as (Im2 & Md2).
  split.
  - assert (X : forall l1 l2 : list (nat * nat), NoDup l1 -> NoDup l2 -> (forall y, In y l1 -> ~ In y l2) -> NoDup (l1 ++ l2)).
    { induction l1; simpl; auto. intros l2 K1 K2 K. inversion K1; subst. constructor; auto. rewrite in_app_iff. intros [|]; [auto|]. eapply K; eauto. }
    apply X; try (apply nodup_prod; auto). intros (i & j) A B. apply in_prod_iff in A, B. rewrite In1 in A. rewrite In2 in B. tauto.
  - intros (i & j). rewrite in_app_iff, !in_prod_iff, In1, Im1, In2, Im2. unfold staggered. cbn [fst snd].
    unfold n, m. rewrite !in_range by lra.
    destruct (Nat.Even_or_Odd i) as [Ei|Oi], (Nat.Even_or_Odd j) as [Ej|Oj];
      try apply odd_not_even in Oi; try apply odd_not_even in Oj; tauto.
Qed.

(** ** The sun *)

Lemma solar_ok az el : 0 <= el <= PI -> solar_vector az el = V3 (sin el * - sin az) (sin el * - cos az) (cos el).
Proof.
  intros (A & B). unfold solar_vector. pose proof (sin_ge_0 el A B) as S.
  replace (sqrt (1 - cos el * cos el)) with (sin el).
  - f_equal; ring.
  - pose proof (sin2_cos2 el) as E. unfold Rsqr in E. replace (1 - cos el * cos el) with (sin el * sin el) by lra. rewrite sqrt_square; auto.
Qed.
