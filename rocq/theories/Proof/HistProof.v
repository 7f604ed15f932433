(** The histogram of hits and the measures of the minidish. *)
From Coq Require Import Reals List Arith Bool Lia Lra.
From Verif.Base Require Import Py Num Vec.
From Verif.Model Require Import RayBundle Spatial Geometry Engine Objects OpticsCallables Surface Assembly Scene Models.
From Verif.Proof Require Import ListLemmas NumLemmas VecLemmas SpatialProof FlatProof.
From Verif.Spec Require Import BundleSpec EngineSpec GeometrySpec OpticsSpec FrameSpec SceneSpec ModelSpec.
Import ListNotations.
Local Open Scope R_scope.

(** ** Bins *)

Lemma filter_seq_le (P : nat -> bool) k n : (forall i, (i < n)%nat -> P i = true <-> (i < k)%nat) -> (k <= n)%nat ->
  length (filter P (seq 0 n)) = k.
Proof.
  revert k. induction n; intros k H L; [simpl; lia|]. rewrite seq_S, filter_app, app_length. cbn [filter plus].
  destruct (Nat.eq_dec k (S n)) as [->|].
  - rewrite (IHn n); [|intros i Hi; rewrite H by lia; lia|lia]. rewrite (proj2 (H n ltac:(lia))) by lia. simpl. lia.
  - rewrite (IHn k); [|intros i Hi; apply H; lia|lia]. destruct (P n) eqn:E; [apply H in E; lia|simpl; lia].
Qed.

Section Edges.
Variables (lo hi : R) (n : nat).
Hypothesis (Hr : lo < hi) (Hn : (0 < n)%nat).
Let w := (hi - lo) / INR n.
Let edge i := lo + INR i * w.

Lemma n_pos : 0 < INR n.
Proof. apply lt_0_INR. auto. Qed.
Lemma w_pos : 0 < w.
Proof. unfold w. apply Rdiv_lt_0_compat; [lra|apply n_pos]. Qed.
Lemma edge_last : edge n = hi.
Proof. unfold edge, w. field. pose proof n_pos. lra. Qed.
Lemma edge_le i j : (i <= j)%nat -> edge i <= edge j.
Proof. intros H. apply le_INR in H. pose proof w_pos. unfold edge. nra. Qed.
Lemma edge_lt i j : (i < j)%nat -> edge i < edge j.
Proof. intros H. apply lt_INR in H. pose proof w_pos. unfold edge. nra. Qed.
Lemma edges_last : last (bin_edges lo hi n) 0 = hi.
Proof. unfold bin_edges. rewrite seq_S, map_app. cbn [map plus]. rewrite last_last. apply edge_last. Qed.

Lemma count_edges x k : (k <= S n)%nat -> (forall i, (i < k)%nat -> edge i <= x) -> (forall i, (k <= i <= n)%nat -> x < edge i) ->
  length (filter (fun e => Rleb e x) (bin_edges lo hi n)) = k.
Proof.
  intros L A B. unfold bin_edges. rewrite <- (filter_seq_le (fun i => Rleb (edge i) x) k (S n)); auto.
  - generalize (seq 0 (S n)). intros l. induction l; simpl; auto. fold w. fold (edge a). destruct (Rleb (edge a) x); simpl; auto.
  - intros i Hi. rewrite Rleb_true. split; [|auto]. intros E. destruct (le_lt_dec k i); auto. specialize (B i ltac:(lia)). lra.
Qed.

Lemma find_count x : exists k, (k <= S n)%nat /\ (forall i, (i < k)%nat -> edge i <= x) /\ (forall i, (k <= i <= n)%nat -> x < edge i).
Proof.
  assert (D : forall m, exists k, (k <= m)%nat /\ (forall i, (i < k)%nat -> edge i <= x) /\ (forall i, (k <= i < m)%nat -> x < edge i)).
  { induction m as [|m (k & L & A & B)]; [exists 0%nat; repeat split; lia|].
    destruct (Rle_lt_dec (edge m) x) as [Le|Lt].
    - exists (S m). split; auto. split; [|lia]. intros i Hi. pose proof (edge_le i m ltac:(lia)). lra.
    - exists k. split; [lia|]. split; auto. intros i Hi. destruct (Nat.eq_dec i m) as [->|]; auto. apply B. lia. }
  destruct (D (S n)) as (k & L & A & B). exists k. split; auto. split; auto. intros i Hi. apply B. lia.
Qed.

Lemma bin_iff i x : (i < n)%nat -> bin_of (bin_edges lo hi n) x = S i <-> in_bin lo hi n i x.
Proof.
  intros Hi. unfold bin_of, in_bin. rewrite edges_last. fold w. fold (edge i) (edge (S i)).
  destruct (Reqb_spec x hi) as [->|Nx].
  - rewrite (count_edges hi (S n)); [|lia| |lia].
    + split.
      * intros E. assert (S i = n) by lia. split; [rewrite <- edge_last; apply edge_le; lia|]. right. auto.
      * intros (_ & [E|(E & _)]); [|lia]. pose proof (edge_le (S i) n ltac:(lia)). rewrite edge_last in H. lra.
    + intros j Hj. rewrite <- edge_last. apply edge_le. lia.
  - destruct (find_count x) as (k & Lk & A & B). rewrite (count_edges x k Lk A B). split.
    + intros ->. split; [apply A; lia|]. left. apply B. lia.
    + intros (E1 & [E2|(_ & E2)]); [|contradiction].
      destruct (lt_eq_lt_dec k (S i)) as [[L|L]|L]; auto; exfalso.
      * specialize (B i ltac:(lia)). lra.
      * specialize (A (S i) ltac:(lia)). lra.
Qed.

Lemma inside_iff x : (exists i, (i < n)%nat /\ bin_of (bin_edges lo hi n) x = S i) <-> lo <= x <= hi.
Proof.
  split.
  - intros (i & Hi & E). apply bin_iff in E as (A & B); auto. fold w in A, B. fold (edge i) (edge (S i)) in A, B.
    pose proof (edge_le 0 i ltac:(lia)) as E0. pose proof (edge_le (S i) n ltac:(lia)) as E1. rewrite edge_last in E1.
    replace (edge 0) with lo in E0 by (unfold edge; simpl; ring). destruct B as [|(_ & ->)]; lra.
  - intros (A & B). destruct (Req_dec x hi) as [->|Nx].
    + exists (n - 1)%nat. split; [lia|]. apply bin_iff; [lia|]. unfold in_bin. fold w. fold (edge (n - 1)).
      split; [rewrite <- edge_last; apply edge_le; lia|]. right. split; auto. lia.
    + destruct (find_count x) as (k & Lk & P & Q).
      destruct k as [|i]; [specialize (Q 0%nat ltac:(lia)); unfold edge in Q; simpl in Q; lra|].
      assert (Hi : (i < n)%nat).
      { destruct (Nat.eq_dec i n) as [->|]; [|lia]. specialize (P n ltac:(lia)). rewrite edge_last in P. lra. }
      exists i. split; auto. apply bin_iff; auto. unfold in_bin. fold w. fold (edge i) (edge (S i)).
      split; [apply P; lia|left; apply Q; lia].
Qed.
End Edges.

(** ** Sums *)

Definition weigh {A} (P : A -> bool) (w : A -> R) (l : list A) : R := total (map w (filter P l)).
Lemma weigh_cons {A} (P : A -> bool) w (x : A) l : weigh P w (x :: l) = (if P x then w x else 0) + weigh P w l.
Proof. unfold weigh. simpl. destruct (P x); simpl; lra. Qed.
Lemma weigh_sum {A} (P : A -> bool) (Q : A -> Prop) w (l : list A) : (forall x, P x = true <-> Q x) -> sum_where Q w l (weigh P w l).
Proof.
  intros H. induction l as [|x l IH]; [constructor|]. rewrite weigh_cons. destruct (P x) eqn:E.
  - apply sum_in; auto. apply H. auto.
  - rewrite Rplus_0_l. apply sum_out; auto. rewrite <- H. congruence.
Qed.

Lemma total_app l m : total (l ++ m) = total l + total m.
Proof. induction l; simpl; [lra|]. rewrite IHl. lra. Qed.
Lemma total_add {A} (f g : A -> R) l : total (map (fun x => f x + g x) l) = total (map f l) + total (map g l).
Proof. induction l; simpl; [lra|]. rewrite IHl. lra. Qed.
Lemma total_zero {A} (l : list A) : total (map (fun _ => 0) l) = 0.
Proof. induction l; simpl; lra. Qed.
Lemma total_one v k n m : total (map (fun i => if Nat.eqb k (S i) then v else 0) (seq m n)) =
  if (Nat.leb (S m) k && Nat.leb k (m + n))%bool then v else 0.
Proof.
  revert m. induction n; intros m; cbn [seq map].
  - change (total []) with 0. destruct (Nat.leb_spec (S m) k), (Nat.leb_spec k (m + 0)); auto. lia.
  - match goal with |- total (?x :: ?l) = _ => change (x + total l = if (Nat.leb (S m) k && Nat.leb k (m + S n))%bool then v else 0) end.
    rewrite IHn. destruct (Nat.eqb_spec k (S m)), (Nat.leb_spec (S m) k), (Nat.leb_spec (S (S m)) k), (Nat.leb_spec k (S m + n)), (Nat.leb_spec k (m + S n)); cbn [andb]; try lia; lra.
Qed.
Lemma total_concat ls : total (concat ls) = total (map total ls).
Proof. induction ls; simpl; auto. rewrite total_app, IHls. auto. Qed.

Definition sample := (R * R * R)%type.
Definition cell (xe ye : list R) (samples : list sample) (i j : nat) : R :=
  weigh (fun s => Nat.eqb (bin_of xe (fst (fst s))) (S i) && Nat.eqb (bin_of ye (snd (fst s))) (S j))%bool snd samples.

Lemma cells_total xe ye n samples :
  total (concat (map (fun i => map (cell xe ye samples i) (seq 0 n)) (seq 0 n))) =
  weigh (fun s => (Nat.leb 1 (bin_of xe (fst (fst s))) && Nat.leb (bin_of xe (fst (fst s))) n) &&
                  (Nat.leb 1 (bin_of ye (snd (fst s))) && Nat.leb (bin_of ye (snd (fst s))) n))%bool snd samples.
Proof.
  rewrite total_concat, map_map. induction samples as [|s l IH].
  - unfold cell, weigh. simpl. erewrite map_ext; [apply total_zero|]. intros. apply total_zero.
  - rewrite weigh_cons, <- IH. clear IH. set (a := bin_of xe (fst (fst s))). set (b := bin_of ye (snd (fst s))).
    transitivity (total (map (fun i => (if Nat.eqb a (S i) then (if (Nat.leb 1 b && Nat.leb b n)%bool then snd s else 0) else 0) +
        total (map (cell xe ye l i) (seq 0 n))) (seq 0 n))).
    + f_equal. apply map_ext. intros i.
      rewrite <- (total_one (snd s) b n 0) at 1.
      transitivity (total (map (fun j => (if Nat.eqb a (S i) then (if Nat.eqb b (S j) then snd s else 0) else 0) + cell xe ye l i j) (seq 0 n))).
      * f_equal. apply map_ext. intros j. unfold cell at 1. rewrite weigh_cons. fold a b. destruct (Nat.eqb a (S i)), (Nat.eqb b (S j)); simpl; auto.
      * rewrite total_add. f_equal. destruct (Nat.eqb a (S i)); [reflexivity|apply total_zero].
    + rewrite total_add. f_equal. rewrite total_one. cbn [plus]. destruct (Nat.leb 1 a && Nat.leb a n)%bool; reflexivity.
Qed.

Lemma inside_bool lo hi n x : lo < hi -> (0 < n)%nat ->
  (Nat.leb 1 (bin_of (bin_edges lo hi n) x) && Nat.leb (bin_of (bin_edges lo hi n) x) n)%bool = true <-> lo <= x <= hi.
Proof.
  intros Hr Hn. rewrite <- (inside_iff lo hi n Hr Hn x). rewrite andb_true_iff, !Nat.leb_le. split.
  - intros (A & B). exists (bin_of (bin_edges lo hi n) x - 1)%nat. lia.
  - intros (i & A & B). lia.
Qed.

Lemma hist_ok samples n rx ry : 0 < rx -> 0 < ry -> (0 < n)%nat ->
  exists H xe ye, histogram2d samples n rx ry = Ok (H, xe, ye) /\
    xe = map (fun i => - rx + INR i * (2 * rx / INR n)) (seq 0 (S n)) /\
    ye = map (fun i => - ry + INR i * (2 * ry / INR n)) (seq 0 (S n)) /\
    length H = n /\ (forall row, In row H -> length row = n) /\
    (forall i j, (i < n)%nat -> (j < n)%nat -> exists row t, nth_error H i = Some row /\ nth_error row j = Some t /\
       sum_where (fun s => in_bin (- rx) rx n i (fst (fst s)) /\ in_bin (- ry) ry n j (snd (fst s))) snd samples t) /\
    sum_where (fun s => - rx <= fst (fst s) <= rx /\ - ry <= snd (fst s) <= ry) snd samples (total (concat H)).
Proof.
  intros Hx Hy Hn. unfold histogram2d. rewrite (proj2 (Nat.eqb_neq n 0)) by lia.
  eexists _, _, _. split; [reflexivity|].
  split. { unfold bin_edges. apply map_ext. intros i. replace (rx - - rx) with (2 * rx) by ring. auto. }
  split. { unfold bin_edges. apply map_ext. intros i. replace (ry - - ry) with (2 * ry) by ring. auto. }
  split; [rewrite map_length, seq_length; auto|].
  split. { intros row I. apply in_map_iff in I as (i & <- & _). rewrite map_length, seq_length. auto. }
  set (xe := bin_edges (- rx) rx n). set (ye := bin_edges (- ry) ry n).
  split.
  - intros i j Hi Hj. eexists _, _. split; [apply map_nth_error; rewrite (nth_error_nth' _ 0%nat) by (rewrite seq_length; auto); rewrite seq_nth by auto; reflexivity|].
    split; [apply map_nth_error; rewrite (nth_error_nth' _ 0%nat) by (rewrite seq_length; auto); rewrite seq_nth by auto; reflexivity|].
    cbn [plus]. apply (weigh_sum (fun s => Nat.eqb (bin_of xe (fst (fst s))) (S i) && Nat.eqb (bin_of ye (snd (fst s))) (S j))%bool).
    intros s. rewrite andb_true_iff, !Nat.eqb_eq. unfold xe, ye. rewrite !bin_iff by (auto; lra). tauto.
  - change (sum_where (fun s : sample => - rx <= fst (fst s) <= rx /\ - ry <= snd (fst s) <= ry) snd samples
      (total (concat (map (fun i => map (cell xe ye samples i) (seq 0 n)) (seq 0 n))))).
    rewrite cells_total. apply weigh_sum. intros s. rewrite andb_true_iff. unfold xe, ye. rewrite !inside_bool by (auto; lra). tauto.
Qed.
