(** Facts about the numpy-style list operations of [Base.Py]. *)
From Coq Require Import List Arith Bool Lia Sorted Permutation.
From Verif.Base Require Import Py.
Import ListNotations.

Lemma bind_ok {A B} (m : res A) (f : A -> res B) b :
  bind m f = Ok b <-> exists a, m = Ok a /\ f a = Ok b.
Proof.
  destruct m; simpl; split.
  - intros H; exists a; auto.
  - intros (x & E & H); inversion E; subst; auto.
  - discriminate.
  - intros (x & E & _); discriminate.
Qed.

Ltac inv_bind H :=
  repeat match type of H with
  | bind _ _ = Ok _ =>
      let x := fresh "x" in let E := fresh "E" in
      apply bind_ok in H; destruct H as (x & E & H)
  end.

(** Split every [bind _ _ = Ok _] in the context. *)
Ltac binds :=
  repeat match goal with
  | H : bind ?m ?f = Ok _ |- _ =>
      let x := fresh "x" in let E := fresh "E" in
      apply bind_ok in H; destruct H as (x & E & H)
  | H : Ok _ = Ok _ |- _ => injection H as H; try subst
  | H : Err _ = Ok _ |- _ => discriminate H
  | H : Ok _ = Err _ |- _ => discriminate H
  end.

Lemma Forall2_length {A B} (P : A -> B -> Prop) l k : Forall2 P l k -> length l = length k.
Proof. induction 1; simpl; auto. Qed.

Lemma Forall2_impl {A B} (P Q : A -> B -> Prop) l k :
  (forall a b, P a b -> Q a b) -> Forall2 P l k -> Forall2 Q l k.
Proof. induction 2; auto. Qed.

Lemma mapM_cons {A B} (f : A -> res B) a l :
  mapM f (a :: l) = (b <- f a ;; t <- mapM f l ;; Ok (b :: t)).
Proof. reflexivity. Qed.

Lemma mapM_ok {A B} (f : A -> res B) l l' :
  mapM f l = Ok l' <-> Forall2 (fun a b => f a = Ok b) l l'.
Proof.
  revert l'; induction l as [|a l IH]; intros l'.
  - unfold mapM; simpl; split; intros H; inversion H; subst; constructor.
  - rewrite mapM_cons; split; intros H.
    + binds. constructor; auto. apply IH; auto.
    + inversion H; subst. rewrite H2; simpl. apply IH in H4; rewrite H4; reflexivity.
Qed.

Lemma mapM_err {A B} (f : A -> res B) l e :
  mapM f l = Err e -> exists a, In a l /\ f a = Err e.
Proof.
  induction l as [|a l IH]; [discriminate|].
  rewrite mapM_cons. destruct (f a) as [b|e'] eqn:E; simpl.
  - destruct (mapM f l) eqn:E2; simpl; [discriminate|].
    intros H; injection H as ->. destruct (IH eq_refl) as (x & Hx & Hf).
    exists x; split; [right|]; auto.
  - intros H; injection H as ->. exists a; split; [left|]; auto.
Qed.

Lemma mapM_total {A B} (f : A -> res B) (g : A -> B) l :
  (forall a, In a l -> f a = Ok (g a)) -> mapM f l = Ok (map g l).
Proof.
  induction l as [|a l IH]; intros H; [reflexivity|].
  rewrite mapM_cons, (H a (or_introl eq_refl)); simpl.
  rewrite IH; [reflexivity|]. intros x Hx; apply H; right; auto.
Qed.

Lemma mapM_length {A B} (f : A -> res B) l l' : mapM f l = Ok l' -> length l' = length l.
Proof. intros H; apply mapM_ok in H; symmetry; eapply Forall2_length; eauto. Qed.

Lemma take_ok {A} (l : list A) idx l' :
  take l idx = Ok l' <-> Forall2 (fun i a => nth_error l i = Some a) idx l'.
Proof.
  unfold take. rewrite mapM_ok. unfold take1.
  split; intros H; eapply Forall2_impl; try eassumption;
    intros i a; simpl; destruct (nth_error l i); congruence.
Qed.

Lemma take_nil_idx {A} (l : list A) : take l [] = Ok [].
Proof. reflexivity. Qed.

Lemma take_cons {A} (l : list A) i idx :
  take l (i :: idx) = (a <- take1 l i ;; t <- take l idx ;; Ok (a :: t)).
Proof. reflexivity. Qed.

Lemma take_err {A} (l : list A) idx e :
  take l idx = Err e -> e = IndexError /\ exists i, In i idx /\ length l <= i.
Proof.
  intros H; apply mapM_err in H; destruct H as (i & Hi & H).
  unfold take1 in H. destruct (nth_error l i) eqn:E; [discriminate|].
  injection H as <-. split; auto. exists i; split; auto. apply nth_error_None; auto.
Qed.

Lemma take_total {A} (l : list A) idx :
  Forall (fun i => i < length l) idx -> exists l', take l idx = Ok l'.
Proof.
  intros H. destruct (take l idx) eqn:E; [eauto|].
  apply take_err in E; destruct E as (_ & i & Hi & Hl).
  rewrite Forall_forall in H; apply H in Hi; lia.
Qed.

Lemma take_length {A} (l : list A) idx l' : take l idx = Ok l' -> length l' = length idx.
Proof. apply mapM_length. Qed.

Lemma take_range {A} (l : list A) idx l' :
  take l idx = Ok l' -> Forall (fun i => i < length l) idx.
Proof.
  intros H; apply take_ok in H. induction H; constructor; auto.
  apply nth_error_Some. congruence.
Qed.

Lemma take_default {A} (d : A) l idx :
  Forall (fun i => i < length l) idx -> take l idx = Ok (map (fun i => nth i l d) idx).
Proof.
  intros H. apply mapM_total. intros i Hi. rewrite Forall_forall in H.
  unfold take1. rewrite (nth_error_nth' l d); auto.
Qed.

Lemma take_map {A B} (f : A -> B) l idx l' :
  take l idx = Ok l' -> take (map f l) idx = Ok (map f l').
Proof.
  rewrite !take_ok. induction 1; simpl; constructor; auto.
  rewrite nth_error_map, H; reflexivity.
Qed.

Lemma take_nth {A} (l : list A) idx l' k i :
  take l idx = Ok l' -> nth_error idx k = Some i -> nth_error l' k = nth_error l i.
Proof.
  rewrite take_ok. intros H; revert k; induction H; intros [|k]; simpl; try discriminate.
  - intros E; injection E as ->; auto.
  - auto.
Qed.

Lemma take_seq {A} (l : list A) : take l (seq 0 (length l)) = Ok l.
Proof.
  apply take_ok.
  assert (G : forall p s : list A, Forall2 (fun i a => nth_error (p ++ s) i = Some a)
            (seq (length p) (length s)) s).
  { intros p s; revert p; induction s as [|a s IH]; intros p; simpl; constructor.
    - rewrite nth_error_app2, Nat.sub_diag; auto.
    - specialize (IH (p ++ [a])). rewrite app_length, Nat.add_1_r in IH.
      rewrite <- app_assoc in IH. simpl in IH. exact IH. }
  apply (G []).
Qed.

Lemma take_In {A} (l : list A) idx l' a :
  take l idx = Ok l' -> In a l' -> In a l.
Proof.
  rewrite take_ok. induction 1; simpl; [tauto|].
  intros [->|Ha]; auto. eapply nth_error_In; eauto.
Qed.

(** Masks *)
Lemma mask_select_length {A} m (l : list A) :
  length m = length l -> length (mask_select m l) = length (mask_select m m).
Proof.
  revert l; induction m as [|b m IH]; intros [|a l] H; simpl in *; auto; try discriminate.
  destruct b; simpl; rewrite IH; auto.
Qed.

Lemma nonzero_from_spec m k i :
  In i (nonzero_from k m) <-> k <= i /\ nth_error m (i - k) = Some true.
Proof.
  revert k; induction m as [|b m IH]; intros k; simpl.
  - split; [tauto|]. intros (_ & H). destruct (i - k); discriminate.
  - assert (Hs : forall b', nth_error (b' :: m) (i - k) = (if Nat.eqb i k then Some b'
              else nth_error m (i - S k)) \/ i < k).
    { intros b'. destruct (le_lt_dec k i) as [Hk|Hk]; [left|right; auto].
      destruct (Nat.eqb_spec i k) as [->|Hn]; [rewrite Nat.sub_diag; auto|].
      replace (i - k) with (S (i - S k)) by lia; reflexivity. }
    destruct b; simpl; rewrite ?IH.
    + split.
      * intros [->|(Hk & H)].
        -- split; auto. rewrite Nat.sub_diag; auto.
        -- split; [lia|]. replace (i - k) with (S (i - S k)) by lia; auto.
      * intros (Hk & H). destruct (Hs true) as [E|]; [|lia]. rewrite E in H.
        destruct (Nat.eqb_spec i k); [left; auto|right; split; auto; lia].
    + split.
      * intros (Hk & H). split; [lia|]. replace (i - k) with (S (i - S k)) by lia; auto.
      * intros (Hk & H). destruct (Hs false) as [E|]; [|lia]. rewrite E in H.
        destruct (Nat.eqb_spec i k); [discriminate|split; auto; lia].
Qed.

Lemma nonzero_spec m i : In i (nonzero m) <-> nth_error m i = Some true.
Proof.
  unfold nonzero. rewrite nonzero_from_spec, Nat.sub_0_r. split; [tauto|].
  split; auto; lia.
Qed.

Lemma nonzero_from_filter m k :
  nonzero_from k m = filter (fun i => nth (i - k) m false) (seq k (length m)).
Proof.
  revert k; induction m as [|b m IH]; intros k; simpl; auto.
  rewrite Nat.sub_diag.
  assert (E : filter (fun i => nth (i - S k) m false) (seq (S k) (length m))
            = filter (fun i => match i - k with 0 => b | S n => nth n m false end)
                (seq (S k) (length m))).
  { apply filter_ext_in. intros i Hi. apply in_seq in Hi.
    replace (i - k) with (S (i - S k)) by lia. reflexivity. }
  rewrite IH, E. destruct b; reflexivity.
Qed.

Lemma nonzero_filter m : nonzero m = filter (fun i => nth i m false) (seq 0 (length m)).
Proof.
  unfold nonzero. rewrite nonzero_from_filter. apply filter_ext. intros; rewrite Nat.sub_0_r; auto.
Qed.

Lemma nonzero_from_shift m k : nonzero_from (S k) m = map S (nonzero_from k m).
Proof.
  revert k; induction m as [|b m IH]; intros k; simpl; auto.
  destruct b; simpl; rewrite IH; auto.
Qed.

Lemma nonzero_cons b m : nonzero (b :: m) = (if b then [0] else []) ++ map S (nonzero m).
Proof. unfold nonzero; simpl. rewrite nonzero_from_shift. destruct b; auto. Qed.

Lemma nonzero_range m : Forall (fun i => i < length m) (nonzero m).
Proof.
  apply Forall_forall. intros i Hi. apply nonzero_spec in Hi. apply nth_error_Some. congruence.
Qed.

Lemma nonzero_NoDup m : NoDup (nonzero m).
Proof. rewrite nonzero_filter. apply NoDup_filter, seq_NoDup. Qed.

Lemma mask_select_take {A} m (l : list A) :
  length m = length l -> take l (nonzero m) = Ok (mask_select m l).
Proof.
  revert l; induction m as [|b m IH]; intros [|a l] H; simpl in *; try discriminate; auto.
  rewrite nonzero_cons.
  assert (E : take (a :: l) (map S (nonzero m)) = Ok (mask_select m l)).
  { rewrite <- (IH l) by lia. unfold take, mapM. rewrite map_map.
    f_equal. }
  destruct b; simpl; auto.
  rewrite take_cons; simpl. rewrite E; auto.
Qed.

Lemma mask_select_map {A B} (f : A -> B) m l : mask_select m (map f l) = map f (mask_select m l).
Proof.
  revert l; induction m as [|b m IH]; intros [|a l]; simpl; auto.
  destruct b; simpl; rewrite IH; auto.
Qed.

Lemma count_true_mask m : count_true m = length (mask_select m m).
Proof.
  unfold count_true. induction m as [|b m IH]; auto.
  rewrite nonzero_cons, app_length, map_length, IH. destruct b; auto.
Qed.

Lemma mask_select_count {A} m (l : list A) :
  length m = length l -> length (mask_select m l) = count_true m.
Proof. intros; rewrite count_true_mask; apply mask_select_length; auto. Qed.

Lemma count_true_le m : count_true m <= length m.
Proof.
  rewrite count_true_mask. induction m as [|[|] m IH]; simpl; auto; lia.
Qed.

Lemma any_false_nonzero m : any m = false -> nonzero m = [].
Proof.
  unfold any. induction m as [|b m IH]; auto. rewrite nonzero_cons.
  destruct b; simpl; [discriminate|]. intros H; rewrite IH; auto.
Qed.

Lemma any_true m : any m = true <-> In true m.
Proof.
  unfold any. rewrite existsb_exists. split.
  - intros (x & H & ->); auto.
  - intros H; exists true; auto.
Qed.

Lemma any_false m : any m = false <-> forall i, nth i m false = false.
Proof.
  split.
  - intros H i. destruct (nth i m false) eqn:E; auto.
    assert (In true m) as Hin.
    { rewrite <- E. apply nth_In. destruct (le_lt_dec (length m) i); auto.
      rewrite nth_overflow in E; [discriminate|auto]. }
    apply any_true in Hin; congruence.
  - intros H. destruct (any m) eqn:E; auto. apply any_true in E.
    apply In_nth with (d := false) in E. destruct E as (n & _ & E). rewrite H in E; discriminate.
Qed.

(** Masked assignment *)
Lemma put_mask_length {A} m (base vals : list A) : length (put_mask m base vals) = length base.
Proof.
  revert base vals; induction m as [|b m IH]; intros [|x base] vals; simpl; auto.
  destruct b; [destruct vals|]; simpl; rewrite IH; auto.
Qed.

Lemma put_mask_select {A} m (base vals : list A) :
  length m = length base -> length vals = count_true m ->
  mask_select m (put_mask m base vals) = vals.
Proof.
  rewrite count_true_mask.
  revert base vals; induction m as [|b m IH]; intros [|x base] vals; simpl; try discriminate.
  - destruct vals; simpl; auto; discriminate.
  - intros H1 H2. destruct b; [destruct vals; [discriminate|]|]; simpl in *; rewrite ?IH; auto.
Qed.

Lemma put_mask_other {A} m (base vals : list A) i :
  nth_error m i <> Some true -> nth_error (put_mask m base vals) i = nth_error base i.
Proof.
  revert base vals i; induction m as [|b m IH]; intros [|x base] vals i; simpl; auto.
  destruct b.
  - destruct i; simpl; [congruence|]. intros H. destruct vals; simpl; apply IH; auto.
  - destruct i; simpl; auto.
Qed.

Lemma put_mask_map2 {A B} (f : A -> B) m base vals :
  map f (put_mask m base vals) = put_mask m (map f base) (map f vals).
Proof.
  revert base vals; induction m as [|b m IH]; intros [|x base] vals; simpl; auto.
  destruct b; [destruct vals|]; simpl; rewrite IH; auto.
Qed.

(** Putting the image of the selected entries is a pointwise [if]. *)
Lemma put_mask_pointwise {A B} (c : A -> bool) (f : A -> B) (g : A -> B) (l : list A) :
  put_mask (map c l) (map g l) (map f (mask_select (map c l) l))
  = map (fun a => if c a then f a else g a) l.
Proof.
  induction l as [|a l IH]; simpl; auto.
  destruct (c a); simpl; rewrite IH; auto.
Qed.

Lemma fill_mask_pointwise {A B} (c : A -> bool) (g : A -> B) v (l : list A) :
  fill_mask (map c l) (map g l) v = map (fun a => if c a then v else g a) l.
Proof. induction l as [|a l IH]; simpl; auto. rewrite IH; auto. Qed.

Lemma mask_select_filter {A} (c : A -> bool) l : mask_select (map c l) l = filter c l.
Proof. induction l as [|a l IH]; simpl; auto. destruct (c a); rewrite IH; auto. Qed.

(** map2, map3 *)
Lemma map2_length {A B C} (f : A -> B -> C) l k :
  length l = length k -> length (map2 f l k) = length l.
Proof. revert k; induction l; intros [|b k]; simpl; auto; try discriminate. Qed.

Lemma map2_nth_error {A B C} (f : A -> B -> C) l k i :
  nth_error (map2 f l k) i =
  match nth_error l i, nth_error k i with Some a, Some b => Some (f a b) | _, _ => None end.
Proof.
  revert k i; induction l as [|a l IH]; intros [|b k] [|i]; simpl; auto.
  - destruct (nth_error l i); auto.
Qed.

Lemma map2_map {A B C D} (f : B -> C -> D) (g : A -> B) (h : A -> C) l :
  map2 f (map g l) (map h l) = map (fun a => f (g a) (h a)) l.
Proof. induction l; simpl; congruence. Qed.

Lemma map2_map_l {A A' B C} (f : A' -> B -> C) (g : A -> A') l k :
  map2 f (map g l) k = map2 (fun a b => f (g a) b) l k.
Proof. revert k; induction l; intros [|b k]; simpl; congruence. Qed.

Lemma map2_map_r {A B B' C} (f : A -> B' -> C) (g : B -> B') l k :
  map2 f l (map g k) = map2 (fun a b => f a (g b)) l k.
Proof. revert k; induction l; intros [|b k]; simpl; congruence. Qed.

Lemma map_map2 {A B C D} (g : C -> D) (f : A -> B -> C) l k :
  map g (map2 f l k) = map2 (fun a b => g (f a b)) l k.
Proof. revert k; induction l; intros [|b k]; simpl; congruence. Qed.

Lemma map2_combine {A B C} (f : A -> B -> C) l k :
  map2 f l k = map (fun ab => f (fst ab) (snd ab)) (combine l k).
Proof. revert k; induction l; intros [|b k]; simpl; congruence. Qed.

(** set_nth *)
Lemma set_nth_length {A} i (v : A) l : length (set_nth i v l) = length l.
Proof. revert i; induction l; intros [|i]; simpl; auto. Qed.

Lemma set_nth_same {A} i (v : A) l : i < length l -> nth_error (set_nth i v l) i = Some v.
Proof. revert i; induction l; intros [|i]; simpl; intros; auto; try lia. apply IHl; lia. Qed.

Lemma set_nth_other {A} i j (v : A) l : i <> j -> nth_error (set_nth i v l) j = nth_error l j.
Proof.
  revert i j; induction l; intros [|i] [|j]; simpl; intros; auto; try lia.
Qed.

Lemma set_nth_id {A} i (v : A) l : nth_error l i = Some v -> set_nth i v l = l.
Proof.
  revert i; induction l; intros [|i]; simpl; intros H; auto; try discriminate.
  - congruence.
  - rewrite IHl; auto.
Qed.

(** delete_idx *)
Lemma delete_idx_spec n sel i : In i (delete_idx n sel) <-> i < n /\ ~ In i sel.
Proof.
  unfold delete_idx. rewrite filter_In, in_seq, negb_true_iff.
  assert (existsb (Nat.eqb i) sel = false <-> ~ In i sel) as ->.
  { rewrite <- not_true_iff_false, existsb_exists. split.
    - intros H Hi. apply H. exists i; split; auto. apply Nat.eqb_refl.
    - intros H (x & Hx & E). apply Nat.eqb_eq in E; subst; auto. }
  intuition lia.
Qed.

Lemma delete_idx_range n sel : Forall (fun i => i < n) (delete_idx n sel).
Proof. apply Forall_forall; intros i Hi; apply delete_idx_spec in Hi; tauto. Qed.

Lemma delete_idx_NoDup n sel : NoDup (delete_idx n sel).
Proof. apply NoDup_filter, seq_NoDup. Qed.

Lemma delete_idx_nonzero m :
  delete_idx (length m) (nonzero m) = nonzero (map negb m).
Proof.
  unfold delete_idx. rewrite (nonzero_filter (map negb m)), map_length.
  apply filter_ext_in. intros i Hi. apply in_seq in Hi.
  destruct (nth_error m i) as [b|] eqn:E.
  - erewrite nth_error_nth; [|rewrite nth_error_map, E; reflexivity]. f_equal.
    destruct b.
    + apply existsb_exists. exists i. rewrite nonzero_spec, Nat.eqb_refl; auto.
    + apply not_true_iff_false. rewrite existsb_exists. intros (x & Hx & Ex).
      apply Nat.eqb_eq in Ex; subst. apply nonzero_spec in Hx. congruence.
  - apply nth_error_None in E; lia.
Qed.

Lemma Forall2_eq {A} (l k : list A) : Forall2 eq l k <-> l = k.
Proof.
  split; [induction 1; congruence|intros ->; induction k; auto].
Qed.

Lemma Forall2_nth {A B} (P : A -> B -> Prop) l k :
  Forall2 P l k <-> length l = length k /\
    forall i a b, nth_error l i = Some a -> nth_error k i = Some b -> P a b.
Proof.
  split.
  - induction 1; simpl; split; auto.
    + intros [|i]; discriminate.
    + destruct IHForall2; auto.
    + intros [|i] a b; simpl; [congruence|]. destruct IHForall2 as (_ & IH); apply IH.
  - revert k; induction l as [|a l IH]; intros [|b k] (Hl & H); simpl in *; try discriminate; auto.
    constructor; [apply (H 0); auto|]. apply IH; split; auto. intros i; apply (H (S i)).
Qed.

Lemma Forall2_fun {A B} (P : A -> B -> Prop) l k k' :
  (forall a b b', P a b -> P a b' -> b = b') -> Forall2 P l k -> Forall2 P l k' -> k = k'.
Proof.
  intros HP H; revert k'; induction H; intros k' H'; inversion H'; subst; auto.
  f_equal; eauto.
Qed.
