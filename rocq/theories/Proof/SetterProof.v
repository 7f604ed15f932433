(** Getters and setters of ray bundles. *)
From Coq Require Import Reals String List Arith Bool Lia.
From Verif.Base Require Import Py Num Vec.
From Verif.Model Require Import RayBundle.
From Verif.Spec Require Import BundleSpec.
From Verif.Proof Require Import ListLemmas BundleProof.
Import ListNotations.

Lemma assign_sel_ok {A} (l : list A) sel vals l' : assign_sel l sel vals = Ok l' -> sel_ok sel (length l).
Proof.
  destruct sel as [|idx|m]; simpl; auto.
  - revert l vals. induction idx as [|i idx IH]; intros l vals H j Hj; [destruct Hj|].
    simpl in H. destruct vals as [|v vals]; [discriminate|].
    destruct (Nat.ltb_spec i (length l)); [|discriminate]. destruct Hj as [->|Hj]; auto.
    specialize (IH _ _ H j Hj). rewrite set_nth_length in IH. auto.
  - unfold same_len. destruct (Nat.eqb_spec (length m) (length l)); [auto|discriminate].
Qed.

Lemma positions_mask m n : length m = n -> length (positions (SMask m) n) = count_true m.
Proof.
  intros <-. simpl. rewrite <- nonzero_filter.
  pose proof (mask_select_take m m eq_refl) as H. apply take_length in H. rewrite <- H.
  symmetry. apply count_true_mask.
Qed.

Lemma assign_sel_err {A} (l : list A) sel vals e : assign_sel l sel vals = Err e ->
  ~ sel_ok sel (length l) \/ length vals <> length (positions sel (length l)).
Proof.
  destruct sel as [|idx|m]; intros H.
  - simpl in *. rewrite seq_length. unfold same_len in H. destruct (Nat.eqb_spec (length vals) (length l)); [discriminate|auto].
  - simpl in *. revert l vals H. induction idx as [|i idx IH]; intros l vals H; destruct vals as [|v vals]; simpl in *;
      try discriminate; auto.
    destruct (Nat.ltb_spec i (length l)); [|left; intros F; specialize (F i (or_introl eq_refl)); lia].
    apply IH in H. rewrite set_nth_length in H. destruct H as [H|H]; [left; auto|right; lia].
  - destruct (Nat.eq_dec (length m) (length l)) as [E|E]; [right|left; auto].
    rewrite positions_mask by auto. simpl in H. unfold same_len in H. rewrite E, Nat.eqb_refl in H.
    destruct (Nat.eqb_spec (length vals) (count_true m)); [discriminate|auto].
Qed.

Lemma select_ok {A} sel (l l' : list A) : select sel l = Ok l' ->
  sel_ok sel (length l) /\ picks l (positions sel (length l)) l'.
Proof.
  destruct sel as [|idx|m]; simpl; intros H.
  - injection H as <-. split; auto. apply picks_seq.
  - apply take_ok in H. split; auto. intros i Hi. unfold picks in H.
    apply In_nth_error in Hi. destruct Hi as (k & Hk).
    pose proof (Forall2_length _ _ _ H) as L.
    assert (k < length idx) by (apply nth_error_Some; congruence).
    destruct (nth_error l' k) as [a|] eqn:E; [|apply nth_error_None in E; lia].
    apply Forall2_nth in H. destruct H as (_ & H). specialize (H k i a Hk E).
    apply nth_error_Some. congruence.
  - unfold same_len in H. destruct (Nat.eqb_spec (length m) (length l)) as [E|]; [|discriminate].
    injection H as <-. split; auto. rewrite <- E, <- nonzero_filter. apply take_ok.
    rewrite mask_select_take by auto. auto.
Qed.

Lemma select_err {A} sel (l : list A) e : select sel l = Err e -> ~ sel_ok sel (length l).
Proof.
  destruct sel as [|idx|m]; simpl; intros H F; try discriminate.
  - assert (T : exists l', take l idx = Ok l').
    { clear H. induction idx as [|i idx IH]; [exists []; reflexivity|].
      destruct IH as (l' & E); [intros j Hj; apply F; simpl; auto|].
      assert (Hi : i < length l) by (apply F; simpl; auto).
      destruct (nth_error l i) as [a|] eqn:Ei; [|apply nth_error_None in Ei; lia].
      exists (a :: l'). apply take_ok. constructor; auto. apply take_ok; auto. }
    destruct T as (l' & T). congruence.
  - unfold same_len in H. rewrite F, Nat.eqb_refl in H. discriminate.
Qed.

Lemma get_prop_reads {A} (f : A -> pval) (own : option (list A)) b p sel :
  prop b p = option_map (map f) own -> reads f b p sel (get_prop own sel).
Proof.
  intros E. unfold reads, get_prop. destruct own as [l|]; simpl in E.
  - destruct (select sel l) as [vals|e] eqn:H.
    + apply select_ok in H. destruct H as (O & P). exists (map f l). rewrite map_length. split; auto. split; auto.
      apply picks_map; auto.
    + apply select_err in H. intros l' E'. rewrite E in E'. injection E' as <-. rewrite map_length. auto.
  - intros l' E'. congruence.
Qed.

Lemma set_prop_writes {A} (f : A -> pval) (own : option (list A)) b p sel vals (upd : option (list A) -> bundle) :
  nodup_sel sel -> prop b p = option_map (map f) own ->
  (forall o, prop (upd o) p = option_map (map f) o) ->
  (forall o q, q <> p -> prop (upd o) q = prop b q) ->
  writes b p sel (map f vals) (o <- set_prop_sel own sel vals ;; Ok (upd o)).
Proof.
  intros Hd E U O. unfold writes. destruct (set_prop_sel own sel vals) as [o|e] eqn:H; cbn [bind].
  - split; [|auto]. pose proof H as H'. apply (set_prop_sel_spec f) in H; auto.
    destruct H as (l & l' & E1 & E2 & P & L & Rst). exists l, l'. rewrite U, E. repeat split; auto.
    unfold set_prop_sel in H'. destruct own as [k|]; [|discriminate].
    destruct (assign_sel k sel vals) as [k'|] eqn:Hk; [|discriminate].
    apply assign_sel_ok in Hk. simpl in E1. injection E1 as <-. rewrite map_length. auto.
  - intros l El. unfold set_prop_sel in H. destruct own as [k|]; simpl in E; [|congruence].
    destruct (assign_sel k sel vals) as [k'|] eqn:Hk; [discriminate|].
    apply assign_sel_err in Hk. rewrite E in El. injection El as <-. rewrite !map_length. auto.
Qed.

Lemma lookup_replace {A} name (v : A) l n : lookup name l <> None ->
  lookup n (replace name v l) = if String.eqb name n then Some v else lookup n l.
Proof.
  induction l as [|[m x] l IH]; simpl; [congruence|]. intros H.
  destruct (String.eqb_spec m name) as [->|N]; simpl.
  - destruct (String.eqb_spec name n); auto.
  - destruct (String.eqb_spec m n) as [->|N'].
    + destruct (String.eqb_spec name n); [congruence|auto].
    + apply IH; auto.
Qed.

Lemma setters_top sel b : nodup_sel sel ->
  (forall v, writes b Vertices sel (map PVec v) (set_vertices_sel v sel b)) /\
  (forall v, writes b Directions sel (map PVec v) (set_directions_sel v sel b)) /\
  (forall v, writes b Energy sel (map PReal v) (set_energy_sel v sel b)) /\
  (forall v, writes b Parents sel (map PNat v) (set_parents_sel v sel b)) /\
  (forall v, writes b RefIndex sel (map PReal v) (set_ref_index_sel v sel b)) /\
  (forall name v, writes b (Extra name) sel (map PCell v) (set_named_sel name v sel b)).
Proof.
  intros Hd. split; [|split; [|split; [|split; [|split]]]]; intros.
  1-5: apply set_prop_writes; auto; intros o q N; destruct q; auto; congruence.
  unfold set_named_sel. destruct (lookup name (b_extra b)) as [p|] eqn:E.
  - apply (set_prop_writes PCell p b (Extra name) sel v (fun o => with_extra name o b)); auto.
    + simpl. rewrite E. destruct p; auto.
    + intros o. simpl. rewrite lookup_replace by congruence. rewrite String.eqb_refl. destruct o; auto.
    + intros o q N. destruct q; auto. simpl. rewrite lookup_replace by congruence.
      destruct (String.eqb_spec name name0); [congruence|auto].
  - intros l El. simpl in El. rewrite E in El. discriminate.
Qed.

Lemma getters_top sel b :
  reads PVec b Vertices sel (get_prop (b_vert b) sel) /\
  reads PVec b Directions sel (get_prop (b_dir b) sel) /\
  reads PReal b Energy sel (get_prop (b_energy b) sel) /\
  reads PNat b Parents sel (get_prop (b_parents b) sel) /\
  reads PReal b RefIndex sel (get_prop (b_ref b) sel) /\
  (forall name, reads PCell b (Extra name) sel (get_named name b sel)).
Proof.
  split; [|split; [|split; [|split; [|split]]]]; intros; try (apply get_prop_reads; reflexivity).
  unfold get_named. destruct (lookup name (b_extra b)) as [p|] eqn:E.
  - apply get_prop_reads. simpl. rewrite E. destruct p; auto.
  - intros l El. simpl in El. rewrite E in El. discriminate.
Qed.

Lemma set_named_top name vals b : 
  match set_named name vals b with
  | Ok b' => prop b' (Extra name) = Some (map PCell vals) /\ forall q, q <> Extra name -> prop b' q = prop b q
  | Err e => e = AttributeError /\ prop b (Extra name) = None
  end.
Proof.
  unfold set_named. destruct (lookup name (b_extra b)) as [p|] eqn:E.
  - split.
    + simpl. rewrite lookup_replace by congruence. rewrite String.eqb_refl. auto.
    + intros q N. destruct q; auto. simpl. rewrite lookup_replace by congruence.
      destruct (String.eqb_spec name name0); [congruence|auto].
  - split; auto. simpl. rewrite E. auto.
Qed.

Lemma lookup_known {A} name (l : list (string * A)) : In name (map fst l) -> exists v, lookup name l = Some v.
Proof.
  induction l as [|[m v] l IH]; simpl; [tauto|]. destruct (String.eqb_spec m name); [eauto|]. intros [->|I]; [congruence|auto].
Qed.

Lemma missing_top b name sel vals :
  (~ In name (map fst (b_extra b)) -> get_named name b sel = Err AttributeError /\
     set_named name vals b = Err AttributeError /\ set_named_sel name vals sel b = Err AttributeError) /\
  (In name (map fst (b_extra b)) -> exists b', set_named name vals b = Ok b') /\
  (In name (map fst (b_extra b)) -> prop b (Extra name) = None ->
     get_named name b sel = Err KeyError /\ set_named_sel name vals sel b = Err KeyError).
Proof.
  unfold get_named, set_named, set_named_sel. split; [|split].
  - intros N. rewrite BundleProof.lookup_not_in by auto. auto.
  - intros I. apply lookup_known in I as (v & ->). eauto.
  - intros I. apply lookup_known in I as (v & E). simpl. rewrite E. destruct v; [discriminate|]. auto.
Qed.

Lemma unset_top b sel :
  (prop b Vertices = None -> get_prop (b_vert b) sel = Err KeyError /\ get_vertices b = Err KeyError /\
     (forall v, set_vertices_sel v sel b = Err KeyError) /\ get_num_rays b = Err AttributeError) /\
  (prop b Directions = None -> get_prop (b_dir b) sel = Err KeyError /\ get_directions b = Err KeyError /\
     forall v, set_directions_sel v sel b = Err KeyError) /\
  (prop b Energy = None -> get_prop (b_energy b) sel = Err KeyError /\ get_energy b = Err KeyError /\
     forall v, set_energy_sel v sel b = Err KeyError) /\
  (prop b Parents = None -> get_prop (b_parents b) sel = Err KeyError /\ get_parents b = Err KeyError /\
     forall v, set_parents_sel v sel b = Err KeyError) /\
  (prop b RefIndex = None -> get_prop (b_ref b) sel = Err KeyError /\ get_ref_index b = Err KeyError /\
     forall v, set_ref_index_sel v sel b = Err KeyError).
Proof.
  destruct b as [v d e p n x]. cbn. repeat split; intros;
  match goal with H : option_map _ ?o = None |- _ => destruct o; [discriminate|reflexivity] end.
Qed.

Lemma has_property_top b p : (prop b p <> None -> has_property (property_name p) b = true) /\
  (has_property (property_name p) b = true ->
     match p with Extra n => In n (map fst (b_extra b)) \/
         exists q, (forall m, q <> Extra m) /\ property_name q = n
     | _ => True end).
Proof.
  split.
  - destruct p; simpl; auto. intros H. unfold has_property.
    destruct (lookup name (b_extra b)) as [[]|]; try congruence. apply orb_true_r.
  - destruct p; auto. simpl. unfold has_property. intros H. apply orb_true_iff in H. destruct H as [H|H].
    + right. apply existsb_exists in H. destruct H as (s & Hs & E). apply String.eqb_eq in E. subst s.
      simpl in Hs.
      destruct Hs as [<-|[<-|[<-|[<-|[<-|[]]]]]];
        [exists Vertices|exists Directions|exists Energy|exists Parents|exists RefIndex]; split; auto; discriminate.
    + left. destruct (lookup name (b_extra b)) eqn:E; [|discriminate]. clear H.
      induction (b_extra b) as [|[m x] l IH]; simpl in *; [discriminate|].
      destruct (String.eqb_spec m name); auto.
Qed.
