(** The tree of an assembly. *)
From Coq Require Import String List Arith Bool DecimalString Lia Permutation.
From Verif.Base Require Import Py.
From Verif.Model Require Import AssemblyTree.
From Verif.Spec Require Import AssemblyTreeSpec.
Import ListNotations.
Local Open Scope list_scope.

Section PartsInd.
Variable P : parts -> Prop.
Hypothesis H : forall subs objs, Forall (fun q => P (snd q)) subs -> P (Parts subs objs).
Fixpoint parts_ind' (p : parts) : P p :=
  match p with
  | Parts subs objs => H subs objs
      ((fix go (l : list (nat * parts)) : Forall (fun q => P (snd q)) l :=
          match l with [] => Forall_nil _ | q :: r => Forall_cons _ (parts_ind' (snd q)) (go r) end) subs)
  end.
End PartsInd.

(** ** Tags *)
Lemma lookup_store k v d k' : lookup k' (store k v d) = if String.eqb k k' then Some v else lookup k' d.
Proof.
  induction d as [|(x, y) d IH]; simpl; [reflexivity|]. destruct (String.eqb_spec x k) as [->|Hx]; simpl.
  - destruct (String.eqb k k'); reflexivity.
  - rewrite IH. destruct (String.eqb_spec x k') as [->|]; [|reflexivity]. destruct (String.eqb_spec k k'); congruence.
Qed.
Lemma get_caption t x : get_tag t x "caption" = caption t x.
Proof. reflexivity. Qed.
Lemma caption_set t x c y : caption (set_tag t x "caption" c) y = if Nat.eqb y x then Some c else caption t y.
Proof.
  unfold caption, set_tag, set_at. destruct (t x) as [d|] eqn:E; destruct (Nat.eqb_spec y x) as [->|]; try reflexivity.
  rewrite lookup_store. reflexivity.
Qed.
Lemma other_set t x c : other_tags_same t (set_tag t x "caption" c).
Proof.
  intros y name Hn. unfold set_tag, set_at. destruct (t x) as [d|] eqn:E; destruct (Nat.eqb_spec y x) as [->|]; try reflexivity.
  - rewrite lookup_store, E. destruct (String.eqb_spec "caption" name); congruence.
  - rewrite lookup_store, E. destruct (String.eqb_spec "caption" name); [congruence|reflexivity].
Qed.
Lemma other_trans a b c : other_tags_same a b -> other_tags_same b c -> other_tags_same a c.
Proof. intros H1 H2 x n Hn. rewrite H2, H1; auto. Qed.

Definition visit (t : tags) (q : nat * string) : tags :=
  match caption t (fst q) with Some _ => t | None => set_tag t (fst q) "caption" (snd q) end.

Lemma visit_keeps t q x c : caption t x = Some c -> caption (visit t q) x = Some c.
Proof.
  intros H. unfold visit. destruct (caption t (fst q)) eqn:E; auto. rewrite caption_set.
  destruct (Nat.eqb_spec x (fst q)); [subst; congruence|auto].
Qed.
Lemma visits_keep l : forall t x c, caption t x = Some c -> caption (fold_left visit l t) x = Some c.
Proof. induction l as [|q l IH]; intros t x c H; simpl; auto. apply IH, visit_keeps, H. Qed.
Lemma visits_other l : forall t, other_tags_same t (fold_left visit l t).
Proof.
  induction l as [|q l IH]; intros t; simpl; [intros x n Hn; reflexivity|]. eapply other_trans; [|apply IH].
  unfold visit. destruct (caption t (fst q)); [intros x n Hn; reflexivity|apply other_set].
Qed.
Lemma visits_none l : forall t x, caption t x = None -> ~ In x (map fst l) -> caption (fold_left visit l t) x = None.
Proof.
  induction l as [|q l IH]; intros t x H Hn; simpl; auto. simpl in Hn. apply IH; [|tauto].
  unfold visit. destruct (caption t (fst q)); auto. rewrite caption_set. destruct (Nat.eqb_spec x (fst q)); [subst; tauto|auto].
Qed.
Lemma visits_first l t x c : caption t x = None -> first_for l x c -> caption (fold_left visit l t) x = Some c.
Proof.
  intros H (l1 & l2 & -> & Hn). rewrite fold_left_app. simpl. apply visits_keep.
  pose proof (visits_none l1 t x H Hn) as N. set (t1 := fold_left visit l1 t) in *. unfold visit. cbn [fst snd].
  rewrite N, caption_set, Nat.eqb_refl. reflexivity.
Qed.
Lemma visits_all l : forall t x, In x (map fst l) -> exists c, caption (fold_left visit l t) x = Some c.
Proof.
  induction l as [|q l IH]; intros t x Hi; [destruct Hi|]. simpl. destruct Hi as [<-|Hi]; auto.
  destruct (caption (visit t q) (fst q)) as [c|] eqn:E; [exists c; apply visits_keep, E|]. exfalso. revert E. unfold visit.
  destruct (caption t (fst q)) eqn:E; [congruence|]. rewrite caption_set, Nat.eqb_refl. discriminate.
Qed.

(** ** Numbers of items *)
Definition fresh (a b : nat) (l : list nat) : Prop := NoDup l /\ forall i, In i l -> a <= i < b.
Lemma fresh_app a b c l l' : fresh a b l -> fresh b c l' -> a <= b <= c -> fresh a c (l ++ l').
Proof.
  intros (N & H) (N' & H') B. split.
  - induction l as [|x l IH]; simpl; auto. apply NoDup_cons_iff in N as (Nx & N). constructor.
    + rewrite in_app_iff. intros [Hi|Hi]; [auto|]. specialize (H x (or_introl eq_refl)). specialize (H' x Hi). lia.
    + apply IH; auto. intros i Hi. apply H. right; auto.
  - intros i Hi. apply in_app_iff in Hi as [Hi|Hi]; [specialize (H i Hi)|specialize (H' i Hi)]; lia.
Qed.
Lemma fresh_cons a b l : fresh (S a) b l -> a < b -> fresh a b (a :: l).
Proof.
  intros (N & H) B. split.
  - constructor; auto. intros Hi. specialize (H a Hi). lia.
  - intros i [<-|Hi]; [lia|]. specialize (H i Hi). lia.
Qed.
Lemma fresh_perm a b l l' : Permutation l l' -> fresh a b l -> fresh a b l'.
Proof. intros P (N & H). split; [apply (Permutation_NoDup P N)|]. intros i Hi. apply H, (Permutation_in _ (Permutation_sym P) Hi). Qed.
Lemma fresh_nil a b : fresh a b [].
Proof. split; [constructor|intros i []]. Qed.

Definition who (it : item) : option nat := match it with Item _ _ x _ => x end.
Definition nodes (its : list item) : list item := flat_map all_items its.
Definition ids (its : list item) : list nat := map item_id (nodes its).

Definition agrees (cap : nat -> string) (t : tags) : Prop := forall x c, caption t x = Some c -> cap x = c.

Record fills (s s' : filling) (l : list (nat * string)) (its : list item) (pics : (nat -> string) -> list picture) : Prop := {
  fl_tags : f_tags s' = fold_left visit l (f_tags s);
  fl_pics : forall cap, agrees cap (f_tags s') -> map picture_of its = pics cap;
  fl_made : f_made s <= f_made s';
  fl_ids : fresh (f_made s) (f_made s') (ids its);
  fl_conn : exists cs, f_connected s' = f_connected s ++ cs /\ fresh (f_made s) (f_made s') (map fst cs) /\
    forall i x, In (i, x) cs <-> exists it, In it (nodes its) /\ item_id it = i /\ who it = Some x }.

Lemma agrees_before cap t l : agrees cap (fold_left visit l t) -> agrees cap t.
Proof. intros H x c E. apply H. apply visits_keep, E. Qed.

Lemma fills_nil s : fills s s [] [] (fun _ => []).
Proof.
  constructor; auto; [apply fresh_nil|]. exists []. split; [rewrite app_nil_r; auto|]. split; [apply fresh_nil|].
  intros i x. simpl. split; [tauto|]. intros (it & Hi & _). exact Hi.
Qed.

(** A part with what is under it, and what follows. *)
Lemma fills_cons x kind n s c s0 i s1 s2 s3 lk kids pk lr rest pr :
  caption_for x kind n s = (c, s0) -> new_item x s0 = (i, s1) ->
  fills s1 s2 lk kids pk -> fills s2 s3 lr rest pr ->
  fills s s3 ((x, (kind ++ " " ++ number n)%string) :: lk ++ lr) (Item i c (Some x) kids :: rest)
    (fun cap => Pic (cap x) (Some x) (pk cap) :: pr cap).
Proof.
  intros E0 E1 K R. set (d := (kind ++ " " ++ number n)%string).
  assert (H0 : f_tags s1 = visit (f_tags s) (x, d) /\ caption (f_tags s1) x = Some c /\ i = f_made s /\ f_made s1 = S (f_made s) /\
    f_connected s1 = f_connected s ++ [(f_made s, x)]).
  { revert E0. unfold caption_for, visit. rewrite get_caption. cbn [fst snd]. fold d. destruct (caption (f_tags s) x) as [c'|] eqn:C; intros E0; injection E0 as <- <-.
    - unfold new_item in E1. assert (f_tags s x <> None) by (unfold caption in C; destruct (f_tags s x); congruence).
      destruct (f_tags s x) eqn:Ex; [|congruence]. injection E1 as <- <-. cbn [f_tags f_made f_connected]. auto.
    - unfold new_item in E1. cbn [f_tags f_made f_connected] in E1. 
      assert (Hc : caption (set_tag (f_tags s) x "caption" d) x = Some d) by (rewrite caption_set, Nat.eqb_refl; auto).
      assert (set_tag (f_tags s) x "caption" d x <> None) by (unfold caption in Hc; destruct (set_tag (f_tags s) x "caption" d x); congruence).
      destruct (set_tag (f_tags s) x "caption" d x) eqn:Ex; [|congruence]. injection E1 as <- <-. cbn [f_tags f_made f_connected].
      split; auto. }
  clear E0 E1. destruct H0 as (T1 & C1 & -> & M1 & N1).
  destruct K as [KT KP KM KI (kc & KC & KF & KW)]. destruct R as [RT RP RM RI (rc & RC & RF & RW)].
  assert (En : nodes (Item (f_made s) c (Some x) kids :: rest) = Item (f_made s) c (Some x) kids :: nodes kids ++ nodes rest) by reflexivity.
  constructor.
  - simpl. rewrite fold_left_app, <- T1, <- KT. exact RT.
  - intros cap A. cbn [map picture_of]. rewrite (RP cap A). f_equal.
    assert (A2 : agrees cap (f_tags s2)) by (rewrite RT in A; apply agrees_before in A; exact A).
    rewrite (KP cap A2). f_equal. symmetry. rewrite KT in A2. apply agrees_before in A2. apply A2. exact C1.
  - lia.
  - unfold ids. rewrite En. cbn [map item_id]. rewrite map_app. apply fresh_cons; [|lia]. apply fresh_app with (b := f_made s2); [|exact RI|lia].
    rewrite <- M1. exact KI.
  - exists ((f_made s, x) :: kc ++ rc). split; [rewrite RC, KC, N1, <- !app_assoc; reflexivity|]. split.
    + simpl. rewrite map_app. apply fresh_cons; [|lia]. apply fresh_app with (b := f_made s2); [|exact RF|lia]. rewrite <- M1. exact KF.
    + intros j y. rewrite En. split.
      * intros [H|H]; [injection H as <- <-; eexists; split; [left; reflexivity|split; reflexivity]|].
        apply in_app_iff in H as [H|H]; [apply KW in H as (it & Hi & Hj)|apply RW in H as (it & Hi & Hj)];
          exists it; (split; [right; apply in_app_iff; auto|exact Hj]).
      * intros (it & [<-|Hi] & Hj & Hw); [cbn [item_id who] in *; left; congruence|]. right. apply in_app_iff.
        apply in_app_iff in Hi as [Hi|Hi]; [left; apply KW|right; apply RW]; eauto.
Qed.

Definition pos_from {A : Type} (kind : string) (k : nat) (l : list A) : list (A * string) :=
  map (fun q => (snd q, (kind ++ " " ++ NilEmpty.string_of_uint (Nat.to_uint (fst q)))%string)) (combine (seq k (length l)) l).

Lemma surfaces_fill surfs : forall six s its s', add_surfaces six surfs s = (its, s') ->
  fills s s' (pos_from "Surface" six surfs) its (fun cap => map (fun x => Pic (cap x) (Some x) []) surfs).
Proof.
  induction surfs as [|x surfs IH]; intros six s its s' E; cbn [add_surfaces] in E.
  - injection E as <- <-. apply fills_nil.
  - destruct (caption_for x "Surface" six s) as (c, s0) eqn:E0. destruct (new_item x s0) as (i, s1) eqn:E1.
    destruct (add_surfaces (S six) surfs s1) as (rest, s2) eqn:E2. injection E as <- <-.
    exact (fills_cons x "Surface" six s c s0 i s1 s1 s2 [] [] _ _ rest _ E0 E1 (fills_nil s1) (IH _ _ _ _ E2)).
Qed.

Definition object_members (q : nat * list nat * string) : list (nat * string) := (fst (fst q), snd q) :: positioned "Surface" (snd (fst q)).

Lemma objects_fill objs : forall oix s its s', add_objects oix objs s = (its, s') ->
  fills s s' (flat_map object_members (pos_from "Object" oix objs)) its (fun cap => map (object_picture cap) objs).
Proof.
  induction objs as [|(x, surfs) objs IH]; intros oix s its s' E; cbn [add_objects] in E.
  - injection E as <- <-. apply fills_nil.
  - destruct (caption_for x "Object" oix s) as (c, s0) eqn:E0. destruct (new_item x s0) as (i, s1) eqn:E1.
    destruct (add_surfaces 0 surfs s1) as (kids, s2) eqn:E2. destruct (add_objects (S oix) objs s2) as (rest, s3) eqn:E3. injection E as <- <-.
    exact (fills_cons x "Object" oix s c s0 i s1 s2 s3 _ kids _ _ rest _ E0 E1 (surfaces_fill _ _ _ _ _ E2) (IH _ _ _ _ E3)).
Qed.

Definition sub_members (q : nat * list (nat * string) * string) : list (nat * string) := (fst (fst q), snd q) :: snd (fst q).

Lemma parts_fill p : forall s its s', add_subassembly p s = (its, s') -> fills s s' (members p) its (fun cap => parts_picture cap p).
Proof.
  induction p as [subs objs IH] using parts_ind'. intros s its s' E. cbn [add_subassembly] in E.
  match type of E with context [(?f 0 subs _)] => set (loop := f) in E end.
  assert (L : forall l, Forall (fun q => forall s its s', add_subassembly (snd q) s = (its, s') -> fills s s' (members (snd q)) its (fun cap => parts_picture cap (snd q))) l ->
    forall six s its s', loop six l s = (its, s') ->
    fills s s' (concat (map sub_members (pos_from "Assembly" six (map (fun q => (fst q, members (snd q))) l)))) its
      (fun cap => map (fun q => Pic (cap (fst q)) (Some (fst q)) (parts_picture cap (snd q))) l)).
  { clear E its s' s. intros l Hl. induction Hl as [|(x, q) l Hq Hl IHl]; intros six s its s' E; cbn [loop] in E.
    - injection E as <- <-. apply fills_nil.
    - fold loop in E. destruct (caption_for x "Assembly" six s) as (c, s0) eqn:E0. destruct (new_item x s0) as (i, s1) eqn:E1.
      destruct (add_subassembly q s1) as (kids, s2) eqn:E2. destruct (loop (S six) l s2) as (rest, s3) eqn:E3. injection E as <- <-.
      exact (fills_cons x "Assembly" six s c s0 i s1 s2 s3 _ kids _ _ rest _ E0 E1 (Hq _ _ _ E2) (IHl _ _ _ _ E3)). }
  specialize (L subs IH 0). clearbody loop. clear IH.
  destruct (match subs with [] => (None, s) | _ :: _ => let '(i, s0) := category s in (Some i, s0) end) as (sc, s1) eqn:E1.
  destruct (match objs with [] => ([], s1) | _ :: _ => let '(i, s2) := category s1 in let '(os, s3) := add_objects 0 objs s2 in
      ([Item i "Optical objects" None os], s3) end) as (objects, s2) eqn:E2.
  destruct (loop 0 subs s2) as (ss, s3) eqn:E3. injection E as <- <-. specialize (L _ _ _ E3).
  (* the objects *)
  assert (O : fills s1 s2 (flat_map object_members (positioned "Object" objs)) objects
    (fun cap => match objs with [] => [] | _ => [Pic "Optical objects" None (map (object_picture cap) objs)] end)).
  { destruct objs as [|o objs]; [injection E2 as <- <-; apply fills_nil|].
    cbn [category] in E2. set (sc1 := mkF (f_tags s1) (f_connected s1) (S (f_made s1))) in *.
    destruct (add_objects 0 (o :: objs) sc1) as (os, s2') eqn:Eo. injection E2 as <- <-.
    pose proof (objects_fill _ _ _ _ _ Eo) as [FT FP FM FI (cs & FC & FF & FW)]. cbn [sc1 f_tags f_made f_connected] in *.
    assert (En : nodes [Item (f_made s1) "Optical objects" None os] = Item (f_made s1) "Optical objects" None os :: nodes os).
    { unfold nodes. cbn [flat_map all_items]. rewrite app_nil_r. reflexivity. }
    constructor.
    - exact FT.
    - intros cap A. cbn [map picture_of]. rewrite (FP cap A). reflexivity.
    - lia.
    - unfold ids. rewrite En. cbn [map item_id]. apply fresh_cons; [exact FI|lia].
    - exists cs. split; [exact FC|]. split; [destruct FF as (F1 & F2); split; auto; intros j Hj; specialize (F2 j Hj); lia|].
      intros j y. rewrite FW, En. split; [intros (it & Hi & Hj); exists it; split; [right; exact Hi|exact Hj]|].
      intros (it & [<-|Hi] & Hj & Hw); [discriminate|eauto]. }
  assert (S1 : f_tags s1 = f_tags s /\ f_connected s1 = f_connected s /\
    match subs with [] => sc = None /\ f_made s1 = f_made s | _ => sc = Some (f_made s) /\ f_made s1 = S (f_made s) end).
  { destruct subs; [injection E1 as <- <-; auto|]. cbn [category] in E1. injection E1 as <- <-. auto. }
  destruct S1 as (T1 & N1 & M1). clear E1 E2 E3.
  destruct O as [OT OP OM OI (oc & OC & OF & OW)]. destruct L as [LT LP LM LI (lc & LC & LF & LW)].
  destruct subs as [|sub subs].
  - destruct M1 as (-> & M1). cbn [app].
    assert (ss = []) as ->.
    { assert (A : agrees (fun x => match caption (f_tags s3) x with Some c => c | None => EmptyString end) (f_tags s3)) by (intros x c ->; reflexivity).
      specialize (LP _ A). destruct ss; [reflexivity|discriminate]. }
    constructor.
    + simpl. rewrite app_nil_r, <- T1. cbn in LT. rewrite LT. exact OT.
    + intros cap A. cbn in LT. rewrite LT in A. rewrite (OP cap A). destruct objs; reflexivity.
    + lia.
    + destruct OI as (I1 & I2). split; auto. intros j Hj. specialize (I2 j Hj). lia.
    + exists (oc ++ lc). split; [rewrite LC, OC, N1, app_assoc; reflexivity|].
      assert (lc = []) as ->. { destruct lc as [|(j, y) lc]; auto. destruct (proj1 (LW j y) (or_introl eq_refl)) as (it & [] & _). }
      rewrite app_nil_r. split; [destruct OF as (I1 & I2); split; auto; intros j Hj; specialize (I2 j Hj); lia|exact OW].
  - destruct M1 as (-> & M1).
    assert (En : nodes ([Item (f_made s) "Subassemblies" None ss] ++ objects) = Item (f_made s) "Subassemblies" None ss :: nodes ss ++ nodes objects) by reflexivity.
    constructor.
    + change (members (Parts (sub :: subs) objs)) with (flat_map object_members (positioned "Object" objs) ++
        concat (map sub_members (pos_from "Assembly" 0 (map (fun q => (fst q, members (snd q))) (sub :: subs))))).
      rewrite fold_left_app, <- T1, <- OT. exact LT.
    + intros cap A. rewrite map_app. cbn [map picture_of]. rewrite (LP cap A).
      rewrite LT in A. apply agrees_before in A. rewrite (OP cap A). reflexivity.
    + lia.
    + unfold ids. rewrite En. cbn [map item_id]. rewrite map_app. apply fresh_cons; [|lia].
      eapply fresh_perm; [apply Permutation_app_comm|]. apply fresh_app with (b := f_made s2); [|exact LI|lia]. rewrite <- M1. exact OI.
    + exists (oc ++ lc). split; [rewrite LC, OC, N1, app_assoc; reflexivity|]. split.
      * rewrite map_app. assert (X : fresh (f_made s1) (f_made s3) (map fst oc ++ map fst lc)) by (apply fresh_app with (b := f_made s2); auto; lia).
        destruct X as (X1 & X2). split; auto. intros j Hj. specialize (X2 j Hj). lia.
      * intros j y. rewrite in_app_iff, OW, LW, En. split.
        -- intros [(it & Hi & Hj)|(it & Hi & Hj)]; exists it; (split; [right; apply in_app_iff; auto|exact Hj]).
        -- intros (it & [<-|Hi] & Hj & Hw); [discriminate|]. apply in_app_iff in Hi as [Hi|Hi]; [right|left]; eauto.
Qed.

(** ** Listing *)
Lemma new_item_tags x s : let t := f_tags (snd (new_item x s)) in
  (forall y, caption t y = caption (f_tags s) y) /\ other_tags_same (f_tags s) t /\ t x <> None.
Proof.
  unfold new_item, caption, set_at, other_tags_same. cbn [snd f_tags]. destruct (f_tags s x) as [d|] eqn:E.
  - split; [reflexivity|]. split; [reflexivity|congruence].
  - split; [|split].
    + intros y. destruct (Nat.eqb_spec y x) as [->|]; [rewrite E; reflexivity|reflexivity].
    + intros y n _. destruct (Nat.eqb_spec y x) as [->|]; [rewrite E; reflexivity|reflexivity].
    + rewrite Nat.eqb_refl. discriminate.
Qed.

Theorem listed x p w : exists cap top, wg_top (show_tree x p w) = Some top /\ picture_of top = tree_picture cap x p /\
  (forall y, In y (map fst (members p)) -> caption (wg_tags (show_tree x p w)) y = Some (cap y)) /\
  captioned (wg_tags w) (wg_tags (show_tree x p w)) p.
Proof.
  unfold show_tree. set (s := mkF (wg_tags w) (wg_connected w) (wg_made w)).
  destruct (new_item_tags x s) as (C1 & O1 & _). destruct (new_item x s) as (i, s1) eqn:E1. cbn [snd] in *.
  destruct (add_subassembly p s1) as (kids, s2) eqn:E2. pose proof (parts_fill p _ _ _ E2) as [FT FP FM FI FC].
  set (cap := fun y => match caption (f_tags s2) y with Some c => c | None => EmptyString end).
  assert (A : agrees cap (f_tags s2)) by (intros y c E; unfold cap; rewrite E; reflexivity).
  exists cap. eexists. split; [reflexivity|]. cbn [wg_tags picture_of]. split; [|split].
  - unfold tree_picture. rewrite (FP cap A). reflexivity.
  - intros y Hy. rewrite FT in *. destruct (visits_all (members p) (f_tags s1) y Hy) as (c & E). rewrite E. f_equal. symmetry. apply A. exact E.
  - rewrite FT. split; [|split; [|split]].
    + intros y c H. apply visits_keep. rewrite C1. exact H.
    + intros y c H F. apply visits_first; auto. rewrite C1. exact H.
    + intros y H N. apply visits_none; auto. rewrite C1. exact H.
    + eapply other_trans; [exact O1|apply visits_other].
Qed.

(** ** Renaming *)
Record well_kept (w : widget) : Prop := {
  wk_conn : NoDup (map fst (wg_connected w));
  wk_below : forall q, In q (wg_connected w) -> fst q < wg_made w;
  wk_attr : forall q, In q (wg_connected w) -> wg_tags w (snd q) <> None;
  wk_top : forall top, wg_top w = Some top -> NoDup (map item_id (all_items top)) /\
    forall it, In it (all_items top) -> item_id it < wg_made w /\
      forall x, In (item_id it, x) (wg_connected w) <-> who it = Some x }.

Lemma visit_attr t q y : t y <> None -> visit t q y <> None.
Proof.
  intros H. unfold visit. destruct (caption t (fst q)); auto. unfold set_tag, set_at. destruct (t (fst q)); destruct (Nat.eqb y (fst q)); congruence.
Qed.
Lemma visits_attr l : forall t y, t y <> None -> fold_left visit l t y <> None.
Proof. induction l as [|q l IH]; intros t y H; simpl; auto. apply IH, visit_attr, H. Qed.

Lemma members_who p s its s' i x : fills s s' (members p) its (fun cap => parts_picture cap p) ->
  (exists it, In it (nodes its) /\ item_id it = i /\ who it = Some x) -> In x (map fst (members p)) -> f_tags s' x <> None.
Proof.
  intros F _ H. rewrite (fl_tags _ _ _ _ _ F). destruct (visits_all (members p) (f_tags s) x H) as (c & E). unfold caption in E.
  destruct (fold_left visit (members p) (f_tags s) x); congruence.
Qed.

(** Whom the items stand for. *)
Fixpoint pictured (q : picture) : list nat :=
  match q with Pic _ x under => (match x with Some y => [y] | None => [] end) ++ flat_map pictured under end.

Section ItemInd.
Variable P : item -> Prop.
Hypothesis H : forall i c x kids, Forall P kids -> P (Item i c x kids).
Fixpoint item_ind' (it : item) : P it :=
  match it with
  | Item i c x kids => H i c x kids
      ((fix go (l : list item) : Forall P l := match l with [] => Forall_nil _ | q :: r => Forall_cons _ (item_ind' q) (go r) end) kids)
  end.
End ItemInd.

Lemma who_pictured it : forall z x, In z (all_items it) -> who z = Some x -> In x (pictured (picture_of it)).
Proof.
  induction it as [i c y kids IH] using item_ind'. intros z x [<-|Hz] Hw; cbn [picture_of pictured].
  - cbn [who] in Hw. subst y. left. reflexivity.
  - apply in_app_iff. right. apply in_flat_map in Hz as (k & Hk & Hz). apply in_flat_map. exists (picture_of k).
    split; [apply in_map, Hk|]. rewrite Forall_forall in IH. eapply IH; eauto.
Qed.

Lemma pos_fst {A : Type} kind (l : list A) : forall k, map fst (pos_from kind k l) = l.
Proof. induction l as [|a l IH]; intros k; [reflexivity|]. unfold pos_from in *. cbn [length seq combine map fst snd]. f_equal. apply IH. Qed.

Lemma parts_pictured cap p : forall x, In x (flat_map pictured (parts_picture cap p)) -> In x (map fst (members p)).
Proof.
  induction p as [subs objs IH] using parts_ind'. intros x Hx. cbn [parts_picture] in Hx.
  change (members (Parts subs objs)) with (flat_map object_members (pos_from "Object" 0 objs) ++
        concat (map sub_members (pos_from "Assembly" 0 (map (fun q => (fst q, members (snd q))) subs)))).
  rewrite flat_map_app in Hx. rewrite map_app, in_app_iff. apply in_app_iff in Hx as [Hx|Hx].
  - right.
    assert (Hx' : In x (flat_map pictured (map (fun q => Pic (cap (fst q)) (Some (fst q)) (parts_picture cap (snd q))) subs))).
    { destruct subs; [destruct Hx|]. cbn [flat_map pictured] in Hx. rewrite app_nil_r in Hx. exact Hx. }
    clear Hx. generalize 0. induction IH as [|q subs Hq Hl IHl]; intros k; [destruct Hx'|].
    cbn [map flat_map] in Hx'. apply in_app_iff in Hx' as [Hx'|Hx'].
    + unfold pos_from. cbn [map length seq combine concat]. rewrite map_app, in_app_iff. left. cbn [sub_members fst snd map].
      cbn [pictured] in Hx'. destruct Hx' as [<-|Hx']; [left; reflexivity|right; apply Hq, Hx'].
    + unfold pos_from. cbn [map length seq combine concat]. rewrite map_app, in_app_iff. right. apply (IHl Hx' (S k)).
  - left.
    assert (Hx' : In x (flat_map pictured (map (object_picture cap) objs))).
    { destruct objs; [destruct Hx|]. cbn [flat_map pictured] in Hx. rewrite app_nil_r in Hx. exact Hx. }
    clear Hx IH. generalize 0. induction objs as [|o objs IHl]; intros k; [destruct Hx'|].
    cbn [map flat_map] in Hx'. unfold pos_from. cbn [length seq combine map flat_map]. rewrite map_app, in_app_iff.
    apply in_app_iff in Hx' as [Hx'|Hx']; [left|right; apply (IHl Hx' (S k))].
    unfold object_members. cbn [fst snd map]. unfold object_picture in Hx'. cbn [pictured] in Hx'. destruct Hx' as [<-|Hx']; [left; reflexivity|right].
    change (positioned "Surface" (snd o)) with (pos_from "Surface" 0 (snd o)). rewrite pos_fst.
    apply in_flat_map in Hx' as (y & Hy & Hx'). apply in_map_iff in Hy as (z & <- & Hz). cbn in Hx'. destruct Hx' as [<-|[]]. exact Hz.
Qed.

Lemma show_kept x p w : well_kept w -> well_kept (show_tree x p w).
Proof.
  intros W. unfold show_tree. set (s := mkF (wg_tags w) (wg_connected w) (wg_made w)).
  destruct (new_item_tags x s) as (C1 & O1 & X1). destruct (new_item x s) as (i, s1) eqn:E1. cbn [snd] in *.
  assert (Es : i = wg_made w /\ f_made s1 = S (wg_made w) /\ f_connected s1 = wg_connected w ++ [(wg_made w, x)] /\
    forall y, wg_tags w y <> None -> f_tags s1 y <> None).
  { unfold new_item in E1. injection E1 as <- <-. cbn [s f_made f_connected f_tags]. split; auto. split; auto. split; auto.
    intros y Hy. destruct (wg_tags w x); auto. unfold set_at. destruct (Nat.eqb y x); congruence. }
  destruct Es as (-> & M1 & N1 & A1).
  destruct (add_subassembly p s1) as (kids, s2) eqn:E2. pose proof (parts_fill p _ _ _ E2) as F. pose proof F as [FT FP FM FI (cs & FC & FF & FW)].
  assert (Hcs : forall q, In q cs -> f_tags s2 (snd q) <> None).
  { intros (j, y) Hq. cbn [snd]. pose proof (proj1 (FW j y) Hq) as (it & Hi & Hj & Hw).
    set (cap := fun y => match caption (f_tags s2) y with Some c => c | None => EmptyString end).
    assert (A : agrees cap (f_tags s2)) by (intros z c E; unfold cap; rewrite E; reflexivity).
    eapply members_who; [exact F|eauto|]. apply (parts_pictured cap). rewrite <- (FP cap A).
    unfold nodes in Hi. apply in_flat_map in Hi as (k & Hk & Hi). apply in_flat_map. exists (picture_of k). split; [apply in_map, Hk|].
    eapply who_pictured; eauto. }
  assert (Fc : fresh (wg_made w) (f_made s2) (wg_made w :: map fst cs)) by (apply fresh_cons; [rewrite <- M1; exact FF|lia]).
  assert (Fi : fresh (wg_made w) (f_made s2) (map item_id (all_items (Item (wg_made w) "Top assembly" (Some x) kids)))).
  { cbn [all_items map item_id]. apply fresh_cons; [rewrite <- M1; exact FI|lia]. }
  constructor; cbn [wg_connected wg_made wg_tags wg_top].
  - rewrite FC, N1, !map_app, <- app_assoc. cbn [map fst app].
    assert (X : fresh 0 (f_made s2) (map fst (wg_connected w) ++ wg_made w :: map fst cs)).
    { apply fresh_app with (b := wg_made w); [|exact Fc|lia]. split; [apply W|]. intros j Hj. apply in_map_iff in Hj as (q & <- & Hq).
      pose proof (wk_below _ W q Hq). lia. }
    apply X.
  - intros q Hq. rewrite FC, N1 in Hq. apply in_app_iff in Hq as [Hq|Hq].
    + apply in_app_iff in Hq as [Hq|[<-|[]]]; [pose proof (wk_below _ W q Hq); lia|cbn [fst]; lia].
    + apply Fc. right. apply in_map, Hq.
  - intros q Hq. rewrite FC, N1 in Hq. apply in_app_iff in Hq as [Hq|Hq]; [|apply Hcs, Hq]. rewrite FT. apply visits_attr.
    apply in_app_iff in Hq as [Hq|[<-|[]]]; [apply A1, (wk_attr _ W q Hq)|exact X1].
  - intros top E. injection E as <-. split; [apply Fi|]. intros it Hi. split; [apply Fi, in_map, Hi|]. intros y.
    pose proof (proj2 Fi _ (in_map item_id _ _ Hi)) as Bi.
    rewrite FC, N1, !in_app_iff. cbn [all_items] in Hi. split.
    + intros [[Hq|[Hq|[]]]|Hq].
      * pose proof (wk_below _ W _ Hq). cbn [fst] in *. lia.
      * injection Hq as Hj <-. destruct Hi as [<-|Hi]; [reflexivity|]. exfalso.
        pose proof (proj2 FI (item_id it) (in_map item_id _ _ Hi)). lia.
      * apply FW in Hq as (it' & Hi' & Hj & Hw). destruct Hi as [<-|Hi].
        -- exfalso. pose proof (proj2 FI (item_id it') (in_map item_id _ _ Hi')). cbn [item_id] in Hj. lia.
        -- assert (it' = it); [|congruence]. destruct FI as (ND & _). unfold ids, nodes in ND. change (flat_map all_items kids) with (nodes kids) in *.
           clear - ND Hi Hi' Hj. induction (nodes kids) as [|z l IH]; [destruct Hi|]. cbn [map] in ND. apply NoDup_cons_iff in ND as (Nz & ND).
           destruct Hi as [->|Hi], Hi' as [->|Hi']; auto.
           ++ exfalso. apply Nz. rewrite <- Hj. apply in_map, Hi'.
           ++ exfalso. apply Nz. rewrite Hj. apply in_map, Hi.
    + intros Hw. destruct Hi as [<-|Hi]; [left; right; left; cbn [item_id who] in *; congruence|]. right. apply FW. eauto.
Qed.

Lemma update_spec' i text conns : forall t, NoDup (map fst conns) -> (forall q, In q conns -> t (snd q) <> None) ->
  exists t', update_captions i text conns t = Ok t' /\ other_tags_same t t' /\
    (forall y, t y <> None -> t' y <> None) /\
    (forall y, In (i, y) conns -> caption t' y = Some text) /\
    (forall y, ~ In (i, y) conns -> t' y = t y).
Proof.
  induction conns as [|(j, x) conns IH]; intros t N A; cbn [update_captions].
  - exists t. split; auto. split; [intros y n _; reflexivity|]. split; auto. split; [intros y []|auto].
  - cbn [map fst] in N. apply NoDup_cons_iff in N as (Nj & N). destruct (Nat.eqb_spec j i) as [->|Hj]; cbn [negb].
    + pose proof (A (i, x) (or_introl eq_refl)) as Ax. cbn [snd] in Ax. destruct (t x) as [d|] eqn:Ex; [|congruence].
      set (t1 := set_at t x (store "caption" text d)).
      assert (E1 : t1 = set_tag t x "caption" text) by (unfold t1, set_tag; rewrite Ex; reflexivity).
      assert (K1 : forall y, t y <> None -> t1 y <> None) by (intros y Hy; unfold t1, set_at; destruct (Nat.eqb y x); congruence).
      destruct (IH t1 N) as (t' & E & O & K & I1 & I2); [intros q Hq; apply K1, A; right; auto|].
      assert (Ni : forall y, ~ In (i, y) conns) by (intros y Hy; apply Nj, in_map_iff; exists (i, y); auto).
      exists t'. split; auto. split; [eapply other_trans; [|exact O]; rewrite E1; apply other_set|]. split; [auto|]. split.
      * intros y [Hy|Hy]; [|destruct (Ni y Hy)]. injection Hy as <-. assert (E' : t' x = t1 x) by (apply I2, Ni).
        unfold caption. rewrite E'. change (caption t1 x = Some text). rewrite E1, caption_set, Nat.eqb_refl. reflexivity.
      * intros y Hy. rewrite I2 by apply Ni. unfold t1, set_at. destruct (Nat.eqb_spec y x) as [->|]; auto. destruct Hy. left; auto.
    + destruct (IH t N) as (t' & E & O & K & I1 & I2); [intros q Hq; apply A; right; auto|].
      exists t'. split; auto. split; auto. split; auto. split.
      * intros y [Hy|Hy]; [congruence|auto].
      * intros y Hy. apply I2. intros H. apply Hy. right; auto.
Qed.

Lemma retext_items i text it : map item_id (all_items (set_text i text it)) = map item_id (all_items it).
Proof.
  induction it as [j c x kids IH] using item_ind'. cbn [set_text all_items map item_id]. f_equal.
  induction IH as [|k kids Hk Hl IHl]; [reflexivity|]. cbn [map flat_map]. rewrite !map_app, Hk, IHl. reflexivity.
Qed.
Lemma retext_in i text it z : In z (all_items (set_text i text it)) -> exists z', In z' (all_items it) /\ item_id z = item_id z' /\ who z = who z'.
Proof.
  revert z. induction it as [j c x kids IH] using item_ind'. intros z. cbn [set_text all_items]. intros [<-|Hz].
  - eexists. split; [left; reflexivity|]. split; reflexivity.
  - apply in_flat_map in Hz as (k & Hk & Hz). apply in_map_iff in Hk as (k' & <- & Hk). rewrite Forall_forall in IH.
    destruct (IH k' Hk z Hz) as (z' & Hz' & E1 & E2). exists z'. split; auto. right. apply in_flat_map. eauto.
Qed.
Lemma retext_spec i text it : retexted i text it (set_text i text it).
Proof.
  induction it as [j c x kids IH] using item_ind'. cbn [set_text].
  replace (if Nat.eqb j i then text else c) with (if Nat.eq_dec j i then text else c) by (destruct (Nat.eqb_spec j i), (Nat.eq_dec j i); congruence).
  constructor. induction IH; constructor; auto.
Qed.

Lemma rename_spec i text w top it : well_kept w -> wg_top w = Some top -> In it (all_items top) -> item_id it = i ->
  exists w' top', rename i text w = Ok w' /\ wg_top w' = Some top' /\ retexted i text top top' /\ well_kept w' /\
    other_tags_same (wg_tags w) (wg_tags w') /\
    (forall x, who it = Some x -> caption (wg_tags w') x = Some text) /\
    (forall x, who it <> Some x -> wg_tags w' x = wg_tags w x).
Proof.
  intros W Et Hi Hid. unfold rename. rewrite Et.
  assert (Ex : existsb (fun z => Nat.eqb (item_id z) i) (all_items top) = true) by (apply existsb_exists; exists it; split; auto; apply Nat.eqb_eq, Hid).
  rewrite Ex. destruct (update_spec' i text (wg_connected w) (wg_tags w) (wk_conn _ W) (wk_attr _ W)) as (t' & E & O & K & I1 & I2).
  rewrite E. cbn [bind]. eexists _, _. split; [reflexivity|]. cbn [wg_top wg_tags]. split; [reflexivity|]. split; [apply retext_spec|].
  destruct (wk_top _ W top Et) as (ND & Hw). destruct (Hw it Hi) as (_ & Hc). rewrite Hid in Hc.
  split; [|split; [exact O|split; [intros x Hx; apply I1, Hc, Hx|intros x Hx; apply I2; intros H; apply Hx, Hc, H]]].
  constructor; cbn [wg_connected wg_made wg_tags wg_top]; try apply W.
  - intros q Hq. apply K, (wk_attr _ W q Hq).
  - intros top' E'. injection E' as <-. rewrite retext_items. split; auto. intros z Hz. destruct (retext_in _ _ _ _ Hz) as (z' & Hz' & E1 & E2).
    rewrite E1, E2. apply Hw, Hz'.
Qed.

Lemma used_kept w : used w -> well_kept w.
Proof.
  intros U. induction U as [t|x p w U IH|i text w w' U IH E|x n v w U IH].
  - constructor; cbn [new_widget wg_connected wg_made wg_tags wg_top]; [constructor|intros q []|intros q []|discriminate].
  - apply show_kept, IH.
  - destruct (wg_top w) as [top|] eqn:Et.
    + destruct (existsb (fun z => Nat.eqb (item_id z) i) (all_items top)) eqn:Ex.
      * apply existsb_exists in Ex as (it & Hi & Hid). apply Nat.eqb_eq in Hid.
        destruct (rename_spec i text w top it IH Et Hi Hid) as (w1 & top' & E1 & _ & _ & W1 & _). congruence.
      * unfold rename in E. rewrite Et, Ex in E. injection E as <-. exact IH.
    + unfold rename in E. rewrite Et in E. injection E as <-. exact IH.
  - constructor; cbn [wg_connected wg_made wg_tags wg_top]; try apply IH.
    intros q Hq. pose proof (wk_attr _ IH q Hq) as H. unfold set_tag, set_at. destruct (wg_tags w x); destruct (Nat.eqb (snd q) x); congruence.
Qed.

Theorem renamed w i text c x kids : used w -> in_tree w (Item i c x kids) ->
  exists w' top top', rename i text w = Ok w' /\ wg_top w = Some top /\ wg_top w' = Some top' /\ retexted i text top top' /\
    NoDup (map item_id (all_items top)) /\
    other_tags_same (wg_tags w) (wg_tags w') /\
    (forall y, x = Some y -> caption (wg_tags w') y = Some text) /\
    (forall y, x <> Some y -> wg_tags w' y = wg_tags w y).
Proof.
  intros U (top & Et & Hi). pose proof (used_kept w U) as W.
  destruct (rename_spec i text w top _ W Et Hi eq_refl) as (w' & top' & E & Et' & R & _ & O & A & B).
  exists w', top, top'. split; auto. split; auto. split; auto. split; auto. split; [apply (wk_top _ W top Et)|]. split; auto.
Qed.

(** ** The name lives on *)
Theorem name_kept w i text c x kids w' a p : used w -> in_tree w (Item i c (Some x) kids) -> rename i text w = Ok w' ->
  exists cap top, wg_top (show_tree a p w') = Some top /\ picture_of top = tree_picture cap a p /\ (In x (map fst (members p)) -> cap x = text).
Proof.
  intros U Ht E. destruct (renamed w i text c (Some x) kids U Ht) as (w1 & top & top' & E1 & _ & _ & _ & _ & _ & Hx & _).
  rewrite E in E1. injection E1 as <-.
  destruct (listed a p w') as (cap & top1 & T1 & P1 & M1 & (K1 & _)). exists cap, top1. split; auto. split; auto.
  intros Hm. specialize (K1 x text (Hx x eq_refl)). rewrite (M1 x Hm) in K1. congruence.
Qed.

(** ** Cases *)
Definition small : parts := Parts [(1, Parts [] [(2, [3; 4])])] [(5, [6]); (7, [])].
Lemma small_case : wg_top (show_tree 0 small (new_widget (fun i => if Nat.eqb i 5 then Some [("caption", "Dish")] else None)))%string =
  Some (Item 0 "Top assembly" (Some 0)
    [Item 1 "Subassemblies" None [Item 6 "Assembly 0" (Some 1)
       [Item 7 "Optical objects" None [Item 8 "Object 0" (Some 2) [Item 9 "Surface 0" (Some 3) []; Item 10 "Surface 1" (Some 4) []]]]];
     Item 2 "Optical objects" None [Item 3 "Dish" (Some 5) [Item 4 "Surface 0" (Some 6) []]; Item 5 "Object 1" (Some 7) []]])%string.
Proof. reflexivity. Qed.

Theorem top_name_lost x p w text w' i kids : used w -> wg_top w = Some (Item i "Top assembly" (Some x) kids) -> rename i text w = Ok w' ->
  caption (wg_tags w') x = Some text /\ exists j kids', wg_top (show_tree x p w') = Some (Item j "Top assembly" (Some x) kids').
Proof.
  intros U Et E. destruct (renamed w i text "Top assembly" (Some x) kids U) as (w1 & top & top' & E1 & _ & _ & _ & _ & _ & Hx & _).
  { eexists. split; [exact Et|left; reflexivity]. }
  rewrite E in E1. injection E1 as <-. split; [apply Hx; reflexivity|]. unfold show_tree.
  destruct (new_item x _) as (j, s1). destruct (add_subassembly p s1) as (its, s2). exists j, its. reflexivity.
Qed.

(** An object listed twice: renaming one item leaves the text of the other. *)
Theorem second_item_stale : exists w i w' j c kids, used w /\ rename i "Dish" w = Ok w' /\
  in_tree w' (Item j c (Some 1) kids) /\ caption (wg_tags w') 1 <> Some c.
Proof.
  exists (show_tree 0 (Parts [] [(1, []); (1, [])]) (new_widget (fun _ => None))), 2.
  eexists _, 3, "Object 0"%string, []. split; [apply u_show, u_new|]. split; [reflexivity|]. split.
  - eexists. split; [reflexivity|]. simpl. auto.
  - discriminate.
Qed.

Definition listed_small : widget := show_tree 0 small (new_widget (fun _ => None)).
Lemma small_top : wg_top listed_small = Some (Item 0 "Top assembly" (Some 0)
    [Item 1 "Subassemblies" None [Item 6 "Assembly 0" (Some 1)
       [Item 7 "Optical objects" None [Item 8 "Object 0" (Some 2) [Item 9 "Surface 0" (Some 3) []; Item 10 "Surface 1" (Some 4) []]]]];
     Item 2 "Optical objects" None [Item 3 "Object 0" (Some 5) [Item 4 "Surface 0" (Some 6) []]; Item 5 "Object 1" (Some 7) []]])%string.
Proof. vm_compute. reflexivity. Qed.
Lemma small_used : used listed_small /\ in_tree listed_small (Item 9 "Surface 0" (Some 3) []) /\ In 3 (map fst (members small)).
Proof.
  split; [apply u_show, u_new|]. split.
  - eexists. split; [exact small_top|]. cbn [all_items flat_map app]. repeat (first [left; reflexivity|right]).
  - vm_compute. repeat (first [left; reflexivity|right]).
Qed.
Lemma top_case : exists w w' i kids, used w /\ wg_top w = Some (Item i "Top assembly" (Some 0) kids) /\ rename i "Plant" w = Ok w'.
Proof.
  destruct (renamed listed_small 0 "Plant" "Top assembly" (Some 0) _ (u_show _ _ _ (u_new _)) (ex_intro _ _ (conj small_top (or_introl eq_refl)))) as (w' & _ & _ & E & _).
  exists listed_small, w', 0. eexists. split; [apply u_show, u_new|]. split; [exact small_top|exact E].
Qed.
