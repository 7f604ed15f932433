(** The optics claims, assembled. *)
From Coq Require Import Reals String List Arith Bool Lia Lra.
From Verif.Base Require Import Py Num Vec.
From Verif.Model Require Import RayBundle Geometry Spatial Sources Optics OpticsCallables.
From Verif.Spec Require Import BundleSpec EngineSpec GeometrySpec OpticsSpec.
From Verif.Proof Require Import ListLemmas NumLemmas VecLemmas BundleProof SelectProof GeomTop
  OpticsProof CallProof RefractProof.
Import ListNotations.
Local Open Scope R_scope.

Lemma rows_plain b n sel pts ns : traceable b n -> (forall i, In i sel -> (i < n)%nat) ->
  length pts = length sel -> length ns = length sel ->
  exists ks, sel = map w_i ks /\ pts = map w_p ks /\ ns = map w_n ks /\ has_rows b ks.
Proof.
  intros T Hs Lp Ln. destruct (rows_of b n sel pts ns (repeat vzero (length sel)) T Hs Lp Ln) as
    (ks & A & B & C & _ & D); [apply repeat_length|]. eauto.
Qed.

Lemma incoming_row b ks k i d e p n : has_rows b ks ->
  incoming b (map w_i ks) (map w_p ks) (map w_n ks) k i d e p n ->
  exists r, nth_error ks k = Some r /\ i = w_i r /\ d = w_d r /\ e = w_e r /\ p = w_p r /\ n = w_n r.
Proof.
  intros H (A & B & C & D & E). apply nth_map_iff in A as (r & Hr & ->). exists r.
  rewrite nth_error_map, Hr in D, E. cbn [option_map] in *. injection D as <-. injection E as <-.
  pose proof (nth_error_In _ _ Hr) as I. rewrite (hr_dir _ _ H r I) in B. rewrite (hr_energy _ _ H r I) in C.
  injection B as <-. injection C as <-. auto 10.
Qed.

Lemma one_each_rows b ks o (P : vec -> R -> vec -> vec -> R -> Prop) : has_rows b ks ->
  traceable o (length ks) -> same_set o b ->
  (forall k r, nth_error ks k = Some r -> exists d' e', P (w_d r) (w_e r) (w_n r) d' e' /\
     child b o k (w_i r) (w_p r) d' e' (ref_at b (w_i r))) ->
  one_each b (map w_i ks) (map w_p ks) (map w_n ks) o P.
Proof.
  intros H T S C. unfold one_each. rewrite map_length. split; auto. split; auto.
  intros k i d e p m I. apply (incoming_row b ks) in I as (r & Hr & -> & -> & -> & -> & ->); auto.
Qed.

Lemma reflective_top a gs b n sel pts ns z g : traceable b n -> (forall i, In i sel -> (i < n)%nat) ->
  told gs pts ns z -> length pts = length sel -> Forall is_unit ns ->
  exists o, call_optics (Absorbing (Reflective a)) gs b sel g = Ok (o, g) /\
    one_each b sel pts ns o (fun d e n d' e' => mirrored n d d' /\ e' = e * (1 - a)).
Proof.
  intros T Hs G Lp Un. pose proof G as (_ & _ & _ & Lpn).
  destruct (rows_plain b n sel pts ns T Hs Lp ltac:(congruence)) as (ks & -> & -> & -> & H).
  destruct (reflective_emits a gs b n ks z T H G) as (o & Ec & _ & To & So & Po & Eno & Ch).
  exists o. split.
  - cbn [call_optics call_absorbing]. rewrite Ec. cbn [bind]. destruct g; reflexivity.
  - apply one_each_rows; auto. intros k r Hk. eexists; eexists. split; [|apply Ch; auto].
    split; auto. apply reflection_mirrored. rewrite Forall_forall in Un. apply Un.
    apply in_map. eapply nth_error_In; eauto.
Qed.

Lemma absorber_top a gs b n sel pts ns z g : traceable b n -> (forall i, In i sel -> (i < n)%nat) ->
  told gs pts ns z -> length pts = length sel -> Forall is_unit ns ->
  exists o, call_optics (Absorbing (AbsorberReflector a)) gs b sel g = Ok (o, g) /\
    one_each b sel pts ns o (fun d e n d' e' => mirrored n d d' /\
      (dot d z <= 0 -> e' = e * (1 - a)) /\ (0 < dot d z -> e' = 0)).
Proof.
  intros T Hs G Lp Un. pose proof G as (_ & _ & _ & Lpn).
  destruct (rows_plain b n sel pts ns T Hs Lp ltac:(congruence)) as (ks & -> & -> & -> & H).
  destruct (absorber_emits a gs b n ks z T H G) as (o & Ec & To & So & Po & Eno & Ch).
  exists o. split.
  - cbn [call_optics call_absorbing]. rewrite Ec. cbn [bind]. destruct g; reflexivity.
  - apply one_each_rows; auto. intros k r Hk. eexists; eexists. split; [|apply Ch; auto].
    split; [|unfold one_sided_energy; split; rdec; intros; lra].
    apply reflection_mirrored. rewrite Forall_forall in Un. apply Un.
    apply in_map. eapply nth_error_In; eauto.
Qed.

Lemma lambertian_any a gs b n sel pts ns z g : traceable b n ->
  (forall i, In i sel -> (i < n)%nat) ->
  told gs pts ns z -> length pts = length sel -> Forall is_unit ns ->
  exists o g', call_optics (Absorbing (Lambertian a)) gs b sel g = Ok (o, g') /\
    (fair (g_rng g) -> fair (g_rng g')) /\ g_acc g' = g_acc g /\
    one_each b sel pts ns o (fun d e n d' e' => is_unit d' /\
      (fair (g_rng g) -> 0 <= dot d' n) /\ e' = e * (1 - a)).
Proof.
  intros T Hs G Lp Un.
  destruct (lambertian_emits a gs b n sel pts ns z (g_rng g) T Hs G Lp Un) as
    (o & g' & ks & Ec & Fg & -> & -> & -> & H & To & So & Po & Eno & Ch).
  exists o, (mkG g' (g_acc g)). split.
  - cbn [call_optics call_absorbing]. rewrite Ec. reflexivity.
  - split; auto. split; auto. apply one_each_rows; auto. intros k r Hk.
    destruct (Ch k r Hk) as (d' & U & Hd & C). exists d', (w_e r * (1 - a)). auto.
Qed.

Lemma lambertian_top a gs b n sel pts ns z g : fair (g_rng g) -> traceable b n ->
  (forall i, In i sel -> (i < n)%nat) ->
  told gs pts ns z -> length pts = length sel -> Forall is_unit ns ->
  exists o g', call_optics (Absorbing (Lambertian a)) gs b sel g = Ok (o, g') /\
    fair (g_rng g') /\ g_acc g' = g_acc g /\
    one_each b sel pts ns o (fun d e n d' e' => is_unit d' /\ 0 <= dot d' n /\ e' = e * (1 - a)).
Proof.
  intros F T Hs G Lp Un.
  destruct (lambertian_any a gs b n sel pts ns z g T Hs G Lp Un) as (o & g' & E & Fg & A & To & So & C).
  exists o, g'. split; auto. split; auto. split; auto. split; auto. split; auto.
  intros k i d e p m I. destruct (C k i d e p m I) as (d' & e' & (U & Hd & He) & Ch).
  exists d', e'. auto.
Qed.

(** *** Accountants *)
Lemma record_hits_spec abs gs b sel acc acc' l : batch_of gs b sel l ->
  record_hits abs gs b sel acc = Ok acc' ->
  acc' = mkAcc (a_absorbed acc ++ [map (fun h => fst h * abs) l]) (a_hits acc ++ [map snd l]).
Proof.
  intros (pts & es & Gp & He & P & E). unfold record_hits, get_energy, get_prop.
  rewrite He. cbn [bind select].
  assert (T : take es sel = Ok (map fst l)) by (apply take_ok; exact P).
  rewrite T. cbn [bind]. rewrite Gp. cbn [bind]. intros X. apply Ok_inj in X. rewrite <- X.
  unfold scaled. rewrite map_map, E. reflexivity.
Qed.

Definition acc_of (abs : R) (ls : list (list (R * vec))) : account :=
  mkAcc (map (map (fun h => fst h * abs)) ls) (map (map snd) ls).

Lemma filter_nonempty_concat {A} (ls : list (list A)) : concat (filter nonempty ls) = concat ls.
Proof. induction ls as [|l ls IH]; simpl; auto. destruct l; simpl; [auto|]. rewrite IH. auto. Qed.

Lemma hstack_nonempty {A} (ls : list (list A)) : 
  hstack (filter nonempty ls) = if nonempty (concat ls) then Ok (concat ls) else Err ValueError.
Proof.
  induction ls as [|l ls IH]; [reflexivity|]. destruct l as [|a l].
  - simpl. exact IH.
  - simpl. f_equal. f_equal. f_equal. apply filter_nonempty_concat.
Qed.

Lemma get_all_hits_spec abs ls :
  get_all_hits (acc_of abs ls) =
    match ls with
    | [] => Ok ([], [])
    | _ => if nonempty (concat ls)
           then Ok (map (fun h => fst h * abs) (concat ls), map snd (concat ls))
           else Err ValueError
    end.
Proof.
  unfold get_all_hits, acc_of. cbn [a_absorbed a_hits]. rewrite map_length.
  destruct ls as [|l ls]; [reflexivity|]. cbn [length Nat.eqb].
  rewrite !hstack_nonempty. rewrite <- !concat_map.
  unfold nonempty. rewrite !map_length. destruct (negb (length (concat (l :: ls)) =? 0)%nat); reflexivity.
Qed.

Lemma call_other_accounts o gs b sel g r g' id :
  call_optics o gs b sel g = Ok (r, g') ->
  match o with Accountant k _ => k <> id | _ => True end -> g_acc g' id = g_acc g id.
Proof.
  intros E. destruct o as [o|k o|a c]; cbn [call_optics] in E.
  - destruct (call_absorbing o gs b sel (g_rng g)) as [[r' g1]|]; cbn [bind] in E; [|discriminate].
    injection E as <- <-. auto.
  - destruct (record_hits _ _ _ _ _) as [acc|]; cbn [bind] in E; [|discriminate].
    destruct (call_absorbing o gs b sel (g_rng g)) as [[r' g1]|]; cbn [bind] in E; [|discriminate].
    injection E as <- <-. intros N. cbn [g_acc]. unfold upd. destruct (Nat.eqb_spec id k); [congruence|auto].
  - destruct (call_refractive a c gs b sel); cbn [bind] in E; [|discriminate]. injection E as <- <-. auto.
Qed.

Lemma call_own_account o gs b sel g r g' id l : batch_of gs b sel l ->
  call_optics (Accountant id o) gs b sel g = Ok (r, g') ->
  forall ls, g_acc g id = acc_of (absorptivity o) ls -> g_acc g' id = acc_of (absorptivity o) (ls ++ [l]).
Proof.
  intros B E ls Hl. cbn [call_optics] in E.
  destruct (record_hits (absorptivity o) gs b sel (g_acc g id)) as [acc|] eqn:Er; cbn [bind] in E; [|discriminate].
  destruct (call_absorbing o gs b sel (g_rng g)) as [[r' g1]|]; cbn [bind] in E; [|discriminate].
  injection E as <- <-. cbn [g_acc]. unfold upd. rewrite Nat.eqb_refl.
  rewrite (record_hits_spec _ _ _ _ _ _ _ B Er), Hl. unfold acc_of. cbn [a_absorbed a_hits].
  rewrite !map_app. reflexivity.
Qed.

Lemma batch_exists gs b n sel pts : traceable b n -> (forall i, In i sel -> (i < n)%nat) ->
  get_points gs = Ok pts -> length pts = length sel -> exists l, batch_of gs b sel l.
Proof.
  intros T Hs Gp Lp. destruct (rows_plain b n sel pts pts T Hs Lp Lp) as (ks & -> & -> & _ & H).
  pose proof T as (_ & _ & _ & He). destruct (b_energy b) as [es|] eqn:Ees; [|congruence].
  exists (map (fun r => (w_e r, w_p r)) ks). exists (map w_p ks), es. rewrite !map_map. cbn [fst snd].
  repeat split; auto. unfold picks.
  clear - H Ees. destruct H as [_ H _]. unfold energy_at, at_col in H. rewrite Ees in H.
  induction ks as [|r ks IH]; constructor.
  - apply H. left; auto.
  - apply IH. intros; apply H; right; auto.
Qed.

Lemma run_snoc g evs e : run g (evs ++ [e]) = (g' <- run g evs ;; step g' e).
Proof.
  revert g. induction evs as [|x evs IH]; intros g; cbn [run app].
  - cbn [bind]. destruct (step g e); reflexivity.
  - destruct (step g x); cbn [bind]; auto.
Qed.

Lemma accountant_history id o g evs g' : (forall e, In e evs -> proper_call id o e) ->
  g_acc g id = mkAcc [] [] -> run g evs = Ok g' ->
  exists ls, batches_since id o evs ls /\ g_acc g' id = acc_of (absorptivity o) ls.
Proof.
  intros P G. revert g' P. induction evs as [|e evs IH] using rev_ind; intros g' P E.
  - cbn [run] in E. injection E as <-. exists []. split; [constructor|exact G].
  - rewrite run_snoc in E. destruct (run g evs) as [g1|] eqn:E1; cbn [bind] in E; [|discriminate].
    destruct (IH g1 ltac:(intros; apply P, in_or_app; auto) eq_refl) as (ls & B & A).
    pose proof (P e ltac:(apply in_or_app; right; left; auto)) as Pe.
    destruct e as [k|o' gs b sel]; cbn [step] in E.
    + injection E as <-. cbn [g_acc]. unfold upd. destruct (Nat.eqb_spec id k) as [<-|N].
      * exists []. split; [eapply bs_reset; eauto|reflexivity].
      * exists ls. split; [apply bs_other; auto; congruence|exact A].
    + destruct (call_optics o' gs b sel g1) as [[r g2]|] eqn:Ec; cbn [bind] in E; [|discriminate].
      injection E as <-.
      destruct (match o' with Accountant k _ => Nat.eqb k id | _ => false end) eqn:Q.
      * destruct o' as [|k o'|]; try discriminate. apply Nat.eqb_eq in Q as ->. cbn [proper_call] in Pe.
        destruct (Pe eq_refl) as (-> & n & pts & T & Hs & Gp & Lp).
        destruct (batch_exists gs b n sel pts T Hs Gp Lp) as (l & Hl).
        exists (ls ++ [l]). split; [apply bs_hit; auto|].
        exact (call_own_account _ _ _ _ _ _ _ _ _ Hl Ec _ A).
      * exists ls. split; [apply bs_other; auto; [congruence|]|].
        -- intros o'' gs' b' sel' X. injection X as -> _ _ _. rewrite Nat.eqb_refl in Q. discriminate.
        -- rewrite (call_other_accounts _ _ _ _ _ _ _ id Ec); auto.
           destruct o'; auto. apply Nat.eqb_neq; auto.
Qed.

(** Everything recorded since the last reset, in order. *)
Lemma accountant_top id o g evs g' : (forall e, In e evs -> proper_call id o e) ->
  g_acc g id = mkAcc [] [] -> run g evs = Ok g' ->
  exists ls, batches_since id o evs ls /\
    (ls = [] -> get_all_hits (g_acc g' id) = Ok ([], [])) /\
    (concat ls <> [] -> get_all_hits (g_acc g' id) =
       Ok (map (fun h => fst h * absorptivity o) (concat ls), map snd (concat ls))) /\
    (ls <> [] -> concat ls = [] -> get_all_hits (g_acc g' id) = Err ValueError).
Proof.
  intros P G E. destruct (accountant_history id o g evs g' P G E) as (ls & B & ->).
  exists ls. split; auto. rewrite get_all_hits_spec. split; [intros ->; reflexivity|]. split.
  - intros N. destruct ls as [|l ls]; [simpl in N; congruence|].
    destruct (concat (l :: ls)); [congruence|]. reflexivity.
  - intros N C. destruct ls as [|l ls]; [congruence|]. rewrite C. reflexivity.
Qed.

(** *** Energy balance *)
Lemma energy_row (f : row -> R) ks r : NoDup (map w_i ks) -> In r ks ->
  sum_R (map snd (filter (fun pe => Nat.eqb (fst pe) (w_i r)) (combine (map w_i ks) (map f ks)))) = f r.
Proof.
  induction ks as [|x ks IH]; intros N I; [destruct I|]. cbn [map combine filter fst].
  inversion N; subst. destruct I as [->|I].
  - rewrite Nat.eqb_refl. cbn [map snd sum_R fold_right].
    assert (E : filter (fun pe => Nat.eqb (fst pe) (w_i r)) (combine (map w_i ks) (map f ks)) = []).
    { clear - H1. induction ks as [|y ks IH]; auto. cbn [map combine filter fst].
      destruct (Nat.eqb_spec (w_i y) (w_i r)) as [E|_].
      - exfalso. apply H1. left; auto.
      - apply IH. intros X; apply H1; right; auto. }
    rewrite E. cbn. ring.
  - destruct (Nat.eqb_spec (w_i x) (w_i r)) as [E|_]; auto.
    exfalso. apply H1. rewrite E. apply in_map; auto.
Qed.

Lemma energy_row_none (f : row -> R) ks i : ~ In i (map w_i ks) ->
  sum_R (map snd (filter (fun pe => Nat.eqb (fst pe) i) (combine (map w_i ks) (map f ks)))) = 0.
Proof.
  induction ks as [|x ks IH]; intros N; [reflexivity|]. cbn [map combine filter fst].
  destruct (Nat.eqb_spec (w_i x) i) as [E|_].
  - exfalso. apply N. left; auto.
  - apply IH. intros X; apply N; right; auto.
Qed.

Lemma combine_app {A B} (a a' : list A) (b b' : list B) : length a = length b ->
  combine (a ++ a') (b ++ b') = combine a b ++ combine a' b'.
Proof.
  revert b. induction a as [|x a IH]; intros [|y b] H; try discriminate; [reflexivity|].
  cbn [app combine]. f_equal. apply IH. simpl in H. congruence.
Qed.
Lemma sum_R_app a b : sum_R (a ++ b) = sum_R a + sum_R b.
Proof. unfold sum_R. induction a as [|x a IH]; cbn [app fold_right]; [ring|]. rewrite IH. ring. Qed.

Lemma energy_split (f h : row -> R) (c : row -> bool) ks r : NoDup (map w_i ks) -> In r ks ->
  sum_R (map snd (filter (fun pe => Nat.eqb (fst pe) (w_i r))
    (combine (map w_i ks ++ map w_i (filter c ks)) (map f ks ++ map h (filter c ks))))) =
  f r + (if c r then h r else 0).
Proof.
  intros N I. rewrite combine_app by (rewrite !map_length; auto).
  rewrite filter_app, map_app, sum_R_app, energy_row by auto. f_equal.
  destruct (c r) eqn:C.
  - apply energy_row.
    + clear I. induction ks as [|x ks IH]; [constructor|]. cbn [filter map] in *. inversion N; subst.
      destruct (c x); auto. cbn [map]. constructor; auto. intros X. apply H1.
      apply in_map_iff in X as (y & E & Y). apply filter_In in Y as (Y & _). rewrite <- E. apply in_map; auto.
    + apply filter_In; auto.
  - apply energy_row_none. intros X. apply in_map_iff in X as (y & E & Y). apply filter_In in Y as (Y & Cy).
    enough (y = r) by congruence. clear - N I Y E.
    induction ks as [|x ks IH]; [destruct I|]. cbn [map] in N. inversion N; subst.
    destruct I as [->|I], Y as [->|Y]; auto.
    + exfalso. apply H1. rewrite <- E. apply in_map; auto.
    + exfalso. apply H1. rewrite E. apply in_map; auto.
Qed.

(** *** Refraction *)
Lemma nth_error_map_inv {A B} (f : A -> B) l k x : nth_error l k = Some x -> nth_error (map f l) k = Some (f x).
Proof. intros H. rewrite nth_error_map, H. reflexivity. Qed.

Lemma nonzero_sorted m : Sorted.StronglySorted lt (nonzero m).
Proof.
  rewrite nonzero_filter. generalize 0%nat. intros k.
  generalize (fun i => nth i m false) as f. generalize (length m) as n. intros n f.
  revert k. induction n as [|n IH]; intros k; cbn [seq filter]; [constructor|].
  destruct (f k); auto. constructor; auto. apply Forall_forall. intros x Hx.
  apply filter_In in Hx as (Hx & _). apply in_seq in Hx. lia.
Qed.

Lemma refractive_top i1 i2 gs b n sel pts ns z g : 0 < i1 -> 0 < i2 ->
  refractive_input i1 i2 gs b n sel pts ns z ->
  exists o, call_optics (Refractive i1 i2) gs b sel g = Ok (o, g) /\
    splits i1 i2 b sel pts ns o /\
    (NoDup sel -> forall i e, In i sel -> energy_at b i = Some e -> energy_from o i = e).
Proof.
  intros P1 P2 (T & Hs & G & Lp & Un & Ne & W). pose proof G as (_ & _ & _ & Lpn).
  destruct (rows_plain b n sel pts ns T Hs Lp ltac:(congruence)) as (ks & -> & -> & -> & H).
  assert (Inc : forall k r, nth_error ks k = Some r ->
    incoming b (map w_i ks) (map w_p ks) (map w_n ks) k (w_i r) (w_d r) (w_e r) (w_p r) (w_n r)).
  { intros k r Hk. pose proof (nth_error_In _ _ Hk) as I. unfold incoming.
    repeat split; try (apply nth_error_map_inv; auto).
    - apply (hr_dir _ _ H); auto.
    - apply (hr_energy _ _ H); auto. }
  assert (Hr : b_ref b <> None).
  { destruct ks as [|r ks']; [exfalso; apply Ne; reflexivity|].
    destruct (W 0%nat _ _ _ _ _ (Inc 0%nat r eq_refl)) as (_ & m & Hm & _). unfold ref_at, at_col in Hm.
    destruct (b_ref b); congruence. }
  assert (Q : forall r, In r ks -> 0 < w_r r /\ is_unit (w_d r) /\ is_unit (w_n r) /\
     (can_refract (w_r r) (other i1 i2 r) (w_d r) (w_n r) -> reflectance_defined (w_r r) (other i1 i2 r) (w_d r) (w_n r))).
  { intros r I. destruct (In_nth_error _ _ I) as (k & Hk).
    destruct (W k _ _ _ _ _ (Inc k r Hk)) as (Ud & m & Hm & Pm & D).
    rewrite (hr_ref _ _ H Hr r I) in Hm. injection Hm as <-.
    rewrite Forall_forall in Un. repeat split; auto.
    - apply Un, in_map; auto.
    - intros C. apply D; auto. unfold other_side, other. split; rdec; auto; congruence. }
  destruct (refractive_emits i1 i2 gs b n ks z P1 P2 T H G) as (F & o & Ec & To & So & Po & Eo & C1 & C2); auto.
  { intros ->. apply Ne; reflexivity. }
  { intros r I. destruct (Q r I) as (A & B & C & _). auto. }
  { intros r I. apply Q; auto. }
  exists o. split; [cbn [call_optics]; rewrite Ec; reflexivity|]. split.
  - pose proof (filter_nonzero (refracts i1 i2) ks) as FN.
    exists (nonzero (map (refracts i1 i2) ks)). split; [apply nonzero_sorted|]. split.
    { intros k Hk. pose proof (nonzero_range (map (refracts i1 i2) ks)) as X. rewrite Forall_forall in X.
      apply X in Hk. rewrite map_length in *. auto. }
    rewrite map_length. split.
    { apply Forall2_nth in FN as (FL & _). rewrite FL. auto. }
    split; auto. intros k i d e p m0 m m' I Hm Om.
    apply (incoming_row b ks) in I as (r & Hk & -> & -> & -> & -> & ->); auto.
    pose proof (nth_error_In _ _ Hk) as I. rewrite (hr_ref _ _ H Hr r I) in Hm. injection Hm as <-.
    assert (m' = other i1 i2 r) as ->.
    { unfold other. destruct Om. rdec; auto. }
    destruct (F r I) as (Fr & Fs). destruct (Q r I) as (Pm & Ud & Ur & _).
    split.
    { rewrite nonzero_spec. rewrite (nth_error_map_inv (refracts i1 i2) _ _ _ Hk). rewrite <- Fr.
      split; congruence. }
    exists (reflection (w_d r) (w_n r)), (fraction i1 i2 r).
    assert (Po' : 0 < other i1 i2 r) by (unfold other; rdec; auto).
    split; [|split; [apply reflection_mirrored; auto|split; [apply C1; auto|split; [|split]]]].
    + destruct (refracts i1 i2 r) eqn:O.
      * destruct (Fs eq_refl) as (_ & Rf). exact (reflectance_bounds _ _ _ _ _ Pm Po' Rf).
      * unfold fraction. rewrite O. lra.
    + intros C. apply Fs, Fr, C.
    + intros C. unfold fraction. destruct (refracts i1 i2 r) eqn:O; auto. exfalso. apply C, Fr. auto.
    + intros j Hj.
      assert (Hf : nth_error (filter (refracts i1 i2) ks) j = Some r).
      { apply Forall2_nth in FN as (FL & FN). destruct (nth_error (filter (refracts i1 i2) ks) j) as [r'|] eqn:Er.
        - specialize (FN j k r' Hj Er). cbn in FN. congruence.
        - apply nth_error_None in Er. assert (j < length (nonzero (map (refracts i1 i2) ks)))%nat
            by (apply nth_error_Some; congruence). lia. }
      exists (out_dir i1 i2 r). split.
      * apply Fs. apply nth_error_In, filter_In in Hf. tauto.
      * apply C2; auto.
  - intros Nd i e Hi He. apply in_map_iff in Hi as (r & <- & I).
    rewrite (hr_energy _ _ H r I) in He. injection He as <-.
    unfold energy_from. rewrite Po, Eo. rewrite energy_split; auto.
    destruct (refracts i1 i2 r) eqn:O; [ring|]. unfold fraction. rewrite O. ring.
Qed.

(** *** Fresnel *)
Lemma fresnel_reversed n1 n2 d n d' : 0 < n1 -> 0 < n2 -> is_unit d -> is_unit n ->
  can_refract n1 n2 d n -> reflectance_defined n1 n2 d n -> snell n1 n2 n d d' ->
  fresnel (vopp d') n n2 n1 = fresnel d n n1 n2.
Proof.
  intros H1 H2 D N C Hd S. destruct (fresnel_lawful n1 n2 d n H1 H2 D N C Hd) as (r & -> & Rf).
  pose proof (reflectance_reversed n1 n2 d n d' r H1 H2 D N S Rf) as Rr.
  assert (D' : is_unit (vopp d')).
  { destruct S as (U & _). unfold is_unit in *. rewrite <- U. unfold norm2.
    rewrite dot_vopp_l, dot_comm, dot_vopp_l. ring. }
  assert (C' : can_refract n2 n1 (vopp d') n).
  { destruct C as (t & I & L). destruct (snell_angle _ _ _ _ _ _ H2 D N S I) as (t2 & (J & Ct) & E).
    exists t2. split; [split; auto; rewrite dot_vopp_l, Rabs_Ropp; auto|].
    rewrite <- E. pose proof (SIN_bound t). nra. }
  assert (Df : reflectance_defined n2 n1 (vopp d') n).
  { unfold reflectance_defined in *. destruct (Req_dec n1 n2) as [E|E]; [|right; auto].
    left. destruct Hd as [Hd|Hd]; [|congruence]. rewrite dot_vopp_l. intros Z. apply Hd.
    destruct S as (U & _ & _ & _ & E' & _). rewrite !unit_cross in E' by auto. subst n2.
    assert (Z' : dot d' n = 0) by lra. rewrite Z' in E'.
    apply Rmult_eq_reg_l in E'; [|lra]. replace (1 - 0 * 0) with 1 in E' by ring. rewrite sqrt_1 in E'.
    pose proof (unit_dot d n D N).
    assert (X : 1 - dot d n * dot d n = 1).
    { rewrite <- (sqrt_sqrt (1 - dot d n * dot d n)) by nra. rewrite E'. ring. }
    nra. }
  destruct (fresnel_lawful n2 n1 (vopp d') n H2 H1 D' N C' Df) as (r' & -> & Rf').
  f_equal. exact (reflectance_unique n2 n1 _ _ _ _ H1 Rf' Rr).
Qed.

Lemma fresnel_top n1 n2 d n : 0 < n1 -> 0 < n2 -> is_unit d -> is_unit n ->
  can_refract n1 n2 d n -> reflectance_defined n1 n2 d n ->
  exists r, fresnel d n n1 n2 = Ok r /\ reflectance n1 n2 d n r /\ 0 <= r <= 1 /\
    (Rabs (dot d n) = 1 -> r = ((n1 - n2) / (n1 + n2)) ^ 2) /\
    forall d', snell n1 n2 n d d' -> fresnel (vopp d') n n2 n1 = Ok r.
Proof.
  intros H1 H2 D N C Hd. destruct (fresnel_lawful n1 n2 d n H1 H2 D N C Hd) as (r & E & Rf).
  exists r. split; auto. split; auto. split; [exact (reflectance_bounds _ _ _ _ _ H1 H2 Rf)|].
  split; [intros A; exact (reflectance_normal _ _ _ _ _ H1 H2 A Rf)|].
  intros d' S. rewrite <- E. apply fresnel_reversed; auto.
Qed.

(** Without a defined reflectance numpy computes 0/0. *)
Lemma fresnel_grazing d n m : 0 < m -> dot d n = 0 -> fresnel d n m m = Err OutOfModel.
Proof.
  intros Hm Z. unfold fresnel. rewrite (dot_comm n d), Z, Rabs_R0. unfold np_arccos.
  rewrite Rabs_R0. destruct (Rltb_spec 1 0); [lra|]. cbn [bind].
  rewrite np_div_ok by lra. cbn [bind]. rewrite acos_0, cos_PI2, sin_PI2. unfold sq.
  replace (1 - m / m * 1 * (m / m * 1)) with 0 by (field; lra). unfold np_sqrt.
  destruct (Rltb_spec 0 0); [lra|]. cbn [bind]. rewrite sqrt_0. unfold np_div.
  replace (m * 0 + m * 0) with 0 by ring. destruct (Reqb_spec 0 0); [reflexivity|congruence].
Qed.

(** *** Energy balance at a receiver *)
Lemma accountant_call id o gs b n sel pts ns z g r g1 : traceable b n -> (forall i, In i sel -> (i < n)%nat) ->
  told gs pts ns z -> length pts = length sel ->
  call_optics (Absorbing o) gs b sel g = Ok (r, g1) ->
  exists g', call_optics (Accountant id o) gs b sel g = Ok (r, g') /\ g_rng g' = g_rng g1.
Proof.
  intros T Hs (Gp & _) Lp E. cbn [call_optics] in *.
  destruct (batch_exists gs b n sel pts T Hs Gp Lp) as (l & pts' & es & Gp' & He & P & El).
  destruct (call_absorbing o gs b sel (g_rng g)) as [[r' g2]|]; cbn [bind] in E; [|discriminate].
  injection E as <- <-. unfold record_hits, get_energy, get_prop. rewrite He. cbn [bind select].
  rewrite (proj2 (take_ok es sel (map fst l)) P). cbn [bind]. rewrite Gp. cbn [bind]. eauto.
Qed.

Lemma one_each_balanced o b n sel pts ns r (P : vec -> R -> vec -> vec -> R -> Prop) :
  traceable b n -> (forall i, In i sel -> (i < n)%nat) -> length pts = length sel -> length ns = length sel ->
  (forall d e m d' e', P d e m d' e' -> e' + e * absorptivity o = e) ->
  one_each b sel pts ns r P -> balanced o b sel pts r.
Proof.
  intros T Hs Lp Ln HP (_ & _ & H) k i e p Hk He Hp.
  destruct (rows_plain b n sel pts ns T Hs Lp Ln) as (ks & -> & -> & -> & Hr).
  pose proof Hk as Hk'. apply nth_map_iff in Hk' as (q & Hq & ->). pose proof (nth_error_In _ _ Hq) as I.
  destruct (H k (w_i q) (w_d q) e p (w_n q)) as (d' & e' & HPd & C).
  { repeat split; auto.
    - apply (hr_dir _ _ Hr); auto.
    - apply nth_error_map_inv; auto. }
  split; [apply (ch_vert _ _ _ _ _ _ _ _ C)|].
  exists e'. split; [apply (ch_energy _ _ _ _ _ _ _ _ C)|]. eauto.
Qed.

Lemma receiver_balanced id o gs b n sel pts ns z g : fair (g_rng g) ->
  traceable b n -> (forall i, In i sel -> (i < n)%nat) ->
  told gs pts ns z -> length pts = length sel -> Forall is_unit ns ->
  match o with AbsorberReflector _ => False | _ => True end ->
  exists r g', call_optics (Accountant id o) gs b sel g = Ok (r, g') /\ fair (g_rng g') /\
    traceable r (length sel) /\ balanced o b sel pts r.
Proof.
  intros F T Hs G Lp Un Ho. pose proof G as (_ & _ & _ & Lpn). destruct o as [a|a|a]; [|destruct Ho|].
  - destruct (reflective_top a gs b n sel pts ns z g T Hs G Lp Un) as (r & E & O).
    destruct (accountant_call id (Reflective a) gs b n sel pts ns z g r g T Hs G Lp E) as (g' & E' & Eg).
    exists r, g'. split; auto. split; [rewrite Eg; auto|]. split; [apply O|].
    refine (one_each_balanced _ b n sel pts ns r _ T Hs Lp ltac:(congruence) _ O).
    cbn [absorptivity]. intros d e m d' e' (_ & ->). ring.
  - destruct (lambertian_top a gs b n sel pts ns z g F T Hs G Lp Un) as (r & g1 & E & Fg & _ & O).
    destruct (accountant_call id (Lambertian a) gs b n sel pts ns z g r g1 T Hs G Lp E) as (g' & E' & Eg).
    exists r, g'. split; auto. split; [rewrite Eg; auto|]. split; [apply O|].
    refine (one_each_balanced _ b n sel pts ns r _ T Hs Lp ltac:(congruence) _ O).
    cbn [absorptivity]. intros d e m d' e' (_ & _ & ->). ring.
Qed.

(** *** Toggling *)
Lemma toggle_top i1 i2 l :
  toggle_ref_idx i1 i2 [i1] = [i2] /\ toggle_ref_idx i1 i2 [i2] = [i1] /\
  (forall m, m <> i1 -> toggle_ref_idx i1 i2 [m] = [i1]) /\
  (Forall (fun m => m = i1 \/ m = i2) l -> toggle_ref_idx i1 i2 (toggle_ref_idx i1 i2 l) = l) /\
  length (toggle_ref_idx i1 i2 l) = length l /\
  forall k m, nth_error l k = Some m -> exists m', nth_error (toggle_ref_idx i1 i2 l) k = Some m' /\
    other_side i1 i2 m m'.
Proof.
  unfold toggle_ref_idx. cbn [map]. repeat split.
  - rdec; congruence.
  - rdec; congruence.
  - intros m H. rdec; congruence.
  - intros H. rewrite map_map. rewrite <- (map_id l) at 2. apply map_ext_in. intros m I.
    rewrite Forall_forall in H. destruct (H m I) as [->| ->]; rdec; congruence.
  - apply map_length.
  - intros k m H. rewrite nth_error_map, H. cbn [option_map]. eexists. split; [reflexivity|].
    unfold other_side. rdec; split; congruence.
Qed.

(** *** Concrete rays: down onto the plane z = 0, straight and slanted. *)
Definition rays2 : bundle :=
  mkB (Some [V3 0 0 1; V3 0 0 1]) (Some [V3 0 0 (-1); V3 (3/5) 0 (-4/5)]) (Some [2; 5]) None (Some [1; 1]) [].
Definition points2 : list vec := [V3 0 0 0; V3 (3/4) 0 0].
Definition found2 : gstate := GSelFlat id4 rays2 [0%nat; 1%nat] [] points2.

Lemma rays2_traceable : traceable rays2 2.
Proof.
  unfold traceable. split; [|split; [|split; discriminate]].
  - unfold names_ok. cbn. constructor.
  - unfold rays. split; [eexists; reflexivity|]. intros p l. destruct p; cbn [prop rays2 b_vert b_dir b_energy b_parents b_ref b_extra option_map];
      try (intros E; injection E as <-; reflexivity); try discriminate.
Qed.

Lemma found2_told : told found2 points2 [V3 0 0 1; V3 0 0 1] (V3 0 0 1).
Proof. unfold told. repeat split. Qed.

Lemma units2 : Forall is_unit [V3 0 0 1; V3 0 0 1].
Proof. repeat constructor; unfold is_unit; vunfold; ring. Qed.

Lemma incoming2 k i d e p n : incoming rays2 [0%nat; 1%nat] points2 [V3 0 0 1; V3 0 0 1] k i d e p n ->
  n = V3 0 0 1 /\ ref_at rays2 i = Some 1 /\ (d = V3 0 0 (-1) \/ d = V3 (3/5) 0 (-4/5)).
Proof.
  intros (A & B & C & D & E).
  destruct k as [|[|[|k]]]; cbn in A, B, C, D, E; try discriminate;
    injection A as <-; cbn in B, C; injection B as <-; injection E as <-; auto.
Qed.

Lemma wanted2 i1 i2 : refractive_input i1 i2 found2 rays2 2 [0%nat; 1%nat] points2 [V3 0 0 1; V3 0 0 1] (V3 0 0 1).
Proof.
  split; [exact rays2_traceable|]. split; [intros i [<-|[<-|[]]]; lia|].
  split; [exact found2_told|]. split; [reflexivity|]. split; [exact units2|]. split; [discriminate|].
  intros k i d e p n I. destruct (incoming2 _ _ _ _ _ _ I) as (-> & Hr & Hd). split.
  - destruct Hd as [->| ->]; unfold is_unit; vunfold; field.
  - exists 1. split; auto. split; [lra|]. intros m' _ _. left. destruct Hd as [->| ->]; vunfold; lra.
Qed.

(** Of these, the slanted ray is totally reflected when leaving a medium twice as
    dense. *)
Lemma split2 : can_refract 1 (1/2) (V3 0 0 (-1)) (V3 0 0 1) /\
  ~ can_refract 1 (1/2) (V3 (3/5) 0 (-4/5)) (V3 0 0 1).
Proof.
  split.
  - exists 0. split; [|rewrite sin_0; lra]. split; [pose proof PI_RGT_0; lra|]. rewrite cos_0. vunfold.
    replace (0 * 0 + 0 * 0 + -1 * 1) with (-1) by ring. rewrite Rabs_left; lra.
  - intros (t & I & L). pose proof (incidence_sin2 _ _ _ I) as S. pose proof (sin_quarter _ (proj1 I)) as P.
    revert S. vunfold. intros S. nra.
Qed.

Definition ray_up : bundle := mkB (Some [V3 0 0 (-1)]) (Some [V3 0 0 1]) (Some [1]) None None [].
Definition found_up : gstate := GSelFlat id4 ray_up [0%nat] [0%nat] [V3 0 0 0].

Lemma ray_up_traceable : traceable ray_up 1.
Proof.
  unfold traceable. split; [|split; [|split; discriminate]].
  - unfold names_ok. cbn. constructor.
  - unfold rays. split; [eexists; reflexivity|]. intros p l. destruct p; cbn [prop ray_up b_vert b_dir b_energy b_parents b_ref b_extra option_map];
      try (intros E; injection E as <-; reflexivity); try discriminate.
Qed.

(** An accountant around a one-sided absorber does not account for everything. *)
Lemma one_sided_unbalanced g : exists r g', 
  call_optics (Accountant 0 (AbsorberReflector (1/2))) found_up ray_up [0%nat] g = Ok (r, g') /\
  get_all_hits (g_acc g' 0) <> Err ValueError /\
  ~ balanced (AbsorberReflector (1/2)) ray_up [0%nat] [V3 0 0 0] r.
Proof.
  destruct (absorber_top (1/2) found_up ray_up 1 [0%nat] [V3 0 0 0] [V3 0 0 (-1)] (V3 0 0 1) g)
    as (r & E & _ & _ & O).
  - exact ray_up_traceable.
  - intros i [<-|[]]; lia.
  - unfold told. repeat split. cbn. unfold zaxis, vopp. cbn. repeat f_equal; ring.
  - reflexivity.
  - repeat constructor. unfold is_unit. vunfold. ring.
  - cbn [call_optics] in E |- *.
    destruct (call_absorbing (AbsorberReflector (1/2)) found_up ray_up [0%nat] (g_rng g)) as [[r' g1]|];
      cbn [bind] in E; [|discriminate].
    assert (r' = r) as -> by congruence.
    exists r. eexists. split; [unfold record_hits; cbn [get_energy get_prop ray_up b_energy bind select]; cbn; reflexivity|].
    split.
    + cbn [g_acc]. unfold upd. cbn [Nat.eqb]. unfold get_all_hits. cbn [a_absorbed a_hits].
      rewrite app_length, Nat.add_comm. cbn [length Nat.add Nat.eqb].
      rewrite !filter_app. cbn [filter nonempty length Nat.eqb negb scaled map].
      destruct (filter nonempty (a_absorbed (g_acc g 0))), (filter nonempty (a_hits (g_acc g 0))); cbn; discriminate.
    + intros B. destruct (B 0%nat 0%nat 1 (V3 0 0 0) eq_refl eq_refl eq_refl) as (_ & e' & He & Bal).
      destruct (O 0%nat 0%nat (V3 0 0 1) 1 (V3 0 0 0) (V3 0 0 (-1))) as (d' & e'' & (_ & _ & Z) & C).
      { repeat split. }
      rewrite (ch_energy _ _ _ _ _ _ _ _ C) in He. injection He as ->.
      rewrite Z in Bal by (vunfold; lra). cbn [absorptivity] in Bal. lra.
Qed.

Lemma reflection_top d n : is_unit n ->
  mirrored n d (reflection d n) /\ norm2 (reflection d n) = norm2 d /\
  reflection (reflection d n) n = d /\
  forall d', mirrored n d d' -> d' = reflection d n.
Proof.
  intros N. pose proof (reflection_mirrored d n N) as M. split; auto.
  split; [exact (mirrored_norm n d _ N M)|]. split.
  - apply (mirrored_unique n (reflection d n)); [apply reflection_mirrored; auto|].
    apply mirrored_back; auto.
  - intros d' M'. exact (mirrored_unique n d _ _ M' M).
Qed.

Lemma snell_top n1 n2 d n : 0 < n1 -> 0 < n2 -> is_unit d -> is_unit n ->
  can_refract n1 n2 d n ->
  exists d', refracted_dir (n2 / n1) d n = Ok d' /\ snell n1 n2 n d d'.
Proof.
  intros H1 H2 D N C. apply can_refract_iff in C; auto.
  destruct (refracted_snell n1 n2 d n H1 H2 D N C) as (d' & E & S & _). eauto.
Qed.

Lemma incidence_top d n : is_unit d -> is_unit n ->
  exists theta, incidence d n theta /\ forall theta', incidence d n theta' -> theta' = theta.
Proof.
  intros D N. exists (acos (Rabs (dot d n))). split; [apply incidence_acos; auto|].
  intros t I. eapply incidence_unique; eauto using incidence_acos.
Qed.

Lemma hartmann_wrong : exists L a b c d e r, c <> L /\ e <> L /\
  refr_idx_hartmann L a b c d e = Ok r /\ r <> a + b / (c - L) + d / (e - L).
Proof.
  exists 0, 0, 0, 1, 1, 1, (0 + 0 / (1 - 0)). split; [lra|]. split; [lra|]. split.
  - unfold refr_idx_hartmann. rewrite np_div_ok by lra. reflexivity.
  - lra.
Qed.

Lemma hartmann_computed L a b c d e : c <> L ->
  refr_idx_hartmann L a b c d e = Ok (a + b / (c - L)).
Proof. intros H. unfold refr_idx_hartmann. rewrite np_div_ok by lra. reflexivity. Qed.

Lemma refractive_empty i1 i2 gs b g : call_optics (Refractive i1 i2) gs b [] g = Err AttributeError.
Proof. reflexivity. Qed.

(** Snell's law leaves no choice. *)
Lemma snell_shape n1 n2 n d d' : 0 < n1 -> 0 < n2 -> is_unit d -> is_unit n -> snell n1 n2 n d d' ->
  tangential d' n = vscale (n1 / n2) (tangential d n) /\
  n2 * n2 * (1 - dot d' n * dot d' n) = n1 * n1 * (1 - dot d n * dot d n).
Proof.
  intros H1 H2 D N (U & (a & b & E) & _ & _ & C & Fw).
  rewrite !unit_cross in C by auto.
  pose proof (unit_dot d n D N). pose proof (unit_dot d' n U N).
  assert (Q : n2 * n2 * (1 - dot d' n * dot d' n) = n1 * n1 * (1 - dot d n * dot d n)).
  { rewrite <- (sqrt_sqrt (1 - dot d' n * dot d' n)) by nra.
    rewrite <- (sqrt_sqrt (1 - dot d n * dot d n)) by nra.
    set (p := sqrt (1 - dot d' n * dot d' n)) in *. set (q := sqrt (1 - dot d n * dot d n)) in *.
    replace (n2 * n2 * (p * p)) with ((n2 * p) * (n2 * p)) by ring. rewrite <- C. ring. }
  split; auto.
  assert (T : tangential d' n = vscale a (tangential d n)).
  { rewrite E. unfold tangential. clear - N. unfold is_unit in N. destruct d as [x y z], n as [u v w]. revert N. vunfold. intros N.
    veq.
    - replace (a * x + b * u - ((a * x + b * u) * u + (a * y + b * v) * v + (a * z + b * w) * w) * u)
        with (a * (x - (x * u + y * v + z * w) * u) + b * u * (1 - (u * u + v * v + w * w))) by ring. rewrite N. ring.
    - replace (a * y + b * v - ((a * x + b * u) * u + (a * y + b * v) * v + (a * z + b * w) * w) * v)
        with (a * (y - (x * u + y * v + z * w) * v) + b * v * (1 - (u * u + v * v + w * w))) by ring. rewrite N. ring.
    - replace (a * z + b * w - ((a * x + b * u) * u + (a * y + b * v) * v + (a * z + b * w) * w) * w)
        with (a * (z - (x * u + y * v + z * w) * w) + b * w * (1 - (u * u + v * v + w * w))) by ring. rewrite N. ring. }
  assert (L : forall e, is_unit e -> norm2 (tangential e n) = 1 - dot e n * dot e n).
  { intros e Ue. pose proof (decomp_norm2 (tangential e n) n (dot e n) N (tangential_dot e n N)) as X.
    rewrite <- mirrored_decomp in X. unfold is_unit in Ue. rewrite Ue in X. lra. }
  pose proof (L d D) as Ld. pose proof (L d' U) as Ld'. rewrite T in Ld', Fw |- *.
  replace (norm2 (vscale a (tangential d n))) with (a * a * norm2 (tangential d n)) in Ld'
    by (generalize (tangential d n); intros [x y z]; vunfold; ring).
  assert (Fw' : 0 <= a * norm2 (tangential d n)).
  { revert Fw. unfold norm2. generalize (tangential d n). intros t. destruct t as [x y z]. vunfold. intros; nra. }
  destruct (Req_dec (norm2 (tangential d n)) 0) as [Z|Z].
  - assert (Zv : tangential d n = vzero).
    { clear - Z. revert Z. generalize (tangential d n). intros [x y z]. unfold norm2, vzero. vunfold. intros Z.
      assert (x = 0 /\ y = 0 /\ z = 0) as (-> & -> & ->); [|reflexivity].
      pose proof (Rle_0_sqr x). pose proof (Rle_0_sqr y). pose proof (Rle_0_sqr z). unfold Rsqr in *.
      repeat split; nra. }
    rewrite Zv. unfold vzero. vunfold. veq; ring.
  - f_equal.
    assert (Pt : 0 < norm2 (tangential d n)).
    { assert (0 <= norm2 (tangential d n)) by (rewrite Ld; nra). lra. }
    assert (A0 : 0 <= a) by (apply Rmult_le_reg_r with (norm2 (tangential d n)); lra).
    assert (A2 : n2 * n2 * (a * a) = n1 * n1).
    { rewrite <- Ld', <- Ld in Q. apply (Rmult_eq_reg_r (norm2 (tangential d n))); [|lra]. rewrite <- Q. ring. }
    assert (A1 : n2 * a = n1).
    { apply Rsqr_inj; [apply Rmult_le_pos; lra|lra|]. unfold Rsqr. rewrite <- A2. ring. }
    rewrite <- A1. field. lra.
Qed.

Lemma snell_unique n1 n2 n d d1 d2 : 0 < n1 -> 0 < n2 -> is_unit d -> is_unit n ->
  snell n1 n2 n d d1 -> snell n1 n2 n d d2 -> d1 = d2.
Proof.
  intros H1 H2 D N S1 S2. destruct (snell_shape _ _ _ _ _ H1 H2 D N S1) as (T1 & Q1).
  destruct (snell_shape _ _ _ _ _ H1 H2 D N S2) as (T2 & Q2).
  destruct S1 as (U1 & _ & P1 & M1 & _). destruct S2 as (U2 & _ & P2 & M2 & _).
  assert (E : dot d1 n = dot d2 n).
  { assert (X : dot d1 n * dot d1 n = dot d2 n * dot d2 n).
    { apply Rmult_eq_reg_l with (n2 * n2); [lra|nra]. }
    destruct (Rle_lt_dec 0 (dot d n)) as [H|H].
    - specialize (P1 H). specialize (P2 H). apply Rsqr_inj; auto.
    - specialize (M1 H). specialize (M2 H).
      assert (- dot d1 n = - dot d2 n); [|lra]. apply Rsqr_inj; [lra|lra|]. unfold Rsqr. lra. }
  rewrite (mirrored_decomp d1 n), (mirrored_decomp d2 n), T1, T2, E. reflexivity.
Qed.
