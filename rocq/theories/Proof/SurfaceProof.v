(** Library surfaces fulfil the engine's requirements. *)
From Coq Require Import Reals String List Arith Bool Lia Lra.
From Verif.Base Require Import Py Num Vec.
From Verif.Model Require Import RayBundle Geometry Spatial Sources Optics OpticsCallables Engine Surface.
From Verif.Spec Require Import BundleSpec EngineSpec GeometrySpec GeomIface OpticsSpec LibrarySpec.
From Verif.Proof Require Import ListLemmas NumLemmas VecLemmas BundleProof SelectProof GeomTop
  OpticsProof CallProof RefractProof OpticsTop.
Import ListNotations.
Local Open Scope R_scope.

(** The protocol with [done] forgetting the selection as well. *)
Definition canon_done (s : surface) : surface := new_surface (s_geom s) (s_opt s) (s_frame s).
Definition canon_ops : surf_ops surface shared :=
  mkOps surf_register surf_select surf_outgoing canon_done.
Definition canon_good (s : surface) : Prop := lib_surface s /\ s_selected s = None.

Lemma canon_idle s : canon_good s -> canon_done s = s.
Proof. destruct s. unfold canon_good, lib_surface, idle, canon_done, new_surface. cbn. intros ((_ & _ & -> & ->) & ->). reflexivity. Qed.

Lemma register_inv s b s1 ps : surf_register s b = Ok (s1, ps) ->
  exists gs, find_intersections (s_geom s) (s_frame s) b = Ok (gs, ps) /\
    s1 = mkS (s_geom s) (s_opt s) (s_frame s) gs (Some b) (s_selected s).
Proof.
  unfold surf_register. intros H. apply bind_ok in H as ([gs p] & E & H). injection H as <- <-. eauto.
Qed.
Lemma select_inv s idx s2 : surf_select s idx = Ok s2 ->
  exists gs, select_geom (s_geom s) (s_gstate s) idx = Ok gs /\
    s2 = mkS (s_geom s) (s_opt s) (s_frame s) gs (s_bundle s) (Some idx).
Proof. unfold surf_select. intros H. apply bind_ok in H as (gs & E & H). injection H as <-. eauto. Qed.

Lemma up_selected gm st idx gs : select_geom gm st idx = Ok gs -> exists z, up gs = Ok z.
Proof.
  unfold select_geom. destruct st as [|fr b dt| |]; try discriminate.
  destruct dt; intros H; repeat (apply bind_ok in H as (? & ?E & H)); injection H as <-; cbn [up]; eauto.
Qed.

(** What the optics manager is told about hits. *)
Lemma selected_told gm frame b n gs ps idx gs2 : rigid frame -> traceable b n ->
  find_intersections gm frame b = Ok (gs, ps) -> all_hit ps idx -> select_geom gm gs idx = Ok gs2 ->
  exists pts ns z, told gs2 pts ns z /\ length pts = length idx /\ Forall is_unit ns /\
    Forall2 (point_of b ps) idx pts /\ (forall i, In i idx -> (i < n)%nat).
Proof.
  intros Hf T F A S.
  destruct (points_reported _ _ _ _ _ _ _ F A S) as (pts & Gp & P).
  destruct (normals_reported _ _ _ _ _ _ _ Hf F A S) as (ns & Gn & N).
  destruct (up_selected _ _ _ _ S) as (z & Gz).
  pose proof (proj1 (proj1 (Forall2_nth _ _ _) P)) as Lp.
  pose proof (proj1 (proj1 (Forall2_nth _ _ _) N)) as Ln.
  exists pts, ns, z. split; [repeat split; auto; congruence|]. split; [congruence|]. split; [|split; auto].
  - clear - N. induction N as [|i m il nl (d & p & q & g & _ & _ & _ & _ & U & _) N IH]; constructor; auto.
  - intros i Hi. apply In_nth_error in Hi as (k & Hk).
    destruct (nth_error pts k) as [p|] eqn:Ep.
    + destruct (proj2 (proj1 (Forall2_nth _ _ _) P) k i p Hk Ep) as (vs & ds & v & d & t & (Hv & _) & Hvi & _).
      destruct (traceable_parts _ _ T) as (vs' & ds' & es' & Hv' & _ & _ & Lv & _).
      assert (vs' = vs) by congruence. subst vs'. rewrite <- Lv. apply nth_error_Some. congruence.
    + apply nth_error_None in Ep. assert (k < length idx)%nat by (apply nth_error_Some; congruence). lia.
Qed.

Lemma incoming_exists b n sel pts ns k i : traceable b n -> (forall i, In i sel -> (i < n)%nat) ->
  length pts = length sel -> length ns = length sel -> nth_error sel k = Some i ->
  exists d e p m, incoming b sel pts ns k i d e p m.
Proof.
  intros T Hs Lp Ln Hk. destruct (rows_plain b n sel pts ns T Hs Lp Ln) as (ks & -> & -> & -> & H).
  apply nth_map_iff in Hk as (r & Hr & ->). pose proof (nth_error_In _ _ Hr) as I.
  exists (w_d r), (w_e r), (w_p r), (w_n r).
  repeat split; try (apply nth_error_map_inv; auto).
  - apply (hr_dir _ _ H); auto.
  - apply (hr_energy _ _ H); auto.
Qed.

(** The engine's requirements on what is emitted for the rays [idx] of [b] at the
    parameters [ps]. *)
Definition emits_ok (RP : ray_prop) (b : bundle) (ps : list num) (idx : list nat) (o : bundle) : Prop :=
  exists m, traceable o m /\ all_rays RP o /\ same_set o b /\ b_parents o <> None /\
    (forall k, (k < m)%nat -> exists i t v d,
       parent_at o k = Some i /\ In i idx /\ nth_error ps i = Some (Fin t) /\
       vert_at b i = Some v /\ dir_at b i = Some d /\
       vert_at o k = Some (vadd v (vscale t d))) /\
    (forall i, In i idx -> exists k, (k < m)%nat /\ parent_at o k = Some i).
Definition energy_ok (b : bundle) (idx : list nat) (o : bundle) : Prop :=
  forall i e, In i idx -> energy_at b i = Some e -> (energy_from o i <= e)%R.

Lemma at_point b ps i p : point_of b ps i p -> exists t v d, nth_error ps i = Some (Fin t) /\
  vert_at b i = Some v /\ dir_at b i = Some d /\ p = vadd v (vscale t d).
Proof.
  intros (vs & ds & v & d & t & (Hv & Hd & _) & A & B & C & ->). exists t, v, d.
  unfold vert_at, dir_at, at_col. rewrite Hv, Hd. auto.
Qed.

Lemma Forall2_at {A B} (P : A -> B -> Prop) l l' k a b : Forall2 P l l' ->
  nth_error l k = Some a -> nth_error l' k = Some b -> P a b.
Proof. intros H. apply Forall2_nth in H as (_ & H). apply H. Qed.

Lemma energy_from_at o ps es k i e : b_parents o = Some ps -> b_energy o = Some es ->
  NoDup ps -> nth_error ps k = Some i -> nth_error es k = Some e -> length es = length ps ->
  energy_from o i = e.
Proof.
  intros Hp He N Hk Hek L. unfold energy_from. rewrite Hp, He. clear Hp He.
  revert es k N Hk Hek L. induction ps as [|p ps IH]; intros es k N Hk Hek L; [destruct k; discriminate|].
  destruct es as [|x es]; [discriminate|]. cbn [combine filter fst]. inversion N; subst.
  destruct k as [|k]; cbn [nth_error] in Hk, Hek.
  - injection Hk as ->. injection Hek as ->. rewrite Nat.eqb_refl. cbn [map snd sum_R fold_right].
    assert (Z : filter (fun pe => Nat.eqb (fst pe) i) (combine ps es) = []).
    { clear - H1. revert es. induction ps as [|q ps IH]; intros [|y es]; auto. cbn [combine filter fst].
      destruct (Nat.eqb_spec q i) as [->|_]; [exfalso; apply H1; left; auto|].
      apply IH. intros X. apply H1. right; auto. }
    rewrite Z. cbn. ring.
  - destruct (Nat.eqb_spec p i) as [->|_].
    + exfalso. apply H1. eapply nth_error_In; eauto.
    + apply (IH es k); auto.
Qed.

Lemma nth_error_ext {A} (l l' : list A) : (forall k, nth_error l k = nth_error l' k) -> l = l'.
Proof.
  revert l'. induction l as [|a l IH]; intros [|a' l'] H; auto.
  - specialize (H 0%nat). discriminate.
  - specialize (H 0%nat). discriminate.
  - pose proof (H 0%nat) as H0. injection H0 as ->. f_equal. apply IH. intros k. apply (H (S k)).
Qed.

(** One outgoing ray for each incoming one. *)
Lemma one_each_ok b n ps idx pts ns o (P : vec -> R -> vec -> vec -> R -> Prop) :
  traceable b n -> all_rays lib_ray b -> idx <> [] -> NoDup idx ->
  (forall i, In i idx -> (i < n)%nat) -> Forall2 (point_of b ps) idx pts -> length ns = length idx ->
  Forall is_unit ns ->
  (forall d e m d' e', is_unit d -> is_unit m -> 0 <= e -> P d e m d' e' -> is_unit d' /\ 0 <= e' <= e) ->
  one_each b idx pts ns o P -> (emits_ok lib_ray b ps idx o /\ energy_ok b idx o) /\
  forall i d e, In i idx -> dir_at b i = Some d -> energy_at b i = Some e -> exists m d', P d e m d' (energy_from o i).
Proof.
  intros T Ha Ne Nd Hs Hp Ln Un HP (To & So & C).
  pose proof (proj1 (proj1 (Forall2_nth _ _ _) Hp)) as Lp.
  destruct (traceable_parts _ _ To) as (vs' & ds' & es' & Ev' & Ed' & Ee' & Lv' & Ld' & Le').
  assert (Q : forall k i, nth_error idx k = Some i -> exists d e p m d' e', incoming b idx pts ns k i d e p m /\
     P d e m d' e' /\ child b o k i p d' e' (ref_at b i) /\ is_unit d' /\ 0 <= e' <= e).
  { intros k i Hk. destruct (incoming_exists b n idx pts ns k i T Hs (eq_sym Lp) Ln Hk) as (d & e & p & m & I).
    destruct (C k i d e p m I) as (d' & e' & HPd & Ch). exists d, e, p, m, d', e'. split; auto. split; auto. split; auto.
    destruct I as (_ & Id & Ie & _ & Im).
    destruct (Ha i d e Id Ie) as (Ud & Pe & _).
    apply (HP d e m); auto. rewrite Forall_forall in Un. apply Un. eapply nth_error_In; eauto. }
  assert (Q0 : forall k, (k < length idx)%nat -> exists i, nth_error idx k = Some i).
  { intros k Hk. apply nth_error_Some in Hk. destruct (nth_error idx k); [eauto|congruence]. }
  assert (Par : b_parents o = Some idx).
  { destruct (Q0 0%nat) as (i0 & H0); [destruct idx; [congruence|simpl; lia]|].
    destruct (Q _ _ H0) as (d & e & p & m & d' & e' & _ & _ & Ch & _).
    pose proof (ch_parent _ _ _ _ _ _ _ _ Ch) as Hp0. unfold parent_at, at_col in Hp0.
    destruct (b_parents o) as [pl|] eqn:Ep; [|discriminate]. f_equal.
    pose proof To as (_ & (_ & Hl) & _). specialize (Hl Parents). cbn [prop] in Hl. rewrite Ep in Hl.
    specialize (Hl _ eq_refl). rewrite map_length in Hl.
    apply nth_error_ext. intros k. destruct (Nat.lt_ge_cases k (length idx)) as [L|L].
    - destruct (Q0 k L) as (i & Hi). destruct (Q _ _ Hi) as (d1 & e1 & p1 & m1 & d1' & e1' & _ & _ & Ch1 & _).
      pose proof (ch_parent _ _ _ _ _ _ _ _ Ch1) as Hp1. unfold parent_at, at_col in Hp1. rewrite Ep in Hp1. congruence.
    - rewrite (proj2 (nth_error_None idx k)) by lia. apply nth_error_None. lia. }
  split; [split|].
  - exists (length idx). split; auto. split.
    { intros k d' e' Hd He. assert (L : (k < length idx)%nat).
      { rewrite <- Ld'. apply nth_error_Some. unfold dir_at, at_col in Hd. rewrite Ed' in Hd. congruence. }
      destruct (Q0 k L) as (i & Hi). destruct (Q _ _ Hi) as (d & e & p & m & d1 & e1 & I & _ & Ch & U & Pe).
      rewrite (ch_dir _ _ _ _ _ _ _ _ Ch) in Hd. injection Hd as ->.
      rewrite (ch_energy _ _ _ _ _ _ _ _ Ch) in He. injection He as ->.
      split; auto. split; [lra|]. intros q Hq. rewrite (ch_ref _ _ _ _ _ _ _ _ Ch) in Hq.
      destruct I as (_ & Id & Ie & _). destruct (Ha i d e Id Ie) as (_ & _ & Hr). auto. }
    split; auto. split; [congruence|]. split.
    + intros k L. destruct (Q0 k L) as (i & Hi).
      destruct (Q _ _ Hi) as (d & e & p & m & d1 & e1 & (_ & _ & _ & Ip & _) & _ & Ch & _).
      destruct (at_point b ps i p (Forall2_at _ _ _ k i p Hp Hi Ip)) as (t & v & dd & A & B & D & ->).
      exists i, t, v, dd. split; [apply (ch_parent _ _ _ _ _ _ _ _ Ch)|].
      split; [eapply nth_error_In; eauto|]. repeat split; auto. apply (ch_vert _ _ _ _ _ _ _ _ Ch).
    + intros i Hi. apply In_nth_error in Hi as (k & Hk). exists k. split.
      * apply nth_error_Some. congruence.
      * unfold parent_at, at_col. rewrite Par. auto.
  - intros i e Hi He. apply In_nth_error in Hi as (k & Hk).
    destruct (Q _ _ Hk) as (d & e0 & p & m & d1 & e1 & (_ & _ & Ie & _) & _ & Ch & _ & Pe).
    assert (e0 = e) by congruence. subst e0.
    pose proof (ch_energy _ _ _ _ _ _ _ _ Ch) as Hce. unfold energy_at, at_col in Hce. rewrite Ee' in Hce.
    rewrite (energy_from_at o idx es' k i e1); auto; lra.
  - intros i d e Hi Hd He. apply In_nth_error in Hi as (k & Hk).
    destruct (Q _ _ Hk) as (d0 & e0 & p & m & d1 & e1 & (_ & Id & Ie & _) & HPd & Ch & _ & Pe).
    assert (e0 = e) by congruence. assert (d0 = d) by congruence. subst e0 d0.
    pose proof (ch_energy _ _ _ _ _ _ _ _ Ch) as Hce. unfold energy_at, at_col in Hce. rewrite Ee' in Hce.
    rewrite (energy_from_at o idx es' k i e1); auto. eauto.
Qed.

Lemma sequence_all {A B} (f : A -> res B) l r : sequence (map f l) = Ok r -> forall a, In a l -> exists b, f a = Ok b.
Proof.
  revert r. induction l as [|x l IH]; intros r H a Ha; [destruct Ha|].
  cbn [map sequence] in H. apply bind_ok in H as (y & Hy & H). apply bind_ok in H as (ys & Hys & H).
  destruct Ha as [<-|Ha]; eauto.
Qed.

Lemma mirrored_unit n d d' : is_unit n -> is_unit d -> mirrored n d d' -> is_unit d'.
Proof. intros Un Ud M. unfold is_unit in *. rewrite (mirrored_norm n d d'); auto. Qed.

Lemma refractive_defined i1 i2 gs b n ks z o : 0 < i1 -> 0 < i2 -> traceable b n -> has_rows b ks ->
  told gs (map w_p ks) (map w_n ks) z -> ks <> [] ->
  (b_ref b <> None -> forall r, In r ks -> 0 < w_r r) ->
  (forall r, In r ks -> is_unit (w_d r) /\ is_unit (w_n r)) ->
  call_refractive i1 i2 gs b (map w_i ks) = Ok o ->
  b_ref b <> None /\ 
  forall r, In r ks -> can_refract (w_r r) (other i1 i2 r) (w_d r) (w_n r) ->
    reflectance_defined (w_r r) (other i1 i2 r) (w_d r) (w_n r).
Proof.
  intros P1 P2 T H G Ne Pr Hl E. pose proof G as (Gp & Gn & Gz & _). pose proof T as (_ & _ & Hdir & He).
  unfold call_refractive in E. rewrite map_length in E.
  destruct (Nat.eqb_spec (length ks) 0) as [E0|_]; [destruct ks; [congruence|discriminate]|].
  assert (Hr : b_ref b <> None).
  { apply bind_ok in E as (x & E & _). unfold get_ref_index, get_prop in E. destruct (b_ref b); congruence. }
  split; auto. specialize (Pr Hr).
  destruct (rows_dirs b ks H Hdir) as (ds & Eds & Td). destruct (rows_energy b ks H He) as (es & Ees & Te).
  destruct (rows_ref b ks H Hr) as (rs & Ers & Tr).
  assert (L : forall r, In r ks -> lawful _ w_r (other i1 i2) w_d w_n r).
  { intros r Hr'. destruct (Hl r Hr') as (B & C). repeat split; auto. unfold other. rdec; auto. }
  rewrite Ers in E. cbn [bind] in E. rewrite Tr in E. cbn [bind] in E. rewrite Eds in E. cbn [bind] in E.
  rewrite Td in E. cbn [bind] in E. rewrite Gn in E. cbn [bind] in E. unfold toggle_ref_idx in E.
  rewrite map_map in E.
  change (map (fun x : row => if Reqb (w_r x) i1 then i2 else i1) ks) with (map (other i1 i2) ks) in E.
  rewrite (refractions_rows _ w_r (other i1 i2) w_d w_n ks L) in E. cbn [bind] in E.
  intros r I C. destruct (L r I) as (A & B & D & N).
  apply can_refract_iff in C; auto.
  destruct (any (map (ok_row row w_r (other i1 i2) w_d w_n) ks)) eqn:An; cbn [negb] in E.
  - rewrite !mask_map, combine_map, map3_map in E. cbn [fst snd] in E.
    apply bind_ok in E as (rf & E & _).
    destruct (Req_dec (dot (w_d r) (w_n r)) 0) as [Z|Z]; [|left; auto].
    destruct (Req_dec (w_r r) (other i1 i2 r)) as [Y|Y]; [|right; auto].
    exfalso. destruct (sequence_all _ _ _ E r) as (x & Hx); [apply filter_In; auto|].
    rewrite <- Y, fresnel_grazing in Hx by auto. discriminate.
  - exfalso. apply any_false_nonzero in An.
    pose proof (filter_nonzero (ok_row row w_r (other i1 i2) w_d w_n) ks) as F. rewrite An in F.
    apply Forall2_nth in F as (F & _). cbn [length] in F.
    assert (In r (filter (ok_row row w_r (other i1 i2) w_d w_n) ks)) as X by (apply filter_In; auto).
    destruct (filter (ok_row row w_r (other i1 i2) w_d w_n) ks); [destruct X|discriminate].
Qed.

Lemma refractive_ok i1 i2 gs b n ps sel pts ns z g o g1 : 0 < i1 -> 0 < i2 -> traceable b n ->
  all_rays lib_ray b -> sel <> [] -> NoDup sel -> (forall i, In i sel -> (i < n)%nat) ->
  Forall2 (point_of b ps) sel pts -> told gs pts ns z -> Forall is_unit ns ->
  call_optics (Refractive i1 i2) gs b sel g = Ok (o, g1) ->
  (emits_ok lib_ray b ps sel o /\ energy_ok b sel o) /\
  forall i e, In i sel -> energy_at b i = Some e -> energy_from o i = e.
Proof.
  intros P1 P2 T Ha Ne Nd Hs Hp G Un E. pose proof G as (_ & _ & _ & Lpn).
  pose proof (proj1 (proj1 (Forall2_nth _ _ _) Hp)) as Lp.
  destruct (rows_plain b n sel pts ns T Hs (eq_sym Lp) ltac:(congruence)) as (ks & -> & -> & -> & H).
  assert (Ne' : ks <> []) by (intros ->; apply Ne; reflexivity).
  assert (Q : forall r, In r ks -> lib_ray (w_d r) (w_e r) (ref_at b (w_i r))).
  { intros r I. apply Ha; [apply (hr_dir _ _ H)|apply (hr_energy _ _ H)]; auto. }
  assert (Ur : forall r, In r ks -> is_unit (w_d r) /\ is_unit (w_n r)).
  { intros r I. split; [apply (Q r I)|]. rewrite Forall_forall in Un. apply Un, in_map; auto. }
  assert (Pr : b_ref b <> None -> forall r, In r ks -> 0 < w_r r).
  { intros Hr r I. apply (Q r I). apply (hr_ref _ _ H Hr r I). }
  cbn [call_optics] in E. apply bind_ok in E as (o' & E & E'). injection E' as -> <-.
  destruct (refractive_defined i1 i2 gs b n ks z o P1 P2 T H G Ne' Pr Ur E) as (Hr & Df).
  destruct (refractive_emits i1 i2 gs b n ks z P1 P2 T H G Ne' Hr (fun r I => conj (Pr Hr r I) (Ur r I)) Df) as (Fr & o' & E' & To & So & Po & Eo & C1 & C2).
  assert (o' = o) by congruence. subst o'.
  assert (Bd : forall r, In r ks -> 0 <= fraction i1 i2 r <= 1).
  { intros r I. destruct (refracts i1 i2 r) eqn:Rf.
    - destruct (proj2 (Fr r I) Rf) as (_ & RF). destruct (Ur r I). apply (reflectance_bounds (w_r r) (other i1 i2 r) (w_d r) (w_n r)); auto.
      unfold other. rdec; auto.
    - unfold fraction. rewrite Rf. lra. }
  assert (Pt : forall k r, nth_error ks k = Some r -> point_of b ps (w_i r) (w_p r)).
  { intros k r Hk. apply (Forall2_at _ _ _ k _ _ Hp); apply nth_error_map_inv; auto. }
  destruct (traceable_parts _ _ To) as (vs' & ds' & es' & Ev' & Ed' & Ee' & Lv' & Ld' & Le').
  assert (Rows : forall k, (k < length ks + length (filter (refracts i1 i2) ks))%nat ->
    exists r d e m, In r ks /\ child b o k (w_i r) (w_p r) d e (Some m) /\ is_unit d /\ 0 <= e /\ 0 < m).
  { intros k L. destruct (Nat.lt_ge_cases k (length ks)) as [Lk|Lk].
    - destruct (nth_error ks k) as [r|] eqn:Hk; [|apply nth_error_None in Hk; lia].
      pose proof (nth_error_In _ _ Hk) as I. exists r; do 3 eexists. split; auto. split; [apply C1; auto|].
      destruct (Ur r I) as (A & B). destruct (Bd r I). split; [|split].
      + apply (mirrored_unit (w_n r) (w_d r)); auto. apply reflection_mirrored; auto.
      + apply Rmult_le_pos; auto. apply (Q r I).
      + apply Pr; auto.
    - destruct (nth_error (filter (refracts i1 i2) ks) (k - length ks)) as [r|] eqn:Hk; [|apply nth_error_None in Hk; lia].
      pose proof (nth_error_In _ _ Hk) as I. apply filter_In in I as (I & Rf).
      pose proof (C2 _ _ Hk) as Ch. replace (length ks + (k - length ks))%nat with k in Ch by lia.
      exists r; do 3 eexists. split; auto. split; [exact Ch|].
      destruct (proj2 (Fr r I) Rf) as ((U & _) & _). destruct (Bd r I). split; [|split]; auto.
      + apply Rmult_le_pos; [apply (Q r I)|lra].
      + unfold other. rdec; auto. }
  cut (emits_ok lib_ray b ps (map w_i ks) o /\ forall i e, In i (map w_i ks) -> energy_at b i = Some e -> energy_from o i = e).
  { intros (A & B). split; [split; auto|auto]. intros i e Hi He. rewrite (B i e Hi He). lra. }
  split.
  - exists (length ks + length (filter (refracts i1 i2) ks))%nat. split; auto. split.
    { intros k d e Hd He. assert (L : (k < length ks + length (filter (refracts i1 i2) ks))%nat).
      { rewrite <- Ld'. apply nth_error_Some. unfold dir_at, at_col in Hd. rewrite Ed' in Hd. congruence. }
      destruct (Rows k L) as (r & d1 & e1 & m & I & Ch & U & Pe & Pm).
      rewrite (ch_dir _ _ _ _ _ _ _ _ Ch) in Hd. injection Hd as <-.
      rewrite (ch_energy _ _ _ _ _ _ _ _ Ch) in He. injection He as <-.
      split; auto. split; auto. intros q Hq. rewrite (ch_ref _ _ _ _ _ _ _ _ Ch) in Hq. congruence. }
    split; auto. split; [congruence|]. split.
    + intros k L. destruct (Rows k L) as (r & d1 & e1 & m & I & Ch & _).
      destruct (In_nth_error _ _ I) as (j & Hj).
      destruct (at_point _ _ _ _ (Pt j r Hj)) as (t & v & dd & A & B & D & Ep).
      exists (w_i r), t, v, dd. split; [apply (ch_parent _ _ _ _ _ _ _ _ Ch)|].
      split; [apply in_map; auto|]. repeat split; auto. rewrite <- Ep. apply (ch_vert _ _ _ _ _ _ _ _ Ch).
    + intros i Hi. apply In_nth_error in Hi as (k & Hk). apply nth_map_iff in Hk as (r & Hk & ->).
      exists k. split.
      * apply Nat.lt_lt_add_r. apply nth_error_Some. congruence.
      * apply (ch_parent _ _ _ _ _ _ _ _ (C1 k r Hk)).
  - intros i e Hi He.
    destruct (refractive_top i1 i2 gs b n (map w_i ks) (map w_p ks) (map w_n ks) z g P1 P2) as (o' & E1 & _ & En).
    { split; [exact T|]. split; [exact Hs|]. split; [exact G|]. split; [congruence|]. split; [exact Un|].
      split; [exact Ne|]. intros k i0 d0 e0 p0 n0 I0. apply (incoming_row b ks) in I0 as (r & Hk & -> & -> & -> & -> & ->); auto.
      pose proof (nth_error_In _ _ Hk) as I. split; [apply Ur; auto|].
      exists (w_r r). split; [apply (hr_ref _ _ H); auto|]. split; [apply Pr; auto|].
      intros m' Om. assert (m' = other i1 i2 r) as -> by (unfold other; destruct Om; rdec; auto). apply Df; auto. }
    cbn [call_optics] in E1. rewrite E in E1. cbn [bind] in E1. injection E1 as <-.
    exact (En Nd i e Hi He).
Qed.

Lemma kept_bounds e a : 0 <= e -> 0 <= a <= 1 -> 0 <= e * (1 - a) <= e.
Proof. intros. pose proof (Rmult_le_pos e a). pose proof (Rmult_le_pos e (1 - a)). split; nra. Qed.

Lemma optics_emits opt gs b n ps sel pts ns z g o g1 : optics_ok opt -> traceable b n ->
  all_rays lib_ray b -> sel <> [] -> NoDup sel -> (forall i, In i sel -> (i < n)%nat) ->
  Forall2 (point_of b ps) sel pts -> told gs pts ns z -> Forall is_unit ns ->
  call_optics opt gs b sel g = Ok (o, g1) ->
  (emits_ok lib_ray b ps sel o /\ energy_ok b sel o) /\
  forall i d e, In i sel -> dir_at b i = Some d -> energy_at b i = Some e -> sends_on opt z d e (energy_from o i).
Proof.
  intros Ho T Ha Ne Nd Hs Hp G Un E. pose proof G as (_ & _ & _ & Lpn).
  pose proof (eq_sym (proj1 (proj1 (Forall2_nth _ _ _) Hp))) as Lp.
  assert (Plain : forall ab, 0 <= absorptivity ab <= 1 -> forall g g1,
    call_optics (Absorbing ab) gs b sel g = Ok (o, g1) -> (emits_ok lib_ray b ps sel o /\ energy_ok b sel o) /\
    forall i d e, In i sel -> dir_at b i = Some d -> energy_at b i = Some e -> sends_on (Absorbing ab) z d e (energy_from o i)).
  { clear E g g1. intros ab Ho' g g1 E. destruct ab as [a|a|a]; cbn [absorptivity] in Ho'.
    - destruct (reflective_top a gs b n sel pts ns z g T Hs G Lp Un) as (o' & E' & O).
      assert (o' = o) by congruence. subst o'.
      edestruct (one_each_ok b n ps sel pts ns o) as (A & B); try eassumption; [congruence| |split; [exact A|]].
      2:{ intros i d e Hi Hd He. destruct (B i d e Hi Hd He) as (m & d' & HP). apply HP. }
      cbv beta.
      intros d e m d' e' Ud Um Pe (M & ->). split; [exact (mirrored_unit m d d' Um Ud M)|]. apply kept_bounds; auto.
    - destruct (absorber_top a gs b n sel pts ns z g T Hs G Lp Un) as (o' & E' & O).
      assert (o' = o) by congruence. subst o'.
      edestruct (one_each_ok b n ps sel pts ns o) as (A & B); try eassumption; [congruence| |split; [exact A|]].
      2:{ intros i d e Hi Hd He. destruct (B i d e Hi Hd He) as (m & d' & HP). apply HP. }
      cbv beta.
      intros d e m d' e' Ud Um Pe (M & B1 & B2). split; [exact (mirrored_unit m d d' Um Ud M)|].
      destruct (Rle_or_lt (dot d z) 0) as [Z|Z]; [rewrite (B1 Z); apply kept_bounds; auto|rewrite (B2 Z); lra].
    - destruct (lambertian_any a gs b n sel pts ns z g T Hs G Lp Un) as (o' & g' & E' & _ & _ & O).
      assert (o' = o) by congruence. subst o'.
      edestruct (one_each_ok b n ps sel pts ns o) as (A & B); try eassumption; [congruence| |split; [exact A|]].
      2:{ intros i d e Hi Hd He. destruct (B i d e Hi Hd He) as (m & d' & HP). apply HP. }
      cbv beta.
      intros d e m d' e' Ud Um Pe (M & _ & ->). split; auto. apply kept_bounds; auto. }
  destruct opt as [ab|id ab|i1 i2].
  - exact (Plain ab Ho g g1 E).
  - cbn [call_optics] in E. apply bind_ok in E as (acc & _ & E). apply bind_ok in E as ([r rg] & E & E').
    injection E' as -> <-. destruct (Plain ab Ho g (mkG rg (g_acc g))) as (A & B).
    { cbn [call_optics]. rewrite E. reflexivity. }
    split; [exact A|]. intros i d e Hi Hd He. specialize (B i d e Hi Hd He). destruct ab; exact B.
  - destruct Ho as (P1 & P2). destruct (refractive_ok i1 i2 gs b n ps sel pts ns z g o g1 P1 P2 T Ha Ne Nd Hs Hp G Un E) as (A & B).
    split; [exact A|]. intros i d e Hi _ He. exact (B i e Hi He).
Qed.

Lemma lib_emits s b n s1 ps idx s2 g o g1 : rigid (s_frame s) -> optics_ok (s_opt s) ->
  traceable b n -> all_rays lib_ray b -> surf_register s b = Ok (s1, ps) ->
  NoDup idx -> idx <> [] -> (forall i, In i idx -> exists t, nth_error ps i = Some (Fin t)) ->
  surf_select s1 idx = Ok s2 -> surf_outgoing s2 g = Ok (o, g1) ->
  (emits_ok lib_ray b ps idx o /\ energy_ok b idx o) /\
  exists z, up (s_gstate s2) = Ok z /\
  forall i d e, In i idx -> dir_at b i = Some d -> energy_at b i = Some e -> sends_on (s_opt s) z d e (energy_from o i).
Proof.
  intros Hf Ho T Ha Rg Nd Ne Hh Sl Og.
  apply register_inv in Rg as (gs & F & ->). apply select_inv in Sl as (gs2 & Sg & ->).
  cbn [s_geom s_opt s_frame s_gstate s_bundle s_selected] in *. unfold surf_outgoing in Og.
  cbn [s_geom s_opt s_frame s_gstate s_bundle s_selected] in Og.
  destruct (selected_told _ _ _ n _ _ _ _ Hf T F Hh Sg) as (pts & ns & z & G & Lp & Un & Hp & Hs).
  edestruct optics_emits as (A & B); [exact Ho|exact T|exact Ha|exact Ne|exact Nd|exact Hs|exact Hp|exact G|exact Un|exact Og|].
  split; [exact A|]. exists z. split; [apply G|exact B].
Qed.

Lemma canon_contract : surface_contract canon_ops lib_ray canon_good.
Proof.
  constructor; cbn [register_incoming select_rays get_outgoing done canon_ops].
  - apply canon_idle.
  - intros s b s1 ps Hg H. apply register_inv in H as (gs & _ & ->). apply (canon_idle s Hg).
  - intros s b s1 ps idx s2 Hg H H2. apply register_inv in H as (gs & _ & ->).
    apply select_inv in H2 as (gs2 & _ & ->). apply (canon_idle s Hg).
  - intros s b n s1 ps idx s2 g o g1 ((Hf & Ho & _) & _) T Ha Rg Nd Ne Hh Sl Og.
    apply (lib_emits s b n s1 ps idx s2 g o g1); auto.
Qed.

Lemma canon_no_energy : no_energy_made canon_ops lib_ray canon_good.
Proof.
  intros s b n s1 ps idx s2 g o g1 ((Hf & Ho & _) & _) T Ha Rg Nd Ne Hh Sl Og.
  apply (lib_emits s b n s1 ps idx s2 g o g1); auto.
Qed.
