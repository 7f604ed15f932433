(** Which energies occur in a trace, when it is known what each surface makes of an
    energy; and pictures of traces in which rays are whole or spent. *)
From Coq Require Import Reals String List Arith Bool Lia Lra Sorted.
From Verif.Base Require Import Py Num Vec.
From Verif.Model Require Import RayBundle Geometry TraceTree OpticsCallables Engine Objects Surface View.
From Verif.Proof Require Import ListLemmas NumLemmas BundleProof ProcessProof CallProof SurfaceProof LibraryTop TraceTop ObjectProof ObjectTrace AnswerProof
  AccountProof RelayProof DrawProof.
From Verif.Spec Require Import BundleSpec EngineSpec GeometrySpec GeomIface OpticsSpec LibrarySpec ModelSpec ViewSpec.
Import ListNotations.

Definition energies_in (P : R -> Prop) (b : bundle) : Prop := forall l e, b_energy b = Some l -> In e l -> P e.
Lemma energies_at P b : energies_in P b <-> forall j e, energy_at b j = Some e -> P e.
Proof.
  unfold energies_in, energy_at, at_col. split.
  - intros H j e. destruct (b_energy b) as [l|]; [|discriminate]. intros E. eapply H; [reflexivity|]. eapply nth_error_In; eauto.
  - intros H l e El I. apply In_nth_error in I as (j & Ej). apply (H j). rewrite El. auto.
Qed.

Lemma emission_energies (P : R -> Prop) tb n T i s hits h o h' Hit Out : traceable tb n ->
  emission surface_ops tb n T i s hits h o h' -> acts s Hit Out ->
  (forall j, In j hits -> exists t, T i j = Some (Fin t)) ->
  (forall p d e d' e', P e -> Out p d e d' e' -> P e') -> energies_in P tb -> energies_in P o.
Proof.
  intros Tb (sub & ps & s1 & idx & s2 & o0 & q & q' & Nm & Hsub & Rg & Hps & Hidx & Sl & Og & Po & Eq & Eq' & Pq) Ac Hh Ho Pt.
  cbn [surface_ops register_incoming select_rays get_outgoing] in *.
  pose proof (picked_traceable tb _ sub n Tb Nm Hsub) as Tsub.
  destruct (Ac sub _ Tsub) as (s1' & ps' & Rg' & Lps & HH & HS). rewrite Rg in Rg'. injection Rg' as <- <-.
  assert (Lh : length hits = length idx) by (eapply picks_length; eauto).
  assert (Hj : forall k i0 j, nth_error idx k = Some i0 -> nth_error hits k = Some j -> nth_error (asked T n i) i0 = Some j).
  { intros k i0 j. apply (Forall2_at _ _ _ k i0 j Hidx). }
  assert (Hp : forall k i0, nth_error idx k = Some i0 -> i0 < length (asked T n i) /\ exists j t, nth_error (asked T n i) i0 = Some j /\ nth_error ps i0 = Some (Fin t)).
  { intros k i0 Ei. destruct (nth_lt hits k) as (j & Ej). { rewrite Lh. apply nth_error_Some. congruence. }
    pose proof (Hj _ _ _ Ei Ej) as A. destruct (Hh j (nth_error_In _ _ Ej)) as (t & B).
    assert (La : i0 < length (asked T n i)) by (apply nth_error_Some; congruence). split; auto. exists j, t. split; auto.
    destruct (nth_error ps i0) as [x|] eqn:Ex.
    - pose proof (Forall2_at _ _ _ _ _ _ Hps A Ex). congruence.
    - apply nth_error_None in Ex. lia. }
  assert (Ah : all_hit ps idx).
  { intros i0 Hi. apply In_nth_error in Hi as (k & Hk). destruct (Hp k i0 Hk) as (_ & j & t & _ & E). eauto. }
  destruct (HS idx h Ah) as (s2' & o1 & h1 & Sl' & Og' & To & Ch). rewrite Sl in Sl'. injection Sl' as <-.
  rewrite Og in Og'. injection Og' as <- _.
  assert (Eo : forall k, energy_at o k = energy_at o0 k).
  { intros k. assert (Q : prop o Energy = prop o0 Energy) by (apply Po; discriminate). cbn in Q. unfold energy_at, at_col.
    destruct (b_energy o) as [a|], (b_energy o0) as [c|]; cbn in Q; try congruence. f_equal. injection Q as Q. clear - Q. revert c Q.
    induction a; intros [|y c] H; try discriminate; auto. injection H as -> H. f_equal; auto. }
  apply energies_at. intros k x Ek. rewrite Eo in Ek.
  pose proof (traceable_energy_lt _ _ _ _ To Ek) as Lk. destruct (nth_lt idx k Lk) as (i0 & Ei).
  destruct (Hp k i0 Ei) as (La & j & t & Ea & Et).
  destruct (traceable_parts _ _ Tsub) as (vs1 & ds1 & es1 & Ev1 & Ed1 & Ee1 & Lv1 & Ld1 & Le1).
  destruct (nth_lt vs1 i0 ltac:(lia)) as (v & Xv). destruct (nth_lt ds1 i0 ltac:(lia)) as (d & Xd). destruct (nth_lt es1 i0 ltac:(lia)) as (e & Xe).
  assert (V : vert_at sub i0 = Some v) by (unfold vert_at, at_col; rewrite Ev1; auto).
  assert (D : dir_at sub i0 = Some d) by (unfold dir_at, at_col; rewrite Ed1; auto).
  assert (E : energy_at sub i0 = Some e) by (unfold energy_at, at_col; rewrite Ee1; auto).
  destruct (Ch k i0 v d e t Ei V D E Et) as (d' & e' & HO & C).
  pose proof (ch_energy _ _ _ _ _ _ _ _ C) as Ce. assert (x = e') by congruence. subst x.
  eapply Ho; [|exact HO]. apply (proj1 (energies_at P tb) Pt j).
  rewrite <- (same_ray_energy _ _ _ _ (picked_same _ _ _ _ _ Hsub Ea)). exact E.
Qed.

Lemma concat_energies (P : R -> Prop) os rc : Forall (energies_in P) os -> concatenate_rays os = Ok rc -> energies_in P rc.
Proof.
  intros F E. unfold concatenate_rays in E. destruct os as [|o os].
  { injection E as <-. intros l e X I. cbn in X. try discriminate. injection X as <-. destruct I. }
  apply bind_ok in E as (v & _ & E). apply bind_ok in E as (d & _ & E). apply bind_ok in E as (es & Ee & E). apply bind_ok in E as (p & _ & E).
  apply bind_ok in E as (r & _ & E). apply bind_ok in E as (x & _ & E). injection E as <-. intros l e El I. cbn in El. subst es.
  unfold concat_prop in Ee. destruct (b_energy o); [|discriminate]. apply bind_ok in Ee as (ls & Em & Ee). injection Ee as <-.
  apply in_concat in I as (m & Im & Ie). revert ls Em Im. revert F. generalize (o :: os). clear - Ie. intros os F.
  induction F as [|c cs Hc F IH]; intros ls Em Im; [cbn in Em; injection Em as <-; destruct Im|].
  rewrite mapM_cons in Em. destruct (get_prop (b_energy c) SAll) as [y|] eqn:Ey; [|discriminate]. cbn [bind] in Em.
  destruct (mapM _ cs) as [ys|] eqn:Eys; [|discriminate]. injection Em as <-. destruct Im as [<-|Im]; [|eapply IH; eauto].
  unfold get_prop in Ey. destruct (b_energy c) as [z|] eqn:Ez; [|discriminate]. cbn [select] in Ey. injection Ey as <-. eapply Hc; eauto.
Qed.

Lemma picked_energies (P : R -> Prop) b idx b' : rays_picked b idx b' -> energies_in P b -> energies_in P b'.
Proof.
  intros Pk H. specialize (Pk Energy). cbn in Pk. unfold energies_in in *. intros l e El I. rewrite El in Pk. cbn in Pk.
  destruct (b_energy b) as [m|]; cbn in Pk; [|discriminate]. destruct Pk as (l' & E & Pi). injection E as <-.
  apply In_nth_error in I as (k & Ek).
  assert (Em : nth_error (map PReal l) k = Some (PReal e)) by (rewrite nth_error_map, Ek; reflexivity).
  destruct (nth_lt idx k) as (i0 & Ei). { rewrite <- (picks_length _ _ _ Pi). apply nth_error_Some. congruence. }
  pose proof (Forall2_at _ _ _ _ _ _ Pi Ei Em) as X. cbv beta in X. rewrite nth_error_map in X.
  destruct (nth_error m i0) as [y|] eqn:Ey; [|discriminate]. cbn in X. assert (y = e) by congruence. subst y.
  eapply H; [reflexivity|]. eapply nth_error_In; eauto.
Qed.

Section Kinds.
Variables (objs : list obj) (surfs : list surface) (me : R) (P : R -> Prop).
Hypothesis Lib : library_assembly objs surfs.
Hypothesis Acts : forall s, In s surfs -> exists Hit Out, acts s Hit Out /\ forall p d e d' e', P e -> Out p d e d' e' -> P e'.

Lemma trace_energies g b n reps vs ds st : library_source b n -> energies_in P b ->
  ray_tracer surface_ops objs surfs g b reps me TreeTrue = Ok (vs, ds, st) ->
  forall L lvl, nth_error (t_tree st) L = Some lvl -> energies_in P lvl.
Proof.
  intros Hb Pb Run. destruct (library_trace objs surfs me Lib g b n reps vs ds st Hb Run) as (ns & Ts & gs & C & _).
  induction L as [|L IH]; intros lvl Hl.
  - rewrite (ct_source _ _ _ _ _ _ _ _ _ _ _ _ _ C) in Hl. injection Hl as <-. exact Pb.
  - destruct (nth_error (t_tree st) L) as [p|] eqn:Ep.
    2:{ apply nth_error_None in Ep. assert (S L < length (t_tree st)) by (apply nth_error_Some; congruence). lia. }
    rewrite <- Nat.add_1_r in Hl.
    destruct (ct_level _ _ _ _ _ _ _ _ _ _ _ _ _ C L p lvl Ep Hl) as (tb & rc & m & ems & R1 & R2 & R3 & R4 & _).
    destruct R4 as (strong & weak & _ & Pk & _). apply (picked_energies P rc _ lvl Pk). eapply concat_energies; [|exact R3].
    assert (Ptb : energies_in P tb) by (destruct R1 as (_ & Q & _); eapply picked_energies; [exact Q|apply IH; reflexivity]).
    destruct R1 as (Tt & _). destruct R2 as (_ & _ & Tn). clear - Tn Tt Ptb Acts. induction Tn as [|[i o] l g0 g1 g2 (s & hits & Es & _ & Mh & E) Tn IH]; [constructor|].
    cbn [map snd fst] in *. constructor; auto. destruct (Acts s (nth_error_In _ _ Es)) as (Hit & Out & Ac & Ho).
    eapply emission_energies; [exact Tt|exact E|exact Ac| |exact Ho|exact Ptb].
    intros j Ij. apply Mh in Ij as (t & Ht). exists t. apply Ht.
Qed.

(** If nothing that is not traced on has any energy left, pictures are faithful. *)
Theorem spent_drawn g b n reps vs ds st esc : library_source b n -> energies_in (fun e => P e /\ e <> 0%R) b ->
  (forall e, P e -> (e <= me)%R -> e = 0%R) -> (0 <= me)%R ->
  ray_tracer surface_ops objs surfs g b reps me TreeTrue = Ok (vs, ds, st) ->
  exists pts cs, show_rays (t_tree st) esc None = Ok (pts, cs) /\ faithful (t_tree st) (fun _ _ => True) esc pts cs.
Proof.
  intros Hb Pb Pm Me Run. destruct (trace_levels _ _ _ _ _ _ _ _ _ _ Lib Hb Run) as (D & H).
  assert (Pe : energies_in P b) by (intros l e El I; apply (Pb l e El I)).
  destruct (drawn_faithfully esc None (t_tree st) D I) as (pts & cs & E & F); [|exists pts, cs; split; [exact E|exact F]].
  intros L lvl i j Hl (e & He & Hn & _) _ Hij. destruct (H L lvl Hl) as (H0 & m & ns & T & A & S).
  assert (Jm : j < m) by (eapply traceable_energy_lt; eauto).
  destruct (traceable_energy lvl m i T) as (ei & Hi); [lia|]. exists ei. split; auto. split; [|exact I].
  destruct L as [|L].
  - rewrite H0 in Hi by auto. apply (proj1 (energies_at _ b) Pb i ei Hi).
  - destruct (S ltac:(lia)) as (_ & S').
    assert (Pj : P e) by (apply (proj1 (energies_at P lvl) (trace_energies g b n reps vs ds st Hb Pe Run _ _ Hl) j e He)).
    assert (j < ns). { apply (S' j e He). destruct (Rlt_dec me e) as [|N]; auto. exfalso. apply Hn, Pm; auto. lra. }
    assert (me < ei)%R by (apply (S' i ei Hi); lia). lra.
Qed.
End Kinds.
