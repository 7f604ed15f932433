(** A trace finds the ways of light. *)
From Coq Require Import Reals String List Arith Bool Lra Lia.
From Verif.Base Require Import Py Num Vec.
From Verif.Model Require Import RayBundle Boundary Geometry TraceTree Sources Optics OpticsCallables Engine Objects Surface.
From Verif.Proof Require Import ListLemmas NumLemmas VecLemmas GeomProof GeomTop GeomCases IntersectProof ProcessProof ObjectProof EngineTop TraceTop ObjectTrace LibraryTop LawProof BackProof SightProof.
From Verif.Spec Require Import BundleSpec EngineSpec GeometrySpec GeomIface OpticsSpec LibrarySpec LawSpec BackSpec SightSpec FoundSpec.
Import ListNotations.
Local Open Scope R_scope.

(** What meets a surface is sent on as the law there demands. *)
Lemma sent_forth surfs T ns prev N via thr lvl m : sent_on surfs T ns prev N via thr lvl -> traceable lvl m ->
  forall x e e' i j t v, lawful_meeting x e e' -> specular (s_opt (mt_surf x)) -> dot (mt_in x) (mt_normal x) <> 0 ->
  rigid (s_frame (mt_surf x)) -> nth_error surfs i = Some (mt_surf x) -> meets_first T (length surfs) ns i j t ->
  vert_at prev j = Some v -> dir_at prev j = Some (mt_in x) -> energy_at prev j = Some e -> ref_at prev j = mt_before x ->
  mt_point x = ray_at v (mt_in x) t ->
  exists k, parent_at lvl k = Some j /\ vert_at lvl k = Some (mt_point x) /\
    dir_at lvl k = Some (mt_out x) /\ energy_at lvl k = Some e' /\ ref_at lvl k = mt_after x.
Proof.
  intros (S1 & S2 & _) Tl x e e' i j t v Lx Sp Nz RT Es M Hv Hd He Hr Hp.
  destruct (S2 i (mt_surf x) j t _ Es M Hd) as ((k0 & P0 & V0 & T0) & K2).
  assert (G : forall k, parent_at lvl k = Some j -> via k = i -> made_from prev j (mt_surf x) t (N i j) (thr k) lvl k).
  { intros k Pk Vk. destruct (parent_vert lvl m k j Tl Pk) as (p & Hpk).
    destruct (S1 k p Hpk) as (s & j' & t' & Es' & M' & Mk). rewrite Vk in *.
    assert (s = mt_surf x) by congruence. subst s.
    assert (j' = j). { destruct Mk as (? & ? & ? & ? & ? & ? & ? & _ & _ & _ & Pj & _). congruence. } subst j'.
    assert (t' = t). { destruct M as (_ & _ & A & _), M' as (_ & _ & A' & _). congruence. } subst t'. exact Mk. }
  assert (Gn : N i j = mt_normal x).
  { destruct (G k0 P0 V0) as (v1 & d1 & e1 & q & g & d' & e2 & Hv1 & Hd1 & _ & _ & _ & _ & _ & Hq & Hg & Hn & _).
    assert (v1 = v) by congruence. assert (d1 = mt_in x) by congruence. subst v1 d1. destruct Lx as (_ & (q' & g' & Eq & Gq & Gg) & _).
    eapply (normal_same (mt_surf x) (mt_point x)); [exact RT|exact Eq|rewrite Hp; exact Hq|exact Gq|exact Hg|exact Gg|exact Hn|exact Nz]. }
  assert (Fin : forall k, parent_at lvl k = Some j -> via k = i -> thr k = mt_through x ->
    vert_at lvl k = Some (mt_point x) /\ dir_at lvl k = Some (mt_out x) /\ energy_at lvl k = Some e' /\ ref_at lvl k = mt_after x).
  { intros k Pk Vk Tk. destruct (G k Pk Vk) as (v1 & d1 & e1 & q & g & d' & e2 & Hv1 & Hd1 & He1 & _ & Hv2 & Hd2 & He2 & Hq & Hg & Hn & F & _).
    assert (v1 = v) by congruence. assert (d1 = mt_in x) by congruence. assert (e1 = e) by congruence. subst v1 d1 e1.
    pose (y := mkMeeting (mt_surf x) (thr k) (mt_point x) (N i j) (mt_in x) d' (ref_at prev j) (ref_at lvl k)).
    assert (Ly : lawful_meeting y e e2).
    { split; [exact (proj1 Lx)|]. split; [|exact F]. exists q, g. split; [cbn; rewrite Hp; exact Hq|]. split; auto. }
    destruct (meeting_determined x y e e' e2 Lx Ly) as (Ey & ->); auto.
    unfold y in Ey. assert (d' = mt_out x) as -> by (rewrite <- Ey; reflexivity).
    assert (R : ref_at lvl k = mt_after x) by (rewrite <- Ey; reflexivity).
    split; [rewrite Hp; auto|]. split; [exact Hd2|]. split; auto. }
  destruct (mt_through x) eqn:Et.
  - assert (Rf : refracts (s_opt (mt_surf x)) (N i j) (mt_in x) (ref_at prev j)).
    { rewrite Gn, Hr. destruct Lx as (_ & _ & F). rewrite Et in F.
      destruct (s_opt (mt_surf x)) as [[]|? []|i1 i2]; cbn [follows] in F; try (destruct F; discriminate).
      destruct F as (k & k' & f' & A1 & _ & _ & A2 & _ & _ & _ & (A3 & _)). exists k, k'. auto. }
    apply K2 in Rf as (k & Pk & Vk & Tk). exists k. split; [exact Pk|]. apply Fin; auto.
  - exists k0. split; [exact P0|]. apply Fin; auto.
Qed.

Section Found.
Variables (objs : list obj) (surfs : list surface).
Hypothesis La : library_assembly objs surfs.
Hypothesis Df : forall ob, In ob objs -> exists k, ob = default_object k.
Variables (me : R) (g : shared) (b : bundle) (n : nat).
Hypothesis Ls : library_source b n.
Variables (reps : nat) (tree : list bundle) (ns : nat -> nat) (Ts : nat -> reports) (gs : nat -> shared) (g' : shared).
Hypothesis C : consistent_tree surface_ops objs surfs me b n reps tree ns Ts g gs g'.

Lemma all_tried L prev j : nth_error tree L = Some prev -> (L < reps)%nat -> (j < ns L)%nat ->
  forall i, (i < length surfs)%nat -> Ts L i j <> None.
Proof.
  intros Hp HL Hj i Hi. destruct L as [|L].
  - apply (ct_first _ _ _ _ _ _ _ _ _ _ _ _ _ C); auto. rewrite (ct_source_n _ _ _ _ _ _ _ _ _ _ _ _ _ C) in Hj. exact Hj.
  - replace (S L) with (L + 1)%nat in * by lia.
    destruct (ct_owned _ _ _ _ _ _ _ _ _ _ _ _ _ C L prev Hp j Hj) as (ie & p & t & oi & owns & next & r & _ & _ & Em & N).
    apply N; auto. pose proof Em as (ob & ri & e & _ & Ho & _). destruct (Df ob (nth_error_In _ _ Ho)) as (ks & ->).
    destruct (emitted_num _ _ _ _ _ _ _ _ _ _ Em Ho) as (ri' & e' & n' & En & Lr & Ow & Nx).
    rewrite (proj2 (proj2 La)) in Hi.
    apply (default_object_next objs oi ks e' n' ri' owns next Ho En Ow Nx r i Lr Hi).
Qed.

(** What is in clear sight is met first. *)
Lemma clear_met L prev j tb i s v d t : nth_error tree L = Some prev -> (L < reps)%nat -> (j < ns L)%nat ->
  reported surface_ops surfs prev (ns L) (Ts L) tb -> vert_at prev j = Some v -> dir_at prev j = Some d -> is_unit d ->
  nth_error surfs i = Some s -> clear_until surfs v d t -> on_surface s v d t ->
  meets_first (Ts L) (length surfs) (ns L) i j t.
Proof.
  intros Hp HL Hj Rp Hv Hd U Hs Cl (Far & A & W & HA).
  assert (T6 : 0 < tenm 6) by (unfold tenm; apply Rinv_0_lt_compat; lra).
  assert (T10 : 0 <= tenm 10) by (unfold tenm; apply Rlt_le, Rinv_0_lt_compat; lra).
  assert (Ans : forall i s A, nth_error surfs i = Some s -> in_the_way s v d A -> exists x, Ts L i j = Some x /\ answer A v d x).
  { intros i1 s1 A1 Hs1 (B & c & M & Hc & ->).
    assert (Li : (i1 < length surfs)%nat) by (apply nth_error_Some; congruence).
    pose proof (all_tried L prev j Hp HL Hj i1 Li) as Nn. destruct (Ts L i1 j) as [x|] eqn:Ex; [|congruence]. exists x. split; auto.
    assert (Rf : rigid (s_frame s1)) by (apply (proj1 (proj2 La) s1), (nth_error_In _ _ Hs1)).
    exact (reported_finds surfs prev (ns L) (Ts L) tb i1 j s1 x v d _ Rp Hs1 (made_answers _ _ _ _ Rf M) Ex Hv Hd U Hc). }
  assert (Low : forall i1 s1, nth_error surfs i1 = Some s1 ->
    match Ts L i1 j with Some (Fin t') => t' = 0 \/ t <= t' | Some PInf => True | _ => False end).
  { intros i1 s1 Hs1. destruct (Cl s1 (nth_error_In _ _ Hs1)) as (A1 & W1 & N1).
    destruct (Ans i1 s1 A1 Hs1 W1) as (x & -> & An). destruct x as [t'| | |]; try contradiction; auto.
    destruct An as (P0 & P1 & _). destruct (Rle_dec t t') as [|Gt]; auto. destruct (Req_dec t' 0) as [|Nz]; auto.
    exfalso. apply (N1 t'); [lra|exact P1]. }
  split; [apply nth_error_Some; congruence|]. split; [exact Hj|]. split; [|split].
  - destruct (Ans i s A Hs W) as (x & Ex & An). pose proof (Low i s Hs) as Lo. rewrite Ex in Lo |- *.
    destruct x as [t'| | |]; try contradiction.
    + destruct An as (P0 & P1 & P2). destruct (P2 t ltac:(lra) HA) as (Q1 & Q2). do 2 f_equal. lra.
    + destruct (An t ltac:(lra) HA).
  - intros (_ & D). lra.
  - intros i1 Hi1. destruct (nth_lt surfs i1 Hi1) as (s1 & Hs1). pose proof (Low i1 s1 Hs1) as Lo.
    destruct (Ts L i1 j) as [[t'| | |]|] eqn:E1; auto. destruct Lo as [->|]; auto. left. split; [|lra].
    exists i1, j. split; auto. split; auto. rewrite E1. unfold nle, Rleb; destruct (Rle_dec 0 (tenm 10)); [reflexivity|contradiction].
Qed.

Variables (Snt : forall L prev lvl, nth_error tree L = Some prev -> nth_error tree (L + 1) = Some lvl ->
  exists N via thr, sent_on surfs (Ts L) (ns L) prev N via thr lvl).

Lemma found_from : forall path L prev k v d e m v' d' e' m' j0, seen_way surfs me v d e m path v' d' e' m' ->
  nth_error tree L = Some prev -> (L + length path <= reps)%nat -> (path <> [] -> is_traced me L prev k) -> descends tree L k j0 ->
  vert_at prev k = Some v -> dir_at prev k = Some d -> energy_at prev k = Some e -> ref_at prev k = m ->
  exists lvl k', nth_error tree (L + length path) = Some lvl /\ descends tree (L + length path) k' j0 /\
    vert_at lvl k' = Some v' /\ dir_at lvl k' = Some d' /\ energy_at lvl k' = Some e' /\ ref_at lvl k' = m'.
Proof.
  induction path as [|x path IH]; intros L prev k v d e m v' d' e' m' j0 Sw Hp Len Tr Ds Hv Hd He Hm.
  - inversion Sw; subst. exists prev, k. rewrite Nat.add_0_r. repeat split; auto.
  - inversion Sw as [|v1 d1 e0 m1 t x1 e1 path1 v1' d1' e1' m1' Hin Cl On Pt In_ Bf Lw Sp Ng Str Rest]; subst.
    cbn [length] in Len.
    destruct (ct_traced _ _ _ _ _ _ _ _ _ _ _ _ _ C (proj1 Ls) L prev Hp) as (mp & T1 & _ & Htr & _).
    pose proof (proj2 (Htr k) (Tr ltac:(discriminate))) as Kn.
    assert (Rf : rigid (s_frame (mt_surf x))) by (apply (proj1 (proj2 La) _ Hin)).
    destruct (In_nth_error _ _ Hin) as (i & Hi).
    assert (Un : is_unit (mt_in x)) by (destruct Lw as (U & _); exact U).
    assert (Next : exists lvl, nth_error tree (L + 1) = Some lvl /\ meets_first (Ts L) (length surfs) (ns L) i k t).
    { destruct (nth_error tree (L + 1)) as [lvl|] eqn:Hl.
      - destruct (ct_level _ _ _ _ _ _ _ _ _ _ _ _ _ C L prev lvl Hp Hl) as (tb & rc & mm & ems & R1 & _).
        exists lvl. split; auto. apply (clear_met L prev k tb i (mt_surf x) v (mt_in x) t Hp ltac:(lia) Kn R1 Hv Hd Un Hi Cl On).
      - exfalso. destruct (ct_end _ _ _ _ _ _ _ _ _ _ _ _ _ C L prev Hp Hl ltac:(lia)) as (tb & R1 & Nm); [right; lia|].
        apply (Nm i k t). apply (clear_met L prev k tb i (mt_surf x) v (mt_in x) t Hp ltac:(lia) Kn R1 Hv Hd Un Hi Cl On). }
    destruct Next as (lvl & Hl & M).
    destruct (Snt L prev lvl Hp Hl) as (N & via & thr & So).
    destruct (ct_traced _ _ _ _ _ _ _ _ _ _ _ _ _ C (proj1 Ls) (L + 1) lvl Hl) as (m2 & T2 & _).
    destruct (sent_forth surfs (Ts L) (ns L) prev N via thr lvl m2 So T2 x e e1 i k t v Lw Sp Ng Rf Hi M Hv Hd He (eq_sym Bf) Pt) as (k1 & P1 & V1 & D1 & E1 & M1).
    replace (L + length (x :: path))%nat with (L + 1 + length path)%nat by (cbn [length]; lia).
    apply (IH (L + 1)%nat lvl k1 _ _ _ _ _ _ _ _ j0 Rest Hl); auto.
    + lia.
    + intros Np. exists e1. split; auto.
    + eapply from_parent; eauto.
Qed.
End Found.

Lemma found_top : forall objs surfs, library_assembly objs surfs -> (forall ob, In ob objs -> exists k, ob = default_object k) ->
  forall me g b n, library_source b n -> fair (g_rng g) -> forall reps vs ds st,
  ray_tracer surface_ops objs surfs g b reps me TreeTrue = Ok (vs, ds, st) ->
  forall j v d e, vert_at b j = Some v -> dir_at b j = Some d -> energy_at b j = Some e ->
  forall path v' d' e' m', seen_way surfs me v d e (ref_at b j) path v' d' e' m' -> (length path <= reps)%nat ->
  exists lvl k, nth_error (t_tree st) (length path) = Some lvl /\ descends (t_tree st) (length path) k j /\
    vert_at lvl k = Some v' /\ dir_at lvl k = Some d' /\ energy_at lvl k = Some e' /\ ref_at lvl k = m'.
Proof.
  intros objs surfs La Df me g b n Ls Fg reps vs ds st E j v d e Hv Hd He path v' d' e' m' Sw Len.
  destruct (laws_all objs surfs La me g b n Ls Fg reps vs ds st E) as (ns & Ts & gs & C & _ & _ & S).
  pose proof (ct_source _ _ _ _ _ _ _ _ _ _ _ _ _ C) as Sb.
  apply (found_from objs surfs La Df me g b n Ls reps (t_tree st) ns Ts gs (t_g st) C) with (L := 0%nat) (prev := b) (k := j) (v := v) (d := d) (e := e) (m := ref_at b j) (path := path); auto.
  - intros L prev lvl Hp Hl. destruct (S L prev lvl Hp Hl) as (N & via & thr & So & _). eauto.
  - intros _. exists e. auto.
  - eapply from_source; eauto.
Qed.
