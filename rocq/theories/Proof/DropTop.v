(** Traces in a drop. *)
From Coq Require Import Reals List Arith Bool Lra Lia.
From Verif.Base Require Import Py Num Vec.
From Verif.Model Require Import RayBundle Boundary Geometry TraceTree Sources OpticsCallables Engine Objects Surface.
From Verif.Proof Require Import ListLemmas NumLemmas VecLemmas OpticsProof ProcessProof EngineTop TraceTop LibraryTop LawProof SymmetryProof BackProof OrderProof BoxWay SightProof FoundProof BallProof DropProof.
From Verif.Spec Require Import BundleSpec EngineSpec GeometrySpec GeomIface OpticsSpec LibrarySpec ModelSpec LawSpec BackSpec SightSpec FoundSpec BallSpec DropSpec.
Import ListNotations.
Local Open Scope R_scope.

Section Drop.
Variables (objs : list obj) (s : surface) (r i1 i2 me : R) (g : shared) (b : bundle) (n reps : nat) (vs ds : list vec) (st : tstate surface shared).
Hypothesis (La : library_assembly objs [s]) (Df : forall ob, In ob objs -> exists k, ob = default_object k) (Ms : drop r i1 i2 s).
Hypothesis (Ls : library_source b n) (Fg : fair (g_rng g)).
Hypothesis Tr : ray_tracer surface_ops objs [s] g b reps me TreeTrue = Ok (vs, ds, st).

Lemma drop_lib : lib_surface s.
Proof. apply La. left. reflexivity. Qed.

(** A child starts where its parent first meets the drop, and there is no choice but to go on or through. *)
Lemma child_meets L prev lvl p i v d e : nth_error (t_tree st) L = Some prev -> nth_error (t_tree st) (L + 1) = Some lvl -> parent_at lvl i = Some p ->
  vert_at prev p = Some v -> dir_at prev p = Some d -> energy_at prev p = Some e ->
  exists t, 0 < t /\ norm2 (vsub (ray_at v d t) (centre s)) = r * r /\
  (forall u, 0 < u < t -> norm2 (vsub (ray_at v d u) (centre s)) = r * r -> exists u0, 0 < u0 <= tenm 6 /\ norm2 (vsub (ray_at v d u0) (centre s)) = r * r) /\
  exists thr, forall x e', mt_surf x = s -> mt_point x = ray_at v d t -> mt_in x = d -> mt_before x = ref_at prev p -> mt_through x = thr ->
    dot d (mt_normal x) <> 0 -> lawful_meeting x e e' ->
    vert_at lvl i = Some (mt_point x) /\ dir_at lvl i = Some (mt_out x) /\ energy_at lvl i = Some e' /\ ref_at lvl i = mt_after x.
Proof.
  intros Hp Hl Hi Hv Hd He.
  destruct (laws_top objs [s] La me g b n Ls Fg reps vs ds st Tr) as (ns & Ts & _ & Tc & H).
  destruct (bounded_trace objs [s] La me g b n Ls reps vs ds st Tr) as (B1 & _ & B3 & _).
  destruct (H L prev lvl Hp Hl) as (N & via & thr & A & _). destruct (B3 (L + 1)%nat lvl ltac:(lia) Hl) as (m & Tm & _).
  destruct (parent_vert lvl m i p Tm Hi) as (x & Hx). destruct (A i x Hx) as (s0 & j0 & t & Es & Mf & (v1 & d1 & e1 & q & g1 & d2 & e2 & Mk)).
  destruct Mk as (V1 & D1 & E1 & Pa & V2 & D2 & E2 & Eq & Gr & Gn & Fo & _).
  assert (s0 = s) by (destruct (via i) as [|[|w]]; cbn in Es; congruence). assert (j0 = p) by congruence. subst s0 j0.
  assert (v1 = v) by congruence. assert (d1 = d) by congruence. assert (e1 = e) by congruence. subst v1 d1 e1.
  assert (Lr : (L < reps)%nat) by (assert (L + 1 < length (t_tree st))%nat by (apply nth_error_Some; congruence); lia).
  assert (Ht : is_traced me L prev p) by (apply (Tc L prev Hp); apply Mf).
  destruct (sight_plain objs [s] La Df me g b n Ls reps vs ds st Tr L prev p v d Hp Lr Ht Hv Hd) as (Cs & _).
  destruct (Cs lvl i Hl Hi) as (i0 & s0 & t2 & Es0 & _ & Pt & V3' & On & Fr).
  assert (i0 = 0%nat /\ s0 = s) as (-> & ->) by (destruct i0 as [|[|w]]; cbn in Es0; try discriminate; split; congruence).
  exists t2. split; [exact Pt|]. split; [apply (drop_shape s r drop_lib), On, (drop_in_way s r i1 i2 Ms)|]. split.
  { intros u Hu K. apply (drop_shape s r drop_lib) in K.
    destruct (Fr 0%nat s _ eq_refl Logic.I (drop_in_way s r i1 i2 Ms v d) u (proj1 Hu)) as (u0 & U1 & _ & U2); [intros t0 E0; assert (t0 = t2) by congruence; subst; apply Hu|exact K|].
    exists u0. split; [exact U1|]. apply (drop_shape s r drop_lib). exact U2. }
  exists (thr i). intros x' e' Xs Xp Xi Xb Xt Nz (Ui & (q' & g' & P1 & P2 & P3) & Fx). rewrite Xs, Xi in *.
  assert (Ep : ray_at v d t = mt_point x') by congruence. rewrite Ep in Eq.
  assert (En : N (via i) p = mt_normal x').
  { eapply (normal_same s (mt_point x') q' g' _ q g1); eauto. apply drop_lib. }
  rewrite En in Fo. rewrite Xb, Xt in Fx.
  assert (Sp : specular (s_opt s)) by (destruct Ms as (_ & _ & ->); exact Logic.I).
  destruct (follows_once (thr i) (s_opt s) _ (mt_normal x') d e _ d2 e2 _ (mt_out x') e' _ Sp Ui (proj1 P3) Fo Fx) as (-> & -> & ->).
  rewrite V2, Ep. auto.
Qed.

Lemma drop_ways : forall j v d e k k', vert_at b j = Some v -> dir_at b j = Some d -> energy_at b j = Some e -> ref_at b j = Some k ->
  faces i1 i2 k k' -> comes_in (centre s) r k k' v d ->
  exists f P D Out, rainbow (centre s) r k k' v d f P D Out /\ 0 <= f <= 1 /\
  ((1 <= reps)%nat -> exists d', mirrored (vscale (/ r) (vsub (P 0%nat) (centre s))) d d' /\ there (t_tree st) 1 j (P 0%nat) d' (e * f) k) /\
  (forall q, (q + 1 <= reps)%nat -> ((1 <= q)%nat -> me < e * (1 - f) * f ^ (q - 1)) -> there (t_tree st) (q + 1) j (P q) (D q) (e * (1 - f) * f ^ q) k') /\
  (forall q, (q + 2 <= reps)%nat -> me < e * (1 - f) * f ^ q -> there (t_tree st) (q + 2) j (P (S q)) (Out (S q)) (e * (1 - f) * f ^ q * (1 - f)) k) /\
  (forall L i lvl, (1 <= L)%nat -> nth_error (t_tree st) L = Some lvl -> descends (t_tree st) L i j -> in_rainbow (centre s) r k k' d e f P D Out L lvl i).
Proof.
  intros j v d e k k' Hv Hd He Hk Fa (C1 & C2 & C3 & C4). pose proof (drop_pos s r i1 i2 Ms) as Pr. destruct (indices_pos s r i1 i2 Ms drop_lib) as (Q1 & Q2).
  destruct (proj2 Ls j _ e Hd He) as (U & Pe & _). set (c := centre s) in *.
  assert (Pk : 0 < k /\ 0 < k') by (destruct Fa as [(-> & ->)|(-> & ->)]; auto). destruct Pk as (Pk & Pk').
  set (m2 := norm2 (cross (vsub v c) d)) in *.
  assert (M2 : m2 = norm2 (vsub v c) - dot (vsub v c) d * dot (vsub v c) d).
  { unfold m2. rewrite lagrange. unfold is_unit in U. rewrite U. ring. }
  unfold to_drop in C3. set (h0 := half_chord c r v d) in *. set (h1 := inner_half c r k k' v d) in *. set (B := dot (vsub v c) d) in *.
  assert (H0 : h0 * h0 = r * r - m2) by (apply sqrt_sqrt; fold m2; lra).
  assert (P0 : 0 < h0) by (apply sqrt_lt_R0; fold m2; lra).
  assert (Qm : k / k' * (k / k') * m2 < r * r).
  { apply (Rmult_lt_reg_l (k' * k')); [nra|]. replace (k' * k' * (k / k' * (k / k') * m2)) with (k * k * m2) by (field; lra). exact C2. }
  assert (H1 : h1 * h1 = r * r - k / k' * (k / k') * m2) by (apply sqrt_sqrt; fold m2; lra).
  assert (P1 : 0 < h1) by (apply sqrt_lt_R0; fold m2; lra).
  assert (Eq : k' * k' * (r * r - h1 * h1) = k * k * (r * r - h0 * h0)).
  { rewrite H0, H1. replace (r * r - (r * r - k / k' * (k / k') * m2)) with (k / k' * (k / k') * m2) by ring. field. lra. }
  set (t := - B - h0) in *. set (p := ray_at v d t).
  assert (Pt : 0 < t) by (unfold tenm in C3; lra).
  assert (Np : norm2 (vsub p c) = r * r) by (unfold p; rewrite square_along by auto; fold B; unfold t; nra).
  assert (Dp : dot (vsub p c) d = - 1 * h0) by (unfold p; rewrite dot_along by auto; fold B; unfold t; ring).
  (* the share *)
  assert (Un : is_unit (nrm s r 1 p)).
  { unfold is_unit, nrm. fold c. transitivity (/ r * / r * norm2 (vsub p c)). { destruct (vsub p c). open_vec. field. lra. } rewrite Np. field. lra. }
  assert (Dn : dot d (nrm s r 1 p) = - (h0 / r)).
  { transitivity (/ r * dot (vsub p c) d). { unfold nrm. fold c. destruct (vsub p c), d. open_vec. field. lra. } rewrite Dp. field. lra. }
  assert (Hx : 0 < h0 / r) by (apply Rdiv_lt_0_compat; lra). assert (Hx1 : 0 < h1 / r) by (apply Rdiv_lt_0_compat; lra).
  assert (Cr : can_refract k k' d (nrm s r 1 p)).
  { apply (snell_made k k' (nrm s r 1 p) d (- (h1 / r)) Pk Pk' Un U); [lra|lra|]. rewrite Dn. apply (Rmult_eq_reg_l (r * r)); [|nra].
    transitivity (k' * k' * (r * r - h1 * h1)); [field; lra|]. rewrite Eq. field. lra. }
  destruct (fresnel_lawful k k' d (nrm s r 1 p) Pk Pk' U Un Cr) as (f & _ & Rf); [left; lra|].
  pose proof (reflectance_bounds k k' d (nrm s r 1 p) f Pk Pk' Rf) as Bf.
  assert (Face : forall thr, snell k k' (nrm s r 1 p) d (passed s r k k' 1 h0 h1 p d) /\ dot d (nrm s r 1 p) = - (h0 / r) /\
    dot (vsub p c) (passed s r k k' 1 h0 h1 p d) = - 1 * h1 /\
    lawful_meeting (at_face s r thr k k' 1 h0 h1 p d) e (e * (if thr then 1 - f else f)) /\ dot d (mt_normal (at_face s r thr k k' 1 h0 h1 p d)) <> 0).
  { intros thr. apply (face_lawful s r i1 i2 f Ms drop_lib thr k k' 1 h0 h1 p d e Fa); auto. }
  destruct (Face true) as (Sn & _ & D1 & _). set (d1 := passed s r k k' 1 h0 h1 p d) in *.
  assert (U1 : is_unit d1) by apply Sn.
  assert (Ru : runs c r h1 p d1) by (constructor; auto; rewrite ?D1, ?Np; lra).
  assert (Rf' : forall p' d', is_unit d' -> norm2 (vsub p' c) = r * r -> dot (vsub p' c) d' = h1 -> reflectance k' k d' (nrm s r (-1) p') f).
  { intros p' d' _ _ Dp'. apply (reflectance_like k' k (vopp d1) (nrm s r 1 p)); [|apply (reflectance_reversed k k' d); auto].
    transitivity (h1 / r).
    - replace (dot d' (nrm s r (-1) p')) with (- / r * dot (vsub p' c) d'). { rewrite Dp'. replace (- / r * h1) with (- (h1 / r)) by (field; lra). rewrite Rabs_Ropp. apply Rabs_right. lra. }
      unfold nrm. fold c. destruct (vsub p' c), d'. open_vec. field. lra.
    - replace (dot (vopp d1) (nrm s r 1 p)) with (- / r * dot (vsub p c) d1). { rewrite D1. replace (- / r * (- 1 * h1)) with (h1 / r) by (field; lra). symmetry. apply Rabs_right. lra. }
      unfold nrm. fold c. destruct (vsub p c), d1. unfold vopp. open_vec. field. lra. }
  assert (Hc : half_chord c r p d1 = h1).
  { unfold half_chord. rewrite lagrange, Np, D1. unfold is_unit in U1. rewrite U1.
    replace (r * r - (r * r * 1 - - 1 * h1 * (- 1 * h1))) with (h1 * h1) by ring. apply sqrt_square. lra. }
  assert (Ib : in_ball c r p d1) by (split; [lra|unfold to_wall; rewrite Hc, D1; lra]).
  set (P := fun q => fst (after c r h1 p d1 q)). set (D := fun q => snd (after c r h1 p d1 q)).
  set (Out := fun q => match q with O => d | S q => leaving s r k k' h1 h0 p d1 q end).
  assert (Ch : chords c r p d1 P D).
  { pose proof (chords_after c r Pr p d1 U1 Ib) as Ch. rewrite Hc in Ch. exact Ch. }
  assert (At : forall q, is_unit (D q) /\ norm2 (vsub (P (S q)) c) = r * r /\ dot (vsub (P (S q)) c) (D q) = h1 /\ cross (vsub (P (S q)) c) (D q) = cross (vsub p c) d1).
  { intros q. pose proof (after_runs c r Pr h1 q p d1 Ru) as Rq. fold (P q) (D q) in Rq. destruct (end_of_chord c r h1 _ _ Rq) as (N & H & _).
    assert (EP : P (S q) = ray_at (P q) (D q) (h1 - dot (vsub (P q) c) (D q))).
    { unfold P, D. rewrite after_S. destruct (after c r h1 p d1 q) as (v', d'). reflexivity. }
    rewrite EP. split; [apply Rq|]. split; [exact N|]. split; [exact H|]. rewrite cross_along. destruct q as [|q]; [reflexivity|].
    apply (ch_plane _ _ _ _ _ _ Ch (S q)). lia. }
  assert (Fb : faces i1 i2 k' k) by (destruct Fa as [(-> & ->)|(-> & ->)]; [right|left]; auto).
  assert (Ex : forall q, snell k' k (nrm s r (-1) (P (S q))) (D q) (Out (S q)) /\ dot (vsub (P (S q)) c) (Out (S q)) = h0).
  { intros q. destruct (At q) as (Uq & Nq & Hq & _).
    destruct (face_lawful s r i1 i2 f Ms drop_lib true k' k (-1) h1 h0 (P (S q)) (D q) e) as (A & _ & C & _); auto; [fold c; lra|].
    split; [exact A|]. fold c in C. change (Out (S q)) with (passed s r k' k (-1) h1 h0 (P (S q)) (D q)). lra. }
  assert (X1 : vscale (/ r) (vsub p c) = nrm s r 1 p) by (unfold nrm; fold c; f_equal; field; lra).
  assert (Ei : 0 <= e * (1 - f)) by (apply Rmult_le_pos; lra).
  assert (Weak : forall q, me < e * (1 - f) * f ^ q -> me < e * (1 - f)).
  { intros q L. assert (f ^ q <= 1). { clear -Bf. induction q as [|i IHi]; cbn [pow]; [lra|]. assert (0 <= f ^ i) by (apply pow_le; lra). nra. } nra. }
  assert (Into : forall path v' d' e' m', (path <> [] -> me < e * (1 - f)) -> seen_way [s] me p d1 (e * (1 - f)) (Some k') path v' d' e' (Some m') ->
    (S (length path) <= reps)%nat -> there (t_tree st) (S (length path)) j v' d' e' m').
  { intros path v' d' e' m' Lm Sw Hr. destruct (Face true) as (_ & _ & _ & Lw & Nz).
    assert (Sw' : seen_way [s] me v d e (ref_at b j) (at_face s r true k k' 1 h0 h1 p d :: path) v' d' e' (Some m')).
    { rewrite Hk. apply (seen_next [s] me v d e (Some k) t (at_face s r true k k' 1 h0 h1 p d) (e * (1 - f))); auto.
      - left. reflexivity.
      - intros s0 [<-|[]]. eexists. split; [apply (drop_in_way s r i1 i2 Ms)|]. intros u Hu K. apply (drop_shape s r drop_lib) in K. fold c in K. rewrite square_along in K by auto. fold B in K. unfold t in Hu. nra.
      - split; [exact C3|]. eexists. split; [apply (drop_in_way s r i1 i2 Ms)|]. apply (drop_shape s r drop_lib). exact Np.
      - cbn [at_face mt_surf]. destruct Ms as (_ & _ & ->); exact I. }
    destruct (found_top objs [s] La Df me g b n Ls Fg reps vs ds st Tr j _ _ e Hv Hd He _ _ _ _ _ Sw' Hr) as (lvl & i & A1 & A2 & A3). exists lvl, i. split; [exact A1|split; [exact A2|exact A3]]. }
  exists f, P, D, Out. split; [|split; [exact Bf|split; [|split; [|split]]]].
  - constructor; fold c; fold h0 h1; try (change (P 0%nat) with p); try (change (D 0%nat) with d1).
    + split; [reflexivity|exact Np].
    + rewrite X1. exact Rf.
    + rewrite X1. exact Sn.
    + split; [exact Ch|exact Hc].
    + intros q. replace (vscale (- / r) (vsub (P (S q)) c)) with (nrm s r (-1) (P (S q))) by (unfold nrm; fold c; f_equal; field; lra). apply Ex.
    + intros q. rewrite dot_comm. apply Ex.
    + intros q. destruct (At q) as (_ & _ & _ & Cq).
      assert (E1 : cross (vsub (P (S q)) c) (Out (S q)) = vscale (k' / k) (cross (vsub (P (S q)) c) (D q))).
      { change (Out (S q)) with (passed s r k' k (-1) h1 h0 (P (S q)) (D q)). unfold passed. fold c. destruct (vsub (P (S q)) c), (D q). open_vec. f_equal; ring. }
      assert (E2 : cross (vsub p c) d1 = vscale (k / k') (cross (vsub p c) d)).
      { unfold d1, passed. fold c. destruct (vsub p c), d. open_vec. f_equal; ring. }
      rewrite E1, Cq, E2. unfold p. rewrite cross_along. destruct (cross (vsub v c) d). open_vec. f_equal; field; lra.
  - intros Hr. exists (thrown s r 1 h0 p d). change (P 0%nat) with p. rewrite X1.
    destruct (Face false) as (_ & _ & _ & Lw & Nz). split.
    { destruct Lw as (_ & _ & Fo). cbn [at_face mt_surf mt_through mt_out mt_normal mt_in] in Fo. destruct Ms as (_ & _ & Eo). rewrite Eo in Fo. cbn [follows] in Fo.
      destruct Fo as (? & ? & ? & _ & _ & _ & _ & _ & _ & _ & M & _). exact M. }
    assert (Sw : seen_way [s] me v d e (ref_at b j) [at_face s r false k k' 1 h0 h1 p d] p (thrown s r 1 h0 p d) (e * f) (Some k)).
    { rewrite Hk. apply (seen_next [s] me v d e (Some k) t (at_face s r false k k' 1 h0 h1 p d) (e * f)); auto.
      - left. reflexivity.
      - intros s0 [<-|[]]. eexists. split; [apply (drop_in_way s r i1 i2 Ms)|]. intros u Hu K. apply (drop_shape s r drop_lib) in K. fold c in K. rewrite square_along in K by auto. fold B in K. unfold t in Hu. nra.
      - split; [exact C3|]. eexists. split; [apply (drop_in_way s r i1 i2 Ms)|]. apply (drop_shape s r drop_lib). exact Np.
      - cbn [at_face mt_surf]. destruct Ms as (_ & _ & ->); exact I.
      - intros X. destruct (X eq_refl).
      - constructor. }
    destruct (found_top objs [s] La Df me g b n Ls Fg reps vs ds st Tr j _ _ e Hv Hd He _ _ _ _ _ Sw Hr) as (lvl & i & A1 & A2 & A3). exists lvl, i. split; [exact A1|split; [exact A2|exact A3]].
  - intros q Hq Lm. destruct q as [|q].
    + replace (e * (1 - f) * f ^ 0) with (e * (1 - f)) by (cbn; ring). apply (Into [] p d1 (e * (1 - f)) k'); [intros X; destruct (X eq_refl)|constructor|exact Hq].
    + specialize (Lm ltac:(lia)). replace (S q - 1)%nat with q in Lm by lia.
      destruct (inside_way s r i1 i2 k k' f Ms drop_lib h1 h0 Fa P1 P0 (eq_sym Eq) Rf' me false Bf q p d1 (e * (1 - f)) Ru) as (path & Lp & Sw); auto.
      { fold c. rewrite D1. lra. }
      replace (S q + 1)%nat with (S (length path)) in * by lia. apply (Into path); auto. intros _. exact (Weak q Lm).
  - intros q Hq Lm.
    destruct (inside_way s r i1 i2 k k' f Ms drop_lib h1 h0 Fa P1 P0 (eq_sym Eq) Rf' me true Bf q p d1 (e * (1 - f)) Ru) as (path & Lp & Sw); auto.
    { fold c. rewrite D1. lra. }
    replace (q + 2)%nat with (S (length path)) in * by lia. apply (Into path); auto. intros _. exact (Weak q Lm).
  - (* no other rays *)
    assert (Gone : forall L prev lvl pa i v' d' e', is_unit d' -> norm2 (vsub v' c) = r * r -> 0 < dot (vsub v' c) d' ->
      nth_error (t_tree st) L = Some prev -> nth_error (t_tree st) (L + 1) = Some lvl -> parent_at lvl i = Some pa ->
      vert_at prev pa = Some v' -> dir_at prev pa = Some d' -> energy_at prev pa = Some e' -> False).
    { intros L prev lvl pa i v' d' e' Ud' Nv Pd Hp Hl Hi A1 A2 A3. destruct (child_meets L prev lvl pa i v' d' e' Hp Hl Hi A1 A2 A3) as (u & Pu & On & _).
      fold c in On. rewrite square_along, Nv in On by auto. nra. }
    assert (Und : forall d', mirrored (nrm s r 1 p) d d' -> is_unit d' /\ dot (vsub p c) d' = h0).
    { intros d' M. split; [exact (mirrored_unit _ _ _ U Un M)|]. destruct M as (Md & _). rewrite Dn in Md.
      apply (Rmult_eq_reg_l (/ r)); [|apply Rinv_neq_0_compat; lra]. transitivity (dot d' (nrm s r 1 p)); [|rewrite Md; field; lra].
      unfold nrm. fold c. destruct (vsub p c), d'. open_vec. field. lra. }
    destruct (bounded_trace objs [s] La me g b n Ls reps vs ds st Tr) as (_ & B0 & _).
    induction L as [|L IH]; intros i lvl HL Hl De; [lia|].
    inversion De as [|L1 lvl1 k1 pa j1 A1 A2 A3 Qx]. assert (L1 = L) by lia. subst L1 k1 j1. assert (lvl1 = lvl) by (replace (L + 1)%nat with (S L) in A1 by lia; congruence). subst lvl1. clear De.
    destruct (nth_lt (t_tree st) L) as (prev & Hp). { assert (L + 1 < length (t_tree st))%nat by (apply nth_error_Some; congruence). lia. }
    destruct L as [|L].
    + assert (prev = b) by congruence. subst prev. assert (pa = j) by (inversion A3; [congruence|lia]). subst pa.
      destruct (child_meets 0 b lvl j i v d e Hp A1 A2 Hv Hd He) as (u & Pu & On & Bef & thr & Ch'). fold c in On, Bef.
      assert (Eu : u = t).
      { rewrite square_along in On by auto. fold B in On. assert (Z : (u + B - h0) * (u + B + h0) = 0) by nra.
        apply Rmult_integral in Z as [Z|Z]; [exfalso|unfold t; lra].
        destruct (Bef t) as (u0 & Y1 & Y2); [unfold t; unfold t in Pt; lra|exact Np|]. rewrite square_along in Y2 by auto. fold B in Y2. unfold t in C3. nra. }
      destruct (Face thr) as (_ & _ & _ & Lw & Nz).
      destruct (Ch' (at_face s r thr k k' 1 h0 h1 p d) _ eq_refl (f_equal (ray_at v d) (eq_sym Eu)) eq_refl (eq_sym Hk) eq_refl Nz Lw) as (R1 & R2 & R3 & R4).
      cbn [at_face mt_point mt_out mt_after] in R1, R2, R4. destruct thr.
      * right; left. exists 0%nat. split; [reflexivity|]. replace (e * (1 - f) * f ^ 0) with (e * (1 - f)) by (cbn; ring). split; [exact R1|split; [exact R2|split; [exact R3|exact R4]]].
      * left. split; [reflexivity|]. exists (thrown s r 1 h0 p d). fold c. change (P 0%nat) with p. rewrite X1. split; [|split; [exact R1|split; [exact R2|split; [exact R3|exact R4]]]].
        destruct Lw as (_ & _ & Fo). cbn [at_face mt_surf mt_through mt_out mt_normal mt_in] in Fo. destruct Ms as (_ & _ & Eo). rewrite Eo in Fo. cbn [follows] in Fo.
        destruct Fo as (? & ? & ? & _ & _ & _ & _ & _ & _ & _ & M & _). exact M.
    + destruct (IH pa prev ltac:(lia) Hp A3) as [(E1 & d' & M & R1 & R2 & R3 & R4)|[(q & Eq1 & R1 & R2 & R3 & R4)|(q & Eq1 & R1 & R2 & R3 & R4)]].
      * exfalso. fold c in M. change (P 0%nat) with p in M, R1. rewrite X1 in M. destruct (Und d' M) as (U' & H').
        apply (Gone _ prev lvl pa i p d' (e * f)) with (4 := Hp); auto. lra.
      * pose proof (after_runs c r Pr h1 q p d1 Ru) as Rq. fold (P q) (D q) in Rq.
        destruct (child_meets _ prev lvl pa i _ _ _ Hp A1 A2 R1 R2 R3) as (u & Pu & On & _ & thr & Ch'). fold c in On.
        destruct (At q) as (Uq & Nq & Hq & _).
        assert (EP : P (S q) = ray_at (P q) (D q) (h1 - dot (vsub (P q) c) (D q)) /\ D (S q) = bent c r h1 (P (S q)) (D q)).
        { unfold P, D. rewrite after_S. destruct (after c r h1 p d1 q) as (v', d'). split; reflexivity. }
        destruct EP as (EP & ED).
        assert (Eu : u = h1 - dot (vsub (P q) c) (D q)).
        { pose proof (square_along c (P q) (D q) u Uq) as S1. rewrite On in S1. destruct Rq as [_ _ Hi Hh]. set (Bq := dot (vsub (P q) c) (D q)) in *.
          assert (Z : (u + Bq - h1) * (u + Bq + h1) = 0) by nra. apply Rmult_integral in Z as [Z|Z]; [lra|]. exfalso. nra. }
        destruct (face_lawful s r i1 i2 f Ms drop_lib thr k' k (-1) h1 h0 (P (S q)) (D q) (e * (1 - f) * f ^ q) Fb) as (_ & _ & _ & Lw & Nz); auto; [fold c; lra|].
        destruct (Ch' (at_face s r thr k' k (-1) h1 h0 (P (S q)) (D q)) _ eq_refl ltac:(rewrite Eu, <- EP; reflexivity) eq_refl (eq_sym R4) eq_refl Nz Lw) as (V1 & V2 & V3' & V4).
        cbn [at_face mt_point mt_out mt_after] in V1, V2, V4. destruct thr.
        -- right; right. exists q. split; [lia|]. split; [exact V1|split; [exact V2|split; [exact V3'|exact V4]]].
        -- right; left. exists (S q). split; [lia|]. rewrite (thrown_bent s r i1 i2 Ms) in V2. fold c in V2. rewrite <- ED in V2.
           replace (e * (1 - f) * f ^ S q) with (e * (1 - f) * f ^ q * f) by (cbn [pow]; ring). split; [exact V1|split; [exact V2|split; [exact V3'|exact V4]]].
      * exfalso. destruct (Ex q) as (Sq & Hq). destruct (At q) as (_ & Nq & _).
        apply (Gone _ prev lvl pa i (P (S q)) (Out (S q)) (e * (1 - f) * f ^ q * (1 - f))) with (4 := Hp); auto; [apply Sq|lra].
Qed.
End Drop.

(** What is reflected, what has gone out and what is still inside is all there was. *)
Lemma drop_energy e f q : e * f + sum_R (map (fun i => e * (1 - f) * f ^ i * (1 - f)) (seq 0 q)) + e * (1 - f) * f ^ q = e.
Proof.
  induction q as [|q IH]; [cbn; ring|]. rewrite seq_S, map_app, sum_R_app. cbn [map sum_R fold_right Nat.add pow]. lra.
Qed.
