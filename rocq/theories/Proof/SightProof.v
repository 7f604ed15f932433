(** Nothing stands between a ray and the place where it is caught. *)
From Coq Require Import Reals List Arith Bool Lra Lia.
From Verif.Base Require Import Py Num Vec.
From Verif.Model Require Import RayBundle Boundary Geometry TraceTree OpticsCallables Engine Objects Surface.
From Verif.Proof Require Import ListLemmas NumLemmas VecLemmas ShapeProof FlatProof QuadProof GeomProof GeomTop GeomCases IntersectProof ProcessProof ObjectProof EngineTop TraceTop ObjectTrace LibraryTop LawProof.
From Verif.Spec Require Import BundleSpec EngineSpec GeometrySpec GeomIface OpticsSpec LibrarySpec LawSpec SightSpec.
Import ListNotations.
Local Open Scope R_scope.

Definition answer (A : shape) (v d : vec) (x : num) : Prop :=
  match x with
  | Fin t => 0 <= t /\ A (ray_at v d t) /\ forall u, 0 < u -> A (ray_at v d u) -> 0 < t <= u
  | PInf => forall u, 0 < u -> ~ A (ray_at v d u)
  | _ => False
  end.

Lemma first_answer A v d x : first_hit A v d x -> answer A v d x.
Proof.
  unfold first_hit, least, answer. destruct x as [t| | |]; auto.
  - intros ((H & HA) & M). split; [lra|]. split; auto.
  - intros H u Hu HA. apply (H u); auto.
Qed.

Lemma flat_answers frame (B : shape) v d x : rigid frame -> (forall q, B q -> vz q = 0) -> inclined frame d ->
  flat_answer frame B v d x -> answer (placed frame B) v d x.
Proof.
  intros Rf Z I (H & _). specialize (H I). unfold first_hit0, least, answer in *. destruct x as [t| | |]; auto.
  - destruct H as ((H & HA) & M). split; auto. split; auto. intros u Hu Hq.
    assert (Pl : forall w, placed frame B (ray_at v d w) -> placed frame xy_plane (ray_at v d w)).
    { intros w (q & Hb & E). exists q. split; auto. apply Z; auto. }
    assert (t = u) by (apply (plane_once frame v d t u Rf I); apply Pl; auto). lra.
  - intros u Hu HA. apply (H u); split; auto; lra.
Qed.

Lemma unit_big d : is_unit d -> tenm 10 < norm2 d.
Proof. intros U. unfold is_unit in U. rewrite U. unfold tenm. lra. Qed.

Lemma made_regular frame gm B c : made_as frame gm B c -> regular gm = true.
Proof.
  destruct 1; auto;
  match goal with H : _ = Ok _ |- _ => revert H end;
  unfold new_rect_plate, new_round_plate, new_sphere, new_cut_sphere, check_radius, new_parab, new_dish, new_hex_dish, par_param;
  unfold bind; repeat match goal with |- context [if ?x then _ else _] => destruct x end; intros E; try discriminate; injection E as <-; reflexivity.
Qed.

Lemma made_answers frame gm B c : rigid frame -> made_as frame gm B c ->
  finds gm frame (fun v d x => is_unit d -> c v d -> answer (placed frame B) v d x).
Proof.
  intros Rf M. 
  assert (W : forall P, finds gm frame P -> (forall v d x, P v d x -> is_unit d -> c v d -> answer (placed frame B) v d x) ->
    finds gm frame (fun v d x => is_unit d -> c v d -> answer (placed frame B) v d x)).
  { intros P F H b vs ds Hb. destruct (F b vs ds Hb) as (st & ps & E & L & Q). exists st, ps. split; auto. split; auto.
    intros i v d x Hv Hd Hx. apply H. eauto. }
  destruct M as [|w h gm E|r gm E|v0 v1 Z0 Z1 D|r gm E|r gm E|D|D h|a b gm E|D f gm E|D f gm E].
  - apply (W _ (plane_finds frame Rf)). intros v d x H U I. apply flat_answers; auto.
  - apply (W _ (rect_finds w h gm frame E Rf)). intros v d x H U I. apply flat_answers; auto. intros q Hq; apply Hq.
  - apply (W _ (round_finds r gm frame E Rf)). intros v d x H U I. apply flat_answers; auto. intros q Hq; apply Hq.
  - apply (W _ (triangle_finds v0 v1 frame Rf Z0 Z1 D)). intros v d x H U I. apply flat_answers; auto.
    intros q (s & t & _ & _ & _ & ->). unfold vadd, vscale. cbn [vz]. rewrite Z0, Z1. ring.
  - apply (W _ (sphere_finds r gm frame E Rf)). intros v d x H U I. apply first_answer, H, unit_big, U.
  - apply (W _ (uncut_sphere_finds r gm frame E Rf)). intros v d x H U I. apply first_answer, H, unit_big, U.
  - apply (W _ (cylinder_finds D frame Rf)). intros v d x H U I. apply first_answer; auto.
  - apply (W _ (finite_cylinder_finds D h frame Rf)). intros v d x H U I. apply first_answer; auto.
  - apply (W _ (parab_finds a b gm frame E Rf)). intros v d x H U I. apply first_answer; auto.
  - apply (W _ (dish_finds D f gm frame E Rf)). intros v d x H U I. apply first_answer; auto.
  - apply (W _ (hex_finds D f gm frame E Rf)). intros v d x H U I. apply first_answer; auto.
Qed.

(** What is reported about a ray is what the geometry manager finds. *)
Lemma reported_finds surfs prev n T tb i j s x v d P : reported surface_ops surfs prev n T tb ->
  nth_error surfs i = Some s -> finds (s_geom s) (s_frame s) P ->
  T i j = Some x -> vert_at prev j = Some v -> dir_at prev j = Some d -> P v d x.
Proof.
  intros (Ht & Hp & Hr & Ha) Hs F HT Hv Hd. destruct (Hr i j) as (_ & Hj); [congruence|].
  assert (Hin : In j (asked T n i)) by (apply asked_in; split; auto; congruence).
  destruct (Ha i s Hs) as (s' & [(E & _)|(_ & sub & ps & Hn & Hsub & Hreg & HF)]).
  { rewrite E in Hin. destruct Hin. }
  destruct (In_nth_error _ _ Hin) as (q & Hq). rewrite Forall2_nth in HF. destruct HF as (L & HF).
  assert (Hsub' : rays_picked prev (asked T n i) sub).
  { eapply picked_from_seq; [|exact Hp|exact Hsub]. intros k Hk. apply asked_in in Hk. tauto. }
  pose proof (picked_vert _ _ _ _ _ _ Hsub' Hq Hv) as Qv. pose proof (picked_dir _ _ _ _ _ _ Hsub' Hq Hd) as Qd.
  cbn [register_incoming surface_ops] in Hreg. unfold surf_register in Hreg.
  destruct (find_intersections (s_geom s) (s_frame s) sub) as [[st ps']|e] eqn:Ef; [|discriminate].
  cbn in Hreg. injection Hreg as _ ->.
  destruct (find_bundle _ _ _ _ _ Ef) as (vs & ds & Hb).
  destruct (F sub vs ds Hb) as (st1 & ps1 & E1 & L1 & Q). rewrite Ef in E1. injection E1 as _ <-.
  destruct Hb as (B1 & B2 & B3). unfold vert_at, dir_at, at_col in Qv, Qd. rewrite B1 in Qv. rewrite B2 in Qd.
  destruct (nth_error ps q) as [y|] eqn:Ey.
  - rewrite (HF q j y Hq Ey) in HT. injection HT as <-. eauto.
  - exfalso. assert (q < length (asked T n i))%nat by (apply nth_error_Some; congruence). apply nth_error_None in Ey. lia.
Qed.

Lemma finds_proper gm frame : regular gm = true -> rigid frame -> finds gm frame (fun _ _ x => proper_param x).
Proof.
  intros Rg (r & t & -> & O) b vs ds Hb.
  pose proof (find_regular gm (mk4 r t) (rinv r t) b vs ds Rg (rinv_for gm r t O) Hb) as E.
  eexists; eexists. split; [exact E|]. split. { destruct Hb as (_ & _ & L). apply map2_length; auto. }
  intros i v d x _ _ Hx. apply (proj1 (Forall_forall _ _) (find_proper _ _ _ _ _ Rg E) x (nth_error_In _ _ Hx)).
Qed.

(** Something is met first, if anything is. *)
Lemma some_first T nsurf ns j : (j < ns)%nat ->
  (forall i x, (i < nsurf)%nat -> T i j = Some x -> proper_param x) ->
  forall i t, (i < nsurf)%nat -> T i j = Some (Fin t) -> ~ discarded T nsurf ns t -> exists i t, meets_first T nsurf ns i j t.
Proof.
  intros Hj Pr i0 t0 Hi0 HT0 Hd0.
  assert (K : forall m, (m <= nsurf)%nat ->
    (forall i t, (i < m)%nat -> T i j = Some (Fin t) -> discarded T nsurf ns t) \/
    exists i t, (i < m)%nat /\ T i j = Some (Fin t) /\ ~ discarded T nsurf ns t /\
      forall i' t', (i' < m)%nat -> T i' j = Some (Fin t') -> discarded T nsurf ns t' \/ t <= t').
  { induction m as [|m IH]; intros Hm. { left. intros; lia. }
    assert (Dm : forall t, discarded T nsurf ns t \/ ~ discarded T nsurf ns t) by (intros; apply Classical_Prop.classic).
    destruct (IH ltac:(lia)) as [N|(i & t & A1 & A2 & A3 & A4)].
    - destruct (T m j) as [[t| | |]|] eqn:Em;
        try (left; intros i t Hi Ht; destruct (Nat.eq_dec i m); [subst; congruence|apply (N i t); [lia|auto]]).
      destruct (Dm t) as [D|D].
      + left. intros i u Hi Hu. destruct (Nat.eq_dec i m); [subst; congruence|apply (N i u); [lia|auto]].
      + right. exists m, t. split; [lia|]. split; auto. split; auto. intros i' t' Hi Hu.
        destruct (Nat.eq_dec i' m); [subst; right; assert (t = t') by congruence; lra|left; apply (N i' t'); [lia|auto]].
    - right. destruct (T m j) as [[t1| | |]|] eqn:Em;
        try (exists i, t; split; [lia|]; split; [auto|]; split; [auto|]; intros i' t' Hi Hu;
             destruct (Nat.eq_dec i' m); [subst; congruence|apply (A4 i' t'); [lia|auto]]).
      destruct (Dm t1) as [D|D]; [|destruct (Rle_dec t t1) as [Le|Gt]].
      + exists i, t. split; [lia|]. split; [auto|]. split; [auto|]. intros i' t' Hi Hu.
        destruct (Nat.eq_dec i' m); [subst; left; congruence|apply (A4 i' t'); [lia|auto]].
      + exists i, t. split; [lia|]. split; [auto|]. split; [auto|]. intros i' t' Hi Hu.
        destruct (Nat.eq_dec i' m); [subst; right; assert (t1 = t') by congruence; lra|apply (A4 i' t'); [lia|auto]].
      + exists m, t1. split; [lia|]. split; [auto|]. split; [auto|]. intros i' t' Hi Hu.
        destruct (Nat.eq_dec i' m); [subst; right; assert (t1 = t') by congruence; lra|].
        destruct (A4 i' t' ltac:(lia) Hu) as [|]; [left; auto|right; lra]. }
  destruct (K nsurf (Nat.le_refl _)) as [N|(i & t & A1 & A2 & A3 & A4)]; [destruct (Hd0 (N i0 t0 Hi0 HT0))|].
  exists i, t. split; auto. split; auto. split; auto. split; auto. intros i' Hi'. destruct (T i' j) as [x|] eqn:Ex; auto.
  pose proof (Pr i' x Hi' Ex) as P. destruct x as [t1| | |]; auto. apply (A4 i' t1 Hi' Ex).
Qed.

(** Directions of the rays of a trace. *)
Lemma level_units objs surfs me g b n reps vs ds st : library_assembly objs surfs -> library_source b n ->
  ray_tracer surface_ops objs surfs g b reps me TreeTrue = Ok (vs, ds, st) ->
  forall L prev j e d, nth_error (t_tree st) L = Some prev -> energy_at prev j = Some e -> dir_at prev j = Some d -> is_unit d.
Proof.
  intros La Ls E L prev j e d Hp He Hd.
  destruct (library_trace objs surfs me La g b n reps vs ds st Ls E) as (ns & Ts & gs & C & _ & Hlen & _ & _ & _ & _ & _ & _ & _ & Hlib).
  assert (A : all_rays lib_ray prev).
  { destruct L as [|L]. { rewrite (ct_source _ _ _ _ _ _ _ _ _ _ _ _ _ C) in Hp. assert (prev = b) by congruence. subst. apply Ls. }
    replace (S L) with (L + 1)%nat in Hp by lia. eauto. }
  apply (A j d e Hd He).
Qed.

Lemma met_free A v d x t T nsurf ns : answer A v d x ->
  match x with Fin t' => discarded T nsurf ns t' \/ t <= t' | PInf => True | NInf => False | NaN => False end ->
  free_way A v d (Some t).
Proof.
  intros An H u Hu Lim HA. specialize (Lim t eq_refl). destruct x as [t'| | |]; try contradiction.
  - destruct An as (_ & A1 & A2). destruct (A2 u Hu HA) as (P1 & P2). destruct H as [(_ & D)|D]; [|lra].
    exists t'. repeat split; auto.
  - destruct (An u Hu HA).
Qed.

Lemma sight_all : forall objs surfs, library_assembly objs surfs ->
  forall me g b n, library_source b n -> forall reps vs ds st,
  ray_tracer surface_ops objs surfs g b reps me TreeTrue = Ok (vs, ds, st) ->
  exists tried : nat -> nat -> nat -> Prop,
  (forall i j, (0 < reps)%nat -> (i < length surfs)%nat -> (j < n)%nat -> tried 0%nat j i) /\
  (forall L lvl j, nth_error (t_tree st) (L + 1) = Some lvl -> (L + 1 < reps)%nat -> is_traced me (L + 1) lvl j ->
     exists i oi owns next r, emitted_by objs i oi owns next lvl j r /\
       forall i', (i' < length surfs)%nat -> (tried (L + 1)%nat j i' <-> next_surfaces objs oi owns next r i')) /\
  forall L prev j v d, nth_error (t_tree st) L = Some prev -> (L < reps)%nat -> is_traced me L prev j ->
    vert_at prev j = Some v -> dir_at prev j = Some d ->
    children_in_sight surfs (tried L j) v d (nth_error (t_tree st) (L + 1)) j /\
    ((forall s, In s surfs -> exists B c, made_as (s_frame s) (s_geom s) B c) ->
     childless_free surfs (tried L j) v d (nth_error (t_tree st) (L + 1)) j).
Proof.
  intros objs surfs La me g b n Ls reps vs ds st E.
  pose proof (level_units objs surfs me g b n reps vs ds st La Ls E) as Un.
  destruct (library_trace objs surfs me La g b n reps vs ds st Ls E) as (ns & Ts & gs & C & _).
  exists (fun L j i => Ts L i j <> None). split; [|split].
  - intros i j Hr Hi Hj. apply (ct_first _ _ _ _ _ _ _ _ _ _ _ _ _ C Hr i j Hi Hj).
  - intros L lvl j Hl HL Hj.
    destruct (ct_traced _ _ _ _ _ _ _ _ _ _ _ _ _ C (proj1 Ls) (L + 1) lvl Hl) as (mp & _ & _ & Htr & _).
    apply Htr in Hj.
    destruct (ct_owned _ _ _ _ _ _ _ _ _ _ _ _ _ C L lvl Hl j Hj) as (i & p & t & oi & owns & next & r & A1 & A2 & A3 & A4).
    exists i, oi, owns, next, r. split; auto.
  - intros L prev j v d Hp HL Hj Hv Hd.
    assert (U : is_unit d) by (destruct Hj as (e & He & _); eauto).
    destruct (ct_traced _ _ _ _ _ _ _ _ _ _ _ _ _ C (proj1 Ls) L prev Hp) as (mp & _ & _ & Htr & _).
    pose proof (proj2 (Htr j) Hj) as Jn.
    assert (Ans : forall tb i s A x, reported surface_ops surfs prev (ns L) (Ts L) tb -> nth_error surfs i = Some s ->
      in_the_way s v d A -> Ts L i j = Some x -> answer A v d x).
    { intros tb i s A x Rp Hs (B & c & M & Hc & ->) HT.
      assert (Rf : rigid (s_frame s)) by (apply (proj1 (proj2 La) s), (nth_error_In _ _ Hs)).
      exact (reported_finds surfs prev (ns L) (Ts L) tb i j s x v d _ Rp Hs (made_answers _ _ _ _ Rf M) HT Hv Hd U Hc). }
    split.
    + intros lvl k Hl Hk.
      destruct (ct_level _ _ _ _ _ _ _ _ _ _ _ _ _ C L prev lvl Hp Hl) as (tb & rc & m & ems & R1 & R2 & R3 & R4 & R5 & R6 & (R7 & _) & R8 & R9).
      assert (Km : (k < m)%nat) by (apply (rays_parent_lt lvl m k j (proj1 (proj2 R5)) Hk)).
      destruct (R7 k Km) as (i & j' & t & v' & d' & K1 & K2 & K3 & K4 & K5 & K6 & K7).
      assert (j' = j) by congruence. subst j'. assert (v' = v) by congruence. assert (d' = d) by congruence. subst v' d'.
      destruct K3 as (M1 & M2 & M3 & M4 & M5). destruct (nth_lt surfs i M1) as (s & Hs).
      exists i, s, t. split; [exact Hs|]. split; [rewrite M3; discriminate|].
      split. { unfold tenm in K4. pose proof (Rinv_0_lt_compat (10 ^ 10) ltac:(lra)). lra. }
      split; [exact K7|]. split.
      * intros A W. pose proof (Ans tb i s A (Fin t) R1 Hs W M3) as Q. apply Q.
      * intros i' s' A Hs' Hn W. destruct (Ts L i' j) as [x|] eqn:Ex; [|congruence].
        assert (Li : (i' < length surfs)%nat) by (apply nth_error_Some; congruence).
        specialize (M5 i' Li). rewrite Ex in M5.
        apply (met_free A v d x t (Ts L) (length surfs) (ns L) (Ans tb i' s' A x R1 Hs' W Ex)). destruct x; auto.
    + intros Md Nc i' s' A Hs' Hn W u Hu _ HA. destruct (Ts L i' j) as [x|] eqn:Ex; [|congruence].
      assert (Rep : exists tb, reported surface_ops surfs prev (ns L) (Ts L) tb /\ forall i t, ~ meets_first (Ts L) (length surfs) (ns L) i j t).
      { destruct (nth_error (t_tree st) (L + 1)) as [lvl|] eqn:Hl.
        - destruct (ct_level _ _ _ _ _ _ _ _ _ _ _ _ _ C L prev lvl Hp Hl) as (tb & rc & m & ems & R1 & R2 & R3 & R4 & R5 & R6 & (_ & R7) & R8 & R9).
          exists tb. split; auto. intros i t M. destruct (R7 i j t M) as (k & v1 & d1 & _ & K2 & _). apply Nc. exists lvl, k. auto.
        - destruct (ct_end _ _ _ _ _ _ _ _ _ _ _ _ _ C L prev Hp Hl HL) as (tb & R & Nm); [right; lia|]. exists tb. split; auto. }
      destruct Rep as (tb & Rp & Nm).
      assert (Li : (i' < length surfs)%nat) by (apply nth_error_Some; congruence).
      pose proof (Ans tb i' s' A x Rp Hs' W Ex) as An. destruct x as [t'| | |]; try contradiction; [|destruct (An u Hu HA)].
      destruct An as (_ & A1 & A2). destruct (A2 u Hu HA) as (P1 & P2).
      destruct (Classical_Prop.classic (discarded (Ts L) (length surfs) (ns L) t')) as [(_ & D)|D].
      { exists t'. repeat split; auto. }
      exfalso. destruct (some_first (Ts L) (length surfs) (ns L) j Jn) with (i := i') (t := t') as (i & t & M); auto.
      2:{ exact (Nm i t M). }
      intros i x Hi Hx. destruct (nth_lt surfs i Hi) as (s & Hs). destruct (Md s (nth_error_In _ _ Hs)) as (B & c & Mk).
      assert (Rf : rigid (s_frame s)) by (apply (proj1 (proj2 La) s), (nth_error_In _ _ Hs)).
      apply (reported_finds surfs prev (ns L) (Ts L) tb i j s x v d (fun _ _ y => proper_param y) Rp Hs); auto.
      apply (finds_proper _ _ (made_regular _ _ _ _ Mk) Rf).
Qed.

(** ** Scenes of ordinary objects *)
Lemma sight_plain : forall objs surfs, library_assembly objs surfs -> (forall ob, In ob objs -> exists k, ob = default_object k) ->
  forall me g b n, library_source b n -> forall reps vs ds st,
  ray_tracer surface_ops objs surfs g b reps me TreeTrue = Ok (vs, ds, st) ->
  forall L prev j v d, nth_error (t_tree st) L = Some prev -> (L < reps)%nat -> is_traced me L prev j ->
    vert_at prev j = Some v -> dir_at prev j = Some d ->
    children_in_sight surfs (fun _ => True) v d (nth_error (t_tree st) (L + 1)) j /\
    ((forall s, In s surfs -> exists B c, made_as (s_frame s) (s_geom s) B c) ->
     childless_free surfs (fun _ => True) v d (nth_error (t_tree st) (L + 1)) j).
Proof.
  intros objs surfs La Df me g b n Ls reps vs ds st E L prev j v d Hp HL Hj Hv Hd.
  destruct (sight_all objs surfs La me g b n Ls reps vs ds st E) as (tried & T0 & T1 & H).
  assert (Tr : forall i, (i < length surfs)%nat -> tried L j i).
  { intros i Hi. destruct L as [|L].
    - apply T0; auto. pose proof (proj1 (proj2 (bounded_trace objs surfs La me g b n Ls reps vs ds st E))) as Sb.
      assert (prev = b) by congruence. subst prev. apply (rays_vert_lt b n j v (proj1 (proj2 (proj1 Ls))) Hv).
    - replace (S L) with (L + 1)%nat in * by lia. destruct (T1 L prev j Hp HL Hj) as (ie & oi & owns & next & r & Em & N).
      apply N; auto. pose proof Em as (ob & ri & e & _ & Ho & _). destruct (Df ob (nth_error_In _ _ Ho)) as (ks & ->).
      destruct (emitted_num _ _ _ _ _ _ _ _ _ _ Em Ho) as (ri' & e' & n' & En & Lr & Ow & Nx).
      rewrite (proj2 (proj2 La)) in Hi.
      apply (default_object_next objs oi ks e' n' ri' owns next Ho En Ow Nx r i Lr Hi). }
  destruct (H L prev j v d Hp HL Hj Hv Hd) as (H1 & H2). split.
  - intros lvl k Hl Hk. destruct (H1 lvl k Hl Hk) as (i & s & t & A1 & A2 & A3 & A4 & A5 & A6). exists i, s, t.
    repeat (split; [auto|]). intros i' s' A Hs' _ W. apply (A6 i' s' A Hs'); auto. apply Tr, nth_error_Some. congruence.
  - intros Md Nc i' s' A Hs' _ W. apply (H2 Md Nc i' s' A Hs'); auto. apply Tr, nth_error_Some. congruence.
Qed.

(** A surface across the way catches the ray, at the latest there. *)
Lemma caught : forall objs surfs, library_assembly objs surfs -> (forall ob, In ob objs -> exists k, ob = default_object k) ->
  (forall s, In s surfs -> exists B c, made_as (s_frame s) (s_geom s) B c) ->
  forall me g b n, library_source b n -> forall reps vs ds st,
  ray_tracer surface_ops objs surfs g b reps me TreeTrue = Ok (vs, ds, st) ->
  forall L prev j v d, nth_error (t_tree st) L = Some prev -> (L < reps)%nat -> is_traced me L prev j ->
    vert_at prev j = Some v -> dir_at prev j = Some d ->
  forall s A u, In s surfs -> in_the_way s v d A -> 0 < u -> A (ray_at v d u) ->
  (forall u0, 0 < u0 <= tenm 6 -> ~ A (ray_at v d u0)) ->
  has_child (nth_error (t_tree st) (L + 1)) j /\
  forall lvl k, nth_error (t_tree st) (L + 1) = Some lvl -> parent_at lvl k = Some j ->
    exists t, 0 < t <= u /\ vert_at lvl k = Some (ray_at v d t).
Proof.
  intros objs surfs La Df Md me g b n Ls reps vs ds st E L prev j v d Hp HL Hj Hv Hd s A u Hs W Hu HA Far.
  destruct (sight_plain objs surfs La Df me g b n Ls reps vs ds st E L prev j v d Hp HL Hj Hv Hd) as (H1 & H2).
  destruct (In_nth_error _ _ Hs) as (i & Hi). split.
  - apply Classical_Prop.NNPP. intros Nc. destruct (H2 Md Nc i s A Hi I W u Hu) as (u0 & B1 & _ & B3); auto; [congruence|].
    apply (Far u0 B1 B3).
  - intros lvl k Hl Hk. destruct (H1 lvl k Hl Hk) as (i1 & s1 & t & A1 & _ & A3 & A4 & _ & A6). exists t. split; auto. split; auto.
    destruct (Rle_dec t u) as [|N]; auto. exfalso.
    destruct (A6 i s A Hi I W u Hu) as (u0 & B1 & _ & B3); auto. { intros t0 E0. injection E0 as <-. lra. }
    apply (Far u0 B1 B3).
Qed.
