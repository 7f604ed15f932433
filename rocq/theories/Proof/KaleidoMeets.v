(** Light in a homogenizer goes on from wall to wall. *)
From Coq Require Import Reals String List Arith Bool Lia Lra.
From Verif.Base Require Import Py Num Vec.
From Verif.Model Require Import RayBundle Spatial Geometry TraceTree OpticsCallables Engine Objects Surface Assembly Scene Models Sources.
From Verif.Proof Require Import ListLemmas NumLemmas VecLemmas BundleProof ProcessProof GeomProof GeomTop ObjectProof LibraryTop TraceTop AnswerProof
  PlaceProof PlaceTop ConstructProof ConstructTop GrowProof ViewProof SceneProof ActProof ModelProof ModelTop DishProof CollectProof TowerProof LawProof
  SymmetryProof OrderProof ModelExamples KaleidoProof.
From Verif.Spec Require Import BundleSpec EngineSpec GeometrySpec GeomIface OpticsSpec LibrarySpec FrameSpec SceneSpec ModelSpec LawSpec OrderSpec KaleidoSpec.
Import ListNotations.
Local Open Scope R_scope.

Section Meets.
Variables (T : mat4) (X Y H eff : R).
Hypotheses (RT : rigid T) (HX : 0 < X) (HY : 0 < Y) (HH : 0 < H) (He : 0 <= eff <= 1).
Let ss := seen_surfaces id4 (mkA T (walls X Y H eff) []).
Let objs := repeat (one_sided_object 1) 4.

Lemma four_walls : length ss = 4%nat.
Proof. reflexivity. Qed.

(** The wall at the end of the way. *)
Lemma wall_at u q : reaches X Y H u q -> exists i s A z, (i < length ss)%nat /\ nth_error ss i = Some s /\ wall_is X Y H A z /\
  one_way_mirror s (placed T A) (turned T z) eff /\ A q /\ tenm 10 < Rabs (dot u z).
Proof.
  intros Lv. assert (K : forall i, (i < 4)%nat -> exists s, nth_error ss i = Some s).
  { intros i Hi. destruct (nth_error ss i) eqn:E; eauto. apply nth_error_None in E. rewrite four_walls in E. lia. }
  destruct (box_acts T X Y H eff RT HX HY HH) as (xp & xn & yp & yn & E & A1 & A2 & A3 & A4). fold ss in E. rewrite E in *. cbn [length].
  assert (Ax : forall w, Rabs (dot u (V3 w 0 0)) = Rabs (w * vx u)) by (intros w; f_equal; destruct u; open_vec; ring).
  assert (Ay : forall w, Rabs (dot u (V3 0 w 0)) = Rabs (w * vy u)) by (intros w; f_equal; destruct u; open_vec; ring).
  assert (An : forall y, Rabs (-1 * y) = Rabs y) by (intros y; rewrite <- Rabs_Ropp; f_equal; ring).
  destruct Lv as [(Hu & [Q|Q])|(Hu & [Q|Q])].
  - exists 0%nat, xp. eexists _, _. split; [lia|]. split; [reflexivity|]. split; [|split; [exact A1|split; [exact Q|]]].
    + exists 1. split; auto. left. split; [|f_equal; ring]. intros p. rewrite Rmult_1_l. reflexivity.
    + rewrite Ax, An. exact Hu.
  - exists 1%nat, xn. eexists _, _. split; [lia|]. split; [reflexivity|]. split; [|split; [exact A2|split; [exact Q|]]].
    + exists (-1). split; auto. left. split; [|f_equal; ring]. intros p. replace (-1 * (X / 2)) with (- (X / 2)) by ring. reflexivity.
    + rewrite Ax, Rmult_1_l. exact Hu.
  - exists 2%nat, yp. eexists _, _. split; [lia|]. split; [reflexivity|]. split; [|split; [exact A3|split; [exact Q|]]].
    + exists 1. split; auto. right. split; [|f_equal; ring]. intros p. rewrite Rmult_1_l. reflexivity.
    + rewrite Ay, An. exact Hu.
  - exists 3%nat, yn. eexists _, _. split; [lia|]. split; [reflexivity|]. split; [|split; [exact A4|split; [exact Q|]]].
    + exists (-1). split; auto. right. split; [|f_equal; ring]. intros p. replace (-1 * (Y / 2)) with (- (Y / 2)) by ring. reflexivity.
    + rewrite Ay, Rmult_1_l. exact Hu.
Qed.

(** Between the walls a ray is only once on its way at a wall. *)
Lemma wall_once A z A' z' p u t t' : wall_is X Y H A z -> wall_is X Y H A' z' -> within X (vx p) -> within Y (vy p) ->
  A (ray_at p u t) -> A' (ray_at p u t') -> 0 < t -> 0 < t' -> dot u z <> 0 -> dot u z' <> 0 -> t <= t'.
Proof.
  intros W W' Wx Wy At At' Pt Pt' Nz Nz'.
  assert (On : on_wall X Y H (ray_at p u t)) by exact (wall_on X Y H A z _ W At). destruct (wall_within X Y H eff HX HY He _ On) as (Bx & By & _).
  destruct (Rle_dec t t') as [I|I]; auto. exfalso.
  assert (G : forall w x d B, 0 < B -> w = 1 \/ w = -1 -> - (B / 2) <= x <= B / 2 -> - (B / 2) <= x + t * d <= B / 2 -> x + t' * d = w * (B / 2) -> d = 0).
  { intros w x d B HB Hw Bx1 Bx2 Ex.
    assert (P : 0 <= w * d). { destruct (Rle_dec 0 (w * d)); auto. exfalso. assert (t' * (w * d) < t' * 0) by (apply Rmult_lt_compat_l; lra).
      replace (t' * (w * d)) with (w * (t' * d)) in * by ring. destruct Hw as [-> | ->]; lra. }
    assert (N : (t - t') * (w * d) <= 0). { replace ((t - t') * (w * d)) with (w * (t * d) - w * (t' * d)) by ring. destruct Hw as [-> | ->]; lra. }
    assert (Z : w * d = 0). { destruct (Req_dec (w * d) 0); auto. exfalso. assert (0 < (t - t') * (w * d)) by (apply Rmult_lt_0_compat; lra). lra. }
    destruct Hw as [-> | ->]; lra. }
  destruct W' as (w & Hw & [(F & ->)|(F & ->)]); apply F in At'; destruct At' as (Ex & _); apply Nz';
    unfold within, ray_at in *; destruct p as [x y zz], u as [dx dy dz]; open_vec; cbn [vx vy vz] in *.
  - rewrite (G w x dx X); auto; ring.
  - rewrite (G w y dy Y); auto; ring.
Qed.

Section Run.
Variables (me : R) (g : shared) (b : bundle) (m reps : nat) (vs ds : list vec) (st : tstate surface shared).
Hypotheses (Ls : library_source b m) (Fg : fair (g_rng g)).
Hypothesis E : ray_tracer surface_ops objs ss g b reps me TreeTrue = Ok (vs, ds, st).

Lemma shut_self i i' : shut (repeat (true, 1%nat) 4) i i' -> i = i'.
Proof.
  intros (o & n & Eo & A & B). unfold part_of in *.
  destruct o as [|[|[|[|o]]]]; [| | | |destruct o; discriminate]; cbn in A, B; lia.
Qed.

Lemma light_goes_on L prev j p u t : nth_error (t_tree st) L = Some prev -> (L < reps)%nat -> is_traced me L prev j ->
  vert_at prev j = Some (app4 T p) -> dir_at prev j = Some (turned T u) -> within X (vx p) -> within Y (vy p) ->
  tenm 6 < t -> reaches X Y H u (ray_at p u t) ->
  exists lvl k, nth_error (t_tree st) (L + 1) = Some lvl /\ parent_at lvl k = Some j /\ vert_at lvl k = Some (app4 T (ray_at p u t)).
Proof.
  intros Hp HL Tj Hv Hd Wx Wy Pt6 Lv.
  destruct (box_answers T X Y H eff RT HX HY HH He) as ((La & _) & _). fold ss objs in La.
  destruct (laws_all objs ss La me g b m Ls Fg reps vs ds st E) as (ns & Ts & gs & C & Rep & Tr & _).
  apply (Tr L prev Hp) in Tj. destruct (Rep L prev Hp HL ltac:(lia)) as (tb & Rp).
  destruct (wall_at u _ Lv) as (i & s & A & z & Hi & Es & Wz & Ac & At & Nz).
  pose proof (tenm_pos 6) as P6. pose proof (tenm_pos 10) as P10. assert (Pt : 0 < t) by lra.
  assert (Nz0 : dot u z <> 0). { intros Z. rewrite Z, Rabs_R0 in Nz. lra. }
  (* the wall ahead is asked *)
  assert (Ask : Ts L i j <> None).
  { destruct L as [|L].
    { apply (ct_first _ _ _ _ _ _ _ _ _ _ _ _ _ C); [lia|auto|]. rewrite <- (ct_source_n _ _ _ _ _ _ _ _ _ _ _ _ _ C). auto. }
    replace (S L) with (L + 1)%nat in * by lia.
    destruct (ct_owned _ _ _ _ _ _ _ _ _ _ _ _ _ C L prev Hp j Tj) as (i0 & p0 & t0 & oi & owns & next & r & Par & M0 & Eb & Nx).
    apply (Nx HL i Hi). change objs with (map made (repeat (true, 1%nat) 4)) in *.
    apply (next_made _ i0 oi owns next prev j r i Eb); [exact Hi|]. intros Sh. apply shut_self in Sh. subst i0.
    destruct (nth_lt (t_tree st) L) as (pp & Hpp). { assert (L + 1 < length (t_tree st))%nat by (apply nth_error_Some; congruence). lia. }
    destruct (ct_level _ _ _ _ _ _ _ _ _ _ _ _ _ C L pp prev Hpp Hp) as (tb' & rc & mm & ems & Rp' & _ & _ & _ & Tl & _ & (Ch & _) & _).
    destruct (Ch j) as (i2 & j2 & t2 & v2 & d2 & Par2 & _ & M2 & _ & V2 & D2 & Vj). { eapply traceable_vert_lt; eauto. }
    assert (j2 = p0) by congruence. subst j2.
    assert (t2 = t0).
    { destruct M0 as (L1 & _ & T1 & N1 & F1). destruct M2 as (L2 & _ & T2 & N2 & F2).
      specialize (F1 i2 L2). rewrite T2 in F1. specialize (F2 i L1). rewrite T1 in F2. destruct F1 as [F1|F1]; [contradiction|]. destruct F2 as [F2|F2]; [contradiction|]. lra. }
    subst t2. assert (Pv : exists p1 u1, v2 = app4 T p1 /\ d2 = turned T u1).
    { destruct (turned_onto T RT d2) as (u1 & ->). destruct RT as (rr & tt0 & -> & O). eexists _, u1. split; auto. symmetry. apply (mk4_inverse' rr tt0 v2 O). }
    destruct Pv as (p1 & u1 & -> & ->).
    assert (Mf : meets_flat A z p1 u1 (Fin t0)).
    { apply (flat_local T RT). exact (report_acts ss pp (ns L) (Ts L) tb' i p0 s _ _ (Fin t0) _ _ Rp' Es Ac (proj1 (proj2 (proj2 M0))) V2 D2). }
    assert (Ap : A p).
    { destruct Mf as (F1 & F2). destruct (Rlt_dec (tenm 10) (Rabs (dot u1 z))) as [I|I]; [|specialize (F2 I); discriminate].
      destruct (F1 I) as ((_ & P) & _). fold (ray_at (app4 T p1) (turned T u1) t0) in Vj. rewrite app_turned in Vj by auto.
      assert (Q : app4 T p = app4 T (ray_at p1 u1 t0)) by congruence. apply app4_inj in Q; auto. rewrite Q. exact P. }
    destruct Wz as (w & Hw & [(F & ->)|(F & ->)]); apply F in At; apply F in Ap; destruct At as (B1 & _), Ap as (B2 & _);
      unfold ray_at in B1; destruct p as [x y zz], u as [dx dy dz]; open_vec; cbn [vx vy vz] in *; apply Nz0.
    - assert (Z : t * dx = 0) by lra. apply Rmult_integral in Z as [Z|Z]; [lra|]. rewrite Z. ring.
    - assert (Z : t * dy = 0) by lra. apply Rmult_integral in Z as [Z|Z]; [lra|]. rewrite Z. ring. }
  (* and met first *)
  assert (Hit : forall i' s' x A' z', nth_error ss i' = Some s' -> one_way_mirror s' (placed T A') (turned T z') eff -> Ts L i' j = Some x -> meets_flat A' z' p u x).
  { intros i' s' x A' z' Es' Ac' Tx. apply (flat_local T RT). exact (report_acts ss prev (ns L) (Ts L) tb i' j s' _ _ x _ _ Rp Es' Ac' Tx Hv Hd). }
  assert (M : meets_first (Ts L) (length ss) (ns L) i j t).
  { split; auto. split; auto. split; [|split].
    - destruct (Ts L i j) as [x|] eqn:Tx; [|contradiction]. destruct (Hit i s x A z Es Ac Tx) as (F1 & _). specialize (F1 Nz). f_equal.
      destruct x as [t'| | |]; cbn in F1; try contradiction; [|exfalso; apply (F1 t); split; [lra|auto]].
      destruct F1 as ((P0 & At') & F1). f_equal. assert (t' <= t) by (apply F1; split; [lra|auto]).
      destruct (Req_dec t' t) as [|Ne]; auto. exfalso. destruct (Req_dec t' 0) as [->|Ne0].
      + (* on the wall and off it again *)
        destruct Wz as (w & Hw & [(F & ->)|(F & ->)]); apply F in At; apply F in At'; destruct At as (B1 & _), At' as (B2 & _);
          unfold ray_at in B1, B2; destruct p as [x y zz], u as [dx dy dz]; open_vec; cbn [vx vy vz] in *; apply Nz0.
        * assert (Z : t * dx = 0) by lra. apply Rmult_integral in Z as [Z|Z]; [lra|]. rewrite Z. ring.
        * assert (Z : t * dy = 0) by lra. apply Rmult_integral in Z as [Z|Z]; [lra|]. rewrite Z. ring.
      + assert (t <= t') by (eapply (wall_once A z A z p u t t'); eauto; lra). lra.
    - intros (_ & D). lra.
    - intros i' Hi'. destruct (Ts L i' j) as [x|] eqn:Tx; [|exact Logic.I].
      destruct (nth_lt ss i' Hi') as (s' & Es'). destruct (box_wall T X Y H eff RT HX HY HH i' s' Es') as (A' & z' & Wz' & Ac' & _).
      destruct (Hit i' s' x A' z' Es' Ac' Tx) as (F1 & F2).
      destruct (Rlt_dec (tenm 10) (Rabs (dot u z'))) as [I|I]; [|rewrite (F2 I); exact Logic.I].
      specialize (F1 I). destruct x as [t'| | |]; cbn in F1; try contradiction; [|exact Logic.I].
      destruct F1 as ((P0 & At') & _). destruct (Req_dec t' 0) as [Z0|Ne0].
      + left. split; [|lra]. exists i', j. split; auto. split; auto. rewrite Tx. cbn [nle]. unfold Rleb. destruct (Rle_dec t' (tenm 10)); auto. lra.
      + right. eapply (wall_once A z A' z' p u t t'); eauto; [lra|]. intros Z. rewrite Z, Rabs_R0 in I. lra. }
  destruct (nth_error (t_tree st) (L + 1)) as [lvl|] eqn:El.
  - destruct (ct_level _ _ _ _ _ _ _ _ _ _ _ _ _ C L prev lvl Hp El) as (tb' & rc & mm & ems & _ & _ & _ & _ & _ & _ & (_ & Ch) & _).
    destruct (Ch i j t M) as (k & v' & d' & _ & Par & V' & D' & Vk). exists lvl, k. split; auto. split; auto.
    assert (v' = app4 T p) as -> by congruence. assert (d' = turned T u) as -> by congruence. rewrite Vk. f_equal. apply app_turned. auto.
  - exfalso. destruct (ct_end _ _ _ _ _ _ _ _ _ _ _ _ _ C L prev Hp El HL) as (tb' & _ & N); [right; lia|]. apply (N i j t M).
Qed.
End Run.
End Meets.

Lemma kaleido_top limit X Y H eff sc : reached limit sc -> 0 < X -> 0 < Y -> 0 < H -> 0 <= eff <= 1 -> (2 <= limit)%nat ->
  exists sc' n, rect_homogenizer limit X Y H eff sc = (sc', Ok n) /\
  forall T, rigid T -> exists sc'' ss, put_at limit n T sc' = (sc'', Ok tt) /\
    engine_view limit n sc'' = (sc'', Ok (repeat (one_sided_object 1) 4, ss)) /\
  forall me g b m reps, library_source b m -> fair (g_rng g) ->
  exists vs ds st, ray_tracer surface_ops (repeat (one_sided_object 1) 4) ss g b reps me TreeTrue = Ok (vs, ds, st) /\
  (forall L lvl k v, nth_error (t_tree st) L = Some lvl -> vert_at lvl k = Some v ->
   exists j p0 u0 e0 a c p e, descends (t_tree st) L k j /\
    vert_at b j = Some (app4 T p0) /\ dir_at b j = Some (turned T u0) /\ energy_at b j = Some e0 /\
    v = app4 T p /\ dir_at lvl k = Some (turned T (bounced a c u0)) /\ energy_at lvl k = Some e /\ ref_at lvl k = ref_at b j /\
    (a + c = L)%nat /\ arrived X Y H eff p0 u0 e0 a c p e /\
    (within X (vx p0) -> within Y (vy p0) -> 0 <= vz p0 <= H ->
     (INR a - 1) * X * Rabs (vz u0) <= H * Rabs (vx u0) /\ (INR c - 1) * Y * Rabs (vz u0) <= H * Rabs (vy u0))) /\
  forall L prev j p u t, nth_error (t_tree st) L = Some prev -> (L < reps)%nat -> is_traced me L prev j ->
    vert_at prev j = Some (app4 T p) -> dir_at prev j = Some (turned T u) -> within X (vx p) -> within Y (vy p) ->
    tenm 6 < t -> reaches X Y H u (ray_at p u t) ->
    exists lvl k, nth_error (t_tree st) (L + 1) = Some lvl /\ parent_at lvl k = Some j /\ vert_at lvl k = Some (app4 T (ray_at p u t)).
Proof.
  intros R HX HY HH He L. destruct (homogenizer_step limit X Y H eff sc R HX HY HH L) as (sc' & n & ls & E & S & A & ND & Nw & W).
  set (d := mkA id4 (walls X Y H eff) []) in *. exists sc', n. split; auto. intros T RT.
  assert (Ho : has_objects d) by (unfold has_objects; cbn; discriminate).
  destruct (put_view limit n T d ls sc' (st_reached _ _ _ _ S) A ND Ho) as (sc2 & E2 & R2 & A2 & W2 & V2 & _); [cbn; lia|].
  exists sc2, (seen_surfaces id4 (moved T d)). split; auto. split; [exact V2|].
  intros me g b m reps Ls Fg. destruct (box_answers T X Y H eff RT HX HY HH He) as (An & Kn).
  destruct (tracing_answers _ _ An g b m reps me TreeTrue Ls (Kn b)) as (vs & ds & st & Et); [right; discriminate|].
  exists vs, ds, st. split; [exact Et|].
  split; [|intros L0 prev j p u t; exact (light_goes_on T X Y H eff RT HX HY HH He me g b m reps vs ds st Ls Fg Et L0 prev j p u t)]. intros L0 lvl k v Hl Hv.
  destruct (light_run T X Y H eff RT HX HY HH He me g b m reps vs ds st Ls Fg Et L0 lvl k v Hl Hv)
    as (j & p0 & u0 & e0 & a & c & p & e & De & V0 & D0 & E0 & Ev & Ed & Ee & Er & Ea & Ar).
  exists j, p0, u0, e0, a, c, p, e. do 10 (split; auto).
  intros Wx Wy Wz. destruct Ar as (A0 & A1 & _ & Ar). destruct (Ar Wx Wy) as (_ & Px & Py & s & Ps & Ex & Ey & Ez).
  assert (Pz : 0 <= vz p <= H).
  { destruct (Nat.eq_dec (a + c) 0) as [Z|Z]; [rewrite (A0 Z); auto|]. apply (wall_within X Y H eff HX HY He p). apply A1. lia. }
  rewrite Ex in Px. rewrite Ey in Py. split.
  - exact (few_bounces H X a (vz u0) (vx u0) (vx p0) (vz p0) s (vz p) HX Wx Px Ps Ez Wz Pz).
  - exact (few_bounces H Y c (vz u0) (vy u0) (vy p0) (vz p0) s (vz p) HY Wy Py Ps Ez Wz Pz).
Qed.

(** One ray across the box. *)
Definition across : bundle := mkB (Some [V3 5 0 (1 / 2)]) (Some [V3 (3 / 5) 0 (4 / 5)]) (Some [1]) None None [].
Lemma across_source : library_source across 1.
Proof.
  split.
  - split; [constructor|]. split; [|split; discriminate]. split; [eexists; reflexivity|].
    intros [] l E; cbn in E; congruence || (injection E as <-; reflexivity).
  - intros [|[|k]] d e Hd He; cbn in Hd, He; try discriminate. injection Hd as <-. injection He as <-.
    split; [unfold is_unit, norm2, dot; cbn; lra|]. split; [lra|]. intros m E. discriminate.
Qed.
Lemma across_meets : exists sc, reached 2 sc /\ rigid (translate 5 0 0) /\
  vert_at across 0 = Some (app4 (translate 5 0 0) (V3 0 0 (1 / 2))) /\ dir_at across 0 = Some (turned (translate 5 0 0) (V3 (3 / 5) 0 (4 / 5))) /\
  within 2 0 /\ within 1 0 /\ library_source across 1 /\ (forall me, is_traced me 0 across 0) /\
  tenm 6 < 5 / 3 /\ reaches 2 1 4 (V3 (3 / 5) 0 (4 / 5)) (ray_at (V3 0 0 (1 / 2)) (V3 (3 / 5) 0 (4 / 5)) (5 / 3)).
Proof.
  exists ModelExamples.start. split; [apply ModelExamples.start_reached|]. split; [apply rigid_translate|].
  split. { cbn. f_equal. unfold app4, translate. cbn. veq; lra. }
  split. { cbn. f_equal. unfold turned, translate. cbn. veq; lra. }
  unfold within. split; [lra|]. split; [lra|]. split; [apply across_source|].
  split. { intros me. exists 1. cbn. auto. }
  split. { unfold tenm. lra. }
  left. split. { cbn [vx]. rewrite Rabs_right by lra. unfold tenm. lra. }
  left. unfold across_x, ray_at. cbn. lra.
Qed.
