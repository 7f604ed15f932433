(** Light from the focus of a dish. *)
From Coq Require Import Reals List Arith Bool Lra Lia.
From Verif.Base Require Import Py Num Vec.
From Verif.Model Require Import RayBundle Boundary Geometry TraceTree Sources OpticsCallables Engine Objects Surface.
From Verif.Proof Require Import ListLemmas NumLemmas VecLemmas FlatProof SelectProof GeomProof ShapeProof GeomTop DishProof MeshProof CollectProof ProcessProof EngineTop TraceTop LibraryTop LawProof SymmetryProof BackProof AnswerProof OrderProof SightProof FoundProof.
From Verif.Spec Require Import BundleSpec EngineSpec GeometrySpec GeomIface OpticsSpec LibrarySpec ModelSpec LawSpec BackSpec OrderSpec SightSpec FoundSpec BeamSpec.
Import ListNotations.
Local Open Scope R_scope.

(** ** The paraboloid and its focus *)
Section Bowl.
Variable f : R.
Hypothesis Pf : 0 < f.

Lemma from_focus l t : is_unit l -> 0 < t -> focal_bowl f (ray_at (focus_at f) l t) ->
  t * (1 - vz l) = 2 * f /\ t = vz (ray_at (focus_at f) l t) + f.
Proof.
  unfold is_unit, focal_bowl, focus_at, ray_at. destruct l as [x y z]. vunfold. intros U Pt E.
  assert (K : (t - (2 * f + t * z)) * (t + (2 * f + t * z)) = 0) by nra.
  assert (Z : -1 <= z <= 1) by nra.
  apply Rmult_integral in K as [K|K]; [split; lra|]. exfalso. assert (0 <= t * (1 + z)) by (apply Rmult_le_pos; lra). lra.
Qed.
Lemma one_meeting l t u : is_unit l -> 0 < t -> 0 < u -> focal_bowl f (ray_at (focus_at f) l t) -> focal_bowl f (ray_at (focus_at f) l u) -> u = t.
Proof.
  intros U Pt Pu Bt Bu. destruct (from_focus l t U Pt Bt) as (K & _), (from_focus l u U Pu Bu) as (K' & _).
  assert (0 < 1 - vz l) by nra. apply (Rmult_eq_reg_r (1 - vz l)); lra.
Qed.
Lemma up_and_away p u : focal_bowl f p -> focal_bowl f (ray_at p (V3 0 0 1) u) -> u = 0.
Proof. unfold focal_bowl, ray_at. destruct p as [x y z]. vunfold. nra. Qed.
End Bowl.

Section Dish.
Variables (s : surface) (f a : R) (A : shape).
Hypothesis (Ms : dish_mirror f a A s) (Ls : lib_surface s).
Let F := s_frame s.

Lemma focal_pos : 0 < f.
Proof. destruct Ms as ((D & [(E & _)|(E & _)]) & _); [apply new_dish_ok in E|apply new_hex_ok in E]; tauto. Qed.
Lemma part_of_bowl p : A p -> focal_bowl f p.
Proof. destruct Ms as ((D & [(_ & ->)|(_ & ->)]) & _); intros K; apply K. Qed.
Lemma dish_rigid : rigid F. Proof. apply Ls. Qed.
Lemma dish_gradient p : gradient (s_geom s) p = V3 (vx p / (2 * f)) (vy p / (2 * f)) (- 1).
Proof.
  pose proof focal_pos as Pf. pose proof (par_param_sq f Pf) as Sq.
  destruct Ms as ((D & [(E & _)|(E & _)]) & _); [apply new_dish_ok in E as (_ & ->)|apply new_hex_ok in E as (_ & ->)]; unfold dish_of, hex_of; cbv zeta; cbn [gradient]; rewrite Sq; f_equal; field; lra.
Qed.
Lemma dish_in_way q l : tells_from_axis f l -> in_the_way s (app4 F q) (turned F l) (placed F A) /\ forall p, placed F A (app4 F p) <-> A p.
Proof.
  intros Ta. pose proof dish_rigid as RF. pose proof focal_pos as Pf. split; [|intros p; apply placed_in; exact RF].
  assert (Sf : bowl_safe F (2 * sqrt f) (2 * sqrt f) (turned F l)).
  { exists l. split; [reflexivity|]. destruct Ta as [Ta|Ta]; [left|right; exact Ta].
    assert (Ps : 0 < sqrt f) by (apply sqrt_lt_R0; exact Pf). assert (Sq : sqrt f * sqrt f = f) by (apply sqrt_sqrt; lra).
    replace (vx l / (2 * sqrt f) * (vx l / (2 * sqrt f)) + vy l / (2 * sqrt f) * (vy l / (2 * sqrt f))) with ((vx l * vx l + vy l * vy l) / (4 * (sqrt f * sqrt f))) by (field; lra).
    rewrite Sq. apply (Rmult_lt_reg_r (4 * f)); [lra|]. unfold Rdiv. rewrite Rmult_assoc, Rinv_l by lra. lra. }
  destruct Ms as ((D & [(E & ->)|(E & ->)]) & _).
  - exists (round_dish D f), (fun _ d => bowl_safe F (2 * sqrt f) (2 * sqrt f) d). split; [apply as_dish; exact E|]. auto.
  - exists (hex_dish D f), (fun _ d => bowl_safe F (2 * sqrt f) (2 * sqrt f) d). split; [apply as_hex; exact E|]. auto.
Qed.

Definition at_dish (p l : vec) (m : option R) : meeting :=
  mkMeeting s false (app4 F p) (turned F (vscale (- sqrt (f / (vz p + f))) (V3 (vx p / (2 * f)) (vy p / (2 * f)) (- 1)))) (turned F l) (turned F (V3 0 0 1)) m m.

Lemma dish_lawful l t m e : let p := ray_at (focus_at f) l t in is_unit l -> 0 < t -> focal_bowl f p ->
  lawful_meeting (at_dish p l m) e (e * (1 - a)) /\ dot (turned F l) (mt_normal (at_dish p l m)) <> 0.
Proof.
  intros p U Pt B. pose proof focal_pos as Pf. pose proof dish_rigid as RF. destruct (from_focus f Pf l t U Pt B) as (_ & Et). fold p in Et.
  unfold at_dish. set (G := V3 (vx p / (2 * f)) (vy p / (2 * f)) (- 1)). set (k := sqrt (f / (vz p + f))).
  assert (Pz : 0 < vz p + f) by lra. assert (Pq : 0 < f / (vz p + f)) by (apply Rdiv_lt_0_compat; lra).
  assert (Pk : 0 < k) by (apply sqrt_lt_R0; exact Pq). assert (Kk : k * k = f / (vz p + f)) by (apply sqrt_sqrt; lra).
  assert (Ng : norm2 G = (vz p + f) / f).
  { transitivity ((vx p * vx p + vy p * vy p) / (4 * f * f) + 1). { unfold G. open_vec. field. lra. } rewrite <- B. field. lra. }
  assert (El : l = vscale (/ t) (vsub p (focus_at f))).
  { unfold p, ray_at, focus_at. destruct l. vunfold. veq; field; lra. }
  assert (Gl : dot l G = 1).
  { rewrite El. transitivity (((vx p * vx p + vy p * vy p) / (2 * f) - (vz p - f)) / t). { unfold G, focus_at. destruct p. open_vec. field. lra. }
    rewrite <- B, Et. field. lra. }
  set (n := vscale (- k) G).
  assert (Nn : norm2 n = 1).
  { transitivity (k * k * norm2 G). { unfold n. destruct G. open_vec. ring. } rewrite Kk, Ng. field. lra. }
  assert (Dn : dot l n = - k).
  { transitivity (- k * dot l G); [|rewrite Gl; ring]. unfold n. destruct l, G. open_vec. ring. }
  split; [|cbn [mt_normal]; rewrite turned_dot, Dn by auto; lra].
  split. { cbn [mt_in]. unfold is_unit in *. rewrite turned_unit; auto. }
  cbn [mt_surf mt_point mt_normal mt_in mt_through mt_before mt_out mt_after]. split.
  - destruct (gradient_ok (s_geom s) p) as (c & Nc & Gr). rewrite dish_gradient in Gr. fold G in Gr. exists p. eexists. split; [reflexivity|]. split; [exact Gr|].
    split; [rewrite turned_unit; auto|]. split.
    + exists (- k / c). unfold turned, n. fold F. destruct (rot_of F) as [[] [] []], G. vunfold. veq; field; lra.
    + rewrite turned_dot by auto. replace (dot n l) with (dot l n). { rewrite Dn. lra. } unfold n. destruct G, l. open_vec. ring.
  - assert (Mi : mirrored (turned F n) (turned F l) (turned F (V3 0 0 1))).
    { assert (Db : dot (V3 0 0 1) n = k) by (unfold n, G; open_vec; ring).
      split.
      - rewrite !turned_dot, Dn, Db by auto. ring.
      - unfold tangential. rewrite !turned_dot, Dn, Db by auto.
        assert (E : vsub (V3 0 0 1) (vscale k n) = vsub l (vscale (- k) n)).
        { unfold n. transitivity (vadd (V3 0 0 1) (vscale (k * k) G)); [destruct G; vunfold; veq; ring|].
          transitivity (vsub l (vscale (k * k) G)); [|destruct G, l; vunfold; veq; ring]. rewrite Kk, El, Et. unfold G, focus_at. destruct p as [px py pz]. vunfold. cbn [vz] in Pz. veq; field; lra. }
        assert (Ts : forall u k w, vsub (turned F u) (vscale k (turned F w)) = turned F (vsub u (vscale k w))).
        { intros u0 k0 w. unfold turned. destruct (rot_of F) as [[] [] []], u0, w. vunfold. veq; ring. }
        rewrite !Ts, E. reflexivity. }
    destruct Ms as (_ & [->|(id & ->)]); cbn [follows]; auto.
Qed.
End Dish.

Section Trace.
Variables (objs : list obj) (s : surface) (f a : R) (A : shape) (me : R) (g : shared) (b : bundle) (n reps : nat) (vs ds : list vec) (st : tstate surface shared).
Hypothesis (La : library_assembly objs [s]) (Df : forall ob, In ob objs -> exists k, ob = default_object k) (Ms : dish_mirror f a A s).
Hypothesis (Ls : library_source b n) (Fg : fair (g_rng g)).
Hypothesis Tr : ray_tracer surface_ops objs [s] g b reps me TreeTrue = Ok (vs, ds, st).

Lemma dish_lib : lib_surface s.
Proof. apply La. left. reflexivity. Qed.

Lemma only_child : forall L k k' j, descends (t_tree st) L k j -> descends (t_tree st) L k' j -> k' = k.
Proof.
  destruct (laws_top objs [s] La me g b n Ls Fg reps vs ds st Tr) as (ns & Ts & _ & _ & Law).
  destruct (bounded_trace objs [s] La me g b n Ls reps vs ds st Tr) as (_ & _ & B3 & _).
  induction L as [|L IH]; intros k k' j Ds Ds'.
  - inversion Ds; [|lia]. inversion Ds'; [|lia]. congruence.
  - inversion Ds as [|L1 lvl k1 p j1 A1 A2 A3 Q1]; [assert (L1 = L) by lia]. inversion Ds' as [|L2 lvl2 k2 p2 j2 B1 B2 B4 Q2]; [assert (L2 = L) by lia]. subst L1 L2. subst k1 j1 k2 j2.
    assert (lvl2 = lvl) by congruence. subst lvl2. assert (p2 = p) by (eapply IH; eauto). subst p2.
    destruct (nth_lt (t_tree st) L) as (prev & Hp). { assert (L + 1 < length (t_tree st))%nat by (apply nth_error_Some; congruence). lia. }
    destruct (Law L prev lvl Hp A1) as (N & via & thr & A0 & _ & B). destruct (B3 (L + 1)%nat lvl ltac:(lia) A1) as (m & Tm & _).
    assert (K : forall k, parent_at lvl k = Some p -> via k = O /\ thr k = false).
    { intros i Hi. destruct (parent_vert lvl m i p Tm Hi) as (x & Hx).
      destruct (A0 i x Hx) as (s0 & j0 & t & Es & _ & (v1 & d1 & e1 & q & g1 & d2 & e2 & Mk)).
      assert (via i = O /\ s0 = s) as (Ev & ->).
      { destruct (via i) as [|[|w]]; cbn in Es; try discriminate. split; congruence. }
      split; [exact Ev|]. destruct Mk as (_ & _ & _ & _ & _ & _ & _ & _ & _ & _ & Fo & _).
      destruct Ms as (_ & [Eo|(id & Eo)]); rewrite Eo in Fo; cbn [follows] in Fo; apply Fo. }
    destruct (K k A2), (K k' B2). eapply B; eauto; congruence.
Qed.

(** A ray that meets no point of the dish has no children. *)
Lemma passes : forall L prev p j q l, (L < reps)%nat -> nth_error (t_tree st) L = Some prev -> descends (t_tree st) L p j -> is_traced me L prev p ->
  vert_at prev p = Some (app4 (s_frame s) q) -> dir_at prev p = Some (turned (s_frame s) l) -> tells_from_axis f l ->
  (forall t, 0 < t -> ~ A (ray_at q l t)) -> forall k, ~ descends (t_tree st) (S L) k j.
Proof.
  intros L prev p j q l HL Hp Dp Ht Hpv Hpd Ta Miss k Dk. pose proof (dish_rigid s dish_lib) as RF.
  inversion Dk as [|L1 lvl k1 p1 j1 A1 A2 A3 Q1]. assert (L1 = L) by lia. subst L1 k1 j1. assert (p1 = p) by (eapply only_child; eauto). subst p1.
  destruct (sight_plain objs [s] La Df me g b n Ls reps vs ds st Tr L prev p _ _ Hp HL Ht Hpv Hpd) as (Ch & _).
  destruct (Ch lvl k A1 A2) as ([|[|i]] & s0 & t & Es & _ & Pt & _ & On & _); try discriminate. cbn in Es. assert (s0 = s) by congruence. subst s0.
  destruct (dish_in_way s f a A Ms dish_lib q l Ta) as (Iw & HA). specialize (On _ Iw). rewrite app_turned in On by auto. apply HA in On. apply (Miss t Pt On).
Qed.

Lemma beam : forall j l e, vert_at b j = Some (app4 (s_frame s) (focus_at f)) -> dir_at b j = Some (turned (s_frame s) l) -> energy_at b j = Some e ->
  tells_from_axis f l -> tenm 6 < f -> (1 <= reps)%nat ->
  (forall t, 0 < t -> A (ray_at (focus_at f) l t) ->
   t = vz (ray_at (focus_at f) l t) + f /\
   (exists lvl k, nth_error (t_tree st) 1 = Some lvl /\ descends (t_tree st) 1 k j /\ (forall k', descends (t_tree st) 1 k' j -> k' = k) /\
     vert_at lvl k = Some (app4 (s_frame s) (ray_at (focus_at f) l t)) /\ dir_at lvl k = Some (turned (s_frame s) (V3 0 0 1)) /\
     energy_at lvl k = Some (e * (1 - a)) /\ ref_at lvl k = ref_at b j) /\
   ((2 <= reps)%nat -> me < e * (1 - a) -> forall k, ~ descends (t_tree st) 2 k j)) /\
  ((forall t, 0 < t -> ~ A (ray_at (focus_at f) l t)) -> forall k, ~ descends (t_tree st) 1 k j).
Proof.
  intros j l e Hv Hd He Ta Ff Hr. pose proof (dish_rigid s dish_lib) as RF. pose proof (focal_pos s f a A Ms) as Pf.
  destruct (proj2 Ls j _ e Hd He) as (U0 & Pe & _).
  assert (U : is_unit l) by (unfold is_unit in *; rewrite turned_unit in U0; auto). clear U0. split.
  - intros t Pt Hit. pose proof (part_of_bowl s f a A Ms _ Hit) as Bo. set (p := ray_at (focus_at f) l t) in *.
    destruct (from_focus f Pf l t U Pt Bo) as (Kt & Et). split; [exact Et|].
    assert (Ft : tenm 6 < t).
    { fold p in Et. assert (0 <= vz p) by (unfold focal_bowl in Bo; nra). lra. }
    assert (Sw : seen_way [s] me (app4 (s_frame s) (focus_at f)) (turned (s_frame s) l) e (ref_at b j) [at_dish s f p l (ref_at b j)]
                  (app4 (s_frame s) p) (turned (s_frame s) (V3 0 0 1)) (e * (1 - a)) (ref_at b j)).
    { destruct (dish_lawful s f a A Ms dish_lib l t (ref_at b j) e U Pt Bo) as (Lw & Nz). destruct (dish_in_way s f a A Ms dish_lib (focus_at f) l Ta) as (Iw & HA).
      apply (seen_next [s] me _ _ e (ref_at b j) t (at_dish s f p l (ref_at b j)) (e * (1 - a))); auto.
      + left. reflexivity.
      + intros s0 [<-|[]]. exists (placed (s_frame s) A). split; [exact Iw|]. intros u Hu K. rewrite app_turned in K by auto. apply HA in K.
        pose proof (one_meeting f Pf l t u U Pt (proj1 Hu) Bo (part_of_bowl s f a A Ms _ K)). lra.
      + split; [exact Ft|]. exists (placed (s_frame s) A). split; [exact Iw|]. rewrite app_turned by auto. apply HA. exact Hit.
      + cbn [at_dish mt_point]. symmetry. apply app_turned. exact RF.
      + cbn [at_dish mt_surf]. destruct Ms as (_ & [->|(id & ->)]); exact I.
      + intros Np. destruct (Np eq_refl).
      + constructor. }
    destruct (found_top objs [s] La Df me g b n Ls Fg reps vs ds st Tr j _ _ e Hv Hd He _ _ _ _ _ Sw Hr) as (lvl & k & A1 & A2 & A3 & A4 & A5 & A6). cbn [length] in A1, A2.
    split.
    + exists lvl, k. split; [exact A1|]. split; [exact A2|]. split; [intros k' Dk; eapply only_child; eauto|]. auto.
    + intros H2 Hm. apply (passes 1%nat lvl k j p (V3 0 0 1)); auto; try lia.
      * exists (e * (1 - a)). auto.
      * right. cbn [vx vy vz]. repeat split; lra.
      * intros u Pu K. pose proof (up_and_away f Pf p u Bo (part_of_bowl s f a A Ms _ K)). lra.
  - intros Miss. apply (passes 0%nat b j j (focus_at f) l); auto; try lia.
    + apply (bounded_trace objs [s] La me g b n Ls reps vs ds st Tr).
    + eapply from_source; [apply (bounded_trace objs [s] La me g b n Ls reps vs ds st Tr)|exact Hv].
    + exists e. auto.
Qed.
End Trace.
