(** Light between the walls of a homogenizer. *)
From Coq Require Import Reals String List Arith Bool Lia Lra.
From Verif.Base Require Import Py Num Vec.
From Verif.Model Require Import RayBundle Spatial Geometry TraceTree OpticsCallables Engine Objects Surface Assembly Scene Models Sources.
From Verif.Proof Require Import ListLemmas NumLemmas VecLemmas BundleProof ProcessProof GeomProof GeomTop ObjectProof LibraryTop TraceTop AnswerProof
  PlaceProof PlaceTop ConstructProof ConstructTop GrowProof ViewProof SceneProof ActProof ModelProof ModelTop DishProof CollectProof TowerProof LawProof SymmetryProof.
From Verif.Spec Require Import BundleSpec EngineSpec GeometrySpec GeomIface OpticsSpec LibrarySpec FrameSpec SceneSpec ModelSpec LawSpec KaleidoSpec.
Import ListNotations.
Local Open Scope R_scope.

(** ** The walls *)

(** A wall on the side [w] (1 or -1), across X or Y. *)
Definition wall_is (X Y H : R) (A : shape) (z : vec) : Prop := exists w, (w = 1 \/ w = -1) /\
  ((forall p, A p <-> across_x (w * (X / 2)) Y H p) /\ z = V3 (- w) 0 0 \/
   (forall p, A p <-> across_y (w * (Y / 2)) X H p) /\ z = V3 0 (- w) 0).

Section Box.
Variables (T : mat4) (X Y H eff : R).
Hypotheses (RT : rigid T) (HX : 0 < X) (HY : 0 < Y) (HH : 0 < H) (He : 0 <= eff <= 1).
Let ss := seen_surfaces id4 (mkA T (walls X Y H eff) []).
Let objs := repeat (one_sided_object 1) 4.

Lemma box_surface s : In s ss -> lib_surface s /\ (exists w h, 0 < w /\ 0 < h /\ s_geom s = RectPlate w h) /\ s_opt s = Absorbing (AbsorberReflector (1 - eff)).
Proof.
  intros Hs. unfold ss in Hs. cbn [seen_surfaces map concat walls o_tr o_parts mirror_of app] in Hs. rewrite !mm4_id_l in Hs. cbn [In] in Hs.
  repeat (destruct Hs as [<-|Hs]); try contradiction; unfold seen_part, mirror_part, Surface.new_surface; cbn [p_geom p_opt p_own s_geom s_opt s_frame];
    (split; [split; [|split; [cbn; lra|split; reflexivity]]; cbn [s_frame];
       auto 8 using rigid_mm4, rigid_id, rigid_translate, rigid_rotx, rigid_roty|
     split; [eexists _, _; split; [|split; [|reflexivity]]; lra|reflexivity]]).
Qed.

Lemma box_answers : answering_assembly objs ss /\ forall b, knows_media ss b.
Proof.
  split; [split; [split; [|split]|split; [|split]]|].
  - intros ob Ho. apply repeat_spec in Ho as ->. apply one_sided_object_ok.
  - intros s Hs. apply box_surface; auto.
  - reflexivity.
  - discriminate.
  - intros ob Ho. apply repeat_spec in Ho as ->. apply one_sided_object_ok.
  - intros s Hs. destruct (box_surface s Hs) as (_ & (w & h & Hw & Hh & ->) & ->). cbn. auto.
  - intros b (s & Hs & R). destruct (box_surface s Hs) as (_ & _ & E). rewrite E in R. destruct R.
Qed.

Lemma box_wall i s : nth_error ss i = Some s -> exists A z, wall_is X Y H A z /\
  one_way_mirror s (placed T A) (turned T z) eff /\ z_of (s_frame s) = turned T z.
Proof.
  intros Es. destruct (box_acts T X Y H eff RT HX HY HH) as (xp & xn & yp & yn & E & A1 & A2 & A3 & A4). fold ss in E.
  assert (Z : forall t w h, rigid t -> z_of (s_frame (seen_part (mm4 T t) (mirror_part w h (1 - eff)))) = turned T (z_of t)).
  { intros t w h Rt. unfold seen_part, mirror_part. cbn. rewrite mm4_id_r. apply z_of_mm4; auto. }
  pose proof E as E'. unfold ss in E'. cbn [seen_surfaces map concat walls o_tr o_parts mirror_of app] in E'. rewrite !mm4_id_l in E'.
  injection E' as X1 X2 X3 X4. rewrite E in Es. clear E.
  destruct i as [|[|[|[|i]]]]; cbn in Es; try (destruct i; discriminate); injection Es as <-.
  - eexists _, _. split; [|split; [exact A1|]].
    + exists 1. split; auto. left. split; [|f_equal; ring]. intros p. rewrite Rmult_1_l. reflexivity.
    + rewrite <- X1, Z by auto using rigid_mm4, rigid_translate, rigid_roty. f_equal.
      rewrite z_of_mm4 by auto using rigid_translate, rigid_roty. rewrite half_pi_neg. unfold turned, z_of, roty, translate. cbn.
      rewrite cos_neg, sin_neg, cos_PI2, sin_PI2. veq; lra.
  - eexists _, _. split; [|split; [exact A2|]].
    + exists (-1). split; auto. left. split; [|f_equal; ring]. intros p. replace (-1 * (X / 2)) with (- (X / 2)) by ring. reflexivity.
    + rewrite <- X2, Z by auto using rigid_mm4, rigid_translate, rigid_roty. f_equal.
      rewrite z_of_mm4 by auto using rigid_translate, rigid_roty. unfold turned, z_of, roty, translate. cbn.
      rewrite cos_PI2, sin_PI2. veq; lra.
  - eexists _, _. split; [|split; [exact A3|]].
    + exists 1. split; auto. right. split; [|f_equal; ring]. intros p. rewrite Rmult_1_l. reflexivity.
    + rewrite <- X3, Z by auto using rigid_mm4, rigid_translate, rigid_rotx. f_equal.
      rewrite z_of_mm4 by auto using rigid_translate, rigid_rotx. unfold turned, z_of, rotx, translate. cbn.
      rewrite cos_PI2, sin_PI2. veq; lra.
  - eexists _, _. split; [|split; [exact A4|]].
    + exists (-1). split; auto. right. split; [|f_equal; ring]. intros p. replace (-1 * (Y / 2)) with (- (Y / 2)) by ring. reflexivity.
    + rewrite <- X4, Z by auto using rigid_mm4, rigid_translate, rigid_rotx. f_equal.
      rewrite z_of_mm4 by auto using rigid_translate, rigid_rotx. rewrite half_pi_neg. unfold turned, z_of, rotx, translate. cbn.
      rewrite cos_neg, sin_neg, cos_PI2, sin_PI2. veq; lra.
Qed.

Lemma wall_on A z p : wall_is X Y H A z -> A p -> on_wall X Y H p.
Proof.
  unfold on_wall. intros (w & [-> | ->] & [(F & _)|(F & _)]) Ap; apply F in Ap;
    rewrite ?Rmult_1_l in Ap; auto; replace (-1 * (X / 2)) with (- (X / 2)) in Ap by ring; replace (-1 * (Y / 2)) with (- (Y / 2)) in Ap by ring; auto.
Qed.

(** ** One reflection *)
Lemma mirrored_scaled k z d d' : k * k = 1 -> mirrored (vscale k z) d d' -> mirrored z d d'.
Proof.
  intros K (A & B). unfold mirrored, tangential in *.
  assert (E : forall x, dot x (vscale k z) = k * dot x z) by (intros x; destruct x, z; open_vec; ring).
  rewrite !E in *. split.
  - transitivity (k * k * dot d' z); [rewrite K; ring|]. transitivity (k * (k * dot d' z)); [ring|]. rewrite A.
    transitivity (- (k * k * dot d z)); [ring|]. rewrite K. ring.
  - assert (Q : forall x, vscale (k * dot x z) (vscale k z) = vscale (dot x z) z).
    { intros x. set (y := dot x z). destruct z as [a b c]. open_vec. f_equal;
        match goal with |- k * y * (k * ?q) = _ => replace (k * y * (k * q)) with (k * k * (y * q)) by ring; rewrite K; ring end. }
    rewrite !Q in B. exact B.
Qed.

Lemma mirrored_x w u u' : w = 1 \/ w = -1 -> mirrored (V3 (- w) 0 0) u u' -> u' = V3 (- vx u) (vy u) (vz u).
Proof.
  intros W (A & B). destruct u as [a b c], u' as [a' b' c']. unfold tangential in B. open_vec. injection B as B1 B2 B3.
  destruct W as [-> | ->]; f_equal; lra.
Qed.
Lemma mirrored_y w u u' : w = 1 \/ w = -1 -> mirrored (V3 0 (- w) 0) u u' -> u' = V3 (vx u) (- vy u) (vz u).
Proof.
  intros W (A & B). destruct u as [a b c], u' as [a' b' c']. unfold tangential in B. open_vec. injection B as B1 B2 B3.
  destruct W as [-> | ->]; f_equal; lra.
Qed.

Lemma wall_sends Tr ns prev tb i s j t n w lvl k p u e : reported surface_ops ss prev ns Tr tb -> nth_error ss i = Some s ->
  meets_first Tr (length ss) ns i j t -> made_from prev j s t n w lvl k ->
  vert_at prev j = Some (app4 T p) -> dir_at prev j = Some (turned T u) -> energy_at prev j = Some e ->
  exists A z u' e', wall_is X Y H A z /\ 0 < t /\ A (ray_at p u t) /\ dot u z <> 0 /\ mirrored z u u' /\
    (dot u z <= 0 -> e' = e * eff) /\ (0 < dot u z -> e' = 0) /\
    vert_at lvl k = Some (app4 T (ray_at p u t)) /\ dir_at lvl k = Some (turned T u') /\ energy_at lvl k = Some e' /\ ref_at lvl k = ref_at prev j.
Proof.
  intros Rp Es M Mk V D E. destruct (box_wall i s Es) as (A & z & Wz & Ac & Zs).
  destruct (box_surface s (nth_error_In _ _ Es)) as (Lib & (hw & hh & _ & _ & Eg) & Eo).
  assert (Pt : 0 < t).
  { pose proof M as (Li & Lj & Tt & Nd & _). pose proof (tenm_pos 10) as P10. pose proof (tenm_pos 6) as P6.
    destruct (Rlt_dec 0 t); auto. exfalso. apply Nd. split; [|lra]. exists i, j. split; auto. split; auto. rewrite Tt.
    cbn [nle]. unfold Rleb. destruct (Rle_dec t (tenm 10)); auto. lra. }
  assert (Mf : meets_flat A z p u (Fin t)).
  { apply (flat_local T RT). refine (report_acts ss prev ns Tr tb i j s _ _ (Fin t) _ _ Rp Es Ac (proj1 (proj2 (proj2 M))) V D). }
  assert (Hz : dot u z <> 0 /\ A (ray_at p u t)).
  { destruct Mf as (F1 & F2). destruct (Rlt_dec (tenm 10) (Rabs (dot u z))) as [I|I]; [|specialize (F2 I); discriminate].
    destruct (F1 I) as ((_ & P) & _). split; auto. intros Z. rewrite Z, Rabs_R0 in I. pose proof (tenm_pos 10). lra. }
  destruct Hz as (Nz & At).
  destruct Mk as (v0 & d0 & e0 & q & g & d1 & e1 & Hv & Hd & He0 & Hp & Hv' & Hd' & He' & Hq & Hg & Hn & F & _).
  assert (v0 = app4 T p) as -> by congruence. assert (d0 = turned T u) as -> by congruence. assert (e0 = e) as -> by congruence.
  rewrite Eo in F. cbn [follows] in F. destruct F as (_ & Mi & F1 & F2 & Rf).
  destruct (normal_made s q g n (turned T u) (proj1 Lib)) as (al & be & Sh & En); [rewrite Eg; exact Logic.I|exact Hg|exact Hn|].
  rewrite Eg in Sh. cbn [shares] in Sh. subst al. rewrite Zs in En.
  assert (En' : n = vscale be (turned T z)). { rewrite En. destruct (vsub (app4 (s_frame s) q) (centre s)), (turned T z). open_vec. f_equal; ring. }
  assert (Uz : norm2 z = 1) by (destruct Wz as (w0 & [-> | ->] & [(_ & ->)|(_ & ->)]); open_vec; ring).
  assert (Kb : be * be = 1).
  { destruct Hn as (Un & _). unfold is_unit in Un. rewrite En' in Un. rewrite <- (turned_unit T z RT) in Uz. rewrite <- Un.
    replace (norm2 (vscale be (turned T z))) with (be * be * norm2 (turned T z)) by (destruct (turned T z); open_vec; ring). rewrite Uz. ring. }
  rewrite En' in Mi. apply mirrored_scaled in Mi; auto. destruct (turned_onto T RT d1) as (u' & ->). apply (mirrored_local T RT) in Mi.
  rewrite Zs, turned_dot in F1, F2 by auto. rewrite (app_turned T p u t) in Hv' by auto.
  exists A, z, u', e1. do 5 (split; auto). split; [intros K; rewrite (F1 K); ring|]. auto 8.
Qed.
End Box.

(** ** Many reflections *)
Lemma sign_pow n : (-1) ^ n = 1 \/ (-1) ^ n = -1.
Proof. induction n as [|n [IH|IH]]; cbn; [left; auto| |]; rewrite IH; [right|left]; ring. Qed.
Lemma heading_sign u : (heading u = 1 /\ 0 <= u) \/ (heading u = -1 /\ u < 0).
Proof. unfold heading. destruct (Rlt_dec u 0); [right|left]; split; auto; lra. Qed.

Lemma folded_along W n u x t : folded W n u (x + t * u) = folded W n u x + t * ((-1) ^ n * u).
Proof. unfold folded. ring. Qed.

Lemma fold_step W n u x w t : 0 < W -> w = 1 \/ w = -1 -> within W (folded W n u x) -> (-1) ^ n * u <> 0 -> 0 < t ->
  folded W n u x + t * ((-1) ^ n * u) = w * (W / 2) -> folded W (n + 1) u (x + t * u) = w * (W / 2) /\ 0 <= w * ((-1) ^ n * u).
Proof.
  intros HW Hw Wi Nu Pt E. unfold within in Wi. rewrite <- folded_along in E.
  assert (E' : folded W (n + 1) u (x + t * u) = - folded W n u (x + t * u) + (-1) ^ n * heading u * W).
  { unfold folded. rewrite pow_add, plus_INR. cbn. ring. }
  rewrite E', E. rewrite folded_along in E. set (c := folded W n u x) in *. clearbody c. clear E'. set (f := (-1) ^ n) in *.
  assert (Pd : 0 <= w * (f * u)).
  { assert (0 <= t * (w * (f * u))) by (replace (t * (w * (f * u))) with (w * (t * (f * u))) by ring; destruct Hw as [-> | ->]; lra).
    destruct (Rle_dec 0 (w * (f * u))) as [I|I]; auto. exfalso. assert (t * (w * (f * u)) < t * 0) by (apply Rmult_lt_compat_l; lra). lra. }
  split; auto. assert (Nu0 : u <> 0) by (intros ->; apply Nu; ring).
  assert (Ef : f = 1 \/ f = -1) by apply sign_pow.
  destruct (heading_sign u) as [(-> & Hu)|(-> & Hu)], Hw as [-> | ->], Ef as [-> | ->]; lra.
Qed.

Section Light.
Variables (T : mat4) (X Y H eff : R).
Hypotheses (RT : rigid T) (HX : 0 < X) (HY : 0 < Y) (HH : 0 < H) (He : 0 <= eff <= 1).

Notation arrived := (arrived X Y H eff).

Lemma arrived_start p0 u0 e0 : arrived p0 u0 e0 0 0 p0 e0.
Proof.
  split; auto. split; [lia|]. split; [left; cbn; ring|]. intros Wx Wy. split; [cbn; ring|]. do 2 (split; auto).
  exists 0. split; [lra|]. unfold folded. cbn. repeat split; ring.
Qed.

Lemma wall_within p : on_wall X Y H p -> within X (vx p) /\ within Y (vy p) /\ 0 <= vz p <= H.
Proof. unfold on_wall, across_x, across_y, within. intros K. repeat split; intuition lra. Qed.

Lemma arrived_on p0 u0 e0 a c p e A z t u' e' : arrived p0 u0 e0 a c p e -> wall_is X Y H A z -> 0 < t ->
  A (ray_at p (bounced a c u0) t) -> dot (bounced a c u0) z <> 0 -> mirrored z (bounced a c u0) u' ->
  (dot (bounced a c u0) z <= 0 -> e' = e * eff) -> (0 < dot (bounced a c u0) z -> e' = 0) ->
  exists a' c', (a' + c' = a + c + 1)%nat /\ u' = bounced a' c' u0 /\ arrived p0 u0 e0 a' c' (ray_at p (bounced a c u0) t) e'.
Proof.
  intros (_ & _ & Ee & Wi) Wz Pt Ap Nz Mi E1 E2.
  pose proof (wall_on X Y H A z _ Wz Ap) as On. destruct (wall_within _ On) as (Wx & Wy & Wh).
  assert (En : forall n, (n = a + c + 1)%nat -> e' = e0 * eff ^ n \/ e' = 0).
  { intros n ->. destruct (Rle_dec (dot (bounced a c u0) z) 0) as [I|I]; [|right; apply E2; lra].
    destruct Ee as [-> | ->]; [left|right]; rewrite (E1 I); rewrite ?(pow_add eff (a + c) 1); cbn [pow]; ring. }
  destruct Wz as (w & Hw & [(FA' & ->)|(FA' & ->)]); pose proof (proj1 (FA' _) Ap) as FA; clear FA'.
  - exists (a + 1)%nat, c. split; [lia|]. split.
    { rewrite (mirrored_x w _ _ Hw Mi). unfold bounced. cbn [vx vy vz]. f_equal. rewrite pow_add. cbn. ring. }
    split; [lia|]. split; auto. split; [apply En; lia|]. intros Wx0 Wy0.
    destruct (Wi Wx0 Wy0) as (-> & Px & Py & s & Ps & Ex & Ey & Ez). destruct FA as (Fx & _ & _).
    unfold ray_at, bounced in Fx, Nz, E1. open_vec. cbn [vx vy vz] in *. rewrite Ex in Fx, Px.
    assert (Dz : (-1) ^ a * vx u0 * - w + (-1) ^ c * vy u0 * 0 + vz u0 * 0 = - (w * ((-1) ^ a * vx u0))) by ring. rewrite Dz in *.
    destruct (fold_step X a (vx u0) (vx p0 + s * vx u0) w t HX Hw Px) as (Fs & Pw); auto.
    { intros Z. apply Nz. rewrite Z. ring. }
    split. { rewrite E1 by lra. replace (a + 1 + c)%nat with (a + c + 1)%nat by lia. rewrite (pow_add eff (a + c) 1). cbn [pow]. ring. }
    unfold ray_at, bounced in Wx, Wy. split; auto. split; auto. exists (s + t). split; [lra|]. unfold ray_at, bounced. cbn [vx vy vz].
    split; [|split].
    + replace (vx p0 + (s + t) * vx u0) with (vx p0 + s * vx u0 + t * vx u0) by ring. rewrite Fs. rewrite <- Fx, <- Ex. reflexivity.
    + replace (vy p0 + (s + t) * vy u0) with (vy p0 + s * vy u0 + t * vy u0) by ring. rewrite folded_along, <- Ey. reflexivity.
    + cbn. rewrite Ez. ring.
  - exists a, (c + 1)%nat. split; [lia|]. split.
    { rewrite (mirrored_y w _ _ Hw Mi). unfold bounced. cbn [vx vy vz]. f_equal. rewrite pow_add. cbn. ring. }
    split; [lia|]. split; auto. split; [apply En; lia|]. intros Wx0 Wy0.
    destruct (Wi Wx0 Wy0) as (-> & Px & Py & s & Ps & Ex & Ey & Ez). destruct FA as (Fx & _ & _).
    unfold ray_at, bounced in Fx, Nz, E1. open_vec. cbn [vx vy vz] in *. rewrite Ey in Fx, Py.
    assert (Dz : (-1) ^ a * vx u0 * 0 + (-1) ^ c * vy u0 * - w + vz u0 * 0 = - (w * ((-1) ^ c * vy u0))) by ring. rewrite Dz in *.
    destruct (fold_step Y c (vy u0) (vy p0 + s * vy u0) w t HY Hw Py) as (Fs & Pw); auto.
    { intros Z. apply Nz. rewrite Z. ring. }
    split. { rewrite E1 by lra. replace (a + (c + 1))%nat with (a + c + 1)%nat by lia. rewrite (pow_add eff (a + c) 1). cbn [pow]. ring. }
    unfold ray_at, bounced in Wx, Wy. split; auto. split; auto. exists (s + t). split; [lra|]. unfold ray_at, bounced. cbn [vx vy vz].
    split; [|split].
    + replace (vx p0 + (s + t) * vx u0) with (vx p0 + s * vx u0 + t * vx u0) by ring. rewrite folded_along, <- Ex. reflexivity.
    + replace (vy p0 + (s + t) * vy u0) with (vy p0 + s * vy u0 + t * vy u0) by ring. rewrite Fs. rewrite <- Fx, <- Ey. reflexivity.
    + cbn. rewrite Ez. ring.
Qed.

(** The slope limits the number of reflections. *)
Lemma few_bounces W n u0 u x0 z0 s z : 0 < W -> within W x0 -> within W (folded W n u (x0 + s * u)) -> 0 <= s -> z = z0 + s * u0 ->
  0 <= z0 <= H -> 0 <= z <= H -> (INR n - 1) * W * Rabs u0 <= H * Rabs u.
Proof.
  intros HW W0 W1 Ps Ez Hz0 Hz. unfold within, folded in *.
  assert (A : (INR n - 1) * W <= s * Rabs u).
  { destruct (heading_sign u) as [(E & Pu)|(E & Pu)]; rewrite E in W1;
      [rewrite Rabs_right by lra|rewrite Rabs_left by lra]; destruct (sign_pow n) as [F|F]; rewrite F in W1; lra. }
  assert (B : s * Rabs u0 <= H).
  { rewrite <- (Rabs_right s) at 1 by lra. rewrite <- Rabs_mult. replace (s * u0) with (z - z0) by lra. apply Rabs_le. lra. }
  pose proof (Rabs_pos u). pose proof (Rabs_pos u0).
  apply Rle_trans with (s * Rabs u * Rabs u0); [apply Rmult_le_compat_r; auto|].
  replace (s * Rabs u * Rabs u0) with (s * Rabs u0 * Rabs u) by ring. apply Rmult_le_compat_r; auto.
Qed.

Section Run.
Let ss := seen_surfaces id4 (mkA T (walls X Y H eff) []).
Let objs := repeat (one_sided_object 1) 4.
Variables (me : R) (g : shared) (b : bundle) (m reps : nat) (vs ds : list vec) (st : tstate surface shared).
Hypotheses (Ls : library_source b m) (Fg : fair (g_rng g)).
Hypothesis E : ray_tracer surface_ops objs ss g b reps me TreeTrue = Ok (vs, ds, st).

Lemma light_run L lvl k v : nth_error (t_tree st) L = Some lvl -> vert_at lvl k = Some v ->
  exists j p0 u0 e0 a c p e, descends (t_tree st) L k j /\
    vert_at b j = Some (app4 T p0) /\ dir_at b j = Some (turned T u0) /\ energy_at b j = Some e0 /\
    v = app4 T p /\ dir_at lvl k = Some (turned T (bounced a c u0)) /\ energy_at lvl k = Some e /\ ref_at lvl k = ref_at b j /\
    (a + c = L)%nat /\ arrived p0 u0 e0 a c p e.
Proof.
  destruct (box_answers T X Y H eff RT HX HY HH He) as ((La & _) & _). fold ss objs in La.
  destruct (laws_all objs ss La me g b m Ls Fg reps vs ds st E) as (ns & Ts & gs & C & _ & _ & Lv).
  revert lvl k v. induction L as [|L IH]; intros lvl k v Hl Hv.
  - rewrite (ct_source _ _ _ _ _ _ _ _ _ _ _ _ _ C) in Hl. injection Hl as <-.
    destruct Ls as (Tb & _). pose proof (traceable_vert_lt b m k v Tb Hv) as Lk.
    destruct (traceable_dir b m k Tb Lk) as (d & Hd). destruct (traceable_energy b m k Tb Lk) as (e & Hee).
    destruct (turned_onto T RT d) as (u0 & ->). assert (Q : exists p0, v = app4 T p0). { destruct RT as (r & t0 & -> & O). eexists. symmetry. apply (mk4_inverse' r t0 v O). }
    destruct Q as (p0 & ->).
    exists k, p0, u0, e, 0%nat, 0%nat, p0, e. split. { eapply from_source; [|exact Hv]. apply (ct_source _ _ _ _ _ _ _ _ _ _ _ _ _ C). }
    do 4 (split; auto). split. { rewrite Hd. unfold bounced. cbn [pow]. do 2 f_equal. destruct u0. cbn. f_equal; ring. }
    do 3 (split; auto). apply arrived_start.
  - replace (S L) with (L + 1)%nat in * by lia.
    destruct (nth_lt (t_tree st) L) as (prev & Hp). { assert (L + 1 < length (t_tree st))%nat by (apply nth_error_Some; congruence). lia. }
    destruct (Lv L prev lvl Hp Hl) as (N & via & thr & (A & _) & _). destruct (A k v Hv) as (s & j & t & Es & M & Mk). clear A.
    destruct (ct_level _ _ _ _ _ _ _ _ _ _ _ _ _ C L prev lvl Hp Hl) as (tb & _ & _ & _ & Rp & _).
    destruct (made_parts _ _ _ _ _ _ _ _ Mk) as (Hpar & v1 & d1 & Hv1 & Hd1).
    destruct (IH prev j v1 Hp Hv1) as (j0 & p0 & u0 & e0 & a & c & p & e & De & V0 & D0 & E0 & Ev & Ed & Ee & Er & Ea & Ar).
    rewrite Ev in Hv1.
    destruct (wall_sends T X Y H eff RT HX HY HH He (Ts L) (ns L) prev tb (via k) s j t (N (via k) j) (thr k) lvl k p (bounced a c u0) e Rp Es M Mk Hv1 Ed Ee)
      as (A & z & u' & e' & Wz & Pt & At & Nz & Mi & E1 & E2 & Vk & Dk & Ek & Rk).
    destruct (arrived_on p0 u0 e0 a c p e A z t u' e' Ar Wz Pt At Nz Mi E1 E2) as (a' & c' & En & -> & Ar').
    exists j0, p0, u0, e0, a', c', (ray_at p (bounced a c u0) t), e'.
    split; [eapply from_parent; eauto|]. do 3 (split; auto). split; [congruence|]. do 2 (split; auto). split; [congruence|]. split; auto. lia.
Qed.
End Run.
End Light.
