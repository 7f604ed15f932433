(** The cylinder that a collector fits in. *)
From Coq Require Import Reals List Arith Bool Lia Lra.
From Verif.Base Require Import Py Num Vec.
From Verif.Model Require Import RayBundle Spatial Geometry Engine Objects OpticsCallables Surface Assembly Scene Models.
From Verif.Proof Require Import ListLemmas NumLemmas VecLemmas SpatialProof FlatProof GeomTop ActProof ModelProof ModelTop DishProof ReceiverProof ReceiverTop MeasureProof.
From Verif.Spec Require Import BundleSpec EngineSpec GeometrySpec GeomIface OpticsSpec FrameSpec SceneSpec ModelSpec.
Import ListNotations.
Local Open Scope R_scope.

Lemma acts_within s Hit Out (safe : vec -> Prop) (A : shape) : acts s Hit Out ->
  (forall v d t, Hit v d (Fin t) -> safe d -> A (ray_at v d t)) -> hits_within s safe A.
Proof.
  intros Ac K b n s1 ps Tb E j v d t Hv Hd Hp Sd.
  destruct (Ac b n Tb) as (s1' & ps' & E' & _ & Hh & _). rewrite E in E'. injection E' as <- <-.
  apply K; auto. exact (Hh j v d _ Hv Hd Hp).
Qed.

Lemma flat_within A z v d t : meets_flat A z v d (Fin t) -> A (ray_at v d t).
Proof.
  intros (K & L). destruct (Rlt_dec (tenm 10) (Rabs (dot d z))) as [a|a].
  - destruct (K a) as ((_ & P) & _). exact P.
  - discriminate (L a).
Qed.

Lemma placed_sub T (A C : shape) p : (forall q, A q -> C q) -> placed T A p -> placed T C p.
Proof. intros K (q & Aq & ->). exists q. auto. Qed.

Lemma sq_bound x a : - a <= x <= a -> x * x <= a * a.
Proof. intros. nra. Qed.

Lemma abs_inv x a : Rabs x <= a -> - a <= x <= a.
Proof. intros. unfold Rabs in *. destruct (Rcase_abs x); lra. Qed.

(** The hexagon is inside its circumscribed circle. *)
Lemma hexagon_circle r x y : hexagon r x y -> x * x + y * y <= r * r.
Proof.
  intros (A & B & C). assert (S3 : sqrt 3 * sqrt 3 = 3) by (apply sqrt_sqrt; lra).
  assert (Sp : 0 < sqrt 3) by (apply sqrt_lt_R0; lra). set (s := sqrt 3) in *.
  apply abs_inv in A, B, C.
  assert (P : 0 <= r) by nra.
  assert (Y : (s / 2 * y) * (s / 2 * y) <= (s / 2 * r - Rabs x / 2) * (s / 2 * r - Rabs x / 2)).
  { apply sq_bound. unfold Rabs. destruct (Rcase_abs x); lra. }
  assert (X : Rabs x * Rabs x = x * x) by (unfold Rabs; destruct (Rcase_abs x); ring).
  assert (X1 : 0 <= Rabs x) by apply Rabs_pos.
  assert (X2 : Rabs x <= s / 2 * r) by (unfold Rabs; destruct (Rcase_abs x); lra).
  set (a := Rabs x) in *. rewrite <- X.
  assert (Y' : 3 * (y * y) <= (s * r - a) * (s * r - a)) by nra.
  assert (4 * (a * a) <= 2 * s * r * a) by nra.
  assert ((s * r - a) * (s * r - a) = 3 * (r * r) - 2 * s * r * a + a * a) by nra. nra.
Qed.

Lemma bowl_height f D q : 0 < f -> focal_bowl f q -> vx q * vx q + vy q * vy q <= D / 2 * (D / 2) ->
  0 <= vz q /\ 16 * f * vz q <= D * D.
Proof. unfold focal_bowl. intros Hf B L. assert (0 <= vx q * vx q) by nra. assert (0 <= vy q * vy q) by nra. split; nra. Qed.

Section Box.
Variables (D pos X Y H : R).
Hypothesis HX : 0 < X.
Hypothesis HY : 0 < Y.
Hypothesis HD : X * X + Y * Y <= D * D.
Hypothesis HH : 0 < H <= pos.
Let cyl : shape := standing_cylinder D (pos + / 10 ^ 10).

Lemma tiny : 0 < / 10 ^ 10.
Proof. apply Rinv_0_lt_compat, pow_lt. lra. Qed.

Lemma slab x y z : - (X / 2) <= x <= X / 2 -> - (Y / 2) <= y <= Y / 2 -> 0 <= z <= pos + / 10 ^ 10 -> cyl (V3 x y z).
Proof.
  intros Hx Hy Hz. apply sq_bound in Hx. apply sq_bound in Hy. split; cbn; [|lra]. nra.
Qed.

Lemma box_in (A : shape) T p : rigid T -> (forall q, A q -> - (X / 2) <= vx q <= X / 2 /\ - (Y / 2) <= vy q <= Y / 2 /\ 0 <= vz q <= H) ->
  placed (mm4 T (mm4 (translate 0 0 pos) (rotx PI))) A p -> placed T cyl p.
Proof.
  intros RT K P. fold (receiver_frame pos) in P. rewrite placed_mm4 in P by auto using frame_rigid.
  revert P. apply placed_sub. intros q (q' & Aq & ->). rewrite frame_app. destruct (K q' Aq) as (a & b & c). pose proof tiny.
  apply slab; lra.
Qed.

Lemma flat_in (A : shape) T p : (forall q, A q -> - (X / 2) <= vx q <= X / 2 /\ - (Y / 2) <= vy q <= Y / 2 /\ 0 <= vz q <= pos + / 10 ^ 10) ->
  placed T A p -> placed T cyl p.
Proof. intros K. apply placed_sub. intros [x y z] Aq. destruct (K _ Aq) as (a & b & c). apply slab; auto. Qed.

Lemma box_within T eff (Q : surface -> Prop) safe ss : rigid T -> (forall s, Q s -> hits_within s safe (placed T cyl)) ->
  box_receiver T pos X Y H eff Q ss -> length ss = 7%nat /\ forall s, In s ss -> hits_within s safe (placed T cyl).
Proof.
  intros RT HQ (walls & front & back & main & -> & (xp & xn & yp & yn & -> & Xp & Xn & Yp & Yn) & Fr & Ba & Ma).
  split; [reflexivity|]. pose proof tiny as Ht. intros s Hs. cbn [app In] in Hs.
  repeat (destruct Hs as [<-|Hs]); try contradiction; try (apply HQ; exact Ma).
  1-4: eapply acts_within; [eassumption|]; intros v d t M _; apply flat_within in M; revert M; apply box_in; auto;
       intros q (a & b & c); repeat split; lra.
  all: eapply acts_within; [eassumption|]; intros v d t M _; apply flat_within in M; revert M; apply flat_in;
       intros q (a & b & c); repeat split; lra.
Qed.

Lemma dish_within T s (A : shape) f eff : 0 < f -> D * D <= 16 * f * pos ->
  (forall q, A q -> focal_bowl f q /\ vx q * vx q + vy q * vy q <= D / 2 * (D / 2)) ->
  dish_mirror s T A f eff -> hits_within s (bowl_safe T (2 * sqrt f) (2 * sqrt f)) (placed T cyl).
Proof.
  intros Hf Hp K M. eapply acts_within; [exact M|]. intros v d t F Sd. destruct (F Sd) as ((_ & P) & _).
  revert P. apply placed_sub. intros q Aq. destruct (K q Aq) as (B & L). destruct (bowl_height f D q Hf B L) as (z0 & z1).
  pose proof tiny. split; auto. split; auto. apply Rle_trans with pos; [|lra]. apply Rmult_le_reg_l with (16 * f); lra.
Qed.

Lemma collector_fits limit sc sc' r eff f (A : shape) de old (Q : mat4 -> surface -> Prop) : 0 < f -> D * D <= 16 * f * pos ->
  (forall q, A q -> focal_bowl f q /\ vx q * vx q + vy q * vy q <= D / 2 * (D / 2)) ->
  (forall T s, Q T s -> dish_mirror s T A f de) ->
  collector limit sc sc' r pos X Y H eff old Q -> fits limit sc' r f (D, pos + / 10 ^ 10).
Proof.
  intros Hf Hp K HQ (_ & _ & _ & _ & _ & _ & id & _ & _ & P) T RT.
  destruct (P T RT) as (sc'' & ss & E & _ & V & Bx & _). do 3 eexists. split; [exact E|]. split; [exact V|].
  apply (box_within T eff (Q T)); auto. intros s Qs. eapply dish_within; eauto.
Qed.
End Box.

Lemma round_in D f q : round_dish D f q -> focal_bowl f q /\ vx q * vx q + vy q * vy q <= D / 2 * (D / 2).
Proof. auto. Qed.
Lemma hex_in D f q : hex_dish D f q -> focal_bowl f q /\ vx q * vx q + vy q * vy q <= D / 2 * (D / 2).
Proof. intros (a & b). split; auto. apply hexagon_circle; auto. Qed.

Lemma minidish_fits limit D f eff pos side H heff aspect sc : reached limit sc ->
  0 < f -> 0 < side -> 0 < aspect -> 0 < H -> (3 <= limit)%nat ->
  H <= pos -> side * side + (side * aspect) * (side * aspect) <= D * D -> D * D <= 16 * f * pos ->
  exists sc' r, minidish limit D f eff pos side H heff aspect sc = (sc', Ok r) /\
    let '(d, h) := external_dimensions D f eff pos side H heff aspect in fits limit sc' r f (d, h + / 10 ^ 10).
Proof.
  intros R Hf Hs Ha HH L Hp Hd Hr. destruct (minidish_top limit D f eff pos side H heff aspect sc R Hf Hs Ha HH L) as (sc' & r & E & C).
  exists sc', r. split; auto. cbn. eapply collector_fits; [| | | | | | | |exact C]; eauto using round_in; try nra.
  intros T s (M & _). exact M.
Qed.

Lemma petal_fits limit D f eff pos side H heff aspect sc : reached limit sc ->
  0 < f -> 0 < side -> 0 < aspect -> 0 < H -> (3 <= limit)%nat ->
  H <= pos -> side * side + (side * aspect) * (side * aspect) <= D * D -> D * D <= 16 * f * pos ->
  exists sc' r, petal limit D f eff pos side H heff aspect sc = (sc', Ok r) /\
    let '(d, h) := external_dimensions D f eff pos side H heff aspect in fits limit sc' r f (d, h + / 10 ^ 10).
Proof.
  intros R Hf Hs Ha HH L Hp Hd Hr. destruct (petal_top limit D f eff pos side H heff aspect sc R Hf Hs Ha HH L) as (sc' & r & E & C).
  exists sc', r. split; auto. cbn. eapply collector_fits; [| | | | | | | |exact C]; eauto using hex_in; try nra.
  intros T s (M & _). exact M.
Qed.

Lemma standard_fits limit D C v eff heff sc : reached limit sc -> 0 < D -> PI / 2 <= C -> 0 <= v ->
  (v + 1) * (D / 2 * sqrt (PI / C)) < D -> (3 <= limit)%nat ->
  exists sc' r f W H, standard_minidish limit D C v eff heff sc = (sc', Ok (r, (f, W, H))) /\
    let '(d, h) := external_dimensions D f eff (f + H) W H heff 1 in fits limit sc' r f (d, h + / 10 ^ 10).
Proof.
  intros R HD HC Hv L Ll. pose proof PI_RGT_0 as HP. assert (HC0 : 0 < C) by lra.
  destruct (standard_top limit D C v eff heff sc R HD HC0 Hv L Ll) as (sc' & r & f & W & H & E & Em & Co).
  exists sc', r, f, W, H. split; auto. cbn.
  destruct (measures_ok D C v HD HC0 Hv L) as (f' & W' & H' & Em' & Hf & HW & HH & K). rewrite Em in Em'. injection Em' as <- <- <-.
  destruct K as ((z & q & Rim & _ & _ & Ks & Kc) & KW & _). rewrite sin_PI4 in Ks. rewrite cos_PI4 in Kc.
  assert (0 <= z) by (unfold rim_height, focal_bowl in Rim; cbn in Rim; nra).
  assert (D <= 2 * f) by lra.
  assert (W * W + W * W <= D * D).
  { apply (Rmult_le_reg_r C); auto. replace ((W * W + W * W) * C) with (2 * (W * W * C)) by ring. rewrite KW. assert (0 < D * D) by nra. nra. }
  eapply collector_fits; [| | | | | | | |exact Co]; eauto using round_in; try nra.
  - intros T s (M & _). exact M.
Qed.

(** ** Too low a cylinder *)

Definition one_ray (v d : vec) : bundle := mkB (Some [v]) (Some [d]) (Some [1]) None None [].

Lemma one_ray_traceable v d : traceable (one_ray v d) 1.
Proof.
  split; [constructor|split; [|split; discriminate]].
  split; [eexists; reflexivity|]. intros p l H. destruct p; simpl in H; try discriminate; injection H as <-; auto.
Qed.

Lemma acts_outside s Hit Out (safe : vec -> Prop) (A : shape) v d : acts s Hit Out -> safe d ->
  (forall x, Hit v d x -> exists t, x = Fin t /\ ~ A (ray_at v d t)) -> ~ hits_within s safe A.
Proof.
  intros Ac Sd K W. destruct (Ac _ _ (one_ray_traceable v d)) as (s1 & ps & E & Lp & Hh & _).
  destruct ps as [|x ps]; [discriminate|]. destruct (K x) as (t & -> & N); [apply (Hh 0%nat); auto|].
  apply N. apply (W _ _ _ _ (one_ray_traceable v d) E 0%nat); auto.
Qed.

Lemma least_only (P : R -> Prop) x t : least P x -> P t -> (forall t', P t' -> t' = t) -> x = Fin t.
Proof. intros L Pt U. destruct x as [y| | |]; cbn in L; try contradiction; [|exfalso; apply (L t); auto]. f_equal. apply U. apply L. Qed.

Lemma down_safe f d : d = V3 0 0 (-1) -> bowl_safe id4 (2 * sqrt f) (2 * sqrt f) d.
Proof.
  intros ->. exists (V3 0 0 (-1)). split; [unfold id4, rot_of; vunfold; cbn; f_equal; ring|]. right. cbn. repeat split; lra.
Qed.

Lemma turned_id v : turned id4 v = v.
Proof. destruct v. unfold turned, id4, rot_of. vunfold. cbn. f_equal; ring. Qed.

Lemma rim_outside s (A : shape) f eff D h : 0 < f -> 16 * f * h < D * D -> focal_bowl f (V3 0 (D / 2) (D * D / (16 * f))) ->
  A (V3 0 (D / 2) (D * D / (16 * f))) -> (forall q, A q -> focal_bowl f q) ->
  dish_mirror s id4 A f eff -> ~ hits_within s (bowl_safe id4 (2 * sqrt f) (2 * sqrt f)) (placed id4 (standing_cylinder D h)).
Proof.
  intros Hf Hh B0 A0 AB M. set (z := D * D / (16 * f)) in *.
  assert (Hz : 16 * f * z = D * D) by (unfold z; field; lra).
  apply (acts_outside s _ _ _ _ (V3 0 (D / 2) (z + 1)) (V3 0 0 (-1)) M); [apply down_safe; auto|].
  intros x F. specialize (F (down_safe f _ eq_refl)).
  assert (At1 : ray_at (V3 0 (D / 2) (z + 1)) (V3 0 0 (-1)) 1 = V3 0 (D / 2) z) by (unfold ray_at; vunfold; cbn; f_equal; ring).
  exists 1. split.
  - apply (least_only _ _ _ F).
    + split; [lra|]. rewrite placed_id. rewrite At1. auto.
    + intros t (_ & P). rewrite placed_id in P. apply AB in P. revert P B0. unfold focal_bowl, ray_at. vunfold. cbn. intros.
      assert (4 * f * (1 - t) = 0) by lra. assert (1 - t = 0); [|lra]. apply (Rmult_eq_reg_l (4 * f)); lra.
  - rewrite At1, placed_id. intros (_ & _ & Up). cbn in Up. assert (16 * f * h < 16 * f * z) by lra.
    assert (h < z) by (apply (Rmult_lt_reg_l (16 * f)); lra). lra.
Qed.

Lemma back_outside s X Y D (safe : vec -> Prop) pos : 0 < X -> 0 < Y -> safe (V3 0 0 (-1)) ->
  flat_mirror s (placed id4 (fun p => vz p = pos + / 10 ^ 10 /\ - (X / 2) <= vx p <= X / 2 /\ - (Y / 2) <= vy p <= Y / 2)) (turned id4 (V3 0 0 (-1))) 0 ->
  ~ hits_within s safe (placed id4 (standing_cylinder D pos)).
Proof.
  intros HX HY Sd M. pose proof tiny as Ht. rewrite turned_id in M.
  apply (acts_outside s _ _ _ _ (V3 0 0 (pos + / 10 ^ 10 + 1)) (V3 0 0 (-1)) M Sd).
  assert (At1 : forall t, ray_at (V3 0 0 (pos + / 10 ^ 10 + 1)) (V3 0 0 (-1)) t = V3 0 0 (pos + / 10 ^ 10 + 1 - t)) by (intros; unfold ray_at; vunfold; cbn; f_equal; ring).
  intros x (F & _). exists 1. split.
  - apply (least_only _ _ _ (F ltac:(vunfold; cbn; replace (0 * 0 + 0 * 0 + -1 * -1) with 1 by ring; rewrite Rabs_R1; unfold tenm; rewrite <- Rinv_1; apply Rinv_lt_contravar; [rewrite Rmult_1_l; apply pow_lt|]; lra))).
    + split; [lra|]. rewrite placed_id. rewrite At1. cbn. repeat split; lra.
    + intros t (_ & P). rewrite placed_id in P. rewrite At1 in P. cbn in P. lra.
  - rewrite At1, placed_id. intros (_ & _ & Up). cbn in Up. lra.
Qed.

Lemma collector_view limit sc sc' r pos X Y H eff old Q f dims : collector limit sc sc' r pos X Y H eff old Q -> fits limit sc' r f dims ->
  exists ss, box_receiver id4 pos X Y H eff (Q id4) ss /\
    forall s, In s ss -> hits_within s (bowl_safe id4 (2 * sqrt f) (2 * sqrt f)) (placed id4 (standing_cylinder (fst dims) (snd dims))).
Proof.
  intros (_ & _ & _ & _ & _ & _ & id & _ & _ & P) F. destruct (P id4 rigid_id) as (sc2 & ss & E & _ & V & Bx & _).
  destruct (F id4 rigid_id) as (sc3 & objs & ss' & E' & V' & _ & W). rewrite E in E'. injection E' as <-. rewrite V in V'. injection V' as <- <-.
  exists ss. auto.
Qed.

Lemma collector_not_fits limit sc sc' r pos X Y H eff f (A : shape) de old (Q : mat4 -> surface -> Prop) D : 0 < f -> 0 < X -> 0 < Y ->
  (forall T s, Q T s -> dish_mirror s T A f de) -> (forall q, A q -> focal_bowl f q) -> A (V3 0 (D / 2) (D * D / (16 * f))) ->
  collector limit sc sc' r pos X Y H eff old Q ->
  ~ fits limit sc' r f (D, pos) /\ forall h, 16 * f * h < D * D -> ~ fits limit sc' r f (D, h).
Proof.
  intros Hf HX HY HQ AB A0 C. split.
  - intros F. destruct (collector_view _ _ _ _ _ _ _ _ _ _ _ _ _ C F) as (ss & (wl & fr & ba & ma & -> & _ & _ & Ba & _) & W).
    apply (back_outside _ X Y D (bowl_safe id4 (2 * sqrt f) (2 * sqrt f)) pos HX HY (down_safe f _ eq_refl) Ba). apply W. apply in_or_app. cbn. auto.
  - intros h Hh F. destruct (collector_view _ _ _ _ _ _ _ _ _ _ _ _ _ C F) as (ss & (wl & fr & ba & ma & -> & _ & _ & _ & Ma) & W).
    apply (rim_outside ma A f de D h Hf Hh (AB _ A0) A0 AB (HQ _ _ Ma)). apply W. apply in_or_app. cbn. auto.
Qed.

Lemma rim_round D f : 0 < f -> round_dish D f (V3 0 (D / 2) (D * D / (16 * f))).
Proof. intros. unfold round_dish, focal_bowl. cbn. split; [field; lra|lra]. Qed.
Lemma rim_hex D f : 0 <= D -> 0 < f -> hex_dish D f (V3 0 (D / 2) (D * D / (16 * f))).
Proof.
  intros. unfold hex_dish, focal_bowl, hexagon. cbn. pose proof (sqrt_pos 3).
  split; [field; lra|]. split; [rewrite Rabs_R0; nra|]. split; rewrite Rabs_right; nra.
Qed.

Lemma minidish_not_fits limit D f eff pos side H heff aspect sc : reached limit sc ->
  0 < f -> 0 < side -> 0 < aspect -> 0 < H -> (3 <= limit)%nat ->
  exists sc' r, minidish limit D f eff pos side H heff aspect sc = (sc', Ok r) /\
    ~ fits limit sc' r f (external_dimensions D f eff pos side H heff aspect) /\ forall h, 16 * f * h < D * D -> ~ fits limit sc' r f (D, h).
Proof.
  intros R Hf Hs Ha HH L. destruct (minidish_top limit D f eff pos side H heff aspect sc R Hf Hs Ha HH L) as (sc' & r & E & C).
  exists sc', r. split; auto. eapply (collector_not_fits _ _ _ _ _ _ _ _ _ _ (round_dish D f)); [| | | | | |exact C]; eauto using rim_round; try nra.
  - intros T s (M & _). exact M.
  - intros q (B & _). exact B.
Qed.

Lemma petal_not_fits limit D f eff pos side H heff aspect sc : reached limit sc ->
  0 <= D -> 0 < f -> 0 < side -> 0 < aspect -> 0 < H -> (3 <= limit)%nat ->
  exists sc' r, petal limit D f eff pos side H heff aspect sc = (sc', Ok r) /\
    ~ fits limit sc' r f (external_dimensions D f eff pos side H heff aspect) /\ forall h, 16 * f * h < D * D -> ~ fits limit sc' r f (D, h).
Proof.
  intros R HD Hf Hs Ha HH L. destruct (petal_top limit D f eff pos side H heff aspect sc R Hf Hs Ha HH L) as (sc' & r & E & C).
  exists sc', r. split; auto. eapply (collector_not_fits _ _ _ _ _ _ _ _ _ _ (hex_dish D f)); [| | | | | |exact C]; eauto using rim_hex; try nra.
  - intros T s (M & _). exact M.
  - intros q (B & _). exact B.
Qed.

(** The default PETAL-like measures, and a deep dish. *)
Lemma fit_example : 0 < 10 /\ 0 < 1 /\ 1 <= 11 /\ 1 * 1 + (1 * 1) * (1 * 1) <= 20 * 20 /\ 20 * 20 <= 16 * 10 * 11.
Proof. repeat split; lra. Qed.
Lemma unfit_example : 16 * 1 * 1 < 8 * 8.
Proof. lra. Qed.
Lemma standard_fit_example : 0 < 10 /\ PI / 2 <= 500 /\ 0 <= 4 /\ (4 + 1) * (10 / 2 * sqrt (PI / 500)) < 10.
Proof. pose proof PI_4. destruct measures_example as (a & b & c & d). repeat split; auto. lra. Qed.
