(** Dishes as surfaces. *)
From Coq Require Import Reals List Arith Bool Lia Lra.
From Verif.Base Require Import Py Num Vec.
From Verif.Model Require Import RayBundle Spatial Geometry OpticsCallables Engine Objects Surface Assembly Scene Models.
From Verif.Proof Require Import ListLemmas NumLemmas VecLemmas SpatialProof FlatProof GeomProof ShapeProof SelectProof GeomTop CallProof OpticsTop SurfaceProof ActProof AimProof.
From Verif.Spec Require Import BundleSpec EngineSpec GeometrySpec GeomIface OpticsSpec FrameSpec SceneSpec ModelSpec.
Import ListNotations.
Local Open Scope R_scope.

Lemma gradient_unique F q g h : is_gradient F q g -> is_gradient F q h -> g = h.
Proof.
  intros (A & B & C) (A' & B' & C'). destruct g, h. cbn in *.
  f_equal; eapply uniqueness_limite; eauto.
Qed.

Lemma acts_impl s (H H' : vec -> vec -> num -> Prop) (O O' : vec -> vec -> R -> vec -> R -> Prop) :
  (forall v d x, H v d x -> H' v d x) ->
  (forall p d e d' e', O p d e d' e' -> O' p d e d' e') ->
  acts s H O -> acts s H' O'.
Proof.
  intros HH HO M b n T. destruct (M b n T) as (s1 & ps & E & L & Hh & R). exists s1, ps. split; auto. split; auto. split; [eauto|].
  intros sel g A. destruct (R sel g A) as (s2 & o & g' & E2 & E3 & To & C). exists s2, o, g'. repeat (split; auto).
  intros k i v d e t Hk Hv Hd He Ht. destruct (C k i v d e t Hk Hv Hd He Ht) as (d' & e' & Od & Ch). exists d', e'. split; auto.
Qed.

Lemma app4_inj T p q : rigid T -> app4 T p = app4 T q -> p = q.
Proof.
  intros (r & t & -> & O) E. rewrite <- (mk4_inverse r t p), <- (mk4_inverse r t q) by auto. congruence.
Qed.

Lemma turned_scale T k v : turned T (vscale k v) = vscale k (turned T v).
Proof. unfold turned. destruct (rot_of T) as [[] [] []], v. vunfold. veq; ring. Qed.

Lemma bowl_acts gm T A f a : 0 < f -> rigid T ->
  (forall q, exists k, gradient gm q = vscale k (bowl_normal f q)) ->
  (forall q, gradient gm q <> vzero) ->
  finds gm T (fun v d x => bowl_safe T (2 * sqrt f) (2 * sqrt f) d -> first_hit (placed T A) v d x) ->
  dish_mirror (Surface.new_surface gm (Absorbing (Reflective a)) T) T A f (1 - a).
Proof.
  intros Hf RT Gk Gz Fi. unfold dish_mirror.
  apply acts_intro with (fun d e n d' e' => is_unit n /\ mirrored n d d' /\ e' = e * (1 - a)); auto.
  - intros v d t _ q g _ Hg. destruct (gradient_ok gm q) as (c & Hc & Hg'). rewrite (gradient_unique _ _ _ _ Hg Hg').
    specialize (Gz q). intros Z. apply Gz. destruct (gradient gm q) as [x y z]. unfold vzero. vunfold.
    assert (P : c * x * (c * x) = 0 /\ c * y * (c * y) = 0 /\ c * z * (c * z) = 0) by nra.
    destruct P as (P1 & P2 & P3). apply Rsqr_0_uniq in P1, P2, P3.
    apply Rmult_integral in P1 as [|P1], P2 as [|P2], P3 as [|P3]; try contradiction. congruence.
  - intros gs b n sel pts ns g Tb Ln To Lp Un.
    destruct (reflective_top a gs b n sel pts ns _ g Tb Ln To Lp Un) as (r & Ec & (Tr & Ex & Ch)). exists r, g. split; auto.
    split; auto. split; auto. intros k i d e p m H. destruct (Ch k i d e p m H) as (d' & e' & (M & Ee) & C). exists d', e'. split; auto.
    split; auto. rewrite Forall_forall in Un. apply Un. destruct H as (_ & _ & _ & _ & Hm). eapply nth_error_In; eauto.
  - intros v d t q g e m d' e' Hh Eq Hg (U & (k & Ek) & _) (_ & M & Ee). split; auto.
    destruct (gradient_ok gm q) as (c & Hc & Hg'). rewrite (gradient_unique _ _ _ _ Hg Hg') in Ek.
    destruct (Gk q) as (k' & Ek'). exists q, m, (k * c * k'). split; auto. split.
    + intros Sf. destruct (Hh Sf) as ((_ & (q' & Aq & Eq')) & _). rewrite Eq in Eq'.
      apply (app4_inj T) in Eq'; auto. subst. auto.
    + split; auto. split; auto. rewrite Ek, Ek'. unfold turned. destruct (rot_of T) as [[] [] []], (bowl_normal f q). vunfold. veq; ring.
Qed.

Lemma parab_gradient f q : 0 < f -> let p := 2 * sqrt f in
  V3 (2 * (1 / (p * p)) * vx q) (2 * (1 / (p * p)) * vy q) (- 1) = vscale (/ (2 * f)) (bowl_normal f q).
Proof.
  intros Hf p. assert (E : p * p = 4 * f) by (unfold p; pose proof (sqrt_sqrt f ltac:(lra)); lra).
  rewrite E. unfold bowl_normal. vunfold. f_equal; field; lra.
Qed.

Lemma round_acts D f gm T a : new_dish D f = Ok gm -> rigid T ->
  dish_mirror (Surface.new_surface gm (Absorbing (Reflective a)) T) T (round_dish D f) f (1 - a).
Proof.
  intros E RT. pose proof (new_dish_ok _ _ _ E) as (Hf & Eg). apply bowl_acts; auto.
  - intros q. exists (/ (2 * f)). rewrite Eg. apply parab_gradient. auto.
  - intros q. rewrite Eg. cbn. intros X. injection X. lra.
  - apply dish_finds; auto.
Qed.
Lemma hexagonal_acts D f gm T a : new_hex_dish D f = Ok gm -> rigid T ->
  dish_mirror (Surface.new_surface gm (Absorbing (Reflective a)) T) T (hex_dish D f) f (1 - a).
Proof.
  intros E RT. pose proof (new_hex_ok _ _ _ E) as (Hf & Eg). apply bowl_acts; auto.
  - intros q. exists (/ (2 * f)). rewrite Eg. apply parab_gradient. auto.
  - intros q. rewrite Eg. cbn. intros X. injection X. lra.
  - apply hex_finds; auto.
Qed.

(** ** The focus *)

Lemma mirrored_keeps n d d' : is_unit n -> mirrored n d d' -> d' = vsub d (vscale (2 * dot d n) n).
Proof.
  intros U (A & B). unfold tangential in B.
  replace d' with (vadd (vsub d' (vscale (dot d' n) n)) (vscale (dot d' n) n)) by (destruct d', n; vunfold; veq; ring).
  rewrite B, A. destruct d, n. vunfold. veq; ring.
Qed.

Lemma axial_is_safe T f : rigid T -> bowl_safe T (2 * sqrt f) (2 * sqrt f) (turned T (V3 0 0 (-1))).
Proof. intros _. exists (V3 0 0 (-1)). split; [reflexivity|]. right. cbn. lra. Qed.

Lemma turned_unit T v : rigid T -> norm2 (turned T v) = norm2 v.
Proof. intros (r & t & -> & O). unfold turned. rewrite rot_mk4. apply orthonormal_norm2. auto. Qed.
Lemma turned_dot T u v : rigid T -> dot (turned T u) (turned T v) = dot u v.
Proof. intros (r & t & -> & O). unfold turned. rewrite rot_mk4, dot_mv3, tr3_mv3; auto. Qed.
Lemma app_turned T q d k : rigid T -> ray_at (app4 T q) (turned T d) k = app4 T (ray_at q d k).
Proof. intros (r & t & -> & O). unfold turned. rewrite rot_mk4, !app4_mk4. unfold ray_at. rewrite mv3_vadd, mv3_vscale. destruct (mv3 r q), (mv3 r d), t. vunfold. veq; ring. Qed.
Lemma turned_sub T u v : turned T (vsub u v) = vsub (turned T u) (turned T v).
Proof. unfold turned. destruct (rot_of T) as [[] [] []], u, v. vunfold. veq; ring. Qed.

Lemma dish_focuses s T (A : shape) f eff : rigid T -> 0 < f -> (forall q, A q -> focal_bowl f q) -> dish_mirror s T A f eff ->
  focuses s T A (app4 T (V3 0 0 f)) eff.
Proof.
  intros RT Hf HA. apply acts_impl.
  - intros v d x H ->. apply H. apply axial_is_safe; auto.
  - intros p d e d' e' (-> & q & n & k & -> & Aq & U & -> & M) ->. split; auto.
    specialize (HA q (Aq (axial_is_safe T f RT))). apply mirrored_keeps in M; auto.
    unfold is_unit in U. rewrite <- turned_scale in U, M. rewrite turned_unit in U by auto. rewrite turned_dot in M by auto.
    rewrite <- turned_scale, <- turned_sub in M. subst d'.
    destruct q as [x y z]. unfold focal_bowl, bowl_normal in *. cbn [vx vy vz] in *.
    assert (K : k * k * (4 * f * (z + f)) = 1) by (vunfold; cbn in U; nra).
    assert (Hz : 0 <= z) by nra. assert (Pz : 0 < z + f) by lra.
    assert (K2 : k * k = / (4 * f * (z + f))) by (apply Rmult_eq_reg_r with (4 * f * (z + f)); [rewrite Rinv_l; nra|nra]).
    set (w := vsub _ _).
    assert (Ew : w = vscale (/ (z + f)) (V3 (- x) (- y) (f - z))).
    { unfold w. vunfold. cbn.
      assert (Q : 4 * f * (k * k) = / (z + f)) by (rewrite K2; field; lra). f_equal.
      - transitivity (- (4 * f * (k * k)) * x); [ring|]. rewrite Q. ring.
      - transitivity (- (4 * f * (k * k)) * y); [ring|]. rewrite Q. ring.
      - transitivity (-1 + 2 * f * (4 * f * (k * k))); [ring|]. rewrite Q. field. lra. }
    split.
    + unfold is_unit. rewrite turned_unit by auto. rewrite Ew. vunfold. cbn.
      transitivity ((x * x + y * y + (f - z) * (f - z)) * / (z + f) * / (z + f)); [ring|]. rewrite <- HA. field. lra.
    + exists (z + f). split; auto. rewrite app_turned by auto. f_equal. rewrite Ew. unfold ray_at. vunfold. cbn. f_equal; field; lra.
Qed.

Lemma round_top D f gm T a : new_dish D f = Ok gm -> rigid T ->
  let s := Surface.new_surface gm (Absorbing (Reflective a)) T in
  dish_mirror s T (round_dish D f) f (1 - a) /\ focuses s T (round_dish D f) (app4 T (V3 0 0 f)) (1 - a).
Proof.
  intros E RT s. pose proof (round_acts D f gm T a E RT) as M. split; auto. apply dish_focuses; auto; [apply (new_dish_ok _ _ _ E)|].
  intros q (B & _). auto.
Qed.
Lemma hexagonal_top D f gm T a : new_hex_dish D f = Ok gm -> rigid T ->
  let s := Surface.new_surface gm (Absorbing (Reflective a)) T in
  dish_mirror s T (hex_dish D f) f (1 - a) /\ focuses s T (hex_dish D f) (app4 T (V3 0 0 f)) (1 - a).
Proof.
  intros E RT s. pose proof (hexagonal_acts D f gm T a E RT) as M. split; auto. apply dish_focuses; auto; [apply (new_hex_ok _ _ _ E)|].
  intros q (B & _). auto.
Qed.
