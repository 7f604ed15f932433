(** The two rays of examples/gui.py on their way. *)
From Coq Require Import Reals String List Arith Bool Lia Lra Permutation.
From Verif.Base Require Import Py Num Vec.
From Verif.Model Require Import RayBundle Spatial Geometry TraceTree OpticsCallables Engine Objects Surface View Assembly Scene Models TwoMirrors.
From Verif.Proof Require Import ListLemmas NumLemmas VecLemmas SpatialProof FlatProof BundleProof ProcessProof FrameProof FrameHistory PlaceProof ConstructProof LibraryTop
  GrowProof ViewProof SceneProof ActProof ModelProof ModelTop ObjectProof ObjectTrace DishProof BoxWay PathProof TwoScene.
From Verif.Spec Require Import BundleSpec EngineSpec GeometrySpec GeomIface OpticsSpec LibrarySpec FrameSpec SceneSpec ModelSpec ViewSpec PathSpec TwoMirrorsSpec.
Import ListNotations.
Local Open Scope R_scope.

Definition s2 : R := 1 / sqrt 2.
Lemma s2_facts : 0 < s2 /\ s2 * s2 = 1 / 2 /\ sqrt 2 = 2 * s2 /\ 1 / 2 < s2 < 1.
Proof.
  assert (P : 0 < sqrt 2) by (apply sqrt_lt_R0; lra). pose proof (sqrt_sqrt 2 ltac:(lra)) as Q.
  assert (A : 0 < s2) by (unfold s2, Rdiv; rewrite Rmult_1_l; apply Rinv_0_lt_compat; auto).
  assert (B : s2 * sqrt 2 = 1) by (unfold s2; field; lra).
  assert (C : s2 * s2 = 1 / 2). { replace (s2 * s2) with ((s2 * sqrt 2) * (s2 * sqrt 2) / 2); [rewrite B; lra|]. replace (s2 * sqrt 2 * (s2 * sqrt 2) / 2) with (s2 * s2 * (sqrt 2 * sqrt 2) / 2) by field. rewrite Q. field. }
  split; auto. split; auto. split; [|split; nra].
  apply (Rmult_eq_reg_l s2); [|lra]. rewrite B. lra.
Qed.

(** The mirrors. *)
Definition tilted : shape := fun p => vy p = vz p /\ -5 <= vx p <= 5 /\ -5 <= vy p * sqrt 2 <= 5.
Definition level : shape := fun p => vz p = 0 /\ -5 <= vx p <= 5 /\ -5 <= vy p <= 5.
Definition tilted_z : vec := V3 0 s2 (- s2).
Definition level_z : vec := V3 0 0 1.

Lemma first_turn_eq : first_turn = mk4 (M3 (V3 (-1) 0 0) (V3 0 s2 s2) (V3 0 s2 (- s2))) vzero.
Proof.
  unfold first_turn, rotx, roty. cbv zeta. rewrite cos_PI4, sin_PI4, cos_PI, sin_PI. vunfold. unfold s2. veq; field; apply Rgt_not_eq, sqrt_lt_R0; lra.
Qed.
Lemma first_turn_rigid : rigid first_turn.
Proof.
  unfold first_turn. pose proof (rigid_mm4 _ _ (rigid_rotx (PI / 4)) (rigid_roty PI)) as Rm.
  replace (mk4 _ vzero) with (mm4 (rotx (PI / 4)) (roty PI)); auto.
  unfold rotx, roty, mm4, mk4. cbv zeta. cbn. unfold tr4, c4_0, c4_1, c4_2, c4_3. cbn. veq; ring.
Qed.
Lemma tilted_placed p : placed first_turn (rectangle 10 10) p <-> tilted p.
Proof.
  destruct s2_facts as (A & B & C & D). rewrite first_turn_eq. unfold placed, rectangle, tilted. destruct p as [x y z]. split.
  - intros (q & (Z & X & Y) & E). destruct q as [a b c]. cbn in Z, X, Y. subst c. unfold app4 in E. vunfold. injection E as -> -> ->. rewrite C. split; [lra|]. split; [lra|].
    replace ((0 * a + s2 * b + s2 * 0 + 0 * 1) * (2 * s2)) with (2 * (s2 * s2) * b) by ring. rewrite B. lra.
  - cbn [vx vy vz]. rewrite C. intros (-> & X & Y). exists (V3 (- x) (z * (2 * s2)) 0). split; [cbn; split; [auto|split; lra]|].
    unfold app4. vunfold. replace (s2 * (z * (2 * s2))) with (2 * (s2 * s2) * z) by ring. rewrite B. unfold vzero. cbn [vx vy vz]. veq; lra.
Qed.
Lemma level_placed p : placed id4 (rectangle 10 10) p <-> level p.
Proof. rewrite placed_id. unfold rectangle, level. split; intros (A & B & C); repeat split; lra. Qed.

Definition two_objs : list obj := [one_sided_object 1; one_sided_object 1].
Definition two_surfs : list surface := [seen_part (mm4 id4 first_turn) (mirror_part 10 10 (1 - 1)); seen_part (mm4 id4 id4) (mirror_part 10 10 (1 - 1))].

Lemma two_seen : seen_objects two_desc = two_objs /\ seen_surfaces id4 two_desc = two_surfs.
Proof.
  split; [reflexivity|]. unfold two_desc, two_surfs. cbn [seen_surfaces map concat mirror_of o_tr o_parts app]. rewrite !mm4_id_l.
  replace (1 - 1) with 0 by ring. reflexivity.
Qed.

Definition hit (i : nat) : vec -> vec -> num -> Prop :=
  match i with O => meets_flat tilted tilted_z | _ => meets_flat level level_z end.
Definition out (i : nat) (p d : vec) (e : R) (d' : vec) (e' : R) : Prop :=
  let z := match i with O => tilted_z | _ => level_z end in
  mirrored z d d' /\ (dot d z <= 0 -> e' = e * 1) /\ (0 < dot d z -> e' = 0).

Lemma two_act i s : nth_error two_surfs i = Some s -> acts s (hit i) (out i).
Proof.
  assert (P10 : 0 < 10) by lra. intros E. destruct i as [|[|i]]; [| |destruct i; discriminate]; injection E as <-.
  - apply (one_way_ext _ (placed id4 tilted) tilted (turned id4 tilted_z) tilted_z).
    + intros p. apply placed_id.
    + apply turned_id.
    + apply wall_acts; auto using rigid_id, first_turn_rigid, tilted_placed.
      rewrite first_turn_eq. unfold z_of, tilted_z. vunfold. veq; ring.
  - apply (one_way_ext _ (placed id4 level) level (turned id4 level_z) level_z).
    + intros p. apply placed_id.
    + apply turned_id.
    + apply wall_acts; auto using rigid_id, level_placed. unfold z_of, level_z. unfold id4. vunfold. cbn. veq; ring.
Qed.

Lemma two_answer : answering_assembly two_objs two_surfs /\ forall b, knows_media two_surfs b.
Proof.
  assert (Al : forall s, In s two_surfs -> lib_surface s /\ geom_ok (s_geom s) /\ match s_opt s with Refractive _ _ => False | _ => True end).
  { intros s Hs. unfold two_surfs in Hs. cbn [In] in Hs.
    repeat (destruct Hs as [<-|Hs]); try contradiction; unfold seen_part, mirror_part, Surface.new_surface; cbn [p_geom p_opt p_own s_geom s_opt s_frame];
      (split; [split; [|split; [cbn; lra|split; reflexivity]]|split; cbn; auto]; cbn [s_frame]);
      auto 8 using rigid_mm4, rigid_id, first_turn_rigid. }
  split.
  - split; [split; [|split]|].
    + intros ob Ho. cbn in Ho. repeat (destruct Ho as [<-|Ho]; [apply one_sided_object_ok|]). destruct Ho.
    + intros s Hs. apply Al; auto.
    + reflexivity.
    + split; [discriminate|]. split.
      * intros ob Ho. cbn in Ho. repeat (destruct Ho as [<-|Ho]; [apply one_sided_object_ok|]). destruct Ho.
      * intros s Hs. destruct (Al s Hs) as (_ & A & B). split; auto. destruct (s_opt s); cbn; auto.
  - intros b (s & Hs & R). destruct (Al s Hs) as (_ & _ & B). destruct (s_opt s); cbn in *; contradiction.
Qed.

Definition asks (q : option nat) (i : nat) : Prop := match q with None => True | Some k => i <> k end.
Lemma two_next i oi owns next b j r : emitted_by two_objs i oi owns next b j r ->
  forall i', (i' < length two_surfs)%nat -> (next_surfaces two_objs oi owns next r i' <-> asks (Some i) i').
Proof.
  intros Eb i' Hi. pose proof Eb as (ob & ri0 & e0 & Eo & _). change (surf_ownership two_objs) with [0; 1]%nat in Eo.
  assert (Li : (i' < length (surf_ownership two_objs))%nat) by exact Hi.
  assert (Eq : oi = i /\ nth_error two_objs oi = Some (one_sided_object 1)).
  { destruct i as [|[|i]]; [| |destruct i; discriminate]; injection Eo as <-; auto. }
  destruct Eq as (-> & Eob).
  assert (On : nth_error (surf_ownership two_objs) i' = Some i').
  { change (surf_ownership two_objs) with [0; 1]%nat. cbn in Hi. destruct i' as [|[|i']]; [reflexivity|reflexivity|lia]. }
  destruct (emitted_num _ _ _ _ _ _ _ _ _ _ Eb Eob) as (ri & e & n' & En & Lr & Ow & Nxt).
  destruct (one_sided_object_next two_objs i 1 e n' ri owns next Eob En Ow Nxt r i' Lr Li) as (_ & Q). rewrite Q, On. cbn. split; congruence.
Qed.

(** ** The way *)
Inductive state : option nat -> vec -> vec -> R -> nat -> list (vec * vec) -> Prop :=
  | s_first y z l : clear_source y z -> first_path y z l -> state None (at_yz y z) (V3 0 (- s2) s2) 1 2 l
  | s_second y z l : clear_source y z -> second_path y z l -> state None (at_yz y z) (V3 0 0 (- 1)) 1 2 l
  | s_past m k : 5 < 2 * m -> state (Some 0%nat) (at_yz m m) (V3 0 s2 (- s2)) 1 k [(at_yz m m, at_yz (m + s2) (m - s2))]
  | s_on m : tenm 6 < m /\ 2 * m <= 5 -> state (Some 0%nat) (at_yz m m) (V3 0 s2 (- s2)) 1 1
      [(at_yz m m, at_yz (2 * m) 0); (at_yz (2 * m) 0, at_yz (2 * m + s2) s2)]
  | s_off u k : state (Some 1%nat) (at_yz u 0) (V3 0 s2 s2) 1 k [(at_yz u 0, at_yz (u + s2) s2)]
  | s_up y k : 5 < y * sqrt 2 -> state (Some 1%nat) (at_yz y 0) (V3 0 0 1) 1 k [(at_yz y 0, at_yz y 1)]
  | s_top y : tenm 6 < y -> y * sqrt 2 <= 5 -> state (Some 1%nat) (at_yz y 0) (V3 0 0 1) 1 1
      [(at_yz y 0, at_yz y y); (at_yz y y, at_yz (y + 1) y)]
  | s_along y k : state (Some 0%nat) (at_yz y y) (V3 0 1 0) 1 k [(at_yz y y, at_yz (y + 1) y)].

Lemma small10 : tenm 10 < 1 / 2. Proof. unfold tenm. simpl. lra. Qed.
Lemma small6 : 0 < tenm 6 < 1 / 1000. Proof. unfold tenm. simpl. lra. Qed.

Lemma missed (A : shape) z v d x : meets_flat A z v d x -> (forall t, 0 <= t -> ~ A (ray_at v d t)) -> x = PInf.
Proof.
  intros (M1 & M2) N. destruct (Rlt_dec (tenm 10) (Rabs (dot d z))) as [P|P]; [|auto]. specialize (M1 P).
  unfold first_hit0, least in M1. destruct x as [t| | |]; try contradiction; auto. exfalso. apply (N t); apply M1.
Qed.
Lemma parallel (A : shape) z v d x : meets_flat A z v d x -> dot d z = 0 -> x = PInf.
Proof. intros (_ & M2) E. apply M2. rewrite E, Rabs_R0. pose proof (tenm_pos 10). lra. Qed.
Lemma sent (z d d' d1 : vec) : is_unit z -> d1 = vsub d (vscale (2 * dot d z) z) -> mirrored z d d' -> d' = d1.
Proof. intros U -> M. apply mirrored_keeps; auto. Qed.
Lemma units : is_unit tilted_z /\ is_unit level_z.
Proof. destruct s2_facts as (A & B & _). split; unfold is_unit, tilted_z, level_z; vunfold; nra. Qed.

Definition leads_on := leads two_surfs (5 / 100) hit out asks state.
Definition steps_on (q : option nat) (v d : vec) (e : R) (k : nat) (segs : list (vec * vec)) : Prop := e <> 0 /\
  ((exists i t d1 e1, (i < length two_surfs)%nat /\ leads_on q v d e k segs i t d1 e1) \/
   segs = [(v, vadd v (vscale 1 d))] /\ forall i x, (i < length two_surfs)%nat -> asks q i -> hit i v d x -> x = PInf).

(** No mirror is met. *)
Lemma off_step q v d k e segs : e <> 0 -> segs = [(v, vadd v (vscale 1 d))] ->
  (asks q 0 -> dot d tilted_z = 0 \/ forall t, 0 <= t -> ~ tilted (ray_at v d t)) ->
  (asks q 1 -> dot d level_z = 0 \/ forall t, 0 <= t -> ~ level (ray_at v d t)) -> steps_on q v d e k segs.
Proof.
  intros He Es A0 A1. split; auto. right. split; auto. intros i x Hi Aq H. destruct i as [|[|i]]; [| |cbn in Hi; lia]; cbn [hit] in H.
  - destruct (A0 Aq); [eapply parallel|eapply missed]; eauto.
  - destruct (A1 Aq); [eapply parallel|eapply missed]; eauto.
Qed.

(** The tilted mirror is met. *)
Lemma tilted_step q v d t d1 e1 k segs : asks q 0 -> tenm 6 < t -> 1 / 2 < Rabs (dot d tilted_z) -> tilted (ray_at v d t) ->
  (forall t', tilted (ray_at v d t') -> t' = t) ->
  (asks q 1 -> forall t', 0 <= t' -> level (ray_at v d t') -> t < t') ->
  d1 = vsub d (vscale (2 * dot d tilted_z) tilted_z) -> (dot d tilted_z <= 0 /\ e1 = 1 \/ 0 < dot d tilted_z /\ e1 = 0) ->
  (e1 = 0 /\ segs = [(v, ray_at v d t)] \/ 5 / 100 < e1 /\ exists k' segs', k = S k' /\ segs = (v, ray_at v d t) :: segs' /\ state (Some 0%nat) (ray_at v d t) d1 e1 k' segs') ->
  steps_on q v d 1 k segs.
Proof.
  intros A0 Ht N At U Lv Ed Ee Nx. pose proof small10. pose proof small6. split; [lra|]. left. exists 0%nat, t, d1, e1. split; [cbn; lia|].
  split; auto. split; auto. split; [intros x H1; apply (unique_hit _ _ _ _ _ _ H1); auto; lra|]. split; [|split; auto].
  - intros i' x Hi Ne Aq H1. destruct i' as [|[|i']]; [lia| |cbn in Hi; lia]. cbn [hit] in H1. destruct H1 as (M1 & M2).
    destruct (Rlt_dec (tenm 10) (Rabs (dot d level_z))) as [P|P]; [|left; auto]. specialize (M1 P). unfold first_hit0, least in M1.
    destruct x as [t'| | |]; try contradiction; auto. right. exists t'. split; auto. apply Lv; auto; apply M1.
  - intros d' e' _ (M & O1 & O2). split; [apply (sent tilted_z d); auto; apply units|]. destruct Ee as [(D & ->)|(D & ->)]; [rewrite O1; auto; ring|apply O2; auto].
Qed.
Lemma level_step q v d t d1 k segs segs' k' : asks q 1 -> tenm 6 < t -> 1 / 2 < Rabs (dot d level_z) -> level (ray_at v d t) ->
  (forall t', level (ray_at v d t') -> t' = t) ->
  (asks q 0 -> forall t', 0 <= t' -> tilted (ray_at v d t') -> t < t') ->
  d1 = vsub d (vscale (2 * dot d level_z) level_z) -> dot d level_z <= 0 ->
  k = S k' -> segs = (v, ray_at v d t) :: segs' -> state (Some 1%nat) (ray_at v d t) d1 1 k' segs' ->
  steps_on q v d 1 k segs.
Proof.
  intros A0 Ht N At U Lv Ed Ee Ek Es Nx. pose proof small10. pose proof small6. split; [lra|]. left. exists 1%nat, t, d1, 1. split; [cbn; lia|].
  split; auto. split; auto. split; [intros x H1; apply (unique_hit _ _ _ _ _ _ H1); auto; lra|]. split; [|split].
  - intros i' x Hi Ne Aq H1. destruct i' as [|[|i']]; [|lia|cbn in Hi; lia]. cbn [hit] in H1. destruct H1 as (M1 & M2).
    destruct (Rlt_dec (tenm 10) (Rabs (dot d tilted_z))) as [P|P]; [|left; auto]. specialize (M1 P). unfold first_hit0, least in M1.
    destruct x as [t'| | |]; try contradiction; auto. right. exists t'. split; auto. apply Lv; auto; apply M1.
  - intros d' e' _ (M & O1 & O2). split; [apply (sent level_z d); auto; apply units|]. rewrite O1; auto; ring.
  - right. split; [lra|]. eauto.
Qed.

Ltac tidy := unfold at_yz, ray_at, tilted, level, tilted_z, level_z in *; vunfold; cbn [vx vy vz] in *.

Lemma leave q y z p r a b k : a = y + p -> b = z + r ->
  (asks q 0 -> p = r \/ forall t, 0 <= t -> y + t * p = z + t * r -> -5 <= (y + t * p) * sqrt 2 <= 5 -> False) ->
  (asks q 1 -> r = 0 \/ forall t, 0 <= t -> z + t * r = 0 -> -5 <= y + t * p <= 5 -> False) ->
  steps_on q (at_yz y z) (V3 0 p r) 1 k [(at_yz y z, at_yz a b)].
Proof.
  intros -> -> H0 H1. apply off_step; [lra|unfold at_yz; vunfold; do 3 f_equal; ring| |].
  - intros Q. destruct (H0 Q) as [->|N]; [left; tidy; ring|right]. intros t Ht (E1 & _ & E2). tidy. apply (N t); auto.
  - intros Q. destruct (H1 Q) as [->|N]; [left; tidy; ring|right]. intros t Ht (E1 & _ & E2). tidy. apply (N t); auto.
Qed.
Lemma to_tilted q y z p r t a e1 k segs : asks q 0 -> tenm 6 < t -> 1 / 2 < Rabs (s2 * (p - r)) -> y + t * p = a -> z + t * r = a -> -5 <= a * sqrt 2 <= 5 ->
  (asks q 1 -> forall t', 0 <= t' -> z + t' * r = 0 -> -5 <= y + t' * p <= 5 -> t < t') ->
  (p <= r /\ e1 = 1 \/ r < p /\ e1 = 0) ->
  (e1 = 0 /\ segs = [(at_yz y z, at_yz a a)] \/ e1 = 1 /\ exists k' segs', k = S k' /\ segs = (at_yz y z, at_yz a a) :: segs' /\ state (Some 0%nat) (at_yz a a) (V3 0 r p) 1 k' segs') ->
  steps_on q (at_yz y z) (V3 0 p r) 1 k segs.
Proof.
  destruct s2_facts as (A & B & C & D). intros A0 Ht N Ea Eb Ra Lv Ee Nx.
  assert (Ep : ray_at (at_yz y z) (V3 0 p r) t = at_yz a a) by (tidy; veq; lra).
  assert (Ed : dot (V3 0 p r) tilted_z = s2 * (p - r)) by (tidy; ring).
  apply (tilted_step q _ _ t (V3 0 r p) e1); auto.
  - rewrite Ed. exact N.
  - rewrite Ep. tidy. repeat split; lra.
  - intros t' (E & _). tidy. assert (F : (t' - t) * (p - r) = 0) by lra. apply Rmult_integral in F as [F|F]; [lra|]. exfalso. rewrite F, Rmult_0_r, Rabs_R0 in N. lra.
  - intros Q t' P' (E & _ & E2). tidy. apply (Lv Q t'); auto.
  - rewrite Ed. tidy. veq; [ring| |].
    + replace (2 * (s2 * (p - r)) * s2) with (2 * (s2 * s2) * (p - r)) by ring. rewrite B. lra.
    + replace (2 * (s2 * (p - r)) * - s2) with (- (2 * (s2 * s2) * (p - r))) by ring. rewrite B. lra.
  - rewrite Ed. destruct Ee as [(E & ->)|(E & ->)]; [left|right]; split; auto; nra.
  - rewrite Ep. destruct Nx as [?|(-> & k' & segs' & ?)]; [left; auto|right; split; [lra|eauto]].
Qed.
Lemma to_level q y z p r t a k segs segs' k' : asks q 1 -> tenm 6 < t -> r < - (1 / 2) -> y + t * p = a -> z + t * r = 0 -> -5 <= a <= 5 ->
  (asks q 0 -> forall t', 0 <= t' -> y + t' * p = z + t' * r -> -5 <= (y + t' * p) * sqrt 2 <= 5 -> t < t') ->
  k = S k' -> segs = (at_yz y z, at_yz a 0) :: segs' -> state (Some 1%nat) (at_yz a 0) (V3 0 p (- r)) 1 k' segs' ->
  steps_on q (at_yz y z) (V3 0 p r) 1 k segs.
Proof.
  intros A0 Ht N Ea Eb Ra Lv Ek Es Nx.
  assert (Ep : ray_at (at_yz y z) (V3 0 p r) t = at_yz a 0) by (tidy; veq; lra).
  assert (Ed : dot (V3 0 p r) level_z = r) by (tidy; ring).
  apply (level_step q _ _ t (V3 0 p (- r)) k segs segs' k'); auto.
  - rewrite Ed, Rabs_left; lra.
  - rewrite Ep. tidy. repeat split; lra.
  - intros t' (E & _). tidy. assert (F : (t' - t) * r = 0) by lra. apply Rmult_integral in F as [F|F]; lra.
  - intros Q t' P' (E & _ & E2). tidy. apply (Lv Q t'); auto.
  - rewrite Ed. tidy. veq; ring.
  - lra.
  - rewrite Ep. auto.
  - rewrite Ep. auto.
Qed.

Lemma two_state q v d e k segs : state q v d e k segs -> steps_on q v d e k segs.
Proof.
  destruct s2_facts as (A & B & C & D). pose proof small6 as T6. intros St. destruct St as [y z l Cl P|y z l Cl P|m k Hm|m Hm|u k|y k Hy|y Hy Hy'|y k].
  - destruct Cl as (Hy & Hz & Hd). rewrite C in Hd. destruct P as [P|P Q|P Q m|P Q m]; fold s2.
    + apply leave; [ring|ring| |]; intros _; right; intros t Ht E E2; nra.
    + apply leave; [ring|ring| |]; intros _; right; intros t Ht E E2; [|nra].
      rewrite C in *. assert (y + z = 2 * (y + t * - s2)) by lra. nra.
    + rewrite C in Q. rewrite Rabs_right in Hd by lra. apply (to_tilted None y z (- s2) s2 (s2 * (y - z)) m 1).
      * exact Logic.I.
      * nra.
      * replace (s2 * (- s2 - s2)) with (- (2 * (s2 * s2))) by ring. rewrite B, Rabs_Ropp, Rabs_right; lra.
      * unfold m. replace (s2 * (y - z) * - s2) with (- ((s2 * s2) * (y - z))) by ring. rewrite B. lra.
      * unfold m. replace (s2 * (y - z) * s2) with ((s2 * s2) * (y - z)) by ring. rewrite B. lra.
      * rewrite C. unfold m. assert (X : (y + z) * s2 <= 5) by nra. assert (0 <= (y + z) * s2) by nra. lra.
      * intros _ t' Ht E _. nra.
      * left. split; [lra|auto].
      * right. split; auto. eexists 1%nat, _. split; [reflexivity|]. split; [reflexivity|]. apply s_past. unfold m. lra.
    + rewrite Rabs_right in Hd by lra. apply (to_tilted None y z (- s2) s2 (s2 * (y - z)) m 1).
      * exact Logic.I.
      * nra.
      * replace (s2 * (- s2 - s2)) with (- (2 * (s2 * s2))) by ring. rewrite B, Rabs_Ropp, Rabs_right; lra.
      * unfold m. replace (s2 * (y - z) * - s2) with (- ((s2 * s2) * (y - z))) by ring. rewrite B. lra.
      * unfold m. replace (s2 * (y - z) * s2) with ((s2 * s2) * (y - z)) by ring. rewrite B. lra.
      * rewrite C. unfold m. assert (X : (y + z) * s2 <= 5) by nra. assert (0 <= (y + z) * s2) by nra. lra.
      * intros _ t' Ht E _. nra.
      * left. split; [lra|auto].
      * right. split; auto. eexists 1%nat, _. split; [reflexivity|]. split; [reflexivity|].
        replace (y + z) with (2 * m) by (unfold m; lra). apply s_on. unfold m. lra.
  - destruct Cl as (Hy & Hz & Hd). rewrite C in Hd. destruct P as [P Q|Q|P Q].
    + rewrite Rabs_left in Hd by lra. apply (to_tilted None y z 0 (-1) (z - y) y 0).
      * exact Logic.I.
      * nra.
      * rewrite Rabs_right; lra.
      * ring.
      * ring.
      * split; [|lra]. rewrite C. nra.
      * intros _ t' Ht E _. lra.
      * right. split; lra.
      * left. auto.
    + apply (to_level None y z 0 (-1) z y 2 _ [(at_yz y 0, at_yz y 1)] 1); auto; try lra; [exact Logic.I| |].
      * intros _ t' Ht E E2. exfalso. rewrite Rmult_0_r, Rplus_0_r in E2. lra.
      * replace (- -1) with 1 by ring. apply s_up. auto.
    + rewrite Rabs_right in Hd by lra. apply (to_level None y z 0 (-1) z y 2 _ [(at_yz y 0, at_yz y y); (at_yz y y, at_yz (y + 1) y)] 1); auto; try lra; [exact Logic.I| |].
      * intros _ t' Ht E E2. exfalso. lra.
      * replace (- -1) with 1 by ring. apply s_top; auto. lra.
  - apply leave; [ring|ring|intros Q; exfalso; apply Q; auto|]. intros _. right. intros t Ht E E2. nra.
  - apply (to_level (Some 0%nat) m m s2 (- s2) (2 * s2 * m) (2 * m) 1 _ [(at_yz (2 * m) 0, at_yz (2 * m + s2) s2)] 0%nat); auto.
    + discriminate.
    + nra.
    + lra.
    + replace (2 * s2 * m * s2) with (2 * (s2 * s2) * m) by ring. rewrite B. lra.
    + replace (2 * s2 * m * - s2) with (- (2 * (s2 * s2) * m)) by ring. rewrite B. lra.
    + lra.
    + intros Q. exfalso. apply Q. auto.
    + rewrite Ropp_involutive. apply s_off.
  - apply leave; [ring|ring| |intros Q; exfalso; apply Q; auto]. intros _. left. auto.
  - apply leave; [ring|ring| |intros Q; exfalso; apply Q; auto]. intros _. right. intros t Ht E E2. rewrite Rmult_0_r, Rplus_0_r in E2. lra.
  - apply (to_tilted (Some 1%nat) y 0 0 1 y y 1).
    + discriminate.
    + auto.
    + rewrite Rabs_left; lra.
    + ring.
    + ring.
    + split; [|lra]. rewrite C. nra.
    + intros Q. exfalso. apply Q. auto.
    + left. split; lra.
    + right. split; auto. eexists 0%nat, _. split; [reflexivity|]. split; [reflexivity|]. apply s_along.
  - apply leave; [ring|ring|intros Q; exfalso; apply Q; auto|]. intros _. left. auto.
Qed.
