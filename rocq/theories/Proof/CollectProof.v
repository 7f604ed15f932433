(** Dish collectors: where light ends. *)
From Coq Require Import Reals ZArith String List Arith Bool Lia Lra Permutation.
From Verif.Base Require Import Py Num Vec.
From Verif.Model Require Import RayBundle Spatial Geometry TraceTree OpticsCallables Engine Objects Surface Assembly Scene Models.
From Verif.Proof Require SpatialProof.
From Verif.Proof Require Import ListLemmas NumLemmas VecLemmas FlatProof BundleProof ProcessProof CallProof SurfaceProof LibraryTop ObjectProof ObjectTrace
  AccountProof AnswerProof ActProof ModelTop DishProof ReceiverProof ReceiverTop MeasureProof FitProof FateProof BoxWay.
From Verif.Spec Require Import BundleSpec EngineSpec GeometrySpec GeomIface OpticsSpec LibrarySpec AccountSpec FrameSpec SceneSpec ModelSpec DishSpec SunSpec.
Import ListNotations.
Local Open Scope R_scope.

(** ** Descriptions of surfaces *)

Lemma acts_weaken s (Hit Hit' : vec -> vec -> num -> Prop) (Out Out' : vec -> vec -> R -> vec -> R -> Prop) : acts s Hit Out ->
  (forall v d x, Hit v d x -> Hit' v d x) -> (forall p d e d' e', Out p d e d' e' -> Out' p d e d' e') -> acts s Hit' Out'.
Proof.
  intros Ac Hh Ho b n Tb. destruct (Ac b n Tb) as (s1 & ps & Rg & Lp & H1 & H2). exists s1, ps. do 2 (split; auto). split; [eauto|].
  intros sel g Ah. destruct (H2 sel g Ah) as (s2 & o & g' & E1 & E2 & To & Ch). exists s2, o, g'. do 3 (split; auto).
  intros k i v d e t A1 A2 A3 A4 A5. destruct (Ch k i v d e t A1 A2 A3 A4 A5) as (d' & e' & O & C). eauto.
Qed.

Lemma acts_and s (Hit Hit' : vec -> vec -> num -> Prop) (Out Out' : vec -> vec -> R -> vec -> R -> Prop) : acts s Hit Out -> acts s Hit' Out' ->
  acts s (fun v d x => Hit v d x /\ Hit' v d x) (fun p d e d' e' => Out p d e d' e' /\ Out' p d e d' e').
Proof.
  intros A1 A2 b n Tb. destruct (A1 b n Tb) as (s1 & ps & Rg & Lp & H1 & H2). destruct (A2 b n Tb) as (s1' & ps' & Rg' & _ & H1' & H2').
  rewrite Rg in Rg'. injection Rg' as <- <-. exists s1, ps. do 2 (split; auto). split; [eauto|].
  intros sel g Ah. destruct (H2 sel g Ah) as (s2 & o & g' & E1 & E2 & To & Ch). destruct (H2' sel g Ah) as (s2' & o' & g'' & E1' & E2' & _ & Ch').
  rewrite E1 in E1'. injection E1' as <-. rewrite E2 in E2'. injection E2' as <- <-. exists s2, o, g'. do 3 (split; auto).
  intros k i v d e t B1 B2 B3 B4 B5. destruct (Ch k i v d e t B1 B2 B3 B4 B5) as (d' & e' & O & C). destruct (Ch' k i v d e t B1 B2 B3 B4 B5) as (d2 & e2 & O' & C').
  pose proof (ch_dir _ _ _ _ _ _ _ _ C) as D1. pose proof (ch_dir _ _ _ _ _ _ _ _ C') as D2.
  pose proof (ch_energy _ _ _ _ _ _ _ _ C) as D3. pose proof (ch_energy _ _ _ _ _ _ _ _ C') as D4.
  assert (d2 = d') by congruence. assert (e2 = e') by congruence. subst d2 e2. exists d', e'. auto.
Qed.

(** ** From the collector's coordinates to the others *)

Section Placed.
Variable T : mat4.
Hypothesis RT : rigid T.

Lemma turned_inj u v : turned T u = turned T v -> u = v.
Proof.
  intros E. assert (Z : norm2 (vsub u v) = 0).
  { rewrite <- (turned_unit T) by auto. rewrite turned_sub, E. destruct (turned T v). unfold norm2, dot. vunfold. cbn. ring. }
  destruct u as [a b c], v as [a' b' c']. unfold norm2, dot in Z. cbn in Z.
  pose proof (pow2_ge_0 (a - a')) as P1. pose proof (pow2_ge_0 (b - b')) as P2. pose proof (pow2_ge_0 (c - c')) as P3. cbn in P1, P2, P3.
  assert (a - a' = 0) by (apply Rsqr_0_uniq; unfold Rsqr; lra). assert (b - b' = 0) by (apply Rsqr_0_uniq; unfold Rsqr; lra).
  assert (c - c' = 0) by (apply Rsqr_0_uniq; unfold Rsqr; lra). veq; lra.
Qed.
Lemma turned_onto u : exists l, u = turned T l.
Proof.
  destruct RT as (r & t & -> & O). exists (mv3 (tr3 r) u). unfold turned. rewrite rot_mk4. symmetry. apply mv3_tr3; auto.
Qed.
Lemma placed_in (B : shape) p : placed T B (app4 T p) <-> B p.
Proof. split; [intros (q & Bq & E); apply app4_inj in E; auto; subst; auto|intros Bp; exists p; auto]. Qed.
Lemma turned_add u v : turned T (vadd u v) = vadd (turned T u) (turned T v).
Proof. unfold turned. destruct (rot_of T) as [[] [] []], u, v. vunfold. veq; ring. Qed.

Lemma least_ext (P Q : R -> Prop) x : (forall t, P t <-> Q t) -> least P x -> least Q x.
Proof.
  intros E. unfold least. destruct x; auto.
  - intros (A & B). split; [apply E; auto|]. intros t' Ht. apply B, E; auto.
  - intros A t Ht. apply (A t), E; auto.
Qed.
Lemma hit_local (B : shape) v d x : first_hit (placed T B) (app4 T v) (turned T d) x -> first_hit B v d x.
Proof. apply least_ext. intros t. rewrite app_turned, placed_in by auto. tauto. Qed.
Lemma flat_local (B : shape) z v d x : meets_flat (placed T B) (turned T z) (app4 T v) (turned T d) x -> meets_flat B z v d x.
Proof.
  intros (M & N). rewrite turned_dot in M, N by auto. split; auto. intros K. specialize (M K). revert M. apply least_ext.
  intros t. rewrite app_turned, placed_in by auto. tauto.
Qed.
Lemma mirrored_local z d d' : mirrored (turned T z) (turned T d) (turned T d') -> mirrored z d d'.
Proof.
  unfold mirrored, tangential. intros (M & N). rewrite !turned_dot in M, N by auto. split; auto.
  rewrite <- !turned_scale, <- !turned_sub in N. apply turned_inj in N. auto.
Qed.
End Placed.

Lemma turned_mm4 a b v : rigid a -> rigid b -> turned (mm4 a b) v = turned a (turned b v).
Proof. intros (r & t & -> & O) (r' & t' & -> & O'). rewrite mm4_mk4. unfold turned. rewrite !rot_mk4, mv3_mm3. reflexivity. Qed.
Lemma frame_turned pos v : turned (receiver_frame pos) v = V3 (vx v) (- vy v) (- vz v).
Proof.
  unfold receiver_frame. rewrite turned_mm4 by auto using rigid_translate, rigid_rotx. unfold turned, rotx, translate. destruct v. cbn.
  rewrite cos_PI, sin_PI. veq; ring.
Qed.

Definition global_hit (T : mat4) (P : vec -> vec -> num -> Prop) (v d : vec) (x : num) : Prop :=
  forall v' d', v = app4 T v' -> d = turned T d' -> P v' d' x.
Definition global_out (T : mat4) (P : vec -> vec -> R -> vec -> R -> Prop) (p d : vec) (e : R) (d' : vec) (e' : R) : Prop :=
  forall p' dl, p = app4 T p' -> d = turned T dl -> exists dl', d' = turned T dl' /\ P p' dl e dl' e'.

Lemma one_way_local s T (B B' : shape) z z' eff : rigid T -> (forall p, B p <-> placed T B' p) -> z = turned T z' -> one_way_mirror s B z eff ->
  acts s (global_hit T (meets_flat B' z')) (global_out T (fun _ d e d' e' => wall_out eff z' d e d' e')).
Proof.
  intros RT EB -> M. eapply acts_weaken; [exact (one_way_ext s B _ _ _ eff EB eq_refl M)| |].
  - intros v d x Q v' d' -> ->. eapply flat_local; eauto.
  - intros p d e d' e' (Q1 & Q2 & Q3) p' dl -> ->. destruct (turned_onto T RT d') as (l & ->). exists l. split; auto.
    rewrite turned_dot in Q2, Q3 by auto. split; [eapply mirrored_local; eauto|auto].
Qed.
Lemma flat_mirror_local s T (B B' : shape) z z' : rigid T -> (forall p, B p <-> placed T B' p) -> z = turned T z' -> z' = V3 0 0 (-1) -> flat_mirror s B z 0 ->
  acts s (global_hit T (meets_flat B' z')) (global_out T (fun _ d e d' e' => plate_out d e d' e')).
Proof.
  intros RT EB -> -> M. eapply acts_weaken; [exact (flat_ext s B _ _ _ 0 0 EB eq_refl eq_refl M)| |].
  - intros v d x Q v' d' -> ->. eapply flat_local; eauto.
  - intros p d e d' e' (Q1 & Q2) p' dl -> ->. destruct (turned_onto T RT d') as (l & ->). exists l. split; auto.
    split; [eapply mirrored_local; eauto|auto].
Qed.

(** ** The histogram *)

Lemma sum_where_perm {B} (P : B -> Prop) w (l l' : list B) : Permutation l l' -> forall t, sum_where P w l t -> sum_where P w l' t.
Proof.
  induction 1; intros t S; auto.
  - inversion S; subst; constructor; auto.
  - inversion S as [| ? ? ? ? S'|? ? ? ? S']; subst; inversion S'; subst.
    + match goal with |- sum_where _ _ _ (?a + (?b + ?c)) => replace (a + (b + c)) with (b + (a + c)) by ring end. do 2 (apply sum_in; auto).
    + apply sum_out; auto. apply sum_in; auto.
    + apply sum_in; auto. apply sum_out; auto.
    + do 2 (apply sum_out; auto).
Qed.
Lemma sum_where_map {B C} (h : B -> C) (P : C -> Prop) w (Q : B -> Prop) u (l : list B) : (forall x, In x l -> (Q x <-> P (h x)) /\ u x = w (h x)) ->
  forall t, sum_where P w (map h l) t -> sum_where Q u l t.
Proof.
  induction l as [|x l IH]; intros E t S; inversion S; subst; destruct (E x (or_introl eq_refl)) as (Eq & Eu) || constructor.
  - rewrite <- Eu. constructor; [apply Eq; auto|]. apply IH; auto. intros y Hy. apply E. right. auto.
  - constructor; [rewrite Eq; auto|]. apply IH; auto. intros y Hy. apply E. right. auto.
Qed.
Lemma total_perm l l' : Permutation l l' -> total l = total l'.
Proof. unfold total. induction 1; cbn [fold_right] in *; lra. Qed.
Lemma fst_combine {B C} (l : list B) (m : list C) : length l = length m -> map fst (combine l m) = l.
Proof. revert m. induction l as [|x l IH]; intros [|y m] E; cbn in *; try discriminate; auto. f_equal. auto. Qed.
Lemma snd_combine {B C} (l : list B) (m : list C) : length l = length m -> map snd (combine l m) = m.
Proof. revert m. induction l as [|x l IH]; intros [|y m] E; cbn in *; try discriminate; auto. f_equal. auto. Qed.

Lemma shows_arrivals r sc id T X Y pos bins g ens hs arr : rigid T -> surface_now (hr_rec r) sc = (sc, Ok (front_of id T pos X Y)) ->
  hr_sides r = (X, Y) -> 0 < X -> 0 < Y -> (0 < bins)%nat -> get_all_hits (g_acc g id) = Ok (ens, hs) -> length ens = length hs ->
  Permutation (combine ens hs) (map (fun eo => (fst eo, app4 T (snd eo))) arr) ->
  (forall e p, In (e, p) arr -> - (X / 2) <= vx p <= X / 2 /\ - (Y / 2) <= vy p <= Y / 2 /\ vz p = pos) ->
  exists hist xe ye, histogram_hits r bins g sc = (sc, Ok (hist, xe, ye)) /\ shown X Y bins hist arr.
Proof.
  intros RT Now Sd HX HY Hb Gh Ln Pm Ar. pose proof (frame_rigid pos) as RF.
  set (h := fun eo : R * vec => (fst eo, app4 T (snd eo))) in *.
  apply Permutation_map_inv in Pm as (l & El & Pl).
  assert (E1 : ens = map fst l). { rewrite <- (fst_combine ens hs Ln), El, map_map. reflexivity. }
  set (qs := map (fun eo : R * vec => V3 (vx (snd eo)) (- vy (snd eo)) (pos - vz (snd eo))) l).
  assert (E2 : hs = map (app4 (mm4 T (receiver_frame pos))) qs).
  { rewrite <- (snd_combine ens hs Ln), El, map_map. unfold qs. rewrite map_map. apply map_ext. intros (e & p). cbn [snd fst h].
    rewrite SpatialProof.app4_mm4, frame_app by auto. f_equal. destruct p. cbn. veq; ring. }
  destruct (histogram_top r sc (front_of id T pos X Y) id (Reflective 1) X Y bins g ens qs) as (hist & xe & ye & Eh & _ & _ & L1 & L2 & Ce & _ & To); auto.
  - apply rigid_mm4; auto.
  - rewrite Gh. f_equal. f_equal. exact E2.
  - unfold qs. rewrite E1, !map_length. auto.
  - exists hist, xe, ye. split; auto. split; auto. split; auto.
    assert (Ec : combine qs ens = map (fun eo : R * vec => (V3 (vx (snd eo)) (- vy (snd eo)) (pos - vz (snd eo)), fst eo)) l).
    { rewrite E1. unfold qs. clear. induction l; cbn; auto. f_equal. auto. }
    split.
    + intros i j Hi Hj. destruct (Ce i j Hi Hj) as (row & t & A1 & A2 & A3). exists row, t. do 2 (split; auto).
      rewrite Ec in A3. apply (sum_where_perm _ _ l arr); [apply Permutation_sym; auto|]. revert A3. apply sum_where_map. intros (e & p) _. cbn. split; [tauto|auto].
    + rewrite To.
      * rewrite E1. apply total_perm, Permutation_map, Permutation_sym. auto.
      * apply Forall_forall. intros q Iq. unfold qs in Iq. apply in_map_iff in Iq as ((e & p) & <- & Ip).
        destruct (Ar e p) as (B1 & B2 & B3). { eapply Permutation_in; [apply Permutation_sym; exact Pl|exact Ip]. }
        unfold rectangle. cbn. repeat split; try lra; apply Rabs_le; lra.
Qed.

Section Collect.
Variables (T : mat4) (A : shape) (X Y H f eff heff : R) (id : nat) (ss : list surface).
Let view := repeat (one_sided_object 1) 4 ++ [one_sided_object 2; default_object 1].
Hypothesis RT : rigid T.
Hypothesis HX : tenm 6 < X.
Hypothesis HY : tenm 6 < Y.
Hypothesis HH : 0 < H.
Hypothesis Hf : tenm 6 < f.
Hypothesis Ab : forall q, A q -> focal_bowl f q /\ vz q < f.
Hypothesis Hd : 0 <= eff <= 1.
Hypothesis He : 0 <= heff <= 1.
Hypothesis Bx : box_receiver T (f + H) X Y H heff
  (fun s => dish_mirror s T A f eff /\ focuses s T A (app4 T (V3 0 0 f)) eff /\ workable eff s) ss.
Hypothesis Rc : receives view id T (f + H) X Y heff ss.

Lemma wall_placed (B B' : shape) p : (forall q, placed (receiver_frame (f + H)) B q <-> B' q) ->
  (placed (mm4 T (receiver_frame (f + H))) B p <-> placed T B' p).
Proof. intros E. rewrite placed_mm4 by auto using frame_rigid. apply placed_ext. auto. Qed.
Lemma x_walls g q : placed (receiver_frame (f + H)) (across_x (g * (X / 2)) Y H) q <-> xw X Y H f g q.
Proof.
  split.
  - intros ([x y z] & (A1 & A2 & A3) & ->). rewrite frame_app. unfold xw. cbn in *. repeat split; lra.
  - destruct q as [x y z]. intros (A1 & A2 & A3). cbn in *. exists (V3 x (- y) (f + H - z)). split; [unfold across_x; cbn; repeat split; lra|].
    rewrite frame_app. cbn. veq; ring.
Qed.
Lemma y_walls g q : placed (receiver_frame (f + H)) (across_y (- g * (Y / 2)) X H) q <-> yw X Y H f g q.
Proof.
  split.
  - intros ([x y z] & (A1 & A2 & A3) & ->). rewrite frame_app. unfold yw. cbn in *. repeat split; lra.
  - destruct q as [x y z]. intros (A1 & A2 & A3). cbn in *. exists (V3 x (- y) (f + H - z)). split; [unfold across_y; cbn; repeat split; lra|].
    rewrite frame_app. cbn. veq; ring.
Qed.

Lemma seven : length ss = 7%nat.
Proof. destruct Bx as (walls & front & back & main & -> & (a & b & c & d & -> & _) & _). reflexivity. Qed.

Lemma surfaces_act i s : nth_error ss i = Some s ->
  acts s (global_hit T (lhit X Y H f A i)) (global_out T (lout f eff heff i)).
Proof.
  intros Es. pose proof (frame_rigid (f + H)) as RF.
  destruct Bx as (walls & front & back & main & E & (xp & xn & yp & yn & -> & W1 & W2 & W3 & W4) & Fr & Bk & (Dm & Fo & _)).
  fold (receiver_frame (f + H)) in W1, W2, W3, W4. rewrite E in Es. clear E.
  destruct i as [|[|[|[|[|[|[|i]]]]]]]; cbn in Es; [..|destruct i; discriminate]; injection Es as <-.
  - eapply (one_way_local xp T _ (xw X Y H f 1) _ (V3 (- (1)) 0 0) heff RT); [|idtac|exact W1].
    + intros p. apply wall_placed. intros q. rewrite <- x_walls, Rmult_1_l. tauto.
    + rewrite turned_mm4, frame_turned by auto. cbn. f_equal. veq; ring.
  - eapply (one_way_local xn T _ (xw X Y H f (-1)) _ (V3 (- (-1)) 0 0) heff RT); [|idtac|exact W2].
    + intros p. apply wall_placed. intros q. rewrite <- x_walls. replace (-1 * (X / 2)) with (- (X / 2)) by ring. tauto.
    + rewrite turned_mm4, frame_turned by auto. cbn. f_equal. veq; ring.
  - eapply (one_way_local yp T _ (yw X Y H f (-1)) _ (V3 0 (- (-1)) 0) heff RT); [|idtac|exact W3].
    + intros p. apply wall_placed. intros q. rewrite <- y_walls. replace (- -1 * (Y / 2)) with (Y / 2) by ring. tauto.
    + rewrite turned_mm4, frame_turned by auto. cbn. f_equal. veq; ring.
  - eapply (one_way_local yn T _ (yw X Y H f 1) _ (V3 0 (- (1)) 0) heff RT); [|idtac|exact W4].
    + intros p. apply wall_placed. intros q. rewrite <- y_walls. replace (- (1) * (Y / 2)) with (- (Y / 2)) by ring. tauto.
    + rewrite turned_mm4, frame_turned by auto. cbn. f_equal. veq; ring.
  - eapply (flat_mirror_local front T _ (plate X Y (f + H))); [auto| |reflexivity|reflexivity|exact Fr]. intros p. apply placed_ext. intros q. unfold plate. tauto.
  - eapply (flat_mirror_local back T _ (plate X Y (f + H + tenm 10))); [auto| |reflexivity|reflexivity|exact Bk]. intros p. apply placed_ext. intros q. unfold plate, tenm. tauto.
  - eapply acts_weaken; [exact Dm| |].
    + intros v d x P1 v' d' -> -> S. apply (hit_local T RT). apply P1. exists d'. split; [reflexivity|]. destruct S as [S|S]; [left|right; exact S].
      pose proof (tenm_pos 6) as T6. assert (Q : sqrt f * sqrt f = f) by (apply sqrt_sqrt; lra).
      assert (Sp : 0 < sqrt f) by (apply sqrt_lt_R0; lra).
      replace (vx d' / (2 * sqrt f) * (vx d' / (2 * sqrt f)) + vy d' / (2 * sqrt f) * (vy d' / (2 * sqrt f))) with
        ((vx d' * vx d' + vy d' * vy d') / (4 * (sqrt f * sqrt f))) by (field; lra).
      rewrite Q. apply Rmult_lt_reg_r with (4 * f); [lra|]. replace ((vx d' * vx d' + vy d' * vy d') / (4 * f) * (4 * f)) with (vx d' * vx d' + vy d' * vy d') by (field; lra).
      lra.
    + intros p d e d' e' (-> & q & n & k & Eq & _ & U & En & M) p' dl -> ->. apply app4_inj in Eq; auto. subst q.
      destruct (turned_onto T RT d') as (l & ->). exists l. split; auto. split; auto. exists (vscale k (bowl_normal f p')), k.
      rewrite <- turned_scale in En. subst n. unfold is_unit in *. rewrite turned_unit in U by auto. split; auto. split; auto. exact (mirrored_local T RT _ _ _ M).
Qed.

Lemma own_list : surf_ownership view = [0; 1; 2; 3; 4; 4; 5]%nat.
Proof. reflexivity. Qed.

Lemma asked_next i oi owns next b j r : emitted_by view i oi owns next b j r ->
  forall i', (i' < 7)%nat -> (next_surfaces view oi owns next r i' <-> asks (Some i) i').
Proof.
  intros Eb i' Hi. pose proof Eb as (ob & ri0 & e0 & Eo & _). rewrite own_list in Eo.
  assert (Li : (i' < length (surf_ownership view))%nat) by (rewrite own_list; exact Hi).
  assert (Eown : own i = oi). { unfold own. erewrite nth_error_nth; eauto. }
  assert (On : nth_error (surf_ownership view) i' = Some (own i')).
  { rewrite own_list. do 7 (destruct i' as [|i']; [reflexivity|]). lia. }
  assert (Cs : (exists ns, nth_error view oi = Some (one_sided_object ns)) /\ oi <> 5%nat \/ nth_error view oi = Some (default_object 1) /\ oi = 5%nat).
  { do 7 (destruct i as [|i]; [cbn in Eo; injection Eo as <-; first [left; split; [eexists; reflexivity|discriminate]|right; split; reflexivity]|]).
    destruct i; discriminate. }
  cbn [asks]. rewrite Eown. destruct Cs as [((n1 & Eob) & N5)|(Eob & ->)].
  - destruct (emitted_num _ _ _ _ _ _ _ _ _ _ Eb Eob) as (ri & e & n' & En & Lr & Ow & Nxt).
    destruct (one_sided_object_next view oi n1 e n' ri owns next Eob En Ow Nxt r i' Lr Li) as (_ & Q). rewrite Q, On. split.
    + intros N. right. congruence.
    + intros [N|N]; congruence.
  - destruct (emitted_num _ _ _ _ _ _ _ _ _ _ Eb Eob) as (ri & e & n' & En & Lr & Ow & Nxt).
    destruct (default_object_next view 5 1 e n' ri owns next Eob En Ow Nxt r i' Lr Li) as (_ & Q). split; auto.
Qed.

Definition gstate (me : R) (q : option nat) (v d : vec) (e : R) (k : nat) (o : option (R * vec)) : Prop :=
  exists v' d' o', v = app4 T v' /\ d = turned T d' /\ o = option_map (fun eo => (fst eo, app4 T (snd eo))) o' /\
    lstate X Y H f eff heff me A q v' d' e k o'.

Lemma arriving_taken (os : list (option (R * vec))) (h : R * vec -> R * vec) :
  taken (fun j => option_map h (nth j os None)) (seq 0 (length os)) = map h (arriving os).
Proof.
  induction os as [|o os IH]; auto. cbn [length seq]. unfold taken, arriving in *. cbn [flat_map nth]. rewrite <- seq_shift. rewrite map_app, <- IH. clear IH.
  destruct o; cbn; [f_equal|]; rewrite !flat_map_concat_map, map_map; reflexivity.
Qed.

Variables (r : receiver) (sc : scene).
Hypothesis Now : surface_now (hr_rec r) sc = (sc, Ok (front_of id T (f + H) X Y)).
Hypothesis Sides : hr_sides r = (X, Y).

(** What is seen of what arrives. *)
Lemma strong_arriving me (os : list (option (R * vec))) :
  arriving (map (fun o => match o with Some (e, p) => shown_if me e p | None => None end) os) = strong me (arriving os).
Proof.
  induction os as [|[[e p]|] os IH]; auto. unfold arriving, strong in *. cbn [map flat_map app filter fst]. unfold shown_if at 1.
  destruct (Rlt_dec me e); cbn [app]; [f_equal|]; apply IH.
Qed.

Lemma box_catches : catches view ss id r sc T A X Y H f eff heff.
Proof.
  intros g b n me reps vs ds es ks os Ls Cl Hr Hm Ev Ed Ee Lv Lk Lo St.
  destruct Rc as (Fr & Rw). destruct Rw as (Ans & Sole & Media); [auto| |].
  { intros s Es. destruct Bx as (walls & front & back & main & E & (xp & xn & yp & yn & -> & _) & _ & _ & (_ & _ & W1 & W2 & W3)).
    rewrite E in Es. cbn in Es. injection Es as <-. split; auto. }
  assert (Le : length es = n).
  { destruct Ls as ((_ & (_ & Ra) & _) & _). specialize (Ra Energy). cbn in Ra. rewrite Ee in Ra. cbn in Ra. specialize (Ra _ eq_refl). rewrite map_length in Ra. auto. }
  assert (Ld : length ds = n).
  { destruct Ls as ((_ & (_ & Ra) & _) & _). specialize (Ra Directions). cbn in Ra. rewrite Ed in Ra. cbn in Ra. specialize (Ra _ eq_refl). rewrite !map_length in Ra. auto. }
  set (h := fun eo : R * vec => (fst eo, app4 T (snd eo))).
  set (os' := map (fun o : option (R * vec) => match o with Some (e, p) => shown_if me e p | None => None end) os).
  assert (Lo' : length os' = n) by (unfold os'; rewrite map_length; auto).
  destruct (fates view ss 4 id (front_of id T (f + H) X Y) (Reflective 1) me (fun i => global_hit T (lhit X Y H f A i)) (fun i => global_out T (lout f eff heff i))
    asks (gstate me) Ans Fr eq_refl eq_refl Sole surfaces_act) with (g := g) (source := b) (n := n) (reps := reps)
    (f0 := fun j => (nth j ks 0%nat, option_map h (nth j os' None))) as (st & ens & hs & E & Eh & Ln & Pm); auto.
  - intros i. exact Logic.I.
  - intros i oi owns next bb j r0 Eb i' Hi. rewrite seven in Hi. eapply asked_next; eauto.
  - intros q v d e k o (v' & d' & o' & -> & -> & -> & L).
    destruct (lstep X Y H f eff heff me A HX HY HH Ab He Hm q v' d' e k o' L) as [(i & t & d1 & e1 & A1 & A2 & A3 & A4 & A5 & A6 & A7)|(-> & No)].
    + left. exists i, t, (turned T d1), e1. rewrite seven. split; auto. unfold ahead. rewrite seven. split; auto. split; auto. split; [intros x Q; apply A4; apply Q; auto|].
      split; [intros i' x Hi Ne Aq Q; eapply A5; eauto; apply Q; auto|]. rewrite app_turned by auto. split.
      * intros d2 e2 _ Q. destruct (Q (ray_at v' d' t) d') as (dl & -> & Q'); auto. destruct (A6 _ _ Q') as (-> & ->). auto.
      * destruct A7 as [(-> & -> & Le1)|[(Ni & -> & Le1)|(Ni & Me & k' & -> & L1)]]; auto.
        right. right. split; auto. split; auto. exists k'. split; auto. exists (ray_at v' d' t), d1, o'. auto.
    + right. split; auto. intros i x Hi Aq Q. rewrite seven in Hi. apply (No i x); auto.
  - intros j Hj. cbn [fst snd]. destruct (nth_lt vs j) as (v & Xv); [lia|]. destruct (nth_lt ds j) as (d & Xd); [lia|]. destruct (nth_lt es j) as (e & Xe); [lia|].
    destruct (nth_lt ks j) as (k & Xk); [lia|]. destruct (nth_lt os j) as (o & Xo); [lia|].
    assert (Xo' : nth_error os' j = Some (match o with Some (e, p) => shown_if me e p | None => None end)) by (unfold os'; rewrite nth_error_map, Xo; auto).
    rewrite (nth_error_nth _ _ _ Xk), (nth_error_nth _ _ _ Xo'). destruct (St j v d e k o Xv Xd Xe Xk Xo) as (En & Lr). split; auto.
    assert (V : vert_at b j = Some (app4 T v)) by (unfold vert_at, at_col; rewrite Ev, nth_error_map, Xv; auto).
    assert (D : dir_at b j = Some (turned T d)) by (unfold dir_at, at_col; rewrite Ed, nth_error_map, Xd; auto).
    assert (En' : energy_at b j = Some e) by (unfold energy_at, at_col; rewrite Ee; auto).
    exists (app4 T v), (turned T d), e. do 3 (split; auto). eexists v, d, _. do 2 (split; [reflexivity|]). split; [reflexivity|]. split.
    + destruct Ls as (_ & Lu). destruct (Lu j _ _ D En') as (U & _). unfold is_unit in *. rewrite turned_unit in U; auto.
    + exists o. split; auto.
  - exists st, ens, hs. do 3 (split; auto). cbn [snd] in Pm. rewrite <- Lo', arriving_taken in Pm. unfold os' in Pm. rewrite strong_arriving in Pm. split; [exact Pm|].
    intros bins Hb. pose proof (tenm_pos 6). apply (shows_arrivals r sc id T X Y (f + H) bins (t_g st) ens hs (strong me (arriving os))); auto; try lra.
    intros e' p Ip. apply filter_In in Ip as (Ip & _). unfold arriving in Ip. apply in_flat_map in Ip as ([[e2 p2]|] & Io & Ip); [|destruct Ip].
    destruct Ip as [Ip|[]]. assert (e2 = e') by congruence. assert (p2 = p) by congruence. subst e2 p2. clear Ip.
    apply In_nth_error in Io as (j & Xo). assert (Hj : (j < length os)%nat) by (apply nth_error_Some; congruence).
    destruct (nth_lt vs j) as (v & Xv); [lia|]. destruct (nth_lt ds j) as (d & Xd); [lia|]. destruct (nth_lt es j) as (e & Xe); [lia|]. destruct (nth_lt ks j) as (k & Xk); [lia|].
    destruct (St j v d e k _ Xv Xd Xe Xk Xo) as (En & _). clear - En. inversion En as [| | |m c p0 zx zy qx qy kk U1 U2 U3 U4 Fx Fy U10 U11 Eo]. subst.
    destruct Fx as (Fx & Ex), Fy as (Fy & Ey). split; [|split; [|reflexivity]]; cbn [vx vy]; [rewrite Ex; destruct (Z.even zx)|rewrite Ey; destruct (Z.even zy)]; lra.
Qed.
End Collect.

(** ** Light that comes down the axis *)

Lemma image_crossed W a s : 0 < W -> passes_image W 0 a s -> crosses W a s.
Proof.
  intros HW (Hs & z & E). split; auto. rewrite Rplus_0_l in E. assert (Q : s * Rabs a = Rabs (IZR z + 1 / 2) * W).
  { transitivity (Rabs (s * a)); [rewrite Rabs_mult, (Rabs_right s) by lra; auto|]. rewrite E, Rabs_mult, (Rabs_right W) by lra. auto. }
  setoid_rewrite Q. clear Q.
  destruct (Z_le_gt_dec 0 z) as [P|P].
  - exists (Z.to_nat z). rewrite INR_IZR_INZ, Z2Nat.id by lia. apply IZR_le in P. rewrite Rabs_right by lra. auto.
  - exists (Z.to_nat (- z - 1)). rewrite INR_IZR_INZ, Z2Nat.id, minus_IZR, opp_IZR by lia. assert (z <= -1)%Z as M by lia. apply IZR_le in M.
    rewrite Rabs_left by lra. lra.
Qed.

Lemma down_at v t : ray_at v (V3 0 0 (-1)) t = V3 (vx v) (vy v) (vz v - t).
Proof. unfold ray_at. destruct v. vunfold. veq; ring. Qed.

Lemma ends_course (A : shape) X Y H f eff heff v e k o : 0 < X -> 0 < Y -> 0 < H -> tenm 6 < f -> (forall q, A q -> focal_bowl f q /\ vz q < f) ->
  ends A X Y H f eff heff v e k o -> course A X Y H f eff heff v (V3 0 0 (-1)) e k o.
Proof.
  intros HX HY HH Hf Ab En. pose proof (tenm_pos 10) as T10. pose proof (tenm_pos 6) as T6.
  assert (T10' : tenm 10 < 1). { unfold tenm. rewrite <- Rinv_1. apply Rinv_lt_contravar; lra. }
  assert (Sd : dish_safe f (V3 0 0 (-1))) by (right; cbn; lra).
  destruct En as [Bx By Bz|m r c zx zy qx qy k Nx Am Ex Ey Ez Uc Pr Er Cl Fx Fy ->].
  - apply course_stopped; auto. exists 5%nat. eexists _, _, (vz v - (f + H + tenm 10)). split; [reflexivity|]. split; [discriminate|]. split; [lra|].
    rewrite down_at. split; [cbn; repeat split; lra|]. split; [unfold dot; cbn; lra|]. split.
    + intros i' B' z' s Ni Ne S. rewrite down_at. destruct i' as [|[|[|[|[|[|i']]]]]]; try (destruct i'; discriminate Ni); try congruence; injection Ni as <- <-; cbn; lra.
    + intros s S At. rewrite down_at in At. apply Ab in At as (_ & At). cbn in At. lra.
  - pose proof (Ab _ Am) as (Bm & Zm). unfold focal_bowl in Bm.
    assert (Pm : ray_at v (V3 0 0 (-1)) (vz v - vz m) = m). { rewrite down_at. destruct m. cbn in *. veq; lra. }
    assert (E3 : r * vx c = - vx m /\ r * vy c = - vy m /\ r * vz c = f - vz m).
    { unfold ray_at in Er. destruct m, c. vunfold. injection Er as E1 E2 E3. cbn. lra. }
    destruct E3 as (E1 & E2 & E3).
    assert (U : vx c * vx c + vy c * vy c + vz c * vz c = 1) by (unfold is_unit, norm2, dot in Uc; exact Uc).
    assert (Z0 : 0 <= vz m) by (apply Rmult_le_reg_l with (4 * f); [lra|]; rewrite Bm, Rmult_0_r; nra).
    assert (Rr : r = vz m + f).
    { assert (Q : r * r = (vz m + f) * (vz m + f)).
      { replace (r * r) with (r * vx c * (r * vx c) + r * vy c * (r * vy c) + r * vz c * (r * vz c)) by (transitivity (r * r * (vx c * vx c + vy c * vy c + vz c * vz c)); [ring|rewrite U; ring]).
        rewrite E1, E2, E3. lra. }
      assert (Q2 : (r - (vz m + f)) * (r + (vz m + f)) = 0) by lra. apply Rmult_integral in Q2 as [Q2|Q2]; lra. }
    apply (course_in _ _ _ _ _ _ _ _ _ _ m c (V3 0 0 f) zx zy qx qy); auto.
    + set (g := 4 * f * (vz m + f)). assert (Pg : 0 < g) by (apply Rmult_lt_0_compat; lra).
      assert (Sg : sqrt g * sqrt g = g) by (apply sqrt_sqrt; lra). assert (Sp : 0 < sqrt g) by (apply sqrt_lt_R0; auto).
      assert (Kg : / sqrt g * / sqrt g = / g) by (rewrite <- Sg at 3; field; lra).
      assert (Un : is_unit (vscale (/ sqrt g) (bowl_normal f m))).
      { unfold is_unit, norm2, dot, bowl_normal. cbn. transitivity (/ sqrt g * / sqrt g * (vx m * vx m + vy m * vy m + 4 * f * f)); [ring|].
        rewrite Kg, <- Bm. unfold g. field. lra. }
      exists (vz v - vz m), (vscale (/ sqrt g) (bowl_normal f m)), (/ sqrt g). split; [lra|]. split; auto. split; auto. split; [|split; [|split; [auto|split; auto]]].
      * intros B z s Ib _ Bs. rewrite down_at in Bs. apply Nx. cbn [In sides] in Ib.
        destruct Ib as [Ib|[Ib|[Ib|[Ib|[Ib|[Ib|[]]]]]]]; injection Ib as <- <-; cbn in Bs; lra.
      * intros s S At. rewrite down_at in At. apply Ab in At as (At & _). unfold focal_bowl in At. cbn in At. rewrite <- Ex, <- Ey, <- Bm in At.
        assert (Q : 4 * f * (vz v - s - vz m) = 0) by lra. apply Rmult_integral in Q as [Q|Q]; lra.
      * assert (Ec : c = vsub (V3 0 0 (-1)) (vscale (2 * dot (V3 0 0 (-1)) (vscale (/ sqrt g) (bowl_normal f m))) (vscale (/ sqrt g) (bowl_normal f m)))).
        { assert (Ef : 4 * f * / g = / r) by (rewrite Rr; unfold g; field; lra).
          unfold bowl_normal, dot. destruct c as [c1 c2 c3]. cbn [vx vy vz] in *. vunfold. veq.
          - transitivity (- (4 * f * (/ sqrt g * / sqrt g)) * vx m); [|ring]. rewrite Kg, Ef. replace (vx m) with (- (r * c1)) by lra. field. lra.
          - transitivity (- (4 * f * (/ sqrt g * / sqrt g)) * vy m); [|ring]. rewrite Kg, Ef. replace (vy m) with (- (r * c2)) by lra. field. lra.
          - transitivity (-1 + 2 * f * (4 * f * (/ sqrt g * / sqrt g))); [|ring]. rewrite Kg, Ef. apply Rmult_eq_reg_l with r; [|lra]. rewrite E3. replace (vz m) with (r - f) by lra. field. lra. }
        set (n := vscale (/ sqrt g) (bowl_normal f m)) in *. rewrite Ec. split.
        -- unfold is_unit, norm2 in Un. transitivity (dot (V3 0 0 (-1)) n - 2 * dot (V3 0 0 (-1)) n * dot n n); [|rewrite Un; ring]. destruct n. unfold dot. vunfold. cbn. ring.
        -- unfold tangential. unfold is_unit, norm2 in Un. set (a := dot (V3 0 0 (-1)) n).
           assert (Q : dot (vsub (V3 0 0 (-1)) (vscale (2 * a) n)) n = - a).
           { transitivity (a - 2 * a * dot n n); [|rewrite Un; ring]. unfold a. destruct n. unfold dot. vunfold. cbn. ring. }
           rewrite Q. destruct n. vunfold. veq; ring.
    + exists r. split; [lra|]. split; [auto|]. cbn. split; auto. split; [lra|]. split; [lra|]. intros s S At. apply Ab in At as (At & _).
      unfold focal_bowl, ray_at in At. assert (Q : 4 * f * (vz m + s * vz c) = (vx m + s * vx c) * (vx m + s * vx c) + (vy m + s * vy c) * (vy m + s * vy c)) by (destruct m, c; vunfold; cbn in *; exact At).
      clear At. replace (vz m + s * vz c) with (vz m + s / r * (f - vz m)) in Q by (rewrite <- E3; field; lra).
      replace (vx m + s * vx c) with (vx m * (1 - s / r)) in Q by (replace (vx m) with (- (r * vx c)) by lra; field; lra).
      replace (vy m + s * vy c) with (vy m * (1 - s / r)) in Q by (replace (vy m) with (- (r * vy c)) by lra; field; lra).
      assert (W0 : 0 < s / r) by (apply Rdiv_lt_0_compat; lra). assert (W1 : s / r <= 1) by (apply Rmult_le_reg_r with r; [lra|]; replace (s / r * r) with s by (field; lra); lra).
      set (w := s / r) in *. replace (vx m * (1 - w) * (vx m * (1 - w)) + vy m * (1 - w) * (vy m * (1 - w))) with (4 * f * vz m * ((1 - w) * (1 - w))) in Q by (rewrite Bm; ring).
      assert (Q' : 4 * f * w * (f + vz m * (1 - w)) = 0) by lra.
      assert (0 < 4 * f * w) by (apply Rmult_lt_0_compat; lra). assert (0 <= vz m * (1 - w)) by (apply Rmult_le_pos; lra).
      assert (0 < 4 * f * w * (f + vz m * (1 - w))) by (apply Rmult_lt_0_compat; lra). lra.
    + destruct Cl as (C1 & C2 & C3 & C4 & C5). unfold clear_inside. cbn [vx vy]. do 2 (split; auto). split; [|split].
      * intros s C. apply C3, image_crossed; auto.
      * intros s C. apply C4, image_crossed; auto.
      * intros s s' C C'. apply C5; apply image_crossed; auto.
    + cbn [vx]. rewrite Rplus_0_l. auto.
    + cbn [vy]. rewrite Rplus_0_l. auto.
Qed.

Lemma strong_all me (arr : list (R * vec)) : (forall e p, In (e, p) arr -> me < e) -> strong me arr = arr.
Proof.
  induction arr as [|(e & p) arr IH]; intros S; auto. unfold strong in *. cbn [filter fst]. destruct (Rlt_dec me e) as [L|L].
  - f_equal. apply IH. intros e' p' I. apply (S e' p'). right. auto.
  - exfalso. apply L, (S e p). left. auto.
Qed.

Lemma catches_collects view ss id r sc T (A : shape) X Y H f eff heff : 0 < X -> 0 < Y -> 0 < H -> tenm 6 < f -> (forall q, A q -> focal_bowl f q /\ vz q < f) ->
  catches view ss id r sc T A X Y H f eff heff -> collects view ss id r sc T A X Y H f eff heff.
Proof.
  intros HX HY HH Hf Ab C g b n me reps vs es ks os Ls Cl Hr Hm Ev Ed Ee Lv Lk Lo St.
  assert (Sa : strong me (arriving os) = arriving os).
  { apply strong_all. intros e p Ip. unfold arriving in Ip. apply in_flat_map in Ip as ([[e2 p2]|] & Io & Ip); [|destruct Ip].
    destruct Ip as [Ip|[]]. assert (e2 = e) by congruence. assert (p2 = p) by congruence. subst e2 p2. clear Ip.
    assert (Le : length es = n).
    { destruct Ls as ((_ & (_ & Ra) & _) & _). specialize (Ra Energy). cbn in Ra. rewrite Ee in Ra. cbn in Ra. specialize (Ra _ eq_refl). rewrite map_length in Ra. auto. }
    apply In_nth_error in Io as (j & Xo). assert (Hj : (j < length os)%nat) by (apply nth_error_Some; congruence).
    destruct (nth_lt vs j) as (v & Xv); [lia|]. destruct (nth_lt es j) as (e0 & Xe); [lia|]. destruct (nth_lt ks j) as (k & Xk); [lia|].
    destruct (St j v e0 k _ Xv Xe Xk Xo) as (_ & _ & Me). eapply Me. reflexivity. }
  rewrite <- Sa. apply (C g b n me reps vs (map (fun _ => V3 0 0 (-1)) vs) es ks os); auto.
  - rewrite Ed, map_map. auto.
  - intros j v d e k o Xv Xd Xe Xk Xo. rewrite nth_error_map, Xv in Xd. cbn [option_map] in Xd. assert (d = V3 0 0 (-1)) by congruence. subst d.
    destruct (St j v e k o Xv Xe Xk Xo) as (En & Lr & _). split; auto. apply ends_course; auto.
Qed.
