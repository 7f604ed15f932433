(** The tower plant: the way of the light. *)
From Coq Require Import Reals String List Arith Bool Lia Lra Sorted.
From Verif.Base Require Import Py Num Vec.
From Verif.Model Require Import RayBundle Geometry TraceTree OpticsCallables Engine Objects Surface Assembly Scene Models Tower.
From Verif.Proof Require Import ListLemmas NumLemmas VecLemmas FlatProof BundleProof ProcessProof CallProof SurfaceProof LibraryTop TraceTop ObjectProof ObjectTrace
  AccountProof AnswerProof ActProof AimProof RelayProof.
From Verif.Spec Require Import BundleSpec EngineSpec GeometrySpec GeomIface OpticsSpec LibrarySpec AccountSpec ModelSpec TowerSpec.
Import ListNotations.
Local Open Scope R_scope.

(** ** Plates *)

Lemma plate_point w h frame p : 0 < w -> 0 < h -> rigid frame -> placed frame (rectangle w h) p ->
  norm2 (vsub p (app4 frame vzero)) <= reach w h /\ dot (vsub p (app4 frame vzero)) (z_of frame) = 0.
Proof.
  intros Hw Hh (r & t & -> & O) (q & (Qz & Qx & Qy) & ->). rewrite app_zero, app4_mk4, z_of_mk4.
  replace (vsub (vadd (mv3 r q) t) t) with (mv3 r q) by (destruct (mv3 r q), t; vunfold; veq; ring).
  split.
  - rewrite orthonormal_norm2 by auto. destruct q as [x y z]. cbn in Qz, Qx, Qy. subst z. unfold reach. vunfold. nra.
  - rewrite <- (z_of_mk4 r t). unfold z_of. rewrite rot_mk4, dot_mv3, tr3_mv3 by auto.
    destruct q as [x y z]. cbn in Qz. subst z. vunfold. ring.
Qed.
Lemma plate_centre w h frame : 0 < w -> 0 < h -> placed frame (rectangle w h) (app4 frame vzero).
Proof. intros Hw Hh. exists vzero. split; auto. unfold rectangle, vzero. cbn. lra. Qed.

Lemma flat_hit w h frame v d t x : 0 < w -> 0 < h -> rigid frame -> meets_flat (placed frame (rectangle w h)) (z_of frame) v d x ->
  tenm 10 < Rabs (dot d (z_of frame)) -> 0 <= t -> ray_at v d t = app4 frame vzero -> x = Fin t.
Proof.
  intros Hw Hh Rf (M & _) N Ht Et. specialize (M N). unfold first_hit0, least in M.
  assert (In_ : 0 <= t /\ placed frame (rectangle w h) (ray_at v d t)) by (rewrite Et; split; auto; apply plate_centre; auto).
  destruct x as [s| | |]; try contradiction; [|exfalso; exact (M t In_)].
  destruct M as ((Hs & Hp) & Mn). f_equal. destruct (plate_point w h frame _ Hw Hh Rf Hp) as (_ & D).
  rewrite <- Et in D.
  assert (E : vsub (ray_at v d s) (ray_at v d t) = vscale (s - t) d) by (unfold ray_at; destruct v, d; vunfold; veq; ring).
  rewrite E in D. replace (dot (vscale (s - t) d) (z_of frame)) with ((s - t) * dot d (z_of frame)) in D
    by (destruct d, (z_of frame); vunfold; ring).
  apply Rmult_integral in D as [D|D]; [lra|]. rewrite D, Rabs_R0 in N. pose proof (tenm_pos 10). lra.
Qed.

Lemma flat_miss A z v d x e : meets_flat A z v d x -> (forall s, 0 <= s <= e -> ~ A (ray_at v d s)) ->
  x = PInf \/ exists t, x = Fin t /\ e < t.
Proof.
  intros (M & M') H. destruct (Rlt_dec (tenm 10) (Rabs (dot d z))) as [N|N]; [|left; auto].
  specialize (M N). unfold first_hit0, least in M. destruct x as [t| | |]; try contradiction; auto.
  right. exists t. split; auto. destruct M as ((Ht & Hp) & _). destruct (Rle_dec t e); [exfalso; apply (H t); auto|lra].
Qed.

(** ** Reports *)

Lemma report_acts surfs prev n T tb i j s Hit Out x v d : reported surface_ops surfs prev n T tb ->
  nth_error surfs i = Some s -> acts s Hit Out -> T i j = Some x -> vert_at prev j = Some v -> dir_at prev j = Some d -> Hit v d x.
Proof.
  intros (Ht & Hp & Hr & Ha) Hs Ac HT V D. destruct (Hr i j) as (_ & Hj); [congruence|].
  assert (Hin : In j (asked T n i)) by (apply asked_in; split; auto; congruence).
  destruct (Ha i s Hs) as (s' & [(E & _)|(_ & sub & ps & Hn & Hsub & Hreg & HF)]).
  { rewrite E in Hin. destruct Hin. }
  destruct (In_nth_error _ _ Hin) as (q & Hq).
  pose proof (picked_traceable tb _ sub n Ht Hn Hsub) as Tsub.
  destruct (Ac sub _ Tsub) as (s1 & ps' & Rg & Lps & HH & _). cbn [surface_ops register_incoming] in Hreg.
  rewrite Hreg in Rg. injection Rg as <- <-.
  destruct (nth_lt ps q) as (y & Ey). { rewrite Lps. apply nth_error_Some. congruence. }
  pose proof (Forall2_at _ _ _ _ _ _ HF Hq Ey) as X. cbv beta in X. assert (y = x) by congruence. subst y.
  pose proof (picked_same _ _ _ _ _ Hsub Hq) as S1.
  assert (S2 : same_ray tb j prev j).
  { eapply picked_same; [exact Hp|]. rewrite nth_error_nth' with (d := 0%nat) by (rewrite seq_length; auto). rewrite seq_nth; auto. }
  apply (HH q v d x); auto.
  - rewrite (same_ray_vert _ _ _ _ S1), (same_ray_vert _ _ _ _ S2). auto.
  - rewrite (same_ray_dir _ _ _ _ S1), (same_ray_dir _ _ _ _ S2). auto.
Qed.

Lemma goes_intro T nsurf n who len :
  (forall j, (j < n)%nat -> (who j < nsurf)%nat /\ T (who j) j = Some (Fin (len j)) /\ tenm 6 < len j) ->
  (forall i j, (i < nsurf)%nat -> (j < n)%nat -> i <> who j ->
     T i j = None \/ T i j = Some PInf \/ exists t, T i j = Some (Fin t) /\ len j < t) ->
  goes_to T nsurf n who len.
Proof.
  intros H1 H2 i j t. split.
  - intros (Hi & Hj & Ht & _ & Mn). split; auto. destruct (H1 j Hj) as (Hw & Tw & Lw).
    destruct (Nat.eq_dec i (who j)) as [->|Ne]; [split; auto; congruence|]. exfalso.
    specialize (Mn (who j) Hw). rewrite Tw in Mn.
    destruct (H2 i j Hi Hj Ne) as [E|[E|(t' & E & L)]]; try congruence. assert (t' = t) by congruence. subst t'.
    destruct Mn as [(_ & Dn)|Mn]; lra.
  - intros (Hj & -> & ->). destruct (H1 j Hj) as (Hw & Tw & Lw). split; auto. split; auto. split; auto. split.
    { intros (_ & Dn). lra. }
    intros i' Hi'. destruct (Nat.eq_dec i' (who j)) as [->|Ne]; [rewrite Tw; right; lra|].
    destruct (H2 i' j Hi' Hj Ne) as [->|[->|(t' & -> & L)]]; auto. right. lra.
Qed.

(** ** Directions *)

Lemma distance_pos p q : 0 < distance p q -> norm2 (vsub q p) = distance p q * distance p q.
Proof. intros H. unfold distance in *. rewrite sqrt_sqrt; auto. apply norm2_nonneg. Qed.

Lemma direction_to p q d k : is_unit d -> 0 < k -> ray_at p d k = q -> k = distance p q /\ d = direction p q.
Proof.
  intros U K E. assert (Ev : vsub q p = vscale k d) by (subst q; unfold ray_at; destruct p, d; vunfold; veq; ring).
  assert (Ed : distance p q = k).
  { unfold distance. rewrite Ev. replace (norm2 (vscale k d)) with (k * k * norm2 d) by (destruct d; vunfold; ring).
    unfold is_unit in U. rewrite U, Rmult_1_r. apply sqrt_square. lra. }
  split; auto. unfold direction. rewrite Ed, Ev. destruct d. vunfold. veq; field; lra.
Qed.
Lemma direction_ray p q : 0 < distance p q -> ray_at p (direction p q) (distance p q) = q /\ is_unit (direction p q) /\
  forall s, ray_at p (direction p q) (s * distance p q) = vadd p (vscale s (vsub q p)).
Proof.
  intros D. unfold ray_at, direction. split; [destruct p, q; vunfold; veq; field; lra|]. split.
  - unfold is_unit. replace (norm2 (vscale (/ distance p q) (vsub q p))) with (/ distance p q * / distance p q * norm2 (vsub q p)) by (vunfold; ring).
    rewrite distance_pos by auto. field. lra.
  - intros s. destruct p, q; vunfold; veq; field; lra.
Qed.

(** How far from edge-on a mirror is. *)
Lemma tilt sun z d : is_unit sun -> is_unit z -> mirrored z (vopp sun) d ->
  norm2 (vadd sun d) = 4 * (dot (vopp sun) z * dot (vopp sun) z).
Proof.
  intros Us Uz (A & B). unfold tangential in B.
  assert (E : vadd sun d = vscale (2 * dot d z) z).
  { rewrite A in B |- *. destruct sun as [a b c], d as [x y u], z as [p q r]. vunfold. injection B as B1 B2 B3. veq; lra. }
  rewrite E. replace (norm2 (vscale (2 * dot d z) z)) with (4 * (dot d z * dot d z) * norm2 z) by (destruct z; vunfold; ring).
  unfold is_unit in Uz. rewrite Uz, A. ring.
Qed.

(** ** The trace *)
Section Relay.
Variables (ps : list vec) (ms : list surface) (front back : surface) (Af Ab : shape) (Ob : vec -> vec -> R -> vec -> R -> Prop)
  (target sun : vec) (w h X Y a : R) (id : nat).
Let surfs := ms ++ [front; back].
Let n := length ps.
Let objs := repeat (one_sided_object 1) n ++ [one_sided_object 2].
Hypothesis Hw : 0 < w.
Hypothesis Hh : 0 < h.
Hypothesis Us : is_unit sun.
Hypothesis Am : Forall2 (fun p s => aims s p sun target w h (1 - a)) ps ms.
Hypothesis Fr : flat_mirror front Af (V3 1 0 0) 0.
Hypothesis Bk : acts back (meets_flat Ab (V3 1 0 0)) Ob.
Hypothesis Af_in : forall q, Af q <-> vx q = vx target /\ - (X / 2) <= vz q - vz target <= X / 2 /\ - (Y / 2) <= vy q - vy target <= Y / 2.
Hypothesis Ab_in : forall q, Ab q -> vx q = vx target - tenm 10 /\ - (X / 2) <= vz q - vz target <= X / 2 /\ - (Y / 2) <= vy q - vy target <= Y / 2.
Hypothesis HX : 0 < X.
Hypothesis HY : 0 < Y.
Hypothesis Free : free_ways ps target sun w h X Y.
Hypothesis Npos : ps <> [].
Hypothesis Ans : answering_assembly objs surfs.
Hypothesis Media : forall b, knows_media surfs b.
Hypothesis Facc : s_opt front = Accountant id (Reflective 1).
Hypothesis Sole : sole_account surfs n id.


Definition pos (j : nat) : vec := nth j ps vzero.
Lemma pos_at j : (j < n)%nat -> nth_error ps j = Some (pos j) /\ In (pos j) ps.
Proof. intros Hj. split; [apply nth_error_nth'; auto|apply nth_In; auto]. Qed.
Lemma ms_len : length ms = n.
Proof. symmetry. exact (Forall2_length _ _ _ Am). Qed.
Lemma nsurf : length surfs = (n + 2)%nat.
Proof. unfold surfs. rewrite app_length, ms_len. reflexivity. Qed.
Lemma mirror_at j : (j < n)%nat -> exists s, nth_error surfs j = Some s /\ aims s (pos j) sun target w h (1 - a).
Proof.
  intros Hj. destruct (nth_lt ms j) as (s & Es); [rewrite ms_len; auto|]. exists s. split.
  - unfold surfs. rewrite nth_error_app1; auto. rewrite ms_len. auto.
  - exact (Forall2_at _ _ _ _ _ _ Am (proj1 (pos_at j Hj)) Es).
Qed.
Lemma front_at : nth_error surfs n = Some front.
Proof. unfold surfs. rewrite nth_error_app2; rewrite ms_len; auto. rewrite Nat.sub_diag. reflexivity. Qed.
Lemma back_at : nth_error surfs (n + 1) = Some back.
Proof. unfold surfs. rewrite nth_error_app2; rewrite ms_len; [|lia]. replace (n + 1 - n)%nat with 1%nat by lia. reflexivity. Qed.
Lemma n_pos : (0 < n)%nat.
Proof. unfold n. destruct ps; [congruence|simpl; lia]. Qed.

(** Seen along its normal no mirror is a line. *)
Lemma not_edge_on s p : In p ps -> aims s p sun target w h (1 - a) ->
  exists frame, rigid frame /\ app4 frame vzero = p /\ one_way_mirror s (placed frame (rectangle w h)) (z_of frame) (1 - a) /\
    tenm 10 < - dot (vopp sun) (z_of frame) /\
    forall d', mirrored (z_of frame) (vopp sun) d' -> d' = direction p target.
Proof.
  intros Ip (frame & Rf & Ef & _ & Ow & Dz & (d0 & M0) & Ai). exists frame. split; auto. split; auto. split; auto.
  assert (Di : forall d', mirrored (z_of frame) (vopp sun) d' -> d' = direction p target).
  { intros d' M'. destruct (Ai d' M') as (U & k & K & E). eapply direction_to; eauto. }
  split; auto. pose proof (fw_tilt _ _ _ _ _ _ _ Free p Ip) as Ti. rewrite <- (Di d0 M0) in Ti.
  rewrite (tilt sun (z_of frame) d0) in Ti by (auto; apply z_of_unit; auto).
  set (c := dot (vopp sun) (z_of frame)) in *. replace (4 * (c * c)) with ((2 * - c) * (2 * - c)) in Ti by ring.
  rewrite sqrt_square in Ti; lra.
Qed.

Lemma receiver_far p q : In p ps -> norm2 (vsub q target) <= reach X Y + tenm 10 * tenm 10 ->
  forall s, 0 <= s <= 1 -> ray_at (vadd p sun) (vopp sun) s <> q.
Proof.
  intros Ip Hq s Hs E. pose proof (fw_receiver _ _ _ _ _ _ _ Free p Ip s Hs) as F.
  replace (vadd (vadd p sun) (vscale s (vsub p (vadd p sun)))) with q in F; [lra|].
  rewrite <- E. unfold ray_at. destruct p, sun. vunfold. veq; ring.
Qed.
Lemma front_near q : Af q -> norm2 (vsub q target) <= reach X Y + tenm 10 * tenm 10.
Proof.
  intros A. apply Af_in in A as (A & B & C). pose proof (tenm_pos 10). destruct q as [x y z], target as [x0 y0 z0]. cbn in A, B, C.
  unfold reach. vunfold. rewrite A. nra.
Qed.
Lemma back_near q : Ab q -> norm2 (vsub q target) <= reach X Y + tenm 10 * tenm 10.
Proof.
  intros A. apply Ab_in in A as (A & B & C). pose proof (tenm_pos 10). destruct q as [x y z], target as [x0 y0 z0]. cbn in A, B, C.
  unfold reach. vunfold. rewrite A. nra.
Qed.

Lemma mirror_missed p q frame v d e x : In p ps -> rigid frame -> app4 frame vzero = q ->
  meets_flat (placed frame (rectangle w h)) (z_of frame) v d x ->
  (forall s, 0 <= s <= e -> reach w h < norm2 (vsub (ray_at v d s) q)) -> x = PInf \/ exists t, x = Fin t /\ e < t.
Proof.
  intros Ip Rf Ef M H. eapply flat_miss; [exact M|]. intros s Hs Q. destruct (plate_point w h frame _ Hw Hh Rf Q) as (L & _).
  rewrite Ef in L. specialize (H s Hs). lra.
Qed.

(** Level 0: every ray comes to its own mirror. *)
Lemma sun_rays prev T tb : reported surface_ops surfs prev n T tb ->
  (forall i j, (i < length surfs)%nat -> (j < n)%nat -> T i j <> None) ->
  (forall j, (j < n)%nat -> vert_at prev j = Some (vadd (pos j) sun) /\ dir_at prev j = Some (vopp sun)) ->
  goes_to T (length surfs) n (fun j => j) (fun _ => 1).
Proof.
  intros Rp As Src.
  assert (Six : tenm 6 < 1).
  { unfold tenm. rewrite <- Rinv_1. apply Rinv_lt_contravar; simpl; lra. }
  apply goes_intro.
  - intros j Hj. rewrite nsurf. split; [lia|]. split; auto. destruct (mirror_at j Hj) as (s & Es & Ai). destruct (Src j Hj) as (V & D).
    destruct (not_edge_on s (pos j) (proj2 (pos_at j Hj)) Ai) as (frame & Rf & Ef & Ow & Dz & _).
    destruct (T j j) as [x|] eqn:Ex; [|exfalso; apply (As j j); auto; rewrite nsurf; lia].
    pose proof (report_acts _ _ _ _ _ _ _ _ _ _ _ _ _ Rp Es Ow Ex V D) as M. f_equal.
    eapply flat_hit; [exact Hw|exact Hh|exact Rf|exact M| |lra|].
    + rewrite Rabs_left; pose proof (tenm_pos 10); lra.
    + rewrite Ef. unfold ray_at. destruct (pos j), sun. vunfold. veq; ring.
  - intros i j Hi Hj Ne. destruct (Src j Hj) as (V & D). destruct (T i j) as [x|] eqn:Ex; [right|auto].
    assert (K : x = PInf \/ exists t, x = Fin t /\ 1 < t); [|destruct K as [->|(t & -> & K)]; eauto].
    destruct (Nat.lt_ge_cases i n) as [Li|Gi].
    + destruct (mirror_at i Li) as (s & Es & (frame & Rf & Ef & _ & Ow & _)).
      pose proof (report_acts _ _ _ _ _ _ _ _ _ _ _ _ _ Rp Es Ow Ex V D) as M.
      apply (mirror_missed (pos j) (pos i) frame _ _ 1 x (proj2 (pos_at j Hj)) Rf Ef M). intros s0 Hs0.
      pose proof (fw_in _ _ _ _ _ _ _ Free j i _ _ (proj1 (pos_at j Hj)) (proj1 (pos_at i Li)) ltac:(auto) s0 Hs0) as F.
      replace (ray_at (vadd (pos j) sun) (vopp sun) s0) with (vadd (vadd (pos j) sun) (vscale s0 (vsub (pos j) (vadd (pos j) sun)))); auto.
      unfold ray_at. destruct (pos j), sun. vunfold. veq; ring.
    + assert (i = n \/ i = (n + 1)%nat) as [->| ->] by (rewrite nsurf in Hi; lia).
      * pose proof (report_acts _ _ _ _ _ _ _ _ _ _ _ _ _ Rp front_at Fr Ex V D) as M. eapply flat_miss; [exact M|].
        intros s Hs Q. apply (receiver_far (pos j) _ (proj2 (pos_at j Hj)) (front_near _ Q) s Hs eq_refl).
      * pose proof (report_acts _ _ _ _ _ _ _ _ _ _ _ _ _ Rp back_at Bk Ex V D) as M. eapply flat_miss; [exact M|].
        intros s Hs Q. apply (receiver_far (pos j) _ (proj2 (pos_at j Hj)) (back_near _ Q) s Hs eq_refl).
Qed.

(** Level 1: every ray comes to the middle of the receiver. *)
Lemma to_receiver j : (j < n)%nat -> 0 < distance (pos j) target /\
  dot (direction (pos j) target) (V3 1 0 0) < - tenm 10.
Proof.
  intros Hj. pose proof (fw_apart _ _ _ _ _ _ _ Free _ (proj2 (pos_at j Hj))) as Ap. pose proof (tenm_pos 6).
  assert (D : 0 < distance (pos j) target) by lra. split; auto.
  pose proof (fw_side _ _ _ _ _ _ _ Free _ (proj2 (pos_at j Hj))) as Sd. unfold direction. set (k := distance (pos j) target) in *.
  replace (dot (vscale (/ k) (vsub target (pos j))) (V3 1 0 0)) with (- ((vx (pos j) - vx target) / k)) by (destruct target, (pos j); vunfold; field; lra).
  apply Ropp_lt_contravar. apply (Rmult_lt_reg_r k); auto. unfold Rdiv. rewrite Rmult_assoc, Rinv_l by lra. lra.
Qed.

Lemma mirror_rays prev T tb : reported surface_ops surfs prev n T tb ->
  (forall i j, (i < length surfs)%nat -> (j < n)%nat -> (T i j <> None <-> i <> j)) ->
  (forall j, (j < n)%nat -> vert_at prev j = Some (pos j) /\ dir_at prev j = Some (direction (pos j) target)) ->
  goes_to T (length surfs) n (fun _ => n) (fun j => distance (pos j) target).
Proof.
  intros Rp As Src. apply goes_intro.
  - intros j Hj. rewrite nsurf. split; [lia|]. pose proof (fw_apart _ _ _ _ _ _ _ Free _ (proj2 (pos_at j Hj))) as Ap. split; auto.
    destruct (Src j Hj) as (V & D). destruct (to_receiver j Hj) as (Dp & Dx). destruct (direction_ray _ _ Dp) as (Er & _).
    destruct (T n j) as [x|] eqn:Ex.
    2:{ exfalso. apply (proj2 (As n j ltac:(rewrite nsurf; lia) Hj)); auto. lia. }
    pose proof (report_acts _ _ _ _ _ _ _ _ _ _ _ _ _ Rp front_at Fr Ex V D) as (M & _). f_equal.
    assert (Na : tenm 10 < Rabs (dot (direction (pos j) target) (V3 1 0 0))) by (pose proof (tenm_pos 10); rewrite Rabs_left; lra).
    specialize (M Na). unfold first_hit0, least in M.
    assert (In_ : 0 <= distance (pos j) target /\ Af (ray_at (pos j) (direction (pos j) target) (distance (pos j) target))).
    { split; [lra|]. rewrite Er. apply Af_in. lra. }
    destruct x as [s| | |]; try contradiction; [|exfalso; exact (M _ In_)].
    destruct M as ((Hs & Hp) & _). f_equal. apply Af_in in Hp as (Hp & _). pose proof (f_equal vx Er) as Ep.
    unfold ray_at in Hp, Ep. set (d := direction (pos j) target) in *. set (k := distance (pos j) target) in *.
    clearbody d k. destruct d as [dx dy dz], (pos j) as [px py pz]. vunfold.
    assert (Z : (s - k) * dx = 0) by lra. apply Rmult_integral in Z as [Z|Z]; [lra|]. pose proof (tenm_pos 10). lra.
  - intros i j Hi Hj Ne. destruct (Src j Hj) as (V & D). destruct (T i j) as [x|] eqn:Ex; [right|auto].
    destruct (to_receiver j Hj) as (Dp & Dx). destruct (direction_ray _ _ Dp) as (Er & _ & Es').
    assert (K : x = PInf \/ exists t, x = Fin t /\ distance (pos j) target < t); [|destruct K as [->|(t & -> & K)]; eauto].
    destruct (Nat.lt_ge_cases i n) as [Li|Gi].
    + assert (Nij : i <> j) by (apply (As i j Hi Hj); congruence).
      destruct (mirror_at i Li) as (s & Es & (frame & Rf & Ef & _ & Ow & _)).
      pose proof (report_acts _ _ _ _ _ _ _ _ _ _ _ _ _ Rp Es Ow Ex V D) as M.
      apply (mirror_missed (pos j) (pos i) frame _ _ (distance (pos j) target) x (proj2 (pos_at j Hj)) Rf Ef M). intros s0 Hs0.
      assert (Hs1 : 0 <= s0 / distance (pos j) target <= 1).
      { split; [apply Rmult_le_pos; [lra|]; left; apply Rinv_0_lt_compat; auto|].
        apply (Rmult_le_reg_r (distance (pos j) target)); auto. unfold Rdiv. rewrite Rmult_assoc, Rinv_l by lra. lra. }
      pose proof (fw_out _ _ _ _ _ _ _ Free j i _ _ (proj1 (pos_at j Hj)) (proj1 (pos_at i Li)) ltac:(auto) _ Hs1) as F.
      rewrite <- Es' in F. replace (s0 / distance (pos j) target * distance (pos j) target) with s0 in F by (field; lra). auto.
    + assert (i = (n + 1)%nat) as -> by (rewrite nsurf in Hi; lia).
      pose proof (report_acts _ _ _ _ _ _ _ _ _ _ _ _ _ Rp back_at Bk Ex V D) as M. eapply flat_miss; [exact M|].
      intros s Hs Q. apply Ab_in in Q as (Q & _). pose proof (f_equal vx Er) as Ex'. unfold ray_at in Q, Ex'.
      set (d := direction (pos j) target) in *. set (k := distance (pos j) target) in *.
      clearbody d k. destruct d as [dx dy dz], (pos j) as [px py pz]. vunfold. pose proof (tenm_pos 10).
      assert (k * dx <= s * dx) by nra. lra.
Qed.

Lemma ownership : surf_ownership objs = seq 0 n ++ [n; n].
Proof.
  unfold surf_ownership, objs. rewrite app_length, repeat_length. cbn [length].
  assert (G : forall k m, concat (map (fun ko => repeat (fst ko) (o_nsurf (snd ko)))
    (combine (seq m (k + 1)) (repeat (one_sided_object 1) k ++ [one_sided_object 2]))) = seq m k ++ [(m + k)%nat; (m + k)%nat]).
  { induction k as [|k IH]; intros m; cbn [Nat.add seq repeat app combine map concat fst snd o_nsurf one_sided_object].
    - rewrite Nat.add_0_r. reflexivity.
    - rewrite IH. cbn. replace (S (m + k)) with (m + S k)%nat by lia. reflexivity. }
  apply (G n 0%nat).
Qed.
Lemma objs_at o : (o < n)%nat -> nth_error objs o = Some (one_sided_object 1).
Proof.
  intros H. unfold objs. rewrite nth_error_app1 by (rewrite repeat_length; auto). clear - H. revert o H.
  generalize n. induction n0; intros [|o] H; try lia; cbn; auto. apply IHn0. lia.
Qed.

Definition source : bundle :=
  mkB (Some (map (fun p => vadd p sun) ps)) (Some (map (fun _ => vopp sun) ps)) (Some (map (fun _ => 1) ps)) None None [].
Lemma source_ok : library_source source n.
Proof.
  split.
  - split; [|split; [|split; discriminate]].
    + unfold names_ok, source. cbn. constructor.
    + split; [eexists; reflexivity|]. intros p l H. destruct p; cbn in H; try discriminate; injection H as <-; rewrite !map_length; reflexivity.
  - intros k d e D En. unfold dir_at, energy_at, at_col in D, En. cbn in D, En. rewrite nth_error_map in D, En.
    destruct (nth_error ps k); [|discriminate]. injection D as <-. injection En as <-. split; [|split; [lra|discriminate]].
    unfold is_unit in *. rewrite <- Us. destruct sun. vunfold. ring.
Qed.
Lemma source_at j : (j < n)%nat -> vert_at source j = Some (vadd (pos j) sun) /\ dir_at source j = Some (vopp sun) /\ energy_at source j = Some 1.
Proof.
  intros Hj. unfold vert_at, dir_at, energy_at, at_col, source. cbn. rewrite !nth_error_map. rewrite (proj1 (pos_at j Hj)). auto.
Qed.

Lemma emits_at pt dd ee o : emits pt dd ee (seq 0 n) o -> forall j, (j < n)%nat ->
  vert_at o j = Some (pt j) /\ dir_at o j = Some (dd j) /\ energy_at o j = Some (ee j) /\ parent_at o j = Some j.
Proof.
  intros (A & B & C & D) j Hj. unfold vert_at, dir_at, energy_at, parent_at, at_col. rewrite A, B, C, D, !nth_error_map.
  rewrite nth_error_nth' with (d := 0%nat) by (rewrite seq_length; auto). rewrite seq_nth by auto. auto.
Qed.

Lemma map_pos {A} (f : vec -> A) : map (fun j => f (pos j)) (seq 0 n) = map f ps.
Proof.
  unfold n, pos. clear. induction ps as [|p l IH]; auto. cbn [length seq map nth]. f_equal. rewrite <- seq_shift, map_map. exact IH.
Qed.

Lemma relay g reps me : (2 <= reps)%nat -> 0 <= me < 1 - a -> exists st,
  ray_tracer surface_ops objs surfs g source reps me TreeTrue = Ok ([], [], st) /\ relays (t_tree st) source ps target (1 - a) /\
  a_absorbed (g_acc (t_g st) id) = a_absorbed (g_acc g id) ++ [map (fun _ => 1 - a) ps] /\
  a_hits (g_acc (t_g st) id) = a_hits (g_acc g id) ++ [map (fun _ => target) ps].
Proof.
  intros Hr Hme. pose proof n_pos as Np.
  destruct (tracing_answers objs surfs Ans g source n reps me TreeTrue source_ok (Media source)) as (vs & ds & st & E); [left; lia|].
  pose proof Ans as (La & _).
  destruct (library_trace objs surfs me La g source n reps vs ds st source_ok E)
    as (ns & Ts & gs & C & _ & Lt & Ev & Ed & Tb & _ & Full & Short & _).
  set (tree := t_tree st) in *.
  pose proof (ct_source _ _ _ _ _ _ _ _ _ _ _ _ _ C) as T0. pose proof (ct_source_n _ _ _ _ _ _ _ _ _ _ _ _ _ C) as N0.
  (* level 0 *)
  assert (G0 : forall tb, reported surface_ops surfs source n (Ts 0%nat) tb -> goes_to (Ts 0%nat) (length surfs) n (fun j => j) (fun _ => 1)).
  { intros tb Rp. eapply sun_rays; [exact Rp| |].
    - apply (ct_first _ _ _ _ _ _ _ _ _ _ _ _ _ C). lia.
    - intros j Hj. destruct (source_at j Hj) as (A & B & _). auto. }
  destruct (nth_error tree 1) as [l1|] eqn:T1.
  2:{ destruct (ct_end _ _ _ _ _ _ _ _ _ _ _ _ _ C 0%nat source T0 T1) as (tb & Rp & No); [lia|auto|]. rewrite N0 in Rp, No. exfalso.
      apply (No 0%nat 0%nat 1). apply (G0 tb Rp). auto. }
  destruct (ct_level _ _ _ _ _ _ _ _ _ _ _ _ _ C 0%nat source l1 T0 T1) as (tb0 & rc0 & m0 & ems0 & Rp0 & Em0 & Cc0 & Lo0 & _ & _ & _ & _ & Tr0).
  rewrite N0 in Rp0, Em0. specialize (G0 tb0 Rp0).
  destruct (level_strong surfs source tb0 rc0 l1 (Ts 0%nat) n m0 (ns 1%nat) me _ _ ems0 (fun j => j) (fun _ => 1)
              pos (fun j => direction (pos j) target) (fun _ => 1 - a) Rp0 Em0 Cc0 Lo0 Tr0 Np G0) as (N1 & E1).
  { auto. }
  { intros i (j & Hj & <-). destruct (mirror_at j Hj) as (s & Es & Ai).
    destruct (not_edge_on s (pos j) (proj2 (pos_at j Hj)) Ai) as (frame & Rf & Ef & Ow & Dz & Di).
    exists s, (meets_flat (placed frame (rectangle w h)) (z_of frame)),
      (fun p d e d' e' => mirrored (z_of frame) d d' /\ (dot d (z_of frame) <= 0 -> e' = e * (1 - a)) /\ (0 < dot d (z_of frame) -> e' = 0)).
    split; auto. split; [exact Ow|]. intros j' v d e d' e' _ -> V D En _ (M & B & _).
    destruct (source_at j Hj) as (V' & D' & En'). rewrite V in V'. rewrite D in D'. rewrite En in En'.
    assert (v = vadd (pos j) sun) as -> by congruence. assert (d = vopp sun) as -> by congruence.
    assert (e = 1) as -> by congruence. clear V' D' En'. split; [|split].
    - unfold ray_at. destruct (pos j), sun. vunfold. veq; ring.
    - apply Di. auto.
    - rewrite B by (pose proof (tenm_pos 10); lra). lra. }
  { intros j Hj. lra. }
  pose proof (emits_at _ _ _ _ E1) as A1.
  (* level 1 *)
  assert (As1 : forall i j, (i < length surfs)%nat -> (j < n)%nat -> (Ts 1%nat i j <> None <-> i <> j)).
  { intros i j Hi Hj. destruct (ct_owned _ _ _ _ _ _ _ _ _ _ _ _ _ C 0%nat l1 T1 j ltac:(cbn; rewrite N1; auto)) as (i0 & p & t & oi & owns & next & r & Pa & Mf & Eb & Nx).
    destruct (A1 j Hj) as (_ & _ & _ & Pj). rewrite Pj in Pa. injection Pa as <-. rewrite N0 in Mf. apply G0 in Mf as (_ & -> & _).
    assert (oi = j).
    { destruct Eb as (ob & ri & e & Ow & _). rewrite ownership, nth_error_app1 in Ow by (rewrite seq_length; auto).
      rewrite nth_error_nth' with (d := 0%nat) in Ow by (rewrite seq_length; auto). rewrite seq_nth in Ow by auto. cbn in Ow. congruence. }
    subst oi. cbn [Nat.add] in Nx. rewrite Nx by (auto; lia).
    destruct (emitted_num _ _ _ _ _ _ _ _ _ _ Eb (objs_at j Hj)) as (ri & e & n' & En & Lr & Ow & Nxt).
    assert (Li : (i < length (surf_ownership objs))%nat). { rewrite ownership, app_length, seq_length. rewrite nsurf in Hi. cbn [length]. lia. }
    destruct (one_sided_object_next objs j 1%nat e n' ri owns next (objs_at j Hj) En Ow Nxt r i Lr Li) as (_ & Q). rewrite Q, ownership.
    destruct (Nat.lt_ge_cases i n) as [Hn|Hn].
    - rewrite nth_error_app1 by (rewrite seq_length; auto). rewrite nth_error_nth' with (d := 0%nat) by (rewrite seq_length; auto).
      rewrite seq_nth by auto. cbn. split; congruence.
    - rewrite nth_error_app2 by (rewrite seq_length; auto). rewrite seq_length.
      assert (K : i = n \/ i = (n + 1)%nat) by (rewrite nsurf in Hi; lia).
      destruct K as [->| ->]; [rewrite Nat.sub_diag|replace (n + 1 - n)%nat with 1%nat by lia]; cbn; (split; [lia|intros _ K; injection K; lia]). }
  assert (G1 : forall tb, reported surface_ops surfs l1 n (Ts 1%nat) tb ->
    goes_to (Ts 1%nat) (length surfs) n (fun _ => n) (fun j => distance (pos j) target)).
  { intros tb Rp. eapply mirror_rays; [exact Rp|exact As1|]. intros j Hj. destruct (A1 j Hj) as (V & D & _). auto. }
  destruct (nth_error tree 2) as [l2|] eqn:T2.
  2:{ destruct (ct_end _ _ _ _ _ _ _ _ _ _ _ _ _ C 1%nat l1 T1 T2) as (tb & Rp & No); [lia|right; lia|]. rewrite N1 in Rp, No. exfalso.
      apply (No n 0%nat (distance (pos 0) target)). apply (G1 tb Rp). auto. }
  destruct (ct_level _ _ _ _ _ _ _ _ _ _ _ _ _ C 1%nat l1 l2 T1 T2) as (tb1 & rc1 & m1 & ems1 & Rp1 & Em1 & Cc1 & Lo1 & _ & _ & _ & _ & Tr1).
  rewrite N1 in Rp1, Em1. specialize (G1 tb1 Rp1).
  destruct (level_weak surfs l1 tb1 rc1 l2 (Ts 1%nat) n m1 (ns 2%nat) me _ _ ems1 (fun _ => n) (fun j => distance (pos j) target)
              (fun _ => target) (fun j => let d := direction (pos j) target in V3 (- vx d) (vy d) (vz d)) (fun _ => 0) Rp1 Em1 Cc1 Lo1 Tr1 Np G1) as (N2 & E2).
  { lia. }
  { intros i (j0 & Hj0 & <-). exists front, (meets_flat Af (V3 1 0 0)), (fun p d e d' e' => mirrored (V3 1 0 0) d d' /\ e' = e * 0).
    split; [apply front_at|]. split; [exact Fr|]. intros j v d e d' e' Hj _ V D En _ ((M1 & M2) & B).
    destruct (A1 j Hj) as (V' & D' & _). rewrite V in V'. rewrite D in D'. injection V' as ->. injection D' as ->.
    destruct (to_receiver j Hj) as (Dp & _). destruct (direction_ray _ _ Dp) as (Er & _). split; [exact Er|]. split; [|lra].
    unfold tangential in M2. set (dd := direction (pos j) target) in *. clearbody dd. destruct dd as [x y z], d' as [x' y' z']. vunfold.
    injection M2 as M3 M4 M5. veq; lra. }
  { intros j Hj. lra. }
  assert (T3 : nth_error tree 3 = None).
  { destruct (nth_error tree 3) as [l3|] eqn:T3; auto. exfalso.
    destruct (ct_level _ _ _ _ _ _ _ _ _ _ _ _ _ C 2%nat l2 l3 T2 T3) as (tb & rc & m & ems & _ & _ & _ & _ & _ & Pm & (Ch & _) & _).
    destruct (Ch 0%nat Pm) as (i & j & t & v & d & _ & Hj & _). rewrite N2 in Hj. lia. }
  assert (Et : tree = [source; l1; l2]).
  { destruct tree as [|x0 [|x1 [|x2 [|x3 r]]]]; cbn in T0, T1, T2, T3; congruence. }
  assert (Vn : vs = []).
  { destruct (Nat.eq_dec (length tree) (reps + 1)) as [Eq|Eq]; [|apply Short; lia].
    assert (reps = 2%nat) by (rewrite Et in Eq; cbn in Eq; lia). subst reps. destruct (Full Eq l2 T2) as (Lv & _). rewrite N2 in Lv.
    destruct vs; [auto|discriminate]. }
  assert (Dn : ds = []).
  { destruct Tb as (_ & (_ & Rr) & _). specialize (Rr Directions). cbn in Rr. rewrite Ed in Rr. cbn in Rr. specialize (Rr _ eq_refl).
    rewrite map_length in Rr. subst vs. destruct ds; [auto|discriminate]. }
  subst vs ds. exists st. split; auto. fold tree. split.
  { exists l1, l2. split; auto. destruct E1 as (X1 & X2 & X3 & X4). destruct E2 as (Y1 & _ & Y3 & Y4).
    rewrite X1, X2, X3, X4, Y1, Y3, Y4. rewrite (map_pos (fun p => direction p target)), (map_pos (fun _ => 1 - a)), (map_pos (fun _ => target)),
      (map_pos (fun _ => 0)). pose proof (map_pos (fun p => p)) as X5. cbv beta in X5. rewrite map_id in X5. rewrite <- X5 at 1. repeat split; auto. }
  destruct (noted_all objs surfs La me g source n reps tree ns Ts gs (t_g st) C n front id (Reflective 1) front_at Facc Sole Lt) as (ls & Ll & Nt & Ab1 & Ah1).
  rewrite Et in Ll. cbn [length] in Ll.
  assert (Z0 : nth_error ls 0 = Some []).
  { destruct (nth_lt ls 0) as (l & El); [lia|]. rewrite El. destruct (Nt _ _ _ T0 El) as (js & _ & Mj & F). destruct js as [|j r].
    - inversion F. auto.
    - exfalso. destruct (proj1 (Mj j) (or_introl eq_refl)) as (t & M). rewrite N0 in M. apply G0 in M. lia. }
  assert (Z1 : nth_error ls 1 = Some (map (fun _ => (1 - a, target)) ps)).
  { destruct (nth_lt ls 1) as (l & El); [lia|]. rewrite El. destruct (Nt _ _ _ T1 El) as (js & Sj & Mj & F). rewrite N1 in Mj, F. f_equal.
    assert (js = seq 0 n).
    { apply sorted_same; auto; [apply seq_sorted|]. intros j. rewrite Mj, in_seq. split.
      - intros (t & (_ & Hj & _)). lia.
      - intros (_ & Hj). exists (distance (pos j) target). apply G1. auto. }
    subst js. rewrite <- (map_pos (fun _ => (1 - a, target))). apply col_map.
    - rewrite <- (Forall2_length _ _ _ F). auto.
    - intros k j Ek. assert (In j (seq 0 n)) as I by (eapply nth_error_In; eauto). apply in_seq in I.
      destruct (nth_lt l k) as (x & Ex). { rewrite <- (Forall2_length _ _ _ F). apply nth_error_Some. congruence. }
      rewrite Ex. pose proof (Forall2_at _ _ _ _ _ _ F Ek Ex) as (t & e & v & d & M & En & V & D & ->).
      apply G1 in M as (Hj & _ & ->). destruct (A1 j Hj) as (V' & D' & En' & _). rewrite V in V'. rewrite D in D'. rewrite En in En'.
      injection V' as ->. injection D' as ->. injection En' as ->. destruct (to_receiver j Hj) as (Dp & _). destruct (direction_ray _ _ Dp) as (Er & _).
      unfold ray_at in Er. rewrite Er. cbn. do 2 f_equal. ring. }
  assert (Z2 : forall l, nth_error ls 2 = Some l -> l = []).
  { intros l El. destruct (Nt _ _ _ T2 El) as (js & _ & Mj & F). destruct js as [|j r]; [inversion F; auto|]. exfalso.
    destruct (proj1 (Mj j) (or_introl eq_refl)) as (t & (_ & Hj & _)). rewrite N2 in Hj. lia. }
  assert (Fl : filter nonempty ls = [map (fun _ => (1 - a, target)) ps]).
  { destruct ls as [|x0 [|x1 r]]; try discriminate. cbn in Z0, Z1. injection Z0 as ->. injection Z1 as ->.
    assert (filter nonempty r = []).
    { destruct r as [|x2 [|x3 r]]; auto; [|cbn in Ll; lia]. rewrite (Z2 x2 eq_refl). reflexivity. }
    cbn [filter nonempty length Nat.eqb negb]. rewrite H. unfold nonempty. rewrite map_length. fold n. destruct n; [lia|reflexivity]. }
  rewrite Ab1, Ah1, Fl. cbn [map]. rewrite !map_map. split; reflexivity.
Qed.
End Relay.
