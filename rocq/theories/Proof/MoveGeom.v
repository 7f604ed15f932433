(** Geometry managers in a frame that is moved along with the rays. *)
From Coq Require Import Reals List Arith Bool Lra Lia Psatz.
From Verif.Base Require Import Py Num Vec.
From Verif.Model Require Import RayBundle Boundary Geometry.
From Verif.Spec Require Import GeometrySpec.
From Verif.Proof Require Import ListLemmas NumLemmas VecLemmas FlatProof QuadProof SimProof PlaceProof PlaceTop MoveBundle.
Import ListNotations.
Local Open Scope R_scope.

Inductive Forall3 {A B C} (P : A -> B -> C -> Prop) : list A -> list B -> list C -> Prop :=
  | F3_nil : Forall3 P [] [] []
  | F3_cons a b c l k j : P a b c -> Forall3 P l k j -> Forall3 P (a :: l) (b :: k) (c :: j).

Lemma Forall3_impl {A B C} (P Q : A -> B -> C -> Prop) l k j :
  (forall a b c, P a b c -> Q a b c) -> Forall3 P l k j -> Forall3 Q l k j.
Proof. intros H F. induction F; constructor; auto. Qed.

Lemma sequence_rel3 {X A B C D} (P : X -> A -> B -> Prop) (Q : X -> C -> D -> Prop) f g hs l l' :
  Forall3 P hs l l' -> (forall h a b, P h a b -> rel_res (Q h) (f a) (g b)) ->
  rel_res (Forall3 Q hs) (mapM f l) (mapM g l').
Proof.
  intros F H. unfold mapM. induction F as [|h a b hs l l' Hab F IH]; simpl; [constructor|].
  eapply rel_bind; [apply (H h a b Hab)|]. intros c d Hcd. eapply rel_bind; [apply IH|].
  intros cs ds Hcds. simpl. constructor; auto.
Qed.

Lemma sequence_rel {A B C D} (P : A -> B -> Prop) (Q : C -> D -> Prop) f g l l' :
  Forall2 P l l' -> (forall a b, P a b -> rel_res Q (f a) (g b)) -> rel_res (Forall2 Q) (mapM f l) (mapM g l').
Proof.
  intros F H. unfold mapM. induction F as [|a b l l' Hab F IH]; simpl; [constructor|].
  eapply rel_bind; [apply (H a b Hab)|]. intros c d Hcd. eapply rel_bind; [apply IH|].
  intros cs ds Hcds. simpl. constructor; auto.
Qed.

Lemma take1_rel {A B} (P : A -> B -> Prop) l l' i : Forall2 P l l' -> rel_res P (take1 l i) (take1 l' i).
Proof.
  intros F. unfold take1. revert i. induction F as [|a b l l' H F IH]; intros [|i]; simpl; auto.
Qed.
Lemma take_rel {A B} (P : A -> B -> Prop) l l' idx : Forall2 P l l' -> rel_res (Forall2 P) (take l idx) (take l' idx).
Proof.
  intros F. unfold take. apply (sequence_rel eq).
  - apply Forall2_eq. auto.
  - intros i ? <-. apply take1_rel; auto.
Qed.

(** ** Putting the answers of a quadric together *)
Lemma assemble {X A} (d : A) (F : nat -> X -> A) m : forall (select : list (option nat)) (xs : list X) n, n = length m ->
  let nm := map (fun s : option nat => match s with Some _ => true | None => false end) select in
  let sel := concat (map (fun s : option nat => match s with Some k => [k] | None => [] end) select) in
  put_mask (put_mask m m nm) (repeat d n) (map2 F sel (mask_select nm xs)) =
  put_mask m (repeat d n) (map2 (fun (s : option nat) x => match s with Some k => F k x | None => d end) select xs).
Proof.
  assert (N : forall (k : list bool) n (l : list A), put_mask k (repeat d n) [] = repeat d n).
  { induction k as [|b k IH]; intros [|n] l; simpl; auto. rewrite IH by auto. destruct b; auto. }
  induction m as [|b m IH]; intros select xs n ->; simpl; auto.
  destruct b.
  - destruct select as [|s select].
    + simpl. rewrite !N by exact []. reflexivity.
    + destruct xs as [|x xs].
      * cbn [map mask_select map2 concat]. destruct s; simpl; rewrite ?N by exact []; auto;
        destruct (concat _); simpl; rewrite ?N by exact []; auto.
      * destruct s as [k|]; simpl.
        -- f_equal. apply IH. auto.
        -- f_equal. apply IH. auto.
  - simpl. f_equal. apply IH. auto.
Qed.

Lemma put_mask_rel {A B} (P : A -> B -> Prop) m b b' v v' : Forall2 P b b' -> Forall2 P v v' ->
  Forall2 P (put_mask m b v) (put_mask m b' v').
Proof.
  revert b b' v v'. induction m as [|x m IH]; intros b b' v v' Hb Hv; simpl; auto.
  destruct Hb as [|y y' b b' Hy Hb]; auto. destruct x.
  - destruct Hv as [|z z' v v' Hz Hv]; constructor; auto.
  - constructor; auto.
Qed.

Definition hp (s : option nat) (h : num * num) : num := match s with Some k => choose2 k h | None => PInf end.
Definition hv (s : option nat) (c : nvec * nvec) : option nvec := match s with Some k => Some (choose2 k c) | None => None end.

(** Quadrics. *)
Lemma quad_find_eq gm frame vs ds abc : get_ABC gm frame vs ds = Ok abc -> length abc = length vs ->
  let hits := map roots (mask_select (map has_roots abc) abc) in
  let m := map has_roots abc in
  let coords := map3 (fun v d (h : num * num) => (along v d (fst h), along v d (snd h)))
                  (mask_select m vs) (mask_select m ds) hits in
  quad_find gm frame vs ds =
   if Nat.eqb (count_true m) 0 then Ok (repeat PInf (length vs), repeat None (length vs)) else
   select <- select_coords gm frame coords hits ;;
   Ok (put_mask m (repeat PInf (length vs)) (map2 hp select hits),
       put_mask m (repeat None (length vs)) (map2 hv select coords)).
Proof.
  intros E L. unfold quad_find. rewrite E. cbn [bind].
  destruct (Nat.eqb (count_true (map has_roots abc)) 0); auto. apply bind_ext. intros select _.
  f_equal. f_equal.
  - apply (assemble PInf choose2). rewrite map_length. auto.
  - rewrite map_map2. apply (assemble None (fun k c => Some (choose2 k c))). rewrite map_length. auto.
Qed.

(** The choice between two points may differ only where it does not matter. *)
Definition SRel (h : num * num) (s s' : option nat) : Prop := s = s' \/ h = (PInf, PInf).
Definition VRel (h : num * num) (v v' : bool * bool) : Prop :=
  v = v' \/ (h = (PInf, PInf) /\ fst v = snd v /\ fst v' = snd v').

Lemma VRel_xor hs v v' : Forall3 VRel hs v v' -> map pxor v = map pxor v'.
Proof.
  intros F. induction F as [|h a b hs v v' H F IH]; simpl; auto. rewrite IH. f_equal.
  destruct H as [->|(_ & H & K)]; auto. destruct a as [a0 a1], b as [b0 b1]; simpl in *; subst. unfold pxor; simpl. destruct a1, b1; auto.
Qed.
Lemma VRel_ones hs v v' : Forall3 VRel hs v v' -> mask_select (map pxor v) v = mask_select (map pxor v') v'.
Proof.
  intros F. induction F as [|h a b hs v v' H F IH]; simpl; auto.
  destruct H as [->|(_ & H & K)]; [rewrite IH; auto|]. destruct a as [a0 a1], b as [b0 b1]; simpl in *; subst.
  unfold pxor at 1 3; simpl. destruct a1, b1; auto.
Qed.
Lemma SRel_refl hs (s : list (option nat)) : length s = length hs -> Forall3 SRel hs s s.
Proof. revert s; induction hs; intros [|x s] L; simpl in *; try discriminate; constructor; auto. left; auto. Qed.

Lemma SRel_fill (p : bool * bool -> bool) hs : forall v v' s s' x, Forall3 VRel hs v v' -> Forall3 SRel hs s s' ->
  Forall3 SRel hs (fill_mask (map p v) s x) (fill_mask (map p v') s' x).
Proof.
  induction hs as [|h hs IH]; intros v v' s s' x F G; inversion F; inversion G; subst; simpl; constructor; auto.
  destruct H1 as [->|(-> & _)]; [|right; auto].
  match goal with H : SRel _ _ _ |- _ => destruct H as [->| ->] end; [left; auto|right; auto].
Qed.
Lemma SRel_put m : forall hs s s' v, Forall3 SRel hs s s' -> Forall3 SRel hs (put_mask m s v) (put_mask m s' v).
Proof.
  induction m as [|b m IH]; intros hs s s' v F; simpl; auto.
  destruct F as [|h a c hs s s' H F]; [constructor|]. destruct b; [|constructor; auto].
  destruct v as [|x v]; constructor; auto. left; auto.
Qed.

Lemma assign_rel hs v v' s s' vals : Forall3 VRel hs v v' -> Forall3 SRel hs s s' ->
  rel_res (Forall3 SRel hs) (Geometry.assign_sel (map pxor v) s vals) (Geometry.assign_sel (map pxor v') s' vals).
Proof.
  intros F G. unfold Geometry.assign_sel. rewrite (VRel_xor _ _ _ F).
  destruct (Nat.eqb (length vals) (count_true (map pxor v'))); [|reflexivity]. cbn [rel_res]. apply SRel_put; auto.
Qed.

Lemma select_valid_rel vals hs sel v v' : length sel = length hs -> Forall3 VRel hs v v' ->
  rel_res (Forall3 SRel hs) (select_valid vals sel v) (select_valid vals sel v').
Proof.
  intros L F. unfold select_valid. rewrite (VRel_ones _ _ _ F). apply assign_rel; auto.
  apply (SRel_fill (fun p => negb (por p))); auto. apply SRel_refl; auto.
Qed.

Section Move.
Variables (r : mat3) (t : vec).
Hypothesis O : orthonormal r.
Let T := mk4 r t.
Definition mp (p : vec) : vec := app4 (mk4 r t) p.
Definition md (d : vec) : vec := mv3 r d.
Local Arguments mp _ : simpl never.
Local Arguments md _ : simpl never.

(** ** Points and directions *)
Lemma mv4_mm4 a b x : mv4 (mm4 a b) x = mv4 a (mv4 b x).
Proof.
  destruct a as [[] [] [] []], b as [[] [] [] []], x as [].
  cbv -[Rplus Rmult Rminus Ropp IZR]. f_equal; ring.
Qed.
Lemma hom_mp p : hom (mp p) = mv4 T (hom p).
Proof. unfold mp, T. destruct r as [[] [] []], t, p. cbv -[Rplus Rmult Rminus Ropp IZR]. f_equal; ring. Qed.

Lemma det_T : det4 T <> 0.
Proof. unfold T. rewrite det4_mk4. pose proof (orthonormal_det r O). intros E. rewrite E in H. lra. Qed.

Lemma T_inj x y : mv4 T x = mv4 T y -> x = y.
Proof.
  intros E. destruct (inv4 T) as [i|e] eqn:Ei.
  - rewrite <- (inv4_sound T i Ei x), E. apply (inv4_sound T i Ei).
  - exfalso. unfold inv4 in Ei. destruct (Reqb_spec (det4 T) 0); [|discriminate]. apply det_T; auto.
Qed.

(** Inverse frames give the same local coordinates. *)
Definition IRel (i i' : mat4) : Prop := forall p, mv4 i' (hom (mp p)) = mv4 i (hom p).

Lemma inv_moved m : rel_res IRel (inv4 m) (inv4 (mm4 T m)).
Proof.
  destruct (inv4 m) as [i|e] eqn:E, (inv4 (mm4 T m)) as [i'|e'] eqn:E'; cbn [rel_res].
  - intros p. rewrite hom_mp.
    assert (X : mv4 m (mv4 i' (mv4 T (hom p))) = hom p).
    { apply T_inj. rewrite <- mv4_mm4. apply (inv4_sound' _ _ E'). }
    rewrite <- X at 2. symmetry. apply (inv4_sound _ _ E).
  - unfold inv4 in *. rewrite det4_mm4 in E'. destruct (Reqb_spec (det4 m) 0); [discriminate|].
    destruct (Reqb_spec (det4 T * det4 m) 0) as [Z|]; [|discriminate].
    apply Rmult_integral in Z. pose proof det_T. tauto.
  - unfold inv4 in *. rewrite det4_mm4 in E'. destruct (Reqb_spec (det4 m) 0) as [Z|]; [|discriminate].
    rewrite Z, Rmult_0_r in E'. destruct (Reqb_spec 0 0); [discriminate|]. lra.
  - unfold inv4 in *. destruct (Reqb (det4 m) 0), (Reqb (det4 (mm4 T m)) 0); congruence.
Qed.

Lemma IRel_rows i i' p : IRel i i' ->
  ndot4 (q0 i') (nfin (mp p)) = ndot4 (q0 i) (nfin p) /\ ndot4 (q1 i') (nfin (mp p)) = ndot4 (q1 i) (nfin p) /\
  ndot4 (q2 i') (nfin (mp p)) = ndot4 (q2 i) (nfin p).
Proof.
  intros H. specialize (H p). rewrite !ndot4_fin. repeat split; f_equal.
  - exact (f_equal w0 H).
  - exact (f_equal w1 H).
  - exact (f_equal w2 H).
Qed.
Lemma IRel_app i i' p : IRel i i' -> app4 i' (mp p) = app4 i p.
Proof. intros H. unfold app4. rewrite (H p). auto. Qed.

Lemma mp_vsub a b : vsub (mp a) (mp b) = md (vsub a b).
Proof. unfold mp, md. rewrite !app4_mk4, mv3_vsub. generalize (mv3 r a) (mv3 r b). intros [] []. destruct t. vunfold. veq; ring. Qed.
Lemma md_dot a b : dot (md a) (md b) = dot a b. Proof. apply orthonormal_dot; auto. Qed.
Lemma md_norm2 a : norm2 (md a) = norm2 a. Proof. apply orthonormal_norm2; auto. Qed.
Lemma md_back a : mv3 (tr3 r) (md a) = a. Proof. apply tr3_mv3; auto. Qed.
Lemma mp_ray v d u : ray_at (mp v) (md d) u = mp (ray_at v d u).
Proof. unfold mp, md. symmetry. apply app4_ray. Qed.

(** Frames. *)
Lemma moved_frame F l : mm4 T (mk4 F l) = mk4 (mm3 r F) (mp l).
Proof. unfold T, mp. rewrite mm4_mk4, app4_mk4. auto. Qed.
Lemma zaxis_moved F l : zaxis (mm4 T (mk4 F l)) = md (zaxis (mk4 F l)).
Proof.
  rewrite moved_frame, !zaxis_mk4. unfold md. destruct r as [[] [] []], F as [[] [] []]. vunfold. veq; ring.
Qed.
Lemma loc_moved F l : loc_of (mm4 T (mk4 F l)) = mp (loc_of (mk4 F l)).
Proof. rewrite moved_frame, !loc_mk4. auto. Qed.
Lemma back_moved F l d : mv3 (tr3 (rot_of (mm4 T (mk4 F l)))) (md d) = mv3 (tr3 (rot_of (mk4 F l))) d.
Proof. rewrite moved_frame, !rot_mk4, tr3_mm3, mv3_mm3, md_back. auto. Qed.
Lemma rot_moved F l v : mv3 (rot_of (mm4 T (mk4 F l))) v = md (mv3 (rot_of (mk4 F l)) v).
Proof. rewrite moved_frame, !rot_mk4, mv3_mm3. auto. Qed.
Lemma app_moved F l v : app4 (mm4 T (mk4 F l)) v = mp (app4 (mk4 F l) v).
Proof.
  unfold mp. rewrite moved_frame. unfold mp. rewrite !app4_mk4, mv3_mm3, mv3_vadd.
  generalize (mv3 r (mv3 F v)) (mv3 r l). intros [] []. destruct t. vunfold. veq; ring.
Qed.

(** ** Points that may be infinite *)
Definition PR (p p' : nvec) : Prop :=
  match fin_vec p, fin_vec p' with Some v, Some v' => v' = mp v | None, None => True | _, _ => False end.
Definition OR (o o' : option nvec) : Prop :=
  match o, o' with
  | Some p, Some p' => PR p p'
  | None, None => True
  | Some p, None | None, Some p => fin_vec p = None
  end.

Lemma along_inf v d x : nisfin x = false -> fin_vec (along v d x) = None.
Proof.
  destruct x; try discriminate; intros _; unfold fin_vec, along; simpl; unfold sgn_inf; rdec; reflexivity.
Qed.
Lemma along_moved v d x : PR (along v d x) (along (mp v) (md d) x).
Proof.
  unfold PR. destruct x as [x| | |]; try (rewrite !along_inf by reflexivity; exact I).
  rewrite !along_fin, !fin_vec_nfin. apply mp_ray.
Qed.

(** ** Flat surfaces *)
Lemma flat_param_moved F l v d : flat_param (mm4 T (mk4 F l)) (mp v) (md d) = flat_param (mk4 F l) v d.
Proof. unfold flat_param. rewrite zaxis_moved, loc_moved, mp_vsub, !md_dot. auto. Qed.

Lemma flat_find_moved F l vs ds : length vs = length ds ->
  flat_find (mm4 T (mk4 F l)) (map mp vs) (map md ds) = flat_find (mk4 F l) vs ds.
Proof.
  intros L. rewrite !flat_find_map by (rewrite ?map_length; auto). f_equal.
  - rewrite map2_map_l, map2_map_r. clear L. revert ds. induction vs as [|v vs IH]; intros [|d ds]; cbn [map map2]; auto.
    rewrite IH, flat_param_moved. auto.
  - rewrite map_map. apply map_ext. intros d. rewrite zaxis_moved, md_dot. auto.
Qed.

Lemma finite_global_moved vs : forall ds ps, Forall2 PR (finite_global vs ds ps) (finite_global (map mp vs) (map md ds) ps).
Proof.
  unfold finite_global. induction vs as [|v vs IH]; intros [|d ds] [|p ps]; simpl; try constructor; auto.
  apply along_moved.
Qed.

Lemma rect_moved i i' hw hh p : IRel i i' -> outside_rect i' hw hh (nfin (mp p)) = outside_rect i hw hh (nfin p).
Proof. intros H. destruct (IRel_rows i i' p H) as (A & B & _). unfold outside_rect. rewrite A, B. auto. Qed.
Lemma round_moved i i' rad p : IRel i i' -> outside_round i' rad (nfin (mp p)) = outside_round i rad (nfin p).
Proof. intros H. destruct (IRel_rows i i' p H) as (A & B & _). unfold outside_round. rewrite A, B. auto. Qed.

Definition tri_test (w0 w1 v0 v1 : vec) (w : vec) : bool :=
  let uv := dot v0 v1 in
  let n0 := norm2 v0 in let n1 := norm2 v1 in
  let den := uv * uv - n0 * n1 in
  let bc0 := fdiv (uv * dot w w1 - n1 * dot w w0) den in
  let bc1 := fdiv (uv * dot w w0 - n0 * dot w w1) den in
  (nlt bc0 (Fin 0) || nlt bc1 (Fin 0)) || nlt (Fin 1) (nadd bc0 bc1).
Lemma triangle_test frame v0 v1 p :
  outside_triangle frame v0 v1 (nfin p) =
  tri_test (vsub (app4 frame v0) (loc_of frame)) (vsub (app4 frame v1) (loc_of frame)) v0 v1 (vsub p (loc_of frame)).
Proof. reflexivity. Qed.
Lemma triangle_moved F l v0 v1 p :
  outside_triangle (mm4 T (mk4 F l)) v0 v1 (nfin (mp p)) = outside_triangle (mk4 F l) v0 v1 (nfin p).
Proof.
  rewrite !triangle_test, !app_moved, loc_moved, !mp_vsub. unfold tri_test. rewrite !md_dot. auto.
Qed.

Lemma trim_moved (out out' : nvec -> bool) fr vs : forall ds, (forall p, out' (nfin (mp p)) = out (nfin p)) ->
  trim out (finite_global vs ds (map2 (flat_param fr) vs ds)) (map2 (flat_param fr) vs ds) =
  trim out' (finite_global (map mp vs) (map md ds) (map2 (flat_param fr) vs ds)) (map2 (flat_param fr) vs ds).
Proof.
  intros ds H. revert ds. unfold trim, finite_global. induction vs as [|v vs IH]; intros [|d ds]; cbn [map2 map map3 fill_mask]; auto.
  rewrite <- IH. f_equal. destruct (flat_param_cases fr v d) as [->|(u & ->)].
  - destruct (out _), (out' _); auto.
  - rewrite !along_fin, mp_ray, H. auto.
Qed.

(** ** Quadrics *)
Lemma abc_sphere_moved F l rad v d : abc_sphere (mm4 T (mk4 F l)) rad (mp v) (md d) = abc_sphere (mk4 F l) rad v d.
Proof. unfold abc_sphere. rewrite loc_moved, mp_vsub, md_dot, !md_norm2. auto. Qed.
Lemma to_local_moved F l i i' k v d : IRel i i' ->
  to_local (mm4 T (mk4 F l)) i' k (mp v) (md d) = to_local (mk4 F l) i k v d.
Proof. intros H. unfold to_local. rewrite IRel_app with (i := i), back_moved by auto. auto. Qed.

Lemma map2_moved {A} (f f' : vec -> vec -> A) vs : forall ds, (forall v d, f' (mp v) (md d) = f v d) ->
  map2 f' (map mp vs) (map md ds) = map2 f vs ds.
Proof. intros ds H. revert ds. induction vs; intros [|d ds]; simpl; auto. rewrite IHvs, H. auto. Qed.

Lemma get_ABC_moved gm F l vs ds : get_ABC gm (mm4 T (mk4 F l)) (map mp vs) (map md ds) = get_ABC gm (mk4 F l) vs ds.
Proof.
  pose proof (inv_moved (mk4 F l)) as I.
  destruct gm; cbn [get_ABC]; auto; try (f_equal; apply map2_moved; intros; apply abc_sphere_moved);
    destruct (inv4 (mk4 F l)) as [i|e], (inv4 (mm4 T (mk4 F l))) as [i'|e']; simpl in I; try contradiction; cbn [bind]; try congruence;
    f_equal; apply map2_moved; intros; apply to_local_moved; auto.
Qed.

(** A pair of points with its parameters. *)
Definition CR (h : num * num) (c c' : nvec * nvec) : Prop :=
  (exists a b p q, h = (Fin a, Fin b) /\ c = (nfin p, nfin q) /\ c' = (nfin (mp p), nfin (mp q))) \/
  (exists x, h = (x, x) /\ nisfin x = false /\ fst c = snd c /\ fst c' = snd c' /\
     fin_vec (fst c) = None /\ fin_vec (fst c') = None).

Lemma roots_cases abc : (exists a b, roots abc = (Fin a, Fin b)) \/ (exists x, roots abc = (x, x) /\ nisfin x = false).
Proof.
  destruct abc as [[A B] C]. unfold roots. destruct (Rleb A (tenm 10)); [|left; eauto].
  unfold fdiv. destruct (Reqb B 0); [|left; eauto]. right. unfold sgn_inf. rdec; eauto.
Qed.

Lemma coords_moved vs : forall ds abcs,
  length vs = length ds -> length ds = length abcs ->
  let hits := map roots abcs in
  Forall3 CR hits (map3 (fun v d (h : num * num) => (along v d (fst h), along v d (snd h))) vs ds hits)
    (map3 (fun v d (h : num * num) => (along v d (fst h), along v d (snd h))) (map mp vs) (map md ds) hits).
Proof.
  induction vs as [|v vs IH]; intros [|d ds] [|q abcs] L1 L2; simpl in *; try discriminate; constructor; auto.
  destruct (roots_cases q) as [(a & b & ->)|(x & -> & N)]; cbn [fst snd].
  - left. exists a, b, (ray_at v d a), (ray_at v d b). rewrite !along_fin, !mp_ray. auto.
  - right. exists x. cbn [fst snd]. rewrite !along_inf by auto. auto 8.
Qed.

Definition flags (ok : nvec -> bool) (c : nvec * nvec) (h : num * num) : bool * bool :=
  (ok (fst c) && nlt (Fin 0) (fst h), ok (snd c) && nlt (Fin 0) (snd h)).

Lemma flags_moved ok ok' h c c' : (forall p, ok' (nfin (mp p)) = ok (nfin p)) -> CR h c c' ->
  VRel h (flags ok c h) (flags ok' c' h).
Proof.
  intros H [(a & b & p & q & -> & -> & ->)|(x & -> & N & E & E' & _)].
  - left. unfold flags. cbn [fst snd]. rewrite !H. auto.
  - unfold flags. cbn [fst snd]. rewrite E, E'. destruct x; try discriminate.
    + right. cbn [nlt fst snd]. auto.
    + left. cbn [nlt]. rewrite !andb_false_r. auto.
    + left. cbn [nlt]. rewrite !andb_false_r. auto.
Qed.

Lemma and_positive_moved ok ok' hs cs cs' : (forall p, ok' (nfin (mp p)) = ok (nfin p)) -> Forall3 CR hs cs cs' ->
  Forall3 VRel hs (and_positive ok cs hs) (and_positive ok' cs' hs).
Proof.
  intros H F. unfold and_positive. induction F as [|h c c' hs cs cs' C F IH]; simpl; constructor; auto.
  apply (flags_moved ok ok'); auto.
Qed.

Lemma select_default_len prm sel : select_default prm = Ok sel -> length sel = length prm.
Proof.
  rewrite select_default_pick. intros E. injection E as <-. unfold positive2. rewrite !map_length. auto.
Qed.

Lemma in_sphere_moved c rad p : in_sphere (mp c) rad (nfin (mp p)) = in_sphere c rad (nfin p).
Proof.
  assert (E : forall a q, in_sphere a rad (nfin q) = Rleb (norm2 (vsub q a)) (rad * rad)) by reflexivity.
  rewrite !E, mp_vsub, md_norm2. auto.
Qed.

Lemma select_coords_moved gm F l hs cs cs' : Forall3 CR hs cs cs' ->
  rel_res (Forall3 SRel hs) (select_coords gm (mk4 F l) cs hs) (select_coords gm (mm4 T (mk4 F l)) cs' hs).
Proof.
  intros C. pose proof (inv_moved (mk4 F l)) as I.
  assert (D : rel_res (Forall3 SRel hs) (select_default hs) (select_default hs)).
  { destruct (select_default hs) eqn:E; cbn [rel_res]; auto. apply SRel_refl. apply select_default_len; auto. }
  assert (K : forall vals (ok ok' : mat4 -> nvec -> bool),
     (forall i i' p, IRel i i' -> ok' i' (nfin (mp p)) = ok i (nfin p)) ->
     rel_res (Forall3 SRel hs)
      (sel <- select_default hs ;; inv <- inv4 (mk4 F l) ;; select_valid vals sel (and_positive (ok inv) cs hs))
      (sel <- select_default hs ;; inv <- inv4 (mm4 T (mk4 F l)) ;; select_valid vals sel (and_positive (ok' inv) cs' hs))).
  { intros vals ok ok' H. apply rel_same. intros sel Es. eapply rel_bind; [apply I|]. intros i i' Ii.
    apply select_valid_rel; [apply select_default_len; auto|]. apply and_positive_moved; auto. }
  destruct gm; cbn [select_coords]; auto.
  - (* hemisphere *)
    apply (K rows_major (fun inv p => nle (ndot4 (q2 inv) p) (Fin 0)) (fun inv p => nle (ndot4 (q2 inv) p) (Fin 0))).
    intros i i' p H. destruct (IRel_rows i i' p H) as (_ & _ & ->). auto.
  - (* cut sphere *)
    destruct bound as [bd|]; auto. apply rel_same. intros sel Es.
    set (fl := fun (f : list bool) (h : num * num) =>
                 (nth 0 f false && nlt (Fin 0) (fst h), nth 1 f false && nlt (Fin 0) (snd h))).
    eapply rel_bind with (R := Forall3 (fun h f f' => VRel h (fl f h) (fl f' h)) hs).
    { apply (sequence_rel3 CR); auto. intros h c c' Hc. destruct bd as [bc rb|rb tr|tr|tr]; cbn [transform_frame_b in_bounds].
      - cbn [rel_res map]. apply (flags_moved (in_sphere (app4 (mk4 F l) bc) rb) (in_sphere (app4 (mm4 T (mk4 F l)) bc) rb)); auto.
        intros p. rewrite app_moved. apply in_sphere_moved.
      - reflexivity.
      - rewrite mm4_assoc. eapply rel_bind; [apply inv_moved|]. intros i i' Ii. cbn [rel_res map].
        apply (flags_moved (fun p => nle (Fin 0) (ndot4 (q2 i) p)) (fun p => nle (Fin 0) (ndot4 (q2 i') p))); auto.
        intros p. destruct (IRel_rows i i' p Ii) as (_ & _ & ->). auto.
      - reflexivity. }
    intros f f' Hf. apply select_valid_rel; [apply select_default_len; auto|].
    clear - Hf. induction Hf; simpl; constructor; auto.
  - (* finite cylinder *)
    eapply rel_bind; [apply I|]. intros i i' Ii.
    set (ok := fun p => nle (nabs (ndot4 (q2 i) p)) (Fin half_h)).
    set (ok' := fun p => nle (nabs (ndot4 (q2 i') p)) (Fin half_h)).
    assert (Hv : Forall3 VRel hs (and_positive ok cs hs) (and_positive ok' cs' hs)).
    { apply and_positive_moved; auto. intros p. unfold ok, ok'. destruct (IRel_rows i i' p Ii) as (_ & _ & ->). auto. }
    rewrite (VRel_ones _ _ _ Hv). apply assign_rel; auto. apply SRel_fill; auto. apply SRel_refl. apply repeat_length.
  - apply (K true_rows (fun inv p => nle (ndot4 (q2 inv) p) (Fin h)) (fun inv p => nle (ndot4 (q2 inv) p) (Fin h))).
    intros i i' p H. destruct (IRel_rows i i' p H) as (_ & _ & ->). auto.
  - apply (K true_rows (fun inv p => in_hexagon inv radius p) (fun inv p => in_hexagon inv radius p)).
    intros i i' p H. unfold in_hexagon. destruct (IRel_rows i i' p H) as (-> & -> & _). auto.
Qed.

Lemma hp_rel hs : forall s s', Forall3 SRel hs s s' -> map2 hp s hs = map2 hp s' hs.
Proof.
  intros s s' F. induction F as [|h a b hs s s' H F IH]; simpl; auto. rewrite IH. f_equal.
  destruct H as [->| ->]; auto. destruct a as [[|a]|], b as [[|b]|]; reflexivity.
Qed.
Lemma hv_rel hs : forall s s' c c', Forall3 SRel hs s s' -> Forall3 CR hs c c' -> Forall2 OR (map2 hv s c) (map2 hv s' c').
Proof.
  assert (One : forall h s s' cc cc', SRel h s s' -> CR h cc cc' -> OR (hv s cc) (hv s' cc')).
  { intros h s s' cc cc' HS HC.
    assert (P2 : forall k, PR (choose2 k cc) (choose2 k cc')).
    { destruct HC as [(a & b & p & q & E0 & E1 & E2)|(x & E0 & N & E & E' & Z & Z')]; intros k; unfold PR.
      - rewrite E1, E2. destruct k; cbn [choose2 fst snd]; rewrite !fin_vec_nfin; auto.
      - destruct k; cbn [choose2]; rewrite <- ?E, <- ?E', Z, Z'; auto. }
    destruct HS as [->|HI].
    - destruct s' as [k|]; simpl; auto.
    - destruct HC as [(a & b & p & q & E0 & E1 & E2)|(x & E0 & N & E & E' & Z & Z')]; [congruence|].
      assert (P3 : forall k, fin_vec (choose2 k cc) = None /\ fin_vec (choose2 k cc') = None).
      { intros k. destruct k; cbn [choose2]; rewrite <- ?E, <- ?E', Z, Z'; auto. }
      destruct s as [k|], s' as [k'|]; simpl; auto.
      + unfold PR. destruct (P3 k) as (-> & _), (P3 k') as (_ & ->). auto.
      + apply P3.
      + apply P3. }
  intros s s' c c' F. revert c c'. induction F; intros c1 c1' G; inversion G; subst; cbn [map2]; constructor; eauto.
Qed.

Lemma map2_len {A B C} (f : A -> B -> C) l k : length l = length k -> length (map2 f l k) = length l.
Proof. revert k; induction l; intros [|b k] L; simpl in *; try discriminate; auto. Qed.

Lemma get_ABC_len gm fr vs ds abc : length vs = length ds -> get_ABC gm fr vs ds = Ok abc -> length abc = length vs.
Proof.
  intros L. destruct gm; cbn [get_ABC]; try discriminate; try (intros E; injection E as <-; apply map2_len; auto);
    (destruct (inv4 fr); cbn [bind]; [|discriminate]; intros E; injection E as <-; apply map2_len; auto).
Qed.

Lemma quad_find_moved gm F l vs ds : length vs = length ds ->
  rel_res (fun x y => fst x = fst y /\ Forall2 OR (snd x) (snd y))
    (quad_find gm (mk4 F l) vs ds) (quad_find gm (mm4 T (mk4 F l)) (map mp vs) (map md ds)).
Proof.
  intros L. destruct (get_ABC gm (mk4 F l) vs ds) as [abc|e] eqn:E.
  - pose proof (get_ABC_len _ _ _ _ _ L E) as La.
    assert (E' : get_ABC gm (mm4 T (mk4 F l)) (map mp vs) (map md ds) = Ok abc) by (rewrite get_ABC_moved; auto).
    rewrite (quad_find_eq _ _ _ _ _ E La).
    rewrite (quad_find_eq _ _ _ _ _ E') by (rewrite map_length; auto).
    rewrite map_length. set (m := map has_roots abc).
    assert (RN : Forall2 OR (repeat None (length vs)) (repeat None (length vs))).
    { clear. induction (length vs); simpl; constructor; simpl; auto. }
    destruct (Nat.eqb (count_true m) 0); [cbn [rel_res fst snd]; auto|].
    rewrite !mask_select_map.
    assert (Lm : forall A (k : list A), length k = length vs -> length (mask_select m k) = count_true m).
    { intros A k Lk. apply mask_select_count. unfold m. rewrite map_length. congruence. }
    assert (C := coords_moved (mask_select m vs) (mask_select m ds) (mask_select m abc)). cbv zeta in C.
    specialize (C ltac:(rewrite !Lm; auto) ltac:(rewrite !Lm; auto)).
    eapply rel_bind; [apply (select_coords_moved gm F l _ _ _ C)|]. intros s s' Hs. cbn [rel_res fst snd]. split.
    + f_equal. apply hp_rel; auto.
    + apply put_mask_rel; auto. eapply hv_rel; eauto.
  - unfold quad_find. rewrite get_ABC_moved, E. reflexivity.
Qed.

(** ** The protocol *)
Variable h : R -> R.
Notation mb := (mvb mp md h).

Definition DR (d d' : gdata) : Prop :=
  match d, d' with
  | DParams ps bk, DParams ps' bk' => ps' = ps /\ bk' = bk
  | DGlobal g bk, DGlobal g' bk' => Forall2 PR g g' /\ bk' = bk
  | DVerts v, DVerts v' => Forall2 OR v v'
  | _, _ => False
  end.

Inductive GR : gstate -> gstate -> Prop :=
  | GR_idle : GR GIdle GIdle
  | GR_found F l b d d' : DR d d' -> GR (GFound (mk4 F l) b d) (GFound (mm4 T (mk4 F l)) (mb b) d')
  | GR_flat F l b idx bk pts : GR (GSelFlat (mk4 F l) b idx bk pts) (GSelFlat (mm4 T (mk4 F l)) (mb b) idx bk (map mp pts))
  | GR_quad F l b idx pts ns : GR (GSelQuad (mk4 F l) b idx pts ns) (GSelQuad (mm4 T (mk4 F l)) (mb b) idx (map mp pts) (map md ns)).

Lemma rel_open b {A B} (Q : A -> B -> Prop) k k' :
  (forall vs ds, length vs = length ds -> rel_res Q (k vs ds) (k' (map mp vs) (map md ds))) ->
  rel_res Q
    (ds <- get_directions b ;; vs <- get_vertices b ;; if negb (same_len ds vs) then Err ValueError else k vs ds)
    (ds <- get_directions (mb b) ;; vs <- get_vertices (mb b) ;; if negb (same_len ds vs) then Err ValueError else k' vs ds).
Proof.
  intros H. rewrite mvb_directions, mvb_vertices.
  eapply rel_bind; [apply rel_rmap|]. intros ds ? ->. eapply rel_bind; [apply rel_rmap|]. intros vs ? ->.
  rewrite same_len_map_l, same_len_map_r. destruct (same_len ds vs) eqn:E; [|reflexivity]. cbn [negb].
  apply H. unfold same_len in E. apply Nat.eqb_eq in E. auto.
Qed.

Lemma find_moved gm F l b :
  rel_res (fun x y => GR (fst x) (fst y) /\ snd x = snd y)
    (find_intersections gm (mk4 F l) b) (find_intersections gm (mm4 T (mk4 F l)) (mb b)).
Proof.
  pose proof (inv_moved (mk4 F l)) as I.
  assert (Q : forall gm0 vs ds, length vs = length ds ->
      rel_res (fun x y => GR (fst x) (fst y) /\ snd x = snd y)
       ('(ps, verts) <- quad_find gm0 (mk4 F l) vs ds ;; Ok (GFound (mk4 F l) b (DVerts verts), ps))
       ('(ps, verts) <- quad_find gm0 (mm4 T (mk4 F l)) (map mp vs) (map md ds) ;;
          Ok (GFound (mm4 T (mk4 F l)) (mb b) (DVerts verts), ps))).
  { intros gm0 vs ds L. eapply rel_bind; [apply quad_find_moved; auto|].
    intros [ps vv] [ps' vv'] (E & HO). cbn [fst snd] in *. subst ps'. cbn [rel_res fst snd]. split; auto. constructor. auto. }
  assert (FL : forall (gm0 : geom) (out : mat4 -> mat4 -> nvec -> bool) k k',
      (forall i i' p, IRel i i' -> out (mm4 T (mk4 F l)) i' (nfin (mp p)) = out (mk4 F l) i (nfin p)) ->
      (forall fr vs ds, k fr vs ds = ('(ps, back) <- Ok (flat_find fr vs ds) ;; 
          let glob := finite_global vs ds ps in inv <- inv4 fr ;; Ok (GFound fr b (DGlobal glob back), trim (out fr inv) glob ps))) ->
      (forall fr vs ds, k' fr vs ds = ('(ps, back) <- Ok (flat_find fr vs ds) ;; 
          let glob := finite_global vs ds ps in inv <- inv4 fr ;; Ok (GFound fr (mb b) (DGlobal glob back), trim (out fr inv) glob ps))) ->
      forall vs ds, length vs = length ds -> rel_res (fun x y => GR (fst x) (fst y) /\ snd x = snd y)
        (k (mk4 F l) vs ds) (k' (mm4 T (mk4 F l)) (map mp vs) (map md ds))).
  { intros gm0 out k k' Ho Hk Hk' vs ds L. rewrite Hk, Hk', flat_find_moved by auto. rewrite flat_find_map by auto. cbn [bind].
    eapply rel_bind; [apply I|]. intros i i' Ii. cbn [rel_res fst snd]. split.
    - constructor. cbn [DR]. split; auto. apply finite_global_moved.
    - apply trim_moved. intros p. apply Ho; auto. }
  destruct gm; unfold find_intersections; try reflexivity; apply rel_open.
  - intros vs ds L. rewrite flat_find_moved by auto. destruct (flat_find (mk4 F l) vs ds) as [ps back].
    cbn [rel_res fst snd]. split; auto. constructor. cbn [DR]. auto.
  - exact (FL (RectPlate hw hh) (fun _ i => outside_rect i hw hh) (fun fr vs ds => _) (fun fr vs ds => _)
      (fun i i' p => rect_moved i i' hw hh p) (fun fr vs ds => eq_refl) (fun fr vs ds => eq_refl)).
  - exact (FL (RoundPlate radius) (fun _ i => outside_round i radius) (fun fr vs ds => _) (fun fr vs ds => _)
      (fun i i' p => round_moved i i' radius p) (fun fr vs ds => eq_refl) (fun fr vs ds => eq_refl)).
  - exact (FL (Triangle v0 v1) (fun fr _ => outside_triangle fr v0 v1) (fun fr vs ds => _) (fun fr vs ds => _)
      (fun i i' p _ => triangle_moved F l v0 v1 p) (fun fr vs ds => eq_refl) (fun fr vs ds => eq_refl)).
  - exact (Q (Sphere radius)).
  - exact (Q (Hemisphere radius)).
  - exact (Q (CutSphere radius bound)).
  - exact (Q (Cylinder radius)).
  - exact (Q (FiniteCyl radius half_h)).
  - exact (Q (Parab a b0)).
  - exact (Q (ParabDish a b0 radius h0)).
  - exact (Q (HexDish a b0 radius)).
Qed.

Lemma finite_point_moved p p' : PR p p' -> rel_res (fun a b => b = mp a) (finite_point p) (finite_point p').
Proof.
  unfold PR, finite_point. destruct (fin_vec p), (fin_vec p'); simpl; auto; contradiction.
Qed.
Lemma opt_point_moved o o' : OR o o' -> rel_res (fun a b => b = mp a)
  (match o with Some p => finite_point p | None => Err OutOfModel end)
  (match o' with Some p => finite_point p | None => Err OutOfModel end).
Proof.
  destruct o as [p|], o' as [p'|]; simpl; auto.
  - apply finite_point_moved.
  - unfold finite_point. intros ->. reflexivity.
  - unfold finite_point. intros ->. reflexivity.
Qed.
Lemma Forall2_mp (k : vec -> vec) l l' : Forall2 (fun a b => b = k a) l l' -> l' = map k l.
Proof. intros F. induction F; simpl; congruence. Qed.
Lemma points_rel {X Y} (f : X -> res vec) (g : Y -> res vec) (P : X -> Y -> Prop) l l' : Forall2 P l l' ->
  (forall a b, P a b -> rel_res (fun a b => b = mp a) (f a) (g b)) ->
  rel_res (fun a b => b = map mp a) (mapM f l) (mapM g l').
Proof.
  intros F H. eapply rel_imp; [|eapply (sequence_rel P); eauto]. intros a b. apply Forall2_mp.
Qed.

Lemma normalised_md v : normalised (md v) = rmap md (normalised v).
Proof.
  unfold normalised. rewrite md_norm2. destruct (Reqb (norm2 v) 0); auto. cbn [rmap]. f_equal.
  unfold md. rewrite mv3_vscale. auto.
Qed.
Lemma md_vopp v : md (vopp v) = vopp (md v). Proof. apply mv3_vopp. Qed.

Lemma normal_sphere_moved F l p d : normal_sphere (mm4 T (mk4 F l)) (mp p) (md d) = rmap md (normal_sphere (mk4 F l) p d).
Proof.
  unfold normal_sphere. rewrite loc_moved, !mp_vsub, md_dot, <- normalised_md. f_equal.
  destruct (Rltb _ 0); auto. rewrite md_vopp. auto.
Qed.
Lemma normal_cylinder_moved F l i i' p d : IRel i i' ->
  normal_cylinder (mm4 T (mk4 F l)) i' (mp p) (md d) = rmap md (normal_cylinder (mk4 F l) i p d).
Proof.
  intros H. unfold normal_cylinder. rewrite (IRel_app i i'), back_moved by auto. rewrite rmap_bind. apply bind_ext. intros n _.
  cbn [rmap]. rewrite rot_moved. auto.
Qed.
Lemma normal_parab_moved a b F l i i' p d : IRel i i' ->
  normal_parab a b (mm4 T (mk4 F l)) i' (mp p) (md d) = rmap md (normal_parab a b (mk4 F l) i p d).
Proof.
  intros H. unfold normal_parab. rewrite (IRel_app i i'), back_moved by auto. rewrite rmap_bind. apply bind_ext. intros n _.
  cbn [rmap]. rewrite rot_moved. auto.
Qed.

Lemma sequence_map2_moved (f f' : vec -> vec -> res vec) ps : forall ds, (forall p d, f' (mp p) (md d) = rmap md (f p d)) ->
  sequence (map2 f' (map mp ps) (map md ds)) = rmap (map md) (sequence (map2 f ps ds)).
Proof.
  intros ds H. revert ds. induction ps as [|p ps IH]; intros [|d ds]; cbn [map map2 sequence]; auto.
  rewrite H, IH. destruct (f p d); auto. cbn [rmap bind]. destruct (sequence (map2 f ps ds)); auto.
Qed.

Lemma normals_moved gm F l ps ds : normals gm (mm4 T (mk4 F l)) (map mp ps) (map md ds) = rmap (map md) (normals gm (mk4 F l) ps ds).
Proof.
  pose proof (inv_moved (mk4 F l)) as I.
  destruct gm; cbn [normals]; auto; try (apply sequence_map2_moved; intros; apply normal_sphere_moved);
    destruct (inv4 (mk4 F l)) as [i|e], (inv4 (mm4 T (mk4 F l))) as [i'|e']; cbn [rel_res] in I; try contradiction; cbn [bind rmap]; try congruence;
    apply sequence_map2_moved; intros; [apply normal_cylinder_moved|apply normal_cylinder_moved| apply normal_parab_moved..]; auto.
Qed.

Lemma map3_along vs : forall ds ps, Forall2 PR (map3 (fun v d p => along v d p) vs ds ps)
   (map3 (fun v d p => along v d p) (map mp vs) (map md ds) ps).
Proof. exact (finite_global_moved vs). Qed.

Lemma select_moved gm st st' idxs : GR st st' -> rel_res GR (select_geom gm st idxs) (select_geom gm st' idxs).
Proof.
  intros H. destruct H as [|F l b d d' HD|F l b idx bk pts|F l b idx pts ns]; try reflexivity.
  destruct d as [ps bk|gl bk|vv], d' as [ps' bk'|gl' bk'|vv']; try contradiction; cbn [DR] in HD; cbn [select_geom].
  - destruct HD as (-> & ->). apply rel_same. intros bk' _. rewrite mvb_vertices, mvb_directions.
    eapply rel_bind; [apply rel_rmap|]. intros vs ? ->. rewrite take_rmap.
    eapply rel_bind; [apply rel_rmap|]. intros vs1 ? ->.
    eapply rel_bind; [apply rel_rmap|]. intros ds ? ->. rewrite take_rmap.
    eapply rel_bind; [apply rel_rmap|]. intros ds1 ? ->. apply rel_same. intros ps1 _.
    eapply rel_bind; [apply (points_rel finite_point finite_point PR); [apply map3_along|intros; apply finite_point_moved; auto]|].
    intros pts ? ->. cbn [rel_res]. constructor.
  - destruct HD as (HG & ->). apply rel_same. intros bk' _.
    eapply rel_bind; [apply take_rel; eauto|]. intros g g' Hg.
    eapply rel_bind; [apply (points_rel finite_point finite_point PR); [eauto|intros; apply finite_point_moved; auto]|].
    intros pts ? ->. cbn [rel_res]. constructor.
  - eapply rel_bind; [apply take_rel; eauto|]. intros g g' Hg.
    eapply rel_bind; [apply (points_rel _ _ OR); [eauto|intros; apply opt_point_moved; auto]|].
    intros pts ? ->. rewrite mvb_directions.
    eapply rel_bind; [apply rel_rmap|]. intros ds ? ->. rewrite take_rmap.
    eapply rel_bind; [apply rel_rmap|]. intros ds1 ? ->. rewrite normals_moved.
    eapply rel_bind; [apply rel_rmap|]. intros ns ? ->. cbn [rel_res]. constructor.
Qed.

Lemma get_normals_moved st st' : GR st st' -> get_normals st' = rmap (map md) (get_normals st).
Proof.
  intros []; auto. cbn [get_normals rmap]. f_equal. rewrite map_map. apply map_ext. intros k.
  rewrite zaxis_moved. destruct (existsb (Nat.eqb k) bk); auto. rewrite md_vopp. auto.
Qed.
Lemma get_points_moved st st' : GR st st' -> get_points st' = rmap (map mp) (get_points st).
Proof. intros []; auto. Qed.
Lemma up_moved st st' : GR st st' -> Geometry.up st' = rmap md (Geometry.up st).
Proof. intros []; auto; cbn [Geometry.up rmap]; f_equal; apply zaxis_moved. Qed.
End Move.
