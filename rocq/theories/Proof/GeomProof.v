(** All geometry managers: the answer for a bundle, ray by ray. *)
From Coq Require Import Reals List Arith Bool Lra Lia Psatz.
From Verif.Base Require Import Py Num Vec.
From Verif.Model Require Import RayBundle Boundary Geometry.
From Verif.Spec Require Import GeometrySpec.
From Verif.Proof Require Import ListLemmas NumLemmas VecLemmas FlatProof QuadProof.
Import ListNotations.
Local Open Scope R_scope.

Definition is_quad (gm : geom) : bool :=
  match gm with
  | Base | Flat | RectPlate _ _ | RoundPlate _ | Triangle _ _ => false
  | _ => true
  end.

(** Classes whose [_select_coords] assigns the selected rows in ray order. *)
Definition regular (gm : geom) : bool :=
  match gm with
  | Base | Hemisphere _ | CutSphere _ (Some _) => false
  | _ => true
  end.

(** [inv] is the inverse of [frame], for the classes that ask for it. *)
Definition inv_for (gm : geom) (frame inv : mat4) : Prop :=
  match gm with
  | Flat | Sphere _ | CutSphere _ _ => True
  | _ => inv4 frame = Ok inv
  end.

Lemma inv_for_of gm frame inv : inv4 frame = Ok inv -> inv_for gm frame inv.
Proof. destruct gm; simpl; auto. Qed.

Definition abc_of (gm : geom) (frame inv : mat4) (v d : vec) : R * R * R :=
  match gm with
  | Sphere r | Hemisphere r | CutSphere r _ => abc_sphere frame r v d
  | Cylinder r | FiniteCyl r _ => to_local frame inv (abc_cylinder r) v d
  | Parab a b | ParabDish a b _ _ | HexDish a b _ => to_local frame inv (abc_parab a b) v d
  | _ => (0, 0, 0)
  end.

Definition ok_of (gm : geom) (inv : mat4) : nvec -> bool :=
  match gm with
  | Hemisphere _ => fun p => nle (ndot4 (q2 inv) p) (Fin 0)
  | FiniteCyl _ half_h => fun p => nle (nabs (ndot4 (q2 inv) p)) (Fin half_h)
  | ParabDish _ _ _ h => fun p => nle (ndot4 (q2 inv) p) (Fin h)
  | HexDish _ _ r => in_hexagon inv r
  | _ => fun _ => true
  end.

Definition out_of (gm : geom) (frame inv : mat4) : nvec -> bool :=
  match gm with
  | RectPlate hw hh => outside_rect inv hw hh
  | RoundPlate r => outside_round inv r
  | Triangle v0 v1 => outside_triangle frame v0 v1
  | _ => fun _ => false
  end.

(** The parameter for one ray. *)
Definition param_of (gm : geom) (frame inv : mat4) (v d : vec) : num :=
  if is_quad gm then quad_param (ok_of gm inv) (abc_of gm frame inv v d) v d
  else trimmed (out_of gm frame inv) v d (flat_param frame v d).

Lemma and_positive_map {X} ok (co : X -> nvec * nvec) (h : X -> num * num) L :
  and_positive ok (map co L) (map h L) = map (fun a => valid2 ok (co a) (h a)) L.
Proof. unfold and_positive. rewrite map2_map. reflexivity. Qed.

Lemma positive2_map {X} (h : X -> num * num) L :
  positive2 (map h L) = map (fun a => (nlt (Fin 0) (fst (h a)), nlt (Fin 0) (snd (h a)))) L.
Proof. unfold positive2. rewrite map_map. reflexivity. Qed.

Lemma Forall2_map_same {X A B} (P : A -> B -> Prop) (f : X -> A) (g : X -> B) L :
  (forall a, P (f a) (g a)) -> Forall2 P (map f L) (map g L).
Proof. intros H. induction L; simpl; constructor; auto. Qed.

Lemma valid2_positive ok p h :
  (fst (valid2 ok p h) = true -> nlt (Fin 0) (fst h) = true) /\
  (snd (valid2 ok p h) = true -> nlt (Fin 0) (snd h) = true).
Proof. unfold valid2; simpl. split; intros H; apply andb_prop in H; tauto. Qed.

Lemma select_and_positive {X} ok (co : X -> nvec * nvec) (h : X -> num * num) L :
  (sel <- select_default (map h L) ;;
   select_valid true_rows sel (and_positive ok (map co L) (map h L))) =
  Ok (map (fun a => pick (valid2 ok (co a) (h a))) L).
Proof.
  rewrite select_default_pick, positive2_map, and_positive_map. cbn [bind].
  rewrite select_valid_pick.
  - rewrite map_map. reflexivity.
  - apply Forall2_map_same. intros a. apply valid2_positive.
Qed.

Lemma select_regular {X} gm frame inv (co : X -> nvec * nvec) (h : X -> num * num) L :
  is_quad gm = true -> regular gm = true -> inv_for gm frame inv ->
  select_coords gm frame (map co L) (map h L) =
  Ok (map (fun a => pick (valid2 (ok_of gm inv) (co a) (h a))) L).
Proof.
  intros Q Rg I.
  assert (D : select_default (map h L) =
     Ok (map (fun a => pick (valid2 (fun _ => true) (co a) (h a))) L)).
  { rewrite select_default_pick, positive2_map, map_map. reflexivity. }
  destruct gm; try discriminate; try destruct bound; try discriminate; cbn [select_coords ok_of];
    try exact D; cbn [inv_for] in I.
  - (* finite cylinder *)
    rewrite I. cbn [bind]. rewrite and_positive_map.
    set (ok := fun p : nvec => nle (nabs (ndot4 (q2 inv) p)) (Fin half_h)).
    set (m := map (fun a => valid2 ok (co a) (h a)) L).
    assert (Lm : length (map h L) = length m) by (unfold m; rewrite !map_length; auto).
    rewrite Lm.
    rewrite fill_mask_map2 by apply repeat_length.
    rewrite assign_xor by (rewrite map2_same_len; auto using repeat_length).
    rewrite map2_compose, map2_repeat by auto. f_equal. unfold m. rewrite map_map.
    apply map_ext. intros a. destruct (valid2 ok (co a) (h a)) as [[|] [|]]; reflexivity.
  - rewrite select_default_pick. cbn [bind]. rewrite I. cbn [bind].
    rewrite <- (select_and_positive _ co h L), select_default_pick. reflexivity.
  - rewrite select_default_pick. cbn [bind]. rewrite I. cbn [bind].
    rewrite <- (select_and_positive _ co h L), select_default_pick. reflexivity.
Qed.

Lemma get_ABC_map {X} (pv pd : X -> vec) gm frame inv l : is_quad gm = true -> inv_for gm frame inv ->
  get_ABC gm frame (map pv l) (map pd l) = Ok (map (fun a => abc_of gm frame inv (pv a) (pd a)) l).
Proof.
  intros Q I. destruct gm; try discriminate; cbn [get_ABC abc_of]; cbn [inv_for] in I; rewrite ?I; cbn [bind];
    rewrite map2_map; auto.
Qed.

Lemma quad_find_regular {X} (pv pd : X -> vec) gm frame inv l :
  is_quad gm = true -> regular gm = true -> inv_for gm frame inv ->
  quad_find gm frame (map pv l) (map pd l) =
    Ok (map (fun a => quad_param (ok_of gm inv) (abc_of gm frame inv (pv a) (pd a)) (pv a) (pd a)) l,
        map (fun a => quad_vert (ok_of gm inv) (abc_of gm frame inv (pv a) (pd a)) (pv a) (pd a)) l).
Proof.
  intros Q Rg I.
  rewrite (quad_find_map pv pd gm frame l (abc_of gm frame inv)
     (fun a => let q := abc_of gm frame inv (pv a) (pd a) in
        pick (valid2 (ok_of gm inv) (two_points (pv a) (pd a) (roots q)) (roots q)))).
  - reflexivity.
  - apply get_ABC_map; auto.
  - intros L HL. rewrite (select_regular gm frame inv) by auto. reflexivity.
Qed.

(** ** [find_intersections] *)

Definition bundle_of (b : bundle) (vs ds : list vec) : Prop :=
  b_vert b = Some vs /\ b_dir b = Some ds /\ length vs = length ds.

Definition found_data (gm : geom) (frame inv : mat4) (vs ds : list vec) : gdata :=
  let ps := map2 (flat_param frame) vs ds in
  let back := map (fun d => Rltb 0 (dot d (zaxis frame))) ds in
  match gm with
  | Flat => DParams ps back
  | RectPlate _ _ | RoundPlate _ | Triangle _ _ =>
      DGlobal (map2 (fun v d => along v d (flat_param frame v d)) vs ds) back
  | _ => DVerts (map2 (fun v d => quad_vert (ok_of gm inv) (abc_of gm frame inv v d) v d) vs ds)
  end.

Lemma find_open b vs ds {A} (k : list vec -> list vec -> res A) : bundle_of b vs ds ->
  (ds' <- get_directions b ;; vs' <- get_vertices b ;;
   if negb (same_len ds' vs') then Err ValueError else k vs' ds') = k vs ds.
Proof.
  intros (Ev & Ed & L). unfold get_directions, get_vertices, get_prop. rewrite Ev, Ed. cbn [bind select].
  unfold same_len. rewrite L, Nat.eqb_refl. reflexivity.
Qed.

Lemma find_regular gm frame inv b vs ds :
  regular gm = true -> inv_for gm frame inv -> bundle_of b vs ds ->
  find_intersections gm frame b =
    Ok (GFound frame b (found_data gm frame inv vs ds), map2 (param_of gm frame inv) vs ds).
Proof.
  intros Rg I Hb. pose proof Hb as (_ & _ & L).
  pose proof (combine_fst vs ds L) as E1. pose proof (combine_snd vs ds L) as E2.
  revert E1 E2. generalize (combine vs ds) as l. intros l E1 E2. subst vs ds.
  set (vs := map fst l) in *. set (ds := map snd l) in *.
  destruct (is_quad gm) eqn:Q.
  - assert (E : find_intersections gm frame b =
      ('(ps, verts) <- quad_find gm frame vs ds ;; Ok (GFound frame b (DVerts verts), ps))).
    { destruct gm; try discriminate;
        exact (find_open b vs ds (fun vs ds => '(ps, verts) <- quad_find _ frame vs ds ;;
           Ok (GFound frame b (DVerts verts), ps)) Hb). }
    rewrite E. unfold vs, ds. rewrite (quad_find_regular fst snd gm frame inv _ Q Rg I). cbn [bind].
    rewrite map2_map.
    replace (found_data gm frame inv (map fst l) (map snd l))
      with (DVerts (map2 (fun v d => quad_vert (ok_of gm inv) (abc_of gm frame inv v d) v d)
              (map fst l) (map snd l)))
      by (destruct gm; try discriminate; reflexivity).
    rewrite map2_map. unfold param_of. rewrite Q. reflexivity.
  - assert (E : find_intersections gm frame b =
      (let '(ps, back) := flat_find frame vs ds in
       match gm with
       | Flat => Ok (GFound frame b (DParams ps back), ps)
       | _ => inv <- inv4 frame ;;
              Ok (GFound frame b (DGlobal (finite_global vs ds ps) back),
                  trim (out_of gm frame inv) (finite_global vs ds ps) ps)
       end)).
    { destruct gm; try discriminate.
      - exact (find_open b vs ds (fun vs ds => let '(ps, back) := flat_find frame vs ds in
           Ok (GFound frame b (DParams ps back), ps)) Hb).
      - exact (find_open b vs ds (fun vs ds => let '(ps, back) := flat_find frame vs ds in
           inv <- inv4 frame ;;
              Ok (GFound frame b (DGlobal (finite_global vs ds ps) back),
                  trim (out_of (RectPlate hw hh) frame inv) (finite_global vs ds ps) ps)) Hb).
      - exact (find_open b vs ds (fun vs ds => let '(ps, back) := flat_find frame vs ds in
           inv <- inv4 frame ;;
              Ok (GFound frame b (DGlobal (finite_global vs ds ps) back),
                  trim (out_of (RoundPlate radius) frame inv) (finite_global vs ds ps) ps)) Hb).
      - exact (find_open b vs ds (fun vs ds => let '(ps, back) := flat_find frame vs ds in
           inv <- inv4 frame ;;
              Ok (GFound frame b (DGlobal (finite_global vs ds ps) back),
                  trim (out_of (Triangle v0 v1) frame inv) (finite_global vs ds ps) ps)) Hb). }
    rewrite E, flat_find_map by auto.
    assert (G : finite_global vs ds (map2 (flat_param frame) vs ds) =
                map2 (fun v d => along v d (flat_param frame v d)) vs ds).
    { unfold finite_global. unfold vs, ds. rewrite !map2_map, map3_map. reflexivity. }
    assert (T : trim (out_of gm frame inv) (map2 (fun v d => along v d (flat_param frame v d)) vs ds)
                  (map2 (flat_param frame) vs ds) = map2 (param_of gm frame inv) vs ds).
    { unfold trim. unfold vs, ds. rewrite !map2_map, map_map, fill_mask_pointwise.
      apply map_ext. intros a. unfold param_of, trimmed. rewrite Q. reflexivity. }
    rewrite G. destruct gm; try discriminate; cbn [inv_for] in I; rewrite ?I; cbn [bind];
      unfold found_data; try rewrite T; try reflexivity.
Qed.

(** ** Hemisphere and cut sphere, one ray *)
Lemma select_rows_single pos valid :
  (fst valid = true -> fst pos = true) /\ (snd valid = true -> snd pos = true) ->
  select_valid rows_major [pick pos] [valid] = Ok [pick valid].
Proof.
  destruct pos as [p0 p1], valid as [v0 v1]. simpl. intros (H0 & H1).
  unfold select_valid, assign_sel. destruct v0, v1; simpl; auto.
  unfold pick. simpl. rewrite H0 by auto. reflexivity.
Qed.

(** Test of a bounding volume placed by [frame]. *)
Definition bound_test (bd : bshape) (frame : mat4) (okb : nvec -> bool) : Prop :=
  forall p q, in_bounds (transform_frame_b bd frame) [p; q] = Ok [okb p; okb q].

Definition single_ok (gm : geom) (frame inv : mat4) (okb : nvec -> bool) : Prop :=
  match gm with
  | CutSphere _ (Some bd) => bound_test bd frame okb
  | _ => okb = ok_of gm inv
  end.

Lemma select_single gm frame inv okb v d h :
  is_quad gm = true -> inv_for gm frame inv -> single_ok gm frame inv okb ->
  select_coords gm frame [two_points v d h] [h] = Ok [pick (valid2 okb (two_points v d h) h)].
Proof.
  intros Q I S.
  destruct (regular gm) eqn:Rg.
  - assert (okb = ok_of gm inv) as ->.
    { destruct gm; try discriminate; try exact S. destruct bound; [discriminate|exact S]. }
    exact (select_regular gm frame inv (fun _ : unit => two_points v d h) (fun _ => h) [tt] Q Rg I).
  - destruct gm; try discriminate.
    + simpl in S, I. subst okb. cbn [select_coords ok_of].
      rewrite select_default_pick. cbn [bind]. rewrite I. cbn [bind positive2 map].
      apply (select_rows_single (nlt (Fin 0) (fst h), nlt (Fin 0) (snd h))).
      apply (valid2_positive (ok_of (Hemisphere radius) inv) (two_points v d h) h).
    + destruct bound as [bd|]; [|discriminate]. cbn [select_coords]. cbn [single_ok] in S.
      rewrite select_default_pick. cbn [bind positive2 map].
      unfold mapM. cbn [map sequence]. rewrite S. cbn [bind map2 nth].
      apply (select_rows_single (nlt (Fin 0) (fst h), nlt (Fin 0) (snd h))).
      apply (valid2_positive okb (two_points v d h) h).
Qed.

Lemma find_single gm frame inv okb b v d :
  is_quad gm = true -> inv_for gm frame inv -> single_ok gm frame inv okb ->
  bundle_of b [v] [d] ->
  find_intersections gm frame b =
    Ok (GFound frame b (DVerts [quad_vert okb (abc_of gm frame inv v d) v d]),
        [quad_param okb (abc_of gm frame inv v d) v d]).
Proof.
  intros Q I S Hb.
  assert (E : find_intersections gm frame b =
      ('(ps, verts) <- quad_find gm frame [v] [d] ;; Ok (GFound frame b (DVerts verts), ps))).
  { destruct gm; try discriminate;
      exact (find_open b [v] [d] (fun vs ds => '(ps, verts) <- quad_find _ frame vs ds ;;
           Ok (GFound frame b (DVerts verts), ps)) Hb). }
  rewrite E.
  pose proof (quad_find_map (fun _ : unit => v) (fun _ => d) gm frame [tt] (abc_of gm frame inv)
     (fun _ => let q := abc_of gm frame inv v d in
        pick (valid2 okb (two_points v d (roots q)) (roots q)))) as K.
  cbn [map] in K. rewrite K.
  - reflexivity.
  - exact (get_ABC_map (fun _ : unit => v) (fun _ => d) gm frame inv [tt] Q I).
  - cbn [filter]. destruct (has_roots _) eqn:Hr; [|congruence]. intros _. cbn [map].
    apply select_single with (inv := inv); auto.
Qed.

(** ** Regular classes, whatever the frame *)
Lemma find_inv gm frame b st ps : regular gm = true -> find_intersections gm frame b = Ok (st, ps) ->
  exists inv, inv_for gm frame inv.
Proof.
  intros Rg H. destruct (inv4 frame) as [inv|e] eqn:I; [exists inv; apply inv_for_of; auto|].
  destruct gm; try discriminate; try (exists id4; exact Logic.I); exfalso; revert H;
    unfold find_intersections;
    destruct (get_directions b) as [ds|]; cbn [bind]; try discriminate;
    destruct (get_vertices b) as [vs|]; cbn [bind]; try discriminate;
    destruct (negb _); try discriminate; unfold quad_find; cbn [get_ABC];
    try destruct (flat_find _ _ _); rewrite ?I; discriminate.
Qed.

Lemma find_bundle gm frame b st ps : find_intersections gm frame b = Ok (st, ps) ->
  exists vs ds, bundle_of b vs ds.
Proof.
  intros H. unfold bundle_of.
  assert (G : exists vs ds, get_vertices b = Ok vs /\ get_directions b = Ok ds /\ length vs = length ds).
  { destruct gm; try discriminate; revert H; unfold find_intersections;
      (destruct (get_directions b) as [ds|]; cbn [bind]; try discriminate);
      (destruct (get_vertices b) as [vs|]; cbn [bind]; try discriminate);
      unfold same_len; destruct (Nat.eqb_spec (length ds) (length vs)) as [E|]; cbn [negb]; try discriminate;
      intros _; exists vs, ds; auto. }
  destruct G as (vs & ds & Hv & Hd & L). exists vs, ds.
  unfold get_vertices, get_directions, get_prop in *.
  destruct (b_vert b); [|discriminate]. destruct (b_dir b); [|discriminate].
  simpl in Hv, Hd. injection Hv as ->. injection Hd as ->. auto.
Qed.

Lemma find_proper gm frame b st ps : regular gm = true -> find_intersections gm frame b = Ok (st, ps) ->
  Forall proper_param ps.
Proof.
  intros Rg H. destruct (find_inv _ _ _ _ _ Rg H) as (inv & I).
  destruct (find_bundle _ _ _ _ _ H) as (vs & ds & Hb).
  rewrite (find_regular gm frame inv b vs ds Rg I Hb) in H. injection H as _ <-.
  apply Forall_forall. intros x Hx. apply In_nth_error in Hx as (i & Hi).
  rewrite map2_nth_error in Hi. destruct (nth_error vs i) as [v|]; [|discriminate].
  destruct (nth_error ds i) as [d|]; [|discriminate]. injection Hi as <-.
  unfold param_of. destruct (is_quad gm); [apply quad_param_proper|].
  unfold trimmed. destruct (out_of _ _ _ _); [exact Logic.I|apply flat_param_proper].
Qed.
