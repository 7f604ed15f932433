(** A scattering surface: turning the scene does not turn the random directions. *)
From Coq Require Import Reals List Arith ZArith Bool Lra Lia.
From Verif.Base Require Import Py Num Vec.
From Verif.Model Require Import RayBundle Boundary Geometry Spatial Sources Optics OpticsCallables TraceTree Engine Surface Objects.
From Verif.Proof Require Import ListLemmas NumLemmas VecLemmas SimProof SpatialProof PlaceProof MoveBundle MoveGeom MoveOptics MoveTop.
From Verif.Spec Require Import GeometrySpec LibrarySpec ModelSpec MoveSpec.
Import ListNotations.
Local Open Scope R_scope.

Definition down (e : R) : bundle :=
  mkB (Some [V3 0 0 1]) (Some [V3 0 0 (-1)]) (Some [e]) None (Some [1]) [].
Definition matte (f : mat4) : surface := new_surface Flat (Absorbing (Lambertian 0)) f.
Definition quarter : rng := mkRng (fun _ => 1 / 4) 0.
Definition nobody : nat -> account := fun _ => mkAcc [] [].

Lemma tenm_small k : (0 < k)%nat -> tenm k < 1.
Proof. intros H. pose proof (tenm_lt 0 k H). replace (tenm 0) with 1 in H0 by (unfold tenm; simpl; lra). exact H0. Qed.

Lemma down_flat f : zaxis f = V3 0 0 1 -> loc_of f = V3 0 0 0 ->
  flat_find f [V3 0 0 1] [V3 0 0 (-1)] = ([Fin 1], [false]).
Proof.
  intros Z L. unfold flat_find. rewrite Z, L. cbn [map]. pose proof (tenm_small 10 ltac:(lia)). pose proof (tenm_pos 10).
  assert (E : dot (V3 0 0 (-1)) (V3 0 0 1) = -1) by (cbn; ring). rewrite E.
  assert (E1 : Rltb (tenm 10) (Rabs (-1)) = true) by (rdec; auto; rewrite Rabs_left in *; lra). rewrite E1.
  assert (E2 : Rltb 0 (-1) = false) by (rdec; auto; lra). rewrite E2. cbn [mask_select map map2 put_mask length repeat].
  replace (- dot (V3 0 0 1) (vsub (V3 0 0 1) (V3 0 0 0)) / -1) with 1 by (cbn; field).
  assert (E3 : nlt (Fin 1) (Fin 0) = false) by (cbn [nlt]; rdec; auto; lra). rewrite E3. reflexivity.
Qed.
Lemma down_find f e : zaxis f = V3 0 0 1 -> loc_of f = V3 0 0 0 ->
  find_intersections Flat f (down e) = Ok (GFound f (down e) (DParams [Fin 1] [false]), [Fin 1]).
Proof.
  intros Z L. pose proof (down_flat f Z L) as E. unfold find_intersections, get_directions, get_vertices.
  cbn [down b_dir b_vert get_prop bind select same_len length Nat.eqb negb]. rewrite E. reflexivity.
Qed.

Definition outward : vec := mv3 (rotation_to_z (V3 0 0 1)) (pillbox_direction (PI / 2) (2 * PI * (1 / 4)) (1 * (1 / 4))).
Definition after (e : R) : bundle :=
  mkB (Some [V3 0 0 0]) (Some [outward]) (Some [e * (1 - 0)]) (Some [0%nat]) (Some [1]) [].
Definition hit (f : mat4) (e : R) : surface :=
  mkS Flat (Absorbing (Lambertian 0)) f (GSelFlat f (down e) [0%nat] [] [V3 0 0 0]) (Some (down e)) (Some [0%nat]).

Lemma down_select f e : select_geom Flat (GFound f (down e) (DParams [Fin 1] [false])) [0%nat] =
  Ok (GSelFlat f (down e) [0%nat] [] [V3 0 0 0]).
Proof.
  cbn. unfold finite_point. cbn. 
  replace (0 + 0 * 1) with 0 by ring. replace (1 + -1 * 1) with 0 by ring. reflexivity.
Qed.
Lemma down_out f e : zaxis f = V3 0 0 1 -> exists g, surf_outgoing (hit f e) (mkG quarter nobody) = Ok (after e, g).
Proof.
  intros Z. eexists. unfold surf_outgoing, hit. cbn [s_bundle s_selected s_opt s_gstate call_optics call_absorbing g_rng].
  unfold call_lambertian. unfold pillbox_sunshape_directions, uniform. 
  cbn [length quarter draws drawn seq map map2 get_normals existsb same_len Nat.eqb negb bind Nat.add]. rewrite Z.
  reflexivity.
Qed.

Lemma down_traced f e : zaxis f = V3 0 0 1 -> loc_of f = V3 0 0 0 -> 0 < e ->
  exists st, ray_tracer surface_ops [default_object 1] [matte f] (mkG quarter nobody) (down e) 1 0 TreeFalse =
    Ok ([V3 0 0 0], [outward], st).
Proof.
  intros Z L He. destruct (down_out f e Z) as (g & Eo). eexists. unfold ray_tracer, start. 
  change (get_num_rays (down e)) with (@Ok nat 1%nat). cbn [bind].
  unfold iterate, iteration. cbn [t_bund t_surfs t_own t_rel t_g t_tree].
  assert (Ei : intersect_ray surface_ops (down e) [matte f] (surf_ownership [default_object 1]) (repeat (-1)%Z 1) (repeat (repeat true 1) (length [matte f])) =
    Ok ([mkS Flat (Absorbing (Lambertian 0)) f (GFound f (down e) (DParams [Fin 1] [false])) (Some (down e)) None], [[true]], [[true]])).
  { unfold intersect_ray. change (get_num_rays (down e)) with (@Ok nat 1%nat). cbn [bind].
    unfold surf_ownership. cbn [default_object o_nsurf length seq combine map fst snd repeat concat app].
    unfold test_surfaces, test_surface. cbn [length Nat.eqb negb andb owned_row map2 Z.eqb Pos.eqb orb any existsb map bind id].
    cbn [register_incoming surface_ops]. unfold surf_register. cbn [matte new_surface s_geom s_frame]. rewrite (down_find f e Z L).
    cbn [bind length count_true Nat.eqb put_mask repeat any2 existsb nlt].
    cbn. pose proof (tenm_pos 16). assert (E1 : Rltb 1 (- tenm 16) = false) by (rdec; auto; lra). rewrite E1. cbn [orb].
    assert (E2 : clear_zeros [[Fin 1]] = [[Fin 1]]).
    { unfold clear_zeros, any2. cbn [existsb nle]. pose proof (tenm_small 10 ltac:(lia)).
      assert (E2 : Rleb 1 (tenm 10) = false) by (rdec; auto; lra). rewrite E2. reflexivity. }
    rewrite E2. cbn. assert (E3 : Reqb 1 1 = true) by (rdec; auto; lra). rewrite E3. reflexivity. }
  assert (Ep : process_surfaces surface_ops [default_object 1] 0 0
      [mkS Flat (Absorbing (Lambertian 0)) f (GFound f (down e) (DParams [Fin 1] [false])) (Some (down e)) None]
      (mkG quarter nobody) [[true]] [[true]] =
    Ok ([surf_done (hit f e)], g, [mkBlock (after e) (after e) [false] [(-1)%Z] [[true]]])).
  { unfold process_surfaces, process_surface. cbn [mask_select any existsb orb negb nonzero].
    change (nonzero [true]) with [0%nat]. cbn [select_rays surface_ops surf_select s_geom s_gstate s_opt s_frame s_bundle].
    unfold surf_select. cbn [s_geom s_gstate s_opt s_frame s_bundle]. rewrite down_select. cbn [bind].
    change (mkS Flat (Absorbing (Lambertian 0)) f (GSelFlat f (down e) [0%nat] [] [V3 0 0 0]) (Some (down e)) (Some [0%nat])) with (hit f e).
    cbn [get_outgoing surface_ops]. rewrite Eo. cbn [bind].
    cbn. assert (E1 : Rleb (e * (1 - 0)) 0 = false) by (rdec; auto; lra). rewrite E1. reflexivity. }
  rewrite Ei. cbn [bind]. rewrite Ep. cbn [bind]. cbn. reflexivity.
Qed.

Definition quarter_turn : mat4 := mk4 (M3 (V3 0 (-1) 0) (V3 1 0 0) (V3 0 0 1)) (V3 0 0 0).
Ltac parts := repeat match goal with |- @eq R _ _ => ring | _ => progress f_equal end.
Lemma quarter_rigid : rigid quarter_turn.
Proof.
  unfold rigid. do 2 eexists. split; [reflexivity|]. unfold orthonormal, mm3, tr3, of_cols, id3. cbn. parts.
Qed.

Lemma outward_y : vx outward = 0 /\ vy outward = 1 / 2.
Proof.
  unfold outward, rotation_to_z. cbn [vx vy].
  assert (E : veqb (V3 0 (- 0) 0) vzero = true) by (unfold veqb; cbn; rdec; cbn; auto; rdec; auto; lra).
  rewrite E. replace (norm2 (V3 1 0 0)) with 1 by (cbn; ring). rewrite sqrt_1.
  unfold pillbox_direction. replace (2 * PI * (1 / 4)) with (PI / 2) by field. rewrite sin_PI2, cos_PI2.
  replace (1 * (1 / 4)) with (1 / 2 * (1 / 2)) by field. rewrite sqrt_square by lra.
  rewrite sin_asin by lra. cbn. split; field.
Qed.

Theorem random_stays : exists T objs surfs g b, rigid T /\
  (forall s, In s surfs -> idle s /\ affine (s_frame s)) /\ (forall ob, In ob objs -> indifferent T 1 ob) /\
  moved_shared T 1 g g /\
  exists vs ds st st', ray_tracer surface_ops objs surfs g b 1 0 TreeFalse = Ok (vs, ds, st) /\
    ray_tracer surface_ops objs (map (moved_surface T) surfs) g (moved_bundle T 1 b) 1 0 TreeFalse = Ok (map (app4 T) vs, ds, st') /\
    map (turned T) ds <> ds.
Proof.
  exists quarter_turn, [default_object 1], [matte id4], (mkG quarter nobody), (down 1).
  split; [apply quarter_rigid|]. split.
  { intros s [<-|[]]. split; [split; reflexivity|reflexivity]. }
  split. { intros ob [<-|[]]. apply standard_indifferent. }
  split. { split; [reflexivity|]. intros id. reflexivity. }
  destruct (down_traced id4 1) as (st & E); [reflexivity|reflexivity|lra|].
  destruct (down_traced (mm4 quarter_turn id4) 1) as (st' & E'); [cbv [zaxis loc_of mm4 quarter_turn id4]; cbn; parts|cbv [zaxis loc_of mm4 quarter_turn id4]; cbn; parts|lra|].
  do 2 eexists. exists st, st'. split; [exact E|]. split.
  - replace (moved_bundle quarter_turn 1 (down 1)) with (down 1).
    + replace (map (moved_surface quarter_turn) [matte id4]) with [matte (mm4 quarter_turn id4)] by reflexivity. rewrite E'.
      cbn. parts.
    + unfold moved_bundle, down, turned, quarter_turn. rewrite rot_mk4. cbn. parts.
  - cbn [map]. intros H. assert (H1 : turned quarter_turn outward = outward) by congruence.
    pose proof outward_y as Hxy. revert H1 Hxy. clear. generalize outward. intros [x y z] H1 (Hx & Hy).
    apply (f_equal vx) in H1. unfold turned, quarter_turn in H1. rewrite rot_mk4 in H1. cbn in H1, Hx, Hy. lra.
Qed.
