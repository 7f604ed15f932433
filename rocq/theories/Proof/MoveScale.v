(** Two mirrors close together: the same scene enlarged gives another picture. *)
From Coq Require Import Reals List Arith ZArith Bool Lra Lia.
From Verif.Base Require Import Py Num Vec.
From Verif.Model Require Import RayBundle Boundary Geometry Spatial Sources Optics OpticsCallables TraceTree Engine Surface Objects.
From Verif.Proof Require Import ListLemmas NumLemmas VecLemmas MoveCase.
From Verif.Spec Require Import GeometrySpec LibrarySpec ModelSpec MoveSpec.
Import ListNotations.
Local Open Scope R_scope.

Definition upward : bundle := mkB (Some [V3 0 0 0]) (Some [V3 0 0 1]) (Some [1]) None (Some [1]) [].
Definition layer (d : R) : mat4 := mk4 id3 (V3 0 0 d).
Definition mirror (d : R) : surface := new_surface Flat (Absorbing (Reflective 0)) (layer d).
Definition found (d : R) : surface :=
  mkS Flat (Absorbing (Reflective 0)) (layer d) (GFound (layer d) upward (DParams [Fin d] [true])) (Some upward) None.

Lemma up_flat d : 0 <= d -> flat_find (layer d) [V3 0 0 0] [V3 0 0 1] = ([Fin d], [true]).
Proof.
  intros Hd. unfold flat_find. change (zaxis (layer d)) with (V3 0 0 1). change (loc_of (layer d)) with (V3 0 0 d).
  cbn [map]. pose proof (tenm_small 10 ltac:(lia)). pose proof (tenm_pos 10).
  assert (E : dot (V3 0 0 1) (V3 0 0 1) = 1) by (cbn; ring). rewrite E.
  assert (E1 : Rltb (tenm 10) (Rabs 1) = true) by (rdec; auto; rewrite Rabs_right in *; lra). rewrite E1.
  assert (E2 : Rltb 0 1 = true) by (rdec; auto; lra). rewrite E2. cbn [mask_select map map2 put_mask length repeat].
  replace (- dot (V3 0 0 1) (vsub (V3 0 0 0) (V3 0 0 d)) / 1) with d by (cbn; field).
  assert (E3 : nlt (Fin d) (Fin 0) = false) by (cbn [nlt]; rdec; auto; lra). rewrite E3. reflexivity.
Qed.
Lemma up_register d : 0 <= d -> surf_register (mirror d) upward = Ok (found d, [Fin d]).
Proof.
  intros Hd. pose proof (up_flat d Hd) as E. unfold surf_register, find_intersections, get_directions, get_vertices.
  cbn [mirror new_surface s_geom s_opt s_frame upward b_dir b_vert get_prop bind select same_len length Nat.eqb negb].
  rewrite E. reflexivity.
Qed.

Lemma up_tested d : 0 <= d -> test_surfaces surface_ops upward 1 [(-1)%Z] [mirror 0; mirror d] [0%nat; 0%nat] [[true]; [true]] =
  Ok ([found 0; found d], [[Fin 0]; [Fin d]], [[true]; [true]]).
Proof.
  intros Hd. unfold test_surfaces, test_surface. cbn [length Nat.eqb negb andb owned_row map2 Z.eqb Pos.eqb orb any existsb map bind id].
  cbn [register_incoming surface_ops]. rewrite (up_register 0), (up_register d) by lra.
  cbn [bind length count_true Nat.eqb put_mask repeat]. reflexivity.
Qed.

Lemma up_intersect d : 0 < d -> intersect_ray surface_ops upward [mirror 0; mirror d] [0%nat; 0%nat] [(-1)%Z] [[true]; [true]] =
  Ok ([found 0; found d], [[false]; [Rltb (tenm 6) d]], [[true]; [true]]).
Proof.
  intros Hd. unfold intersect_ray. change (get_num_rays upward) with (@Ok nat 1%nat). cbn [bind].
  rewrite up_tested by lra. cbn [bind any2 existsb nlt].
  pose proof (tenm_pos 16). assert (E1 : Rltb 0 (- tenm 16) = false) by (rdec; auto; lra).
  assert (E2 : Rltb d (- tenm 16) = false) by (rdec; auto; lra). rewrite E1, E2. cbn [orb].
  pose proof (tenm_pos 10). pose proof (tenm_pos 6).
  assert (E3 : Rleb 0 (tenm 10) = true) by (rdec; auto; lra). unfold clear_zeros, any2. cbn [existsb nle]. rewrite E3. cbn [orb map nle].
  assert (E4 : Rleb 0 (tenm 6) = true) by (rdec; auto; lra). rewrite E4.
  destruct (Rlt_le_dec (tenm 6) d) as [E|E].
  - assert (E5 : Rltb (tenm 6) d = true) by (rdec; auto; lra). rewrite E5. assert (E6 : Rleb d (tenm 6) = false) by (rdec; auto; lra). rewrite E6. cbn.
    assert (E7 : Reqb d d = true) by (rdec; auto; lra). rewrite ?E7. reflexivity.
  - assert (E5 : Rltb (tenm 6) d = false) by (rdec; auto; lra). rewrite E5. assert (E6 : Rleb d (tenm 6) = true) by (rdec; auto; lra). rewrite E6. cbn. reflexivity.
Qed.

Lemma up_traced d : 0 < d ->
  exists st vs ds, ray_tracer surface_ops [default_object 2] [mirror 0; mirror d] (mkG quarter nobody) upward 1 0 TreeFalse = Ok (vs, ds, st) /\
    vs = (if Rltb (tenm 6) d then [V3 0 0 d] else []).
Proof.
  intros Hd. unfold ray_tracer, start.
  change (get_num_rays upward) with (@Ok nat 1%nat). cbn [bind].
  unfold iterate, iteration. cbn [t_bund t_surfs t_own t_rel t_g t_tree].
  change (surf_ownership [default_object 2]) with [0%nat; 0%nat]. cbn [repeat length]. rewrite up_intersect by lra. cbn [bind].
  destruct (Rltb (tenm 6) d).
  - assert (Ep : exists ss g dd ee o, process_surfaces surface_ops [default_object 2] 0 0 [found 0; found d]
      (mkG quarter nobody) [[false]; [true]] [[true]; [true]] =
      Ok (ss, g, [mkBlock o o [false] [(-1)%Z] [[true]; [true]]]) /\ o = mkB (Some [V3 0 0 d]) (Some [dd]) (Some [ee]) (Some [0%nat]) (Some [1]) []).
    { cbn. unfold surf_select. cbn. 
      replace (0 + 0 * d) with 0 by ring. replace (0 + 1 * d) with d by ring.
      assert (E1 : Rleb (1 * (1 - 0)) 0 = false) by (rdec; auto; lra). rewrite E1. cbn.
      do 5 eexists. split; reflexivity. }
    destruct Ep as (ss & g & dd & ee & o & E & ->). rewrite E. cbn. do 3 eexists. split; reflexivity.
  - assert (Ep : process_surfaces surface_ops [default_object 2] 0 0 [found 0; found d]
      (mkG quarter nobody) [[false]; [false]] [[true]; [true]] = Ok ([surf_done (found 0); surf_done (found d)], mkG quarter nobody, [])) by reflexivity.
    rewrite Ep. cbn. do 3 eexists. split; reflexivity.
Qed.

Theorem enlarged_differs : exists k objs surfs g b vs ds st vs' ds' st', 0 < k /\
  (forall s, In s surfs -> idle s /\ rigid (s_frame s) /\ s_geom s = Flat /\ not_random (s_opt s)) /\
  ray_tracer surface_ops objs surfs g b 1 0 TreeFalse = Ok (vs, ds, st) /\
  ray_tracer surface_ops objs (map (enlarged_flat k) surfs) g (enlarged_bundle k b) 1 0 TreeFalse = Ok (vs', ds', st') /\
  vs' <> map (vscale k) vs.
Proof.
  pose proof (tenm_pos 6) as P. pose proof (tenm_pos 7) as P7. assert (L : tenm 7 < tenm 6) by (apply tenm_lt; lia).
  destruct (up_traced (tenm 7) P7) as (st & vs & ds & E & Ev).
  destruct (up_traced (100 * tenm 7)) as (st' & vs' & ds' & E' & Ev'); [lra|].
  exists 100, [default_object 2], [mirror 0; mirror (tenm 7)], (mkG quarter nobody), upward, vs, ds, st, vs', ds', st'.
  split; [lra|]. split.
  { assert (R : forall d, rigid (layer d)). { intros d. exists id3, (V3 0 0 d). split; [reflexivity|]. unfold orthonormal, mm3, tr3, of_cols, id3. cbn. parts. }
    intros s [<-|[<-|[]]]; (split; [split; reflexivity|split; [apply R|split; [reflexivity|exact I]]]). }
  split; [exact E|]. split.
  - replace (enlarged_bundle 100 upward) with upward by (unfold enlarged_bundle, upward; cbn; parts).
    replace (map (enlarged_flat 100) [mirror 0; mirror (tenm 7)]) with [mirror 0; mirror (100 * tenm 7)]; auto.
    unfold enlarged_flat, mirror, new_surface, layer. cbn [map s_geom s_opt s_frame s_gstate s_bundle s_selected]. 
    rewrite !rot_mk4, !loc_mk4. cbn. parts.
  - subst vs vs'. assert (T7 : 10 * tenm 7 = tenm 6) by (unfold tenm; cbn; field).
    assert (E1 : Rltb (tenm 6) (tenm 7) = false) by (rdec; auto; lra).
    assert (E2 : Rltb (tenm 6) (100 * tenm 7) = true) by (rdec; auto; lra). rewrite E1, E2. discriminate.
Qed.
