(** Two mirrors, once with a geometry manager each and once with one between them. *)
From Coq Require Import Reals List Arith ZArith Bool Lra Lia.
From Verif.Base Require Import Py Num Vec.
From Verif.Model Require Import RayBundle Boundary Geometry Spatial Sources Optics OpticsCallables TraceTree Engine Surface Objects SharingEngine.
From Verif.Proof Require Import ListLemmas NumLemmas VecLemmas MoveCase MoveScale.
From Verif.Spec Require Import GeometrySpec LibrarySpec ModelSpec MoveSpec SharingSpec.
Import ListNotations.
Local Open Scope R_scope.

(** Surface number [k] is a mirror at height [k + 1]; [who k] is its geometry manager. *)
Definition mirrors (who : nat -> nat) : heap :=
  mkHp (fun k => mkSO (who k) (Absorbing (Reflective 0)) (layer (INR k + 1)) None None) (fun _ => mkGO Flat GIdle).

Definition own (k : nat) : nat := k.
Definition common (_ : nat) : nat := 0%nat.

Lemma own_unshared : unshared (mirrors own) [0%nat; 1%nat].
Proof. unfold unshared. cbn. apply NoDup_cons; [intros [X|[]]; discriminate X|]. apply NoDup_cons; [intros []|]. apply NoDup_nil. Qed.
Lemma common_shared : ~ unshared (mirrors common) [0%nat; 1%nat].
Proof. unfold unshared. cbn. intros D. apply NoDup_cons_iff in D. apply D. now left. Qed.
Lemma mirrors_seen who : map (surf_at (mirrors who)) [0%nat; 1%nat] = [mirror 1; mirror 2].
Proof. unfold surf_at, mirrors, mirror, new_surface. cbn [map hp_surf hp_geom so_geom so_opt so_frame so_bundle so_selected go_geom go_state INR]. replace (0 + 1) with 1 by lra. replace (1 + 1) with 2 by lra. reflexivity. Qed.

Lemma up_two : intersect_ray surface_ops upward [mirror 1; mirror 2] [0%nat; 0%nat] [(-1)%Z] [[true]; [true]] =
  Ok ([found 1; found 2], [[true]; [false]], [[true]; [true]]).
Proof.
  unfold intersect_ray. change (get_num_rays upward) with (@Ok nat 1%nat). cbn [bind].
  unfold test_surfaces, test_surface. cbn [length Nat.eqb negb andb owned_row map2 Z.eqb Pos.eqb orb any existsb map bind id].
  cbn [register_incoming surface_ops]. rewrite (up_register 1), (up_register 2) by lra.
  change (count_true [true]) with 1%nat. cbn [bind length Nat.eqb put_mask repeat]. cbn [bind any2 existsb nlt].
  pose proof (tenm_pos 16). assert (E1 : Rltb 1 (- tenm 16) = false) by (rdec; auto; lra).
  assert (E2 : Rltb 2 (- tenm 16) = false) by (rdec; auto; lra). rewrite E1, E2. cbn [orb].
  pose proof (tenm_small 10 ltac:(lia)).
  assert (E3 : Rleb 1 (tenm 10) = false) by (rdec; auto; lra). assert (E4 : Rleb 2 (tenm 10) = false) by (rdec; auto; lra).
  unfold clear_zeros, any2. cbn [existsb nle]. rewrite E3, E4. cbn [orb]. cbn.
  rdec; try lra; cbn; rdec; try lra; reflexivity.
Qed.

Lemma two_traced : exists ds st, ray_tracer surface_ops [default_object 2] [mirror 1; mirror 2] (mkG quarter nobody) upward 1 0 TreeFalse = Ok ([V3 0 0 1], ds, st).
Proof.
  unfold ray_tracer, start. change (get_num_rays upward) with (@Ok nat 1%nat). cbn [bind].
  unfold iterate, iteration. cbn [t_bund t_surfs t_own t_rel t_g t_tree].
  change (surf_ownership [default_object 2]) with [0%nat; 0%nat]. cbn [repeat length]. rewrite up_two. cbn [bind].
  assert (Ep : exists ss g dd ee o, process_surfaces surface_ops [default_object 2] 0 0 [found 1; found 2]
      (mkG quarter nobody) [[true]; [false]] [[true]; [true]] =
      Ok (ss, g, [mkBlock o o [false] [(-1)%Z] [[true]; [true]]]) /\ o = mkB (Some [V3 0 0 1]) (Some [dd]) (Some [ee]) (Some [0%nat]) (Some [1]) []).
  { cbn. unfold surf_select. cbn. replace (0 + 0 * 1) with 0 by ring. replace (0 + 1 * 1) with 1 by ring.
    assert (E1 : Rleb (1 * (1 - 0)) 0 = false) by (rdec; auto; lra). rewrite E1. cbn.
    do 5 eexists. split; reflexivity. }
  destruct Ep as (ss & g & dd & ee & o & E & ->). rewrite E. cbn. do 2 eexists. reflexivity.
Qed.

(** The manager after both mirrors have registered: it only knows the second. *)
Definition after : heap :=
  mkHp (upd (upd (hp_surf (mirrors common)) 0 (mkSO 0 (Absorbing (Reflective 0)) (layer 1) (Some upward) None))
            1 (mkSO 0 (Absorbing (Reflective 0)) (layer 2) (Some upward) None))
       (upd (upd (fun _ => mkGO Flat GIdle) 0 (mkGO Flat (GFound (layer 1) upward (DParams [Fin 1] [true]))))
            0 (mkGO Flat (GFound (layer 2) upward (DParams [Fin 2] [true])))).

Lemma common_registered h k d gs : 0 <= d -> hp_surf h k = mkSO 0 (Absorbing (Reflective 0)) (layer d) None None -> hp_geom h 0%nat = mkGO Flat gs ->
  obj_register h k upward = Ok (mkHp (upd (hp_surf h) k (mkSO 0 (Absorbing (Reflective 0)) (layer d) (Some upward) None))
                                     (upd (hp_geom h) 0 (mkGO Flat (GFound (layer d) upward (DParams [Fin d] [true])))), [Fin d]).
Proof.
  intros Hd Hs Hg. pose proof (up_flat d Hd) as E. unfold obj_register. rewrite Hs. cbn [so_geom so_opt so_frame so_bundle so_selected].
  change (hp_geom (put_surf h k (mkSO 0 (Absorbing (Reflective 0)) (layer d) (Some upward) None)) 0%nat) with (hp_geom h 0%nat). rewrite Hg.
  unfold find_intersections, get_directions, get_vertices. cbn [go_geom upward b_dir b_vert get_prop bind select same_len length Nat.eqb negb]. rewrite E. cbn [bind].
  unfold put_geom, put_surf. cbn [hp_geom hp_surf]. rewrite Hg. reflexivity.
Qed.

Lemma common_two : intersect_at object_ops upward (mirrors common) [0%nat; 1%nat] [0%nat; 0%nat] [(-1)%Z] [[true]; [true]] =
  Ok (after, [[true]; [false]], [[true]; [true]]).
Proof.
  unfold intersect_at. change (get_num_rays upward) with (@Ok nat 1%nat). cbn [bind].
  unfold test_all, test_at. cbn [length Nat.eqb negb andb owned_row map2 Z.eqb Pos.eqb orb any existsb map bind id].
  cbn [at_register object_ops].
  rewrite (common_registered (mirrors common) 0 1 GIdle); [|lra|cbn; do 2 f_equal; lra|reflexivity]. change (count_true [true]) with 1%nat. cbn [bind length Nat.eqb].
  erewrite (common_registered _ 1 2); [|lra|cbn; do 2 f_equal; lra|reflexivity].
  change (count_true [true]) with 1%nat. cbn [bind length Nat.eqb put_mask repeat]. cbn [bind any2 existsb nlt hp_surf hp_geom].
  pose proof (tenm_pos 16). assert (E1 : Rltb 1 (- tenm 16) = false) by (rdec; auto; lra).
  assert (E2 : Rltb 2 (- tenm 16) = false) by (rdec; auto; lra). rewrite E1, E2. cbn [orb].
  pose proof (tenm_small 10 ltac:(lia)).
  assert (E3 : Rleb 1 (tenm 10) = false) by (rdec; auto; lra). assert (E4 : Rleb 2 (tenm 10) = false) by (rdec; auto; lra).
  unfold clear_zeros, any2. cbn [existsb nle]. rewrite E3, E4. cbn [orb]. unfold after. cbn.
  rdec; try lra; cbn; rdec; try lra; reflexivity.
Qed.

Lemma common_traced : exists ds st, ray_tracer_at object_ops [default_object 2] (mirrors common) [0%nat; 1%nat] (mkG quarter nobody) upward 1 0 TreeFalse = Ok ([V3 0 0 2], ds, st).
Proof.
  unfold ray_tracer_at, start. change (get_num_rays upward) with (@Ok nat 1%nat). cbn [bind].
  unfold iterate_at, iteration_at. cbn [t_bund t_surfs t_own t_rel t_g t_tree].
  change (surf_ownership [default_object 2]) with [0%nat; 0%nat]. cbn [repeat length]. rewrite common_two. cbn [bind].
  assert (Ep : exists ss g dd ee o, process_all object_ops [default_object 2] 0 0 after [0%nat; 1%nat]
      (mkG quarter nobody) [[true]; [false]] [[true]; [true]] =
      Ok (ss, g, [mkBlock o o [false] [(-1)%Z] [[true]; [true]]]) /\ o = mkB (Some [V3 0 0 2]) (Some [dd]) (Some [ee]) (Some [0%nat]) (Some [1]) []).
  { cbn. unfold obj_select. cbn. replace (0 + 0 * 2) with 0 by ring. replace (0 + 1 * 2) with 2 by ring.
    assert (E1 : Rleb (1 * (1 - 0)) 0 = false) by (rdec; auto; lra). rewrite E1. cbn.
    do 5 eexists. split; reflexivity. }
  destruct Ep as (ss & g & dd & ee & o & E & ->). rewrite E. cbn. do 2 eexists. reflexivity.
Qed.

Theorem shared_differs : exists h ks objs g b vs ds st vs' ds' st',
  NoDup ks /\ map (surf_at h) ks = [mirror 1; mirror 2] /\ ~ unshared h ks /\
  ray_tracer_at object_ops objs h ks g b 1 0 TreeFalse = Ok (vs, ds, st) /\
  ray_tracer surface_ops objs (map (surf_at h) ks) g b 1 0 TreeFalse = Ok (vs', ds', st') /\
  vs = [V3 0 0 2] /\ vs' = [V3 0 0 1].
Proof.
  destruct common_traced as (ds & st & E). destruct two_traced as (ds' & st' & E').
  exists (mirrors common), [0%nat; 1%nat], [default_object 2], (mkG quarter nobody), upward, [V3 0 0 2], ds, st, [V3 0 0 1], ds', st'.
  split; [exact own_unshared|]. split; [apply mirrors_seen|]. split; [apply common_shared|].
  split; [exact E|]. split; [rewrite mirrors_seen; exact E'|]. split; reflexivity.
Qed.
