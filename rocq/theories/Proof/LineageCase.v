(** A ray with an additional property, reflected by a mirror. *)
From Coq Require Import Reals String List Arith ZArith Bool Lra Lia.
From Verif.Base Require Import Py Num Vec.
From Verif.Model Require Import RayBundle Boundary Geometry Spatial Sources Optics OpticsCallables TraceTree Engine Surface Objects.
From Verif.Proof Require Import ListLemmas NumLemmas VecLemmas MoveCase MoveScale ObjectProof TraceTop.
From Verif.Spec Require Import BundleSpec EngineSpec GeometrySpec OpticsSpec LibrarySpec ModelSpec MoveSpec LawSpec.
Import ListNotations.
Local Open Scope string_scope.
Local Open Scope list_scope.
Local Open Scope R_scope.

Definition coloured : bundle := mkB (Some [V3 0 0 0]) (Some [V3 0 0 1]) (Some [1]) None (Some [1]) [("wavelength", Some [[500]])].
Definition ceiling : surface := MoveScale.mirror 1.
Definition seen : surface := mkS Flat (Absorbing (Reflective 0)) (MoveScale.layer 1) (GFound (MoveScale.layer 1) coloured (DParams [Fin 1] [true])) (Some coloured) None.

Lemma coloured_intersect : intersect_ray surface_ops coloured [ceiling] [0%nat] [(-1)%Z] [[true]] = Ok ([seen], [[true]], [[true]]).
Proof.
  unfold intersect_ray. change (get_num_rays coloured) with (@Ok nat 1%nat). cbn [bind].
  unfold test_surfaces, test_surface. cbn [length Nat.eqb negb andb owned_row map2 Z.eqb Pos.eqb orb any existsb map bind id].
  cbn [register_incoming surface_ops].
  assert (E : surf_register ceiling coloured = Ok (seen, [Fin 1])).
  { pose proof (up_flat 1 ltac:(lra)) as E. unfold surf_register, find_intersections, get_directions, get_vertices.
    cbn [ceiling MoveScale.mirror new_surface s_geom s_opt s_frame coloured b_dir b_vert get_prop bind select same_len length Nat.eqb negb].
    rewrite E. reflexivity. }
  rewrite E. change (count_true [true]) with 1%nat. cbn [bind length Nat.eqb put_mask repeat]. cbn [bind any2 existsb nlt].
  pose proof (tenm_pos 16). assert (E1 : Rltb 1 (- tenm 16) = false) by (rdec; auto; lra). rewrite E1. cbn [orb].
  pose proof (tenm_small 10 ltac:(lia)). assert (E3 : Rleb 1 (tenm 10) = false) by (rdec; auto; lra).
  unfold clear_zeros, any2. cbn [existsb nle]. rewrite E3. cbn [orb]. cbn. rdec; try lra; reflexivity.
Qed.

Lemma coloured_traced : exists vs ds st lvl,
  ray_tracer surface_ops [default_object 1] [ceiling] (mkG quarter nobody) coloured 1 0 TreeTrue = Ok (vs, ds, st) /\
  nth_error (t_tree st) (0 + 1) = Some lvl /\ vert_at lvl 0 = Some (V3 0 0 1) /\ extra_at lvl "wavelength" 0 = Some (PCell [500]).
Proof.
  unfold ray_tracer, start. change (get_num_rays coloured) with (@Ok nat 1%nat). cbn [bind].
  unfold iterate, iteration. cbn [t_bund t_surfs t_own t_rel t_g t_tree].
  change (surf_ownership [default_object 1]) with [0%nat]. cbn [repeat length]. rewrite coloured_intersect. cbn [bind].
  assert (Ep : exists ss g dd ee o, process_surfaces surface_ops [default_object 1] 0 0 [seen]
      (mkG quarter nobody) [[true]] [[true]] =
      Ok (ss, g, [mkBlock o o [false] [(-1)%Z] [[true]]]) /\ o = mkB (Some [V3 0 0 1]) (Some [dd]) (Some [ee]) (Some [0%nat]) (Some [1]) [("wavelength", Some [[500]])]).
  { cbn. unfold surf_select. cbn. replace (0 + 0 * 1) with 0 by ring. replace (0 + 1 * 1) with 1 by ring.
    assert (E1 : Rleb (1 * (1 - 0)) 0 = false) by (rdec; auto; lra). rewrite E1. cbn.
    do 5 eexists. split; reflexivity. }
  destruct Ep as (ss & g & dd & ee & o & E & ->). rewrite E. cbn. do 4 eexists. split; [reflexivity|]. split; [reflexivity|]. split; reflexivity.
Qed.

Lemma ceiling_library : library_assembly [default_object 1] [ceiling].
Proof.
  split; [intros ob [<-|[]]; apply (default_object_ok 1)|]. split; [|reflexivity]. intros s [<-|[]].
  split; [|split; [cbn; lra|split; reflexivity]].
  exists id3, (V3 0 0 1). split; [reflexivity|]. unfold orthonormal, mm3, tr3, of_cols, id3. cbn. parts.
Qed.
Lemma coloured_source : library_source coloured 1.
Proof.
  split.
  - split; [repeat constructor; intros []|]. split; [|split; discriminate].
    split; [eexists; reflexivity|]. intros [| | | | |x] l E; cbn in E; try (injection E as <-; reflexivity); try discriminate E.
    revert E. cbn. match goal with |- context [if ?c then _ else _] => destruct c end; [|discriminate]. intros E. injection E as <-. reflexivity.
  - intros [|[]] d e Hd He; try discriminate. cbn in *. injection Hd as <-. injection He as <-. split; [unfold OpticsSpec.is_unit, dot; cbn; ring|]. split; [lra|]. intros n H. injection H as <-. lra.
Qed.
Lemma quarter_fair : fair quarter.
Proof. intros k. cbn. lra. Qed.
