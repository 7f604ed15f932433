(** Light into glass under an angle, and light on a mirror. *)
From Coq Require Import Reals String List Arith Bool Lra Lia.
From Verif.Base Require Import Py Num Vec.
From Verif.Model Require Import RayBundle Geometry TraceTree Sources Optics OpticsCallables Engine Objects Surface.
From Verif.Proof Require Import VecLemmas NumLemmas OpticsProof OpticsTop SymmetryProof EngineTop TraceTop BackProof.
From Verif.Spec Require Import BundleSpec EngineSpec GeometrySpec GeomIface OpticsSpec LibrarySpec LawSpec BackSpec.
Import ListNotations.
Local Open Scope R_scope.

Definition into_glass : meeting :=
  mkMeeting (new_surface Flat (Refractive 1 (39/25)) id4) true (V3 0 0 0) (V3 0 0 1)
    (V3 (3/5) 0 (-4/5)) (V3 (5/13) 0 (-12/13)) (Some 1) (Some (39/25)).

Lemma glass_lawful : exists f, lawful_meeting into_glass 1 (1 - f).
Proof.
  assert (D : is_unit (V3 (3/5) 0 (-4/5))) by (unfold is_unit; open_vec; lra).
  assert (D' : is_unit (V3 (5/13) 0 (-12/13))) by (unfold is_unit; open_vec; lra).
  assert (N : is_unit (V3 0 0 1)) by (unfold is_unit; open_vec; lra).
  assert (C : can_refract 1 (39/25) (V3 (3/5) 0 (-4/5)) (V3 0 0 1)).
  { apply can_refract_iff; auto; try lra. unfold is_refracted. apply Rleb_true. unfold sq. open_vec. lra. }
  assert (Rd : reflectance_defined 1 (39/25) (V3 (3/5) 0 (-4/5)) (V3 0 0 1)) by (right; lra).
  destruct (fresnel_top 1 (39/25) _ _ ltac:(lra) ltac:(lra) D N C Rd) as (f & _ & Rf & Bf & _).
  exists f. split; [exact D|]. split.
  { exists (V3 0 0 0), (V3 0 0 1). split; [unfold into_glass, app4, id4; cbn; f_equal; ring|]. split.
    - cbn. repeat split; cbn; [apply derivable_pt_lim_const|apply derivable_pt_lim_const|apply derivable_pt_lim_id].
    - split; [exact N|]. split; [exists 1; unfold into_glass; cbn; vunfold; veq; ring|]. cbn. vunfold. lra. }
  cbn [into_glass mt_surf mt_through mt_normal mt_in mt_out mt_before mt_after new_surface s_opt follows].
  exists 1, (39/25), f. split; [auto|]. split; [lra|]. split; [lra|]. split; [split; auto; intros; exfalso; auto|]. split; [exact Bf|].
  split; [auto|]. split; [intros; contradiction|]. split; [auto|]. split; [|split; [ring|auto]].
  split; [exact D'|]. split. { exists (25/39), (-12/13 + 4/5 * (25/39)). open_vec. f_equal; field. }
  split; [open_vec; lra|]. split; [open_vec; lra|]. split; [|open_vec; lra].
  rewrite !unit_cross by auto. open_vec.
  replace (1 - (3 / 5 * 0 + 0 * 0 + -4 / 5 * 1) * (3 / 5 * 0 + 0 * 0 + -4 / 5 * 1)) with ((3/5) * (3/5)) by field.
  replace (1 - (5 / 13 * 0 + 0 * 0 + -12 / 13 * 1) * (5 / 13 * 0 + 0 * 0 + -12 / 13 * 1)) with ((5/13) * (5/13)) by field.
  rewrite !sqrt_square by lra. lra.
Qed.

Lemma back_cases : (exists f, lawful_meeting into_glass 1 (1 - f)) /\ works_back into_glass /\
  dot (mt_in into_glass) (mt_normal into_glass) <> 0 /\
  forall rg, fair rg -> let g := mkG rg (fun _ => mkAcc [] []) in exists vs ds st lvl k,
  library_assembly [default_object 1] one_mirror /\ library_source (drops [1; 2]) 2 /\
  ray_tracer surface_ops [default_object 1] one_mirror g (drops [1; 2]) 3 (1 / 10) TreeTrue = Ok (vs, ds, st) /\
  nth_error (t_tree st) 1 = Some lvl /\ vert_at lvl k = Some (V3 0 0 0) /\
  forall x, In (mt_surf x) one_mirror -> works_back x.
Proof.
  split; [exact glass_lawful|]. split.
  { cbn. split; [auto|]. intros _. vunfold. split; lra. }
  split. { cbn. vunfold. lra. }
  intros rg _ g. destruct (mirror_trace g 3 TreeTrue ltac:(lia)) as (vs & ds & st & E).
  destruct (mirror_level g 3 vs ds st ltac:(lia) E) as (lvl & H & (k & _ & Hk) & _). exists vs, ds, st, lvl, k.
  split; [apply one_mirror_library|]. split; [apply (drops_source [1; 2])|]. split; [exact E|]. split; [exact H|]. split; [exact Hk|].
  intros x [E1|[]]. unfold works_back. rewrite <- E1. exact I.
Qed.
