(** A drop of water of radius 5 about (1, 2, 3), and a ray that comes in at Brewster's angle. *)
From Coq Require Import Reals List Arith Bool Lra Lia.
From Verif.Base Require Import Py Num Vec.
From Verif.Model Require Import RayBundle Boundary Geometry TraceTree Sources OpticsCallables Engine Objects Surface.
From Verif.Proof Require Import ListLemmas NumLemmas VecLemmas GeomCases ObjectProof ProcessProof EngineTop TraceTop LibraryTop OpticsTop AnswerProof SymmetryProof BallProof DropProof DropTop.
From Verif.Spec Require Import BundleSpec EngineSpec GeometrySpec GeomIface OpticsSpec LibrarySpec ModelSpec LawSpec BallSpec DropSpec.
Import ListNotations.
Local Open Scope R_scope.

Definition water : surface := new_surface (Sphere 5) (Refractive 1 (4/3)) (mk4 id3 (V3 1 2 3)).
Definition sunbeam : bundle := mkB (Some [V3 5 2 (- 7)]) (Some [V3 0 0 1]) (Some [1]) None (Some [1]) [].

Lemma water_library : answering_assembly [default_object 1] [water].
Proof.
  split; [split; [|split; [|reflexivity]]|split; [discriminate|split]].
  - intros ob [<-|[]]. apply default_object_ok.
  - intros s [<-|[]]. split; [|split; [cbn; lra|split; reflexivity]]. exists id3, (V3 1 2 3). split; [reflexivity|apply id_ok].
  - intros ob [<-|[]]. apply default_object_ok.
  - intros s [<-|[]]. split; cbn; auto; try lra.
Qed.
Lemma sunbeam_source : library_source sunbeam 1.
Proof.
  split.
  - split; [|split; [|split; discriminate]]. { constructor. }
    split; [eexists; reflexivity|]. intros p l H. destruct p; cbn in H; try discriminate; injection H as <-; reflexivity.
  - intros [|[|k]] d e D E; try discriminate. unfold dir_at, energy_at, at_col in D, E. cbn in D, E.
    assert (d = V3 0 0 1) by congruence. assert (e = 1) by congruence. subst. split; [|split; [lra|]]. { unfold is_unit. vunfold. lra. }
    intros m Hm. unfold ref_at, at_col in Hm. cbn in Hm. assert (m = 1) by congruence. lra.
Qed.

Lemma water_centre : centre water = V3 1 2 3.
Proof. unfold centre. cbn. f_equal; ring. Qed.
Lemma passing : norm2 (cross (vsub (V3 5 2 (- 7)) (V3 1 2 3)) (V3 0 0 1)) = 16.
Proof. vunfold. ring. Qed.
Lemma outer : half_chord (V3 1 2 3) 5 (V3 5 2 (- 7)) (V3 0 0 1) = 3.
Proof. unfold half_chord. rewrite passing. replace (5 * 5 - 16) with (3 * 3) by ring. apply sqrt_square. lra. Qed.
Lemma inner : inner_half (V3 1 2 3) 5 1 (4/3) (V3 5 2 (- 7)) (V3 0 0 1) = 4.
Proof. unfold inner_half. rewrite passing. replace (5 * 5 - _) with (4 * 4) by field. apply sqrt_square. lra. Qed.
Lemma beam_comes : comes_in (V3 1 2 3) 5 1 (4/3) (V3 5 2 (- 7)) (V3 0 0 1).
Proof.
  unfold comes_in, to_drop. rewrite passing, outer, inner. replace (dot _ _) with (-10) by (vunfold; ring). unfold tenm. repeat split; lra.
Qed.

(** The share that is reflected: only one polarisation is. *)
Lemma brewster d n f : Rabs (dot d n) = 3/5 -> reflectance 1 (4/3) d n f -> f = 49/1250.
Proof.
  intros E (t1 & t2 & (I1 & I2) & J1 & Sn & (_ & _ & ->)). rewrite E in I2.
  pose proof (sin2_cos2 t1) as S1. pose proof (sin2_cos2 t2) as S2. unfold Rsqr in *.
  assert (0 <= sin t1) by (apply sin_ge_0; pose proof PI_RGT_0; lra). assert (0 <= cos t2) by (apply cos_ge_0; pose proof PI_RGT_0; lra).
  assert (Es : sin t1 = 4/5) by (rewrite I2 in S1; nra). assert (Ec : cos t2 = 4/5) by (assert (sin t2 = 3/5) by lra; nra).
  rewrite I2, Ec. field.
Qed.

Lemma in_the_water : forall g, fair (g_rng g) -> forall reps me, (2 <= reps)%nat -> me < 1201/1250 ->
  let objs := [default_object 1] in
  library_assembly objs [water] /\ drop 5 1 (4/3) water /\ library_source sunbeam 1 /\
  ref_at sunbeam 0 = Some 1 /\ faces 1 (4/3) 1 (4/3) /\ comes_in (centre water) 5 1 (4/3) (V3 5 2 (- 7)) (V3 0 0 1) /\
  exists vs ds st out, ray_tracer surface_ops objs [water] g sunbeam reps me TreeTrue = Ok (vs, ds, st) /\
    there (t_tree st) 1 0 (V3 5 2 0) (V3 (- (7/25)) 0 (24/25)) (1201/1250) (4/3) /\
    there (t_tree st) 2 0 (V3 (69/25) 2 (192/25)) out (1201/1250 * (1201/1250)) 1 /\ out = V3 (- (336/625)) 0 (527/625).
Proof.
  intros g Fg reps me Hr Hm objs. pose proof water_library as An. pose proof sunbeam_source as Ls. pose proof (proj1 An) as La.
  split; [exact La|]. assert (Ms : drop 5 1 (4/3) water) by (split; [reflexivity|]; split; [lra|reflexivity]). split; [exact Ms|]. split; [exact Ls|].
  split; [reflexivity|]. assert (Fa : faces 1 (4/3) 1 (4/3)) by (left; auto). split; [exact Fa|].
  assert (Ci : comes_in (centre water) 5 1 (4/3) (V3 5 2 (- 7)) (V3 0 0 1)) by (rewrite water_centre; exact beam_comes). split; [exact Ci|].
  destruct (tracing_answers _ _ An g sunbeam 1 reps me TreeTrue Ls) as (vs & ds & st & Tr). { intros _. discriminate. } { left. lia. }
  assert (Df : forall ob, In ob objs -> exists k, ob = default_object k) by (intros ob [<-|[]]; eauto).
  destruct (drop_ways objs water 5 1 (4/3) me g sunbeam 1 reps vs ds st La Df Ms Ls Fg Tr 0%nat _ _ 1 1 (4/3) eq_refl eq_refl eq_refl eq_refl Fa Ci) as (f & P & D & Out & Rb & _ & _ & Ins & Outs & _).
  rewrite water_centre in Rb.
  destruct (rb_start _ _ _ _ _ _ _ _ _ _ Rb) as (P0 & _). unfold to_drop in P0. rewrite outer in P0.
  assert (E0 : P 0%nat = V3 5 2 0). { rewrite P0. unfold ray_at. vunfold. f_equal; ring. }
  pose proof (rb_in _ _ _ _ _ _ _ _ _ _ Rb) as Si. pose proof (rb_share _ _ _ _ _ _ _ _ _ _ Rb) as Rs. rewrite E0 in Si, Rs.
  assert (Ef : f = 49/1250). { apply (brewster _ _ _) in Rs; auto. replace (dot _ _) with (- (3/5)) by (vunfold; field). rewrite Rabs_Ropp. apply Rabs_right. lra. }
  destruct (rb_chords _ _ _ _ _ _ _ _ _ _ Rb) as (Ch & Hc). rewrite inner in Hc.
  assert (D0 : D 0%nat = V3 (- (7/25)) 0 (24/25)).
  { set (n := vscale (/ 5) (vsub (V3 5 2 0) (V3 1 2 3))) in *. assert (Dn : dot (V3 0 0 1) n = - (3/5)) by (unfold n; vunfold; field).
    assert (Un : is_unit n) by (unfold is_unit, n; vunfold; field). assert (Ud : is_unit (V3 0 0 1)) by (unfold is_unit; vunfold; ring).
    destruct (snell_made 1 (4/3) n (V3 0 0 1) (- (4/5))) as (S & _); try lra; auto. { rewrite Dn. field. }
    rewrite (snell_unique 1 (4/3) n (V3 0 0 1) _ _ ltac:(lra) ltac:(lra) Ud Un Si S). rewrite Dn. unfold n. vunfold. f_equal; field. }
  assert (E1 : P 1%nat = V3 (69/25) 2 (192/25)).
  { rewrite (ch_first _ _ _ _ _ _ Ch). unfold to_wall. rewrite Hc, E0, D0. unfold ray_at. vunfold. f_equal; field. }
  assert (O1 : Out 1%nat = V3 (- (336/625)) 0 (527/625)).
  { pose proof (rb_angle _ _ _ _ _ _ _ _ _ _ Rb 0%nat) as A. pose proof (rb_plane _ _ _ _ _ _ _ _ _ _ Rb 0%nat) as B. rewrite outer in A. rewrite E1 in A, B.
    destruct (Out 1%nat) as [x y z]. vunfold. injection B as B1 B2 B3. assert (y = 0) by lra. subst y. f_equal; lra. }
  exists vs, ds, st, (Out 1%nat). split; [exact Tr|]. rewrite Ef in *. split; [|split; [|exact O1]].
  - specialize (Ins 0%nat ltac:(lia) ltac:(lia)). rewrite E0, D0 in Ins. replace (1201/1250) with (1 * (1 - 49/1250) * (49/1250) ^ 0) by (cbn; field). exact Ins.
  - specialize (Outs 0%nat ltac:(lia)). rewrite E1 in Outs. replace (1201/1250 * (1201/1250)) with (1 * (1 - 49/1250) * (49/1250) ^ 0 * (1 - 49/1250)) by (cbn; field). apply Outs. cbn. lra.
Qed.
