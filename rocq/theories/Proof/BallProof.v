(** Light in a mirror ball. *)
From Coq Require Import Reals List Arith Bool Lra Lia.
From Verif.Base Require Import Py Num Vec.
From Verif.Model Require Import RayBundle Boundary Geometry TraceTree Sources OpticsCallables Engine Objects Surface.
From Verif.Proof Require Import ListLemmas NumLemmas VecLemmas FlatProof SelectProof GeomProof GeomTop DishProof MeshProof EngineTop TraceTop LawProof SymmetryProof AnswerProof OrderProof SightProof FoundProof.
From Verif.Spec Require Import BundleSpec EngineSpec GeometrySpec GeomIface OpticsSpec LibrarySpec LawSpec BackSpec OrderSpec SightSpec FoundSpec BallSpec.
Import ListNotations.
Local Open Scope R_scope.

Lemma from_centre r t q : vsub (app4 (mk4 r t) q) (app4 (mk4 r t) (V3 0 0 0)) = mv3 (rot_of (mk4 r t)) q.
Proof. rewrite !placed_local, turned_local. destruct q, t. generalize (col1 r), (col2 r), (col3 r). intros [] [] []. open_vec. f_equal; ring. Qed.

Lemma ball_point F r p : rigid F -> placed F (ball_surface r) p <-> norm2 (vsub p (app4 F (V3 0 0 0))) = r * r.
Proof.
  intros (m & t & -> & O).
  assert (N : forall q, norm2 (vsub (app4 (mk4 m t) q) (app4 (mk4 m t) (V3 0 0 0))) = norm2 q).
  { intros q. rewrite distance_kept by auto. destruct q. open_vec. ring. }
  split.
  - intros (q & Hq & ->). rewrite N. exact Hq.
  - intros H. apply placed_loc; auto. unfold ball_surface. rewrite <- H.
    assert (Ep : p = app4 (mk4 m t) (loc_pt m t p)).
    { assert (E : vsub p t = mv3 m (loc_pt m t p)) by (apply loc_pt_back; auto).
      revert E. generalize (loc_pt m t p). intros q E. destruct q as [x y z], p, t, m as [[] [] []]. vunfold.
      injection E as E1 E2 E3. cbn. f_equal; lra. }
    rewrite Ep at 2. rewrite N. reflexivity.
Qed.

(** ** One chord *)
Section Chord.
Variables (c : vec) (r : R).
Hypothesis Pr : 0 < r.

Definition bent (h : R) (p d : vec) : vec := vsub d (vscale (2 * h / (r * r)) (vsub p c)).

Record runs (h : R) (v d : vec) : Prop := {
  ru_unit : is_unit d;
  ru_pos : 0 < h;
  ru_in : dot (vsub v c) d * dot (vsub v c) d <= h * h;
  ru_half : h * h = r * r - norm2 (vsub v c) + dot (vsub v c) d * dot (vsub v c) d }.

Lemma square_along v d u : is_unit d -> norm2 (vsub (ray_at v d u) c) = u * u + 2 * u * dot (vsub v c) d + norm2 (vsub v c).
Proof.
  unfold is_unit, ray_at. intros U. transitivity (u * u * norm2 d + 2 * u * dot (vsub v c) d + norm2 (vsub v c)).
  - destruct v, d, c. open_vec. ring.
  - rewrite U. ring.
Qed.
Lemma dot_along v d u : is_unit d -> dot (vsub (ray_at v d u) c) d = u + dot (vsub v c) d.
Proof.
  unfold is_unit, ray_at. intros U. transitivity (u * norm2 d + dot (vsub v c) d).
  - destruct v, d, c. open_vec. ring.
  - rewrite U. ring.
Qed.

Lemma end_of_chord h v d : runs h v d -> let t := h - dot (vsub v c) d in let p := ray_at v d t in
  norm2 (vsub p c) = r * r /\ dot (vsub p c) d = h /\ 0 <= t /\ forall u, 0 < u < t -> norm2 (vsub (ray_at v d u) c) <> r * r.
Proof.
  intros [U Ph Hi Hh] t p. assert (Ba : - h <= dot (vsub v c) d <= h) by (split; nra).
  split; [unfold p; rewrite square_along by auto; unfold t; nra|].
  split; [unfold p; rewrite dot_along by auto; unfold t; ring|]. split; [unfold t; lra|].
  intros u Hu. rewrite square_along by auto. unfold t in Hu. nra.
Qed.

Lemma bent_facts h p d : is_unit d -> norm2 (vsub p c) = r * r -> dot (vsub p c) d = h ->
  is_unit (bent h p d) /\ dot (vsub p c) (bent h p d) = - h /\ cross (vsub p c) (bent h p d) = cross (vsub p c) d.
Proof.
  unfold is_unit, bent. intros U N H. assert (r * r <> 0) by nra. set (k := 2 * h / (r * r)). set (w := vsub p c) in *.
  assert (K : k * (r * r) = 2 * h) by (unfold k; field; nra).
  split; [|split].
  - transitivity (norm2 d - 2 * k * dot w d + k * k * norm2 w). { destruct d, w. open_vec. ring. }
    rewrite U, N, H. replace (k * k * (r * r)) with (k * (k * (r * r))) by ring. rewrite K. ring.
  - transitivity (dot w d - k * norm2 w). { destruct d, w. open_vec. ring. } rewrite N, H. lra.
  - destruct d, w. open_vec. f_equal; ring.
Qed.

Lemma chord_on h v d : runs h v d -> let p := ray_at v d (h - dot (vsub v c) d) in
  runs h p (bent h p d) /\ h - dot (vsub p c) (bent h p d) = 2 * h.
Proof.
  intros Ru p. destruct (end_of_chord h v d Ru) as (N & H & _ & _). destruct Ru as [U Ph Hi Hh]. fold p in N, H.
  destruct (bent_facts h p d U N H) as (U' & B & _). split; [|lra]. constructor; auto; rewrite B; [lra|rewrite N; ring].
Qed.

Lemma cross_along v d u : cross (vsub (ray_at v d u) c) d = cross (vsub v c) d.
Proof. unfold ray_at. destruct v, d, c. open_vec. f_equal; ring. Qed.

Lemma lagrange w d : norm2 (cross w d) = norm2 w * norm2 d - dot w d * dot w d.
Proof. destruct w, d. open_vec. ring. Qed.

Lemma in_ball_runs v d : is_unit d -> in_ball c r v d -> runs (half_chord c r v d) v d.
Proof.
  unfold in_ball, to_wall, half_chord. intros U (I & T).
  rewrite lagrange in *. unfold is_unit in U. rewrite U in *.
  set (B := dot (vsub v c) d) in *. set (x := r * r - (norm2 (vsub v c) * 1 - B * B)) in *.
  assert (0 <= B * B) by nra.
  assert (Px : 0 <= x) by (unfold x; lra). pose proof (sqrt_sqrt x Px) as Sq. pose proof (sqrt_pos x) as Sp. unfold tenm in T.
  assert (T' : 0 < sqrt x - B) by lra.
  assert (sqrt x * sqrt x = r * r - norm2 (vsub v c) + B * B) by (rewrite Sq; unfold x; ring).
  constructor; auto; fold B; try lra.
  destruct (Rle_lt_or_eq_dec _ _ Sp) as [|Z]; auto. exfalso. rewrite <- Z in *. nra.
Qed.

(** ** Chord after chord *)
Fixpoint after (h : R) (v d : vec) (n : nat) : vec * vec :=
  match n with
  | O => (v, d)
  | S n => let p := ray_at v d (h - dot (vsub v c) d) in after h p (bent h p d) n
  end.
Lemma after_S h n : forall v d, after h v d (S n) =
  let (v', d') := after h v d n in let p := ray_at v' d' (h - dot (vsub v' c) d') in (p, bent h p d').
Proof. induction n as [|n IH]; intros v d; [reflexivity|]. change (after h v d (S (S n))) with (let p := ray_at v d (h - dot (vsub v c) d) in after h p (bent h p d) (S n)). cbv zeta. rewrite IH. reflexivity. Qed.

Lemma after_runs h n v d : runs h v d -> runs h (fst (after h v d n)) (snd (after h v d n)).
Proof.
  intros Ru. induction n as [|n IH]; [exact Ru|]. rewrite after_S. destruct (after h v d n) as (v', d'). cbn [fst snd] in *.
  apply chord_on. exact IH.
Qed.

Lemma chords_after v d : is_unit d -> in_ball c r v d ->
  chords c r v d (fun n => fst (after (half_chord c r v d) v d n)) (fun n => snd (after (half_chord c r v d) v d n)).
Proof.
  intros U I. pose proof (in_ball_runs v d U I) as Ru. unfold to_wall. set (h := half_chord c r v d) in *.
  assert (K : forall n, (1 <= n)%nat -> let p := fst (after h v d n) in let e := snd (after h v d n) in
    norm2 (vsub p c) = r * r /\ is_unit e /\ dot (vsub p c) e = - h /\ cross (vsub p c) e = cross (vsub v c) d).
  { intros n Hn. destruct n as [|n]; [lia|]. clear Hn. induction n as [|n IH].
    - cbn [after fst snd]. destruct (end_of_chord h v d Ru) as (N & H & _). destruct (bent_facts h _ d U N H) as (A & B & C).
      split; auto. split; auto. split; auto. rewrite C. apply cross_along.
    - rewrite after_S. pose proof (after_runs h (S n) v d Ru) as Ru'. destruct (after h v d (S n)) as (v', d'). cbv zeta in *. cbn [fst snd] in *.
      destruct IH as (_ & U' & _ & C0). destruct (end_of_chord h v' d' Ru') as (N & H & _). destruct (bent_facts h _ d' U' N H) as (A & B & C).
      split; auto. split; auto. split; auto. rewrite C, cross_along. exact C0. }
  constructor; fold h.
  - unfold to_wall. fold h. reflexivity.
  - intros n Hn. destruct (K n Hn) as (_ & _ & B & _). rewrite after_S. destruct (after h v d n) as (v', d'). cbn [fst snd] in *. rewrite B. f_equal. ring.
  - intros n Hn. apply (K n Hn).
  - intros n Hn. apply (K n Hn).
  - intros n Hn. destruct (K n Hn) as (_ & _ & B & _). rewrite <- B. destruct (after h v d n) as ([], []), c. cbn [fst snd]. open_vec. ring.
  - intros n Hn. apply (K n Hn).
Qed.
End Chord.

(** The chords are determined by where the light starts. *)
Lemma chord_direction c r v d P D : 0 < r -> chords c r v d P D -> forall n, (1 <= n)%nat ->
  D n = vscale (/ (r * r)) (vsub (cross (cross (vsub v c) d) (vsub (P n) c)) (vscale (half_chord c r v d) (vsub (P n) c))).
Proof.
  intros Pr Ch n Hn. rewrite <- (ch_plane _ _ _ _ _ _ Ch n Hn).
  replace (half_chord c r v d) with (- dot (D n) (vsub (P n) c)) by (rewrite (ch_angle _ _ _ _ _ _ Ch n Hn); ring).
  pose proof (ch_wall _ _ _ _ _ _ Ch n Hn) as W. rewrite <- W. assert (Nz : norm2 (vsub (P n) c) <> 0) by (rewrite W; nra). clear -Nz.
  destruct (D n), (vsub (P n) c). open_vec. f_equal; field; exact Nz.
Qed.
Lemma chords_unique c r v d P D P' D' : 0 < r -> chords c r v d P D -> chords c r v d P' D' ->
  forall n, (1 <= n)%nat -> P' n = P n /\ D' n = D n.
Proof.
  intros Pr C C'.
  assert (Dir : forall n, (1 <= n)%nat -> P' n = P n -> D' n = D n).
  { intros n Hn E. rewrite (chord_direction _ _ _ _ _ _ Pr C n Hn), (chord_direction _ _ _ _ _ _ Pr C' n Hn), E. reflexivity. }
  intros n Hn. destruct n as [|n]; [lia|]. clear Hn. induction n as [|n (E1 & E2)].
  - assert (E : P' 1%nat = P 1%nat) by (rewrite (ch_first _ _ _ _ _ _ C), (ch_first _ _ _ _ _ _ C'); reflexivity). auto.
  - assert (E : P' (S (S n)) = P (S (S n))).
    { rewrite (ch_next _ _ _ _ _ _ C), (ch_next _ _ _ _ _ _ C'), E1, E2 by lia. reflexivity. }
    split; [exact E|]. apply Dir; [lia|exact E].
Qed.

(** ** Ways of light *)
Section Ball.
Variables (s : surface) (r a : R).
Hypothesis (Ms : mirror_ball r a s) (Ls : lib_surface s).
Let c := centre s.

Lemma ball_pos : 0 < r. Proof. apply Ms. Qed.
Lemma share_ok : 0 <= a <= 1.
Proof. destruct Ls as (_ & Oo & _). destruct Ms as (_ & _ & [E|(id & E)]); rewrite E in Oo; exact Oo. Qed.
Lemma ball_shape p : placed (s_frame s) (ball_surface r) p <-> norm2 (vsub p c) = r * r.
Proof. apply ball_point. apply Ls. Qed.
Lemma ball_in_way v d : in_the_way s v d (placed (s_frame s) (ball_surface r)).
Proof.
  exists (ball_surface r), (fun _ _ => True). split; [|auto]. destruct Ms as (-> & Pr & _). apply as_sphere.
  unfold new_sphere, check_radius. rewrite (proj2 (Rleb_false _ _) Pr). reflexivity.
Qed.

Definition at_wall (h : R) (v d : vec) (m : option R) : meeting :=
  let p := ray_at v d (h - dot (vsub v c) d) in
  mkMeeting s false p (vscale (- / r) (vsub p c)) d (bent c r h p d) m m.

Lemma wall_lawful h v d m e : runs c r h v d -> lawful_meeting (at_wall h v d m) e (e * (1 - a)) /\ dot d (mt_normal (at_wall h v d m)) <> 0.
Proof.
  intros Ru. pose proof ball_pos as Pr. destruct (end_of_chord c r h v d Ru) as (N & H & _).
  destruct Ru as [U Ph _ _]. unfold at_wall. set (p := ray_at v d (h - dot (vsub v c) d)) in *.
  assert (Nn : norm2 (vscale (- / r) (vsub p c)) = 1).
  { transitivity (/ r * / r * norm2 (vsub p c)). { destruct (vsub p c). open_vec. ring. } rewrite N. field. lra. }
  assert (Dn : dot d (vscale (- / r) (vsub p c)) = - (h / r)).
  { rewrite <- H. destruct (vsub p c), d. open_vec. field. lra. }
  assert (Hr : 0 < h / r) by (apply Rdiv_lt_0_compat; lra).
  split; [|cbn [mt_normal]; rewrite Dn; lra].
  split; [exact U|]. cbn [mt_surf mt_point mt_normal mt_in mt_through mt_before mt_out mt_after]. split.
  - apply ball_shape in N. destruct N as (q & Hq & Ep). destruct (gradient_ok (s_geom s) q) as (k & Nk & G).
    exists q. eexists. split; [exact Ep|]. split; [exact G|].
    split; [exact Nn|]. split.
    + destruct Ls as ((m0 & t0 & Ef & O) & _). exists (- / r / k).
      assert (Epc : vsub p c = mv3 (rot_of (s_frame s)) q) by (rewrite Ep; unfold c, centre; rewrite Ef; apply from_centre).
      rewrite Epc. destruct Ms as (-> & _). cbn [gradient].
      destruct (rot_of (s_frame s)) as [[] [] []], q. vunfold. veq; field; lra.
    + replace (dot _ d) with (dot d (vscale (- / r) (vsub p c))). { rewrite Dn. lra. } destruct (vsub p c), d. open_vec. ring.
  - assert (Mi : mirrored (vscale (- / r) (vsub p c)) d (bent c r h p d)).
    { destruct (bent_facts c r Pr h p d U N H) as (_ & B & _). split.
      - rewrite Dn. transitivity (- / r * dot (vsub p c) (bent c r h p d)). { destruct (bent c r h p d), (vsub p c). open_vec. ring. } rewrite B. field. lra.
      - unfold tangential. rewrite Dn.
        replace (dot (bent c r h p d) (vscale (- / r) (vsub p c))) with (h / r).
        + unfold bent. destruct d, (vsub p c). open_vec. f_equal; field; lra.
        + transitivity (- / r * dot (vsub p c) (bent c r h p d)); [rewrite B; field; lra|]. destruct (bent c r h p d), (vsub p c). open_vec. ring. }
    destruct Ms as (_ & _ & [->|(id & ->)]); cbn [follows]; auto.
Qed.

Lemma ball_way me m : forall n h v d e, runs c r h v d -> tenm 6 < h - dot (vsub v c) d -> 0 <= e ->
  ((2 <= n)%nat -> me < e * (1 - a) ^ (n - 1)) ->
  exists path, length path = n /\
  seen_way [s] me v d e m path (fst (after c r h v d n)) (snd (after c r h v d n)) (e * (1 - a) ^ n) m.
Proof.
  pose proof ball_pos as Pr. pose proof share_ok as Sa.
  induction n as [|n IH]; intros h v d e Ru T He Hm.
  - exists []. split; [reflexivity|]. cbn [after fst snd pow]. rewrite Rmult_1_r. constructor.
  - destruct (end_of_chord c r h v d Ru) as (N & H & Nt & Cl).
    destruct (chord_on c r Pr h v d Ru) as (Ru' & T').
    assert (Ee : 0 <= e * (1 - a)) by (apply Rmult_le_pos; lra).
    assert (Lim : (2 <= S n)%nat -> me < e * (1 - a) * (1 - a) ^ (n - 1)).
    { intros Hn. specialize (Hm Hn). replace (S n - 1)%nat with (S (n - 1)) in Hm by lia. cbn [pow] in Hm. lra. }
    assert (T2 : tenm 6 < 2 * h). { destruct Ru as [_ Ph Hi _]. assert (- h <= dot (vsub v c) d) by nra. lra. }
    destruct (IH h _ _ (e * (1 - a)) Ru') as (path & Lp & Sw); auto.
    { rewrite T'. exact T2. }
    exists (at_wall h v d m :: path). split; [cbn; auto|]. destruct (wall_lawful h v d m e Ru) as (Lw & Nz).
    apply (seen_next [s] me v d e m (h - dot (vsub v c) d) (at_wall h v d m) (e * (1 - a))); auto.
    + left. reflexivity.
    + intros s0 [<-|[]]. eexists. split; [apply ball_in_way|]. intros u Hu K. apply (Cl u Hu). apply ball_shape. exact K.
    + split; [exact T|]. eexists. split; [apply ball_in_way|]. apply ball_shape. exact N.
    + cbn [at_wall mt_surf]. destruct Ms as (_ & _ & [->|(id & ->)]); exact I.
    + intros Np. assert (n <> O) by (destruct path; [destruct (Np eq_refl)|cbn in Lp; lia]).
      specialize (Lim ltac:(lia)). assert ((1 - a) ^ (n - 1) <= 1).
      { clear -Sa. induction (n - 1)%nat as [|k IHk]; cbn [pow]; [lra|]. assert (0 <= (1 - a) ^ k) by (apply pow_le; lra). nra. }
      nra.
    + cbn [at_wall mt_point mt_out mt_after pow]. replace (e * ((1 - a) * (1 - a) ^ n)) with (e * (1 - a) * (1 - a) ^ n) by ring. exact Sw.
Qed.
End Ball.
