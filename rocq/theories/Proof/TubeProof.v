(** Light in a mirror tube. *)
From Coq Require Import Reals List Arith Bool Lra Lia.
From Verif.Base Require Import Py Num Vec.
From Verif.Model Require Import RayBundle Boundary Geometry TraceTree Sources OpticsCallables Engine Objects Surface.
From Verif.Proof Require Import ListLemmas NumLemmas VecLemmas FlatProof SelectProof GeomProof GeomTop DishProof MeshProof CollectProof EngineTop TraceTop LawProof SymmetryProof AnswerProof OrderProof SightProof FoundProof.
From Verif.Spec Require Import BundleSpec EngineSpec GeometrySpec GeomIface OpticsSpec LibrarySpec ModelSpec LawSpec BackSpec OrderSpec SightSpec FoundSpec TubeSpec.
Import ListNotations.
Local Open Scope R_scope.

(** ** One chord *)
Section Chord.
Variable r : R.
Hypothesis Pr : 0 < r.

Definition bent (h : R) (p l : vec) : vec := vsub l (vscale (2 * h / (r * r)) (V3 (vx p) (vy p) 0)).
Definition stretch (h : R) (q l : vec) : R := (h - dot_across q l) / dot_across l l.

Record runs (h : R) (q l : vec) : Prop := {
  ru_unit : is_unit l;
  ru_slant : tenm 10 < dot_across l l;
  ru_pos : 0 < h;
  ru_in : dot_across q l * dot_across q l <= h * h;
  ru_half : h * h = dot_across l l * (r * r - dot_across q q) + dot_across q l * dot_across q l }.

Lemma square_across q l u : dot_across (ray_at q l u) (ray_at q l u) = u * u * dot_across l l + 2 * u * dot_across q l + dot_across q q.
Proof. unfold dot_across, ray_at. destruct q, l. open_vec. ring. Qed.
Lemma dot_ray q l u : dot_across (ray_at q l u) l = u * dot_across l l + dot_across q l.
Proof. unfold dot_across, ray_at. destruct q, l. open_vec. ring. Qed.
Lemma cross_ray q l u : cross_across (ray_at q l u) l = cross_across q l.
Proof. unfold cross_across, ray_at. destruct q, l. open_vec. ring. Qed.
Lemma slant_pos x : tenm 10 < x -> 0 < x.
Proof. unfold tenm. intros H. assert (0 < / 10 ^ 10) by (apply Rinv_0_lt_compat, pow_lt; lra). lra. Qed.

Lemma end_of_chord h q l : runs h q l -> let t := stretch h q l in let p := ray_at q l t in
  dot_across p p = r * r /\ dot_across p l = h /\ 0 <= t <= 2 * h / dot_across l l /\
  forall u, 0 < u -> dot_across (ray_at q l u) (ray_at q l u) = r * r -> u = t.
Proof.
  intros [U Sl Ph Hi Hh] t p. apply slant_pos in Sl. set (B := dot_across q l) in *. set (s2 := dot_across l l) in *. set (Q := dot_across q q) in *.
  assert (Ba : - h <= B <= h) by (split; nra).
  assert (Et : t * s2 = h - B) by (unfold t, stretch; fold B s2; field; lra).
  assert (K : forall u, s2 * dot_across (ray_at q l u) (ray_at q l u) = (u * s2 + B) * (u * s2 + B) - B * B + s2 * Q).
  { intros u. rewrite square_across. fold B s2 Q. ring. }
  assert (N : dot_across p p = r * r).
  { apply (Rmult_eq_reg_l s2); [|lra]. unfold p. rewrite K, Et. replace (h - B + B) with h by ring. rewrite Hh. ring. }
  split; [exact N|]. split; [unfold p; rewrite dot_ray; fold B s2; lra|]. split.
  - split; [unfold t, stretch; fold B s2; apply Rmult_le_pos; [lra|left; apply Rinv_0_lt_compat; lra]|].
    unfold t, stretch, Rdiv. fold B s2. apply Rmult_le_compat_r; [left; apply Rinv_0_lt_compat; lra|lra].
  - intros u Hu E. pose proof (K u) as Ku. rewrite E in Ku.
    assert (F : (u * s2 + B - h) * (u * s2 + B + h) = 0) by nra. assert (0 < u * s2) by (apply Rmult_lt_0_compat; lra).
    apply Rmult_integral in F as [F|F]; [|exfalso; lra]. apply (Rmult_eq_reg_r s2); [|lra]. rewrite Et. lra.
Qed.

Lemma bent_facts h p l : is_unit l -> dot_across p p = r * r -> dot_across p l = h ->
  is_unit (bent h p l) /\ dot_across p (bent h p l) = - h /\ cross_across p (bent h p l) = cross_across p l /\ vz (bent h p l) = vz l /\
  dot_across (bent h p l) (bent h p l) = dot_across l l.
Proof.
  unfold is_unit, bent. intros U N H. assert (r * r <> 0) by nra. set (k := 2 * h / (r * r)).
  assert (K : k * (r * r) = 2 * h) by (unfold k; field; nra). clearbody k.
  assert (S2 : dot_across (vsub l (vscale k (V3 (vx p) (vy p) 0))) (vsub l (vscale k (V3 (vx p) (vy p) 0))) = dot_across l l).
  { transitivity (dot_across l l - 2 * k * dot_across p l + k * (k * dot_across p p)). { unfold dot_across. destruct l, p. open_vec. ring. }
    rewrite N, H, K. ring. }
  split; [|split; [|split; [|split]]].
  - transitivity (dot_across (vsub l (vscale k (V3 (vx p) (vy p) 0))) (vsub l (vscale k (V3 (vx p) (vy p) 0))) + vz l * vz l).
    { unfold dot_across. destruct l, p. open_vec. ring. }
    rewrite S2, <- U. unfold dot_across. destruct l. open_vec. ring.
  - transitivity (dot_across p l - k * dot_across p p). { unfold dot_across. destruct l, p. open_vec. ring. } rewrite N, H, K. ring.
  - unfold cross_across. destruct l, p. open_vec. ring.
  - destruct l, p. open_vec. ring.
  - exact S2.
Qed.

Lemma chord_on h q l : runs h q l -> let p := ray_at q l (stretch h q l) in
  runs h p (bent h p l) /\ stretch h p (bent h p l) = 2 * h / dot_across l l /\ dot_across (bent h p l) (bent h p l) = dot_across l l.
Proof.
  intros Ru p. destruct (end_of_chord h q l Ru) as (N & H & _ & _). destruct Ru as [U Sl Ph Hi Hh]. fold p in N, H.
  destruct (bent_facts h p l U N H) as (U' & B & _ & _ & S2). split; [|split; auto].
  - constructor; auto; rewrite ?S2, ?B, ?N; auto; [lra|ring].
  - unfold stretch. rewrite S2, B. f_equal. ring.
Qed.

Lemma in_tube_runs q l : is_unit l -> in_tube r q l -> runs (half_width r q l) q l.
Proof.
  unfold in_tube, first_length, half_width. intros U (I & Sl & T). pose proof (slant_pos _ Sl) as S0.
  assert (Lg : cross_across q l * cross_across q l = dot_across l l * dot_across q q - dot_across q l * dot_across q l).
  { unfold cross_across, dot_across. ring. }
  rewrite Lg in *. set (B := dot_across q l) in *. set (s2 := dot_across l l) in *. set (Q := dot_across q q) in *.
  set (x := s2 * (r * r) - (s2 * Q - B * B)) in *.
  assert (0 <= B * B) by nra. assert (0 <= s2 * (r * r - Q)) by (apply Rmult_le_pos; lra).
  assert (Px : 0 <= x) by (unfold x; lra). pose proof (sqrt_sqrt x Px) as Sq. pose proof (sqrt_pos x) as Sp.
  assert (T' : 0 < sqrt x - B).
  { assert (T0 : 0 < (sqrt x - B) / s2). { unfold tenm in T. assert (0 < / 10 ^ 6) by (apply Rinv_0_lt_compat, pow_lt; lra). lra. }
    replace (sqrt x - B) with ((sqrt x - B) / s2 * s2) by (field; lra). apply Rmult_lt_0_compat; lra. }
  assert (E : sqrt x * sqrt x = s2 * (r * r - Q) + B * B) by (rewrite Sq; unfold x; ring).
  constructor; auto; fold B s2 Q; try lra.
  destruct (Rle_lt_or_eq_dec _ _ Sp) as [|Z]; auto. exfalso. rewrite <- Z in *. nra.
Qed.

(** ** Chord after chord *)
Fixpoint after (h : R) (q l : vec) (n : nat) : vec * vec :=
  match n with
  | O => (q, l)
  | S n => let p := ray_at q l (stretch h q l) in after h p (bent h p l) n
  end.
Lemma after_S h n : forall q l, after h q l (S n) =
  let (q', l') := after h q l n in let p := ray_at q' l' (stretch h q' l') in (p, bent h p l').
Proof. induction n as [|n IH]; intros q l; [reflexivity|]. change (after h q l (S (S n))) with (let p := ray_at q l (stretch h q l) in after h p (bent h p l) (S n)). cbv zeta. rewrite IH. reflexivity. Qed.

Lemma after_runs h n q l : runs h q l -> runs h (fst (after h q l n)) (snd (after h q l n)) /\ dot_across (snd (after h q l n)) (snd (after h q l n)) = dot_across l l.
Proof.
  intros Ru. induction n as [|n IH]; [split; [exact Ru|reflexivity]|]. rewrite after_S. destruct (after h q l n) as (q', l'). cbn [fst snd] in *.
  destruct IH as (A & B). destruct (chord_on h q' l' A) as (C & _ & E). split; [exact C|]. rewrite E. exact B.
Qed.

Lemma winds_after q l : is_unit l -> in_tube r q l ->
  winds r q l (fun n => fst (after (half_width r q l) q l n)) (fun n => snd (after (half_width r q l) q l n)).
Proof.
  intros U I. pose proof (in_tube_runs q l U I) as Ru. unfold first_length, next_length. set (h := half_width r q l) in *.
  assert (K : forall n, (1 <= n)%nat -> let p := fst (after h q l n) in let e := snd (after h q l n) in
    dot_across p p = r * r /\ is_unit e /\ dot_across p e = - h /\ cross_across p e = cross_across q l /\ vz e = vz l).
  { intros n Hn. destruct n as [|n]; [lia|]. clear Hn. induction n as [|n IH].
    - cbn [after fst snd]. destruct (end_of_chord h q l Ru) as (N & H & _). destruct (bent_facts h _ l U N H) as (A & B & C & D & _).
      split; auto. split; auto. split; auto. split; auto. rewrite C. apply cross_ray.
    - rewrite after_S. destruct (after_runs h (S n) q l Ru) as (Ru' & _). destruct (after h q l (S n)) as (q', l'). cbv zeta in *. cbn [fst snd] in *.
      destruct IH as (_ & U' & _ & C0 & Z0). destruct (end_of_chord h q' l' Ru') as (N & H & _). destruct (bent_facts h _ l' U' N H) as (A & B & C & D & _).
      split; auto. split; auto. split; auto. split; [rewrite C, cross_ray; exact C0|congruence]. }
  constructor; fold h.
  - split; reflexivity.
  - reflexivity.
  - intros n Hn. destruct (K n Hn) as (_ & _ & B & _). destruct (after_runs h n q l Ru) as (_ & S2). rewrite after_S. unfold next_length. fold h.
    destruct (after h q l n) as (q', l'). cbn [fst snd] in *. unfold stretch. rewrite B, S2. f_equal. f_equal. ring.
  - intros n Hn. apply (K n Hn).
  - intros n Hn. apply (K n Hn).
  - intros n Hn. apply (K n Hn).
  - intros n Hn. apply (K n Hn).
  - intros n Hn. apply (K n Hn).
Qed.
End Chord.

(** The rise along the axis. *)
Lemma wind_height r q l P E : winds r q l P E -> forall n, vz (P (S n)) = vz q + (first_length r q l + INR n * next_length r q l) * vz l.
Proof.
  intros W. induction n as [|n IH].
  - rewrite (wd_first _ _ _ _ _ W). cbn [INR]. unfold ray_at. destruct q, l. open_vec. ring.
  - rewrite (wd_next _ _ _ _ _ W (S n)) by lia. rewrite S_INR. unfold ray_at.
    transitivity (vz (P (S n)) + next_length r q l * vz (E (S n))). { destruct (P (S n)), (E (S n)). open_vec. reflexivity. }
    rewrite IH, (wd_axis _ _ _ _ _ W (S n)) by lia. ring.
Qed.

(** ** Ways of light *)
Section Tube.
Variables (s : surface) (D : R) (H : option R) (a : R).
Hypothesis (Ms : mirror_tube D H a s) (Ls : lib_surface s).
Let F := s_frame s.
Let r := D / 2.

Lemma tube_pos : 0 < r. Proof. unfold r. destruct Ms as (_ & P & _). lra. Qed.
Lemma share_ok : 0 <= a <= 1.
Proof. destruct Ls as (_ & Oo & _). destruct Ms as (_ & _ & [E|(id & E)]); rewrite E in Oo; exact Oo. Qed.
Lemma tube_rigid : rigid F. Proof. apply Ls. Qed.

Definition tube_shape : shape := fun q => dot_across q q = r * r /\ walled H (vz q).
Lemma tube_in_way q l : tenm 10 < dot_across l l -> exists A, in_the_way s (app4 F q) (turned F l) A /\ forall p, A (app4 F p) <-> tube_shape p.
Proof.
  intros Sl. pose proof tube_rigid as RF. unfold tube_shape, walled, mirror_tube in *. destruct Ms as (Eg & Pd & _). destruct H as [h|].
  - exists (placed F (round_wall_of_height D h)). split.
    + exists (round_wall_of_height D h), (cylinder_safe F D). split; [rewrite Eg; apply as_tube|]. split; [|reflexivity].
      exists l, q. auto.
    + intros p. rewrite (placed_in F RF). unfold round_wall_of_height, round_wall, dot_across, r. tauto.
  - exists (placed F (round_wall D)). split.
    + exists (round_wall D), (cylinder_safe F D). split; [rewrite Eg; apply as_cylinder|]. split; [|reflexivity].
      exists l, q. auto.
    + intros p. rewrite (placed_in F RF). unfold round_wall, dot_across, r. tauto.
Qed.

Definition at_wall (h : R) (q l : vec) (m : option R) : meeting :=
  let p := ray_at q l (stretch h q l) in
  mkMeeting s false (app4 F p) (turned F (vscale (- / r) (V3 (vx p) (vy p) 0))) (turned F l) (turned F (bent r h p l)) m m.

Lemma wall_lawful h q l m e : runs r h q l -> lawful_meeting (at_wall h q l m) e (e * (1 - a)) /\ dot (turned F l) (mt_normal (at_wall h q l m)) <> 0.
Proof.
  intros Ru. pose proof tube_pos as Pr. pose proof tube_rigid as RF. destruct (end_of_chord r h q l Ru) as (N & Hd & _).
  destruct Ru as [U _ Ph _ _]. unfold at_wall. set (p := ray_at q l (stretch h q l)) in *. set (n := vscale (- / r) (V3 (vx p) (vy p) 0)).
  assert (Nn : norm2 n = 1).
  { transitivity (/ r * / r * dot_across p p). { unfold n, dot_across. destruct p. open_vec. ring. } rewrite N. field. lra. }
  assert (Dn : dot l n = - (h / r)).
  { rewrite <- Hd. unfold n, dot_across. destruct p, l. open_vec. field. lra. }
  assert (Hr : 0 < h / r) by (apply Rdiv_lt_0_compat; lra).
  split; [|cbn [mt_normal]; rewrite turned_dot, Dn by auto; lra].
  split. { cbn [mt_in]. unfold is_unit in *. rewrite turned_unit; auto. }
  cbn [mt_surf mt_point mt_normal mt_in mt_through mt_before mt_out mt_after]. split.
  - destruct (gradient_ok (s_geom s) p) as (k & Nk & G). exists p. eexists. split; [reflexivity|]. split; [exact G|].
    split; [rewrite turned_unit; auto|]. split.
    + exists (- / r / k). assert (Eg : gradient (s_geom s) p = V3 (vx p) (vy p) 0) by (destruct Ms as (-> & _); destruct H; reflexivity).
      rewrite Eg. unfold turned, n. fold F. destruct (rot_of F) as [[] [] []], p. vunfold. veq; field; lra.
    + rewrite turned_dot by auto. replace (dot n l) with (dot l n). { rewrite Dn. lra. } unfold n. destruct p, l. open_vec. ring.
  - assert (Mi : mirrored (turned F n) (turned F l) (turned F (bent r h p l))).
    { destruct (bent_facts r Pr h p l U N Hd) as (_ & B & _).
      assert (Db : dot (bent r h p l) n = h / r).
      { transitivity (- / r * dot_across p (bent r h p l)); [|rewrite B; field; lra]. unfold n, dot_across. destruct (bent r h p l), p. open_vec. ring. }
      split.
      - rewrite !turned_dot, Dn, Db by auto. ring.
      - unfold tangential. rewrite !turned_dot, Dn, Db by auto.
        assert (E : vsub (bent r h p l) (vscale (h / r) n) = vsub l (vscale (- (h / r)) n)).
        { unfold bent, n. destruct l, p. open_vec. f_equal; field; lra. }
        assert (Ts : forall u k w, vsub (turned F u) (vscale k (turned F w)) = turned F (vsub u (vscale k w))).
        { intros u k w. unfold turned. destruct (rot_of F) as [[] [] []], u, w. vunfold. veq; ring. }
        rewrite !Ts, E. reflexivity. }
    destruct Ms as (_ & _ & [->|(id & ->)]); cbn [follows]; auto.
Qed.

Lemma tube_way me m : forall n h q l e, runs r h q l -> tenm 6 < stretch h q l -> 0 <= e ->
  ((2 <= n)%nat -> me < e * (1 - a) ^ (n - 1)) -> (forall i, (1 <= i <= n)%nat -> walled H (vz (fst (after r h q l i)))) ->
  exists path, length path = n /\
  seen_way [s] me (app4 F q) (turned F l) e m path (app4 F (fst (after r h q l n))) (turned F (snd (after r h q l n))) (e * (1 - a) ^ n) m.
Proof.
  pose proof tube_pos as Pr. pose proof share_ok as Sa. pose proof tube_rigid as RF.
  induction n as [|n IH]; intros h q l e Ru T He Hm Hw.
  - exists []. split; [reflexivity|]. cbn [after fst snd pow]. rewrite Rmult_1_r. constructor.
  - destruct (end_of_chord r h q l Ru) as (N & Hd & Nt & Cl).
    destruct (chord_on r Pr h q l Ru) as (Ru' & T' & _).
    assert (Ee : 0 <= e * (1 - a)) by (apply Rmult_le_pos; lra).
    assert (Lim : (2 <= S n)%nat -> me < e * (1 - a) * (1 - a) ^ (n - 1)).
    { intros Hn. specialize (Hm Hn). replace (S n - 1)%nat with (S (n - 1)) in Hm by lia. cbn [pow] in Hm. lra. }
    destruct (IH h _ _ (e * (1 - a)) Ru') as (path & Lp & Sw).
    { rewrite T'. lra. }
    { exact Ee. }
    { intros Hn. apply Lim. lia. }
    { intros i Hi. apply (Hw (S i)). lia. }
    exists (at_wall h q l m :: path). split; [cbn; auto|]. destruct (wall_lawful h q l m e Ru) as (Lw & Nz).
    destruct (tube_in_way q l (ru_slant _ _ _ _ Ru)) as (A & Iw & HA).
    apply (seen_next [s] me (app4 F q) (turned F l) e m (stretch h q l) (at_wall h q l m) (e * (1 - a))); auto.
    + left. reflexivity.
    + intros s0 [<-|[]]. exists A. split; [exact Iw|]. intros u Hu K. rewrite app_turned in K by auto. apply HA in K. destruct K as (K & _).
      pose proof (Cl u (proj1 Hu) K). lra.
    + split; [exact T|]. exists A. split; [exact Iw|]. rewrite app_turned by auto. apply HA. split; [exact N|]. apply (Hw 1%nat). lia.
    + cbn [at_wall mt_point]. symmetry. apply app_turned. exact RF.
    + cbn [at_wall mt_surf]. destruct Ms as (_ & _ & [->|(id & ->)]); exact I.
    + intros Np. assert (n <> O) by (destruct path; [destruct (Np eq_refl)|cbn in Lp; lia]).
      specialize (Lim ltac:(lia)). assert ((1 - a) ^ (n - 1) <= 1).
      { clear -Sa. induction (n - 1)%nat as [|k IHk]; cbn [pow]; [lra|]. assert (0 <= (1 - a) ^ k) by (apply pow_le; lra). nra. }
      nra.
    + cbn [at_wall mt_point mt_out mt_after pow]. replace (e * ((1 - a) * (1 - a) ^ n)) with (e * (1 - a) * (1 - a) ^ n) by ring. exact Sw.
Qed.
End Tube.

(** The way is determined by where the light starts. *)
Lemma wind_direction r q l P E : 0 < r -> winds r q l P E -> forall n, (1 <= n)%nat ->
  E n = V3 ((- half_width r q l * vx (P n) - cross_across q l * vy (P n)) / (r * r))
           ((- half_width r q l * vy (P n) + cross_across q l * vx (P n)) / (r * r)) (vz l).
Proof.
  intros Pr W n Hn. rewrite <- (wd_sense _ _ _ _ _ W n Hn), <- (wd_angle _ _ _ _ _ W n Hn), <- (wd_axis _ _ _ _ _ W n Hn).
  pose proof (wd_wall _ _ _ _ _ W n Hn) as Wl. rewrite <- Wl. assert (Nz : dot_across (P n) (P n) <> 0) by (rewrite Wl; nra). clear -Nz.
  unfold cross_across, dot_across in *. destruct (P n), (E n). open_vec. f_equal; field; exact Nz.
Qed.
Lemma winds_unique r q l P E P' E' : 0 < r -> winds r q l P E -> winds r q l P' E' -> forall n, P' n = P n /\ E' n = E n.
Proof.
  intros Pr C C'.
  assert (Dir : forall n, (1 <= n)%nat -> P' n = P n -> E' n = E n).
  { intros n Hn Q. rewrite (wind_direction _ _ _ _ _ Pr C n Hn), (wind_direction _ _ _ _ _ Pr C' n Hn), Q. reflexivity. }
  intros n. destruct n as [|n]. { destruct (wd_start _ _ _ _ _ C), (wd_start _ _ _ _ _ C'). split; congruence. }
  induction n as [|n (E1 & E2)].
  - assert (Q : P' 1%nat = P 1%nat) by (rewrite (wd_first _ _ _ _ _ C), (wd_first _ _ _ _ _ C'); reflexivity). auto.
  - assert (Q : P' (S (S n)) = P (S (S n))).
    { rewrite (wd_next _ _ _ _ _ C), (wd_next _ _ _ _ _ C'), E1, E2 by lia. reflexivity. }
    split; [exact Q|]. apply Dir; [lia|exact Q].
Qed.
