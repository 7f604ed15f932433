(** The way of the light from the dish through the box of mirrors to the receiver, in the
    collector's coordinates. *)
From Coq Require Import Reals ZArith List Arith Bool Lia Lra Psatz.
From Verif.Base Require Import Py Num Vec.
From Verif.Model Require Import RayBundle Geometry.
From Verif.Proof Require Import NumLemmas VecLemmas.
From Verif.Proof Require Import TowerProof DishProof.
From Verif.Spec Require Import GeometrySpec GeomIface OpticsSpec ModelSpec DishSpec SunSpec.
Import ListNotations.
Local Open Scope R_scope.

Section Box.
Variables (X Y H f eff heff me : R) (A : shape).
Hypothesis HX : tenm 6 < X.
Hypothesis HY : tenm 6 < Y.
Hypothesis HH : 0 < H.
Hypothesis Ab : forall q, A q -> focal_bowl f q /\ vz q < f.
Hypothesis He : 0 <= heff <= 1.
Hypothesis Hm : 0 <= me.

(** ** The surfaces *)

Definition xw (g : R) : shape := fun p => vx p = g * (X / 2) /\ - (Y / 2) <= vy p <= Y / 2 /\ f <= vz p <= f + H.
Definition yw (g : R) : shape := fun p => vy p = g * (Y / 2) /\ - (X / 2) <= vx p <= X / 2 /\ f <= vz p <= f + H.
Definition plate (z : R) : shape := fun p => vz p = z /\ - (X / 2) <= vx p <= X / 2 /\ - (Y / 2) <= vy p <= Y / 2.

Definition wall_out (z : vec) (d : vec) (e : R) (d' : vec) (e' : R) : Prop :=
  mirrored z d d' /\ (dot d z <= 0 -> e' = e * heff) /\ (0 < dot d z -> e' = 0).
Definition plate_out (d : vec) (e : R) (d' : vec) (e' : R) : Prop := mirrored (V3 0 0 (-1)) d d' /\ e' = e * 0.

Definition lhit (i : nat) (v d : vec) (x : num) : Prop :=
  match i with
  | 0%nat => meets_flat (xw 1) (V3 (- (1)) 0 0) v d x
  | 1%nat => meets_flat (xw (-1)) (V3 (- (-1)) 0 0) v d x
  | 2%nat => meets_flat (yw (-1)) (V3 0 (- (-1)) 0) v d x
  | 3%nat => meets_flat (yw 1) (V3 0 (- (1)) 0) v d x
  | 4%nat => meets_flat (plate (f + H)) (V3 0 0 (-1)) v d x
  | 5%nat => meets_flat (plate (f + H + tenm 10)) (V3 0 0 (-1)) v d x
  | _ => dish_safe f d -> first_hit A v d x
  end.
Definition lout (i : nat) (p d : vec) (e : R) (d' : vec) (e' : R) : Prop :=
  match i with
  | 0%nat => wall_out (V3 (- (1)) 0 0) d e d' e'
  | 1%nat => wall_out (V3 (- (-1)) 0 0) d e d' e'
  | 2%nat => wall_out (V3 0 (- (-1)) 0) d e d' e'
  | 3%nat => wall_out (V3 0 (- (1)) 0) d e d' e'
  | 4%nat => plate_out d e d' e'
  | 5%nat => plate_out d e d' e'
  | _ => e' = e * eff /\ exists n k, is_unit n /\ n = vscale k (bowl_normal f p) /\ mirrored n d d'
  end.

Definition own (i : nat) : nat := nth i [0; 1; 2; 3; 4; 4; 5]%nat 6%nat.
Definition asks (q : option nat) (i : nat) : Prop :=
  match q with None => True | Some q => own q = 5%nat \/ own q <> own i end.

Definition isx (i : nat) (g : R) : Prop := i = 0%nat /\ g = 1 \/ i = 1%nat /\ g = -1.
Definition isy (i : nat) (g : R) : Prop := i = 2%nat /\ g = -1 \/ i = 3%nat /\ g = 1.

Lemma isx_hit i g v d x : isx i g -> lhit i v d x -> meets_flat (xw g) (V3 (- g) 0 0) v d x.
Proof. intros [(-> & ->)|(-> & ->)] h; exact h. Qed.
Lemma isy_hit i g v d x : isy i g -> lhit i v d x -> meets_flat (yw g) (V3 0 (- g) 0) v d x.
Proof. intros [(-> & ->)|(-> & ->)] h; exact h. Qed.
Lemma isx_out i g p d e d' e' : isx i g -> lout i p d e d' e' -> wall_out (V3 (- g) 0 0) d e d' e'.
Proof. intros [(-> & ->)|(-> & ->)] h; exact h. Qed.
Lemma isy_out i g p d e d' e' : isy i g -> lout i p d e d' e' -> wall_out (V3 0 (- g) 0) d e d' e'.
Proof. intros [(-> & ->)|(-> & ->)] h; exact h. Qed.

Lemma unique_hit (B : shape) z v d t x : meets_flat B z v d x -> tenm 10 < Rabs (dot d z) -> 0 <= t -> B (ray_at v d t) ->
  (forall t', B (ray_at v d t') -> t' = t) -> x = Fin t.
Proof.
  intros (M & _) N Ht Bt U. specialize (M N). unfold first_hit0, least in M. destruct x as [t'| | |]; try contradiction.
  - f_equal. apply U. apply M.
  - exfalso. apply (M t). auto.
Qed.

Definition sign (x : R) : R := if Rle_dec 0 x then 1 else -1.
Lemma sign_abs x : sign x * Rabs x = x /\ (sign x = 1 \/ sign x = -1).
Proof.
  unfold sign. destruct (Rle_dec 0 x).
  - rewrite Rabs_right by lra. split; [ring|auto].
  - rewrite Rabs_left by lra. split; [ring|auto].
Qed.

(** ** The flight *)
Definition shown_if (E : R) (p : vec) : option (R * vec) := if Rlt_dec me E then Some (E, p) else None.

Lemma weaker (E0 : R) (a b : nat) : (a <= b)%nat -> E0 * heff ^ a <= me -> E0 * heff ^ b <= me.
Proof.
  intros Hab Le. replace b with (a + (b - a))%nat by lia. rewrite pow_add. pose proof (pow_le heff a (proj1 He)) as P0.
  assert (P1 : 0 <= heff ^ (b - a) <= 1). { split; [apply pow_le; lra|]. rewrite <- (pow1 (b - a)). apply pow_incr. lra. }
  destruct (Rle_dec 0 E0) as [E|E].
  - assert (0 <= E0 * heff ^ a) by (apply Rmult_le_pos; auto). rewrite <- Rmult_assoc. nra.
  - assert (0 <= heff ^ a * heff ^ (b - a)) by (apply Rmult_le_pos; tauto). nra.
Qed.

Section Flight.
Variables (c : vec) (px py : R) (Kx Ky : nat) (qx qy E0 : R).
Let ax := Rabs (vx c).
Let ay := Rabs (vy c).
Let ox := sign (vx c) * px.
Let oy := sign (vy c) * py.
Let cz := vz c.
Let L := H / cz.
(** The images passed, counted along the way. *)
Definition countx (s : R) : Prop := 0 <= s /\ exists k : nat, s * ax + ox = (INR k + 1 / 2) * X.
Definition county (s : R) : Prop := 0 <= s /\ exists k : nat, s * ay + oy = (INR k + 1 / 2) * Y.
Hypothesis Uc : is_unit c.
Hypothesis Px : - (X / 2) < px < X / 2.
Hypothesis Py : - (Y / 2) < py < Y / 2.
Hypothesis Clr : tenm 10 < vz c /\ 4 * f * tenm 10 < vx c * vx c + vy c * vy c /\
  (forall s, countx s -> s <= L -> tenm 10 < ax /\ s + tenm 6 < L) /\
  (forall s, county s -> s <= L -> tenm 10 < ay /\ s + tenm 6 < L) /\
  forall s s', countx s -> county s' -> s <= L -> s' <= L -> tenm 6 < Rabs (s - s').
Hypothesis Fx : - (X / 2) < L * ax + ox - INR Kx * X < X / 2.
Hypothesis Fy : - (Y / 2) < L * ay + oy - INR Ky * Y < Y / 2.

Lemma ox_range : - (X / 2) < ox < X / 2 /\ - (Y / 2) < oy < Y / 2.
Proof. unfold ox, oy. destruct (sign_abs (vx c)) as (_ & [->| ->]), (sign_abs (vy c)) as (_ & [->| ->]); lra. Qed.
Lemma cz_pos : 0 < cz.
Proof. destruct Clr as (Hz & _). pose proof (tenm_pos 10). fold cz in Hz. lra. Qed.
Lemma L_pos : 0 < L.
Proof. apply Rdiv_lt_0_compat; auto. apply cz_pos. Qed.
Lemma L_cz : L * cz = H.
Proof. unfold L. field. pose proof cz_pos. lra. Qed.
Lemma ax_range : 0 <= ax <= 1 /\ 0 <= ay <= 1 /\ cz <= 1 /\ ax * ax = vx c * vx c /\ ay * ay = vy c * vy c /\ ax * ax + ay * ay + cz * cz = 1.
Proof.
  pose proof (Rabs_pos (vx c)) as P. pose proof (Rabs_pos (vy c)) as Q. fold ax in P. fold ay in Q.
  assert (Sx : ax * ax = vx c * vx c) by (unfold ax; rewrite <- Rabs_mult; apply Rabs_right; nra).
  assert (Sy : ay * ay = vy c * vy c) by (unfold ay; rewrite <- Rabs_mult; apply Rabs_right; nra).
  assert (U : vx c * vx c + vy c * vy c + cz * cz = 1) by exact Uc. rewrite <- Sx, <- Sy in U.
  clearbody ax ay cz. repeat split; auto; clear Clr Fx Fy; nra.
Qed.

(** [s0]: the length from the plane of the focus; [kx], [ky]: the images of the mirrors already passed. *)
Definition from (q kx ky : nat) (gx gy s0 : R) : Prop :=
  q = 6%nat /\ (s0 + tenm 6 < 0 /\ forall t, 0 < t -> ~ A (V3 (gx * ((s0 + t) * ax + ox)) (gy * ((s0 + t) * ay + oy)) (f + (s0 + t) * cz))) /\ kx = 0%nat /\ ky = 0%nat
  \/ isx q (- gx) /\ countx s0 /\ (INR kx - 1 / 2) * X = s0 * ax + ox /\ (INR ky - 1 / 2) * Y < s0 * ay + oy /\ s0 + tenm 6 < L
  \/ isy q (- gy) /\ county s0 /\ (INR ky - 1 / 2) * Y = s0 * ay + oy /\ (INR kx - 1 / 2) * X < s0 * ax + ox /\ s0 + tenm 6 < L.

Definition flies (q : nat) (v d : vec) (e : R) (k : nat) (o : option (R * vec)) : Prop :=
  exists kx ky gx gy s0, from q kx ky gx gy s0 /\ (gx = 1 \/ gx = -1) /\ (gy = 1 \/ gy = -1) /\
    (kx <= Kx)%nat /\ (ky <= Ky)%nat /\ s0 * ax + ox < (INR kx + 1 / 2) * X /\ s0 * ay + oy < (INR ky + 1 / 2) * Y /\
    v = V3 (gx * (s0 * ax + ox - INR kx * X)) (gy * (s0 * ay + oy - INR ky * Y)) (f + s0 * cz) /\ d = V3 (gx * ax) (gy * ay) cz /\
    e = E0 * heff ^ (kx + ky) /\ me < e /\ k = (Kx - kx + (Ky - ky))%nat /\
    gx * (-1) ^ (Kx - kx) * (L * ax + ox - INR Kx * X) = qx /\ gy * (-1) ^ (Ky - ky) * (L * ay + oy - INR Ky * Y) = qy /\
    o = shown_if (E0 * heff ^ (Kx + Ky)) (V3 qx qy (f + H)).

Section Step.
Variables (q kx ky : nat) (gx gy s0 : R).
Hypothesis Fr : from q kx ky gx gy s0.
Hypothesis Gx : gx = 1 \/ gx = -1.
Hypothesis Gy : gy = 1 \/ gy = -1.
Hypothesis Ux : s0 * ax + ox < (INR kx + 1 / 2) * X.
Hypothesis Uy : s0 * ay + oy < (INR ky + 1 / 2) * Y.
Hypothesis Lx : (kx <= Kx)%nat.
Hypothesis Ly : (ky <= Ky)%nat.
Let v := V3 (gx * (s0 * ax + ox - INR kx * X)) (gy * (s0 * ay + oy - INR ky * Y)) (f + s0 * cz).
Let d := V3 (gx * ax) (gy * ay) cz.

Lemma at_length t : ray_at v d t = V3 (gx * ((s0 + t) * ax + ox - INR kx * X)) (gy * ((s0 + t) * ay + oy - INR ky * Y)) (f + (s0 + t) * cz).
Proof. unfold ray_at, v, d. vunfold. veq; ring. Qed.

Lemma s0_below : s0 + tenm 6 < L.
Proof.
  pose proof L_pos. pose proof (tenm_pos 6).
  destruct Fr as [(_ & (Q & _) & _)|[(_ & _ & _ & _ & S)|(_ & _ & _ & _ & S)]]; auto. lra.
Qed.

(** Behind the ray there are only the mirrors it comes from. *)
Lemma low_x s : s0 <= s -> 0 <= s -> isx q (- gx) \/ (INR kx - 1 / 2) * X < s * ax + ox.
Proof.
  intros S1 S2. destruct ax_range as ((P & _) & _). pose proof (tenm_pos 6). destruct ox_range as (O & _).
  destruct Fr as [(_ & S & -> & _)|[(I & _)|(_ & _ & _ & S & _)]]; auto; right.
  - cbn. assert (0 <= s * ax) by nra. nra.
  - assert (s0 * ax <= s * ax) by nra. lra.
Qed.
Lemma low_y s : s0 <= s -> 0 <= s -> isy q (- gy) \/ (INR ky - 1 / 2) * Y < s * ay + oy.
Proof.
  intros S1 S2. destruct ax_range as (_ & (P & _) & _). pose proof (tenm_pos 6). destruct ox_range as (_ & O).
  destruct Fr as [(_ & S & _ & ->)|[(_ & _ & _ & S & _)|(I & _)]]; auto; right.
  - cbn. assert (0 <= s * ay) by nra. nra.
  - assert (s0 * ay <= s * ay) by nra. lra.
Qed.
Lemma low_x' s : s0 < s -> 0 <= s -> 0 < ax -> (INR kx - 1 / 2) * X < s * ax + ox.
Proof.
  intros S1 S2 P. destruct Fr as [(Q & _)|[(I & _ & S & _)|(_ & _ & _ & S & _)]].
  - destruct (low_x s) as [[(I & _)|(I & _)]|I]; auto; try lra; congruence.
  - rewrite S. assert (s0 * ax < s * ax) by nra. lra.
  - assert (s0 * ax < s * ax) by nra. lra.
Qed.
Lemma low_y' s : s0 < s -> 0 <= s -> 0 < ay -> (INR ky - 1 / 2) * Y < s * ay + oy.
Proof.
  intros S1 S2 P. destruct Fr as [(Q & _)|[(_ & _ & _ & S & _)|(I & _ & S & _)]].
  - destruct (low_y s) as [[(I & _)|(I & _)]|I]; auto; try lra; congruence.
  - assert (s0 * ay < s * ay) by nra. lra.
  - rewrite S. assert (s0 * ay < s * ay) by nra. lra.
Qed.

(** Whatever is asked and is not met up to the length [E]. *)
Lemma miss_x i g E x : isx i g -> asks (Some q) i -> E * ax + ox < (INR kx + 1 / 2) * X \/ g = - gx ->
  lhit i v d x -> x = PInf \/ exists t, x = Fin t /\ E - s0 < t.
Proof.
  intros I Aq HE h. apply (isx_hit _ _ _ _ _ I) in h. eapply flat_miss; [exact h|]. intros t (T1 & T2) W. rewrite at_length in W.
  destruct W as (W1 & _ & W3). cbn in W1, W3. pose proof cz_pos as Cz.
  assert (S : 0 <= s0 + t). { apply Rnot_lt_le. intros N. nra. }
  assert (Gi : isx q (- gx) -> g <> - gx).
  { intros Iq ->. assert (i = q) as ->. { destruct I as [(-> & G)|(-> & G)], Iq as [(-> & G')|(-> & G')]; auto; lra. }
    destruct Aq as [Aq|Aq]; [destruct Iq as [(-> & _)|(-> & _)]; discriminate|auto]. }
  assert (Gg : g = gx \/ g = - gx) by (destruct I as [(_ & ->)|(_ & ->)], Gx; lra).
  destruct Gg as [->| ->].
  - destruct HE as [HE|HE]; [|destruct Gx; lra].
    assert (Q : (s0 + t) * ax + ox = (INR kx + 1 / 2) * X) by (destruct Gx as [G|G]; rewrite G in W1; lra).
    destruct ax_range as ((P & _) & _). assert ((s0 + t) * ax <= E * ax) by (apply Rmult_le_compat_r; lra). lra.
  - assert (Q : (s0 + t) * ax + ox = (INR kx - 1 / 2) * X) by (destruct Gx as [G|G]; rewrite G in W1; lra).
    destruct (low_x (s0 + t)) as [Iq|Iq]; try lra. apply Gi; auto.
Qed.
Lemma miss_y i g E x : isy i g -> asks (Some q) i -> E * ay + oy < (INR ky + 1 / 2) * Y \/ g = - gy ->
  lhit i v d x -> x = PInf \/ exists t, x = Fin t /\ E - s0 < t.
Proof.
  intros I Aq HE h. apply (isy_hit _ _ _ _ _ I) in h. eapply flat_miss; [exact h|]. intros t (T1 & T2) W. rewrite at_length in W.
  destruct W as (W1 & _ & W3). cbn in W1, W3. pose proof cz_pos as Cz.
  assert (S : 0 <= s0 + t). { apply Rnot_lt_le. intros N. nra. }
  assert (Gi : isy q (- gy) -> g <> - gy).
  { intros Iq ->. assert (i = q) as ->. { destruct I as [(-> & G)|(-> & G)], Iq as [(-> & G')|(-> & G')]; auto; lra. }
    destruct Aq as [Aq|Aq]; [destruct Iq as [(-> & _)|(-> & _)]; discriminate|auto]. }
  assert (Gg : g = gy \/ g = - gy) by (destruct I as [(_ & ->)|(_ & ->)], Gy; lra).
  destruct Gg as [->| ->].
  - destruct HE as [HE|HE]; [|destruct Gy; lra].
    assert (Q : (s0 + t) * ay + oy = (INR ky + 1 / 2) * Y) by (destruct Gy as [G|G]; rewrite G in W1; lra).
    destruct ax_range as (_ & (P & _) & _). assert ((s0 + t) * ay <= E * ay) by (apply Rmult_le_compat_r; lra). lra.
  - assert (Q : (s0 + t) * ay + oy = (INR ky - 1 / 2) * Y) by (destruct Gy as [G|G]; rewrite G in W1; lra).
    destruct (low_y (s0 + t)) as [Iq|Iq]; try lra. apply Gi; auto.
Qed.
Lemma miss_plate z E x : f + E * cz < z -> meets_flat (plate z) (V3 0 0 (-1)) v d x -> x = PInf \/ exists t, x = Fin t /\ E - s0 < t.
Proof.
  intros HE h. eapply flat_miss; [exact h|]. intros t (T1 & T2) W. rewrite at_length in W. destruct W as (W1 & _). cbn in W1.
  pose proof cz_pos as Cz. nra.
Qed.
Lemma miss_dish x : (dish_safe f d -> first_hit A v d x) -> x = PInf.
Proof.
  intros h. assert (Sd : dish_safe f d).
  { left. destruct Clr as (_ & S & _). destruct ax_range as (_ & _ & _ & S1 & S2 & _). unfold d. cbn.
    replace (gx * ax * (gx * ax) + gy * ay * (gy * ay)) with (vx c * vx c + vy c * vy c); auto. rewrite <- S1, <- S2.
    assert (Gx2 : gx * gx = 1) by (destruct Gx as [->| ->]; ring). assert (Gy2 : gy * gy = 1) by (destruct Gy as [->| ->]; ring).
    replace (gx * ax * (gx * ax)) with (gx * gx * (ax * ax)) by ring. replace (gy * ay * (gy * ay)) with (gy * gy * (ay * ay)) by ring.
    rewrite Gx2, Gy2. ring. }
  specialize (h Sd). unfold first_hit, least in h. destruct x as [t| | |]; try contradiction; auto. exfalso.
  destruct h as ((Ht & At) & _). rewrite at_length in At. destruct (Ab _ At) as (B & Z). cbn [vz] in Z.
  pose proof cz_pos as Cz. assert (S : s0 + t < 0) by nra.
  destruct Fr as [(_ & (_ & S1) & -> & ->)|[(_ & (S1 & _) & _)|(_ & (S1 & _) & _)]]; try lra.
  apply (S1 t Ht). cbn [INR] in At. rewrite !Rmult_0_l, !Rminus_0_r in At. exact At.
Qed.

(** A mirror at x is next. *)
Lemma reach_x : (kx < Kx)%nat -> 0 < ax /\ let E := ((INR kx + 1 / 2) * X - ox) / ax in E * ax + ox = (INR kx + 1 / 2) * X /\ 0 <= E /\ E < L /\ s0 < E /\
  countx E /\ tenm 10 < ax /\ E + tenm 6 < L.
Proof.
  intros K. pose proof L_pos as Lp. destruct ax_range as ((P & _) & _). pose proof (tenm_pos 6) as T6. pose proof (pos_INR kx) as Pk. destruct ox_range as (O & _).
  assert (Ki : INR kx + 1 <= INR Kx) by (rewrite <- S_INR; apply le_INR; lia).
  assert (Q : (INR kx + 1 / 2) * X < L * ax + ox) by nra. assert (Q' : X / 2 <= (INR kx + 1 / 2) * X) by nra.
  assert (P' : 0 < ax) by (apply Rnot_le_lt; intros N; replace ax with 0 in Q by lra; lra). split; auto. intros E.
  assert (EE : E * ax + ox = (INR kx + 1 / 2) * X) by (unfold E; field; lra).
  assert (E1 : 0 <= E) by (apply Rlt_le, Rdiv_lt_0_compat; lra).
  assert (E2 : E < L) by (apply Rmult_lt_reg_r with ax; lra). assert (E3 : s0 < E) by (apply Rmult_lt_reg_r with ax; lra).
  assert (C : countx E) by (split; auto; exists kx; exact EE).
  do 5 (split; auto). destruct Clr as (_ & _ & Cx & _). apply (Cx E C). lra.
Qed.
Lemma next_x e k : let E := ((INR kx + 1 / 2) * X - ox) / ax in
  (kx < Kx)%nat -> ((ky < Ky)%nat -> E < ((INR ky + 1 / 2) * Y - oy) / ay) -> e = E0 * heff ^ (kx + ky) -> k = (Kx - kx + (Ky - ky))%nat ->
  gx * (-1) ^ (Kx - kx) * (L * ax + ox - INR Kx * X) = qx -> gy * (-1) ^ (Ky - ky) * (L * ay + oy - INR Ky * Y) = qy ->
  exists i t d1 e1 k', (i < 7)%nat /\ asks (Some q) i /\ tenm 6 < t /\ (forall x, lhit i v d x -> x = Fin t) /\
  (forall i' x, (i' < 7)%nat -> i' <> i -> asks (Some q) i' -> lhit i' v d x -> x = PInf \/ exists t', x = Fin t' /\ t < t') /\
  (forall d' e', lout i (ray_at v d t) d e d' e' -> d' = d1 /\ e' = e1) /\ k = S k' /\
  i <> 4%nat /\ (me < e1 -> flies i (ray_at v d t) d1 e1 k' (shown_if (E0 * heff ^ (Kx + Ky)) (V3 qx qy (f + H)))) /\
  (e1 <= me -> E0 * heff ^ (Kx + Ky) <= me).
Proof.
  intros E K First -> -> Qx Qy. destruct (reach_x K) as (P & EE & E1 & E2 & E3 & C & A10 & EL). fold E in EE, E1, E2, E3, C, EL.
  pose proof (tenm_pos 6) as T6. pose proof cz_pos as Cz. pose proof L_cz as Lc. destruct ax_range as ((_ & P1) & (Py' & _) & _). destruct ox_range as (_ & Oy).
  assert (EY : E * ay + oy < (INR ky + 1 / 2) * Y).
  { destruct (Nat.lt_ge_cases ky Ky) as [N|N].
    - specialize (First N). destruct (Req_dec ay 0) as [Z|Z].
      + rewrite Z. pose proof (pos_INR ky). nra.
      + apply Rmult_lt_compat_r with (r := ay) in First; [|lra]. replace (((INR ky + 1 / 2) * Y - oy) / ay * ay) with ((INR ky + 1 / 2) * Y - oy) in First by (field; auto). lra.
    - assert (ky = Ky) by lia. subst ky. assert (E * ay <= L * ay) by (apply Rmult_le_compat_r; lra). lra. }
  assert (exists i, isx i gx) as (i & Ii) by (destruct Gx as [->| ->]; [exists 0%nat|exists 1%nat]; unfold isx; auto).
  assert (Lt : s0 + (E - s0) = E) by ring.
  exists i, (E - s0), (V3 (- gx * ax) (gy * ay) cz), (E0 * heff ^ (S kx + ky)), (Kx - S kx + (Ky - ky))%nat.
  split; [destruct Ii as [(-> & _)|(-> & _)]; lia|].
  split.
  { cbn. destruct Fr as [(-> & _)|[(Iq & _)|(Iq & _)]]; auto; right;
      destruct Ii as [(-> & G1)|(-> & G1)], Iq as [(-> & G2)|(-> & G2)]; cbn; try lia; lra. }
  split.
  { destruct Fr as [(_ & (Q & _) & _)|[(_ & _ & S & _)|(_ & Cy & _)]].
    - lra.
    - assert ((E - s0) * ax = X) by lra. assert (X <= E - s0) by nra. lra.
    - destruct Clr as (_ & _ & _ & _ & D). pose proof s0_below. specialize (D E s0 C Cy). rewrite Rabs_right in D by lra.
      apply D; lra. }
  split.
  { intros x h. apply (isx_hit _ _ _ _ _ Ii) in h. eapply unique_hit; [exact h| |lra| |].
    - unfold d, dot. cbn. replace (gx * ax * - gx + gy * ay * 0 + cz * 0) with (- (gx * gx * ax)) by ring.
      rewrite Rabs_Ropp. replace (gx * gx) with 1 by (destruct Gx as [->| ->]; ring). rewrite Rmult_1_l, Rabs_right; lra.
    - rewrite at_length, Lt. unfold xw. cbn [vx vy vz]. split; [rewrite EE; field|]. split.
      + assert (B : (INR ky - 1 / 2) * Y <= E * ay + oy).
        { destruct (low_y E) as [Iy|]; try lra. destruct (Req_dec ay 0) as [Z|Z]; [|apply Rlt_le, low_y'; lra].
          destruct Fr as [(Q & _)|[(_ & _ & _ & S & _)|(_ & _ & S & _)]]; [|rewrite Z in *; lra|rewrite Z in *; lra].
          destruct Iy as [(Iy & _)|(Iy & _)]; congruence. }
        destruct Gy as [->| ->]; lra.
      + nra.
    - intros t' W. rewrite at_length in W. destruct W as (W & _). cbn in W.
      assert ((s0 + t') * ax = E * ax) by (destruct Gx as [G|G]; rewrite G in W; lra).
      assert (s0 + t' = E) by (apply Rmult_eq_reg_r with ax; lra). lra. }
  split.
  { intros i' x Hi Ne Aq h.
    destruct i' as [|[|[|[|[|[|[|i']]]]]]]; try lia.
    - apply (miss_x 0 1 E x); auto; [left; auto|]. right. destruct Ii as [(-> & G1)|(-> & G1)]; [congruence|lra].
    - apply (miss_x 1 (-1) E x); auto; [right; auto|]. right. destruct Ii as [(-> & G1)|(-> & G1)]; [lra|congruence].
    - apply (miss_y 2 (-1) E x); auto. left; auto.
    - apply (miss_y 3 1 E x); auto. right; auto.
    - apply (miss_plate (f + H) E x); auto. nra.
    - apply (miss_plate (f + H + tenm 10) E x); auto. pose proof (tenm_pos 10). nra.
    - left. apply miss_dish. exact h. }
  split.
  { intros d' e' O. apply (isx_out _ _ _ _ _ _ _ Ii) in O as ((M1 & M2) & O1 & _).
    assert (Gx2 : gx * gx = 1) by (destruct Gx as [->| ->]; ring). split.
    - unfold tangential, d in *. destruct d' as [x' y' z']. vunfold. unfold dot in *. cbn in *. injection M2 as M3 M4 M5.
      assert (x' = - gx * ax). { clear - Gx M1. destruct Gx as [G|G]; rewrite G in *; lra. }
      subst x'. veq; lra.
    - rewrite O1.
      + cbn [Nat.add pow]. ring.
      + unfold d, dot. cbn. replace (gx * ax * - gx + gy * ay * 0 + cz * 0) with (- (gx * gx * ax)) by ring. rewrite Gx2. lra. }
  split; [lia|]. split; [destruct Ii as [(-> & _)|(-> & _)]; lia|].
  split; [|apply weaker; lia]. intros Me.
  exists (S kx), ky, (- gx), gy, E. rewrite at_length, Lt. split.
  { right. left. rewrite Ropp_involutive. split; auto. split; auto. split; [rewrite S_INR, EE; field|]. split; [|auto].
    destruct (Req_dec ay 0) as [Z|Z]; [|apply low_y'; lra].
    destruct Fr as [(Q & _ & _ & ->)|[(_ & _ & _ & S & _)|(_ & (Cp & kk & Ck) & _)]].
    - cbn. rewrite Z. lra.
    - rewrite Z in *. lra.
    - exfalso. rewrite Z in Ck. pose proof (pos_INR kk). nra. }
  split; [destruct Gx as [->| ->]; [right|left]; ring|]. split; auto. split; [lia|]. split; auto. split; [rewrite S_INR, EE; nra|]. split; auto.
  split; [rewrite S_INR, EE; veq; field|]. split; auto. split; auto. split; auto. split; auto. split; [|split; auto].
  rewrite <- Qx. replace (Kx - kx)%nat with (S (Kx - S kx)) by lia. cbn [pow]. ring.
Qed.

(** A mirror at y is next. *)
Lemma reach_y : (ky < Ky)%nat -> 0 < ay /\ let E := ((INR ky + 1 / 2) * Y - oy) / ay in E * ay + oy = (INR ky + 1 / 2) * Y /\ 0 <= E /\ E < L /\ s0 < E /\
  county E /\ tenm 10 < ay /\ E + tenm 6 < L.
Proof.
  intros K. pose proof L_pos as Lp. destruct ax_range as (_ & (P & _) & _). pose proof (tenm_pos 6) as T6. pose proof (pos_INR ky) as Pk. destruct ox_range as (_ & O).
  assert (Ki : INR ky + 1 <= INR Ky) by (rewrite <- S_INR; apply le_INR; lia).
  assert (Q : (INR ky + 1 / 2) * Y < L * ay + oy) by nra. assert (Q' : Y / 2 <= (INR ky + 1 / 2) * Y) by nra.
  assert (P' : 0 < ay) by (apply Rnot_le_lt; intros N; replace ay with 0 in Q by lra; lra). split; auto. intros E.
  assert (EE : E * ay + oy = (INR ky + 1 / 2) * Y) by (unfold E; field; lra).
  assert (E1 : 0 <= E) by (apply Rlt_le, Rdiv_lt_0_compat; lra).
  assert (E2 : E < L) by (apply Rmult_lt_reg_r with ay; lra). assert (E3 : s0 < E) by (apply Rmult_lt_reg_r with ay; lra).
  assert (C : county E) by (split; auto; exists ky; exact EE).
  do 5 (split; auto). destruct Clr as (_ & _ & _ & Cy & _). apply (Cy E C). lra.
Qed.
Lemma next_y e k : let E := ((INR ky + 1 / 2) * Y - oy) / ay in
  (ky < Ky)%nat -> ((kx < Kx)%nat -> E < ((INR kx + 1 / 2) * X - ox) / ax) -> e = E0 * heff ^ (kx + ky) -> k = (Kx - kx + (Ky - ky))%nat ->
  gx * (-1) ^ (Kx - kx) * (L * ax + ox - INR Kx * X) = qx -> gy * (-1) ^ (Ky - ky) * (L * ay + oy - INR Ky * Y) = qy ->
  exists i t d1 e1 k', (i < 7)%nat /\ asks (Some q) i /\ tenm 6 < t /\ (forall x, lhit i v d x -> x = Fin t) /\
  (forall i' x, (i' < 7)%nat -> i' <> i -> asks (Some q) i' -> lhit i' v d x -> x = PInf \/ exists t', x = Fin t' /\ t < t') /\
  (forall d' e', lout i (ray_at v d t) d e d' e' -> d' = d1 /\ e' = e1) /\ k = S k' /\
  i <> 4%nat /\ (me < e1 -> flies i (ray_at v d t) d1 e1 k' (shown_if (E0 * heff ^ (Kx + Ky)) (V3 qx qy (f + H)))) /\
  (e1 <= me -> E0 * heff ^ (Kx + Ky) <= me).
Proof.
  intros E K First -> -> Qx Qy. destruct (reach_y K) as (P & EE & E1 & E2 & E3 & C & A10 & EL). fold E in EE, E1, E2, E3, C, EL.
  pose proof (tenm_pos 6) as T6. pose proof cz_pos as Cz. pose proof L_cz as Lc. destruct ax_range as ((Px' & _) & (_ & P1) & _). destruct ox_range as (Ox & _).
  assert (EX : E * ax + ox < (INR kx + 1 / 2) * X).
  { destruct (Nat.lt_ge_cases kx Kx) as [N|N].
    - specialize (First N). destruct (Req_dec ax 0) as [Z|Z].
      + rewrite Z. pose proof (pos_INR kx). nra.
      + apply Rmult_lt_compat_r with (r := ax) in First; [|lra]. replace (((INR kx + 1 / 2) * X - ox) / ax * ax) with ((INR kx + 1 / 2) * X - ox) in First by (field; auto). lra.
    - assert (kx = Kx) by lia. subst kx. assert (E * ax <= L * ax) by (apply Rmult_le_compat_r; lra). lra. }
  assert (exists i, isy i gy) as (i & Ii) by (destruct Gy as [->| ->]; [exists 3%nat|exists 2%nat]; unfold isy; auto).
  assert (Lt : s0 + (E - s0) = E) by ring.
  exists i, (E - s0), (V3 (gx * ax) (- gy * ay) cz), (E0 * heff ^ (kx + S ky)), (Kx - kx + (Ky - S ky))%nat.
  split; [destruct Ii as [(-> & _)|(-> & _)]; lia|].
  split.
  { cbn. destruct Fr as [(-> & _)|[(Iq & _)|(Iq & _)]]; auto; right;
      destruct Ii as [(-> & G1)|(-> & G1)], Iq as [(-> & G2)|(-> & G2)]; cbn; try lia; lra. }
  split.
  { destruct Fr as [(_ & (Q & _) & _)|[(_ & Cx & _)|(_ & _ & S & _)]].
    - lra.
    - destruct Clr as (_ & _ & _ & _ & D). pose proof s0_below. specialize (D s0 E Cx C). rewrite Rabs_left in D by lra.
      assert (tenm 6 < - (s0 - E)) by (apply D; lra). lra.
    - assert ((E - s0) * ay = Y) by lra. assert (Y <= E - s0) by nra. lra. }
  split.
  { intros x h. apply (isy_hit _ _ _ _ _ Ii) in h. eapply unique_hit; [exact h| |lra| |].
    - unfold d, dot. cbn. replace (gx * ax * 0 + gy * ay * - gy + cz * 0) with (- (gy * gy * ay)) by ring.
      rewrite Rabs_Ropp. replace (gy * gy) with 1 by (destruct Gy as [->| ->]; ring). rewrite Rmult_1_l, Rabs_right; lra.
    - rewrite at_length, Lt. unfold yw. cbn [vx vy vz]. split; [rewrite EE; field|]. split.
      + assert (B : (INR kx - 1 / 2) * X <= E * ax + ox).
        { destruct (low_x E) as [Ix|]; try lra. destruct (Req_dec ax 0) as [Z|Z]; [|apply Rlt_le, low_x'; lra].
          destruct Fr as [(Q & _)|[(_ & _ & S & _)|(_ & _ & _ & S & _)]]; [|rewrite Z in *; lra|rewrite Z in *; lra].
          destruct Ix as [(Ix & _)|(Ix & _)]; congruence. }
        destruct Gx as [->| ->]; lra.
      + nra.
    - intros t' W. rewrite at_length in W. destruct W as (W & _). cbn in W.
      assert ((s0 + t') * ay = E * ay) by (destruct Gy as [G|G]; rewrite G in W; lra).
      assert (s0 + t' = E) by (apply Rmult_eq_reg_r with ay; lra). lra. }
  split.
  { intros i' x Hi Ne Aq h.
    destruct i' as [|[|[|[|[|[|[|i']]]]]]]; try lia.
    - apply (miss_x 0 1 E x); auto. left; auto.
    - apply (miss_x 1 (-1) E x); auto. right; auto.
    - apply (miss_y 2 (-1) E x); auto; [left; auto|]. right. destruct Ii as [(-> & G1)|(-> & G1)]; [congruence|lra].
    - apply (miss_y 3 1 E x); auto; [right; auto|]. right. destruct Ii as [(-> & G1)|(-> & G1)]; [lra|congruence].
    - apply (miss_plate (f + H) E x); auto. nra.
    - apply (miss_plate (f + H + tenm 10) E x); auto. pose proof (tenm_pos 10). nra.
    - left. apply miss_dish. exact h. }
  split.
  { intros d' e' O. apply (isy_out _ _ _ _ _ _ _ Ii) in O as ((M1 & M2) & O1 & _).
    assert (Gy2 : gy * gy = 1) by (destruct Gy as [->| ->]; ring). split.
    - unfold tangential, d in *. destruct d' as [x' y' z']. vunfold. unfold dot in *. cbn in *. injection M2 as M3 M4 M5.
      assert (y' = - gy * ay). { clear - Gy M1. destruct Gy as [G|G]; rewrite G in *; lra. }
      subst y'. veq; lra.
    - rewrite O1.
      + rewrite Nat.add_succ_r. cbn [pow]. ring.
      + unfold d, dot. cbn. replace (gx * ax * 0 + gy * ay * - gy + cz * 0) with (- (gy * gy * ay)) by ring. rewrite Gy2. lra. }
  split; [lia|]. split; [destruct Ii as [(-> & _)|(-> & _)]; lia|].
  split; [|apply weaker; lia]. intros Me.
  exists kx, (S ky), gx, (- gy), E. rewrite at_length, Lt. split.
  { right. right. rewrite Ropp_involutive. split; auto. split; auto. split; [rewrite S_INR, EE; field|]. split; [|auto].
    destruct (Req_dec ax 0) as [Z|Z]; [|apply low_x'; lra].
    destruct Fr as [(Q & _ & -> & _)|[(_ & (Cp & kk & Ck) & _)|(_ & _ & _ & S & _)]].
    - cbn. rewrite Z. lra.
    - exfalso. rewrite Z in Ck. pose proof (pos_INR kk). nra.
    - rewrite Z in *. lra. }
  split; auto. split; [destruct Gy as [->| ->]; [right|left]; ring|]. split; [lia|]. split; [lia|]. split; auto. split; [rewrite S_INR, EE; nra|].
  split; [rewrite S_INR, EE; veq; field|]. split; auto. split; auto. split; auto. split; auto. split; auto. split; auto.
  rewrite <- Qy. replace (Ky - ky)%nat with (S (Ky - S ky)) by lia. cbn [pow]. ring.
Qed.

(** The receiver is next. *)
Lemma next_front e : kx = Kx -> ky = Ky -> e = E0 * heff ^ (kx + ky) -> me < e ->
  gx * (-1) ^ (Kx - kx) * (L * ax + ox - INR Kx * X) = qx -> gy * (-1) ^ (Ky - ky) * (L * ay + oy - INR Ky * Y) = qy ->
  exists t d1, asks (Some q) 4 /\ tenm 6 < t /\ (forall x, lhit 4 v d x -> x = Fin t) /\
  (forall i' x, (i' < 7)%nat -> i' <> 4%nat -> asks (Some q) i' -> lhit i' v d x -> x = PInf \/ exists t', x = Fin t' /\ t < t') /\
  (forall d' e', lout 4 (ray_at v d t) d e d' e' -> d' = d1 /\ e' = 0) /\
  shown_if (E0 * heff ^ (Kx + Ky)) (V3 qx qy (f + H)) = Some (e, ray_at v d t).
Proof.
  intros Ex Ey -> Me Qx Qy. pose proof L_pos as Lp. pose proof s0_below as Sb. pose proof cz_pos as Cz. pose proof L_cz as Lc. pose proof (tenm_pos 6) as T6.
  pose proof (tenm_pos 10) as T10. destruct ax_range as ((Px' & _) & (Py' & _) & _).
  assert (LX : L * ax + ox < (INR kx + 1 / 2) * X) by (rewrite Ex; lra). assert (LY : L * ay + oy < (INR ky + 1 / 2) * Y) by (rewrite Ey; lra).
  assert (Lt : s0 + (L - s0) = L) by ring. rewrite Ex, Nat.sub_diag in Qx. rewrite Ey, Nat.sub_diag in Qy. cbn [pow] in Qx, Qy.
  exists (L - s0), (V3 (gx * ax) (gy * ay) (- cz)). split.
  { cbn. destruct Fr as [(-> & _)|[(Iq & _)|(Iq & _)]]; auto; right; destruct Iq as [(-> & G2)|(-> & G2)]; cbn; lia. }
  split; [lra|]. split.
  { intros x h. cbn [lhit] in h. eapply unique_hit; [exact h| |lra| |].
    - unfold d, dot. cbn. replace (gx * ax * 0 + gy * ay * 0 + cz * -1) with (- cz) by ring. rewrite Rabs_Ropp, Rabs_right by lra. apply Clr.
    - rewrite at_length, Lt, Ex, Ey. unfold plate. cbn [vx vy vz]. split; [lra|]. destruct Gx as [->| ->], Gy as [->| ->]; split; lra.
    - intros t' W. rewrite at_length in W. destruct W as (W & _). cbn in W.
      assert (s0 + t' = L) by (apply Rmult_eq_reg_r with cz; lra). lra. }
  split.
  { intros i' x Hi Ne Aq h.
    destruct i' as [|[|[|[|[|[|[|i']]]]]]]; try lia.
    - apply (miss_x 0 1 L x); auto. left; auto.
    - apply (miss_x 1 (-1) L x); auto. right; auto.
    - apply (miss_y 2 (-1) L x); auto. left; auto.
    - apply (miss_y 3 1 L x); auto. right; auto.
    - apply (miss_plate (f + H + tenm 10) L x); auto. lra.
    - left. apply miss_dish. exact h. }
  split.
  { intros d' e' ((M1 & M2) & ->). split; [|ring].
    unfold tangential, d in *. destruct d' as [x' y' z']. vunfold. unfold dot in *. cbn in *. injection M2 as M3 M4 M5. veq; lra. }
  rewrite Ex, Ey in Me. unfold shown_if. destruct (Rlt_dec me (E0 * heff ^ (Kx + Ky))) as [_|N]; [|contradiction].
  rewrite at_length, Lt, Ex, Ey. f_equal. f_equal. rewrite <- Qx, <- Qy, Lc. veq; ring.
Qed.
End Step.

Lemma flight_step q v d e k o : flies q v d e k o -> exists i t d1 e1,
  (i < 7)%nat /\ asks (Some q) i /\ tenm 6 < t /\ (forall x, lhit i v d x -> x = Fin t) /\
  (forall i' x, (i' < 7)%nat -> i' <> i -> asks (Some q) i' -> lhit i' v d x -> x = PInf \/ exists t', x = Fin t' /\ t < t') /\
  (forall d' e', lout i (ray_at v d t) d e d' e' -> d' = d1 /\ e' = e1) /\
  (i = 4%nat /\ o = Some (e, ray_at v d t) /\ e1 <= me \/ i <> 4%nat /\ o = None /\ e1 <= me \/
   i <> 4%nat /\ me < e1 /\ exists k', k = S k' /\ flies i (ray_at v d t) d1 e1 k' o).
Proof.
  intros (kx & ky & gx & gy & s0 & Fr & Gx & Gy & Lx & Ly & Ux & Uy & -> & -> & Ee & Me & Ek & Qx & Qy & ->).
  assert (Cs : (kx < Kx)%nat /\ ((ky < Ky)%nat -> ((INR kx + 1 / 2) * X - ox) / ax < ((INR ky + 1 / 2) * Y - oy) / ay) \/
    (ky < Ky)%nat /\ ((kx < Kx)%nat -> ((INR ky + 1 / 2) * Y - oy) / ay < ((INR kx + 1 / 2) * X - ox) / ax) \/ kx = Kx /\ ky = Ky).
  { destruct (Nat.lt_ge_cases kx Kx) as [N|N]; destruct (Nat.lt_ge_cases ky Ky) as [M|M].
    - destruct (reach_x kx ky s0 Ux Lx Ly N) as (_ & _ & _ & E2 & _ & C & _). destruct (reach_y kx ky s0 Uy Lx Ly M) as (_ & _ & _ & F2 & _ & D & _).
      destruct Clr as (_ & _ & _ & _ & Dist). specialize (Dist _ _ C D). specialize (Dist ltac:(lra) ltac:(lra)).
      pose proof (tenm_pos 6). destruct (Rtotal_order (((INR kx + 1 / 2) * X - ox) / ax) (((INR ky + 1 / 2) * Y - oy) / ay)) as [Q|[Q|Q]]; auto.
      rewrite Q, Rminus_diag_eq, Rabs_R0 in Dist by auto. lra.
    - left. split; auto. lia.
    - right. left. split; auto. lia.
    - right. right. lia. }
  assert (Weak : E0 * heff ^ (Kx + Ky) <= me -> shown_if (E0 * heff ^ (Kx + Ky)) (V3 qx qy (f + H)) = None).
  { intros W. unfold shown_if. destruct (Rlt_dec me (E0 * heff ^ (Kx + Ky))); auto. lra. }
  destruct Cs as [(N & F)|[(N & F)|(N & M)]].
  - destruct (next_x q kx ky gx gy s0 Fr Gx Gy Ux Uy Lx Ly e k N F Ee Ek Qx Qy) as (i & t & d1 & e1 & k' & A1 & A2 & A3 & A4 & A5 & A6 & -> & A8 & A9 & A10).
    exists i, t, d1, e1. do 6 (split; auto). right. destruct (Rlt_dec me e1).
    + right. split; auto. split; auto. exists k'. auto.
    + left. split; auto. split; [apply Weak, A10|]; lra.
  - destruct (next_y q kx ky gx gy s0 Fr Gx Gy Ux Uy Lx Ly e k N F Ee Ek Qx Qy) as (i & t & d1 & e1 & k' & A1 & A2 & A3 & A4 & A5 & A6 & -> & A8 & A9 & A10).
    exists i, t, d1, e1. do 6 (split; auto). right. destruct (Rlt_dec me e1).
    + right. split; auto. split; auto. exists k'. auto.
    + left. split; auto. split; [apply Weak, A10|]; lra.
  - destruct (next_front q kx ky gx gy s0 Fr Gx Gy Ux Uy Lx Ly e N M Ee Me Qx Qy) as (t & d1 & A2 & A3 & A4 & A5 & A6 & A8).
    exists 4%nat, t, d1, 0. split; [lia|]. do 5 (split; auto).
Qed.
End Flight.

(** ** The sides *)

Lemma meets_flat_ext (B B' : shape) z v d x : (forall p, B p <-> B' p) -> meets_flat B z v d x -> meets_flat B' z v d x.
Proof.
  intros E (M1 & M2). split; auto. intros N. specialize (M1 N). unfold first_hit0, least in *. destruct x as [t| | |]; auto.
  - destruct M1 as ((P1 & P2) & P3). split; [split; auto; apply E; auto|]. intros s (S1 & S2). apply P3. split; auto. apply E. auto.
  - intros s (S1 & S2). apply (M1 s). split; auto. apply E. auto.
Qed.

Lemma side_acts i B z : nth_error (sides X Y H f) i = Some (B, z) ->
  (i < 6)%nat /\ (forall v d x, lhit i v d x -> meets_flat B z v d x) /\
  (forall p d e d' e', lout i p d e d' e' -> mirrored z d d' /\ (0 < dot d z -> e' = 0)) /\
  is_unit z /\ exists h, forall p, B p -> dot p z = h.
Proof.
  intros N.
  destruct i as [|[|[|[|[|[|i]]]]]]; try (destruct i; discriminate N); injection N as <- <-; (split; [lia|]); cbn [lhit lout]; (split; [|split; [|split]]).
  1: { intros v d x h. replace (V3 (- (1)) 0 0) with (V3 (-1) 0 0) in h by (veq; ring). eapply meets_flat_ext; [|exact h]. intros p. unfold xw. split; intros (P & Q); (split; [lra|auto]). }
  1: { intros p d e d' e' (M & _ & O). replace (V3 (- (1)) 0 0) with (V3 (-1) 0 0) in * by (veq; ring). auto. }
  1: { unfold is_unit, norm2, dot. cbn. ring. }
  1: { exists (- (X / 2)). intros p (P & _). unfold dot. cbn. rewrite P. ring. }
  1: { intros v d x h. replace (V3 (- (-1)) 0 0) with (V3 1 0 0) in h by (veq; ring). eapply meets_flat_ext; [|exact h]. intros p. unfold xw. split; intros (P & Q); (split; [lra|auto]). }
  1: { intros p d e d' e' (M & _ & O). replace (V3 (- (-1)) 0 0) with (V3 1 0 0) in * by (veq; ring). auto. }
  1: { unfold is_unit, norm2, dot. cbn. ring. }
  1: { exists (- (X / 2)). intros p (P & _). unfold dot. cbn. rewrite P. ring. }
  1: { intros v d x h. replace (V3 0 (- (-1)) 0) with (V3 0 1 0) in h by (veq; ring). eapply meets_flat_ext; [|exact h]. intros p. unfold yw. split; intros (P & Q); (split; [lra|auto]). }
  1: { intros p d e d' e' (M & _ & O). replace (V3 0 (- (-1)) 0) with (V3 0 1 0) in * by (veq; ring). auto. }
  1: { unfold is_unit, norm2, dot. cbn. ring. }
  1: { exists (- (Y / 2)). intros p (P & _). unfold dot. cbn. rewrite P. ring. }
  1: { intros v d x h. replace (V3 0 (- (1)) 0) with (V3 0 (-1) 0) in h by (veq; ring). eapply meets_flat_ext; [|exact h]. intros p. unfold yw. split; intros (P & Q); (split; [lra|auto]). }
  1: { intros p d e d' e' (M & _ & O). replace (V3 0 (- (1)) 0) with (V3 0 (-1) 0) in * by (veq; ring). auto. }
  1: { unfold is_unit, norm2, dot. cbn. ring. }
  1: { exists (- (Y / 2)). intros p (P & _). unfold dot. cbn. rewrite P. ring. }
  1: { intros v d x h. exact h. }
  1: { intros p d e d' e' (M & ->). split; auto. intros _. ring. }
  1: { unfold is_unit, norm2, dot. cbn. ring. }
  1: { exists (- (f + H)). intros p (P & _). unfold dot. cbn. rewrite P. ring. }
  1: { intros v d x h. exact h. }
  1: { intros p d e d' e' (M & ->). split; auto. intros _. ring. }
  1: { unfold is_unit, norm2, dot. cbn. ring. }
  1: { exists (- (f + H + tenm 10)). intros p (P & _). unfold dot. cbn. rewrite P. ring. }
Qed.
Lemma side_at i : (i < 6)%nat -> exists B z, nth_error (sides X Y H f) i = Some (B, z).
Proof. intros L. destruct i as [|[|[|[|[|[|i]]]]]]; try lia; cbn; eauto. Qed.

(** ** Light that meets nothing or is stopped *)

Definition away (v d : vec) : Prop := dish_safe f d /\ (passes A X Y H f v d \/ stopped A X Y H f v d).

Lemma away_step v d e : away v d ->
  (exists i t d1 e1, (i < 7)%nat /\ tenm 6 < t /\ (forall x, lhit i v d x -> x = Fin t) /\
   (forall i' x, (i' < 7)%nat -> i' <> i -> lhit i' v d x -> x = PInf \/ exists t', x = Fin t' /\ t < t') /\
   (forall d' e', lout i (ray_at v d t) d e d' e' -> d' = d1 /\ e' = e1) /\ i <> 4%nat /\ e1 <= me) \/
  forall i x, (i < 7)%nat -> lhit i v d x -> x = PInf.
Proof.
  intros (Sd & [(Un & Na)|(i & B & z & t & Ni & I4 & Ht & Bt & Dz & Un & Na)]).
  - right. intros i x Hi h. destruct (Nat.eq_dec i 6) as [->|N6].
    + cbn in h. specialize (h Sd). unfold first_hit, least in h. destruct x as [t| | |]; try contradiction; auto.
      destruct h as ((P1 & P2) & _). destruct (Na t P1 P2).
    + destruct (side_at i ltac:(lia)) as (B & z & Ni). destruct (side_acts _ _ _ Ni) as (_ & h1 & _). apply h1 in h.
      destruct (flat_miss B z v d x (match x with Fin t => t | _ => 0 end) h) as [->|(t & -> & T)]; auto; [|lra].
      intros s S. apply (Un _ B z s (nth_error_In _ _ Ni) S).
  - left. destruct (side_acts _ _ _ Ni) as (I6 & h1 & o1 & Uz & hh & Hh). pose proof (tenm_pos 10) as T10. pose proof (tenm_pos 6) as T6.
    exists i, t, (vsub d (vscale (2 * dot d z) z)), 0. split; [lia|]. split; auto. split; [|split; [|split]].
    + intros x h. apply h1 in h. eapply unique_hit; [exact h| |lra|exact Bt|].
      * rewrite Rabs_right; lra.
      * intros t' B'. apply Hh in B'. apply Hh in Bt. rewrite <- Bt in B'. unfold ray_at in B'.
        assert (Q : t' * dot d z = t * dot d z) by (destruct v, d, z; unfold dot in *; vunfold; cbn in *; lra).
        apply Rmult_eq_reg_r with (dot d z); lra.
    + intros i' x Hi Ne h. destruct (Nat.eq_dec i' 6) as [->|N6].
      * cbn in h. specialize (h Sd). unfold first_hit, least in h. destruct x as [t'| | |]; try contradiction; auto.
        destruct h as ((P1 & P2) & _). right. exists t'. split; auto. apply Rnot_le_lt. intros L. apply (Na t'); auto.
      * destruct (side_at i' ltac:(lia)) as (B' & z' & Ni'). destruct (side_acts _ _ _ Ni') as (_ & h' & _). apply h' in h.
        eapply flat_miss; [exact h|]. intros s S. apply (Un i' B' z' s Ni' Ne S).
    + intros d' e' O. apply o1 in O as (M & O). split; [apply mirrored_keeps; auto|apply O; lra].
    + split; auto.
Qed.

(** ** The start *)

Lemma folds_count W l a p z u : 0 < W -> 0 < l -> - (W / 2) < p < W / 2 -> folds W (p + l * a) z u ->
  - (W / 2) < l * Rabs a + sign a * p - INR (Z.abs_nat z) * W < W / 2 /\
  sign a * (-1) ^ Z.abs_nat z * (l * Rabs a + sign a * p - INR (Z.abs_nat z) * W) = u.
Proof.
  intros Hw Hl Hp (F & Q). set (K := Z.abs_nat z).
  assert (Pe : (-1) ^ K = if Nat.even K then 1 else -1).
  { clear. induction K as [|K IH]; auto. rewrite Nat.even_succ, <- Nat.negb_even. cbn [pow]. rewrite IH. destruct (Nat.even K); cbn; ring. }
  assert (Ev : Z.even (Z.of_nat K) = Nat.even K).
  { clear. induction K as [|K IH]; auto. rewrite Nat2Z.inj_succ, Z.even_succ, Nat.even_succ, <- Z.negb_even, <- Nat.negb_even, IH. auto. }
  unfold sign. destruct (Rle_dec 0 a) as [P|P].
  - rewrite Rabs_right by lra. assert (Z0 : (0 <= z)%Z).
    { apply Znot_gt_le. intros N. assert (M : IZR z <= -1) by (apply IZR_le; lia). assert (0 <= l * a) by nra. nra. }
    assert (Ez : z = Z.of_nat K) by (unfold K; rewrite Zabs2Nat.id_abs, Z.abs_eq; auto). rewrite Ez in F, Q. rewrite Ev in Q. rewrite <- INR_IZR_INZ in F, Q.
    split; [lra|]. rewrite Q, Pe. destruct (Nat.even K); ring.
  - rewrite Rabs_left by lra. assert (Z0 : (z <= 0)%Z).
    { apply Znot_gt_le. intros N. assert (M : 1 <= IZR z) by (apply IZR_le; lia). assert (l * a <= 0) by nra. nra. }
    assert (Ez : z = (- Z.of_nat K)%Z) by (unfold K; rewrite Zabs2Nat.id_abs, Z.abs_neq; auto; lia). rewrite Ez in F, Q. rewrite Z.even_opp, Ev in Q.
    rewrite opp_IZR, <- INR_IZR_INZ in F, Q. split; [lra|]. rewrite Q, Pe. destruct (Nat.even K); ring.
Qed.

Lemma counted W u a s : 0 <= s -> (exists k : nat, s * Rabs a + sign a * u = (INR k + 1 / 2) * W) -> passes_image W u a s.
Proof.
  intros Hs (k & E). split; auto. unfold sign in E. destruct (Rle_dec 0 a) as [P|P].
  - exists (Z.of_nat k). rewrite <- INR_IZR_INZ. rewrite Rabs_right in E by lra. lra.
  - exists (- Z.of_nat k - 1)%Z. rewrite minus_IZR, opp_IZR, <- INR_IZR_INZ. rewrite Rabs_left in E by lra. lra.
Qed.

Lemma same_mirror (N n n' : vec) k k' d c c' : is_unit n -> n = vscale k N -> mirrored n d c -> is_unit n' -> n' = vscale k' N -> mirrored n' d c' -> c' = c.
Proof.
  intros U E M U' E' M'. apply mirrored_keeps in M; auto. apply mirrored_keeps in M'; auto. subst c c' n n'.
  assert (Q : k * k = k' * k').
  { unfold is_unit in *. unfold norm2 in *. destruct N as [a b c]. unfold dot in *. vunfold. cbn in U, U'.
    assert (V : k * k * (a * a + b * b + c * c) = 1) by (rewrite <- U; ring). assert (V' : k' * k' * (a * a + b * b + c * c) = 1) by (rewrite <- U'; ring).
    apply Rmult_eq_reg_r with (a * a + b * b + c * c); [lra|]. intros Z. rewrite Z in V. lra. }
  assert (S : forall x, vscale (2 * dot d (vscale x N)) (vscale x N) = vscale (x * x) (vscale (2 * dot d N) N)).
  { intros x. destruct d, N. unfold dot. vunfold. cbn. veq; ring. }
  rewrite !S, Q. auto.
Qed.

Definition lstate (q : option nat) (v d : vec) (e : R) (k : nat) (o : option (R * vec)) : Prop :=
  match q with
  | None => is_unit d /\ exists o0, course A X Y H f eff heff v d e k o0 /\ o = match o0 with Some (e', p) => shown_if e' p | None => None end
  | Some q => (exists c px py Kx Ky qx qy E0, is_unit c /\ - (X / 2) < px < X / 2 /\ - (Y / 2) < py < Y / 2 /\
      (tenm 10 < vz c /\ 4 * f * tenm 10 < vx c * vx c + vy c * vy c /\
       (forall s, countx c px s -> s <= H / vz c -> tenm 10 < Rabs (vx c) /\ s + tenm 6 < H / vz c) /\
       (forall s, county c py s -> s <= H / vz c -> tenm 10 < Rabs (vy c) /\ s + tenm 6 < H / vz c) /\
       forall s s', countx c px s -> county c py s' -> s <= H / vz c -> s' <= H / vz c -> tenm 6 < Rabs (s - s')) /\
      - (X / 2) < H / vz c * Rabs (vx c) + sign (vx c) * px - INR Kx * X < X / 2 /\
      - (Y / 2) < H / vz c * Rabs (vy c) + sign (vy c) * py - INR Ky * Y < Y / 2 /\
      flies c px py Kx Ky qx qy E0 q v d e k o) \/ q = 6%nat /\ away v d /\ o = None
  end.

(** What is ahead of a ray, as [ahead] in Proof/FateProof.v. *)
Definition lahead (q : option nat) (v d : vec) (e : R) (k : nat) (o : option (R * vec)) (i : nat) (t : R) (d1 : vec) (e1 : R) : Prop :=
  asks q i /\ tenm 6 < t /\ (forall x, lhit i v d x -> x = Fin t) /\
  (forall i' x, (i' < 7)%nat -> i' <> i -> asks q i' -> lhit i' v d x -> x = PInf \/ exists t', x = Fin t' /\ t < t') /\
  (forall d' e', lout i (ray_at v d t) d e d' e' -> d' = d1 /\ e' = e1) /\
  (i = 4%nat /\ o = Some (e, ray_at v d t) /\ e1 <= me \/ i <> 4%nat /\ o = None /\ e1 <= me \/
   i <> 4%nat /\ me < e1 /\ exists k', k = S k' /\ lstate (Some i) (ray_at v d t) d1 e1 k' o).
Definition lmoves (q : option nat) (v d : vec) (e : R) (k : nat) (o : option (R * vec)) : Prop :=
  (exists i t d1 e1, (i < 7)%nat /\ lahead q v d e k o i t d1 e1) \/ o = None /\ forall i x, (i < 7)%nat -> asks q i -> lhit i v d x -> x = PInf.

Lemma away_moves q v d e k : (q = None \/ q = Some 6%nat) -> away v d -> lmoves q v d e k None.
Proof.
  intros Q Aw. assert (As : forall i, asks q i) by (intros i; destruct Q as [->| ->]; cbn; auto).
  destruct (away_step v d e Aw) as [(i & t & d1 & e1 & A1 & A2 & A3 & A4 & A5 & A6 & A7)|P].
  - left. exists i, t, d1, e1. split; auto. split; auto. split; auto. split; auto. split; [intros i' x Hi Ne _; apply A4; auto|]. split; auto.
  - right. split; auto. intros i x Hi _. apply P; auto.
Qed.

Lemma dish_moves v d e k o m c : dish_safe f d -> mirrored_at A X Y H f v d m c ->
  (e * eff <= me -> o = None) -> (me < e * eff -> exists k', k = S k' /\ lstate (Some 6%nat) m c (e * eff) k' o) -> lmoves None v d e k o.
Proof.
  intros Sd (t & n & kn & Ht & Em & Am & Un & Na & U & En & M) Lo Hi. left. exists 6%nat, t, c, (e * eff). split; [lia|].
  pose proof (tenm_pos 6) as T6. split; [exact Logic.I|]. split; auto. split; [|split; [|split]].
  - intros x h. cbn in h. specialize (h Sd). unfold first_hit, least in h. destruct x as [t'| | |]; try contradiction.
    + destruct h as ((P1 & P2) & P3). f_equal. apply Rle_antisym.
      * apply P3. split; [lra|]. rewrite <- Em. auto.
      * apply Rnot_lt_le. intros N. apply (Na t'); auto.
    + exfalso. apply (h t). split; [lra|]. rewrite <- Em. auto.
  - intros i' x Hi' Ne _ h. destruct (side_at i' ltac:(lia)) as (B & z & Ni). destruct (side_acts _ _ _ Ni) as (_ & h1 & _). apply h1 in h.
    eapply flat_miss; [exact h|]. intros s S. apply (Un B z s (nth_error_In _ _ Ni) S).
  - intros d' e' (-> & n' & k' & U' & En' & M'). rewrite <- Em in En'. split; auto. eapply same_mirror; [exact U|exact En|exact M|exact U'|exact En'|exact M'].
  - right. rewrite <- Em. destruct (Rlt_dec me (e * eff)) as [L|L].
    + right. split; [lia|]. split; auto.
    + left. split; [lia|]. split; [apply Lo|]; lra.
Qed.

Lemma in_flies e m c p zx zy qx qy : let kk := (Z.abs_nat zx + Z.abs_nat zy)%nat in
  is_unit c -> A m -> enters A X Y f m c p -> clear_inside X Y H f p c ->
  folds X (vx p + H / vz c * vx c) zx qx -> folds Y (vy p + H / vz c * vy c) zy qy -> me < e * eff ->
  lstate (Some 6%nat) m c (e * eff) kk (shown_if (e * eff * heff ^ kk) (V3 qx qy (f + H))).
Proof.
  intros kk Uc Am (r & Hr & Ep & Zp & Bx & By & Nr) (C1 & C2 & C3 & C4 & C5) Fx Fy Me. left.
  pose proof (tenm_pos 6) as T6. pose proof (tenm_pos 10) as T10.
  assert (Lp : 0 < H / vz c) by (apply Rdiv_lt_0_compat; lra).
  destruct (folds_count X _ _ _ _ _ ltac:(lra) Lp Bx Fx) as (Gx1 & Gx2). destruct (folds_count Y _ _ _ _ _ ltac:(lra) Lp By Fy) as (Gy1 & Gy2).
  destruct (sign_abs (vx c)) as (Sx & Sx'). destruct (sign_abs (vy c)) as (Sy & Sy').
  exists c, (vx p), (vy p), (Z.abs_nat zx), (Z.abs_nat zy), qx, qy, (e * eff). do 3 (split; auto). split.
  { split; auto. split; auto. split; [|split].
    - intros s (S & K). apply C3, counted; auto.
    - intros s (S & K). apply C4, counted; auto.
    - intros s s' (S & K) (S' & K'). apply C5; apply counted; auto. }
  do 2 (split; auto).
  assert (E3 : vx m + r * vx c = vx p /\ vy m + r * vy c = vy p /\ vz m + r * vz c = f).
  { rewrite <- Zp, Ep. unfold ray_at. destruct m, c. vunfold. cbn. auto. }
  destruct E3 as (E1 & E2 & E3).
  assert (Pt : forall t, V3 (sign (vx c) * ((- r + t) * Rabs (vx c) + sign (vx c) * vx p)) (sign (vy c) * ((- r + t) * Rabs (vy c) + sign (vy c) * vy p)) (f + (- r + t) * vz c) = ray_at m c t).
  { intros t. assert (Q1 : sign (vx c) * sign (vx c) = 1) by (destruct Sx' as [->| ->]; ring). assert (Q2 : sign (vy c) * sign (vy c) = 1) by (destruct Sy' as [->| ->]; ring).
    replace (sign (vx c) * ((- r + t) * Rabs (vx c) + sign (vx c) * vx p)) with ((- r + t) * (sign (vx c) * Rabs (vx c)) + sign (vx c) * sign (vx c) * vx p) by ring.
    replace (sign (vy c) * ((- r + t) * Rabs (vy c) + sign (vy c) * vy p)) with ((- r + t) * (sign (vy c) * Rabs (vy c)) + sign (vy c) * sign (vy c) * vy p) by ring.
    rewrite Q1, Q2, Sx, Sy. unfold ray_at. destruct m, c. vunfold. cbn in *. veq; lra. }
  exists 0%nat, 0%nat, (sign (vx c)), (sign (vy c)), (- r). split.
  { left. split; auto. split; [|auto]. split; [lra|]. intros t Ht. rewrite Pt. intros At.
    destruct (Rle_dec t r) as [L|L]; [apply (Nr t); auto; lra|]. apply Ab in At as (_ & At). unfold ray_at in At. destruct m, c. vunfold. cbn in *. nra. }
  split; auto. split; auto. split; [lia|]. split; [lia|]. pose proof (Rabs_pos (vx c)). pose proof (Rabs_pos (vy c)).
  assert (O1 : sign (vx c) * vx p < X / 2) by (destruct Sx' as [->| ->]; lra). assert (O2 : sign (vy c) * vy p < Y / 2) by (destruct Sy' as [->| ->]; lra).
  split; [cbn; nra|]. split; [cbn; nra|]. split.
  { cbn [INR]. rewrite !Rmult_0_l, !Rminus_0_r. specialize (Pt 0). rewrite !Rplus_0_r in Pt. rewrite Pt. unfold ray_at. destruct m, c. vunfold. veq; ring. }
  split; [rewrite Sx, Sy; destruct c; auto|]. split; [cbn; ring|]. split; auto. split; [unfold kk; lia|]. rewrite !Nat.sub_0_r. auto.
Qed.

Lemma mirrored_unit n d c : is_unit d -> is_unit n -> mirrored n d c -> is_unit c.
Proof.
  intros Ud Un M. apply mirrored_keeps in M; auto. subst c. unfold is_unit, norm2 in *.
  replace (dot (vsub d (vscale (2 * dot d n) n)) (vsub d (vscale (2 * dot d n) n))) with (dot d d + 4 * dot d n * dot d n * (dot n n - 1)).
  - rewrite Ud, Un. ring.
  - destruct d, n. unfold dot. vunfold. cbn. ring.
Qed.

Lemma start_moves v d e k o : lstate None v d e k o -> lmoves None v d e k o.
Proof.
  intros (Ud & o0 & Co & ->).
  destruct Co as [Sd P|Sd P|m c Sd M Sc P|m c p zx zy qx qy k Sd M En Cl Fx Fy ->].
  - apply away_moves; auto. split; auto.
  - apply away_moves; auto. split; auto.
  - eapply dish_moves; [exact Sd|exact M|auto|]. intros _. exists 0%nat. split; auto. right. split; auto. split; auto. split; auto.
  - set (kk := (Z.abs_nat zx + Z.abs_nat zy)%nat). eapply dish_moves; [exact Sd|exact M| |].
    + intros L. pose proof (weaker (e * eff) 0 kk ltac:(lia)) as W. cbn [pow] in W. rewrite Rmult_1_r in W. specialize (W L).
      unfold shown_if. destruct (Rlt_dec me (e * eff * heff ^ kk)); auto. lra.
    + intros L. exists kk. split; auto. destruct M as (t & n & kn & Ht & Em & Am & Un & Na & U & En' & M).
      apply in_flies with (p := p); auto. exact (mirrored_unit n d c Ud U M).
Qed.

Lemma lstep q v d e k o : lstate q v d e k o -> lmoves q v d e k o.
Proof.
  destruct q as [q|]; [|apply start_moves]. intros [(c & px & py & Kx & Ky & qx & qy & E0 & Uc & Px & Py & Cl & Fx & Fy & Fl)|(-> & Aw & ->)]; [|apply away_moves; auto].
  destruct (flight_step c px py Kx Ky qx qy E0 Uc Px Py Cl Fx Fy q v d e k o Fl) as (i & t & d1 & e1 & A1 & A2 & A3 & A4 & A5 & A6 & A7).
  left. exists i, t, d1, e1. split; auto. do 5 (split; auto). destruct A7 as [A7|[A7|(B1 & B2 & k' & -> & B3)]]; auto.
  right. right. split; auto. split; auto. exists k'. split; auto. left. exists c, px, py, Kx, Ky, qx, qy, E0. auto 10.
Qed.
End Box.
