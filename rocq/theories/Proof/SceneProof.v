(** Making described objects and assemblies. *)
From Coq Require Import Reals List Arith Bool Lia Lra.
From Verif.Base Require Import Py Num Vec.
From Verif.Model Require Import RayBundle Geometry OpticsCallables Engine Objects Surface Assembly Scene.
From Verif.Proof Require Import VecLemmas FrameProof FrameHistory PlaceProof PlaceTop ConstructProof ConstructTop GrowProof ListLemmas ViewProof.
From Verif.Spec Require Import FrameSpec SceneSpec.
Import ListNotations.

Lemma reached_inv limit sc : reached limit sc -> inv (sc_w sc).
Proof. intros (es & H). eapply history_inv; eauto. Qed.

Lemma reached_step limit sc e w' : reached limit sc -> careful (sc_w sc) e -> fst (perform limit e (sc_w sc)) = w' ->
  exists es, history limit es w'.
Proof. intros (es & H) C <-. exists (es ++ [e]). constructor; auto. Qed.

Lemma exists_size limit sc n : reached limit sc -> exists_in sc n -> n < w_size (sc_w sc).
Proof.
  intros R E. apply reached_inv in R. destruct R as (I & _). unfold exists_in, kind_of in E.
  destruct (w_node (sc_w sc) n) eqn:En; [|congruence]. apply (I _ _ En).
Qed.
Lemma exists_node sc n : exists_in sc n <-> w_node (sc_w sc) n <> None.
Proof. unfold exists_in, kind_of. destruct (w_node (sc_w sc) n); split; congruence. Qed.
Lemma new_not_exists limit sc : reached limit sc -> ~ exists_in sc (w_size (sc_w sc)).
Proof. intros R E. apply (exists_size _ _ _ R) in E. lia. Qed.

Lemma fst_ignore {A} (m : M A) w : fst (ignore m w) = fst (m w).
Proof. unfold ignore, mthen, mbind. destruct (m w) as [w' [x|e]]; reflexivity. Qed.

(** [sc'] came from [sc] by making new things; of the old surfaces only those in [P]
    got new global frames. *)
Record step (limit : nat) (P : nat -> Prop) (sc sc' : scene) : Prop := {
  st_reached : reached limit sc';
  st_grown : grown (sc_w sc) (sc_w sc');
  st_size : w_size (sc_w sc) <= w_size (sc_w sc');
  st_geom : forall j, j < w_size (sc_w sc) -> sc_geom sc' j = sc_geom sc j;
  st_opt : forall j, j < w_size (sc_w sc) -> sc_opt sc' j = sc_opt sc j;
  st_sided : forall j, j < w_size (sc_w sc) -> sc_sided sc' j = sc_sided sc j;
  st_acc : sc_acc sc <= sc_acc sc';
  st_still : forall l, exists_in sc l -> ~ P l -> placed_array (sc_w sc') l = placed_array (sc_w sc) l }.

Lemma step_refl limit P sc : reached limit sc -> step limit P sc sc.
Proof. intros R. constructor; auto. apply grown_refl. Qed.
Lemma step_exists limit P a b n : step limit P a b -> exists_in a n -> exists_in b n.
Proof.
  intros S. rewrite !exists_node. intros E. destruct (st_grown _ _ _ _ S) as ((_ & _ & Q) & _).
  eapply quiet_node_some; eauto.
Qed.
Lemma step_trans limit (P Q : nat -> Prop) a b c : step limit P a b -> step limit Q b c ->
  (forall l, Q l -> exists_in a l -> P l) -> step limit P a c.
Proof.
  intros A B PQ. pose proof (st_size _ _ _ _ A). pose proof (st_size _ _ _ _ B).
  constructor; try apply B.
  - eapply grown_trans; [apply A|apply B].
  - lia.
  - intros j J. rewrite (st_geom _ _ _ _ B), (st_geom _ _ _ _ A); auto. lia.
  - intros j J. rewrite (st_opt _ _ _ _ B), (st_opt _ _ _ _ A); auto. lia.
  - intros j J. rewrite (st_sided _ _ _ _ B), (st_sided _ _ _ _ A); auto. lia.
  - pose proof (st_acc _ _ _ _ A). pose proof (st_acc _ _ _ _ B). lia.
  - intros l E N. rewrite (st_still _ _ _ _ B), (st_still _ _ _ _ A); auto. eapply step_exists; eauto.
Qed.
Definition none (l : nat) : Prop := False.
Lemma step_then limit P a b c : step limit P a b -> step limit none b c -> step limit P a c.
Proof. intros A B. eapply step_trans; eauto. intros l []. Qed.
Lemma step_weaken limit (P Q : nat -> Prop) a b : step limit P a b -> (forall l, exists_in a l -> P l -> Q l) -> step limit Q a b.
Proof. intros S H. constructor; try apply S. intros l E N. apply S; auto. Qed.

Lemma step_same limit P sc sc' n : reached limit sc -> step limit P sc sc' -> exists_in sc n -> same_in sc sc' n.
Proof.
  intros R S E. pose proof (exists_size _ _ _ R E) as L. split.
  - apply ext_same; auto; [eapply reached_inv; eauto|]. apply (st_grown _ _ _ _ S).
  - split; [apply S; auto|]. split; [apply S; auto|apply S; auto].
Qed.

(** ** Descriptions carry over *)

Lemma same_part sc sc' s p : same_in sc sc' s -> is_part sc s p -> is_part sc' s p.
Proof. intros ((K' & T' & _) & G' & O' & _) (K & T & G & O). unfold is_part. rewrite K', T', G', O'. auto. Qed.
Lemma same_object sc sc' n d ss : same_in sc sc' n -> (forall s, In s ss -> same_in sc sc' s) ->
  is_object sc n d ss -> is_object sc' n d ss.
Proof.
  intros ((K' & T' & _) & _ & _ & S') H (K & T & G & O).
  unfold is_object. rewrite K', T', S'. repeat split; auto. clear - H O. induction O; constructor.
  - eapply same_part; eauto. apply H; simpl; auto.
  - apply IHO. intros; apply H; simpl; auto.
Qed.
Lemma part_exists sc s p : is_part sc s p -> exists_in sc s.
Proof. intros (K & _). unfold exists_in. congruence. Qed.
Lemma object_exists sc n d ss : is_object sc n d ss -> exists_in sc n.
Proof. intros (K & _). unfold exists_in. congruence. Qed.
Lemma object_parts sc n d ss s : is_object sc n d ss -> In s ss -> exists p, In p (o_parts d) /\ is_part sc s p.
Proof.
  intros (_ & _ & _ & F). induction F; simpl; [tauto|]. intros [->|I]; [eauto|]. destruct (IHF I) as (q & Q1 & Q2). eauto.
Qed.
Lemma step_part limit P sc sc' s p : reached limit sc -> step limit P sc sc' -> is_part sc s p -> is_part sc' s p.
Proof. intros R S H. eapply same_part; eauto. eapply step_same; eauto. eapply part_exists; eauto. Qed.
Lemma step_object limit P sc sc' n d ss : reached limit sc -> step limit P sc sc' -> is_object sc n d ss -> is_object sc' n d ss.
Proof.
  intros R S H. eapply same_object; eauto; [eapply step_same; eauto; eapply object_exists; eauto|].
  intros s I. destruct (object_parts _ _ _ _ _ H I) as (p & _ & Q). eapply step_same; eauto. eapply part_exists; eauto.
Qed.
Lemma step_assembly limit P sc sc' n d ls : reached limit sc -> step limit P sc sc' -> is_assembly sc n d ls -> is_assembly sc' n d ls.
Proof.
  intros R S H. revert n d ls H. apply is_assembly_ind2. intros n t os ms ods mds oss mss K T O M IH.
  destruct (step_same limit P sc sc' n R S) as ((K' & T' & _) & _); [unfold exists_in; congruence|].
  apply is_asm with os ms; [congruence|congruence| |exact IH]. eapply F3_impl; [|exact O]. intros. eapply step_object; eauto.
Qed.
Lemma part_size limit sc s p : reached limit sc -> is_part sc s p -> s < w_size (sc_w sc).
Proof. intros R H. eapply exists_size; eauto. eapply part_exists; eauto. Qed.

(** ** Literals *)

Lemma literal_step limit x sc : reached limit sc ->
  exists sc', literal x sc = (sc', Ok (Whole (w_next (sc_w sc)))) /\ step limit none sc sc' /\
    w_arr (sc_w sc') (w_next (sc_w sc)) = x /\ w_next (sc_w sc') = S (w_next (sc_w sc)) /\
    w_node (sc_w sc') = w_node (sc_w sc) /\ w_size (sc_w sc') = w_size (sc_w sc) /\ sc_acc sc' = sc_acc sc.
Proof.
  intros R. pose proof (reached_inv _ _ R) as I. unfold literal.
  destruct (new_arr x (sc_w sc)) as [w' r] eqn:E. rewrite (frames_ok _ _ _ _ E).
  pose proof (new_arr_ok _ _ _ _ E) as ((Q & St) & N & -> & V & L).
  eexists. split; [reflexivity|]. cbn.
  assert (Sz : w_size w' = w_size (sc_w sc)) by apply Q.
  split; [|auto 10].
  constructor; cbn; auto; try lia.
  - unfold reached. cbn. eapply (reached_step limit sc (New x)); auto; [exact Logic.I|]. unfold perform. rewrite fst_ignore, E. reflexivity.
  - eapply new_arr_grown; eauto.
  - intros l _ _. unfold placed_array. rewrite N. destruct (w_node (sc_w sc) l) as [y|] eqn:Ey; auto.
    destruct (f_temp (n_fr y)) as [q|] eqn:Eq; auto. f_equal.
    destruct I as (I & _). destruct (I _ _ Ey) as (_ & _ & Te). specialize (Te _ Eq).
    destruct Q as (_ & _ & A & _). destruct q; simpl in *; rewrite A; auto.
Qed.

(** ** An array fit to be a transform *)

Definition frame_array (sc : scene) (b : nat) (t : mat4) : Prop :=
  b < w_next (sc_w sc) /\ w_arr (sc_w sc) b = A44 t /\
  forall j x, w_node (sc_w sc) j = Some x -> f_tr (n_fr x) = Whole b -> views (n_fr x).

Lemma frame_usable sc b t n : frame_array sc b t -> usable_transform (sc_w sc) n (Whole b).
Proof. intros (L & A & F). exists b, t. split; auto. split; auto. split; auto. intros j x _. apply F. Qed.
Lemma literal_frame limit t sc sc' r : reached limit sc -> literal (A44 t) sc = (sc', Ok r) ->
  r = Whole (w_next (sc_w sc)) /\ frame_array sc' (w_next (sc_w sc)) t.
Proof.
  intros R H. destruct (literal_step limit (A44 t) sc R) as (sc2 & E & _ & V & L & N & _). rewrite E in H. inj H.
  split; auto. split; [lia|]. split; auto. rewrite N. intros j x Ex Et. exfalso.
  apply reached_inv in R. destruct R as (I & _). destruct (I _ _ Ex) as (_ & (a & m & Ea & La & _) & _).
  rewrite Ea in Et. injection Et as ->. lia.
Qed.
Lemma step_frame limit P sc sc' b t : step limit P sc sc' -> frame_array sc b t -> frame_array sc' b t.
Proof.
  intros S (L & A & F). destruct (st_grown _ _ _ _ S) as ((X1 & X2 & X3) & G).
  split; [lia|]. split; [rewrite X2; auto|]. intros j x E Et. destruct (w_node (sc_w sc) j) as [y|] eqn:Ey.
  - specialize (X3 j). rewrite Ey, E in X3. destruct X3 as (_ & T1 & T2 & T3); [discriminate|].
    destruct (F j y Ey) as (a & V1 & V2 & V3); [congruence|]. exists a. rewrite T1, T2, T3. auto.
  - destruct (G j x Ey E) as (a & Ea & La). rewrite Ea in Et. injection Et as ->. lia.
Qed.

(** ** Surfaces *)

Lemma upd_ne {A} (f : nat -> A) k v j : j <> k -> upd f k v j = f j.
Proof. intros N. unfold upd. apply Nat.eqb_neq in N. rewrite N. auto. Qed.
Lemma upd_eq {A} (f : nat -> A) k v : upd f k v k = v.
Proof. unfold upd. rewrite Nat.eqb_refl. auto. Qed.

Lemma surface_step limit g o loc rot v s sc : reached limit sc ->
  plain_opt (sc_w sc) loc -> plain_opt (sc_w sc) rot -> given_location (sc_w sc) loc v -> given_rotation (sc_w sc) rot s ->
  exists sc', make_surface limit g o loc rot sc = (sc', Ok (w_size (sc_w sc))) /\ step limit none sc sc' /\
    is_part sc' (w_size (sc_w sc)) (mkPart g o (mk4 s v)) /\ w_size (sc_w sc') = S (w_size (sc_w sc)) /\ sc_acc sc' = sc_acc sc.
Proof.
  intros R Pl Pr Gl Gr. pose proof (reached_inv _ _ R) as I. unfold make_surface, Assembly.new_surface.
  set (em := sc_junk sc (w_size (sc_w sc))).
  destruct (init_frame_placed limit KSurf em loc rot (sc_w sc) v s I Pl Pr Gl Gr Logic.I) as (w' & E & I' & Sz & K & T & Sm & _ & _ & O).
  rewrite E. eexists. split; [reflexivity|]. split; [constructor; cbn; try lia|].
  - unfold reached. cbn. eapply (reached_step limit sc (MkSurface em loc rot)); auto; [cbn; auto|].
    unfold perform. rewrite fst_ignore. unfold Assembly.new_surface. rewrite E. reflexivity.
  - eapply init_frame_grown; eauto.
  - intros j J. apply upd_ne. lia.
  - intros j J. apply upd_ne. lia.
  - auto.
  - intros l El _. destruct (O l) as [(T' & (c & [] & _) & _)|(_ & ->)]; auto.
    intros ->. eapply new_not_exists; eauto.
  - cbn. split; [|auto]. unfold is_part. cbn. rewrite !upd_eq. auto.
Qed.

(** ** Objects *)

Lemma object_step limit ss ps sc : reached limit sc -> Forall2 (is_part sc) ss ps -> 0 < limit ->
  exists sc', make_object limit ss [] None sc = (sc', Ok (w_size (sc_w sc))) /\
    step limit (fun l => In l ss) sc sc' /\
    is_object sc' (w_size (sc_w sc)) (mkO false id4 ps) ss /\ w_size (sc_w sc') = S (w_size (sc_w sc)) /\ sc_acc sc' = sc_acc sc.
Proof.
  intros R Hp Ll. pose proof (reached_inv _ _ R) as I. unfold make_object.
  assert (F : Forall (fun l => kind_of (sc_w sc) l <> None) (ss ++ [])).
  { rewrite app_nil_r. clear - Hp. induction Hp as [|x y l m (K & _) H2 IH]; constructor; auto. congruence. }
  destruct (new_object_placed limit ss [] None id4 (sc_w sc) I Logic.I eq_refl F Ll) as (w' & E & I' & Sz & K & T & Sm & _ & _ & O).
  rewrite E. eexists. split; [reflexivity|].
  match goal with |- step _ _ _ ?s /\ _ => set (sc' := s) end.
  assert (S : step limit (fun l => In l ss) sc sc').
  { constructor; cbn; auto; try lia.
    - unfold reached. cbn. eapply (reached_step limit sc (MkObject ss [] None)); auto; [exact Logic.I|].
      unfold perform. rewrite fst_ignore, E. reflexivity.
    - eapply new_object_ext; eauto.
    - intros j J. apply upd_ne. lia.
    - intros l El N. apply O; [rewrite app_nil_r; auto|]. intros ->. eapply new_not_exists; eauto. }
  split; auto. split; [|cbn; auto].
  split; [exact K|]. split; [exact T|]. split; [cbn; apply upd_eq|]. cbn [o_parts].
  eapply Forall2_impl; [|exact Hp]. intros. eapply step_part; eauto.
Qed.

(** The object made last becomes one-sided. *)
Lemma sided_step limit P sc0 n d ss sc : reached limit sc0 -> step limit P sc0 sc -> w_size (sc_w sc0) <= n ->
  is_object sc n d ss ->
  exists sc', make_sided n sc = (sc', Ok tt) /\ step limit P sc0 sc' /\
    is_object sc' n (mkO true (o_tr d) (o_parts d)) ss /\ w_size (sc_w sc') = w_size (sc_w sc) /\ sc_acc sc' = sc_acc sc.
Proof.
  intros R S Ln (K & T & Sd & F). unfold make_sided. eexists. split; [reflexivity|]. split; [constructor; cbn; try apply S|cbn; split; auto].
  - intros j J. rewrite upd_ne by lia. apply S; auto.
  - split; [exact K|]. split; [exact T|]. cbn. split; [apply upd_eq|]. eapply Forall2_impl; [|exact F]. auto.
Qed.

Lemma accountant_step limit a sc : reached limit sc ->
  exists sc', accountant a sc = (sc', Ok (Accountant (sc_acc sc) a)) /\ step limit none sc sc' /\
    w_size (sc_w sc') = w_size (sc_w sc) /\ sc_acc sc' = S (sc_acc sc).
Proof.
  intros R. unfold accountant. eexists. split; [reflexivity|]. split; [constructor; cbn; auto|auto].
  apply grown_refl.
Qed.

(** ** Assemblies are built *)

Lemma built_up w d n : built w d n -> forall d', d <= d' -> built w d' n.
Proof.
  revert n. induction d as [|d IH]; intros n H d' L; [inversion H|].
  destruct d' as [|d']; [lia|]. inversion H; subst.
  - eapply built_obj; eauto.
  - eapply built_asm; eauto. eapply Forall_impl; [|eassumption]. intros. apply IH; auto. lia.
Qed.
Lemma object_built sc n d ss : is_object sc n d ss -> built (sc_w sc) 1 n.
Proof.
  intros (K & _ & _ & F). eapply built_obj; eauto. rewrite app_nil_r. clear K.
  induction F as [|x y l m (K & _)]; constructor; auto. congruence.
Qed.
Lemma objects_built sc os ods oss : Forall3 (is_object sc) os ods oss -> Forall (built (sc_w sc) 1) os.
Proof. intros F. induction F; constructor; auto. eapply object_built; eauto. Qed.
Lemma assembly_built sc n d ls : is_assembly sc n d ls -> built (sc_w sc) (S (depth d)) n.
Proof.
  revert n d ls. apply is_assembly_ind2. intros n t os ms ods mds oss mss K T O M IH.
  eapply built_asm; eauto. apply Forall_app. split.
  - eapply Forall_impl; [|eapply objects_built; eauto]. intros. eapply built_up; eauto. simpl. lia.
  - clear - IH. assert (H : Forall (fun m => exists d, In d mds /\ built (sc_w sc) (S (depth d)) m) ms).
    { induction IH; constructor; simpl; eauto. eapply Forall_impl; [|exact IHIH]. simpl. intros a (e & E & F). eauto. }
    eapply Forall_impl; [|exact H]. intros a (e & E & F). eapply built_up; eauto. simpl. pose proof (depth_sub _ _ E). lia.
Qed.

(** ** Leaves below a node do not depend on transforms *)

Lemma path_kinds w w' n l T : (forall j, kind_of w' j = kind_of w j) -> inv w' ->
  path w n l T -> exists T', path w' n l T'.
Proof.
  intros K I P. assert (Tr : forall j k, kind_of w' j = Some k -> exists m, transform_of w' j = Some m).
  { intros j k H. unfold kind_of, transform_of in *. destruct (w_node w' j) as [x|] eqn:E; [|discriminate].
    destruct I as (I & _). destruct (I _ _ E) as (_ & (a & m & Ea & La & Em & _) & _). rewrite Ea. simpl. rewrite Em. eauto. }
  induction P.
  - rewrite <- K in H. destruct (Tr _ _ H) as (m & Hm). exists m. eapply path_obj; eauto.
  - rewrite <- K in H. destruct (Tr _ _ H) as (m & Hm). destruct IHP as (T1 & P1). eexists. eapply path_asm; eauto.
Qed.
Lemma object_path sc n d ss l T : is_object sc n d ss -> path (sc_w sc) n l T -> In l ss.
Proof.
  intros (K & _) P. inversion P; subst; rewrite K in *; try discriminate.
  match goal with X : Some (KObj _ _) = Some (KObj _ _) |- _ => injection X as <- <- end. rewrite app_nil_r in *. auto.
Qed.

(** ** Placing *)

(** What [place] does to any object or assembly. *)
Lemma place_any limit n b t sc : reached limit sc -> composite (sc_w sc) n -> built (sc_w sc) limit n -> frame_array sc b t ->
  exists sc', place limit n (Whole b) sc = (sc', Ok tt) /\ reached limit sc' /\ frame_array sc' b t /\
    set_transform limit n (Whole b) (sc_w sc) = (sc_w sc', Ok tt) /\
    transform_of (sc_w sc') n = Some t /\ kind_of (sc_w sc') n = kind_of (sc_w sc) n /\
    (forall j, j <> n -> same_in sc sc' j) /\
    (forall j, sc_geom sc' j = sc_geom sc j /\ sc_opt sc' j = sc_opt sc j /\ sc_sided sc' j = sc_sided sc j) /\
    well_placed (sc_w sc') n /\ w_size (sc_w sc') = w_size (sc_w sc) /\ sc_acc sc' = sc_acc sc /\
    forall l, ~ (exists T, path (sc_w sc) n l T) -> placed_array (sc_w sc') l = placed_array (sc_w sc) l.
Proof.
  intros R C Bu Fa. pose proof (reached_inv _ _ R) as I. pose proof (frame_usable sc b t n Fa) as U.
  pose proof (proj2 (set_transform_succeeds limit n _ _ I C U) Bu) as Su.
  destruct (set_transform limit n (Whole b) (sc_w sc)) as [w' r] eqn:E. cbn in Su. subst r.
  destruct (set_transform_top _ _ _ _ _ I C U E) as (t' & Rt & (Sy & Sz & K & Tr & Oth) & W & Pl).
  assert (t' = t) by (destruct Fa as (_ & A & _); cbn in Rt; congruence). subst t'.
  assert (R' : exists es, history limit es w').
  { eapply (reached_step limit sc (SetTransform n (Whole b))); auto. cbn. rewrite E. reflexivity. }
  unfold place. rewrite (frames_ok _ _ _ _ E). eexists. split; [reflexivity|]. cbn.
  assert (Nn : w_node (sc_w sc) n <> None) by (apply exists_node; apply composite_exists; auto).
  destruct (set_transform_ext _ _ _ _ _ Nn E) as (b' & Eb & (L & A & Q) & x & x' & Ex & Ex' & Kx & Tx & Vx). inj Eb.
  split; [exact R'|]. split.
  { destruct Fa as (L1 & A1 & F1). split; [cbn; lia|]. split; [cbn; rewrite A; auto|]. cbn. intros j y Ey Ty.
    destruct (Nat.eq_dec j n) as [->|J]; [congruence|]. specialize (Q j J). rewrite Ey in Q.
    destruct (w_node (sc_w sc) j) as [z|] eqn:Ez; [|contradiction]. destruct Q as (_ & T1 & T2 & T3).
    destruct (F1 j z Ez) as (a & V1 & V2 & V3); [congruence|]. exists a. rewrite T1, T2, T3. auto. }
  assert (KK : forall j, kind_of w' j = kind_of (sc_w sc) j).
  { intros j. destruct (Nat.eq_dec j n) as [->|J]; auto. apply Oth; auto. }
  destruct Tr as (m & Tm & Tm').
  split; auto. split; auto. split; auto. split; [intros j J; split; auto; apply Oth; auto|].
  split; auto. split; auto. split; auto.
  split; auto. intros l Nl. apply Pl. intros (T & P). apply Nl. exact (path_kinds w' (sc_w sc) n l T (fun j => eq_sym (KK j)) I P).
Qed.

Lemma place_step limit P n b t sc0 sc : reached limit sc0 -> step limit P sc0 sc -> w_size (sc_w sc0) <= n ->
  composite (sc_w sc) n -> built (sc_w sc) limit n -> frame_array sc b t -> w_next (sc_w sc0) <= b ->
  (forall l T, path (sc_w sc) n l T -> exists_in sc0 l -> P l) ->
  exists sc', place limit n (Whole b) sc = (sc', Ok tt) /\ step limit P sc0 sc' /\ frame_array sc' b t /\
    transform_of (sc_w sc') n = Some t /\ kind_of (sc_w sc') n = kind_of (sc_w sc) n /\
    (forall j, j <> n -> same_in sc sc' j) /\ sc_sided sc' n = sc_sided sc n /\
    w_size (sc_w sc') = w_size (sc_w sc) /\ sc_acc sc' = sc_acc sc.
Proof.
  intros R S Ln C Bu Fa Lb HP. pose proof (st_reached _ _ _ _ S) as R1.
  destruct (place_any limit n b t sc R1 C Bu Fa) as (sc' & E & R' & Fa' & Es & T & K & Oth & D & W & Sz & Ac & Pl).
  exists sc'. split; auto. split; [|repeat (split; auto); apply D].
  assert (N0 : w_node (sc_w sc0) n = None).
  { destruct (w_node (sc_w sc0) n) eqn:E0; auto. exfalso. assert (exists_in sc0 n) by (apply exists_node; congruence).
    apply (exists_size _ _ _ R) in H. lia. }
  constructor; auto.
  - eapply set_transform_grown; [apply S|exact N0| |exact Lb|exact Es]. apply exists_node. apply composite_exists. auto.
  - pose proof (st_size _ _ _ _ S). lia.
  - intros j J. destruct (D j) as (-> & _). apply S; auto.
  - intros j J. destruct (D j) as (_ & -> & _). apply S; auto.
  - intros j J. destruct (D j) as (_ & _ & ->). apply S; auto.
  - rewrite Ac. apply S.
  - intros l El Nl. rewrite Pl; [apply S; auto|]. intros (T' & Pt). apply Nl. eapply HP; eauto.
Qed.

(** ** Moving described things *)

Lemma placed_object sc sc' n d ss t : is_object sc n d ss -> (forall j, j <> n -> same_in sc sc' j) ->
  transform_of (sc_w sc') n = Some t -> kind_of (sc_w sc') n = kind_of (sc_w sc) n -> sc_sided sc' n = sc_sided sc n ->
  is_object sc' n (mkO (o_sided d) t (o_parts d)) ss.
Proof.
  intros (K & T & S & F) Oth T' K' S'. split; [congruence|]. split; auto. split; [cbn; congruence|]. cbn [o_parts].
  assert (H : Forall2 (fun s p => is_part sc s p) ss (o_parts d)) by exact F. clear F.
  eapply Forall2_impl; [|exact H]. intros s p Hp. eapply same_part; eauto. apply Oth. intros ->. destruct Hp as (Kp & _). congruence.
Qed.
Lemma other_object sc sc' n m d ss : is_object sc m d ss -> (forall j, j <> n -> same_in sc sc' j) -> m <> n ->
  composite (sc_w sc) n -> is_object sc' m d ss.
Proof.
  intros H Oth N C. eapply same_object; eauto. intros s I. apply Oth. intros ->.
  destruct (object_parts _ _ _ _ _ H I) as (p & _ & K & _). unfold composite in C. rewrite K in C. exact C.
Qed.

(** ** Descriptions are unique *)

Lemma part_fun sc s p q : is_part sc s p -> is_part sc s q -> p = q.
Proof. destruct p, q. intros (_ & A & B & C) (_ & A' & B' & C'). cbn in *. congruence. Qed.
Lemma object_fun sc n d ss d' ss' : is_object sc n d ss -> is_object sc n d' ss' -> d = d' /\ ss = ss'.
Proof.
  intros (A & B & C & D) (A' & B' & C' & D'). rewrite A in A'. injection A' as <-.
  assert (o_parts d = o_parts d').
  { clear - D D'. revert D'. generalize (o_parts d'). induction D; intros q H'; inversion H'; subst; auto. f_equal; auto. eapply part_fun; eauto. }
  destruct d, d'; cbn in *. split; congruence.
Qed.
Lemma F3_fun {A C D} (P Q : A -> C -> D -> Prop) l m n m' n' : (forall x y z y' z', P x y z -> Q x y' z' -> y = y' /\ z = z') ->
  Forall3 P l m n -> Forall3 Q l m' n' -> m = m' /\ n = n'.
Proof.
  intros H F. revert m' n'. induction F as [|x y z l m n Pz F IH]; intros m' n' G; [inversion G; auto|].
  inversion G as [|x1 y1 z1 l1 m1 n1 Q1 G1]; subst. destruct (IH _ _ G1) as (-> & ->). destruct (H _ _ _ _ _ Pz Q1) as (-> & ->). auto.
Qed.
Lemma assembly_fun sc n d ls : is_assembly sc n d ls -> forall d' ls', is_assembly sc n d' ls' -> d = d' /\ ls = ls'.
Proof.
  revert n d ls. apply (is_assembly_ind2 sc (fun n d ls => forall d' ls', is_assembly sc n d' ls' -> d = d' /\ ls = ls')).
  intros n t os ms ods mds oss mss K T O M IH d' ls' H'. inversion H'; subst.
  rewrite K in H. injection H as <- <-. rewrite T in H0. injection H0 as <-.
  destruct (F3_fun _ _ _ _ _ _ _ (fun _ _ _ _ _ => object_fun sc _ _ _ _ _) O H1) as (-> & ->).
  assert (mds = mds0 /\ mss = mss0) as (-> & ->); auto.
  eapply F3_fun; [|exact IH|exact H2]. cbv beta. intros x y z y' z' Px. apply Px.
Qed.

(** An assembly of smaller depth than [n] does not contain it. *)
Lemma other_assembly sc sc' n dn lsn : is_assembly sc n dn lsn -> (forall j, j <> n -> same_in sc sc' j) ->
  forall m d ls, is_assembly sc m d ls -> depth d < depth dn -> is_assembly sc' m d ls.
Proof.
  intros Hn Oth. apply (is_assembly_ind2 sc (fun m d ls => depth d < depth dn -> is_assembly sc' m d ls)).
  intros m t os ms ods mds oss mss K T O M IH Ld.
  assert (C : composite (sc_w sc) n) by (inversion Hn; subst; unfold composite; rewrite H; exact Logic.I).
  assert (N : m <> n).
  { intros ->. assert (H : is_assembly sc n (mkA t ods mds) (concat mss ++ concat oss)) by (eapply is_asm; eauto).
    destruct (assembly_fun _ _ _ _ Hn _ _ H) as (-> & _). lia. }
  destruct (Oth m N) as ((K' & T' & _) & _).
  apply is_asm with os ms; [congruence|congruence| |].
  - clear - O Oth C Hn. induction O; constructor; auto. eapply other_object; eauto. intros ->.
    destruct H as (Ko & _). inversion Hn; subst. congruence.
  - assert (G : forall e, In e mds -> depth e < depth dn).
    { intros e I. pose proof (depth_sub _ _ I). simpl in Ld. lia. }
    clear - IH G. induction IH; constructor; auto; [apply H; apply G; simpl; auto|]. apply IHIH. intros; apply G; simpl; auto.
Qed.
Lemma placed_assembly sc sc' n d ls t : is_assembly sc n d ls -> (forall j, j <> n -> same_in sc sc' j) ->
  transform_of (sc_w sc') n = Some t -> kind_of (sc_w sc') n = kind_of (sc_w sc) n ->
  is_assembly sc' n (moved t d) ls.
Proof.
  intros H Oth T' K'. inversion H as [n0 t0 os ms ods mds oss mss K T O M]; subst. cbn [moved].
  apply is_asm with os ms; [congruence|auto| |].
  - assert (C : composite (sc_w sc) n) by (unfold composite; rewrite K; exact Logic.I).
    assert (Ns : forall ss bs, kind_of (sc_w sc) n <> Some (KObj ss bs)) by congruence.
    clear - O Oth Ns C. induction O as [|x y z l m k Ho]; constructor; auto. apply (other_object sc sc' n); auto.
    intros ->. destruct Ho as (Ko & _). exact (Ns _ _ Ko).
  - assert (G : forall e, In e mds -> depth e < depth (mkA t0 ods mds)).
    { intros e I. pose proof (depth_sub _ _ I). simpl. lia. }
    revert G. generalize (depth (mkA t0 ods mds)) (fun m dm lm => other_assembly sc sc' n _ _ H Oth m dm lm). intros D X G.
    clear - M X G. induction M; constructor; [apply X; auto; apply G; simpl; auto|]. apply IHM. intros; apply G; simpl; auto.
Qed.

Lemma composite_object sc n d ss : is_object sc n d ss -> composite (sc_w sc) n.
Proof. intros (K & _). unfold composite. rewrite K. exact I. Qed.
Lemma composite_assembly sc n d ls : is_assembly sc n d ls -> composite (sc_w sc) n.
Proof. intros H. inversion H; subst. unfold composite. rewrite H0. exact I. Qed.

(** ** Making an assembly *)

Lemma assembly_step limit os ms ods mds oss mss sc : reached limit sc ->
  Forall3 (is_object sc) os ods oss -> Forall3 (is_assembly sc) ms mds mss ->
  S (depth (mkA id4 ods mds)) <= limit ->
  exists sc', make_assembly limit os ms None None sc = (sc', Ok (w_size (sc_w sc))) /\
    step limit (fun l => In l (concat mss ++ concat oss)) sc sc' /\
    is_assembly sc' (w_size (sc_w sc)) (mkA id4 ods mds) (concat mss ++ concat oss) /\
    well_placed (sc_w sc') (w_size (sc_w sc)) /\ w_size (sc_w sc') = S (w_size (sc_w sc)) /\ sc_acc sc' = sc_acc sc /\
    kind_of (sc_w sc') (w_size (sc_w sc)) = Some (KAsm os ms).
Proof.
  intros R Ho Hm Ll. pose proof (reached_inv _ _ R) as I. unfold make_assembly, new_assembly.
  set (em := sc_junk sc (w_size (sc_w sc))).
  set (D := fold_right max 0 (map depth mds)) in *.
  assert (Bu : Forall (built (sc_w sc) (S D)) (os ++ ms)).
  { apply Forall_app. split.
    - eapply Forall_impl; [|eapply objects_built; eauto]. intros. eapply built_up; eauto. lia.
    - assert (H : Forall (fun m => exists d, In d mds /\ built (sc_w sc) (S (depth d)) m) ms).
      { clear - Hm. induction Hm; constructor; simpl.
        - eexists. split; [left; reflexivity|]. eapply assembly_built; eauto.
        - eapply Forall_impl; [|exact IHHm]. simpl. intros a (e & E & F). eauto. }
      eapply Forall_impl; [|exact H]. intros a (e & E & F). eapply built_up; eauto. pose proof (depth_sub _ _ E). unfold D. lia. }
  assert (Hk : plain_kind (sc_w sc) limit (KAsm os ms)) by (exists (S D); split; [simpl in Ll; fold D in Ll; lia|auto]).
  destruct (init_frame_placed limit (KAsm os ms) em None None (sc_w sc) vzero id3 I Logic.I Logic.I eq_refl eq_refl Hk)
    as (w' & E & I' & Sz & K & T & Sm & _ & Pt & O).
  assert (E1 : mk4 id3 vzero = id4) by reflexivity. rewrite E1 in *.
  rewrite (frames_ok _ _ _ _ E). eexists. split; [reflexivity|].
  match goal with |- step _ _ _ ?s /\ _ => set (sc' := s) end.
  assert (Pl : forall l T', ConstructProof.reached (sc_w sc) (KAsm os ms) l T' -> In l (concat mss ++ concat oss)).
  { intros l T' (c & Hc & P). cbn in Hc. apply in_app_or in Hc. apply in_or_app. destruct Hc as [Hc|Hc].
    - right. clear - Ho Hc P. induction Ho; simpl in *; [tauto|]. apply in_or_app. destruct Hc as [->|Hc]; auto.
      left. eapply object_path; eauto.
    - left. clear - Hm Hc P. induction Hm; simpl in *; [tauto|]. apply in_or_app. destruct Hc as [->|Hc]; auto.
      left. eapply path_leaf; eauto. }
  assert (S : step limit (fun l => In l (concat mss ++ concat oss)) sc sc').
  { constructor; cbn; auto; try lia.
    - unfold reached. cbn. eapply (reached_step limit sc (MkAssembly em os ms None None)); auto; [cbn; auto|].
      unfold perform. rewrite fst_ignore. unfold new_assembly. rewrite E. reflexivity.
    - eapply init_frame_grown; eauto.
    - intros l El N. destruct (O l) as [(T' & Rl & _)|(_ & ->)]; auto.
      + intros ->. eapply new_not_exists; eauto.
      + exfalso. eauto. }
  split; auto. split; [|split; [|cbn; auto]].
  - apply is_asm with os ms; auto; [eapply F3_impl; [|exact Ho]; intros; eapply step_object; eauto|].
    eapply F3_impl; [|exact Hm]. intros. eapply step_assembly; eauto.
  - intros l (T' & P). destruct (proj1 (Pt l T') P) as (T2 & Rl & ->). destruct (O l) as [(T3 & Rl3 & Pb)|(N & _)].
    + destruct Rl as (c & Hc & Pc). intros ->. cbn in Hc.
      assert (kind_of (sc_w sc) (w_size (sc_w sc)) <> None).
      { rewrite Forall_forall in Bu. exact (path_exists _ _ _ _ _ (Bu c Hc) Pc). }
      apply (new_not_exists _ _ R). auto.
    + exists (mm4 id4 T3). split; auto. apply Pt. eauto.
    + exfalso. eapply N; eauto.
Qed.
