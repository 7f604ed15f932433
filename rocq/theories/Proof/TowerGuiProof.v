(** What the window of examples/tower_gui.py shows. *)
From Coq Require Import Reals String List Arith ZArith Bool Lia Lra Permutation.
From Verif.Base Require Import Py Num Vec.
From Verif.Model Require Import RayBundle Spatial Geometry TraceTree Sources OpticsCallables Engine Objects Surface Mesh View Assembly Scene Models DishGui Tower TowerGui.
From Verif.Proof Require Import ListLemmas NumLemmas VecLemmas BundleProof ProcessProof SurfaceProof LibraryTop AnswerProof ActProof
  GrowProof ViewProof SceneProof ModelProof AimProof ModelTop HelioProof DrawProof SceneViewProof EnergyKindProof TowerProof TowerScene TowerField TowerFlux DishGuiProof.
From Verif.Proof Require ModelExamples TestCaseTop ReceiverTop.
From Verif.Spec Require Import BundleSpec EngineSpec GeometrySpec OpticsSpec LibrarySpec SourceSpec MeshSpec FrameSpec SceneSpec ModelSpec ViewSpec SceneViewSpec PathSpec
  DishGuiSpec TowerSpec TowerGuiSpec.
Import ListNotations.
Local Open Scope R_scope.

(** ** Lines *)

Definition pair_strokes (n : nat) : list stroke := flat_map (fun k => [ToChild 0 k; ToChild 1 k]) (seq 0 n).
Lemma pair_in n s : In s (pair_strokes n) <-> exists k, (k < n)%nat /\ (s = ToChild 0 k \/ s = ToChild 1 k).
Proof.
  unfold pair_strokes. rewrite in_flat_map. split.
  - intros (k & Ik & [<-|[<-|[]]]); apply in_seq in Ik; exists k; (split; [lia|auto]).
  - intros (k & Lk & [->| ->]); exists k; (split; [apply in_seq; lia|cbn; auto]).
Qed.
Lemma pair_nodup n : NoDup (pair_strokes n).
Proof.
  unfold pair_strokes. assert (G : forall a, NoDup (flat_map (fun k => [ToChild 0 k; ToChild 1 k]) (seq a n))); [|apply G].
  induction n as [|n IH]; intros a; cbn [seq flat_map app]; [constructor|].
  assert (X : forall k, (k <= a)%nat -> ~ In (ToChild 0 k) (flat_map (fun k => [ToChild 0 k; ToChild 1 k]) (seq (S a) n)) /\
    ~ In (ToChild 1 k) (flat_map (fun k => [ToChild 0 k; ToChild 1 k]) (seq (S a) n))).
  { intros k Lk. split; intros I; apply in_flat_map in I as (k' & Ik & [E|[E|[]]]); try discriminate E; injection E as ->; apply in_seq in Ik; lia. }
  constructor; [intros [E|I]; [discriminate E|exact (proj1 (X a (le_n a)) I)]|]. constructor; [exact (proj2 (X a (le_n a)))|apply IH].
Qed.

Lemma relay_drawn ps sun e tree pts cs : relays tree (one_each ps sun) ps top e -> drawable tree ->
  faithful tree (fun _ _ => True) 1 pts cs -> draws pts cs (relay_lines ps sun).
Proof.
  intros (l1 & l2 & -> & V1 & _ & E1 & P1 & V2 & E2 & P2) (_ & Dw & _) (ss & (Nd & Is) & Dp). set (n := length ps) in *.
  assert (Sq : forall k, (k < n)%nat -> nth_error (seq 0 n) k = Some k).
  { intros k Lk. rewrite (nth_error_nth' _ 0%nat) by (rewrite seq_length; lia). rewrite seq_nth by lia. reflexivity. }
  assert (Len : forall l m, rays l m -> forall vs, b_vert l = Some vs -> m = length vs).
  { intros l m (_ & R) vs E. specialize (R Vertices). cbn in R. rewrite E in R. cbn in R. specialize (R _ eq_refl). rewrite map_length in R. auto. }
  assert (Bl : forall s, belongs [one_each ps sun; l1; l2] (fun _ _ => True) s -> In s (pair_strokes n)).
  { intros s B. apply pair_in. destruct s as [L k|L j]; cbn [belongs] in B.
    - destruct B as (c & m & Hc & Rc & Hk). exists k. destruct L as [|[|L]]; cbn in Hc.
      + injection Hc as <-. rewrite (Len l1 m Rc ps V1) in Hk. auto.
      + injection Hc as <-. rewrite (Len l2 m Rc _ V2), map_length in Hk. auto.
      + exfalso. assert (Q : (L + 1 < length [l2])%nat) by (apply nth_error_Some; rewrite Hc; discriminate). cbn in Q. lia.
    - exfalso. destruct B as (b & Hb & (en & Ee & Ne & _) & Cl).
      assert (Lj : forall A (l : list A) (x : A), nth_error l j = Some x -> length l = n -> nth_error (seq 0 n) j = Some j).
      { intros A l x E El. apply Sq. rewrite <- El. apply nth_error_Some. congruence. }
      destruct L as [|[|[|L]]]; cbn in Hb; [| | |destruct L; discriminate Hb].
      + injection Hb as <-. apply (Cl l1 j eq_refl). unfold parent_at, at_col. rewrite P1.
        unfold energy_at, at_col, one_each in Ee. cbn in Ee. apply (Lj _ _ _ Ee). apply map_length.
      + injection Hb as <-. apply (Cl l2 j eq_refl). unfold parent_at, at_col. rewrite P2.
        unfold energy_at, at_col in Ee. rewrite E1 in Ee. apply (Lj _ _ _ Ee). apply map_length.
      + injection Hb as <-. unfold energy_at, at_col in Ee. rewrite E2 in Ee. apply nth_error_In, in_map_iff in Ee as (q & <- & _). apply Ne. reflexivity. }
  set (at_ := fun k => nth k ps vzero). set (f := fun s => match s with ToChild 0 k => (vadd (at_ k) sun, at_ k) | ToChild _ k => (at_ k, top) | Open _ _ => (vzero, vzero) end).
  assert (At : forall k p, nth_error ps k = Some p -> at_ k = p) by (intros k p E; exact (nth_error_nth _ _ _ E)).
  exists (map f ss). split.
  - assert (X : relay_lines ps sun = map f (pair_strokes n)).
    { unfold relay_lines, pair_strokes, n. clear - f At. revert At. unfold f, at_. clear. intros _.
      assert (G : forall l pre, flat_map (fun p => [(vadd p sun, p); (p, top)]) l =
        map (fun s => match s with ToChild 0 k => (vadd (nth k (pre ++ l) vzero) sun, nth k (pre ++ l) vzero) | ToChild _ k => (nth k (pre ++ l) vzero, top) | Open _ _ => (vzero, vzero) end)
          (flat_map (fun k => [ToChild 0 k; ToChild 1 k]) (seq (length pre) (length l)))).
      { induction l as [|p l IH]; intros pre; [reflexivity|]. cbn [flat_map length seq app map]. rewrite !app_nth2, Nat.sub_diag by lia. cbn [nth].
        do 2 f_equal. specialize (IH (pre ++ [p])). rewrite <- app_assoc in IH. cbn [app] in IH. rewrite app_length in IH. cbn [length] in IH.
        rewrite Nat.add_1_r in IH. exact IH. }
      apply (G ps []). }
    rewrite X. apply Permutation_map. apply NoDup_Permutation; [exact Nd|apply pair_nodup|]. intros s. split.
    + intros I. apply Bl, Is, I.
    + intros I. apply Is. apply pair_in in I as (k & Lk & Es).
      destruct (Dw l1 ltac:(cbn; auto)) as (m1 & (_ & R1 & _)). destruct (Dw l2 ltac:(cbn; auto)) as (m2 & (_ & R2 & _)).
      pose proof (Len _ _ R1 _ V1) as L1. pose proof (Len _ _ R2 _ V2) as L2. rewrite map_length in L2. fold n in L1, L2.
      destruct Es as [->| ->]; cbn [belongs]; [exists l1, m1|exists l2, m2]; (split; [reflexivity|]); (split; [assumption|lia]).
  - assert (Bs : forall s, In s ss -> In s (pair_strokes n)) by (intros s I; apply Bl, Is, I). clear Nd Is Bl. unfold depicts in Dp.
    induction Dp as [|c s cs ss (p & q & Ep & Eq & Rn) F IH]; cbn [map]; constructor; [|apply IH; intros; apply Bs; right; auto].
    rewrite Ep, Eq. specialize (Bs s (or_introl eq_refl)). apply pair_in in Bs as (k & Lk & Es). destruct (nth_lt ps k Lk) as (x & Ex). pose proof (At k x Ex) as Ax.
    destruct Es as [->| ->]; cbn [runs f] in *.
    + destruct Rn as (b & c0 & j & Hb & Hc & Pj & Vp & Vq). cbn in Hb, Hc. injection Hb as <-. injection Hc as <-. unfold parent_at, vert_at, at_col in *.
      rewrite P1, Sq in Pj by auto. injection Pj as <-. rewrite V1, Ex in Vq. injection Vq as <-. cbn in Vp. rewrite nth_error_map, Ex in Vp. injection Vp as <-. rewrite Ax. auto.
    + destruct Rn as (b & c0 & j & Hb & Hc & Pj & Vp & Vq). cbn in Hb, Hc. injection Hb as <-. injection Hc as <-. unfold parent_at, vert_at, at_col in *.
      rewrite P2, Sq in Pj by auto. injection Pj as <-. rewrite V1, Ex in Vp. injection Vp as <-. rewrite V2, nth_error_map, Ex in Vq. injection Vq as <-. rewrite Ax. auto.
Qed.

(** ** The plant as it is *)

Lemma tower_shown limit sc t ps w h a aim X Y id : is_tower sc t ps w h a aim X Y id -> (3 <= limit)%nat ->
  exists ids objs ss, frames (get_surfaces limit (tw_plant t)) sc = (sc, Ok ids) /\ NoDup ids /\ engine_view limit (tw_plant t) sc = (sc, Ok (objs, ss)) /\
    Forall2 (fun k s => surface_now k sc = (sc, Ok s)) ids ss.
Proof.
  intros (ts & ss & ro & s2 & F & EF & Fd & Ep & Ea & Rg & Gl & Or & K & Tp & G1 & G2 & ND) L.
  pose proof Fd as (A1 & Kf & _ & Ns & _).
  assert (A : is_assembly sc (tw_plant t) (mkA id4 [mkO true F
      [mkPart (RectPlate (X / 2) (Y / 2)) (Accountant id (Reflective 1)) id4;
       mkPart (RectPlate (X / 2) (Y / 2)) (Absorbing (Reflective 1)) (translate 0 0 (- tenm 10))]] [mirrors id4 ts w h a])
       (concat [ss] ++ concat [[tw_rec t; s2]])).
  { apply is_asm with [ro] [hf_node (tw_field t)]; auto; [apply F3_cons; [exact Or|apply F3_nil]|apply F3_cons; [exact A1|apply F3_nil]]. }
  assert (Gf : Forall2 (fun l F => global_frame (sc_w sc) l = Some F) (concat [ss] ++ concat [[tw_rec t; s2]]) (ts ++ [F; mm4 F (translate 0 0 (- tenm 10))])).
  { cbn [concat]. rewrite !app_nil_r. apply Forall2_app; auto. }
  assert (Ne : flat_objs (mkA id4 [mkO true F
      [mkPart (RectPlate (X / 2) (Y / 2)) (Accountant id (Reflective 1)) id4;
       mkPart (RectPlate (X / 2) (Y / 2)) (Absorbing (Reflective 1)) (translate 0 0 (- tenm 10))]] [mirrors id4 ts w h a]) <> []).
  { cbn. rewrite app_nil_r. intros Q. apply app_eq_nil in Q as (_ & Q). discriminate. }
  exists (concat [ss] ++ concat [[tw_rec t; s2]]). do 2 eexists.
  split. { destruct (found_objects _ _ _ _ A) as (os & oss & Fo & Eo & Go). apply frames_same. apply (found_surfaces _ _ _ _ _ A Go _ Fo Eo); [exact Ne|cbn; lia]. }
  split; [cbn [concat]; rewrite !app_nil_r; exact ND|].
  split; [apply (view_objects sc _ _ _ (ts ++ [F; mm4 F (translate 0 0 (- tenm 10))]) A Ne Gf); cbn; lia|].
  revert Gf. generalize (concat [ss] ++ concat [[tw_rec t; s2]]) (ts ++ [F; mm4 F (translate 0 0 (- tenm 10))]). clear. intros ks Fs G.
  induction G as [|k F ks Fs E G IH]; cbn [map2]; constructor; [|exact IH].
  unfold global_frame, placed_array in E. unfold surface_now.
  destruct (w_node (sc_w sc) k) as [x|]; [|discriminate]. destruct (f_temp (n_fr x)) as [r|]; [|discriminate].
  destruct (read (sc_w sc) r); try discriminate. injection E as ->. reflexivity.
Qed.

(** Rays keep all their energy or lose it all. *)
Lemma plate_kinds ps ts w h aim X Y id (P : R -> Prop) : 0 < w -> 0 < h -> 0 < X -> 0 < Y -> P 0 ->
  Forall2 (fun p T => rigid T /\ app4 T vzero = p) ps ts ->
  forall s, In s (map (mirror_at w h 0) ts ++ [front_at aim X Y id; back_at aim X Y]) ->
    exists Hit Out, acts s Hit Out /\ forall p d e d' e', P e -> Out p d e d' e' -> P e'.
Proof.
  intros Hw Hh HX HY P0 Rg s I. apply in_app_or in I as [I|[<-|[<-|[]]]].
  - apply in_map_iff in I as (T & <- & IT).
    assert (RT : rigid T). { clear - Rg IT. induction Rg as [|p u l m (H & _) F IH]; [destruct IT|]. destruct IT as [<-|IT]; auto. }
    do 2 eexists. split; [exact (one_way_rect w h 0 T Hw Hh RT)|]. intros p d e d' e' Pe (_ & O1 & O2).
    destruct (Rle_dec (dot d (z_of T)) 0) as [L|L]; [rewrite (O1 L), Rminus_0_r, Rmult_1_r; exact Pe|rewrite O2 by lra; exact P0].
  - do 2 eexists. split; [exact (flat_receiver X Y id 1 _ HX HY (receiver_rigid aim))|]. intros p d e d' e' Pe (_ & ->).
    replace (e * (1 - 1)) with 0 by ring. exact P0.
  - do 2 eexists. split; [exact (flat_rect X Y 1 _ HX HY (back_rigid aim))|]. intros p d e d' e' Pe (_ & ->).
    replace (e * (1 - 1)) with 0 by ring. exact P0.
Qed.

Lemma one_each_source ps sun : is_unit sun -> library_source (one_each ps sun) (length ps).
Proof.
  intros Us. split.
  - split; [unfold names_ok; constructor|]. split; [|split; discriminate]. split; [cbn; eauto|].
    intros [| | | | |nm] l; cbn; try discriminate; intros E; injection E as <-; rewrite !map_length; auto.
  - intros j d e D E. unfold dir_at, energy_at, ref_at, at_col, one_each in *. cbn in D, E |- *. rewrite nth_error_map in D, E.
    destruct (nth_error ps j); [|discriminate]. cbn in D, E. injection D as <-. injection E as <-. split; [|split; [lra|discriminate]].
    unfold is_unit in *. revert Us. vunfold. intros; lra.
Qed.

Lemma plant_drawn ps ts w h aim X Y id sun g reps : 0 < w -> 0 < h -> 0 < X -> 0 < Y -> is_unit sun ->
  Forall2 (fun p T => rigid T /\ app4 T vzero = p) ps ts ->
  exists vs ds st pts cs, ray_tracer surface_ops (repeat (one_sided_object 1) (length ps) ++ [one_sided_object 2])
      (map (mirror_at w h 0) ts ++ [front_at aim X Y id; back_at aim X Y]) g (one_each ps sun) reps (5 / 100) TreeTrue = Ok (vs, ds, st) /\
    show_rays (t_tree st) 1 None = Ok (pts, cs) /\ faithful (t_tree st) (fun _ _ => True) 1 pts cs.
Proof.
  intros Hw Hh HX HY Us Rg. destruct (plant_answers ps ts w h 0 aim X Y id ltac:(lra) Rg) as (An & _ & Kn).
  pose proof (one_each_source ps sun Us) as Lb.
  destruct (tracing_answers _ _ An g _ _ reps (5 / 100) TreeTrue Lb (Kn _)) as (vs & ds & st & E); [right; discriminate|].
  set (P := fun e => e = 0 \/ e = 1).
  destruct (spent_drawn _ _ (5 / 100) P (proj1 An) (plate_kinds ps ts w h aim X Y id P Hw Hh HX HY (or_introl eq_refl) Rg) g _ _ reps vs ds st 1 Lb) as (pts & cs & Sh & Fa); auto.
  - intros l e El I. cbn in El. injection El as <-. apply in_map_iff in I as (q & <- & _). split; [right; auto|lra].
  - intros e [->| ->] Le; [auto|lra].
  - lra.
  - exists vs, ds, st, pts, cs. auto.
Qed.

Lemma shown_meshes ts w h aim X Y id s : In s (map (mirror_at w h 0) ts ++ [front_at aim X Y id; back_at aim X Y]) -> exists m, surf_mesh s 10 = Ok m.
Proof.
  intros I. assert (X' : exists a c, s_geom s = RectPlate a c).
  { apply in_app_or in I as [I|[<-|[<-|[]]]]; [apply in_map_iff in I as (T & <- & _)| |]; cbn; eauto. }
  destruct X' as (a & c & E). unfold surf_mesh. rewrite E. unfold geom_mesh, rect_mesh. cbn [bind]. eauto.
Qed.

(** ** Windows *)
Section Window.
Variables (order : list nat -> list nat) (far : nat).
Hypothesis Far : far = Z.to_nat 200000000.
Hypothesis Or : some_order order.
Variable limit : nat.
Hypothesis L : (3 <= limit)%nat.

(** Any plant can be drawn, whichever way its mirrors are turned. *)
Lemma plant_window sc t ps id sun g : is_tower sc t ps (1 / 2) (1 / 2) 0 10 1 1 id -> is_unit sun ->
  let w := present limit sc uncoloured g in
  exists ts, Forall2 (fun p T => rigid T /\ app4 T vzero = p) ps ts /\
    let objs := repeat (one_sided_object 1) (length ps) ++ [one_sided_object 2] in
    let ss := map (mirror_at (1 / 2) (1 / 2) 0) ts ++ [front_at 10 1 1 id; back_at 10 1 1] in
    engine_view limit (tw_plant t) sc = (sc, Ok (objs, ss)) /\
    (exists v, new_viewer order w (tw_plant t) (Some (one_each ps sun)) 1 None = Ok v /\ kept order far v) /\
    forall v, kept order far v -> exists v1 v2, set_assembly order w (tw_plant t) (clear_scene v) = Ok v1 /\ set_source w (Some (one_each ps sun)) v1 = Ok v2 /\
      pictured objs ss (repeat grey (length ps + 2)) g (one_each ps sun) far v2 /\ kept order far v2.
Proof.
  intros T Us w. destruct (tower_view limit sc t ps _ _ _ _ _ _ id T L) as (ts & Rg & V & _). exists ts. split; [exact Rg|]. cbv zeta. split; [exact V|].
  destruct (tower_shown limit sc t ps _ _ _ _ _ _ id T L) as (ids & objs' & ss' & Gs & Nd & V' & F2). rewrite V in V'.
  set (objs := repeat (one_sided_object 1) (length ps) ++ [one_sided_object 2]) in *.
  set (ss := map (mirror_at (1 / 2) (1 / 2) 0) ts ++ [front_at 10 1 1 id; back_at 10 1 1]) in *.
  assert (X : ss' = ss) by congruence. subst ss'. clear V' objs'.
  assert (Wi : w_surfaces w (tw_plant t) = ids) by (unfold w, present; cbn [w_surfaces]; rewrite Gs; reflexivity).
  assert (Wo : w_objects w (tw_plant t) = objs) by (unfold w, present; cbn [w_objects]; rewrite V; reflexivity).
  assert (Ws : Forall2 (fun k s => w_surface w k = s /\ exists m, surf_mesh s 10 = Ok m) ids ss).
  { assert (M : forall s, In s ss -> exists m, surf_mesh s 10 = Ok m) by (intros s; apply shown_meshes). revert M. clear - F2. subst w. intros M.
    induction F2 as [|k s ks l Es F IH]; constructor; [|apply IH; intros; apply M; right; auto].
    split; [|apply M; left; auto]. unfold present. cbn [w_surface]. rewrite Es. reflexivity. }
  assert (Wr : forall k, w_resolution w k = None) by reflexivity. assert (Wt : forall k, w_opacity w k = None) by reflexivity.
  assert (Wc : map (fun k => or_else (w_colour w k) (V3 (1 / 2) (1 / 2) (1 / 2))) ids = repeat grey (length ps + 2)).
  { assert (Li : length ids = (length ps + 2)%nat).
    { pose proof (f2_length F2) as Q. unfold ss in Q. rewrite app_length, map_length in Q. cbn [length] in Q. pose proof (f2_length Rg). lia. }
    rewrite <- Li. clear. induction ids as [|k l IH]; [reflexivity|]. cbn [map length repeat]. rewrite IH. reflexivity. }
  assert (Dr := plant_drawn ps ts (1 / 2) (1 / 2) 10 1 1 id sun (w_shared w) far ltac:(lra) ltac:(lra) ltac:(lra) ltac:(lra) Us Rg). fold objs ss in Dr.
  split.
  - destruct (dish_opens order far Far Or w (tw_plant t) ids objs ss _ (one_each ps sun) Wi Wo Nd Ws Wr Wt Wc Dr) as (v & Ev & _ & K). eauto.
  - intros v K. exact (dish_replaced order far Far Or w (tw_plant t) ids objs ss _ (one_each ps sun) Wi Wo Nd Ws Wr Wt Wc Dr v K).
Qed.

Lemma sky_aim ps az el : sliders az el -> (forall p, In p ps -> vz p = 0) ->
  forall p, In p ps -> p <> V3 0 0 10 /\
    forall tw k, 0 < k -> V3 0 0 10 = vadd p (vscale k tw) -> is_unit tw -> vadd (solar_vector (az * degree) (el * degree)) tw <> vzero.
Proof.
  intros (A & E) Z p I. specialize (Z p I). split; [intros ->; cbn in Z; lra|]. intros tw k Hk Eq _ Q. destruct (sun_above az el A E) as (_ & S & _).
  set (sun := solar_vector _ _) in *. destruct sun as [sx sy sz], tw as [x y z], p as [px py pz]. cbn in *. injection Eq as _ _ Ez. injection Q as _ _ Qz. nra.
Qed.
Lemma far_two : (2 <= far)%nat.
Proof. rewrite Far. change 2%nat with (Z.to_nat 2). apply Z2Nat.inj_le; lia. Qed.

Lemma aim_shows sc t ps id az el g v : reached limit sc -> is_tower sc t ps (1 / 2) (1 / 2) 0 10 1 1 id -> ps <> [] -> (forall p, In p ps -> vz p = 0) ->
  sliders az el -> kept order far v ->
  exists sc' v', aim_window limit order t az el g v sc = (sc', Ok v') /\ reached limit sc' /\ is_tower sc' t ps (1 / 2) (1 / 2) 0 10 1 1 id /\
    kept order far v' /\ shows_plant limit sc' t ps (solar_vector (az * degree) (el * degree)) g far v'.
Proof.
  intros R T Np Z Sl K. set (sun := solar_vector (az * degree) (el * degree)). pose proof (solar_unit (az * degree) (el * degree) : is_unit sun) as Us.
  assert (Ep : hf_pos (tw_field t) = ps) by (destruct T as (_ & _ & _ & _ & _ & _ & _ & Ep & _); exact Ep).
  destruct (tower_turned limit sc t ps (1 / 2) (1 / 2) 0 10 1 1 id (az * degree) (el * degree) R T Np ltac:(lra) ltac:(lra) L (sky_aim ps az el Sl Z))
    as (sc1 & ts' & ms & E1 & R1 & T1 & Rg & Ems & V & Am). fold sun in Am. cbv zeta in V.
  destruct (plant_window sc1 t ps id sun g T1 Us) as (ts & Rg2 & V2 & _ & W). cbv zeta in V2, W.
  set (objs := repeat (one_sided_object 1) (length ps) ++ [one_sided_object 2]) in *.
  set (ss := map (mirror_at (1 / 2) (1 / 2) 0) ts ++ [front_at 10 1 1 id; back_at 10 1 1]) in *.
  assert (Es : ss = ms ++ [front_at 10 1 1 id; back_at 10 1 1]) by (rewrite V2 in V; unfold front_at, back_at; congruence).
  destruct (W v K) as (v1 & v2 & A1 & A2 & Pc & K2). exists sc1, v2.
  split. { unfold aim_window. rewrite Ep. erewrite bbind_ok by exact E1. cbv beta iota zeta. rewrite A1. cbn [bind]. f_equal. exact A2. }
  split; [exact R1|]. split; [exact T1|]. split; [exact K2|].
  exists ms, (front_at 10 1 1 id), (back_at 10 1 1). cbv zeta. fold objs. rewrite <- Es. split; [exact V2|].
  split. { rewrite (Rminus_0_r 1) in Am. exact Am. }
  destruct (receiver_z 10) as (Z1 & Z2).
  split. { pose proof (flat_receiver 1 1 id 1 _ Rlt_0_1 Rlt_0_1 (receiver_rigid 10)) as M. rewrite Z1 in M. replace (1 - 1) with 0 in M by ring.
    eapply flat_ext; [|reflexivity|reflexivity|exact M]. intros q. rewrite receiver_points. lra. }
  split. { pose proof (flat_rect 1 1 1 _ Rlt_0_1 Rlt_0_1 (back_rigid 10)) as M. rewrite Z2 in M. replace (1 - 1) with 0 in M by ring.
    eapply flat_ext; [|reflexivity|reflexivity|exact M]. intros q. split; [intros Q; apply back_points in Q; lra|].
    intros (Qx & Qy & Qz). exists (V3 (10 - vz q) (vy q) 0). split; [cbn; unfold rectangle; cbn; lra|].
    destruct q as [x y z]. cbn in *. unfold app4, receiver_frame, translate. cbn. veq; lra. }
  split; [exact Pc|]. intros Fw.
  destruct (tower_aimed limit sc t ps (1 / 2) (1 / 2) 0 10 1 1 id az el far (5 / 100) g R T Np) as (sc2 & st & Ea & _ & _ & Rl & _); try lra; auto; [apply far_two|].
  unfold aim_field in Ea. rewrite Ep in Ea. erewrite bbind_ok in Ea by exact E1. erewrite bbind_ok in Ea by exact V2. cbv beta iota in Ea.
  assert (Er : ray_tracer surface_ops objs ss g (one_each ps sun) far (5 / 100) TreeTrue = Ok ([], [], st)) by (unfold calc in Ea; change (gen_rays ps az el) with (one_each ps sun) in Ea; congruence).
  destruct Pc as (mms & vs & ds & st' & pts & cs & _ & Er' & Fa & Pm). rewrite Er in Er'. assert (X : st = st') by congruence. subst st'.
  exists pts, cs. split; [eapply Permutation_in; [symmetry; exact Pm|]; apply in_or_app; right; left; reflexivity|].
  destruct (plant_answers ps ts (1 / 2) (1 / 2) 0 10 1 1 id ltac:(lra) Rg2) as (An & _ & _).
  destruct (trace_levels objs ss (5 / 100) g (one_each ps sun) (length ps) far [] [] st (proj1 An) (one_each_source ps sun Us) Er) as (Dw & _).
  exact (relay_drawn ps sun _ _ pts cs Rl Dw Fa).
Qed.
End Window.

(** ** Positions *)

Lemma positions_ground rr ar ps : 0 < rr -> 0 < ar -> tower_positions rr ar = Ok ps -> ps <> [] /\ forall p, In p ps -> vz p = 0.
Proof.
  intros Hr Ha E. pose proof PI_RGT_0. destruct (plant_positions rr ar Hr Ha) as (idx & E' & _ & M). rewrite E in E'. injection E' as ->. split.
  - assert (I : In (0%nat, 0%nat) idx).
    { apply M. unfold in_plant, staggered. cbn. repeat split; try lra; auto. }
    destruct idx; [destruct I|discriminate].
  - intros p I. apply in_map_iff in I as (ij & <- & _). reflexivity.
Qed.
Lemma plant_step limit rr ar sc : reached limit sc -> (3 <= limit)%nat -> 0 < rr -> 0 < ar ->
  exists ps sc' t id, tower_positions rr ar = Ok ps /\ ps <> [] /\ (forall p, In p ps -> vz p = 0) /\ gen_plant limit rr ar sc = (sc', Ok t) /\ reached limit sc' /\
    is_tower sc' t ps (1 / 2) (1 / 2) 0 10 1 1 id.
Proof.
  intros R L Hr Ha. destruct (plant_positions rr ar Hr Ha) as (idx & E & _). set (ps := map (at_index rr ar) idx) in *.
  destruct (positions_ground rr ar ps Hr Ha E) as (Np & Z).
  destruct (tower_built limit ps (1 / 2) (1 / 2) 0 10 1 1 sc R) as (sc' & t & id & Et & R' & _ & T & _); try lra; auto.
  exists ps, sc', t, id. split; [exact E|]. split; [exact Np|]. split; [exact Z|]. split; [|split; [exact R'|exact T]].
  unfold gen_plant. erewrite bbind_ok by (apply calc_ok; exact E). exact Et.
Qed.
Lemma plant_refused limit rr ar sc : rr = 0 \/ ar = 0 -> gen_plant limit rr ar sc = (sc, Err ZeroDivisionError).
Proof.
  intros H. unfold gen_plant, bbind, calc, tower_positions, radial_stagger, r_range, Reqb. destruct (Req_EM_T rr 0) as [Q|Q]; [reflexivity|]. cbn [bind].
  destruct (Req_EM_T (ar / 2) 0) as [Q'|Q']; [reflexivity|]. exfalso. destruct H; [auto|lra].
Qed.

(** ** Altogether *)
Section Played.
Variables (order : list nat -> list nat) (far limit : nat).
Hypothesis Far : far = Z.to_nat 200000000.
Hypothesis Or : some_order order.
Hypothesis L : (3 <= limit)%nat.
Definition sun_at (az el : R) : vec := solar_vector (az * degree) (el * degree).

Lemma open_case rr ar az el g g' sc : reached limit sc -> 0 < rr -> 0 < ar -> sliders az el ->
  exists ps sc' v t id, tower_positions rr ar = Ok ps /\ open_tower limit order rr ar az el g g' sc = (sc', Ok (v, t)) /\
    shows_plant limit sc' t ps (sun_at az el) g' far v /\ reached limit sc' /\ is_tower sc' t ps (1 / 2) (1 / 2) 0 10 1 1 id /\ kept order far v.
Proof.
  intros R Hr Ha Sl. destruct (plant_step limit rr ar sc R L Hr Ha) as (ps & sc1 & t & id & E & Np & Z & E1 & R1 & T1).
  destruct (plant_window order far Far Or limit L sc1 t ps id (sun_at az el) g T1 (AimProof.solar_unit _ _)) as (ts & _ & _ & (v0 & Ev & K0) & _).
  destruct (aim_shows order far Far Or limit L sc1 t ps id az el g' v0 R1 T1 Np Z Sl K0) as (sc2 & v & E2 & R2 & T2 & K & Sh).
  exists ps, sc2, v, t, id. split; [exact E|]. split; [|auto].
  assert (Ep : hf_pos (tw_field t) = ps) by (destruct T1 as (_ & _ & _ & _ & _ & _ & _ & Ep & _); exact Ep).
  unfold open_tower. erewrite bbind_ok by exact E1. rewrite Ep. erewrite bbind_ok by (change (gen_rays ps az el) with (one_each ps (sun_at az el)); rewrite Ev; reflexivity).
  erewrite bbind_ok by exact E2. reflexivity.
Qed.
Lemma replace_case rr ar az el g sc v : reached limit sc -> 0 < rr -> 0 < ar -> sliders az el -> kept order far v ->
  exists ps sc' v' t id, tower_positions rr ar = Ok ps /\ replace_in_window limit order rr ar az el g v sc = (sc', Ok (v', t)) /\
    shows_plant limit sc' t ps (sun_at az el) g far v' /\ reached limit sc' /\ is_tower sc' t ps (1 / 2) (1 / 2) 0 10 1 1 id /\ kept order far v'.
Proof.
  intros R Hr Ha Sl K0. destruct (plant_step limit rr ar sc R L Hr Ha) as (ps & sc1 & t & id & E & Np & Z & E1 & R1 & T1).
  destruct (aim_shows order far Far Or limit L sc1 t ps id az el g v R1 T1 Np Z Sl K0) as (sc2 & v2 & E2 & R2 & T2 & K & Sh).
  exists ps, sc2, v2, t, id. split; [exact E|]. split; [|auto]. unfold replace_in_window. erewrite bbind_ok by exact E1. erewrite bbind_ok by exact E2. reflexivity.
Qed.
Lemma tower_kept sc v t ps az el : tower_played limit order sc v t ps az el ->
  reached limit sc /\ sliders az el /\ kept order far v /\ ps <> [] /\ (forall p, In p ps -> vz p = 0) /\
  (exists id, is_tower sc t ps (1 / 2) (1 / 2) 0 10 1 1 id) /\ exists g, shows_plant limit sc t ps (sun_at az el) g far v.
Proof.
  intros P. induction P as [rr ar ps az el g g' sc sc' v t R Hr Ha Sl Ep E
    |az el az' el' ps g sc sc' v v' t P (R & Sl & K & Np & Z & (id & T) & _) Sl' E
    |rr ar ps ps' az el g sc sc' v v' t t' P (R & Sl & K & _) Hr Ha Ep E
    |rr ar ps az el g sc sc' v t e P IH Hz E].
  - destruct (open_case rr ar az el g g' sc R Hr Ha Sl) as (ps2 & sc2 & v2 & t2 & id & Ep2 & E2 & Sh & R2 & T2 & K2).
    rewrite Ep in Ep2. injection Ep2 as <-. rewrite E in E2. injection E2 as <- <- <-. destruct (positions_ground rr ar ps Hr Ha Ep) as (Np & Z).
    split; [exact R2|]. split; [exact Sl|]. split; [exact K2|]. split; [exact Np|]. split; [exact Z|]. split; eauto.
  - destruct (aim_shows order far Far Or limit L sc t ps id az' el' g v R T Np Z Sl' K) as (sc2 & v2 & E2 & R2 & T2 & K2 & Sh).
    rewrite E in E2. injection E2 as <- <-. split; [exact R2|]. split; [exact Sl'|]. split; [exact K2|]. split; [exact Np|]. split; [exact Z|]. split; eauto.
  - destruct (replace_case rr ar az el g sc v R Hr Ha Sl K) as (ps2 & sc2 & v2 & t2 & id & Ep2 & E2 & Sh & R2 & T2 & K2).
    rewrite Ep in Ep2. injection Ep2 as <-. rewrite E in E2. injection E2 as <- <- <-. destruct (positions_ground rr ar ps' Hr Ha Ep) as (Np & Z).
    split; [exact R2|]. split; [exact Sl|]. split; [exact K2|]. split; [exact Np|]. split; [exact Z|]. split; eauto.
  - unfold replace_in_window, bbind in E. rewrite (plant_refused limit rr ar sc Hz) in E. injection E as <- _. exact IH.
Qed.
End Played.

Theorem tower_opened limit order rr ar az el g g' sc : reached limit sc -> (3 <= limit)%nat -> some_order order -> 0 < rr -> 0 < ar -> sliders az el ->
  exists ps sc' v t, tower_positions rr ar = Ok ps /\ open_tower limit order rr ar az el g g' sc = (sc', Ok (v, t)) /\
    shows_plant limit sc' t ps (solar_vector (az * degree) (el * degree)) g' (Z.to_nat 200000000) v.
Proof.
  intros R L O Hr Ha Sl. set (far := Z.to_nat 200000000). assert (Far : far = Z.to_nat 200000000) by reflexivity. clearbody far.
  destruct (open_case order far limit Far O L rr ar az el g g' sc R Hr Ha Sl) as (ps & sc' & v & t & _ & E & E' & Sh & _). exists ps, sc', v, t. auto.
Qed.
Theorem tower_moved limit order sc v t ps az el az' el' g : tower_played limit order sc v t ps az el -> (3 <= limit)%nat -> some_order order -> sliders az' el' ->
  exists sc' v', aim_window limit order t az' el' g v sc = (sc', Ok v') /\
    shows_plant limit sc' t ps (solar_vector (az' * degree) (el' * degree)) g (Z.to_nat 200000000) v'.
Proof.
  intros P L O Sl. set (far := Z.to_nat 200000000). assert (Far : far = Z.to_nat 200000000) by reflexivity. clearbody far.
  destruct (tower_kept order far limit Far O L sc v t ps az el P) as (R & _ & K & Np & Z & (id & T) & _).
  destruct (aim_shows order far Far O limit L sc t ps id az' el' g v R T Np Z Sl K) as (sc2 & v2 & E2 & _ & _ & _ & Sh). exists sc2, v2. auto.
Qed.
Theorem tower_changed limit order sc v t ps az el rr ar g : tower_played limit order sc v t ps az el -> (3 <= limit)%nat -> some_order order ->
  (0 < rr -> 0 < ar -> exists ps' sc' v' t', tower_positions rr ar = Ok ps' /\ replace_in_window limit order rr ar az el g v sc = (sc', Ok (v', t')) /\
     shows_plant limit sc' t' ps' (solar_vector (az * degree) (el * degree)) g (Z.to_nat 200000000) v') /\
  (rr = 0 \/ ar = 0 -> replace_in_window limit order rr ar az el g v sc = (sc, Err ZeroDivisionError)).
Proof.
  intros P L O. set (far := Z.to_nat 200000000). assert (Far : far = Z.to_nat 200000000) by reflexivity. clearbody far. split.
  - intros Hr Ha. destruct (tower_kept order far limit Far O L sc v t ps az el P) as (R & Sl & K & _).
    destruct (replace_case order far limit Far O L rr ar az el g sc v R Hr Ha Sl K) as (ps' & sc' & v' & t' & _ & E & E' & Sh & _). exists ps', sc', v', t'. auto.
  - intros H. unfold replace_in_window, bbind. rewrite (plant_refused limit rr ar sc H). reflexivity.
Qed.
Theorem tower_always limit order sc v t ps az el : tower_played limit order sc v t ps az el -> (3 <= limit)%nat -> some_order order ->
  exists g, shows_plant limit sc t ps (solar_vector (az * degree) (el * degree)) g (Z.to_nat 200000000) v.
Proof.
  intros P L O. set (far := Z.to_nat 200000000). assert (Far : far = Z.to_nat 200000000) by reflexivity. clearbody far.
  apply (tower_kept order far limit Far O L sc v t ps az el P).
Qed.
Theorem tower_lines limit order sc v t rr ar ps az el : tower_played limit order sc v t ps az el -> (3 <= limit)%nat -> some_order order ->
  1 <= rr -> PI / 8 <= ar -> tower_positions rr ar = Ok ps ->
  exists pts cs, In (Lines pts cs) (in_scene v) /\ draws pts cs (relay_lines ps (solar_vector (az * degree) (el * degree))).
Proof.
  intros P L O Hr Ha E. set (far := Z.to_nat 200000000). assert (Far : far = Z.to_nat 200000000) by reflexivity. clearbody far.
  destruct (tower_kept order far limit Far O L sc v t ps az el P) as (_ & (Sa & Se) & _ & _ & _ & _ & (g & ms & front & back & _ & _ & _ & _ & _ & Ln)).
  apply Ln. apply (plant_free rr ar ps az el Hr Ha E Sa Se).
Qed.
Theorem tower_flux limit order sc v t rr ar ps az el per bins g : tower_played limit order sc v t ps az el -> (3 <= limit)%nat -> some_order order ->
  1 <= rr -> PI / 8 <= ar -> tower_positions rr ar = Ok ps -> fair (g_rng g) -> (0 < bins)%nat ->
  exists H xe ye g', flux_map limit t az el per (465 / 100000) (1 / 4) 1000 (5 / 100) bins (1 / 2) (1 / 2) g sc = (sc, Ok (H, xe, ye, g')) /\
    0 <= total (concat H) <= INR (per * length ps).
Proof.
  intros P L O Hr Ha E Fg Hb. set (far := Z.to_nat 200000000). assert (Far : far = Z.to_nat 200000000) by reflexivity. clearbody far.
  destruct (tower_kept order far limit Far O L sc v t ps az el P) as (_ & _ & _ & _ & _ & (id & T) & _).
  apply (example_flux limit rr ar ps sc t id az el _ (5 / 100) per bins g L Hr Ha E T Fg Hb).
Qed.

Lemma tower_example_played : exists sc v t ps sc' v', tower_played 5 (fun l => l) sc v t ps 90 45 /\ tower_positions 1 (PI / 8) = Ok ps /\ ps <> [] /\
  aim_window 5 (fun l => l) t 0 0 (mkG TestCaseTop.case_numbers (fun _ => mkAcc [] [])) v sc = (sc', Ok v') /\ tower_played 5 (fun l => l) sc' v' t ps 0 0.
Proof.
  assert (O : some_order (fun l => l)) by (intros l; apply Permutation_refl). pose proof PI_RGT_0.
  set (g := mkG TestCaseTop.case_numbers (fun _ => mkAcc [] [])). assert (S1 : sliders 90 45) by (split; lra). assert (S2 : sliders 0 0) by (split; lra).
  destruct (tower_opened 5 (fun l => l) 1 (PI / 8) 90 45 g g ModelExamples.start (ModelExamples.start_reached 5) ltac:(lia) O ltac:(lra) ltac:(lra) S1) as (ps & sc & v & t & Ep & E & _).
  assert (P : tower_played 5 (fun l => l) sc v t ps 90 45) by (exact (tp_open 5 (fun l => l) 1 (PI / 8) ps 90 45 g g ModelExamples.start sc v t (ModelExamples.start_reached 5) ltac:(lra) ltac:(lra) S1 Ep E)).
  destruct (tower_moved 5 (fun l => l) sc v t ps 90 45 0 0 g P ltac:(lia) O S2) as (sc' & v' & E' & _).
  exists sc, v, t, ps, sc', v'. split; [exact P|]. split; [exact Ep|]. split; [apply (positions_ground 1 (PI / 8) ps ltac:(lra) ltac:(lra) Ep)|]. split; [exact E'|].
  exact (tp_sun 5 (fun l => l) 90 45 0 0 ps g sc sc' v v' t P S2 E').
Qed.
