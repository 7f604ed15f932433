(** Where recorded hits are, and what a histogram of them shows. *)
From Coq Require Import Reals List Arith Bool Sorted Lia Lra.
From Verif.Base Require Import Py Num Vec.
From Verif.Model Require Import RayBundle Spatial Geometry TraceTree Engine Objects OpticsCallables Surface Assembly Scene Models.
From Verif.Proof Require Import ListLemmas NumLemmas VecLemmas BundleProof ProcessProof GeomTop LibraryTop TraceTop EngineTop ModelTop ReceiverTop MeasureProof AccountProof.
From Verif.Spec Require Import BundleSpec EngineSpec LibrarySpec GeometrySpec GeomIface OpticsSpec FrameSpec SceneSpec AccountSpec ModelSpec.
Import ListNotations.
Local Open Scope R_scope.

(** ** Points of flat surfaces *)
Lemma register_flat s frame (A : shape) : s_frame s = frame -> finds (s_geom s) frame (flat_answer frame A) ->
  forall b j t v d, reports_hit s b j t -> vert_at b j = Some v -> dir_at b j = Some d -> placed frame A (vadd v (vscale t d)).
Proof.
  intros <- F b j t v d (sub & idx & q & s' & ps & Pk & Hq & Rg & Hp) Hv Hd.
  pose proof (picked_same _ _ _ _ _ Pk Hq) as Sm.
  rewrite <- (same_ray_vert _ _ _ _ Sm) in Hv. rewrite <- (same_ray_dir _ _ _ _ Sm) in Hd.
  pose proof (Pk Vertices) as Pv. pose proof (Pk Directions) as Pd. cbn [prop] in Pv, Pd.
  unfold vert_at, dir_at, at_col in Hv, Hd.
  destruct (b_vert sub) as [vs|] eqn:Ev; [|discriminate]. destruct (b_dir sub) as [ds|] eqn:Ed; [|discriminate].
  assert (Lv : length vs = length idx).
  { destruct (b_vert b); cbn in Pv; [destruct Pv as (lv & E & P)|discriminate]. injection E as <-. apply picks_length in P. rewrite map_length in P. auto. }
  assert (Ld : length ds = length idx).
  { destruct (b_dir b); cbn in Pd; [destruct Pd as (ld & E & P)|discriminate]. injection E as <-. apply picks_length in P. rewrite map_length in P. auto. }
  destruct (F sub vs ds) as (gs & ps' & Ef & _ & An). { unfold has_rays. repeat split; auto; congruence. }
  apply SurfaceProof.register_inv in Rg as (gs' & Ef' & _). assert (ps' = ps) by congruence. subst ps'.
  destruct (An q v d (Fin t) Hv Hd Hp) as (A1 & A2).
  destruct (Rlt_dec (tenm 10) (Rabs (dot d (z_of (s_frame s))))) as [I|I]; [|specialize (A2 I); discriminate].
  destruct (A1 I) as ((_ & P) & _). exact P.
Qed.

Lemma noted_reported a T nsurf prev ns i l surfs s tb (P : vec -> Prop) : noted a T nsurf prev ns i l ->
  reported surface_ops surfs prev ns T tb -> nth_error surfs i = Some s ->
  (forall j t v d, reports_hit s prev j t -> vert_at prev j = Some v -> dir_at prev j = Some d -> P (vadd v (vscale t d))) ->
  Forall P (map snd l).
Proof.
  intros (js & _ & _ & F) Rp Es H. induction F as [|j h js l (t & e & v & d & (_ & _ & Ht & _) & _ & Hv & Hd & ->) F IH]; constructor; auto.
  cbn [snd]. eapply H; eauto. eapply reported_hit; eauto.
Qed.
Lemma noted_none a T nsurf prev ns i l : noted a T nsurf prev ns i l -> ns = 0%nat -> l = [].
Proof.
  intros (js & _ & J & F) ->. destruct js as [|j js]; [inversion F; auto|]. destruct (proj1 (J j)) as (t & _ & Lj & _); [left; auto|]. lia.
Qed.
Lemma noted_energy a T nsurf prev ns i l : noted a T nsurf prev ns i l -> 0 <= a -> all_rays lib_ray prev ->
  Forall (fun e => 0 <= e) (map fst l).
Proof.
  intros (js & _ & _ & F) Ha Al. induction F as [|j h js l (t & e & v & d & _ & He & _ & Hd & ->) F IH]; constructor; auto.
  cbn [fst]. apply Rmult_le_pos; auto. apply (Al j d e Hd He).
Qed.

Lemma placed_points frame (A : shape) l : Forall (placed frame A) l -> exists qs, l = map (app4 frame) qs /\ Forall A qs.
Proof.
  induction 1 as [|p l (q & Aq & ->) _ (qs & -> & F)]; [exists []; auto|]. exists (q :: qs). split; auto.
Qed.

(** ** Tracing a collector *)
Lemma measured_top view ss r id T pos X Y eff sc : receives view id T pos X Y eff ss -> rigid T -> 0 < X -> 0 < Y -> 0 <= eff <= 1 ->
  (forall s, nth_error ss 6 = Some s -> workable 1 s) -> hr_sides r = (X, Y) ->
  surface_now (hr_rec r) sc = (sc, Ok (front_of id T pos X Y)) ->
  measured view ss r id X Y (mm4 T (mm4 (translate 0 0 pos) (rotx PI))) sc.
Proof.
  intros (Hf & Hr) RT HX HY He Hm Hs Sn g b n me reps bins Ls Eg Hb.
  destruct (Hr He Hm) as (An & Sa & Km). pose proof (proj1 An) as La.
  destruct (AnswerProof.tracing_answers view ss An g b n reps me TreeTrue Ls (Km b)) as (vs & ds & st & E); [right; discriminate|].
  destruct (accounts_top view ss La me g b n Ls reps vs ds st E) as (ns & Ts & Rp & Tr & Ac).
  destruct (Ac 4%nat _ id _ Hf eq_refl Sa) as (ls & Ll & Nt & A & H). cbn [absorptivity] in Nt.
  set (F := mm4 T (mm4 (translate 0 0 pos) (rotx PI))). assert (RF : rigid F) by (apply rigid_mm4; auto; apply frame_rigid).
  assert (Fi : finds (s_geom (front_of id T pos X Y)) F (flat_answer F (rectangle X Y))).
  { apply rect_finds; auto. apply ModelProof.rect_ok; auto. }
  assert (Pt : Forall (placed F (rectangle X Y)) (map snd (concat ls))).
  { assert (Q : forall l, In l ls -> Forall (placed F (rectangle X Y)) (map snd l)).
    { intros l Hl. apply In_nth_error in Hl as (L & HL).
      assert (Lt : (L < length ls)%nat) by (apply nth_error_Some; congruence).
      destruct (nth_lt (t_tree st) L) as (prev & Hp); [lia|]. pose proof (Nt L prev l Hp HL) as N.
      destruct (Nat.eq_dec (ns L) 0) as [Z|Z]; [rewrite (noted_none _ _ _ _ _ _ _ N Z); constructor|].
      destruct (Rp L prev Hp) as (tb & R); [lia|lia|].
      apply (noted_reported _ _ _ _ _ _ _ ss _ tb _ N R Hf).
      intros j t v d Rh Hv Hd. exact (register_flat (front_of id T pos X Y) F (rectangle X Y) eq_refl Fi prev j t v d Rh Hv Hd). }
    clear - Q. induction ls as [|l ls IH]; [constructor|]. cbn [concat]. rewrite map_app. apply Forall_app. split; [apply Q; left; auto|].
    apply IH. intros; apply Q; right; auto. }
  destruct (placed_points _ _ _ Pt) as (qs & Eq & Fq).
  assert (Gh : get_all_hits (g_acc (t_g st) id) = Ok (map fst (concat ls), map (app4 F) qs)).
  { rewrite <- Eq, <- hits_concat. f_equal. destruct (g_acc (t_g st) id). cbn in A, H. rewrite Eg in A, H. cbn in A, H. congruence. }
  destruct (histogram_top r sc _ id _ X Y bins (t_g st) (map fst (concat ls)) qs Sn eq_refl RF Hs HX HY Hb Gh) as (Hi & xe & ye & Eh & _ & _ & _ & _ & Bi & _ & To).
  { rewrite map_length. rewrite <- (map_length (app4 F) qs), <- Eq, map_length. reflexivity. }
  exists vs, ds, st, ns, Ts, ls, qs, Hi, xe, ye. split; [exact E|]. split; [exact Rp|]. split; [exact Tr|]. split; [exact Ll|].
  split; [exact Nt|]. split; [exact Eq|]. split; [exact Fq|]. split; [exact Eh|]. split; [exact Bi|]. apply To; auto.
Qed.

Lemma collector_measured limit sc sc' r pos X Y H eff old (Q : mat4 -> surface -> Prop) :
  collector limit sc sc' r pos X Y H eff old Q -> 0 < X -> 0 < Y -> 0 <= eff <= 1 -> (forall T s, rigid T -> Q T s -> workable 1 s) ->
  forall T, rigid T -> exists sc'' objs ss id, put_at limit (hr_node r) T sc' = (sc'', Ok tt) /\
    engine_view limit (hr_node r) sc'' = (sc'', Ok (objs, ss)) /\
    measured objs ss r id X Y (mm4 T (mm4 (translate 0 0 pos) (rotx PI))) sc''.
Proof.
  intros (_ & _ & _ & _ & _ & Hs & id & _ & _ & C) HX HY He Hw T RT.
  destruct (C T RT) as (sc2 & ss & Ep & _ & Ev & Bx & Rc & Sn). exists sc2, (repeat (one_sided_object 1) 4 ++ [one_sided_object 2; default_object 1]), ss, id.
  split; auto. split; auto. eapply measured_top; eauto.
  intros s Es. destruct Bx as (ws & fr & ba & ma & -> & (xp & xn & yp & yn & -> & _) & _ & _ & Qm). cbn in Es. injection Es as <-. eauto.
Qed.

Lemma dish_works D f eff T s : 0 <= eff <= 1 -> round_reflector D f eff T s \/ hex_reflector D f eff T s -> workable 1 s.
Proof. intros He [(_ & _ & A & B & C)|(_ & _ & A & B & C)]; split; auto. Qed.

Lemma minidish_flux limit D f eff pos side H heff aspect sc : reached limit sc -> 0 < f -> 0 < side -> 0 < aspect -> 0 < H -> (3 <= limit)%nat ->
  0 <= eff <= 1 -> 0 <= heff <= 1 ->
  exists sc' r, minidish limit D f eff pos side H heff aspect sc = (sc', Ok r) /\
  forall T, rigid T -> exists sc'' objs ss id, put_at limit (hr_node r) T sc' = (sc'', Ok tt) /\
    engine_view limit (hr_node r) sc'' = (sc'', Ok (objs, ss)) /\
    measured objs ss r id side (side * aspect) (mm4 T (mm4 (translate 0 0 pos) (rotx PI))) sc''.
Proof.
  intros R Hf Hs Ha HH L He Hh. destruct (minidish_top limit D f eff pos side H heff aspect sc R Hf Hs Ha HH L) as (sc' & r & E & C).
  exists sc', r. split; auto. apply (collector_measured _ _ _ _ _ _ _ _ _ _ _ C); auto; [apply Rmult_lt_0_compat; auto|].
  intros T s _ Q. apply (dish_works D f eff T s); auto.
Qed.
Lemma petal_flux limit D f eff pos side H heff aspect sc : reached limit sc -> 0 < f -> 0 < side -> 0 < aspect -> 0 < H -> (3 <= limit)%nat ->
  0 <= eff <= 1 -> 0 <= heff <= 1 ->
  exists sc' r, petal limit D f eff pos side H heff aspect sc = (sc', Ok r) /\
  forall T, rigid T -> exists sc'' objs ss id, put_at limit (hr_node r) T sc' = (sc'', Ok tt) /\
    engine_view limit (hr_node r) sc'' = (sc'', Ok (objs, ss)) /\
    measured objs ss r id side (side * aspect) (mm4 T (mm4 (translate 0 0 pos) (rotx PI))) sc''.
Proof.
  intros R Hf Hs Ha HH L He Hh. destruct (petal_top limit D f eff pos side H heff aspect sc R Hf Hs Ha HH L) as (sc' & r & E & C).
  exists sc', r. split; auto. apply (collector_measured _ _ _ _ _ _ _ _ _ _ _ C); auto; [apply Rmult_lt_0_compat; auto|].
  intros T s _ Q. apply (dish_works D f eff T s); auto.
Qed.
