(** What the window of examples/parabolic_dish_gui.py shows. *)
From Coq Require Import Reals String List Arith ZArith Bool Lia Lra Permutation.
From Verif.Base Require Import Py Num Vec.
From Verif.Model Require Import RayBundle Spatial Geometry TraceTree Sources OpticsCallables Engine Objects Surface Mesh View Assembly Scene Models DishGui.
From Verif.Proof Require Import ListLemmas NumLemmas VecLemmas BundleProof ProcessProof LibraryTop AnswerProof
  GrowProof ViewProof SceneProof ModelProof ModelTop SceneViewProof EnergyKindProof DishScene.
From Verif.Proof Require ModelExamples TestCaseTop.
From Verif.Spec Require Import BundleSpec EngineSpec GeometrySpec OpticsSpec LibrarySpec SourceSpec MeshSpec SceneSpec ModelSpec ViewSpec SceneViewSpec DishGuiSpec.
Import ListNotations.
Local Open Scope R_scope.

(** ** Rays *)

Lemma sun_source h n b : sun_from h n b -> library_source b n.
Proof.
  intros ((vs & Ev & Lv & _) & (ds & Ed & Ld & Fd) & (es & Ee & Es & _) & Ep & Er & Ex). split.
  - split; [unfold names_ok; rewrite Ex; constructor|]. split; [|split; congruence]. split; [cbn; rewrite Ev; cbn; eauto|].
    intros p l E. destruct p; cbn in E; rewrite ?Ev, ?Ed, ?Ee, ?Ep, ?Er, ?Ex in E; cbn in E; try discriminate; injection E as <-; rewrite map_length; auto.
    subst es. apply repeat_length.
  - intros j d e D E. unfold dir_at, energy_at, ref_at, at_col in *. rewrite Ed in D. rewrite Ee in E. rewrite Er.
    split; [|split; [|discriminate]].
    + rewrite Forall_forall in Fd. apply (Fd d (nth_error_In _ _ D)).
    + apply nth_error_In in E. subst es. apply repeat_spec in E. subst e.
      destruct n as [|n]; [cbn; unfold Rdiv; rewrite Rinv_0; lra|]. apply Rlt_le, Rdiv_lt_0_compat; [lra|]. apply lt_0_INR. lia.
Qed.

Lemma whole_or_spent f W H ss (P : R -> Prop) : P 0 -> box_receiver id4 (f + H) W W H 1 (round_reflector 1 f 1 id4) ss ->
  forall s, In s ss -> exists Hit Out, acts s Hit Out /\ forall p d e d' e', P e -> Out p d e d' e' -> P e'.
Proof.
  intros P0 (ws & fr & bk & mn & -> & (w1 & w2 & w3 & w4 & -> & M1 & M2 & M3 & M4) & Mf & Mb & (Md & _)) s I.
  assert (Wall : forall s A z, one_way_mirror s A z 1 -> exists Hit Out, acts s Hit Out /\ forall p d e d' e', P e -> Out p d e d' e' -> P e').
  { intros s0 A z M. do 2 eexists. split; [exact M|]. intros p d e d' e' Pe (_ & O1 & O2).
    destruct (Rle_dec (dot d z) 0) as [L|L]; [rewrite (O1 L), Rmult_1_r; exact Pe|rewrite O2 by lra; exact P0]. }
  assert (Plate : forall s A z, flat_mirror s A z 0 -> exists Hit Out, acts s Hit Out /\ forall p d e d' e', P e -> Out p d e d' e' -> P e').
  { intros s0 A z M. do 2 eexists. split; [exact M|]. intros p d e d' e' Pe (_ & ->). rewrite Rmult_0_r. exact P0. }
  cbn in I. destruct I as [<-|[<-|[<-|[<-|[<-|[<-|[<-|[]]]]]]]]; eauto.
  do 2 eexists. split; [exact Md|]. intros p d e d' e' Pe (-> & _). rewrite Rmult_1_r. exact Pe.
Qed.

Lemma dish_drawn f W H objs ss g b h n reps : 5 / 100 < 1000 / INR n -> sun_from h n b ->
  box_receiver id4 (f + H) W W H 1 (round_reflector 1 f 1 id4) ss -> answering_assembly objs ss -> (forall b, knows_media ss b) ->
  exists vs ds st pts cs, ray_tracer surface_ops objs ss g b reps (5 / 100) TreeTrue = Ok (vs, ds, st) /\
    show_rays (t_tree st) 1 None = Ok (pts, cs) /\ faithful (t_tree st) (fun _ _ => True) 1 pts cs.
Proof.
  intros Hn Sb Bx An Kn. pose proof (sun_source h n b Sb) as Lb.
  destruct (tracing_answers objs ss An g b n reps (5 / 100) TreeTrue Lb (Kn b)) as (vs & ds & st & E); [right; discriminate|].
  set (P := fun e => e = 0 \/ e = 1000 / INR n).
  destruct (spent_drawn objs ss (5 / 100) P (proj1 An) (whole_or_spent f W H ss P (or_introl eq_refl) Bx) g b n reps vs ds st 1 Lb) as (pts & cs & Sh & Fa); auto.
  - intros l e El I. destruct Sb as (_ & _ & (es & Ee & -> & _) & _). rewrite Ee in El. injection El as <-. apply repeat_spec in I. subst e.
    split; [right; auto|lra].
  - intros e [->| ->] Le; [auto|lra].
  - lra.
  - exists vs, ds, st, pts, cs. auto.
Qed.

(** ** The window *)
Section Window.
Variables (order : list nat -> list nat) (far : nat).
Hypothesis Far : far = Z.to_nat 200000000.
Hypothesis Or : some_order order.

(** A window left alone since it was last drawn. *)
Definition kept (v : viewer) : Prop :=
  exists w s ids pic rs, history order w v s ids pic rs /\ st_esc s = 1 /\ st_selector s = None /\ st_iters s = far /\ st_min_energy s = 5 / 100.

Section Dish.
Variables (w : View.world) (a : nat) (ids : list nat) (objs : list obj) (ss : list surface) (colours : list vec) (b : bundle).
Hypothesis Wi : w_surfaces w a = ids.
Hypothesis Wo : w_objects w a = objs.
Hypothesis Nd : NoDup ids.
Hypothesis Ws : Forall2 (fun k s => w_surface w k = s /\ exists m, surf_mesh s 10 = Ok m) ids ss.
Hypothesis Wr : forall k, w_resolution w k = None.
Hypothesis Wt : forall k, w_opacity w k = None.
Hypothesis Wc : map (fun k => or_else (w_colour w k) (V3 (1 / 2) (1 / 2) (1 / 2))) ids = colours.
Hypothesis Dr : exists vs ds st pts cs, ray_tracer surface_ops objs ss (w_shared w) b far (5 / 100) TreeTrue = Ok (vs, ds, st) /\
    show_rays (t_tree st) 1 None = Ok (pts, cs) /\ faithful (t_tree st) (fun _ _ => True) 1 pts cs.

Lemma dish_surfaces : map (w_surface w) ids = ss.
Proof. generalize Ws. generalize ids ss. clear. intros is l F. induction F as [|k s ks ls (E & _) F IH]; cbn; [auto|]. f_equal; auto. Qed.
Lemma dish_portraits k : In k (w_surfaces w a) -> exists d, plain_portrait w k d.
Proof.
  rewrite Wi. intros I. apply In_nth_error in I as (i & Ei). destruct (nth_error ss i) as [s|] eqn:Es.
  2:{ apply nth_error_None in Es. assert (i < length ids)%nat by (apply nth_error_Some; congruence). pose proof (f2_length Ws). lia. }
  destruct (SurfaceProof.Forall2_at _ _ _ _ _ _ Ws Ei Es) as (<- & m & Em).
  eexists. unfold plain_portrait, portrait. exists m, 10, (or_else (w_colour w k) (V3 (1 / 2) (1 / 2) (1 / 2))), 1.
  split; [right; auto|]. split; [apply or_else_annotated|]. split; [right; auto|]. split; [exact Em|reflexivity].
Qed.
Lemma dish_pictures pic : (forall k, In k (w_surfaces w a) -> plain_portrait w k (pic k)) ->
  exists ms, Forall2 (fun s m => surf_mesh s 10 = Ok m) ss ms /\ map pic ids = map (fun mc => MeshOf (fst mc) (snd mc) 1) (combine ms colours).
Proof.
  rewrite Wi. rewrite <- Wc. generalize Ws Wr Wt. generalize ids ss. clear. intros is l F Wr Wt. induction F as [|k s ks ls (E & _) F IH]; intros Pp; [exists []; split; [constructor|reflexivity]|].
  destruct (IH (fun j I => Pp j (or_intror I))) as (ms & Fm & Em). clear IH.
  destruct (Pp k (or_introl eq_refl)) as (m & r & c & o & Ar & Ac & Ao & Es & Ed).
  apply annotated_or_else in Ar. apply annotated_or_else in Ac. apply annotated_or_else in Ao. rewrite Wr in Ar. rewrite Wt in Ao. cbn in Ar, Ao. subst.
  exists (m :: ms). split; [constructor; auto|]. cbn [map combine fst snd]. rewrite Em, Ed. reflexivity.
Qed.
Lemma dish_plot v : v_asm v = a -> v_source v = Some b -> v_esc v = 1 -> v_selector v = None -> v_iters v = far -> v_min_energy v = 5 / 100 ->
  exists v', plot_ray_trace w v = Ok v'.
Proof.
  intros E1 E2 E3 E4 E5 E6. unfold plot_ray_trace. rewrite E2. cbv zeta. set (u := match v_lines _ with Some h => _ | None => _ end).
  assert (U : v_asm u = a /\ v_esc u = 1 /\ v_selector u = None /\ v_iters u = far /\ v_min_energy u = 5 / 100).
  { unfold u. cbn [with_disabled v_lines]. destruct (v_lines v); (split; [exact E1|]); (split; [exact E3|]); (split; [exact E4|]); (split; [exact E5|]); exact E6. }
  destruct U as (-> & -> & -> & -> & ->). rewrite Wi, Wo, dish_surfaces.
  destruct Dr as (vs & ds & st & pts & cs & E & Sh & _). rewrite E. cbn [bind]. rewrite Sh. cbn [bind]. destruct (draw u (Lines pts cs)). eauto.
Qed.
Let set : settings := mkSet a (Some b) 1 None far (5 / 100).
Lemma dish_seen v pic d : history order w v set (each (w_surfaces w a)) pic [d] -> trace_picture w set b d ->
  (forall k, In k (w_surfaces w a) -> plain_portrait w k (pic k)) -> pictured objs ss colours (w_shared w) b far v /\ kept v.
Proof.
  intros H (vs & ds & st & pts & cs & E & Sh & ->) Pp. split.
  2:{ exists w, set, (each (w_surfaces w a)), pic, [Lines pts cs]. split; [exact H|]. unfold set. cbn [st_esc st_selector st_iters st_min_energy]. auto. }
  unfold set in E, Sh. cbn [st_asm st_iters st_min_energy st_esc st_selector] in E, Sh. rewrite Wi, Wo, dish_surfaces in E.
  destruct Dr as (vs' & ds' & st' & pts' & cs' & E' & Sh' & Fa). rewrite E' in E.
  assert (X : st' = st) by congruence. subst st'. rewrite Sh' in Sh. assert (X : pts' = pts) by congruence. assert (X' : cs' = cs) by congruence. subst pts' cs'.
  destruct (dish_pictures pic Pp) as (ms & Fm & Em). destruct (history_shows _ _ _ _ _ _ _ Or H) as ((_ & Pm & _) & _).
  exists ms, vs', ds', st, pts, cs. split; [exact Fm|]. split; [exact E'|]. split; [exact Fa|]. rewrite Wi in Pm. unfold each in Pm. rewrite (nodup_fixed_point _ Nd), Em in Pm. exact Pm.
Qed.

Lemma dish_opens : exists v, new_viewer order w a (Some b) 1 None = Ok v /\ pictured objs ss colours (w_shared w) b far v /\ kept v.
Proof.
  assert (X : exists v, new_viewer order w a (Some b) 1 None = Ok v).
  { unfold new_viewer. rewrite <- Far.
    destruct (set_assembly_spec order Or w a (mkV [] 0 a [] None (Some b) 1 None far (5 / 100) false) []) as (A & B);
      [constructor|intros x []|constructor|].
    destruct A as (v1 & E1); [apply dish_portraits|]. rewrite E1. cbn [bind].
    destruct (B v1 E1) as (pic1 & _ & _ & _ & _ & S1 & S2 & S3 & S4 & S5 & S6 & _).
    exact (dish_plot v1 S1 S2 S3 S4 S5 S6). }
  destruct X as (v & E). exists v. split; [exact E|]. pose proof E as E0.
  unfold new_viewer in E. rewrite <- Far in E. destruct (set_assembly _ _ _ _) as [v1|] eqn:E1; [|discriminate]. cbn [bind] in E.
  destruct (set_assembly_spec order Or w a (mkV [] 0 a [] None (Some b) 1 None far (5 / 100) false) []) as (_ & B);
    [constructor|intros x []|constructor|].
  destruct (B v1 E1) as (pic1 & T1 & C1 & K1 & P1 & S1 & S2 & S3 & S4 & S5 & S6 & Sl & Sd). cbn [v_source v_esc v_selector v_iters v_min_energy v_lines v_disabled] in *.
  assert (Tl1 : only_rays v1 []) by (unfold only_rays; rewrite Sl; reflexivity).
  destruct (plot_spec w _ _ _ _ T1 Tl1 E) as (ls' & T2 & Tl2 & R2 & _).
  assert (Hs1 : has_settings v1 set) by (split; [exact S1|]; split; [exact S2|]; split; [exact S3|]; split; [exact S4|]; split; [exact S5|exact S6]).
  rewrite (settings_eta _ _ Hs1) in R2. pose proof R2 as (d & Dt & Ed). apply (dish_seen v pic1 d); [|exact Dt|exact P1].
  unfold set. rewrite Far. apply h_new; [exact E0|exact P1|]. rewrite <- Far. exists d. split; [exact Dt|reflexivity].
Qed.

Lemma dish_replaced v : kept v -> exists v1 v2, set_assembly order w a (clear_scene v) = Ok v1 /\ set_source w (Some b) v1 = Ok v2 /\
  pictured objs ss colours (w_shared w) b far v2 /\ kept v2.
Proof.
  intros (w0 & s & ids0 & pic0 & rs & H0 & Se & Sl & Si & Sm).
  assert (H : history order w v s ids0 pic0 rs) by (eapply h_world; eauto).
  pose proof (history_fits _ _ _ _ _ _ _ Or H) as (ls & T & _ & _ & _ & _ & S & _).
  pose proof (clear_tracks v pic0 (tr_keys _ _ _ T)) as Tc. destruct (clear_spec v) as (Cd & _ & _ & Cl & Cs & _).
  destruct (set_assembly_spec order Or w a (clear_scene v) []) as (A & B).
  { apply (tr_handles _ _ _ Tc). } { apply (tr_below _ _ _ Tc). } { rewrite Cd. constructor. }
  destruct A as (v1 & E1); [apply dish_portraits|]. exists v1.
  destruct (B v1 E1) as (pic1 & T1 & C1 & K1 & P1 & S1 & S2 & S3 & S4 & S5 & S6 & Sl1 & Sd).
  pose proof (h_replace order w v v1 s ids0 pic0 pic1 rs a H E1 P1) as H1.
  pose proof (history_fits _ _ _ _ _ _ _ Or H1) as (_ & _ & _ & _ & _ & _ & (Q1 & Q2 & Q3 & Q4 & Q5 & Q6) & _).
  cbn [st_asm st_source st_esc st_selector st_iters st_min_energy] in Q1, Q2, Q3, Q4, Q5, Q6. rewrite Se in Q3. rewrite Sl in Q4. rewrite Si in Q5. rewrite Sm in Q6.
  destruct (dish_plot (with_source v1 (Some b)) Q1 eq_refl Q3 Q4 Q5 Q6) as (v2 & E2). exists v2. split; [exact E1|]. split; [exact E2|].
  assert (T0 : tracks (with_source v1 (Some b)) pic1 []) by (constructor; apply T1).
  assert (Tl0 : only_rays (with_source v1 (Some b)) []) by (unfold only_rays; cbn [with_source v_lines]; rewrite Sl1, Cl; reflexivity).
  destruct (plot_spec w _ _ _ _ T0 Tl0 E2) as (ls' & T2 & Tl2 & R2 & _).
  assert (Hs : has_settings (with_source v1 (Some b)) set).
  { split; [exact Q1|]. split; [reflexivity|]. split; [exact Q3|]. split; [exact Q4|]. split; [exact Q5|exact Q6]. }
  rewrite (settings_eta _ _ Hs) in R2. pose proof R2 as (d & Dt & Ed). apply (dish_seen v2 pic1 d); [|exact Dt|exact P1].
  eapply (h_source order w v1 v2 _ _ pic1 [] [d] (Some b) set H1 E2); [|exists d; split; [exact Dt|reflexivity]].
  unfold set. cbn [st_asm st_esc st_selector st_iters st_min_energy]. rewrite Se, Sl, Si, Sm. reflexivity.
Qed.
End Dish.

(** ** Making and showing dishes *)
Variables (limit n : nat).
Hypothesis L : (3 <= limit)%nat.
Hypothesis Hn : 5 / 100 < 1000 / INR n.

Lemma dish_window refl concent colour g sc : reached limit sc -> unpainted sc colour -> fair (g_rng g) -> feasible refl concent ->
  exists sc' r b colour' rnd', create_dish_source limit refl concent n colour (g_rng g) sc = (sc', Ok (r, b, colour', rnd')) /\
    reached limit sc' /\ unpainted sc' colour' /\
    let w := present limit sc' colour' (mkG rnd' (g_acc g)) in
    (exists v, new_viewer order w (hr_node r) (Some b) 1 None = Ok v /\ shows_dish limit refl concent n sc sc' (g_acc g) far v r b /\ kept v) /\
    forall v, kept v -> exists v1 v2, set_assembly order w (hr_node r) (clear_scene v) = Ok v1 /\ set_source w (Some b) v1 = Ok v2 /\
      shows_dish limit refl concent n sc sc' (g_acc g) far v2 r b /\ kept v2.
Proof.
  intros R Un Fr Fe. destruct (created limit refl concent n colour (g_rng g) sc R Un Fr L Fe)
    as (f & W & H & sc' & r & ls & s2 & ss & objs & b & colour' & rnd' & E & Ds & R' & Un' & Fr' & Sb & C & Nd & Wc & Gs & V & Bx & An & Kn & F2).
  exists sc', r, b, colour', rnd'. split; [exact E|]. split; [exact R'|]. split; [exact Un'|].
  intros w. set (ids := ls ++ [hr_rec r; s2; hr_main r]) in *.
  assert (Wi : w_surfaces w (hr_node r) = ids) by (unfold w, present; cbn [w_surfaces]; rewrite Gs; reflexivity).
  assert (Wo : w_objects w (hr_node r) = objs) by (unfold w, present; cbn [w_objects]; rewrite V; reflexivity).
  assert (Ws : Forall2 (fun k s => w_surface w k = s /\ exists m, surf_mesh s 10 = Ok m) ids ss).
  { clear - F2. subst w. induction F2 as [|k s ks l (Es & Em) F IH]; constructor; auto. split; [|exact Em]. unfold present. cbn [w_surface]. rewrite Es. reflexivity. }
  assert (Wr : forall k, w_resolution w k = None) by reflexivity. assert (Wt : forall k, w_opacity w k = None) by reflexivity.
  assert (Dr := dish_drawn f W H objs ss (w_shared w) b (f + H + 1 / 2) n far Hn Sb Bx An Kn).
  assert (Sh : forall v, pictured objs ss dish_colours (w_shared w) b far v -> shows_dish limit refl concent n sc sc' (g_acc g) far v r b).
  { intros v Pc. exists f, W, H, objs, ss, rnd'. split; [exact Ds|]. split; [exact C|]. split; [exact V|]. split; [exact Bx|]. split; [exact Sb|]. split; [exact Fr'|exact Pc]. }
  split.
  - destruct (dish_opens w (hr_node r) ids objs ss dish_colours b Wi Wo Nd Ws Wr Wt Wc Dr) as (v & Ev & Pc & K). exists v. split; [exact Ev|]. split; [apply Sh; exact Pc|exact K].
  - intros v K. destruct (dish_replaced w (hr_node r) ids objs ss dish_colours b Wi Wo Nd Ws Wr Wt Wc Dr v K) as (v1 & v2 & E1 & E2 & Pc & K2).
    exists v1, v2. split; [exact E1|]. split; [exact E2|]. split; [apply Sh; exact Pc|exact K2].
Qed.

Lemma open_cases refl concent colour g sc : reached limit sc -> unpainted sc colour -> fair (g_rng g) ->
  (feasible refl concent -> exists sc' v r b colour', open_dish limit order refl concent n colour g sc = (sc', Ok (v, r, b, colour')) /\
     shows_dish limit refl concent n sc sc' (g_acc g) far v r b /\ kept v /\ reached limit sc' /\ unpainted sc' colour') /\
  (~ feasible refl concent -> exists sc' e, open_dish limit order refl concent n colour g sc = (sc', Err e) /\ (e = ZeroDivisionError \/ e = ValueError)).
Proof.
  intros R Un Fr. split.
  - intros Fe. destruct (dish_window refl concent colour g sc R Un Fr Fe) as (sc' & r & b & colour' & rnd' & E & R' & Un' & (v & Ev & Sh & K) & _).
    exists sc', v, r, b, colour'. split; [|auto]. unfold open_dish. erewrite bbind_ok by exact E. cbv beta iota zeta. rewrite Ev. reflexivity.
  - intros Nf. destruct (uncreated limit refl concent n colour (g_rng g) sc R L Nf) as (sc' & e & E & He & _). exists sc', e. split; [|exact He].
    unfold open_dish, bbind. rewrite E. reflexivity.
Qed.
Lemma change_cases refl concent colour g v sc : reached limit sc -> unpainted sc colour -> fair (g_rng g) -> kept v ->
  (feasible refl concent -> exists sc' v' r b colour', recreate_dish limit order refl concent n colour g v sc = (sc', Ok (v', r, b, colour')) /\
     shows_dish limit refl concent n sc sc' (g_acc g) far v' r b /\ kept v' /\ reached limit sc' /\ unpainted sc' colour') /\
  (~ feasible refl concent -> exists sc' e, recreate_dish limit order refl concent n colour g v sc = (sc', Err e) /\ (e = ZeroDivisionError \/ e = ValueError) /\
     reached limit sc' /\ unpainted sc' colour).
Proof.
  intros R Un Fr K0. split.
  - intros Fe. destruct (dish_window refl concent colour g sc R Un Fr Fe) as (sc' & r & b & colour' & rnd' & E & R' & Un' & _ & X).
    destruct (X v K0) as (v1 & v2 & E1 & E2 & Sh & K). exists sc', v2, r, b, colour'. split; [|auto].
    unfold recreate_dish. erewrite bbind_ok by exact E. cbv beta iota zeta. rewrite E1. cbn [bind]. rewrite E2. reflexivity.
  - intros Nf. destruct (uncreated limit refl concent n colour (g_rng g) sc R L Nf) as (sc' & e & E & He & R' & Ex). exists sc', e. split; [|split; [exact He|split; [exact R'|]]].
    + unfold recreate_dish, bbind. rewrite E. reflexivity.
    + intros k Nk. apply Un. intros Ek. apply Nk, Ex, Ek.
Qed.

Lemma feasible_dec refl concent : feasible refl concent \/ ~ feasible refl concent.
Proof.
  unfold feasible. destruct (Rlt_dec 0 concent), (Rlt_dec (-1) refl), (Rlt_dec ((refl + 1) * (1 / 2 * sqrt (PI / concent))) 1); tauto.
Qed.
Lemma played_kept sc v colour : dish_played limit order n sc v colour ->
  reached limit sc /\ unpainted sc colour /\ kept v /\
  exists refl concent sc0 sc1 acc r b, feasible refl concent /\ shows_dish limit refl concent n sc0 sc1 acc far v r b.
Proof.
  intros P. induction P as [refl concent colour g sc sc' v r b colour' R Un Fr E|refl concent colour g sc sc' v v' r b colour' P (R & Un & K & _) Fr E
    |refl concent colour g sc sc' v e P (R & Un & K & X) Fr E].
  - destruct (open_cases refl concent colour g sc R Un Fr) as (A & B). destruct (feasible_dec refl concent) as [Fe|Nf].
    + destruct (A Fe) as (sc2 & v2 & r2 & b2 & c2 & E2 & Sh & K & R2 & U2). rewrite E in E2. injection E2 as <- <- <- <- <-.
      split; [exact R2|]. split; [exact U2|]. split; [exact K|]. exists refl, concent, sc, sc', (g_acc g), r, b. auto.
    + destruct (B Nf) as (sc2 & e & E2 & _). rewrite E in E2. discriminate.
  - destruct (change_cases refl concent colour g v sc R Un Fr K) as (A & B). destruct (feasible_dec refl concent) as [Fe|Nf].
    + destruct (A Fe) as (sc2 & v2 & r2 & b2 & c2 & E2 & Sh & K2 & R2 & U2). rewrite E in E2. injection E2 as <- <- <- <- <-.
      split; [exact R2|]. split; [exact U2|]. split; [exact K2|]. exists refl, concent, sc, sc', (g_acc g), r, b. auto.
    + destruct (B Nf) as (sc2 & e & E2 & _). rewrite E in E2. discriminate.
  - destruct (change_cases refl concent colour g v sc R Un Fr K) as (A & B). destruct (feasible_dec refl concent) as [Fe|Nf].
    + destruct (A Fe) as (sc2 & v2 & r2 & b2 & c2 & E2 & _). rewrite E in E2. discriminate.
    + destruct (B Nf) as (sc2 & e2 & E2 & _ & R2 & U2). rewrite E in E2. injection E2 as <- <-. auto.
Qed.
End Window.

(** ** Altogether *)

Theorem dish_opened limit order refl concent n colour g sc : reached limit sc -> (3 <= limit)%nat -> some_order order -> 5 / 100 < 1000 / INR n ->
  unpainted sc colour -> fair (g_rng g) ->
  (feasible refl concent -> exists sc' v r b colour', open_dish limit order refl concent n colour g sc = (sc', Ok (v, r, b, colour')) /\
     shows_dish limit refl concent n sc sc' (g_acc g) (Z.to_nat 200000000) v r b) /\
  (~ feasible refl concent -> exists sc' e, open_dish limit order refl concent n colour g sc = (sc', Err e) /\ (e = ZeroDivisionError \/ e = ValueError)).
Proof.
  intros R L O Hn Un Fr. set (far := Z.to_nat 200000000). assert (Far : far = Z.to_nat 200000000) by reflexivity. clearbody far.
  destruct (open_cases order far Far O limit n L Hn refl concent colour g sc R Un Fr) as (A & B). split; [|exact B].
  intros Fe. destruct (A Fe) as (sc' & v & r & b & c & E & Sh & _). exists sc', v, r, b, c. auto.
Qed.
Theorem dish_changed limit order refl concent n colour g sc v : dish_played limit order n sc v colour -> (3 <= limit)%nat -> some_order order -> 5 / 100 < 1000 / INR n ->
  fair (g_rng g) ->
  (feasible refl concent -> exists sc' v' r b colour', recreate_dish limit order refl concent n colour g v sc = (sc', Ok (v', r, b, colour')) /\
     shows_dish limit refl concent n sc sc' (g_acc g) (Z.to_nat 200000000) v' r b) /\
  (~ feasible refl concent -> exists sc' e, recreate_dish limit order refl concent n colour g v sc = (sc', Err e) /\ (e = ZeroDivisionError \/ e = ValueError)).
Proof.
  intros P L O Hn Fr. set (far := Z.to_nat 200000000). assert (Far : far = Z.to_nat 200000000) by reflexivity. clearbody far.
  destruct (played_kept order far Far O limit n L Hn sc v colour P) as (R & Un & K & _).
  destruct (change_cases order far Far O limit n L Hn refl concent colour g v sc R Un Fr K) as (A & B). split.
  - intros Fe. destruct (A Fe) as (sc' & v' & r & b & c & E & Sh & _). exists sc', v', r, b, c. auto.
  - intros Nf. destruct (B Nf) as (sc' & e & E & He & _). exists sc', e. auto.
Qed.
Theorem dish_always limit order n sc v colour : dish_played limit order n sc v colour -> (3 <= limit)%nat -> some_order order -> 5 / 100 < 1000 / INR n ->
  exists refl concent sc0 sc1 acc r b, feasible refl concent /\ shows_dish limit refl concent n sc0 sc1 acc (Z.to_nat 200000000) v r b.
Proof.
  intros P L O Hn. set (far := Z.to_nat 200000000). assert (Far : far = Z.to_nat 200000000) by reflexivity. clearbody far.
  apply (played_kept order far Far O limit n L Hn sc v colour P).
Qed.

(** Cases. *)
Lemma default_feasible : feasible 1 450 /\ 5 / 100 < 1000 / INR 1000.
Proof.
  split; [|replace (INR 1000) with 1000 by (rewrite INR_IZR_INZ; reflexivity); lra].
  split; [lra|]. split; [lra|]. pose proof PI_4. pose proof PI_RGT_0. assert (Q : sqrt (PI / 450) < 1); [|lra].
  apply (Rlt_le_trans _ (sqrt 1)); [apply sqrt_lt_1; lra|rewrite sqrt_1; lra].
Qed.
Lemma many_images : ~ feasible 30 450.
Proof.
  intros (_ & _ & L). pose proof PI2_3_2 as P. unfold PI2 in P. assert (Q : sqrt (1 / 225) <= sqrt (PI / 450)) by (apply sqrt_le_1; lra).
  replace (1 / 225) with (1 / 15 * (1 / 15)) in Q by field. rewrite sqrt_square in Q by lra. lra.
Qed.
Lemma no_concentration refl : ~ feasible refl 0. Proof. intros (X & _). lra. Qed.
Lemma feasible_design refl concent : feasible refl concent <-> exists f W H, design refl concent f W H.
Proof.
  split.
  - intros Fe. destruct (design_measures refl concent Fe) as (f & W & H & _ & D). eauto.
  - intros (f & W & H & Hf & _ & HW & EW & HH & EH). pose proof PI_RGT_0 as HP.
    assert (HC : 0 < concent). { destruct (Rlt_dec 0 concent); auto. exfalso. assert (W * W * concent <= 0) by nra. lra. }
    assert (Wd : W = 1 / 2 * sqrt (PI / concent)).
    { assert (Q : PI / concent = (2 * W) * (2 * W)) by (apply (Rmult_eq_reg_r concent); [unfold Rdiv; rewrite Rmult_assoc, Rinv_l; lra|lra]).
      rewrite Q, sqrt_square; lra. }
    split; [exact HC|]. rewrite <- Wd. assert (Hm : 0 < (refl + 1) * W) by nra. split; nra.
Qed.
Lemma played_example : exists sc v colour sc' e, dish_played 5 (fun l => l) 1000 sc v colour /\
  recreate_dish 5 (fun l => l) 30 450 1000 colour (mkG TestCaseTop.case_numbers (fun _ => mkAcc [] [])) v sc = (sc', Err e) /\
  dish_played 5 (fun l => l) 1000 sc' v colour.
Proof.
  assert (O : some_order (fun l => l)) by (intros l; apply Permutation_refl). destruct default_feasible as (Fe & Ne).
  set (g := mkG TestCaseTop.case_numbers (fun _ => mkAcc [] [])). assert (Fr : fair (g_rng g)) by exact TestCaseTop.case_fair.
  destruct (dish_opened 5 (fun l => l) 1 450 1000 (fun _ => None) g ModelExamples.start (ModelExamples.start_reached 5) ltac:(lia) O Ne (fun _ _ => eq_refl) Fr) as (A & _).
  destruct (A Fe) as (sc & v & r & b & colour & E & _).
  assert (P : dish_played 5 (fun l => l) 1000 sc v colour) by exact (dp_open _ _ _ 1 450 (fun _ => None) g ModelExamples.start sc v r b colour (ModelExamples.start_reached 5) (fun _ _ => eq_refl) Fr E).
  destruct (dish_changed 5 (fun l => l) 30 450 1000 colour g sc v P ltac:(lia) O Ne Fr) as (_ & B). destruct (B many_images) as (sc' & e & E' & _).
  exists sc, v, colour, sc', e. split; [exact P|]. split; [exact E'|]. exact (dp_refused _ _ _ 30 450 colour g sc sc' v e P Fr E').
Qed.
