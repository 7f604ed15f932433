(** Moving the homogenizer of a collector moves the receiver: they have one transform. *)
From Coq Require Import Reals List Arith Bool Lia Lra.
From Verif.Base Require Import Py Num Vec.
From Verif.Model Require Import RayBundle Spatial Geometry TraceTree Engine Objects OpticsCallables Surface Assembly Scene Models.
From Verif.Proof Require Import NumLemmas VecLemmas SpatialProof FlatProof FrameProof FrameHistory PlaceProof PlaceTop FrameTop ConstructProof ConstructTop
  GrowProof ListLemmas ViewProof SceneProof ActProof ModelProof ModelTop ReceiverProof ReceiverTop.
From Verif.Spec Require Import BundleSpec EngineSpec LibrarySpec GeometrySpec OpticsSpec FrameSpec SceneSpec ModelSpec.
Import ListNotations.

Lemma ref_node w n r : tr_ref w n = Some r -> exists x, w_node w n = Some x /\ f_tr (n_fr x) = r.
Proof. unfold tr_ref. destruct (w_node w n) as [x|]; [|discriminate]. intros E. injection E as <-. eauto. Qed.
Lemma transform_ref w n r : tr_ref w n = Some r -> transform_of w n = match read w r with A44 m => Some m | _ => None end.
Proof. intros H. destruct (ref_node _ _ _ H) as (x & E & <-). unfold transform_of. rewrite E. reflexivity. Qed.

Lemma reframe_pinv w n x b c m v : inv w -> w_node w n = Some x -> f_tr (n_fr x) = Whole b -> w_arr w b = A44 m -> c < w_next w -> w_arr w c = A3 v ->
  pinv (reframe w n x (mkF (Whole b) (Whole c) (f_rot (n_fr x)) (f_temp (n_fr x))) b (with_loc m v)).
Proof.
  intros I Ex Ef Eb Lc Ec. pose proof I as (A & _). assert (Nc : c <> b) by (intros ->; congruence).
  intros j y Ey. cbn [reframe w_node w_arr w_next] in *. unfold upd in Ey. destruct (Nat.eqb_spec j n) as [->|J].
  - injection Ey as <-. cbn [n_fr f_tr f_loc f_rot f_temp n_kind]. destruct (inv_pinv w I n x Ex) as ((a & m' & Ha & La & _) & _ & _ & Br & Tx).
    rewrite Ha in Ef. injection Ef as ->. split; [exists b, (with_loc m v); split; [reflexivity|]; split; [exact La|]; apply upd_same|].
    split; [exists v; cbn; rewrite upd_other by auto; exact Ec|]. split; [exact Lc|]. split; [exact Br|]. exact Tx.
  - destruct (A j y Ey) as (_ & (a & m' & Ha & La & Ea & Hl & _) & Ty). destruct (inv_pinv w I j y Ey) as (_ & _ & Bl & Br & _).
    split; [|split; [|split; [exact Bl|split; [exact Br|exact Ty]]]].
    + destruct (Nat.eq_dec a b) as [->|N]; [exists b, (with_loc m v)|exists a, m']; (split; [exact Ha|]; split; [exact La|]); [apply upd_same|rewrite upd_other by auto; exact Ea].
    + destruct Hl as [->|(d & -> & Ld & Ed)]; cbn [reframe read w_arr].
      * destruct (Nat.eq_dec a b) as [->|N]; [rewrite upd_same|rewrite upd_other by auto; rewrite Ea]; eauto.
      * rewrite upd_other by congruence. eauto.
Qed.

Lemma quiet_ok_trans' a b c : quiet_ok a b -> quiet_ok b c -> quiet_ok a c.
Proof.
  intros (Q1 & T1) (Q2 & T2). split; [eapply quiet_trans; eauto|]. intros n x' E H. apply (T2 n x' E). intros y Ey. apply (T1 n y Ey H).
Qed.

Section Receiver.
Variables (limit main : nat) (pm : part) (pos X Y dp eff : R) (sc sc' : scene) (r : receiver) (ls : list nat) (s2 n1 rn b : nat).
Hypothesis R' : reached limit sc'.
Hypothesis A : is_assembly sc' (hr_node r) (receiver_desc (sc_acc sc) pm pos X Y dp eff) (ls ++ [hr_rec r; s2; main]).
Hypothesis ND : NoDup (ls ++ [hr_rec r; s2; main]).
Hypothesis Kt : kind_of (sc_w sc') (hr_node r) = Some (KAsm [n1; rn] [hr_hom r]).
Hypothesis K1 : kind_of (sc_w sc') n1 = Some (KObj [hr_rec r; s2] []).
Hypothesis Kr : kind_of (sc_w sc') rn = Some (KObj [main] []).
Hypothesis Ah : is_assembly sc' (hr_hom r) (mkA (receiver_frame pos) (walls X Y dp eff) []) ls.
Hypothesis T1 : transform_of (sc_w sc') n1 = Some (receiver_frame pos).
Hypothesis N1 : n1 <> hr_hom r.
Hypothesis B1 : tr_ref (sc_w sc') n1 = Some (Whole b).
Hypothesis Bh : tr_ref (sc_w sc') (hr_hom r) = Some (Whole b).
Hypothesis Bo : forall j, j <> n1 -> j <> hr_hom r -> tr_ref (sc_w sc') j <> Some (Whole b).
Hypothesis L : 3 <= limit.
Let F := receiver_frame pos.

Lemma top_transform : transform_of (sc_w sc') (hr_node r) = Some id4.
Proof. inversion A; subst. auto. Qed.
Lemma hom_kind : exists os ms, kind_of (sc_w sc') (hr_hom r) = Some (KAsm os ms).
Proof. inversion Ah as [n t os ms ods mds oss mss K T O M En Ed El]. eauto. Qed.
Lemma rec_part : is_part sc' (hr_rec r) (mkPart (RectPlate (X / 2) (Y / 2)) (Accountant (sc_acc sc) (Reflective 1)) id4).
Proof.
  inversion A as [n t os ms ods mds oss mss K T O M En Ed El]; subst. rewrite Kt in K. injection K as <- <-.
  inversion O as [|? ? ? ? ? ? O1 _]; subst. destruct O1 as (K' & _ & _ & P). rewrite K1 in K'. injection K' as <-.
  inversion P as [|? ? ? ? P1 _]; subst. exact P1.
Qed.

(** Paths from the collector to the receiver, when kinds are as they were. *)
Lemma only_path w T : (forall j, kind_of w j = kind_of (sc_w sc') j) -> path w (hr_node r) (hr_rec r) T ->
  exists Tt Tr, transform_of w (hr_node r) = Some Tt /\ transform_of w n1 = Some Tr /\ T = mm4 Tt Tr.
Proof.
  intros K P. pose proof (reached_inv _ _ R') as I.
  assert (Nin : ~ In (hr_rec r) ls /\ hr_rec r <> main).
  { apply NoDup_remove in ND as (_ & N). rewrite in_app_iff in N. split; [tauto|]. intros E. apply N. right. right. left. auto. }
  inversion P as [n l ss bs T0 Kn _ _|n c l os ms T0 T' Kn Hc Tn Pc]; subst; rewrite K, Kt in Kn; [discriminate|]. injection Kn as <- <-.
  exists T0. destruct Hc as [<-|[<-|[<-|[]]]].
  - inversion Pc as [n l ss bs T1' Kc _ Tc|n d l os ms T1' T2 Kc]; subst; rewrite K, K1 in Kc; [|discriminate]. eauto.
  - exfalso. destruct (path_kinds w (sc_w sc') rn (hr_rec r) T' (fun j => eq_sym (K j)) I Pc) as (T2 & P2).
    inversion P2 as [n l ss bs T3 Kc Hl _|n d l os ms T3 T4 Kc]; subst; rewrite Kr in Kc; [|discriminate]. injection Kc as <- <-.
    destruct Hl as [E|[]]. apply (proj2 Nin). auto.
  - exfalso. destruct (path_kinds w (sc_w sc') _ (hr_rec r) T' (fun j => eq_sym (K j)) I Pc) as (T2 & P2).
    apply (proj1 Nin). eapply path_leaf; eauto.
Qed.

Lemma moved_along v : exists sc2, (q <+ literal (A3 v) ;+ put_location limit (hr_hom r) q) sc' = (sc2, Ok tt) /\
  forall T, exists w3, transform_children limit (hr_node r) T (sc_w sc2) = (w3, Ok tt) /\
    global_frame w3 (hr_rec r) = Some (mm4 T (with_loc F v)).
Proof.
  destruct (literal_step limit (A3 v) sc' R') as (sc1 & E1 & S1 & V1 & Nx1 & Nd1 & Z1 & _). bstep. set (c := w_next (sc_w sc')) in *.
  pose proof (reached_inv _ _ R') as I'. pose proof (reached_inv _ _ (st_reached _ _ _ _ S1)) as I1.
  destruct (ref_node _ _ _ Bh) as (xh & Eh & Fh).
  assert (Eh1 : w_node (sc_w sc1) (hr_hom r) = Some xh) by (rewrite Nd1; exact Eh).
  assert (Eb : w_arr (sc_w sc') b = A44 F /\ b < c).
  { pose proof (transform_ref _ _ _ B1) as Et. rewrite T1 in Et. cbn [read] in Et. destruct (w_arr (sc_w sc') b); try discriminate. injection Et as Et.
    split; [unfold F; rewrite Et; reflexivity|]. destruct (inv_pinv _ I' _ _ Eh) as ((a & m0 & Ha & La & _) & _). rewrite Fh in Ha. injection Ha as ->. exact La. }
  destruct Eb as (Eb & Lb).
  assert (Eb1 : w_arr (sc_w sc1) b = A44 F). { destruct (st_grown _ _ _ _ S1) as ((_ & Ar & _) & _). rewrite Ar; auto. }
  pose proof (frame_set_location_eq (sc_w sc1) _ xh b F (Whole c) v Eh1 Fh Eb1 V1) as Es.
  set (w1 := reframe _ _ _ _ _ _) in Es.
  assert (P1 : pinv w1) by (apply reframe_pinv; auto; lia).
  assert (Kw : forall j, kind_of w1 j = kind_of (sc_w sc') j).
  { intros j. unfold w1, reframe, kind_of. cbn [w_node]. unfold upd. destruct (Nat.eqb_spec j (hr_hom r)) as [->|J]; [rewrite Eh|rewrite Nd1]; reflexivity. }
  assert (Bu : forall d n, built (sc_w sc') d n -> built w1 d n) by (apply built_same; exact Kw).
  assert (Bt : built w1 limit (hr_node r)).
  { apply Bu. eapply built_up; [eapply assembly_built; exact A|]. unfold receiver_desc. cbn. lia. }
  assert (Bm : built w1 limit (hr_hom r)).
  { apply Bu. eapply built_up; [eapply assembly_built; exact Ah|]. cbn. lia. }
  destruct (transform_children limit (hr_hom r) id4 w1) as [w2 o2] eqn:Ec.
  pose proof (proj2 (transform_children_succeeds_p limit (hr_hom r) id4 w1 P1) Bm) as So. rewrite Ec in So. cbn in So. subst o2.
  pose proof (transform_children_ok _ _ _ _ _ _ Ec) as Q2.
  pose proof (quiet_pinv _ _ Q2 P1) as P2.
  assert (El : put_location limit (hr_hom r) (Whole c) sc1 = (mkSc w2 (sc_geom sc1) (sc_opt sc1) (sc_sided sc1) (sc_acc sc1) (sc_junk sc1), Ok tt)).
  { unfold put_location. apply frames_ok. unfold set_location, then_children. erewrite mbind_ok by (unfold get_node; rewrite Eh1; reflexivity).
    assert (Kh : is_leaf (n_kind xh) = false).
    { destruct hom_kind as (os & ms & Xk). unfold kind_of in Xk. rewrite Eh in Xk. injection Xk as ->. reflexivity. }
    rewrite Kh. erewrite mthen_ok by exact Es. exact Ec. }
  eexists. split; [exact El|]. cbn [sc_w]. intros T.
  assert (Sm : forall j, same_node w1 w2 j) by (intros j; apply quiet_same_pinv; [apply Q2|exact P1]).
  assert (K2 : forall j, kind_of w2 j = kind_of (sc_w sc') j) by (intros j; destruct (Sm j) as (-> & _); apply Kw).
  assert (Bt2 : built w2 limit (hr_node r)) by (eapply built_same; [|exact Bt]; intros j; apply (Sm j)).
  destruct (transform_children limit (hr_node r) T w2) as [w3 o3] eqn:Et.
  pose proof (proj2 (transform_children_succeeds_p limit (hr_node r) T w2 P2) Bt2) as So. rewrite Et in So. cbn in So. subst o3.
  exists w3. split; [reflexivity|].
  destruct (transform_children_effect_p limit _ T w2 w3 P2 Et) as (Q3 & Ef).
  assert (Tn1 : transform_of w2 n1 = Some (with_loc F v)).
  { destruct (Sm n1) as (_ & -> & _). assert (B' : tr_ref w1 n1 = Some (Whole b)).
    { unfold w1, reframe, tr_ref. cbn [w_node]. rewrite upd_other by auto. rewrite Nd1. exact B1. }
    rewrite (transform_ref _ _ _ B'). unfold w1, reframe. cbn [read w_arr]. rewrite upd_same. reflexivity. }
  assert (Keep : forall j m, j <> n1 -> j <> hr_hom r -> transform_of (sc_w sc') j = Some m -> transform_of w2 j = Some m).
  { intros j m J1 J2 Ej. destruct (Sm j) as (_ & -> & _). unfold transform_of in *. unfold w1, reframe. cbn [w_node]. rewrite upd_other by auto. rewrite Nd1.
    destruct (w_node (sc_w sc') j) as [y|] eqn:Ey; [|discriminate]. destruct (inv_pinv _ I' _ _ Ey) as ((a & m' & Ha & La & Ea) & _).
    rewrite Ha in *. cbn [read] in *. cbn [w_arr]. assert (a <> b). { intros ->. apply (Bo j J1 J2). unfold tr_ref. rewrite Ey. cbn. congruence. }
    rewrite upd_other by auto. destruct (st_grown _ _ _ _ S1) as ((_ & Ar & _) & _). rewrite Ar by auto. exact Ej. }
  assert (Nt : hr_node r <> n1) by (intros E; rewrite E, K1 in Kt; discriminate).
  assert (Nth : hr_node r <> hr_hom r).
  { intros E. pose proof (proj2 (assembly_fun sc' _ _ _ A _ _ ltac:(rewrite E; exact Ah))) as Xl. apply (f_equal (@length nat)) in Xl. rewrite app_length in Xl. cbn in Xl. lia. }
  pose proof (Keep _ _ Nt Nth top_transform) as Tt2.
  destruct rec_part as (Kp & Tp & _). cbn [p_own] in Tp.
  assert (Nr1 : hr_rec r <> n1) by (intros E; rewrite E, K1 in Kp; discriminate).
  assert (Nrh : hr_rec r <> hr_hom r).
  { intros E. destruct hom_kind as (os & ms & Xk). rewrite <- E, Kp in Xk. discriminate. }
  pose proof (Keep _ _ Nr1 Nrh Tp) as Tr2.
  assert (Pt : path w2 (hr_node r) (hr_rec r) (mm4 id4 (with_loc F v))).
  { eapply path_asm; [rewrite K2; exact Kt|left; reflexivity|exact Tt2|]. eapply path_obj; [rewrite K2; exact K1|left; reflexivity|exact Tn1]. }
  destruct (Ef (hr_rec r)) as [(P & (T' & Pp & ->) & Pl)|(No & _)]; [|exfalso; eapply No; eauto].
  destruct (only_path w2 T' K2 Pp) as (Tt & Tr & E & E' & ->). rewrite Tt2 in E. injection E as <-. rewrite Tn1 in E'. injection E' as <-.
  unfold placed_by in Pl. assert (S3 : same_node w2 w3 (hr_rec r)) by (apply quiet_same_pinv; [apply Q3|exact P2]). destruct S3 as (K3 & T3 & _).
  rewrite K3, K2, Kp in Pl. destruct Pl as (m & Em & Ea). rewrite T3, Tr2 in Em. injection Em as <-.
  unfold global_frame. rewrite Ea, mm4_id_l, mm4_id_r. reflexivity.
Qed.
End Receiver.

Theorem receiver_moved_along limit main pm pos X Y H eff sc : reached limit sc -> is_part sc main pm ->
  (0 < X)%R -> (0 < Y)%R -> (0 < H)%R -> 3 <= limit ->
  exists sc' r, homogenized_receiver limit main pos (X, Y) H eff sc = (sc', Ok r) /\
    global_frame (sc_w sc') (hr_rec r) = Some (receiver_frame pos) /\
    forall v, exists sc2 F, (q <+ literal (A3 v) ;+ put_location limit (hr_hom r) q) sc' = (sc2, Ok tt) /\ moved_to v (receiver_frame pos) F /\
      forall T, exists w3, transform_children limit (hr_node r) T (sc_w sc2) = (w3, Ok tt) /\ global_frame w3 (hr_rec r) = Some (mm4 T F).
Proof.
  intros R Pm HX HY HH L.
  destruct (homogenized_step limit main pm pos X Y H eff sc R Pm HX HY HH L) as (sc' & r & ls & s2 & E & S & A & ND & N & W & _ & _ & _ & n1 & rn & b &
    Kt & K1 & Kr & Ah & T1 & N1 & B1 & Bh & Bo).
  pose proof (st_reached _ _ _ _ S) as R'.
  exists sc', r. split; [exact E|]. split.
  - pose proof (rec_part main pm pos X Y H eff sc sc' r ls s2 n1 rn A Kt K1) as (Kp & Tp & _). cbn [p_own] in Tp.
    pose proof (top_transform _ _ _ _ _ _ _ _ _ _ _ _ A) as Tt.
    assert (Pt : path (sc_w sc') (hr_node r) (hr_rec r) (mm4 id4 (receiver_frame pos))).
    { eapply path_asm; [exact Kt|left; reflexivity|exact Tt|]. eapply path_obj; [exact K1|left; reflexivity|exact T1]. }
    destruct (W (hr_rec r)) as (T & PT & Pl); [eauto|].
    destruct (only_path limit main pos X Y H eff sc' r ls s2 n1 rn R' ND Kt K1 Kr Ah (sc_w sc') T (fun _ => eq_refl) PT) as (Tt' & Tr & E1 & E2 & ->).
    rewrite Tt in E1. injection E1 as <-. rewrite T1 in E2. injection E2 as <-. unfold placed_by in Pl. rewrite Kp in Pl.
    destruct Pl as (m & Em & Ea). rewrite Tp in Em. injection Em as <-. unfold global_frame. rewrite Ea, mm4_id_l, mm4_id_r. reflexivity.
  - intros v. destruct (moved_along limit main pm pos X Y H eff sc sc' r ls s2 n1 rn b R' A ND Kt K1 Kr Ah T1 N1 B1 Bh Bo L v) as (sc2 & E2 & M).
    exists sc2, (with_loc (receiver_frame pos) v). split; [exact E2|]. split; [apply with_loc_moved|exact M].
Qed.

Lemma minidish_moved_along limit D f eff pos side H heff aspect sc : reached limit sc -> (0 < f)%R -> (0 < side)%R -> (0 < aspect)%R -> (0 < H)%R -> 3 <= limit ->
  exists sc' r, minidish limit D f eff pos side H heff aspect sc = (sc', Ok r) /\
    global_frame (sc_w sc') (hr_rec r) = Some (receiver_frame pos) /\
    forall v, exists sc2 F, (q <+ literal (A3 v) ;+ put_location limit (hr_hom r) q) sc' = (sc2, Ok tt) /\ moved_to v (receiver_frame pos) F /\
      forall T, exists w3, transform_children limit (hr_node r) T (sc_w sc2) = (w3, Ok tt) /\ global_frame w3 (hr_rec r) = Some (mm4 T F).
Proof.
  intros R Hf Hs Ha HH L. unfold minidish. destruct (proj2 (GeomCases.dish_accepted D f) Hf) as (g & Eg).
  erewrite bbind_ok by (apply calc_ok; exact Eg).
  destruct (reflector_step limit g (Absorbing (Reflective (1 - eff))) sc R) as (sc1 & E1 & S1 & P1). bstep.
  exact (receiver_moved_along limit _ _ pos side (side * aspect) H heff sc1 (st_reached _ _ _ _ S1) P1 Hs (Rmult_lt_0_compat _ _ Hs Ha) HH L).
Qed.
