(** What receivers have on record after a trace. *)
From Coq Require Import Reals List Arith Bool Sorted Lia Lra.
From Verif.Base Require Import Py Num Vec.
From Verif.Model Require Import RayBundle Geometry OpticsCallables Engine Objects Surface.
From Verif.Proof Require Import ListLemmas BundleProof ProcessProof CallProof SurfaceProof LibraryTop TraceTop.
From Verif.Proof Require ModelTop ObjectProof.
From Verif.Spec Require Import BundleSpec EngineSpec GeometrySpec GeomIface OpticsSpec LibrarySpec AccountSpec.
Import ListNotations.

(** ** One call *)
Lemma upd_same {A} (f : nat -> A) k v : upd f k v k = v.
Proof. unfold upd. rewrite Nat.eqb_refl. auto. Qed.
Lemma upd_other {A} (f : nat -> A) k v j : j <> k -> upd f k v j = f j.
Proof. unfold upd. intros H. apply Nat.eqb_neq in H. rewrite H. auto. Qed.

Lemma account_other opt gs b sel g o g1 id : call_optics opt gs b sel g = Ok (o, g1) ->
  (forall ab, opt <> Accountant id ab) -> g_acc g1 id = g_acc g id.
Proof.
  intros E N. destruct opt as [ab|id' ab|i1 i2]; cbn [call_optics] in E.
  - apply bind_ok in E as ([r rg] & _ & E). injection E as <- <-. reflexivity.
  - apply bind_ok in E as (acc & _ & E). apply bind_ok in E as ([r rg] & _ & E). injection E as <- <-.
    cbn [g_acc]. apply upd_other. intros ->. apply (N ab). reflexivity.
  - apply bind_ok in E as (r & _ & E). injection E as <- <-. reflexivity.
Qed.

Lemma account_same id ab gs b sel g o g1 pts es es' : call_optics (Accountant id ab) gs b sel g = Ok (o, g1) ->
  get_points gs = Ok pts -> b_energy b = Some es -> picks es sel es' ->
  g_acc g1 id = mkAcc (a_absorbed (g_acc g id) ++ [map (fun e => e * absorptivity ab)%R es']) (a_hits (g_acc g id) ++ [pts]).
Proof.
  intros E Gp He P. cbn [call_optics] in E. unfold record_hits, get_energy, get_prop in E. rewrite He in E. cbn [select bind] in E.
  rewrite (proj2 (take_ok es sel es') P) in E. cbn [bind] in E. rewrite Gp in E. cbn [bind] in E.
  apply bind_ok in E as ([r rg] & _ & E). injection E as <- <-. cbn [g_acc]. apply upd_same.
Qed.

(** ** One surface in one iteration *)
Lemma emission_other b n T i s hits g o g1 id : emission surface_ops b n T i s hits g o g1 ->
  (forall ab, s_opt s <> Accountant id ab) -> g_acc g1 id = g_acc g id.
Proof.
  intros (sub & ps & s1 & idx & s2 & o0 & q & q' & _ & _ & Rg & _ & _ & Sl & Og & _) N.
  cbn [surface_ops register_incoming select_rays get_outgoing] in *.
  apply register_inv in Rg as (gs & _ & ->). apply select_inv in Sl as (gs2 & _ & ->).
  unfold surf_outgoing in Og. cbn [s_geom s_opt s_frame s_gstate s_bundle s_selected] in *.
  eapply account_other; eauto.
Qed.

Lemma emission_noted b n T i s hits g o g1 id ab : traceable b n -> rigid (s_frame s) ->
  emission surface_ops b n T i s hits g o g1 -> s_opt s = Accountant id ab ->
  (forall j, In j hits -> exists t, T i j = Some (Fin t)) ->
  exists l, g_acc g1 id = mkAcc (a_absorbed (g_acc g id) ++ [map fst l]) (a_hits (g_acc g id) ++ [map snd l]) /\
    Forall2 (fun j h => exists t e v d, T i j = Some (Fin t) /\ energy_at b j = Some e /\ vert_at b j = Some v /\
      dir_at b j = Some d /\ h = ((e * absorptivity ab)%R, vadd v (vscale t d))) hits l.
Proof.
  intros Tb Hf (sub & ps & s1 & idx & s2 & o0 & q & q' & Nm & Hsub & Rg & Hps & Hidx & Sl & Og & _) Ho Hh.
  cbn [surface_ops register_incoming select_rays get_outgoing] in *.
  pose proof (picked_traceable b _ sub n Tb Nm Hsub) as Ts.
  apply register_inv in Rg as (gs & F & ->). apply select_inv in Sl as (gs2 & Sg & ->).
  unfold surf_outgoing in Og. cbn [s_geom s_opt s_frame s_gstate s_bundle s_selected] in *.
  assert (Lh : length hits = length idx) by (eapply picks_length; eauto).
  assert (Hj : forall k i0 j, nth_error idx k = Some i0 -> nth_error hits k = Some j -> nth_error (asked T n i) i0 = Some j).
  { intros k i0 j. apply (Forall2_at _ _ _ k i0 j Hidx). }
  assert (Hp : forall i0 j t, nth_error (asked T n i) i0 = Some j -> T i j = Some (Fin t) -> nth_error ps i0 = Some (Fin t)).
  { intros i0 j t A B. destruct (nth_error ps i0) as [x|] eqn:Ex.
    - pose proof (Forall2_at _ _ _ _ _ _ Hps A Ex). congruence.
    - apply nth_error_None in Ex. rewrite <- (proj1 (proj1 (Forall2_nth _ _ _) Hps)) in Ex.
      assert (i0 < length (asked T n i)) by (apply nth_error_Some; congruence). lia. }
  assert (Ah : all_hit ps idx).
  { intros i0 Hi. apply In_nth_error in Hi as (k & Hk). destruct (nth_lt hits k) as (j & Ej).
    { rewrite Lh. apply nth_error_Some. congruence. }
    destruct (Hh j (nth_error_In _ _ Ej)) as (t & Et). exists t. apply (Hp i0 j t); eauto. }
  destruct (selected_told _ _ _ _ _ _ _ _ Hf Ts F Ah Sg) as (pts & ns & z & (Gp & _) & Lp & _ & Pp & Hs).
  destruct (traceable_parts _ _ Ts) as (vs & ds & es & Ev & Ed & Ee & Lv & Ld & Le).
  destruct (take_total es idx) as (es' & Et). { apply Forall_forall. intros x Hx. rewrite Le. auto. }
  apply take_ok in Et. pose proof (picks_length _ _ _ Et) as Les.
  rewrite Ho in Og. pose proof (account_same _ _ _ _ _ _ _ _ _ _ _ Og Gp Ee Et) as A.
  exists (combine (map (fun e => e * absorptivity ab)%R es') pts).
  assert (C : forall (l1 : list R) (l2 : list vec), length l1 = length l2 -> map fst (combine l1 l2) = l1 /\ map snd (combine l1 l2) = l2).
  { clear. induction l1; intros [|y l2] H; try discriminate; auto. simpl. injection H as H. destruct (IHl1 _ H) as (-> & ->). auto. }
  destruct (C (map (fun e => e * absorptivity ab)%R es') pts) as (C1 & C2). { rewrite map_length. congruence. }
  rewrite C1, C2. split; auto. rewrite Forall2_nth. split. { rewrite combine_length, map_length. rewrite Les, Lp, Lh. lia. }
  intros k j h Ej Eh. destruct (nth_lt idx k) as (i0 & Ei). { rewrite <- Lh. apply nth_error_Some. congruence. }
  pose proof (Hj _ _ _ Ei Ej) as Ha. destruct (Hh j (nth_error_In _ _ Ej)) as (t & Ht). pose proof (Hp _ _ _ Ha Ht) as Hps0.
  destruct (nth_lt pts k) as (p & Ep). { rewrite Lp. apply nth_error_Some. congruence. }
  destruct (nth_lt es' k) as (e & Ee'). { rewrite Les. apply nth_error_Some. congruence. }
  destruct (at_point _ _ _ _ (Forall2_at _ _ _ _ _ _ Pp Ei Ep)) as (t' & v & d & Et' & Hv & Hd & ->).
  assert (t' = t) by congruence. subst t'.
  pose proof (picked_same _ _ _ _ _ Hsub Ha) as Sm.
  exists t, e, v, d. split; auto.
  rewrite <- (same_ray_vert _ _ _ _ Sm), <- (same_ray_dir _ _ _ _ Sm), <- (same_ray_energy _ _ _ _ Sm).
  split; [unfold energy_at, at_col; rewrite Ee; apply (Forall2_at _ _ _ _ _ _ Et Ei Ee')|]. split; auto. split; auto.
  assert (Hc : forall (l1 : list R) (l2 : list vec) k x y, nth_error l1 k = Some x -> nth_error l2 k = Some y -> nth_error (combine l1 l2) k = Some (x, y)).
  { clear. induction l1; intros [|y0 l2] [|k] x y H H'; try discriminate; simpl in *; auto. congruence. }
  rewrite (Hc _ _ k (e * absorptivity ab)%R (vadd v (vscale t d))) in Eh; auto; [congruence|].
  rewrite nth_error_map, Ee'. reflexivity.
Qed.

(** ** One iteration *)
Lemma turn_split {A G} (P : A -> G -> G -> Prop) l1 x l2 g g' : in_turn P (l1 ++ x :: l2) g g' ->
  exists h h', in_turn P l1 g h /\ P x h h' /\ in_turn P l2 h' g'.
Proof.
  revert g. induction l1 as [|y l1 IH]; intros g H; inversion H as [|? ? ? g1 ? H1 H2]; subst.
  - exists g, g1. split; [constructor|auto].
  - destruct (IH g1 H2) as (h & h' & A1 & A2 & A3). exists h, h'. split; auto. apply turn_next with g1; auto.
Qed.
Lemma turn_keeps {A G B} (P : A -> G -> G -> Prop) (f : G -> B) l g g' : in_turn P l g g' ->
  (forall x h h', In x l -> P x h h' -> f h' = f h) -> f g' = f g.
Proof.
  induction 1 as [|x l g g1 g2 H _ IH]; intros K; auto. rewrite IH by (intros; eapply K; eauto; right; auto).
  eapply K; eauto. left; auto.
Qed.

Definition extended (acc acc' : account) (l : list (R * vec)) : Prop :=
  a_absorbed acc' = a_absorbed acc ++ map (map fst) (filter nonempty [l]) /\
  a_hits acc' = a_hits acc ++ map (map snd) (filter nonempty [l]).

Lemma level_noted objs surfs prev ns T tb i s id ab g ems g' : library_assembly objs surfs ->
  reported surface_ops surfs prev ns T tb -> emissions surface_ops surfs tb ns T g ems g' ->
  nth_error surfs i = Some s -> s_opt s = Accountant id ab -> sole_account surfs i id ->
  exists l, noted (absorptivity ab) T (length surfs) prev ns i l /\ extended (g_acc g id) (g_acc g' id) l.
Proof.
  intros La Rp (So & Ei & Tn) Es Eo Sa.
  assert (Other : forall l h h', ~ In i (map fst l) -> in_turn (fun io h h' => exists s hits, nth_error surfs (fst io) = Some s /\
    StronglySorted lt hits /\ (forall j, In j hits <-> exists t, meets_first T (length surfs) ns (fst io) j t) /\
    emission surface_ops tb ns T (fst io) s hits h (snd io) h') l h h' -> g_acc h' id = g_acc h id).
  { intros l h h' Ni Tn'. apply (turn_keeps _ (fun g => g_acc g id) _ _ _ Tn').
    intros x k k' Hx (s0 & hits & E0 & _ & _ & Em). apply (emission_other _ _ _ _ _ _ _ _ _ _ Em).
    intros ab' E1. apply Ni. rewrite <- (Sa _ _ _ E0 E1). apply in_map. auto. }
  destruct (in_dec Nat.eq_dec i (map fst ems)) as [Hi|Hi].
  - assert (Hx := Hi). apply in_map_iff in Hx as ((i0 & o) & E0 & Hx). cbn [fst] in E0. subst i0.
    apply in_split in Hx as (l1 & l2 & ->).
    destruct (turn_split _ _ _ _ _ _ Tn) as (h & h' & T1 & (s0 & hits & E0 & Sh & Hh & Em) & T2).
    cbn [fst snd] in *. assert (s0 = s) by congruence. subst s0.
    assert (Nd : NoDup (map fst (l1 ++ (i, o) :: l2))) by (apply sorted_NoDup; auto).
    rewrite map_app in Nd. cbn [map fst] in Nd. apply NoDup_remove_2 in Nd.
    assert (N1 : ~ In i (map fst l1)) by (intros K; apply Nd, in_or_app; auto).
    assert (N2 : ~ In i (map fst l2)) by (intros K; apply Nd, in_or_app; auto).
    pose proof (Other _ _ _ N1 T1) as G1. pose proof (Other _ _ _ N2 T2) as G2.
    destruct Rp as (Tb & Pk & _).
    destruct (emission_noted _ _ _ _ _ _ _ _ _ id ab Tb (proj1 (proj1 (proj2 La) s (nth_error_In _ _ Es))) Em Eo) as (l & A & F).
    { intros j Hj. apply Hh in Hj as (t & _ & _ & Ht & _). eauto. }
    exists l. split.
    + exists hits. split; auto. split; auto. rewrite Forall2_nth in *. destruct F as (Fl & F). split; auto.
      intros k j x Hj Hx. destruct (F k j x Hj Hx) as (t & e & v & d & B1 & B2 & B3 & B4 & B5).
      destruct (proj1 (Hh j) (nth_error_In _ _ Hj)) as (t' & M). pose proof M as (_ & Lj & Ht & _).
      assert (t' = t) by congruence. subst t'. exists t, e, v, d. split; auto.
      assert (Hq : nth_error (seq 0 ns) j = Some j).
      { rewrite nth_error_nth' with (d := 0) by (rewrite seq_length; auto). rewrite seq_nth by auto. auto. }
      pose proof (picked_same _ _ _ _ _ Pk Hq) as Sm.
      rewrite <- (same_ray_vert _ _ _ _ Sm), <- (same_ray_dir _ _ _ _ Sm), <- (same_ray_energy _ _ _ _ Sm). auto.
    + assert (Ne : nonempty l = true).
      { destruct l; auto. apply Forall2_nth in F as (Fl & _). destruct hits as [|]; [|discriminate].
        apply Ei in Hi as (j & t & M). assert (K : In j []) by (apply Hh; eauto). destruct K. }
      unfold extended. cbn [filter]. rewrite Ne. cbn [map]. rewrite G2, A, G1. auto.
  - exists []. split.
    + exists []. split; [constructor|]. split; [|constructor]. intros j. split; [intros []|].
      intros (t & M). apply Hi. apply Ei. eauto.
    + unfold extended. cbn. rewrite !app_nil_r. rewrite (Other _ _ _ Hi Tn). auto.
Qed.

(** ** The whole trace *)
Section Whole.
Variable objs : list obj.
Variable surfs : list surface.
Hypothesis HA : library_assembly objs surfs.
Variables (me : R) (g : shared) (b : bundle) (n reps : nat) (tree : list bundle) (ns : nat -> nat) (Ts : nat -> reports)
  (gs : nat -> shared) (g' : shared).
Hypothesis C : consistent_tree surface_ops objs surfs me b n reps tree ns Ts g gs g'.
Variables (i : nat) (s : surface) (id : nat) (ab : absorbing).
Hypothesis Es : nth_error surfs i = Some s.
Hypothesis Eo : s_opt s = Accountant id ab.
Hypothesis Sa : sole_account surfs i id.

Lemma noted_levels L : L < length tree -> exists ls, length ls = L /\
  (forall K prev l, nth_error tree K = Some prev -> nth_error ls K = Some l ->
     noted (absorptivity ab) (Ts K) (length surfs) prev (ns K) i l) /\
  a_absorbed (g_acc (gs L) id) = a_absorbed (g_acc g id) ++ map (map fst) (filter nonempty ls) /\
  a_hits (g_acc (gs L) id) = a_hits (g_acc g id) ++ map (map snd) (filter nonempty ls).
Proof.
  induction L as [|L IH]; intros HL.
  - exists []. split; auto. split. { intros [|K] prev l _ H; discriminate. }
    rewrite (ct_before _ _ _ _ _ _ _ _ _ _ _ _ _ C). cbn. rewrite !app_nil_r. auto.
  - destruct IH as (ls & Ll & Nl & A & H); [lia|].
    destruct (nth_lt tree L) as (prev & Hp); [lia|]. destruct (nth_lt tree (L + 1)) as (lvl & Hl); [lia|].
    destruct (ct_level _ _ _ _ _ _ _ _ _ _ _ _ _ C L prev lvl Hp Hl) as (tb & rc & m & ems & R1 & R2 & _).
    destruct (level_noted _ _ _ _ _ _ _ _ _ _ _ _ _ HA R1 R2 Es Eo Sa) as (l & N & (X1 & X2)).
    exists (ls ++ [l]). rewrite app_length, Ll. cbn [length]. split; [lia|]. split.
    + intros K pv l0 HK Hl0. destruct (Nat.lt_ge_cases K L) as [Lt|Ge].
      * rewrite nth_error_app1 in Hl0 by lia. eauto.
      * rewrite nth_error_app2 in Hl0 by lia. destruct (K - length ls) as [|q] eqn:Eq; [|destruct q; discriminate].
        injection Hl0 as <-. assert (K = L) by lia. subst K. assert (pv = prev) by congruence. subst pv. exact N.
    + rewrite <- Nat.add_1_r. rewrite X1, X2, A, H. rewrite filter_app, !map_app, !app_assoc. auto.
Qed.

Lemma noted_all : length tree <= reps + 1 -> exists ls, length ls = Nat.min reps (length tree) /\
  (forall K prev l, nth_error tree K = Some prev -> nth_error ls K = Some l ->
     noted (absorptivity ab) (Ts K) (length surfs) prev (ns K) i l) /\
  a_absorbed (g_acc g' id) = a_absorbed (g_acc g id) ++ map (map fst) (filter nonempty ls) /\
  a_hits (g_acc g' id) = a_hits (g_acc g id) ++ map (map snd) (filter nonempty ls).
Proof.
  intros Lr.
  assert (H0 : 0 < length tree). { apply nth_error_Some. rewrite (ct_source _ _ _ _ _ _ _ _ _ _ _ _ _ C). discriminate. }
  destruct (noted_levels (length tree - 1)) as (ls & Ll & Nl & A & H); [lia|].
  rewrite (ct_after _ _ _ _ _ _ _ _ _ _ _ _ _ C) in A, H.
  destruct (Nat.eq_dec (length tree) (reps + 1)) as [E|E].
  - exists ls. split; [lia|auto].
  - exists (ls ++ [[]]). rewrite filter_app. cbn [filter nonempty length Nat.eqb negb]. rewrite app_nil_r, app_length. cbn [length].
    split; [lia|]. split; auto. intros K prev l Hp Hl. destruct (Nat.lt_ge_cases K (length ls)) as [Lt|Ge].
    + rewrite nth_error_app1 in Hl by auto. eauto.
    + rewrite nth_error_app2 in Hl by lia. destruct (K - length ls) as [|q] eqn:Eq; [|destruct q; discriminate].
      injection Hl as <-. assert (HK : nth_error tree (K + 1) = None) by (apply nth_error_None; lia).
      exists []. split; [constructor|]. split; [|constructor]. intros j. split; [intros []|]. intros (t & M).
      assert (Hj : j < ns K) by apply M.
      destruct (ct_end _ _ _ _ _ _ _ _ _ _ _ _ _ C K prev Hp HK) as (tb & _ & N); [lia|lia|]. exact (N i j t M).
Qed.
End Whole.

Lemma accounts_top : forall objs surfs, library_assembly objs surfs ->
  forall me g b n, library_source b n -> forall reps vs ds st,
  ray_tracer surface_ops objs surfs g b reps me TreeTrue = Ok (vs, ds, st) ->
  exists (ns : nat -> nat) (Ts : nat -> reports),
  (forall L prev, nth_error (t_tree st) L = Some prev -> L < reps -> 0 < ns L ->
     exists tb, reported surface_ops surfs prev (ns L) (Ts L) tb) /\
  (forall L prev, nth_error (t_tree st) L = Some prev -> forall j, j < ns L <-> is_traced me L prev j) /\
  forall i s id ab, nth_error surfs i = Some s -> s_opt s = Accountant id ab -> sole_account surfs i id ->
  exists ls, length ls = Nat.min reps (length (t_tree st)) /\
    (forall L prev l, nth_error (t_tree st) L = Some prev -> nth_error ls L = Some l ->
       noted (absorptivity ab) (Ts L) (length surfs) prev (ns L) i l) /\
    a_absorbed (g_acc (t_g st) id) = a_absorbed (g_acc g id) ++ map (map fst) (filter nonempty ls) /\
    a_hits (g_acc (t_g st) id) = a_hits (g_acc g id) ++ map (map snd) (filter nonempty ls).
Proof.
  intros objs surfs La me g b n Ls reps vs ds st E.
  destruct (library_trace objs surfs me La g b n reps vs ds st Ls E) as (ns & Ts & gs & C & _ & Hlen & _).
  exists ns, Ts. split; [|split].
  - intros L prev Hp HL Hn. destruct (nth_error (t_tree st) (L + 1)) as [lvl|] eqn:Hl.
    + destruct (ct_level _ _ _ _ _ _ _ _ _ _ _ _ _ C L prev lvl Hp Hl) as (tb & rc & m & ems & R1 & _). eauto.
    + destruct (ct_end _ _ _ _ _ _ _ _ _ _ _ _ _ C L prev Hp Hl HL) as (tb & R & _); eauto.
  - intros L prev Hp j. destruct (ct_traced _ _ _ _ _ _ _ _ _ _ _ _ _ C (proj1 Ls) L prev Hp) as (mp & _ & _ & Htr & _). auto.
  - intros i s id ab Es Eo Sa. eapply noted_all; eauto.
Qed.

(** ** Reading the account *)
Lemma hits_concat (ls : list (list (R * vec))) :
  get_all_hits (mkAcc (map (map fst) (filter nonempty ls)) (map (map snd) (filter nonempty ls))) =
  Ok (map fst (concat ls), map snd (concat ls)).
Proof.
  assert (Cc : forall B (f : R * vec -> B), concat (map (map f) (filter nonempty ls)) = map f (concat ls)).
  { intros B f. induction ls as [|l r IH]; auto. destruct l as [|x l]; [exact IH|]. cbn [filter nonempty length Nat.eqb negb map concat app].
    rewrite IH, map_app. reflexivity. }
  assert (Ff : forall B (f : R * vec -> B), filter nonempty (map (map f) (filter nonempty ls)) = map (map f) (filter nonempty ls)).
  { intros B f. clear. induction ls as [|l r IH]; auto. destruct l as [|x l]; [exact IH|]. cbn [filter nonempty length Nat.eqb negb map].
    f_equal. exact IH. }
  unfold get_all_hits. cbn [a_absorbed a_hits]. rewrite !Ff, <- !Cc, !map_length.
  destruct (filter nonempty ls); reflexivity.
Qed.

Lemma accounts_read : forall objs surfs, library_assembly objs surfs ->
  forall me g b n, library_source b n -> forall reps vs ds st,
  ray_tracer surface_ops objs surfs g b reps me TreeTrue = Ok (vs, ds, st) ->
  exists (ns : nat -> nat) (Ts : nat -> reports),
  (forall L prev, nth_error (t_tree st) L = Some prev -> L < reps -> 0 < ns L ->
     exists tb, reported surface_ops surfs prev (ns L) (Ts L) tb) /\
  (forall L prev, nth_error (t_tree st) L = Some prev -> forall j, j < ns L <-> is_traced me L prev j) /\
  forall i s id ab, nth_error surfs i = Some s -> s_opt s = Accountant id ab -> sole_account surfs i id ->
  g_acc g id = mkAcc [] [] ->
  exists ls, length ls = Nat.min reps (length (t_tree st)) /\
    (forall L prev l, nth_error (t_tree st) L = Some prev -> nth_error ls L = Some l ->
       noted (absorptivity ab) (Ts L) (length surfs) prev (ns L) i l) /\
    get_all_hits (g_acc (t_g st) id) = Ok (map fst (concat ls), map snd (concat ls)).
Proof.
  intros objs surfs La me g b n Ls reps vs ds st E.
  destruct (accounts_top objs surfs La me g b n Ls reps vs ds st E) as (ns & Ts & Rp & Tr & Ac).
  exists ns, Ts. split; auto. split; auto. intros i s id ab Es Eo Sa Eg. destruct (Ac i s id ab Es Eo Sa) as (ls & Ll & Nt & A & H).
  exists ls. split; auto. split; auto. rewrite <- hits_concat. f_equal. destruct (g_acc (t_g st) id). cbn in A, H. rewrite Eg in A, H. cbn in A, H. congruence.
Qed.

(** Other accounts are left alone. *)
Lemma accounts_kept : forall objs surfs, library_assembly objs surfs ->
  forall me g b n, library_source b n -> forall reps vs ds st,
  ray_tracer surface_ops objs surfs g b reps me TreeTrue = Ok (vs, ds, st) ->
  forall id, (forall s ab, In s surfs -> s_opt s <> Accountant id ab) -> g_acc (t_g st) id = g_acc g id.
Proof.
  intros objs surfs La me g b n Ls reps vs ds st E id N.
  destruct (library_trace objs surfs me La g b n reps vs ds st Ls E) as (ns & Ts & gs & C & _).
  assert (H0 : 0 < length (t_tree st)). { apply nth_error_Some. rewrite (ct_source _ _ _ _ _ _ _ _ _ _ _ _ _ C). discriminate. }
  assert (K : forall L, L < length (t_tree st) -> g_acc (gs L) id = g_acc g id).
  { induction L as [|L IH]; intros HL; [rewrite (ct_before _ _ _ _ _ _ _ _ _ _ _ _ _ C); auto|].
    destruct (nth_lt (t_tree st) L) as (prev & Hp); [lia|]. destruct (nth_lt (t_tree st) (L + 1)) as (lvl & Hl); [lia|].
    destruct (ct_level _ _ _ _ _ _ _ _ _ _ _ _ _ C L prev lvl Hp Hl) as (tb & rc & m & ems & R1 & (_ & _ & Tn) & _).
    rewrite <- IH, <- Nat.add_1_r by lia. apply (turn_keeps _ (fun h => g_acc h id) _ _ _ Tn).
    intros x h h' _ (s0 & hits & E0 & _ & _ & Em). apply (emission_other _ _ _ _ _ _ _ _ _ _ Em).
    intros ab. apply N. eapply nth_error_In; eauto. }
  rewrite <- (K (length (t_tree st) - 1)) by lia. rewrite (ct_after _ _ _ _ _ _ _ _ _ _ _ _ _ C). auto.
Qed.

(** ** A concrete case: a receiver below two rays *)
Definition one_receiver : list surface := [new_surface Flat (Accountant 0 (Reflective 1)) id4].
Lemma one_receiver_answers : answering_assembly [default_object 1] one_receiver /\ sole_account one_receiver 0 0 /\ forall b, knows_media one_receiver b.
Proof.
  split; [|split].
  - split; [split; [|split]|split; [|split]].
    + intros ob [<-|[]]. apply ObjectProof.default_object_ok.
    + intros s [<-|[]]. split; [apply ModelTop.rigid_id|]. split; [cbn; lra|]. split; reflexivity.
    + reflexivity.
    + discriminate.
    + intros ob [<-|[]]. apply ObjectProof.default_object_ok.
    + intros s [<-|[]]. split; exact Logic.I.
  - intros [|[|i]] s o H; try discriminate. auto.
  - intros b (s & [<-|[]] & H). destruct H.
Qed.
