(** Accounts of rearranged scenes. *)
From Coq Require Import Reals String List Arith Bool Lia Lra Sorted Permutation.
From Verif.Base Require Import Py Num Vec.
From Verif.Model Require Import RayBundle Geometry TraceTree Sources Optics OpticsCallables Engine Objects Surface.
From Verif.Proof Require Import ListLemmas VecLemmas BundleProof ProcessProof OpticsProof OpticsTop GeomProof AnswerProof EngineTop ObjectProof ObjectTrace LibraryTop TraceTop AccountProof LawProof OrderProof.
From Verif.Spec Require Import BundleSpec EngineSpec GeometrySpec GeomIface OpticsSpec LibrarySpec AccountSpec LawSpec OrderSpec.
Import ListNotations.
Local Open Scope nat_scope.

(** The entry for ray [j]. *)
Definition hit_of (a : R) (prev : bundle) (T : reports) (i j : nat) : R * vec :=
  match energy_at prev j, vert_at prev j, dir_at prev j, T i j with
  | Some e, Some v, Some d, Some (Fin t) => ((e * a)%R, vadd v (vscale t d))
  | _, _, _, _ => (0%R, V3 0 0 0)
  end.

Lemma noted_map a T nsurf prev ns i l : noted a T nsurf prev ns i l -> exists js, NoDup js /\
  (forall j, In j js <-> exists t, meets_first T nsurf ns i j t) /\ l = map (hit_of a prev T i) js.
Proof.
  intros (js & So & In' & F). exists js. split; [|split; auto].
  - clear -So. induction So as [|x l S IH H]; constructor; auto. intros Hx. rewrite Forall_forall in H. specialize (H _ Hx). lia.
  - clear -F. induction F as [|j h js l (t & e & v & d & M & E & V & D & ->) F IH]; auto. cbn [map]. rewrite <- IH. f_equal.
    unfold hit_of. rewrite E, V, D. destruct M as (_ & _ & -> & _). reflexivity.
Qed.

Lemma noted_permuted a T T' nsurf nsurf' prev prev' ns ns' i i' f g l l' :
  noted a T nsurf prev ns i l -> noted a T' nsurf' prev' ns' i' l' ->
  (forall j, j < ns -> same_light prev j prev' (f j) /\ g (f j) = j) -> (forall j, j < ns' -> f (g j) = j) ->
  (forall j t, meets_first T nsurf ns i j t -> meets_first T' nsurf' ns' i' (f j) t) ->
  (forall j t, meets_first T' nsurf' ns' i' j t -> meets_first T nsurf ns i (g j) t) ->
  Permutation l l'.
Proof.
  intros N N' Sl Fg M1 M2. apply noted_map in N as (js & Nd & H & ->). apply noted_map in N' as (js' & Nd' & H' & ->).
  assert (P : Permutation (map f js) js').
  { apply NoDup_Permutation; auto.
    - apply NoDup_nth_error. intros x y Hx E. rewrite map_length in Hx. rewrite !nth_error_map in E.
      destruct (nth_lt js x Hx) as (jx & Ex). rewrite Ex in E. destruct (nth_error js y) as [jy|] eqn:Ey; [|discriminate].
      cbn in E. injection E as E. assert (Jx : In jx js) by (eapply nth_error_In; eauto). assert (Jy : In jy js) by (eapply nth_error_In; eauto).
      apply H in Jx as (tx & Mx). apply H in Jy as (ty & My).
      assert (jx = jy). { rewrite <- (proj2 (Sl jx (proj1 (proj2 Mx)))), <- (proj2 (Sl jy (proj1 (proj2 My)))), E. auto. } subst jy.
      rewrite NoDup_nth_error in Nd. apply Nd; auto. congruence.
    - intros j. rewrite in_map_iff, H'. split.
      + intros (j0 & <- & Hj). apply H in Hj as (t & M). eauto.
      + intros (t & M). exists (g j). split; [apply Fg; apply M|]. apply H. eauto. }
  rewrite <- P, map_map. apply Permutation_refl'. apply map_ext_in. intros j Hj. apply H in Hj as (t & M).
  destruct (Sl j (proj1 (proj2 M))) as (L & _). unfold hit_of.
  rewrite <- (light_energy _ _ _ _ L), <- (light_vert _ _ _ _ L), <- (light_dir _ _ _ _ L).
  destruct M as (M0 & M3 & MT & M4). destruct (M1 j t) as (_ & _ & MT' & _). { split; auto. }
  rewrite MT, MT'. reflexivity.
Qed.

Lemma books_order : forall qs surfs qs' surfs' p p', library_assembly (map made qs) surfs -> library_assembly (map made qs') surfs' ->
  rearranged qs surfs qs' surfs' p p' -> (forall s, In s surfs -> geom_ok (s_geom s) /\ specular (s_opt s)) ->
  forall me n b b' f g, library_source b n -> library_source b' n -> reordered n f g b b' ->
  forall rg rg' reps vs ds st vs' ds' st', fair (g_rng rg) -> fair (g_rng rg') ->
  ray_tracer surface_ops (map made qs) surfs rg b reps me TreeTrue = Ok (vs, ds, st) ->
  ray_tracer surface_ops (map made qs') surfs' rg' b' reps me TreeTrue = Ok (vs', ds', st') ->
  (forall i i', ~ shut qs i i') \/ (forall L prev, nth_error (t_tree st) L = Some prev -> never_ties surfs prev) ->
  forall i s id ab, nth_error surfs i = Some s -> s_opt s = Accountant id ab -> sole_account surfs i id ->
  exists ls ls' : list (list (R * vec)), Forall2 (@Permutation _) ls ls' /\
    a_absorbed (g_acc (t_g st) id) = a_absorbed (g_acc rg id) ++ map (map fst) (filter nonempty ls) /\
    a_hits (g_acc (t_g st) id) = a_hits (g_acc rg id) ++ map (map snd) (filter nonempty ls) /\
    a_absorbed (g_acc (t_g st') id) = a_absorbed (g_acc rg' id) ++ map (map fst) (filter nonempty ls') /\
    a_hits (g_acc (t_g st') id) = a_hits (g_acc rg' id) ++ map (map snd) (filter nonempty ls').
Proof.
  intros qs surfs qs' surfs' p p' La La' Re Hs me n b b' f g Ls Ls' Ro rg rg' reps vs ds st vs' ds' st' Fg Fg' E E' Nt i s id ab Es Eo Sa.
  assert (Hs' : forall s, In s surfs' -> geom_ok (s_geom s) /\ specular (s_opt s)).
  { intros s0 Hin. destruct Re as (El & (_ & P2) & Es0 & _). apply In_nth_error in Hin as (i0 & Ei). assert (Hi : i0 < length surfs) by (rewrite <- El; apply nth_error_Some; congruence).
    destruct (P2 i0 Hi) as (Hi' & Ep). apply Hs. rewrite <- Ep, Es0 in Ei by auto. eapply nth_error_In; eauto. }
  destruct (order_top qs surfs qs' surfs' p p' La La' Re Hs me n b b' f g Ls Ls' Ro rg rg' reps vs ds st vs' ds' st' Fg Fg' E E' Nt) as (Ell & _).
  destruct (run_of qs surfs me rg b n reps vs ds st La (fun s h => proj1 (Hs s h)) Ls Fg E) as (ns & Ts & A & Bk).
  destruct (run_of qs' surfs' me rg' b' n reps vs' ds' st' La' (fun s h => proj1 (Hs' s h)) Ls' Fg' E') as (ns' & Ts' & B & Bk').
  pose proof (levels_alike qs qs' surfs surfs' p p' me b b' n reps (t_tree st) (t_tree st') ns ns' Ts Ts' Re (proj2 (proj2 La')) (fun s h => proj2 (Hs s h)) A B f g Ro) as H.
  rewrite (run_source_n _ _ _ _ _ _ _ _ _ A (proj1 Ls)) in H. specialize (H eq_refl Nt (length (t_tree st))). destruct H as (F & G & _ & _ & H).
  pose proof Re as (El & (P1 & P2) & Ps & _).
  assert (Hi : i < length surfs) by (apply nth_error_Some; congruence).
  destruct (Bk i s id ab Es Eo Sa) as (ls & Ll & Nl & A1 & A2).
  destruct (Bk' (p i) s id ab) as (ls' & Ll' & Nl' & B1 & B2); auto.
  { rewrite Ps; auto. }
  { intros i1 s1 o1 E1 O1. assert (Hi1 : i1 < length surfs) by (rewrite <- El; apply nth_error_Some; congruence). destruct (P2 i1 Hi1) as (Hq & Eq).
    rewrite <- Eq. f_equal. apply (Sa _ s1 o1); auto. rewrite <- Ps, Eq; auto. }
  exists ls, ls'. split; [|auto].
  assert (K : forall L l l', nth_error ls L = Some l -> nth_error ls' L = Some l' -> Permutation l l').
  { intros L l l' Hl Hl'. assert (HL : L < length ls) by (apply nth_error_Some; congruence). rewrite Ll in HL.
    destruct (H L ltac:(lia)) as [(Y & _)|(lvl & lvl' & m & Y & Y' & R & Ak & _)].
    { apply nth_error_None in Y. lia. }
    destruct (traced_alike qs qs' surfs surfs' me b b' n reps (t_tree st) (t_tree st') ns ns' Ts Ts' (proj2 (proj2 La')) A B L m (F L) (G L) lvl lvl' Y Y' R) as (F1 & F2 & L1 & L2).
    destruct (meets_alike qs qs' surfs surfs' p p' me b b' n reps (t_tree st) (t_tree st') ns ns' Ts Ts' Re (proj2 (proj2 La')) A B L m (F L) (G L) lvl lvl' Y Y' R Ak ltac:(lia)) as (M1 & M2).
    apply (noted_permuted _ _ _ _ _ _ _ _ _ _ _ (F L) (G L) _ _ (Nl L lvl l Y Hl) (Nl' L lvl' l' Y' Hl')).
    - intros j Hj. split; [|apply F1; auto]. apply R. lia.
    - intros j Hj. apply F2; auto.
    - intros j t M. apply M1; auto.
    - intros j t M. apply M2 in M. rewrite (proj2 (P1 i Hi)) in M. exact M. }
  assert (Le : length ls = length ls') by (rewrite Ll, Ll', Ell; auto).
  clear -K Le. revert ls' Le K. induction ls as [|l ls IH]; intros [|l' ls'] Le K; try discriminate; constructor.
  - apply (K 0 l l'); auto.
  - apply IH; [cbn in Le; lia|]. intros L x y Hx Hy. apply (K (S L)); auto.
Qed.

Lemma books_read : forall qs surfs qs' surfs' p p', library_assembly (map made qs) surfs -> library_assembly (map made qs') surfs' ->
  rearranged qs surfs qs' surfs' p p' -> (forall s, In s surfs -> geom_ok (s_geom s) /\ specular (s_opt s)) ->
  forall me n b b' f g, library_source b n -> library_source b' n -> reordered n f g b b' ->
  forall rg rg' reps vs ds st vs' ds' st', fair (g_rng rg) -> fair (g_rng rg') ->
  ray_tracer surface_ops (map made qs) surfs rg b reps me TreeTrue = Ok (vs, ds, st) ->
  ray_tracer surface_ops (map made qs') surfs' rg' b' reps me TreeTrue = Ok (vs', ds', st') ->
  (forall i i', ~ shut qs i i') \/ (forall L prev, nth_error (t_tree st) L = Some prev -> never_ties surfs prev) ->
  forall i s id ab, nth_error surfs i = Some s -> s_opt s = Accountant id ab -> sole_account surfs i id ->
  g_acc rg id = mkAcc [] [] -> g_acc rg' id = mkAcc [] [] ->
  exists hs hs' : list (R * vec), Permutation hs hs' /\
    get_all_hits (g_acc (t_g st) id) = Ok (map fst hs, map snd hs) /\ get_all_hits (g_acc (t_g st') id) = Ok (map fst hs', map snd hs').
Proof.
  intros qs surfs qs' surfs' p p' La La' Re Hs me n b b' f g Ls Ls' Ro rg rg' reps vs ds st vs' ds' st' Fg Fg' E E' Nt i s id ab Es Eo Sa G1 G2.
  destruct (books_order qs surfs qs' surfs' p p' La La' Re Hs me n b b' f g Ls Ls' Ro rg rg' reps vs ds st vs' ds' st' Fg Fg' E E' Nt i s id ab Es Eo Sa)
    as (ls & ls' & P & A1 & A2 & B1 & B2).
  rewrite G1 in A1, A2. rewrite G2 in B1, B2. cbn in A1, A2, B1, B2.
  exists (concat ls), (concat ls'). split; [|split].
  - clear -P. induction P; cbn; auto using Permutation_app.
  - rewrite <- hits_concat. f_equal. destruct (g_acc (t_g st) id). cbn in A1, A2. congruence.
  - rewrite <- hits_concat. f_equal. destruct (g_acc (t_g st') id). cbn in B1, B2. congruence.
Qed.

Lemma books_top : forall qs surfs qs' surfs' p p', library_assembly (map made qs) surfs -> library_assembly (map made qs') surfs' ->
  rearranged qs surfs qs' surfs' p p' -> (forall s, In s surfs -> geom_ok (s_geom s) /\ specular (s_opt s)) ->
  forall me n b b' f g, library_source b n -> library_source b' n -> reordered n f g b b' ->
  forall rg rg' reps vs ds st vs' ds' st', fair (g_rng rg) -> fair (g_rng rg') ->
  ray_tracer surface_ops (map made qs) surfs rg b reps me TreeTrue = Ok (vs, ds, st) ->
  ray_tracer surface_ops (map made qs') surfs' rg' b' reps me TreeTrue = Ok (vs', ds', st') ->
  (forall i i', ~ shut qs i i') \/ (forall L prev, nth_error (t_tree st) L = Some prev -> never_ties surfs prev) ->
  forall i s id ab, nth_error surfs i = Some s -> s_opt s = Accountant id ab -> sole_account surfs i id ->
  (exists ls ls' : list (list (R * vec)), Forall2 (@Permutation _) ls ls' /\
    a_absorbed (g_acc (t_g st) id) = a_absorbed (g_acc rg id) ++ map (map fst) (filter nonempty ls) /\
    a_hits (g_acc (t_g st) id) = a_hits (g_acc rg id) ++ map (map snd) (filter nonempty ls) /\
    a_absorbed (g_acc (t_g st') id) = a_absorbed (g_acc rg' id) ++ map (map fst) (filter nonempty ls') /\
    a_hits (g_acc (t_g st') id) = a_hits (g_acc rg' id) ++ map (map snd) (filter nonempty ls')) /\
  (g_acc rg id = mkAcc [] [] -> g_acc rg' id = mkAcc [] [] ->
  exists hs hs' : list (R * vec), Permutation hs hs' /\
    get_all_hits (g_acc (t_g st) id) = Ok (map fst hs, map snd hs) /\ get_all_hits (g_acc (t_g st') id) = Ok (map fst hs', map snd hs')).
Proof.
  intros qs surfs qs' surfs' p p' La La' Re Hs me n b b' f g Ls Ls' Ro rg rg' reps vs ds st vs' ds' st' Fg Fg' E E' Nt i s id ab Es Eo Sa. split.
  - exact (books_order qs surfs qs' surfs' p p' La La' Re Hs me n b b' f g Ls Ls' Ro rg rg' reps vs ds st vs' ds' st' Fg Fg' E E' Nt i s id ab Es Eo Sa).
  - exact (books_read qs surfs qs' surfs' p p' La La' Re Hs me n b b' f g Ls Ls' Ro rg rg' reps vs ds st vs' ds' st' Fg Fg' E E' Nt i s id ab Es Eo Sa).
Qed.
