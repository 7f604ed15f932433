(** A receiver has no more on record than the source sent. *)
From Coq Require Import Reals List Arith Bool Sorted Permutation Lia Lra.
From Verif.Base Require Import Py Num Vec.
From Verif.Model Require Import RayBundle OpticsCallables TraceTree Engine Objects Surface.
From Verif.Proof Require Import ListLemmas NumLemmas BundleProof ProcessProof IterProof TraceProof TreeProof EngineMore SurfaceProof CallProof LibraryTop TraceTop AccountProof LedgerProof.
From Verif.Proof Require ProcessProof.
From Verif.Spec Require Import BundleSpec EngineSpec GeometrySpec GeomIface OpticsSpec LibrarySpec AccountSpec.
Import ListNotations.

Lemma sends_less o z d e e' : optics_ok o -> (0 <= e)%R -> sends_on o z d e e' -> (e' <= e)%R.
Proof.
  intros Ho He. destruct o as [[a|a|a]|id [a|a|a]|i1 i2]; cbn in *; try (intros ->; nra); intros (A & B);
    destruct (Rle_dec (dot d z) 0) as [L|L]; [rewrite (A L)|rewrite B by (apply Rnot_le_lt; exact L)|rewrite (A L)|rewrite B by (apply Rnot_le_lt; exact L)]; nra.
Qed.
Lemma sends_rest id o z d e e' : optics_ok (Accountant id o) -> (0 <= e)%R -> sends_on (Accountant id o) z d e e' -> (e * absorptivity o + e' <= e)%R.
Proof.
  intros Ho He. destruct o as [a|a|a]; cbn in *; try (intros ->; nra); intros (A & B).
  destruct (Rle_dec (dot d z) 0) as [L|L]; [rewrite (A L)|rewrite B by (apply Rnot_le_lt; exact L)]; nra.
Qed.

Lemma sum_le {A} (f g : A -> R) l : (forall x, In x l -> f x <= g x)%R -> (sum_R (map f l) <= sum_R (map g l))%R.
Proof.
  induction l as [|x l IH]; intros H; [cbn; lra|]. cbn [map]. rewrite !sum_R_cons. specialize (IH (fun y I => H y (or_intror I))).
  specialize (H x (or_introl eq_refl)). lra.
Qed.

Lemma level_bound objs surfs prev mp ns T lvl m i s id o h : library_assembly objs surfs -> nth_error surfs i = Some s -> s_opt s = Accountant id o ->
  traceable prev mp -> ns <= mp -> traceable lvl m -> all_rays lib_ray prev ->
  b_parents lvl <> None -> (forall k p, parent_at lvl k = Some p -> p < mp) ->
  NoDup h -> (forall j, In j h <-> exists t, meets_first T (length surfs) ns i j t) ->
  (forall i s j t d e, meets_first T (length surfs) ns i j t -> nth_error surfs i = Some s -> dir_at prev j = Some d ->
     energy_at prev j = Some e -> sends_on (s_opt s) (z_of (s_frame s)) d e (energy_from lvl j)) ->
  (forall j, (forall i t, ~ meets_first T (length surfs) ns i j t) -> energy_from lvl j = 0%R) ->
  (sum_R (map (fun j => energy_or prev j * absorptivity o)%R h) + total_energy lvl <= total_energy prev)%R.
Proof.
  intros La Es Eo Tp Ln Tl Al Pn Pl Nh Ih Sn Un.
  rewrite (total_or prev mp Tp), (total_energy_from lvl m mp Tl Pn Pl).
  rewrite <- (sum_mem (fun j => energy_or prev j * absorptivity o)%R h (seq 0 mp)); auto; [|apply seq_NoDup|].
  2:{ intros j Hj. apply Ih in Hj as (t & M). apply in_seq. assert (j < ns) by apply M. lia. }
  rewrite <- sum_plus. apply sum_le. intros j Hj. apply in_seq in Hj.
  destruct (traceable_energy prev mp j Tp) as (e & He); [lia|]. destruct (traceable_dir prev mp j Tp) as (d & Hd); [lia|].
  assert (E0 : (0 <= e)%R) by apply (Al j d e Hd He).
  assert (Ee : energy_or prev j = e) by (unfold energy_or; rewrite He; reflexivity). rewrite Ee.
  destruct (mem j h) eqn:Em.
  - apply mem_iff, Ih in Em as (t & M). pose proof (Sn i s j t d e M Es Hd He) as K. rewrite Eo in K.
    apply (sends_rest id o (z_of (s_frame s)) d); auto. rewrite <- Eo. apply (proj1 (proj2 La) s). eapply nth_error_In; eauto.
  - destruct (Classical_Prop.classic (exists i' t, meets_first T (length surfs) ns i' j t)) as [(i' & t & M)|N].
    + destruct (nth_lt surfs i') as (s' & Es'); [apply M|]. pose proof (Sn i' s' j t d e M Es' Hd He) as K.
      pose proof (sends_less (s_opt s') (z_of (s_frame s')) d e _ ltac:(apply (proj1 (proj2 La) s'); eapply nth_error_In; eauto) E0 K). lra.
    + rewrite Un; [lra|]. intros i' t M. apply N. eauto.
Qed.

Lemma receiver_bound : forall objs surfs, library_assembly objs surfs ->
  forall me g b n, library_source b n -> forall reps vs ds st,
  ray_tracer surface_ops objs surfs g b reps me TreeTrue = Ok (vs, ds, st) ->
  (forall prev, In prev (t_tree st) -> never_ties surfs prev) ->
  forall i s id o, nth_error surfs i = Some s -> s_opt s = Accountant id o -> sole_account surfs i id -> g_acc g id = mkAcc [] [] ->
  exists es hs, get_all_hits (g_acc (t_g st) id) = Ok (es, hs) /\ (sum_R es <= total_energy b)%R.
Proof.
  intros objs surfs La me g b n Ls reps vs ds st E Nt i s id o Es Eo Sa Fr.
  destruct (library_trace objs surfs me La g b n reps vs ds st Ls E) as (ns & Ts & gs & C & _ & Hlen & _ & _ & _ & _ & _ & _ & _ & Hlib).
  assert (K : forall L lvl, nth_error (t_tree st) L = Some lvl -> exists x, booked (gs L) s x /\ (x + total_energy lvl <= total_energy b)%R).
  { induction L as [|L IH]; intros lvl Hl.
    - exists 0%R. rewrite (ct_source _ _ _ _ _ _ _ _ _ _ _ _ _ C) in Hl. injection Hl as <-. split; [|lra].
      unfold booked. rewrite Eo, (ct_before _ _ _ _ _ _ _ _ _ _ _ _ _ C), Fr. exists []. auto.
    - destruct (nth_lt (t_tree st) L) as (prev & Hp). { assert (S L < length (t_tree st)) by (apply nth_error_Some; congruence). lia. }
      destruct (IH prev Hp) as (x & Bx & Lx). pose proof Hl as Hl'. rewrite <- Nat.add_1_r in Hl'.
      destruct (ct_level _ _ _ _ _ _ _ _ _ _ _ _ _ C L prev lvl Hp Hl') as (tb & rc & m & ems & R1 & R2 & R3 & R4 & R5 & R6 & (R7 & _) & R8 & R9).
      destruct (ct_traced _ _ _ _ _ _ _ _ _ _ _ _ _ C (proj1 Ls) L prev Hp) as (mp & T1 & T2 & _).
      destruct (tree_sent objs surfs La me g b n reps (t_tree st) ns Ts gs (t_g st) C Ls Hlib L prev lvl Hp Hl' (Nt prev (nth_error_In _ _ Hp))) as (Sn & Un).
      destruct (all_hits _ _ _ _ _ _ _ _ R1 R2) as (hs & Lh & Hh).
      destruct (nth_lt hs i) as (h & Eh). { rewrite Lh. apply nth_error_Some. congruence. }
      destruct (Hh i h Eh) as (Nh & Ih).
      destruct (level_noted _ _ _ _ _ _ _ _ _ _ _ _ _ La R1 R2 Es Eo Sa) as (l & N & (X1 & X2)).
      assert (Hpar : forall k p, parent_at lvl k = Some p -> p < mp).
      { intros k p Hk. assert (Hkm : k < m).
        { destruct R5 as (_ & (_ & Hr) & _). unfold parent_at, at_col in Hk. destruct (b_parents lvl) as [pl|] eqn:Ep; [|discriminate].
          specialize (Hr Parents (map PNat pl)). rewrite map_length in Hr. rewrite <- Hr; [|simpl; rewrite Ep; auto].
          apply nth_error_Some. congruence. }
        destruct (R7 k Hkm) as (i' & j' & t & v & d & A1 & A2 & _). assert (j' = p) by congruence. lia. }
      assert (Hpn : b_parents lvl <> None).
      { destruct (R7 0 R6) as (i' & j & t & v & d & A1 & _). unfold parent_at, at_col in A1. destruct (b_parents lvl); congruence. }
      pose proof (tree_lib objs surfs me g b n reps (t_tree st) ns Ts gs (t_g st) C Ls Hlib L prev Hp) as Al.
      pose proof (level_bound objs surfs prev mp (ns L) (Ts L) lvl m i s id o h La Es Eo T1 T2 R5 Al Hpn Hpar Nh Ih Sn Un) as Lb.
      exists (x + sum_R (map fst l))%R. split.
      + unfold booked in *. rewrite Eo in *. destruct Bx as (ls & A & B & ->). exists (ls ++ [l]). rewrite <- Nat.add_1_r.
        rewrite X1, X2, A, B, filter_app, !map_app, concat_app, map_app, ProcessProof.sum_R_app. cbn [concat]. rewrite app_nil_r. auto.
      + rewrite (noted_sum _ _ _ _ _ _ _ h N Nh Ih). lra. }
  assert (H0 : 0 < length (t_tree st)). { apply nth_error_Some. rewrite (ct_source _ _ _ _ _ _ _ _ _ _ _ _ _ C). discriminate. }
  destruct (nth_lt (t_tree st) (length (t_tree st) - 1)) as (lvl & Hl); [lia|].
  destruct (K _ lvl Hl) as (x & Bx & Lx). rewrite (ct_after _ _ _ _ _ _ _ _ _ _ _ _ _ C) in Bx.
  apply booked_record in Bx. unfold on_record in Bx. rewrite Eo in Bx. destruct Bx as (es & hs & Eg & ->). exists es, hs. split; auto.
  assert (0 <= total_energy lvl)%R; [|lra].
  destruct (ct_traced _ _ _ _ _ _ _ _ _ _ _ _ _ C (proj1 Ls) _ lvl Hl) as (mp & T1 & _).
  pose proof (tree_lib objs surfs me g b n reps (t_tree st) ns Ts gs (t_g st) C Ls Hlib _ lvl Hl) as Al.
  rewrite (total_or lvl mp T1). rewrite <- (sum_R_zero (map (fun _ => 0%R) (seq 0 mp))); [|intros y Iy; apply in_map_iff in Iy as (z & <- & _); auto].
  apply sum_le. intros j Hj. apply in_seq in Hj. destruct (traceable_energy lvl mp j T1) as (e & He); [lia|]. destruct (traceable_dir lvl mp j T1) as (d & Hd); [lia|].
  unfold energy_or. rewrite He. apply (Al j d e Hd He).
Qed.
