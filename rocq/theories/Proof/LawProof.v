(** Every ray of a trace follows the laws of the surface it comes from. *)
From Coq Require Import Reals String List Arith Bool Lia Lra Sorted.
From Verif.Base Require Import Py Num Vec.
From Verif.Model Require Import RayBundle Geometry TraceTree Sources Optics OpticsCallables Engine Surface.
From Verif.Proof Require Import GeomProof SelectProof TreeProof ListLemmas NumLemmas VecLemmas BundleProof IntersectProof ProcessProof IterProof CallProof OpticsProof RefractProof OpticsTop GeomTop
  SurfaceProof LibraryTop TraceTop ActProof LedgerProof.
From Verif.Spec Require Import BundleSpec EngineSpec GeometrySpec GeomIface OpticsSpec LibrarySpec LawSpec.
Import ListNotations.
Local Open Scope R_scope.

Lemma other_exists i1 i2 m : exists m', other_side i1 i2 m m'.
Proof. unfold other_side. destruct (Req_dec m i1) as [->|N]; [exists i2|exists i1]; split; intros; congruence. Qed.

(** ** The normal a surface reports *)
Definition the_normal (gm : geom) (frame : mat4) (p d : vec) : vec :=
  if is_quad gm then match normals gm frame [p] [d] with Ok (n :: _) => n | _ => V3 0 0 0 end
  else if Rltb 0 (dot d (zaxis frame)) then vopp (zaxis frame) else zaxis frame.

Lemma normals_each gm frame ks ns : is_quad gm = true -> normals gm frame (map pick_pt ks) (map pk_d ks) = Ok ns ->
  Forall2 (fun k n => n = the_normal gm frame (pick_pt k) (pk_d k)) ks ns.
Proof.
  intros Q H. unfold the_normal. rewrite Q.
  destruct gm; try discriminate; cbn [normals] in *; try (apply bind_ok in H as (inv & Ei & H); rewrite Ei; cbn [bind]);
    apply sequence_map2_ok in H; eapply Forall2_impl; try exact H; cbn beta; intros k n Hn; cbn [map2 sequence]; rewrite Hn; reflexivity.
Qed.

Lemma normals_exact gm frame b st ps idxs st' ns : rigid frame ->
  find_intersections gm frame b = Ok (st, ps) -> all_hit ps idxs -> select_geom gm st idxs = Ok st' -> get_normals st' = Ok ns ->
  Forall2 (fun i n => exists d p, direction_of b i d /\ point_of b ps i p /\ n = the_normal gm frame p d) idxs ns.
Proof.
  intros (r & t & -> & O) H Ha Hs Hn. destruct (find_bundle _ _ _ _ _ H) as (vs & ds & Hb).
  destruct (find_state _ _ _ _ _ _ _ Hb H) as (dt & _ & Lp & _).
  destruct (all_picked vs ds ps idxs Lp (proj2 (proj2 Hb)) Ha) as (ks & F).
  assert (Fin : Forall2 (fun k n => n = the_normal gm (mk4 r t) (pick_pt k) (pk_d k)) ks ns ->
    Forall2 (fun i n => exists d p, direction_of b i d /\ point_of b ps i p /\ n = the_normal gm (mk4 r t) p d) idxs ns).
  { clear Hn H Ha Hs. revert ns. induction F as [|i k idxs ks K F IH]; intros ns G.
    - inversion G; constructor.
    - inversion G as [|? n ? ns' Gn G']; subst. constructor; auto.
      destruct (point_of_picked b vs ds ps i k Hb K) as (K1 & K2). exists (pk_d k), (pick_pt k). auto. }
  apply Fin. destruct (is_quad gm) eqn:Q.
  - rewrite (select_quad _ _ _ _ _ _ _ _ _ Hb Q H F) in Hs.
    destruct (normals _ _ _ _) as [ns0|] eqn:En; [|discriminate]. cbn [bind] in Hs. injection Hs as <-. cbn in Hn. injection Hn as ->. apply normals_each; auto.
  - rewrite (select_flat _ _ _ _ _ _ _ _ _ Hb Q H F) in Hs. apply Ok_inj in Hs. subst st'. apply Ok_inj in Hn. subst ns.
    rewrite flat_normals by (eapply ListLemmas.Forall2_length; eauto).
    apply Forall2_map_r. clear - Q. unfold the_normal. rewrite Q. induction ks as [|k ks IH]; constructor; auto.
Qed.

(** ** One call of an optics manager *)
(** The rays of [o] are one for each selected ray and another one for those refracted;
    [src] says for which, [th] whether it is the refracted one. *)
Definition answered (opt : optics) (z : vec) (b : bundle) (sel : list nat) (pts ns : list vec) (o : bundle) (m : nat) (src : nat -> nat) (th : nat -> bool) : Prop :=
  (forall r, (r < m)%nat -> exists i d e p nn d' e' m', incoming b sel pts ns (src r) i d e p nn /\
    child b o r i p d' e' m' /\ follows (th r) opt z nn d e (ref_at b i) d' e' m') /\
  (forall k, (k < length sel)%nat -> exists r, (r < m)%nat /\ src r = k /\ th r = false) /\
  (forall k i d e p nn, incoming b sel pts ns k i d e p nn -> ((exists r, (r < m)%nat /\ src r = k /\ th r = true) <-> refracts opt nn d (ref_at b i))) /\
  (forall r r', (r < m)%nat -> (r' < m)%nat -> src r = src r' -> th r = th r' -> r = r').

Lemma sorted_inj (l : list nat) a a' x : StronglySorted lt l -> nth_error l a = Some x -> nth_error l a' = Some x -> a = a'.
Proof.
  intros Sl E E'. pose proof (sorted_NoDup _ Sl) as N. rewrite NoDup_nth_error in N. apply N; [apply nth_error_Some; congruence|congruence].
Qed.

Lemma optics_follow opt gs b n ps sel pts ns z g o g1 : optics_ok opt -> traceable b n ->
  all_rays lib_ray b -> sel <> [] -> NoDup sel -> (forall i, In i sel -> (i < n)%nat) ->
  Forall2 (point_of b ps) sel pts -> told gs pts ns z -> Forall is_unit ns -> fair (g_rng g) ->
  call_optics opt gs b sel g = Ok (o, g1) ->
  fair (g_rng g1) /\ exists m src th, traceable o m /\ same_set o b /\ answered opt z b sel pts ns o m src th.
Proof.
  intros Ho T Ha Ne Nd Hs Hp G Un Fg E. pose proof G as (_ & _ & _ & Lpn).
  pose proof (eq_sym (proj1 (proj1 (Forall2_nth _ _ _) Hp))) as Lp.
  assert (Each : forall P, (forall nn d m, ~ refracts opt nn d m) -> one_each b sel pts ns o P ->
    (forall d e nn d' e' m, P d e nn d' e' -> follows false opt z nn d e m d' e' m) ->
    exists m src th, traceable o m /\ same_set o b /\ answered opt z b sel pts ns o m src th).
  { intros P Nr (To & So & H) HF. exists (length sel), (fun r => r), (fun _ => false). split; auto. split; auto. split; [|split; [|split]].
    - intros r Hr. destruct (nth_lt sel r Hr) as (i & Ei).
      destruct (incoming_exists b n sel pts ns r i T Hs Lp ltac:(lia) Ei) as (d & e & p & nn & I).
      destruct (H r i d e p nn I) as (d' & e' & HP & C). exists i, d, e, p, nn, d', e', (ref_at b i). auto.
    - intros k Hk. exists k. auto.
    - intros k i d e p nn I. split; [intros (r & _ & _ & X); discriminate X|intros X; destruct (Nr _ _ _ X)].
    - auto. }
  assert (Plain : forall ab g g1, (forall w z n d e m d' e' m', follows w opt z n d e m d' e' m' <-> follows w (Absorbing ab) z n d e m d' e' m') ->
    (forall nn d m, ~ refracts opt nn d m) -> fair (g_rng g) -> call_optics (Absorbing ab) gs b sel g = Ok (o, g1) ->
    fair (g_rng g1) /\ exists m src th, traceable o m /\ same_set o b /\ answered opt z b sel pts ns o m src th).
  { clear E g g1 Fg. intros ab g g1 Sf Nr Fg E. destruct ab as [a|a|a].
    - destruct (reflective_top a gs b n sel pts ns z g T Hs G Lp Un) as (o' & E' & O).
      assert (o' = o /\ g1 = g) as (-> & ->) by (split; congruence). split; auto.
      apply (Each _ Nr O). intros d e nn d' e' m (H1 & H2). apply Sf. cbn [follows]. auto.
    - destruct (absorber_top a gs b n sel pts ns z g T Hs G Lp Un) as (o' & E' & O).
      assert (o' = o /\ g1 = g) as (-> & ->) by (split; congruence). split; auto.
      apply (Each _ Nr O). intros d e nn d' e' m (H1 & H2 & H3). apply Sf. cbn [follows]. auto 7.
    - destruct (lambertian_any a gs b n sel pts ns z g T Hs G Lp Un) as (o' & g' & E' & Fk & _ & O).
      assert (o' = o /\ g1 = g') as (-> & ->) by (split; congruence). split; auto.
      apply (Each _ Nr O). intros d e nn d' e' m (H1 & H2 & H3). apply Sf. cbn [follows]. auto 7. }
  destruct opt as [ab|id ab|i1 i2].
  - exact (Plain ab g g1 ltac:(tauto) ltac:(cbn; tauto) Fg E).
  - cbn [call_optics] in E. apply bind_ok in E as (acc & _ & E). apply bind_ok in E as ([r rg] & E & E').
    injection E' as -> <-. destruct (Plain ab g (mkG rg (g_acc g)) ltac:(destruct ab; cbn [follows]; tauto) ltac:(cbn; tauto) Fg) as (A & B).
    { cbn [call_optics]. rewrite E. reflexivity. }
    split; [exact A|exact B].
  - destruct Ho as (P1 & P2).
    destruct (rows_plain b n sel pts ns T Hs Lp ltac:(congruence)) as (ks & -> & -> & -> & H).
    assert (Ne' : ks <> []) by (intros ->; apply Ne; reflexivity).
    assert (Q : forall r, In r ks -> lib_ray (w_d r) (w_e r) (ref_at b (w_i r))).
    { intros r I. apply Ha; [apply (hr_dir _ _ H)|apply (hr_energy _ _ H)]; auto. }
    assert (Ur : forall r, In r ks -> is_unit (w_d r) /\ is_unit (w_n r)).
    { intros r I. split; [apply (Q r I)|]. rewrite Forall_forall in Un. apply Un, in_map; auto. }
    assert (Pr : b_ref b <> None -> forall r, In r ks -> 0 < w_r r).
    { intros Hr r I. apply (Q r I). apply (hr_ref _ _ H Hr r I). }
    pose proof E as E0. cbn [call_optics] in E. apply bind_ok in E as (o' & E & E'). injection E' as -> <-.
    destruct (refractive_defined i1 i2 gs b n ks z o P1 P2 T H G Ne' Pr Ur E) as (Hr & Df).
    assert (Rm : forall r, In r ks -> ref_at b (w_i r) = Some (w_r r)) by (intros; apply (hr_ref _ _ H Hr); auto).
    destruct (refractive_top i1 i2 gs b n (map w_i ks) (map w_p ks) (map w_n ks) z g P1 P2) as (o' & E1 & (refr & Sr & Rr & To & So & Sp) & _).
    { split; [exact T|]. split; [exact Hs|]. split; [exact G|]. split; [congruence|]. split; [exact Un|].
      split; [exact Ne|]. intros k i0 d0 e0 p0 n0 I0. apply (incoming_row b ks) in I0 as (r & Hk & -> & -> & -> & -> & ->); auto.
      pose proof (nth_error_In _ _ Hk) as I. split; [apply Ur; auto|].
      exists (w_r r). split; [apply Rm; auto|]. split; [apply Pr; auto|].
      intros m' Om. assert (m' = other i1 i2 r) as -> by (unfold other; destruct Om; rdec; auto). apply Df; auto. }
    assert (o' = o) by congruence. subst o'. split; auto. set (len := length (map w_i ks)) in *.
    exists (len + length refr)%nat, (fun r => if Nat.ltb r len then r else nth (r - len) refr 0%nat), (fun r => negb (Nat.ltb r len)). split; auto. split; auto.
    assert (Row : forall k i d e p nn, incoming b (map w_i ks) (map w_p ks) (map w_n ks) k i d e p nn -> exists m m',
      ref_at b i = Some m /\ 0 < m /\ 0 < m' /\ other_side i1 i2 m m').
    { intros k i d e p nn I.
      pose proof I as I'. apply (incoming_row b ks) in I' as (r & Hk' & -> & -> & -> & -> & ->); auto.
      pose proof (nth_error_In _ _ Hk') as Ir. destruct (other_exists i1 i2 (w_r r)) as (m' & Om).
      exists (w_r r), m'. split; [apply Rm; auto|]. split; [apply Pr; auto|]. split; auto.
      destruct Om as (O1 & O2). destruct (Req_dec (w_r r) i1) as [X|X]; [rewrite (O1 X)|rewrite (O2 X)]; auto. }
    assert (Inc : forall k, (k < len)%nat -> exists i d e p nn, incoming b (map w_i ks) (map w_p ks) (map w_n ks) k i d e p nn).
    { intros k Hk. destruct (nth_lt _ _ Hk) as (i & Ei).
      destruct (incoming_exists b n _ (map w_p ks) (map w_n ks) k i T Hs Lp ltac:(fold len in Lp |- *; lia) Ei) as (d & e & p & nn & I). eauto 6. }
    assert (At : forall a k, nth_error refr a = Some k -> (if Nat.ltb (len + a) len then (len + a)%nat else nth (len + a - len) refr 0%nat) = k).
    { intros a k Ek. destruct (Nat.ltb_spec (len + a) len); [lia|]. replace (len + a - len)%nat with a by lia. apply nth_error_nth; auto. }
    split; [|split; [|split]].
    + intros r Hr'. destruct (Nat.ltb_spec r len) as [L|L]; cbn [negb].
      * destruct (Inc r L) as (i & d & e & p & nn & I). destruct (Row _ _ _ _ _ _ I) as (m & m' & Em & Pm & Pm' & Om).
        destruct (Sp r i d e p nn m m' I Em Om) as (_ & d1 & f & Bf & Mi & C & F1 & F2 & _).
        exists i, d, e, p, nn, d1, (e * f), (Some m). split; auto. split; auto. cbn [follows]. exists m, m', f.
        rewrite Em. repeat (split; auto); try apply Bf; try apply Om.
      * destruct (nth_lt refr (r - len) ltac:(lia)) as (k & Ek). rewrite (nth_error_nth _ _ _ Ek).
        pose proof (Rr k (nth_error_In _ _ Ek)) as Lk.
        destruct (Inc k Lk) as (i & d & e & p & nn & I). destruct (Row _ _ _ _ _ _ I) as (m & m' & Em & Pm & Pm' & Om).
        destruct (Sp k i d e p nn m m' I Em Om) as (Ir & d1 & f & Bf & Mi & _ & F1 & F2 & C).
        destruct (C _ Ek) as (d2 & Sn & C2). replace (len + (r - len))%nat with r in C2 by lia.
        exists i, d, e, p, nn, d2, (e * (1 - f)), (Some m'). split; auto. split; auto. cbn [follows]. exists m, m', f.
        rewrite Em. repeat (split; auto); try apply Bf; try apply Om. apply Ir. eapply nth_error_In; eauto.
    + intros k Hk. exists k. destruct (Nat.ltb_spec k len); [|lia]. split; [lia|]. auto.
    + intros k i d e p nn I. destruct (Row _ _ _ _ _ _ I) as (m & m' & Em & Pm & Pm' & Om).
      destruct (Sp k i d e p nn m m' I Em Om) as (Ir & _). cbn [refracts]. split.
      * intros (r & Hr' & Es & Et). destruct (Nat.ltb_spec r len) as [L|L]; [discriminate Et|].
        exists m, m'. split; auto. split; auto. apply Ir. destruct (nth_lt refr (r - len) ltac:(lia)) as (k' & Ek). rewrite (nth_error_nth _ _ _ Ek) in Es. subst k'. eapply nth_error_In; eauto.
      * intros (m1 & m1' & Em1 & Om1 & Cr). assert (m1 = m) by congruence. subst m1.
        assert (m1' = m'). { destruct Om as (A1 & A2), Om1 as (B1 & B2). destruct (Req_dec m i1) as [X|X]; [rewrite (A1 X), (B1 X)|rewrite (A2 X), (B2 X)]; auto. }
        subst m1'. apply Ir in Cr. apply In_nth_error in Cr as (a & Ea). exists (len + a)%nat.
        split; [assert (a < length refr)%nat by (apply nth_error_Some; congruence); lia|]. split; [apply At; auto|].
        destruct (Nat.ltb_spec (len + a) len); [lia|auto].
    + intros r r' Hr1 Hr2 Es Et. destruct (Nat.ltb_spec r len) as [L|L], (Nat.ltb_spec r' len) as [L'|L']; try discriminate Et; auto.
      destruct (nth_lt refr (r - len) ltac:(lia)) as (k & Ek). destruct (nth_lt refr (r' - len) ltac:(lia)) as (k' & Ek').
      rewrite (nth_error_nth _ _ _ Ek), (nth_error_nth _ _ _ Ek') in Es. subst k'.
      pose proof (sorted_inj _ _ _ _ Sr Ek Ek'). lia.
Qed.

(** ** All rays of one surface *)
Lemma made_same b b' j s t nn w o k : same_ray b j b' j -> made_from b j s t nn w o k -> made_from b' j s t nn w o k.
Proof.
  intros Sm (v & d & e & q & g & d' & e' & Hv & Hd & He & Hp & Hv' & Hd' & He' & Hq & Hg & Hn & F & X).
  exists v, d, e, q, g, d', e'. rewrite <- (same_ray_vert _ _ _ _ Sm), <- (same_ray_dir _ _ _ _ Sm), <- (same_ray_energy _ _ _ _ Sm), <- (same_ray_ref _ _ _ _ Sm).
  repeat (split; auto). intros x. rewrite X. exact (Sm (Extra x)).
Qed.
Lemma made_copy b j s t nn w o k o' k' : same_ray o' k' o k -> made_from b j s t nn w o k -> made_from b j s t nn w o' k'.
Proof.
  intros Sm (v & d & e & q & g & d' & e' & Hv & Hd & He & Hp & Hv' & Hd' & He' & Hq & Hg & Hn & F & X).
  exists v, d, e, q, g, d', e'. rewrite (same_ray_vert _ _ _ _ Sm), (same_ray_dir _ _ _ _ Sm), (same_ray_energy _ _ _ _ Sm), (same_ray_ref _ _ _ _ Sm), (same_ray_parent _ _ _ _ Sm).
  repeat (split; auto). intros x. rewrite <- X. exact (Sm (Extra x)).
Qed.

(** The place of [j] in a list. *)
Fixpoint place (j : nat) (l : list nat) : nat := match l with [] => 0 | x :: r => if Nat.eqb x j then 0 else S (place j r) end.
Lemma place_at l q j : NoDup l -> nth_error l q = Some j -> place j l = q.
Proof.
  revert q. induction l as [|x l IH]; intros [|q] N E; cbn in *; try discriminate.
  - injection E as ->. rewrite Nat.eqb_refl. auto.
  - inversion N; subst. destruct (Nat.eqb_spec x j) as [->|_]; [exfalso; apply H1; eapply nth_error_In; eauto|]. f_equal. auto.
Qed.

(** The rays a surface emits for the rays [hits] of [b]: [th] are those that pass it. *)
Definition all_sent (b : bundle) (T : reports) (i : nat) (s : surface) (hits : list nat) (o : bundle) (m : nat) (th : nat -> bool) (N : nat -> vec) : Prop :=
  (forall k, (k < m)%nat -> exists j t, In j hits /\ T i j = Some (Fin t) /\ made_from b j s t (N j) (th k) o k) /\
  (forall j d, In j hits -> dir_at b j = Some d ->
     (exists k, (k < m)%nat /\ parent_at o k = Some j /\ th k = false) /\
     ((exists k, (k < m)%nat /\ parent_at o k = Some j /\ th k = true) <-> refracts (s_opt s) (N j) d (ref_at b j))) /\
  (forall k k' j, (k < m)%nat -> (k' < m)%nat -> parent_at o k = Some j -> parent_at o k' = Some j -> th k = th k' -> k = k') /\
  (forall j t v d, In j hits -> T i j = Some (Fin t) -> vert_at b j = Some v -> dir_at b j = Some d -> N j = the_normal (s_geom s) (s_frame s) (ray_at v d t) d).

Lemma emission_laws b n T i s hits g o g1 : traceable b n -> all_rays lib_ray b -> rigid (s_frame s) -> optics_ok (s_opt s) -> fair (g_rng g) ->
  emission surface_ops b n T i s hits g o g1 -> StronglySorted lt hits -> hits <> [] ->
  (forall j, In j hits -> exists t, T i j = Some (Fin t)) ->
  fair (g_rng g1) /\ exists m th N, rays o m /\ b_parents o <> None /\ same_set o b /\ all_sent b T i s hits o m th N.
Proof.
  intros Tb Ha Hf Ho Fg (sub & ps & s1 & idx & s2 & o0 & q & q' & Nm & Hsub & Rg & Hps & Hidx & Sl & Og & Sp & Eq & Eq' & Pk) Sh Ne Hh.
  cbn [surface_ops register_incoming select_rays get_outgoing] in *.
  pose proof (picked_traceable b _ sub n Tb Nm Hsub) as Ts.
  pose proof (picked_all lib_ray b _ sub n Tb Ts Hsub Ha) as As.
  assert (Lh : length hits = length idx) by (eapply picks_length; eauto).
  assert (Hj : forall k i0 j, nth_error idx k = Some i0 -> nth_error hits k = Some j -> nth_error (asked T n i) i0 = Some j).
  { intros k i0 j. apply (Forall2_at _ _ _ k i0 j Hidx). }
  assert (Hp : forall i0 j t, nth_error (asked T n i) i0 = Some j -> T i j = Some (Fin t) -> nth_error ps i0 = Some (Fin t)).
  { intros i0 j t A B. destruct (nth_error ps i0) as [x|] eqn:Ex.
    - pose proof (Forall2_at _ _ _ _ _ _ Hps A Ex). congruence.
    - apply nth_error_None in Ex. rewrite <- (proj1 (proj1 (Forall2_nth _ _ _) Hps)) in Ex.
      assert (i0 < length (asked T n i))%nat by (apply nth_error_Some; congruence). lia. }
  assert (Hk : forall k i0, nth_error idx k = Some i0 -> exists j, nth_error hits k = Some j).
  { intros k i0 Hk. apply nth_lt. rewrite Lh. apply nth_error_Some. congruence. }
  assert (Ah : all_hit ps idx).
  { intros i0 Hi. apply In_nth_error in Hi as (k & Hk0). destruct (Hk k i0 Hk0) as (j & Ej).
    destruct (Hh j (nth_error_In _ _ Ej)) as (t & Et). exists t. apply (Hp i0 j t); eauto. }
  assert (Nd : NoDup idx).
  { pose proof (sorted_NoDup _ Sh) as Nh. rewrite NoDup_nth_error in Nh |- *. intros k k' L E.
    destruct (nth_error idx k) as [i0|] eqn:E0. 2:{ apply nth_error_None in E0. lia. }
    destruct (Hk _ _ E0) as (j & Ej). destruct (Hk _ _ (eq_sym E)) as (j' & Ej').
    apply Nh; [rewrite Lh; auto|]. rewrite Ej, Ej'. pose proof (Hj _ _ _ E0 Ej). pose proof (Hj _ _ _ (eq_sym E) Ej'). congruence. }
  assert (Ni : idx <> []). { intros ->. apply Ne. destruct hits; [auto|discriminate]. }
  apply register_inv in Rg as (gs & F & ->). apply select_inv in Sl as (gs2 & Sg & ->).
  cbn [s_geom s_opt s_frame s_gstate s_bundle s_selected] in *. unfold surf_outgoing in Og.
  cbn [s_geom s_opt s_frame s_gstate s_bundle s_selected] in Og.
  destruct (selected_told _ _ _ _ _ _ _ _ Hf Ts F Ah Sg) as (pts & ns & z & G & Lp & Un & Hpt & Hs).
  destruct (normals_reported _ _ _ _ _ _ _ Hf F Ah Sg) as (ns' & Gn & Nr).
  assert (ns' = ns) as -> by (destruct G as (_ & Gn' & _); congruence).
  assert (z = z_of (s_frame s)).
  { destruct G as (_ & _ & Hz & _). rewrite (up_kept _ _ _ _ Sg), (up_found _ _ _ _ _ F) in Hz. rewrite <- (zaxis_z_of _ Hf). congruence. }
  subst z.
  destruct (optics_follow (s_opt s) gs2 sub _ ps idx pts ns _ g o0 g1 Ho Ts As Ni Nd Hs Hpt G Un Fg Og) as (Fg1 & m & src & th & To & So & L & L1 & L2 & L3).
  split; auto. exists m, th, (fun j => nth (place j hits) ns (V3 0 0 0)).
  assert (Sb : same_set sub b).
  { intros p _. specialize (Hsub p). destruct (prop b p); [destruct Hsub as (l' & -> & _)|rewrite Hsub]; split; congruence. }
  assert (Lq : length q = m). { destruct To as (_ & (_ & Hl) & _). specialize (Hl Parents (map PNat q)). rewrite map_length in Hl. apply Hl. simpl. rewrite Eq. auto. }
  split; [|split; [congruence|split]].
  - destruct To as (_ & ((v & Hv) & Hl) & _). split; [exists v; rewrite Sp by discriminate; auto|].
    intros p l Hl0. assert (D : p = Parents \/ p <> Parents) by (destruct p; (left; reflexivity) || (right; discriminate)).
    destruct D as [->|D]; [|rewrite (Sp p D) in Hl0; eauto].
    simpl in Hl0. rewrite Eq' in Hl0. injection Hl0 as <-. rewrite map_length, (picks_length _ _ _ Pk). auto.
  - intros p D. rewrite (Sp p D), (So p D). apply Sb; auto.
  - assert (Nh : NoDup hits) by (apply sorted_NoDup; auto).
    assert (Par : forall r, (r < m)%nat -> exists i0 j, nth_error idx (src r) = Some i0 /\ nth_error hits (src r) = Some j /\ parent_at o r = Some j).
    { intros r Hr. destruct (L r Hr) as (i0 & d & e & p & nn & d' & e' & m' & (I1 & _) & C & _). destruct (Hk _ _ I1) as (j & Ej).
      exists i0, j. split; auto. split; auto. pose proof (ch_parent _ _ _ _ _ _ _ _ C) as C4. pose proof (Hj _ _ _ I1 Ej) as Ea.
      unfold parent_at, at_col in *. rewrite Eq'. rewrite Eq in C4.
      destruct (nth_error q' r) as [x|] eqn:Ex.
      - pose proof (Forall2_at _ _ _ _ _ _ Pk C4 Ex) as Y. cbv beta in Y. congruence.
      - apply nth_error_None in Ex. rewrite (picks_length _ _ _ Pk) in Ex. lia. }
    split; [|split; [|split]].
    + intros r Hr. destruct (L r Hr) as (i0 & d & e & p & nn & d' & e' & m' & (I1 & I2 & I3 & I4 & I5) & [C1 C2 C3 C4 C5 C6] & Fo).
      destruct (Hk _ _ I1) as (j & Ej). pose proof (Hj _ _ _ I1 Ej) as Ea. destruct (Hh j (nth_error_In _ _ Ej)) as (t & Et).
      pose proof (picked_same _ _ _ _ _ Hsub Ea) as Sm.
      destruct (Forall2_at _ _ _ _ _ _ Hpt I1 I4) as (vs & ds & v & d0 & t0 & Hr0 & Ev & Ed & Ep & ->).
      assert (t0 = t) as -> by (pose proof (Hp _ _ _ Ea Et); congruence).
      destruct (Forall2_at _ _ _ _ _ _ Nr I1 I5) as (d1 & p1 & q1 & gr & (vs1 & ds1 & Hr1 & Ed1) & (vs2 & ds2 & v2 & d2 & t2 & Hr2 & Ev2 & Ed2 & Ep2 & Hp1) & Hq & Hg & Hn).
      assert (Bv : b_vert sub = Some vs) by apply Hr0. assert (Bd : b_dir sub = Some ds) by apply Hr0.
      assert (ds1 = ds) as -> by (destruct Hr1; intuition congruence). assert (ds2 = ds) as -> by (destruct Hr2; intuition congruence).
      assert (vs2 = vs) as -> by (destruct Hr2; intuition congruence).
      assert (Dd : dir_at sub i0 = Some d0) by (unfold dir_at, at_col; rewrite Bd; auto).
      assert (Dv : vert_at sub i0 = Some v) by (unfold vert_at, at_col; rewrite Bv; auto).
      assert (d0 = d) as -> by congruence. assert (d1 = d) as -> by congruence. assert (d2 = d) as -> by congruence.
      assert (v2 = v) as -> by congruence. assert (t2 = t) as -> by congruence.
      exists j, t. split; [eapply nth_error_In; eauto|]. split; auto.
      rewrite (place_at hits _ j Nh Ej), (nth_error_nth _ _ _ I5).
      exists v, d, e, q1, gr, d', e'.
      rewrite <- (same_ray_vert _ _ _ _ Sm), <- (same_ray_dir _ _ _ _ Sm), <- (same_ray_energy _ _ _ _ Sm), <- (same_ray_ref _ _ _ _ Sm).
      assert (At : forall p, p <> Parents -> at_p o p r = at_p o0 p r) by (intros p D; unfold at_p; rewrite (Sp p D); auto).
      assert (Vo : vert_at o r = vert_at o0 r). { eapply option_map_inj; [|rewrite <- !vert_at_p; apply At; discriminate]. congruence. }
      assert (Do : dir_at o r = dir_at o0 r). { eapply option_map_inj; [|rewrite <- !dir_at_p; apply At; discriminate]. congruence. }
      assert (Eo : energy_at o r = energy_at o0 r). { eapply option_map_inj; [|rewrite <- !energy_at_p; apply At; discriminate]. congruence. }
      assert (Ro : ref_at o r = ref_at o0 r). { eapply option_map_inj; [|rewrite <- !ref_at_p; apply At; discriminate]. congruence. }
      assert (Po : parent_at o r = Some j) by (destruct (Par r Hr) as (x & y & _ & A & B); congruence).
      rewrite Vo, Do, Eo, Ro, C5. repeat (split; auto).
      { congruence. }
      intros x. specialize (C6 x). pose proof (Sm (Extra x)) as Sx. unfold extra_at. unfold at_p in Sx. rewrite <- Sx, (Sp (Extra x) ltac:(discriminate)).
      destruct (prop sub (Extra x)) as [l|]; [destruct C6 as (l' & -> & Q); exact Q|rewrite C6; reflexivity].
    + intros j d Hin Hd. apply In_nth_error in Hin as (k & Ej).
      assert (Lk : (k < length idx)%nat) by (rewrite <- Lh; apply nth_error_Some; congruence). destruct (nth_lt idx k Lk) as (i0 & Ei).
      assert (Back : forall r, (r < m)%nat -> parent_at o r = Some j -> src r = k).
      { intros r Hr Hpr. destruct (Par r Hr) as (_ & j1 & _ & A & B). rewrite NoDup_nth_error in Nh. apply Nh; [apply nth_error_Some; congruence|congruence]. }
      assert (Forth : forall r, (r < m)%nat -> src r = k -> parent_at o r = Some j).
      { intros r Hr Er. destruct (Par r Hr) as (_ & j1 & _ & A & B). congruence. }
      split.
      { destruct (L1 k Lk) as (r & Hr & Er & Et). exists r. auto. }
      destruct (incoming_exists sub _ idx pts ns k i0 Ts Hs Lp) as (d1 & e1 & p1 & n1 & I); auto. { destruct G as (_ & _ & _ & Lpn). lia. }
      pose proof (L2 _ _ _ _ _ _ I) as R2. destruct I as (_ & I2 & _ & _ & I5).
      pose proof (picked_same _ _ _ _ _ Hsub (Hj _ _ _ Ei Ej)) as Sm.
      rewrite (same_ray_dir _ _ _ _ Sm), Hd in I2. injection I2 as <-. rewrite (same_ray_ref _ _ _ _ Sm) in R2.
      rewrite (place_at hits _ j Nh Ej), (nth_error_nth _ _ _ I5). rewrite <- R2.
      split; intros (r & Hr & A & B); exists r; auto.
    + intros k k' j Hk1 Hk2 P1 P2 Et. apply L3; auto.
      destruct (Par k Hk1) as (_ & j1 & _ & A1 & B1). destruct (Par k' Hk2) as (_ & j2 & _ & A2 & B2).
      rewrite NoDup_nth_error in Nh. apply Nh; [apply nth_error_Some; congruence|congruence].
    + intros j t v d Hin Ht Hv Hd. apply In_nth_error in Hin as (k & Ej).
      assert (Lk : (k < length idx)%nat) by (rewrite <- Lh; apply nth_error_Some; congruence). destruct (nth_lt idx k Lk) as (i0 & Ei).
      pose proof (Hj _ _ _ Ei Ej) as Ea. pose proof (picked_same _ _ _ _ _ Hsub Ea) as Sm. pose proof (Hp _ _ _ Ea Ht) as Ept.
      rewrite (place_at hits _ j Nh Ej).
      destruct (nth_lt ns k) as (nn & En). { destruct G as (_ & _ & _ & Lpn). lia. }
      rewrite (nth_error_nth _ _ _ En).
      destruct (Forall2_at _ _ _ _ _ _ (normals_exact _ _ _ _ _ _ _ _ Hf F Ah Sg Gn) Ei En) as (d1 & p1 & (vs1 & ds1 & Hr1 & Ed1) & (vs2 & ds2 & v2 & d2 & t2 & Hr2 & Ev2 & Ed2 & Ep2 & ->) & ->).
      rewrite <- (same_ray_vert _ _ _ _ Sm) in Hv. rewrite <- (same_ray_dir _ _ _ _ Sm) in Hd. unfold vert_at, dir_at, at_col in Hv, Hd.
      destruct Hr1 as (_ & Bd1 & _), Hr2 as (Bv2 & Bd2 & _). rewrite Bv2 in Hv. rewrite Bd2 in Hd.
      f_equal; [|congruence]. f_equal; congruence.
Qed.

(** ** One iteration *)
(** Without additional properties, or with one of them. *)
Definition keep (ox : option string) (b : bundle) : bundle :=
  mkB (b_vert b) (b_dir b) (b_energy b) (b_parents b) (b_ref b)
      (match ox with
       | None => []
       | Some x => match lookup x (b_extra b) with Some (Some l) => [(x, Some l)] | _ => [] end
       end).

Lemma keep_prop ox b p : (forall x, p <> Extra x) -> prop (keep ox b) p = prop b p.
Proof. destruct p; intros H; try reflexivity. exfalso. exact (H _ eq_refl). Qed.

Lemma keep_extra x b : prop (keep (Some x) b) (Extra x) = prop b (Extra x).
Proof. cbn. destruct (lookup x (b_extra b)) as [[l|]|]; cbn; auto. rewrite String.eqb_refl. auto. Qed.

Lemma keep_other ox x b : ox <> Some x -> prop (keep ox b) (Extra x) = None.
Proof.
  intros N. destruct ox as [y|]; cbn; auto. destruct (lookup y (b_extra b)) as [[l|]|]; cbn; auto.
  destruct (String.eqb_spec y x); congruence.
Qed.

Lemma keep_names ox b : names_ok (keep ox b).
Proof.
  unfold names_ok. destruct ox as [x|]; cbn; [|constructor].
  destruct (lookup x (b_extra b)) as [[l|]|]; cbn; repeat constructor. auto.
Qed.

Lemma concat_extras_lookup own bs r x l : lookup x own = Some (Some l) -> concat_extras own bs = Ok r ->
  exists ls, mapM (fun c => get_extra x c SAll) bs = Ok ls /\ lookup x r = Some (Some (concat ls)).
Proof.
  revert r. induction own as [|[y v] own IH]; cbn [lookup concat_extras]; intros r El H; [discriminate|].
  destruct (String.eqb_spec y x) as [->|Ny].
  - injection El as ->. apply bind_ok in H as (ls & E & H). apply bind_ok in H as (r' & E' & H). injection H as <-.
    exists ls. cbn. rewrite String.eqb_refl. auto.
  - destruct v as [v|]; [|eauto]. apply bind_ok in H as (l0 & E & H). apply bind_ok in H as (r' & E' & H). injection H as <-.
    destruct (IH r' El E') as (ls & A & B). exists ls. cbn. destruct (String.eqb_spec y x); [congruence|auto].
Qed.

Lemma mapM_map {A B C} (h : B -> C) (f : C -> res A) l : mapM f (map h l) = mapM (fun x => f (h x)) l.
Proof. unfold mapM. rewrite map_map. reflexivity. Qed.

Lemma concat_keep ox b bs r : (forall x, ox = Some x -> prop b (Extra x) <> None) ->
  concatenate_rays (b :: bs) = Ok r -> concatenate_rays (map (keep ox) (b :: bs)) = Ok (keep ox r).
Proof.
  intros Hx.
  assert (K : forall A (f : bundle -> option (list A)), (forall c, f (keep ox c) = f c) -> concat_prop f (map (keep ox) (b :: bs)) = concat_prop f (b :: bs)).
  { intros A f Hf. unfold concat_prop. cbn [map]. rewrite Hf. destruct (f b); auto.
    change (keep ox b :: map (keep ox) bs) with (map (keep ox) (b :: bs)). rewrite mapM_map.
    assert (mapM (fun c => get_prop (f (keep ox c)) SAll) (b :: bs) = mapM (fun c => get_prop (f c) SAll) (b :: bs)) as ->; auto.
    unfold mapM. f_equal. apply map_ext. intros c. rewrite Hf. reflexivity. }
  unfold concatenate_rays. cbn [map]. change (keep ox b :: map (keep ox) bs) with (map (keep ox) (b :: bs)).
  intros H. rewrite !K by reflexivity.
  do 5 (let y := fresh in let E := fresh in apply bind_ok in H as (y & E & H); rewrite E; cbn [bind]).
  apply bind_ok in H as (x & Ex & H). injection H as <-.
  destruct ox as [y|]; [|reflexivity].
  specialize (Hx y eq_refl). cbn [prop] in Hx.
  destruct (lookup y (b_extra b)) as [[l|]|] eqn:El; try congruence.
  destruct (concat_extras_lookup _ _ _ _ _ El Ex) as (ls & A & B).
  unfold keep at 1. cbn [b_extra]. rewrite El. cbn [concat_extras]. rewrite mapM_map.
  assert (mapM (fun c => get_extra y (keep (Some y) c) SAll) (b :: bs) = mapM (fun c => get_extra y c SAll) (b :: bs)) as ->.
  { unfold mapM. f_equal. apply map_ext. intros c. unfold get_extra. cbn [keep b_extra]. destruct (lookup y (b_extra c)) as [[l0|]|]; cbn; auto. rewrite String.eqb_refl. auto. }
  rewrite A. unfold keep. cbn [bind b_extra]. rewrite B. reflexivity.
Qed.

Lemma locate ns k : (k < total ns)%nat -> exists a na k0, nth_error ns a = Some na /\ (k0 < na)%nat /\ k = (total (firstn a ns) + k0)%nat.
Proof.
  revert k. induction ns as [|x ns IH]; intros k H; cbn in H; [lia|].
  destruct (Nat.lt_ge_cases k x) as [L|L].
  - exists 0%nat, x, k. cbn. auto.
  - destruct (IH (k - x)%nat ltac:(lia)) as (a & na & k0 & E & L0 & E0). exists (S a), na, k0. cbn. split; auto. split; auto. lia.
Qed.

Lemma locate_once ns : forall a na k a' na' k', nth_error ns a = Some na -> (k < na)%nat -> nth_error ns a' = Some na' -> (k' < na')%nat ->
  (total (firstn a ns) + k = total (firstn a' ns) + k')%nat -> a = a' /\ k = k'.
Proof.
  induction ns as [|x ns IH]; intros [|a] na k [|a'] na' k' E L E' L' H; cbn in *; try discriminate.
  - auto.
  - injection E as ->. lia.
  - injection E' as ->. lia.
  - destruct (IH a na k a' na' k' E L E' L'); [lia|]. auto.
Qed.
Lemma total_at ns : forall a na k, nth_error ns a = Some na -> (k < na)%nat -> (total (firstn a ns) + k < total ns)%nat.
Proof. induction ns as [|x ns IH]; intros [|a] na k E L; cbn in *; try discriminate; [injection E as ->; lia|]. pose proof (IH a na k E L). lia. Qed.

Lemma choose {X} (x0 : X) (P : nat -> X -> Prop) n : (forall k, (k < n)%nat -> exists x, P k x) -> exists f, forall k, (k < n)%nat -> P k (f k).
Proof.
  induction n as [|n IH]; intros H. { exists (fun _ => x0). intros; lia. }
  destruct IH as (f & Hf). { intros; apply H; lia. } destruct (H n ltac:(lia)) as (x & Hx).
  exists (fun k => if Nat.eqb k n then x else f k). intros k Hk. destruct (Nat.eqb_spec k n) as [->|N]; auto. apply Hf. lia.
Qed.

(** Where the rays of the emitted bundles are in the joined one. *)
Lemma joined tb prev lvl (ems : list (nat * bundle)) rc m idx : traceable rc m -> rays_picked prev idx tb -> same_set lvl prev ->
  (exists st, rays_picked rc st lvl) -> concatenate_rays (map snd ems) = Ok rc ->
  (forall i o, In (i, o) ems -> exists mo, rays o mo /\ b_parents o <> None /\ same_set o tb) ->
  exists ns0, Forall2 rays (map snd ems) ns0 /\ m = total ns0 /\
  forall a i o na k0, nth_error ems a = Some (i, o) -> nth_error ns0 a = Some na -> (k0 < na)%nat -> same_ray rc (total (firstn a ns0) + k0)%nat o k0.
Proof.
  intros Trc Pk Sl (stw & Hpk) Hc R.
  destruct ems as [|[i0 o0] l].
  { exists []. cbn in Hc. injection Hc as <-. split; [constructor|]. split.
    - destruct Trc as (_ & (_ & Hl) & _). specialize (Hl Vertices [] eq_refl). cbn in Hl. auto.
    - intros [|a] i o na k0 E; discriminate E. }
    cbn [map snd] in Hc.
    assert (F2 : exists ns0, Forall2 rays (o0 :: map snd l) ns0).
    { assert (forall q, (forall io, In io q -> In io ((i0, o0) :: l)) -> exists ns0, Forall2 rays (map snd q) ns0) as K; [|exact (K ((i0, o0) :: l) (fun _ h => h))].
      induction q as [|[i1 o1] q IH]; intros Hq; [exists []; constructor|]. destruct IH as (n0 & F). { intros; apply Hq; right; auto. }
      destruct (R i1 o1) as (m1 & R1 & _). { apply Hq; left; auto. } exists (m1 :: n0). constructor; auto. }
    destruct F2 as (ns0 & F2).
    assert (Rs : forall ox c q, rays c q -> rays (keep ox c) q).
    { intros ox c q ((v & Hv) & Hl). split; [exists v; auto|]. intros p l0 E. destruct p as [| | | | |x]; try (rewrite keep_prop in E by discriminate; exact (Hl _ _ E)).
      destruct ox as [y|]; [|discriminate E]. destruct (String.eqb_spec y x) as [->|N]; [rewrite keep_extra in E; exact (Hl _ _ E)|].
      rewrite keep_other in E by congruence. discriminate E. }
    assert (Fs : forall ox, Forall2 rays (map (keep ox) (o0 :: map snd l)) ns0).
    { intros ox. clear -F2 Rs. induction F2; cbn [map]; constructor; auto. }
    assert (Un : forall ox c p, In c (map (keep ox) (map snd l)) -> (prop c p = None <-> prop (keep ox o0) p = None)).
    { intros ox c p Hcc. apply in_map_iff in Hcc as (o1 & <- & Ho1). apply in_map_iff in Ho1 as ((i1 & o2) & E & Hi1). cbn in E. subst o2.
      destruct (R i0 o0 (or_introl eq_refl)) as (_ & _ & P0 & U0). destruct (R i1 o1 (or_intror Hi1)) as (_ & _ & P1 & U1).
      assert (D : (exists x, p = Extra x) \/ p = Parents \/ p <> Parents /\ forall x, p <> Extra x).
      { destruct p; try (right; right; split; [|intros ?]; discriminate); eauto. }
      destruct D as [(x & ->)|[->|(D1 & D2)]].
      - destruct ox as [y|]; [|split; reflexivity]. destruct (String.eqb_spec y x) as [->|N]; [|rewrite !keep_other by congruence; tauto].
        rewrite !keep_extra, (U1 (Extra x)), (U0 (Extra x)) by discriminate. tauto.
      - cbn. destruct (b_parents o1), (b_parents o0); cbn; split; congruence.
      - rewrite !keep_prop by auto. rewrite (U1 p D1), (U0 p D1). tauto. }
    assert (Nm : forall ox c, In c (map (keep ox) (o0 :: map snd l)) -> names_ok c).
    { intros ox c Hcc. apply in_map_iff in Hcc as (c' & <- & _). apply keep_names. }
    assert (Ck : forall ox, (forall x, ox = Some x -> prop o0 (Extra x) <> None) -> concatenate_rays (map (keep ox) (o0 :: map snd l)) = Ok (keep ox rc)).
    { intros ox Hx. apply concat_keep; auto. }
    assert (Tt : m = total ns0).
    { pose proof (concat_columns_uniform _ _ _ _ (Fs None) (Nm None) (Un None) (Ck None ltac:(discriminate)) Vertices) as Cv.
      destruct (proj1 (Rs None rc m (proj1 (proj2 Trc)))) as (vv & Hvv).
      destruct (prop (keep None o0) Vertices); [|congruence]. destruct Cv as (ls & _ & <- & Ec).
      rewrite <- nth_error_concat_len. symmetry. apply (proj2 (Rs None rc m (proj1 (proj2 Trc))) _ _ Ec). }
    exists ns0. split; [exact F2|]. split; [exact Tt|]. intros a i o na k0 Eo' Ea Lk.
    pose proof (nth_error_In _ _ Eo') as Hio.
    assert (Eo : nth_error (o0 :: map snd l) a = Some o). { change (o0 :: map snd l) with (map snd ((i0, o0) :: l)). rewrite nth_error_map, Eo'. reflexivity. }
    assert (Es : forall ox, nth_error (map (keep ox) (o0 :: map snd l)) a = Some (keep ox o)).
    { intros ox. rewrite nth_error_map, Eo. reflexivity. }
    assert (S0 : forall ox, (forall x, ox = Some x -> prop o0 (Extra x) <> None) -> same_ray (keep ox rc) (total (firstn a ns0) + k0)%nat (keep ox o) k0).
    { intros ox Hx. exact (concat_same_ray _ _ _ _ (Fs ox) (Nm ox) (Un ox) (Ck ox Hx) a (keep ox o) na k0 (Es ox) Ea Lk). }
    intros p. assert (D : (exists x, p = Extra x) \/ forall x, p <> Extra x) by (destruct p; eauto; right; discriminate).
    destruct D as [(x & ->)|D].
    2:{ pose proof (S0 None ltac:(discriminate) p) as Q. unfold at_p in *. rewrite !keep_prop in Q by exact D. exact Q. }
    destruct (R i0 o0 (or_introl eq_refl)) as (_ & _ & _ & U0). destruct (R i o Hio) as (_ & _ & _ & U1).
    specialize (U0 (Extra x) ltac:(discriminate)). specialize (U1 (Extra x) ltac:(discriminate)).
    destruct (prop o0 (Extra x)) as [lx|] eqn:E0.
    - pose proof (S0 (Some x)) as Q. assert (Hx : forall y, Some x = Some y -> prop o0 (Extra y) <> None) by (intros y Ey; injection Ey as <-; congruence).
      specialize (Q Hx (Extra x)). unfold at_p in *. rewrite !keep_extra in Q. exact Q.
    - assert (Et : prop tb (Extra x) = None) by (apply U0; auto).
      assert (Ep : prop prev (Extra x) = None). { specialize (Pk (Extra x)). destruct (prop prev (Extra x)); auto. destruct Pk as (l' & E' & _). congruence. }
      assert (El : prop lvl (Extra x) = None) by (apply (Sl (Extra x)); [discriminate|auto]).
      assert (Er : prop rc (Extra x) = None). { specialize (Hpk (Extra x)). destruct (prop rc (Extra x)); auto. destruct Hpk as (l' & E' & _). congruence. }
      unfold at_p. rewrite Er, (proj2 U1 Et). reflexivity.
Qed.

Lemma level_laws objs surfs prev ns T tb g ems g' rc m me lvl ns' : library_assembly objs surfs -> all_rays lib_ray prev ->
  (exists mp, traceable prev mp) -> fair (g_rng g) ->
  reported surface_ops surfs prev ns T tb -> emissions surface_ops surfs tb ns T g ems g' ->
  concatenate_rays (map snd ems) = Ok rc -> level_order rc m me lvl ns' -> traceable rc m -> traceable lvl m -> same_set lvl prev ->
  fair (g_rng g') /\ exists N via thr, sent_on surfs T ns prev N via thr lvl /\
    forall i s j t v d, nth_error surfs i = Some s -> meets_first T (length surfs) ns i j t -> vert_at prev j = Some v -> dir_at prev j = Some d ->
    N i j = the_normal (s_geom s) (s_frame s) (ray_at v d t) d.
Proof.
  intros La Ap (mp & Tp) Fg (Tb & Pk & _) (So & Ei & Tn) Hc (st & wk & Lst & Hpk & Hst & Hwk & Ss & Sw) Trc Tl Sl.
  pose proof (picked_all lib_ray prev _ tb mp Tp ltac:(rewrite seq_length; exact Tb) Pk Ap) as At.
  assert (Em : forall l h h', in_turn (fun io h h' => exists s hits, nth_error surfs (fst io) = Some s /\
    StronglySorted lt hits /\
    (forall j, In j hits <-> exists t, meets_first T (length surfs) ns (fst io) j t) /\
    emission surface_ops tb ns T (fst io) s hits h (snd io) h') l h h' -> fair (g_rng h) -> (forall io, In io l -> In io ems) ->
    fair (g_rng h') /\ forall i o, In (i, o) l -> exists s hits mo th N, nth_error surfs i = Some s /\ rays o mo /\ b_parents o <> None /\ same_set o tb /\
      (forall j, In j hits <-> exists t, meets_first T (length surfs) ns i j t) /\ all_sent tb T i s hits o mo th N).
  { induction 1 as [h|[i o] l h h1 h2 (s & hits & Es & Sh & Hh & Ee) _ IH]; intros Fh Hin.
    - split; auto. intros i o [].
    - cbn [fst snd] in *. destruct (proj1 (proj2 La) s (nth_error_In _ _ Es)) as (Hf & Ho & _).
      destruct (emission_laws tb ns T i s hits h o h1 Tb At Hf Ho Fh Ee Sh) as (Fh1 & mo & th & N & Ro & Po & Sm & L).
      + intros ->. destruct (proj1 (Ei i)) as (j & t & M). { apply in_map_iff. exists (i, o). split; auto. apply Hin. left; auto. } apply (Hh j). eauto.
      + intros j Hj. apply Hh in Hj as (t & _ & _ & Ht & _). eauto.
      + destruct IH as (F2 & R); auto. { intros io Hio. apply Hin. right; auto. }
        split; auto. intros i' o' [E|Hio]; [|auto]. injection E as <- <-. exists s, hits, mo, th, N. auto 8. }
  destruct (Em ems g g' Tn Fg (fun _ h => h)) as (Fg' & R). split; auto. clear Em.
  assert (Once : forall a a' i o o', nth_error ems a = Some (i, o) -> nth_error ems a' = Some (i, o') -> a = a').
  { intros a a' i o o' E E'. apply (sorted_inj _ a a' i So); rewrite nth_error_map; [rewrite E|rewrite E']; reflexivity. }
  destruct (choose ((fun _ : nat => false), (fun _ : nat => V3 0 0 0)) (fun i q => forall o, In (i, o) ems -> exists s hits mo, nth_error surfs i = Some s /\ rays o mo /\
      (forall j, In j hits <-> exists t, meets_first T (length surfs) ns i j t) /\ all_sent tb T i s hits o mo (fst q) (snd q)) (length surfs)) as (F & HF).
  { intros i _. destruct (in_dec Nat.eq_dec i (map fst ems)) as [I|I].
    - apply in_map_iff in I as ((i' & o) & E & Ho). cbn in E. subst i'.
      destruct (R i o Ho) as (s & hits & mo & th & N & H1 & H2 & _ & _ & H3 & H4). exists (th, N). intros o' Ho'.
      apply In_nth_error in Ho as (a & Ea). apply In_nth_error in Ho' as (a' & Ea'). assert (a = a') by eauto. subst a'. assert (o' = o) by congruence. subst o'.
      exists s, hits, mo. auto.
    - exists ((fun _ : nat => false), (fun _ : nat => V3 0 0 0)). intros o Ho. exfalso. apply I. apply in_map_iff. exists (i, o). auto. }
  assert (RF : forall i o, In (i, o) ems -> exists s hits mo, nth_error surfs i = Some s /\ rays o mo /\
      (forall j, In j hits <-> exists t, meets_first T (length surfs) ns i j t) /\ all_sent tb T i s hits o mo (fst (F i)) (snd (F i))).
  { intros i o Ho. apply HF; auto. destruct (R i o Ho) as (s & hits & mo & th & N & H1 & _). apply nth_error_Some. congruence. }
  clear HF.
  destruct (joined tb prev lvl ems rc m _ Trc Pk Sl (ex_intro (fun x => rays_picked rc x lvl) _ Hpk) Hc) as (ns0 & F2 & Tt & Jo).
  { intros i o Ho. destruct (R i o Ho) as (s & hits & mo & th & N & H1 & H2 & H3 & H4 & _). eauto. }
  clear R.
  assert (Sz : length (st ++ wk) = m).
  { destruct Tl as (_ & ((v & Hv) & Hl) & _). pose proof (Hl _ _ Hv) as Lv.
    destruct Trc as (_ & ((v0 & Hv0) & Hl0) & _). pose proof (Hpk Vertices) as P. rewrite Hv0 in P. destruct P as (l' & E' & P).
    assert (l' = v) by congruence. subst l'. rewrite (picks_length _ _ _ P) in Lv. auto. }
  assert (Nd : forall k k' x, nth_error (st ++ wk) k = Some x -> nth_error (st ++ wk) k' = Some x -> k = k').
  { assert (D : NoDup (st ++ wk)).
    { apply NoDup_app_intro; [apply sorted_NoDup; auto|apply sorted_NoDup; auto|]. intros x I1 I2. apply Hst in I1 as (_ & e1 & E1 & L1). apply Hwk in I2 as (_ & e2 & E2 & L2).
      assert (e1 = e2) by congruence. subst. lra. }
    rewrite NoDup_nth_error in D. intros k k' x E E'. apply D; [apply nth_error_Some; congruence|congruence]. }
  assert (Ex : forall k, (k < m)%nat -> exists k1, nth_error (st ++ wk) k = Some k1 /\ (k1 < m)%nat).
  { intros k Hk. destruct (nth_lt (st ++ wk) k ltac:(lia)) as (k1 & E1). exists k1. split; auto.
    apply nth_error_In, in_app_iff in E1 as [E1|E1]; [apply Hst in E1|apply Hwk in E1]; tauto. }
  destruct (choose (0%nat, 0%nat) (fun k q => exists i o na, nth_error ems (fst q) = Some (i, o) /\ nth_error ns0 (fst q) = Some na /\ (snd q < na)%nat /\
      nth_error (st ++ wk) k = Some (total (firstn (fst q) ns0) + snd q)%nat) m) as (W & HW).
  { intros k Hk. destruct (Ex k Hk) as (k1 & E1 & L1). rewrite Tt in L1. destruct (locate ns0 k1 L1) as (a & na & k0 & Ea & Lk & ->).
    destruct (nth_error ems a) as [[i o]|] eqn:Eo. { exists (a, k0), i, o, na. auto. }
    exfalso. apply nth_error_None in Eo. rewrite <- (map_length snd), (proj1 (proj1 (Forall2_nth _ _ _) F2)) in Eo. assert (a < length ns0)%nat by (apply nth_error_Some; congruence). lia. }
  set (via := fun k => match nth_error ems (fst (W k)) with Some (i, _) => i | None => 0%nat end).
  assert (Par : forall k j, parent_at lvl k = Some j -> (k < m)%nat).
  { intros k j H. apply (at_col_lt PNat lvl m Parents (b_parents lvl) k j); auto. apply Tl. }
  (** What is known about ray [k]. *)
  assert (K : forall k, (k < m)%nat -> exists o s hits mo, nth_error ems (fst (W k)) = Some (via k, o) /\ nth_error surfs (via k) = Some s /\
    (forall j, In j hits <-> exists t, meets_first T (length surfs) ns (via k) j t) /\ all_sent tb T (via k) s hits o mo (fst (F (via k))) (snd (F (via k))) /\
    (snd (W k) < mo)%nat /\ same_ray lvl k o (snd (W k)) /\ rays o mo).
  { intros k Hk. destruct (HW k Hk) as (i & o & na & E1 & E2 & L & E3). assert (Ev : via k = i) by (unfold via; rewrite E1; auto). rewrite Ev.
    destruct (RF i o (nth_error_In _ _ E1)) as (s & hits & mo & H1 & H2 & H3 & H4). exists o, s, hits, mo. split; auto. split; auto. split; auto. split; auto.
    assert (na = mo) as ->. { assert (Eo : nth_error (map snd ems) (fst (W k)) = Some o) by (rewrite nth_error_map, E1; auto).
      pose proof (Forall2_at _ _ _ _ _ _ F2 Eo E2) as Ro. destruct Ro as ((v & Hv) & Hl), H2 as (_ & Hl'). rewrite <- (Hl _ _ Hv). apply (Hl' _ _ Hv). }
    split; auto. split; auto. intros p. rewrite (picked_same _ _ _ _ _ Hpk E3 p). apply (Jo _ _ _ _ _ E1 E2 L p). }
  assert (Tsame : forall j, (j < ns)%nat -> same_ray tb j prev j) by (intros j Hj; apply (picked_seq_same _ _ _ _ Pk Hj)).
  exists (fun i => snd (F i)), via, (fun k => fst (F (via k)) (snd (W k))). split; [split; [|split]|].
  - intros k p Hv. assert (Hk : (k < m)%nat). { apply (at_col_lt PVec lvl m Vertices (b_vert lvl) k p); auto. apply Tl. }
    destruct (K k Hk) as (o & s & hits & mo & E1 & E2 & Hh & (A & _) & L & Sm & _). destruct (A _ L) as (j & t & Hj & Ht & M).
    apply Hh in Hj as (t' & Mt). assert (t' = t) by (destruct Mt as (_ & _ & Ht' & _); congruence). subst t'.
    exists s, j, t. split; auto. split; auto. apply (made_copy prev j s t _ _ o (snd (W k)) lvl k Sm).
    apply (made_same tb); auto. apply Tsame. apply Mt.
  - intros i s j t d Es M Hd.
    assert (Lj : (j < ns)%nat) by apply M. pose proof (Tsame j Lj) as Sj.
    assert (In i (map fst ems)) as I by (apply Ei; eauto). apply in_map_iff in I as ((i' & o) & E & Ho). cbn in E. subst i'.
    destruct (RF i o Ho) as (s' & hits & mo & H1 & H2 & H3 & (A & B & C & _)). assert (s' = s) by congruence. subst s'.
    destruct (B j d) as (B1 & B2). { apply H3. eauto. } { rewrite (same_ray_dir _ _ _ _ Sj). auto. }
    rewrite (same_ray_ref _ _ _ _ Sj) in B2.
    assert (Find : forall w, (exists k0, (k0 < mo)%nat /\ parent_at o k0 = Some j /\ fst (F i) k0 = w) ->
      exists k, parent_at lvl k = Some j /\ via k = i /\ fst (F (via k)) (snd (W k)) = w).
    { intros w (k0 & L0 & P0 & Ew). apply In_nth_error in Ho as (a & Ea).
      assert (Eo : nth_error (map snd ems) a = Some o) by (rewrite nth_error_map, Ea; auto).
      destruct (nth_lt ns0 a) as (na & Ena). { rewrite <- (proj1 (proj1 (Forall2_nth _ _ _) F2)). apply nth_error_Some. congruence. }
      assert (na = mo) as ->. { pose proof (Forall2_at _ _ _ _ _ _ F2 Eo Ena) as Ro. destruct Ro as ((v & Hv) & Hl), H2 as (_ & Hl'). rewrite <- (Hl _ _ Hv). apply (Hl' _ _ Hv). }
      pose proof (total_at _ _ _ _ Ena L0) as Lk. rewrite <- Tt in Lk. set (k1 := (total (firstn a ns0) + k0)%nat) in *.
      destruct (traceable_energy rc m k1 Trc Lk) as (e & He).
      assert (I : In k1 (st ++ wk)). { apply in_app_iff. destruct (Rlt_le_dec me e); [left; apply Hst|right; apply Hwk]; eauto. }
      apply In_nth_error in I as (k & Ek). assert (Hk : (k < m)%nat) by (rewrite <- Sz; apply nth_error_Some; congruence).
      destruct (HW k Hk) as (i2 & o2 & na2 & G1 & G2 & G3 & G4). rewrite Ek in G4. injection G4 as G4.
      destruct (locate_once ns0 a mo k0 (fst (W k)) na2 (snd (W k)) Ena L0 G2 G3 G4) as (X1 & X2).
      assert (Ev : via k = i) by (unfold via; rewrite <- X1, Ea; auto).
      exists k. split; [|split; auto; rewrite Ev, <- X2; auto].
      destruct (K k Hk) as (o3 & s3 & h3 & m3 & D1 & _ & _ & _ & _ & Sm & _). rewrite <- X1, Ea in D1. assert (o3 = o) by congruence. subst o3.
      rewrite (same_ray_parent _ _ _ _ Sm), <- X2. auto. }
    split; [apply Find; exact B1|]. rewrite <- B2. split; [|apply Find].
    intros (k & Pk' & Ev & Ew). pose proof (Par k j Pk') as Hk. destruct (K k Hk) as (o3 & s3 & h3 & m3 & D1 & D2 & D3 & D4 & D5 & Sm & D6).
    rewrite Ev in *. assert (o3 = o). { apply In_nth_error in Ho as (a & Ea). assert (a = fst (W k)) by eauto. congruence. } subst o3.
    exists (snd (W k)). rewrite <- (same_ray_parent _ _ _ _ Sm). split; [|auto].
    destruct H2 as (_ & Hl'). assert (P3 : parent_at o (snd (W k)) = Some j) by (rewrite <- (same_ray_parent _ _ _ _ Sm); auto).
    apply (at_col_lt PNat o mo Parents (b_parents o) (snd (W k)) j); auto.
    destruct (RF i o Ho) as (_ & _ & mo' & _ & H2' & _). split; [apply H2'|exact Hl'].
  - intros k k' j P1 P2 Ev Ew. pose proof (Par k j P1) as Hk. pose proof (Par k' j P2) as Hk'.
    destruct (K k Hk) as (o & s & h & mo & D1 & D2 & D3 & (_ & _ & D4 & _) & D5 & Sm & D6). destruct (K k' Hk') as (o' & s' & h' & mo' & D1' & D2' & D3' & D4' & D5' & Sm' & D6').
    rewrite <- Ev in *. assert (Ea : fst (W k) = fst (W k')) by eauto. rewrite <- Ea in D1'. assert (o' = o) by congruence. subst o'.
    rewrite (same_ray_parent _ _ _ _ Sm) in P1. rewrite (same_ray_parent _ _ _ _ Sm') in P2.
    destruct (HW k Hk) as (i1 & o1 & na1 & G1 & G2 & G3 & G4). destruct (HW k' Hk') as (i2 & o2 & na2 & G1' & G2' & G3' & G4').
    assert (X : snd (W k) = snd (W k')).
    { apply (D4 _ _ j); auto. destruct D6 as (_ & Hl), D6' as ((v & Hv) & Hl'). rewrite <- (Hl _ _ Hv), (Hl' _ _ Hv). auto. }
    rewrite <- Ea, <- X in G4'. eauto.
  - intros i s j t v d Es M Hv Hd. assert (Lj : (j < ns)%nat) by apply M. pose proof (Tsame j Lj) as Sj.
    assert (In i (map fst ems)) as I by (apply Ei; eauto). apply in_map_iff in I as ((i' & o) & E & Ho). cbn in E. subst i'.
    destruct (RF i o Ho) as (s' & hits & mo & H1 & H2 & H3 & (_ & _ & _ & A)). assert (s' = s) by congruence. subst s'.
    apply A; [apply H3; eauto|apply M|rewrite (same_ray_vert _ _ _ _ Sj); auto|rewrite (same_ray_dir _ _ _ _ Sj); auto].
Qed.

(** ** The whole trace *)
Lemma laws_all : forall objs surfs, library_assembly objs surfs ->
  forall me g b n, library_source b n -> fair (g_rng g) -> forall reps vs ds st,
  ray_tracer surface_ops objs surfs g b reps me TreeTrue = Ok (vs, ds, st) ->
  exists (ns : nat -> nat) (Ts : nat -> reports) gs,
  consistent_tree surface_ops objs surfs me b n reps (t_tree st) ns Ts g gs (t_g st) /\
  (forall L prev, nth_error (t_tree st) L = Some prev -> (L < reps)%nat -> (0 < ns L)%nat ->
     exists tb, reported surface_ops surfs prev (ns L) (Ts L) tb) /\
  (forall L prev, nth_error (t_tree st) L = Some prev -> forall j, (j < ns L)%nat <-> is_traced me L prev j) /\
  forall L prev lvl, nth_error (t_tree st) L = Some prev -> nth_error (t_tree st) (L + 1) = Some lvl ->
  exists N via thr, sent_on surfs (Ts L) (ns L) prev N via thr lvl /\
    forall i s j t v d, nth_error surfs i = Some s -> meets_first (Ts L) (length surfs) (ns L) i j t -> vert_at prev j = Some v -> dir_at prev j = Some d ->
    N i j = the_normal (s_geom s) (s_frame s) (ray_at v d t) d.
Proof.
  intros objs surfs La me g b n Ls Fg reps vs ds st E.
  destruct (library_trace objs surfs me La g b n reps vs ds st Ls E) as (ns & Ts & gs & C & _ & Hlen & _ & _ & _ & _ & _ & _ & _ & Hlib).
  assert (Lib : forall L prev, nth_error (t_tree st) L = Some prev -> all_rays lib_ray prev).
  { intros [|L] prev Hp. { rewrite (ct_source _ _ _ _ _ _ _ _ _ _ _ _ _ C) in Hp. assert (prev = b) by congruence. subst. apply Ls. }
    replace (S L) with (L + 1)%nat in Hp by lia. eauto. }
  assert (Step : forall L prev lvl, nth_error (t_tree st) L = Some prev -> nth_error (t_tree st) (L + 1) = Some lvl -> fair (g_rng (gs L)) ->
    fair (g_rng (gs (L + 1)%nat)) /\ exists N via thr, sent_on surfs (Ts L) (ns L) prev N via thr lvl /\
    forall i s j t v d, nth_error surfs i = Some s -> meets_first (Ts L) (length surfs) (ns L) i j t -> vert_at prev j = Some v -> dir_at prev j = Some d ->
    N i j = the_normal (s_geom s) (s_frame s) (ray_at v d t) d).
  { intros L prev lvl Hp Hl Fl.
    destruct (ct_level _ _ _ _ _ _ _ _ _ _ _ _ _ C L prev lvl Hp Hl) as (tb & rc & m & ems & R1 & R2 & R3 & R4 & R5 & R6 & R7 & R8 & R9).
    destruct (ct_traced _ _ _ _ _ _ _ _ _ _ _ _ _ C (proj1 Ls) L prev Hp) as (mp & T1 & _).
    apply (level_laws objs surfs prev (ns L) (Ts L) tb (gs L) ems (gs (L + 1)%nat) rc m me lvl (ns (L + 1)%nat) La (Lib _ _ Hp) (ex_intro _ mp T1) Fl R1 R2 R3 R4 R9 R5 (ct_set _ _ _ _ _ _ _ _ _ _ _ _ _ C L prev lvl Hp Hl)). }
  assert (Fair : forall L lvl, nth_error (t_tree st) L = Some lvl -> fair (g_rng (gs L))).
  { induction L as [|L IH]; intros lvl Hl. { rewrite (ct_before _ _ _ _ _ _ _ _ _ _ _ _ _ C). auto. }
    destruct (nth_lt (t_tree st) L) as (prev & Hp). { assert (S L < length (t_tree st))%nat by (apply nth_error_Some; congruence). lia. }
    replace (S L) with (L + 1)%nat in * by lia. apply (Step L prev lvl Hp Hl (IH prev Hp)). }
  exists ns, Ts, gs. split; [exact C|]. split; [|split].
  - intros L prev Hp HL Hn. destruct (nth_error (t_tree st) (L + 1)) as [lvl|] eqn:Hl.
    + destruct (ct_level _ _ _ _ _ _ _ _ _ _ _ _ _ C L prev lvl Hp Hl) as (tb & rc & m & ems & R1 & _). eauto.
    + destruct (ct_end _ _ _ _ _ _ _ _ _ _ _ _ _ C L prev Hp Hl HL) as (tb & R & _); eauto.
  - intros L prev Hp j. destruct (ct_traced _ _ _ _ _ _ _ _ _ _ _ _ _ C (proj1 Ls) L prev Hp) as (mp & _ & _ & Htr & _). auto.
  - intros L prev lvl Hp Hl. apply (Step L prev lvl Hp Hl (Fair L prev Hp)).
Qed.

Lemma laws_top : forall objs surfs, library_assembly objs surfs ->
  forall me g b n, library_source b n -> fair (g_rng g) -> forall reps vs ds st,
  ray_tracer surface_ops objs surfs g b reps me TreeTrue = Ok (vs, ds, st) ->
  exists (ns : nat -> nat) (Ts : nat -> reports),
  (forall L prev, nth_error (t_tree st) L = Some prev -> (L < reps)%nat -> (0 < ns L)%nat ->
     exists tb, reported surface_ops surfs prev (ns L) (Ts L) tb) /\
  (forall L prev, nth_error (t_tree st) L = Some prev -> forall j, (j < ns L)%nat <-> is_traced me L prev j) /\
  forall L prev lvl, nth_error (t_tree st) L = Some prev -> nth_error (t_tree st) (L + 1) = Some lvl ->
  exists N via thr, sent_on surfs (Ts L) (ns L) prev N via thr lvl.
Proof.
  intros objs surfs La me g b n Ls Fg reps vs ds st E.
  destruct (laws_all objs surfs La me g b n Ls Fg reps vs ds st E) as (ns & Ts & gs & _ & A & B & C). exists ns, Ts. split; [exact A|]. split; [exact B|].
  intros L prev lvl Hp Hl. destruct (C L prev lvl Hp Hl) as (N & via & thr & S & _). eauto.
Qed.
