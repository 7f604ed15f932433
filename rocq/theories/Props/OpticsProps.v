(** C38-C49: the laws of optics and the optics managers. *)
From Coq Require Import Reals List Arith Bool Lra Lia.
From Verif.Base Require Import Py Num Vec.
From Verif.Model Require Import RayBundle Geometry Sources Optics OpticsCallables.
From Verif.Spec Require Import BundleSpec EngineSpec OpticsSpec.
From Verif.Proof Require Import VecLemmas OpticsProof RefractProof OpticsTop.
Import ListNotations.
Local Open Scope R_scope.

(** C38 *)
Theorem c38_reflection : forall d n, is_unit n ->
  mirrored n d (reflection d n) /\ norm2 (reflection d n) = norm2 d /\
  reflection (reflection d n) n = d /\
  forall d', mirrored n d d' -> d' = reflection d n.
Proof. exact reflection_top. Qed.
Print Assumptions c38_reflection.

Example c38_example : is_unit (V3 0 (3/5) (4/5)) /\
  reflection (V3 1 0 (-1)) (V3 0 (3/5) (4/5)) = V3 1 (24/25) (7/25).
Proof. split; [unfold is_unit; vunfold; field|]. unfold reflection. vunfold. veq; field. Qed.

(** C39, C40: which rays are refracted, and where to. *)
Theorem c39_c40_refractions : forall n1 n2 ds ns,
  length n2 = length n1 -> length ds = length n1 -> length ns = length n1 ->
  Forall (Rlt 0) n1 -> Forall (Rlt 0) n2 -> Forall is_unit ds -> Forall is_unit ns ->
  exists mask dirs, refractions n1 n2 ds ns = Ok (mask, dirs) /\ length mask = length n1 /\
    (forall i a b d n, nth_error n1 i = Some a -> nth_error n2 i = Some b ->
       nth_error ds i = Some d -> nth_error ns i = Some n ->
       (nth_error mask i = Some true <-> can_refract a b d n)) /\
    Forall2 (fun i d' => exists a b d n, nth_error n1 i = Some a /\ nth_error n2 i = Some b /\
       nth_error ds i = Some d /\ nth_error ns i = Some n /\ snell a b n d d') (nonzero mask) dirs.
Proof. exact refractions_spec. Qed.
Print Assumptions c39_c40_refractions.

(** C39, one ray. *)
Theorem c39_snell : forall n1 n2 d n, 0 < n1 -> 0 < n2 -> is_unit d -> is_unit n ->
  can_refract n1 n2 d n ->
  exists d', refracted_dir (n2 / n1) d n = Ok d' /\ snell n1 n2 n d d'.
Proof. exact snell_top. Qed.
Print Assumptions c39_snell.

(** The law leaves no choice. *)
Theorem c39_snell_unique : forall n1 n2 n d d1 d2, 0 < n1 -> 0 < n2 -> is_unit d -> is_unit n ->
  snell n1 n2 n d d1 -> snell n1 n2 n d d2 -> d1 = d2.
Proof. exact snell_unique. Qed.
Print Assumptions c39_snell_unique.

(** C40, one ray. *)
Theorem c40_total_reflection : forall n1 n2 d n theta, 0 < n1 -> 0 < n2 -> incidence d n theta ->
  (is_refracted (n2 / n1) d n = true <-> n1 * sin theta <= n2).
Proof. exact refracted_iff. Qed.
Print Assumptions c40_total_reflection.

(** Any two unit vectors enclose an angle of incidence. *)
Theorem c40_incidence_exists : forall d n, is_unit d -> is_unit n ->
  exists theta, incidence d n theta /\ forall theta', incidence d n theta' -> theta' = theta.
Proof. exact incidence_top. Qed.
Print Assumptions c40_incidence_exists.

Example c39_c40_example : 
  can_refract 1 (1/2) (V3 0 0 (-1)) (V3 0 0 1) /\
  ~ can_refract 1 (1/2) (V3 (3/5) 0 (-4/5)) (V3 0 0 1).
Proof. exact split2. Qed.

(** C41 *)
Theorem c41_fresnel : forall n1 n2 d n, 0 < n1 -> 0 < n2 -> is_unit d -> is_unit n ->
  can_refract n1 n2 d n -> reflectance_defined n1 n2 d n ->
  exists r, fresnel d n n1 n2 = Ok r /\ reflectance n1 n2 d n r /\ 0 <= r <= 1 /\
    (Rabs (dot d n) = 1 -> r = ((n1 - n2) / (n1 + n2)) ^ 2) /\
    forall d', snell n1 n2 n d d' -> fresnel (vopp d') n n2 n1 = Ok r.
Proof. exact fresnel_top. Qed.
Print Assumptions c41_fresnel.

(** Along a surface between equal media numpy computes 0/0. *)
Theorem c41_undefined : forall d n m, 0 < m -> dot d n = 0 -> fresnel d n m m = Err OutOfModel.
Proof. exact fresnel_grazing. Qed.
Print Assumptions c41_undefined.

Example c41_example : can_refract 1 (1/2) (V3 0 0 (-1)) (V3 0 0 1) /\
  reflectance_defined 1 (1/2) (V3 0 0 (-1)) (V3 0 0 1) /\ Rabs (dot (V3 0 0 (-1)) (V3 0 0 1)) = 1.
Proof.
  split; [apply split2|]. split; [left; vunfold; lra|]. vunfold.
  replace (0 * 0 + 0 * 0 + -1 * 1) with (-1) by ring. rewrite Rabs_left; lra.
Qed.

(** C42 *)
Theorem c42_refractive_surface : forall i1 i2 gs b n sel pts ns z g, 0 < i1 -> 0 < i2 ->
  refractive_input i1 i2 gs b n sel pts ns z ->
  exists o, call_optics (Refractive i1 i2) gs b sel g = Ok (o, g) /\
    splits i1 i2 b sel pts ns o /\
    (NoDup sel -> forall i e, In i sel -> energy_at b i = Some e -> energy_from o i = e).
Proof. exact refractive_top. Qed.
Print Assumptions c42_refractive_surface.

Example c42_example : refractive_input 1 (1/2) found2 rays2 2 [0%nat; 1%nat] points2
    [V3 0 0 1; V3 0 0 1] (V3 0 0 1) /\
  can_refract 1 (1/2) (V3 0 0 (-1)) (V3 0 0 1) /\
  ~ can_refract 1 (1/2) (V3 (3/5) 0 (-4/5)) (V3 0 0 1).
Proof. split; [apply wanted2|exact split2]. Qed.

(** C43 *)
Theorem c43_toggle : forall i1 i2 l,
  toggle_ref_idx i1 i2 [i1] = [i2] /\ toggle_ref_idx i1 i2 [i2] = [i1] /\
  (forall m, m <> i1 -> toggle_ref_idx i1 i2 [m] = [i1]) /\
  (Forall (fun m => m = i1 \/ m = i2) l -> toggle_ref_idx i1 i2 (toggle_ref_idx i1 i2 l) = l) /\
  length (toggle_ref_idx i1 i2 l) = length l /\
  forall k m, nth_error l k = Some m -> exists m', nth_error (toggle_ref_idx i1 i2 l) k = Some m' /\
    other_side i1 i2 m m'.
Proof. exact toggle_top. Qed.
Print Assumptions c43_toggle.

(** C44 *)
Theorem c44_reflective : forall a gs b n sel pts ns z g,
  traceable b n -> (forall i, In i sel -> (i < n)%nat) ->
  told gs pts ns z -> length pts = length sel -> Forall is_unit ns ->
  exists o, call_optics (Absorbing (Reflective a)) gs b sel g = Ok (o, g) /\
    one_each b sel pts ns o (fun d e n d' e' => mirrored n d d' /\ e' = e * (1 - a)).
Proof. exact reflective_top. Qed.
Print Assumptions c44_reflective.

Example c44_example : traceable rays2 2 /\ told found2 points2 [V3 0 0 1; V3 0 0 1] (V3 0 0 1) /\
  Forall is_unit [V3 0 0 1; V3 0 0 1] /\
  incoming rays2 [0%nat; 1%nat] points2 [V3 0 0 1; V3 0 0 1] 1 1 (V3 (3/5) 0 (-4/5)) 5
    (V3 (3/4) 0 0) (V3 0 0 1).
Proof.
  split; [exact rays2_traceable|]. split; [exact found2_told|]. split; [exact units2|]. repeat split.
Qed.

(** C45: [z] is the Z axis of the surface. *)
Theorem c45_absorber : forall a gs b n sel pts ns z g,
  traceable b n -> (forall i, In i sel -> (i < n)%nat) ->
  told gs pts ns z -> length pts = length sel -> Forall is_unit ns ->
  exists o, call_optics (Absorbing (AbsorberReflector a)) gs b sel g = Ok (o, g) /\
    one_each b sel pts ns o (fun d e n d' e' => mirrored n d d' /\
      (dot d z <= 0 -> e' = e * (1 - a)) /\ (0 < dot d z -> e' = 0)).
Proof. exact absorber_top. Qed.
Print Assumptions c45_absorber.

Example c45_example : traceable ray_up 1 /\ told found_up [V3 0 0 0] [V3 0 0 (-1)] (V3 0 0 1) /\
  0 < dot (V3 0 0 1) (V3 0 0 1).
Proof.
  split; [exact ray_up_traceable|]. split; [|vunfold; lra].
  unfold told. repeat split. cbn. unfold zaxis, vopp. cbn. repeat f_equal; ring.
Qed.

(** C46: what a receiver has recorded after any history of calls and resets. *)
Theorem c46_all_hits : forall id o g evs g', (forall e, In e evs -> proper_call id o e) ->
  g_acc g id = mkAcc [] [] -> run g evs = Ok g' ->
  exists ls, batches_since id o evs ls /\
    (ls = [] -> get_all_hits (g_acc g' id) = Ok ([], [])) /\
    (concat ls <> [] -> get_all_hits (g_acc g' id) =
       Ok (map (fun h => fst h * absorptivity o) (concat ls), map snd (concat ls))) /\
    (ls <> [] -> concat ls = [] -> get_all_hits (g_acc g' id) = Err ValueError).
Proof. exact accountant_top. Qed.
Print Assumptions c46_all_hits.

(** C46: what is not absorbed goes out again. *)
Theorem c46_balanced : forall id o gs b n sel pts ns z g, fair (g_rng g) ->
  traceable b n -> (forall i, In i sel -> (i < n)%nat) ->
  told gs pts ns z -> length pts = length sel -> Forall is_unit ns ->
  match o with AbsorberReflector _ => False | _ => True end ->
  exists r g', call_optics (Accountant id o) gs b sel g = Ok (r, g') /\ fair (g_rng g') /\
    traceable r (length sel) /\ balanced o b sel pts r.
Proof. exact receiver_balanced. Qed.
Print Assumptions c46_balanced.

(** Not so for an AbsorptionAccountant around an AbsorberReflector (no class in
    the library combines the two). *)
Theorem c46_one_sided_refuted : forall g, exists r g',
  call_optics (Accountant 0 (AbsorberReflector (1/2))) found_up ray_up [0%nat] g = Ok (r, g') /\
  get_all_hits (g_acc g' 0) <> Err ValueError /\
  ~ balanced (AbsorberReflector (1/2)) ray_up [0%nat] [V3 0 0 0] r.
Proof. exact one_sided_unbalanced. Qed.
Print Assumptions c46_one_sided_refuted.

(** A history of two hits, a reset, a third hit and an empty one. *)
Example c46_example :
  let hit := ECall (Accountant 3 (Reflective (1/4))) found2 rays2 [0%nat; 1%nat] in
  let none := ECall (Accountant 3 (Reflective (1/4))) (GSelFlat id4 rays2 [] [] []) rays2 [] in
  let evs := [hit; hit; EReset 3; hit; none] in
  forall rg, exists g', run (mkG rg (fun _ => mkAcc [] [])) evs = Ok g' /\
    (forall e, In e evs -> proper_call 3 (Reflective (1/4)) e) /\
    get_all_hits (g_acc g' 3) = Ok ([2 * (1/4); 5 * (1/4)], points2).
Proof.
  intros hit none evs rg. eexists. split; [cbn; reflexivity|]. split; [|reflexivity].
  assert (H : proper_call 3 (Reflective (1/4)) hit).
  { intros _. split; auto. exists 2%nat, points2. split; [exact rays2_traceable|].
    split; [intros i [<-|[<-|[]]]; lia|]. split; reflexivity. }
  assert (N : proper_call 3 (Reflective (1/4)) none).
  { intros _. split; auto. exists 2%nat, []. split; [exact rays2_traceable|].
    split; [intros i []|]. split; reflexivity. }
  intros e [<-|[<-|[<-|[<-|[<-|[]]]]]]; auto. exact I.
Qed.

(** C47 *)
Theorem c47_lambertian : forall a gs b n sel pts ns z g, fair (g_rng g) ->
  traceable b n -> (forall i, In i sel -> (i < n)%nat) ->
  told gs pts ns z -> length pts = length sel -> Forall is_unit ns ->
  exists o g', call_optics (Absorbing (Lambertian a)) gs b sel g = Ok (o, g') /\
    fair (g_rng g') /\ g_acc g' = g_acc g /\
    one_each b sel pts ns o (fun d e n d' e' => is_unit d' /\ 0 <= dot d' n /\ e' = e * (1 - a)).
Proof. exact lambertian_top. Qed.
Print Assumptions c47_lambertian.

Example c47_example : fair (mkRng (fun k => / INR (k + 2)) 0).
Proof.
  intros k. cbn [draws]. rewrite plus_INR. pose proof (pos_INR k). cbn [INR]. split.
  - left. apply Rinv_0_lt_compat. lra.
  - rewrite <- Rinv_1. apply Rinv_lt_contravar; lra.
Qed.

(** C48: the last term is missing. *)
Theorem c48_hartmann_refuted : exists L a b c d e r, c <> L /\ e <> L /\
  refr_idx_hartmann L a b c d e = Ok r /\ r <> a + b / (c - L) + d / (e - L).
Proof. exact hartmann_wrong. Qed.
Print Assumptions c48_hartmann_refuted.

Theorem c48_computed : forall L a b c d e, c <> L ->
  refr_idx_hartmann L a b c d e = Ok (a + b / (c - L)).
Proof. exact hartmann_computed. Qed.
Print Assumptions c48_computed.

(** C49 *)
Theorem c49_empty_selection_refuted : forall i1 i2 gs b g,
  call_optics (Refractive i1 i2) gs b [] g = Err AttributeError.
Proof. exact refractive_empty. Qed.
Print Assumptions c49_empty_selection_refuted.
