(** Property C89: wrong use raises a definite exception. *)
From Coq Require Import Reals String List Arith Bool Lia Lra.
From Verif.Base Require Import Py Num Vec.
From Verif.Model Require Import RayBundle Geometry Boundary Optics OpticsCallables Engine TraceTree View Surface Sources Assembly Scene Models Tower.
From Verif.Proof Require Import MisuseProof.
From Verif.Spec Require Import BundleSpec MisuseSpec.
Import ListNotations.

(** Writing through a selector that does not fit the property or the values. *)
Theorem c89_set : forall b sel e,
  (forall l v, prop b Vertices = Some l -> misfit (length l) sel (length v) e -> set_vertices_sel v sel b = Err e) /\
  (forall l v, prop b Directions = Some l -> misfit (length l) sel (length v) e -> set_directions_sel v sel b = Err e) /\
  (forall l v, prop b Energy = Some l -> misfit (length l) sel (length v) e -> set_energy_sel v sel b = Err e) /\
  (forall l v, prop b Parents = Some l -> misfit (length l) sel (length v) e -> set_parents_sel v sel b = Err e) /\
  (forall l v, prop b RefIndex = Some l -> misfit (length l) sel (length v) e -> set_ref_index_sel v sel b = Err e) /\
  (forall name l v, prop b (Extra name) = Some l -> misfit (length l) sel (length v) e -> set_named_sel name v sel b = Err e).
Proof. exact setters_misfit. Qed.
Print Assumptions c89_set.

(** Reading through one. *)
Theorem c89_get : forall b sel,
  (forall l, prop b Vertices = Some l -> unreadable (length l) sel -> get_prop (b_vert b) sel = Err IndexError) /\
  (forall l, prop b Directions = Some l -> unreadable (length l) sel -> get_prop (b_dir b) sel = Err IndexError) /\
  (forall l, prop b Energy = Some l -> unreadable (length l) sel -> get_prop (b_energy b) sel = Err IndexError) /\
  (forall l, prop b Parents = Some l -> unreadable (length l) sel -> get_prop (b_parents b) sel = Err IndexError) /\
  (forall l, prop b RefIndex = Some l -> unreadable (length l) sel -> get_prop (b_ref b) sel = Err IndexError) /\
  (forall name l, prop b (Extra name) = Some l -> unreadable (length l) sel -> get_named name b sel = Err IndexError).
Proof. exact getters_outside. Qed.
Print Assumptions c89_get.

Example c89_set_example : let b := mkB (Some []) None (Some [1%R; 2%R; 3%R]) None None [] in
  prop b Energy = Some [PReal 1; PReal 2; PReal 3] /\
  misfit 3 (SIdx [0; 5]) 2 IndexError /\ misfit 3 (SIdx [0; 2]) 3 ValueError /\
  misfit 3 (SMask [true; false]) 1 IndexError /\ misfit 3 (SMask [true; false; true]) 3 ValueError /\
  misfit 3 SAll 2 ValueError /\ unreadable 3 (SIdx [1; 3]) /\ unreadable 3 (SMask []).
Proof.
  cbv zeta. split; [reflexivity|]. split; [|split; [|split; [|split; [|split; [|split]]]]].
  - apply (misfit_index 3 [0; 5] 5); simpl; auto; lia.
  - apply misfit_count; simpl; try lia.
  - apply misfit_mask; simpl; lia.
  - apply misfit_count; simpl; lia.
  - apply misfit_count; simpl; auto; lia.
  - exists 3. simpl. auto.
  - simpl. lia.
Qed.

(** The abstract classes refuse to be used. *)
Theorem c89_abstract : forall frame b o ps,
  find_intersections Base frame b = Err TypeError /\
  surf_register (Surface.new_surface Base o frame) b = Err TypeError /\
  in_bounds PBase ps = Err TypeError.
Proof. intros. split; [|split]; [exact (proj1 (base_geometry frame b o))|exact (proj2 (base_geometry frame b o))|exact (base_boundary ps)]. Qed.
Print Assumptions c89_abstract.

(** A surface has no outgoing rays before it has been given incoming ones and told
    which of them to use, nor after it has been told to forget them. *)
Theorem c89_protocol : forall gm o frame g,
  surf_outgoing (Surface.new_surface gm o frame) g = Err AttributeError /\
  (forall b s ps, surf_register (Surface.new_surface gm o frame) b = Ok (s, ps) -> surf_outgoing s g = Err AttributeError) /\
  (forall s, surf_outgoing (surf_done s) g = Err AttributeError) /\
  (forall st, Geometry.up (done_geom st) = Err AttributeError).
Proof.
  intros. split; [exact (outgoing_new gm o frame g)|split; [|split]].
  - intros b s ps. exact (outgoing_registered gm o frame b g s ps).
  - intros s. exact (outgoing_done s g).
  - exact up_done.
Qed.
Print Assumptions c89_protocol.
Example c89_protocol_example : exists s ps,
  surf_register (Surface.new_surface Flat (Absorbing (Reflective 0)) id4) (mkB (Some [V3 0 0 1]) (Some [V3 0 0 (-1)]) None None None []) = Ok (s, ps).
Proof. do 2 eexists. reflexivity. Qed.

(** Arrays of different lengths, none of which numpy would stretch. *)
Theorem c89_refractions : forall n1 n2 ds ns,
  (forall k, In k [length n1; length n2; length ds; length ns] -> k <> 1) ->
  ~ (length n1 = length n2 /\ length n1 = length ds /\ length n1 = length ns) ->
  refractions n1 n2 ds ns = Err ValueError.
Proof. intros n1 n2 ds ns _. exact (refractions_misfit n1 n2 ds ns). Qed.
Print Assumptions c89_refractions.
Example c89_refractions_example : let n1 := [1%R; 1%R] in let ds := [V3 0 0 1; V3 0 0 1; V3 0 0 1] in
  (forall k, In k [length n1; length n1; length ds; length n1] -> k <> 1) /\
  ~ (length n1 = length n1 /\ length n1 = length ds /\ length n1 = length n1).
Proof. cbv zeta. cbn [length]. split; [intros k; simpl; lia|lia]. Qed.

(** A receiver that does not keep account has no histogram and no flux map. *)
Theorem c89_accountless : forall sc sc' rec s bins rx ry g, surface_now rec sc = (sc', Ok s) ->
  (forall id o, s_opt s <> Accountant id o) ->
  (forall r, hr_rec r = rec -> snd (histogram_hits r bins g sc) = Err AttributeError) /\
  snd (reset_hits rec g sc) = Err AttributeError /\ snd (receiver_map rec bins rx ry g sc) = Err AttributeError.
Proof.
  intros sc sc' rec s bins rx ry g E N. split; [|exact (tower_no_accountant rec bins rx ry g sc sc' s E N)].
  intros r <-. exact (histogram_no_accountant r bins g sc sc' s E N).
Qed.
Print Assumptions c89_accountless.
Definition plain_scene : scene :=
  let fr := mkF (Whole 0) (Col 0) (Block 0) (Some (Whole 0)) in
  mkSc (mkW (fun _ => A44 id4) 1 (fun n => match n with 0 => Some (mkN KSurf fr) | 1 => Some (mkN (KObj [0] []) fr) | _ => None end) 2)
    (fun _ => Flat) (fun _ => Absorbing (Reflective 0)) (fun _ => false) 0 (fun _ => id4).
Example c89_accountless_example : exists s, surface_now 0 plain_scene = (plain_scene, Ok s) /\ forall id o, s_opt s <> Accountant id o.
Proof. eexists. split; [reflexivity|]. discriminate. Qed.

(** A square source without width. *)
Theorem c89_square : forall n c d, square_bundle n c d 0 = Err ValueError.
Proof. exact square_no_width. Qed.
Print Assumptions c89_square.

(** Drawing a trace whose bundle has parents for more or fewer rays than it has. *)
Theorem c89_drawn : forall b b2 rest esc sel es v d ps v2,
  b_energy b = Some es -> b_vert b = Some v -> b_dir b = Some d -> length v = length es -> length d = length es ->
  (forall f, sel = Some f -> length (f b) = length es) ->
  b_parents b2 = Some ps -> b_vert b2 = Some v2 -> length ps <> length v2 ->
  show_rays (b :: b2 :: rest) esc sel = Err ValueError.
Proof. exact draw_misfit. Qed.
Print Assumptions c89_drawn.
Example c89_drawn_example : let b := mkB (Some [V3 0 0 0]) (Some [V3 0 0 1]) (Some [1%R]) None None [] in
  let b2 := mkB (Some [V3 0 0 1]) None None (Some [0; 0]) None [] in
  exists es v d ps v2, b_energy b = Some es /\ b_vert b = Some v /\ b_dir b = Some d /\ length v = length es /\ length d = length es /\
  b_parents b2 = Some ps /\ b_vert b2 = Some v2 /\ length ps <> length v2.
Proof. cbv zeta. do 5 eexists. repeat (split; [reflexivity|]). cbn. lia. Qed.

(** Drawing a trace with a selector that gives another number of answers than there are rays. *)
Theorem c89_selector : forall b rest esc f es v,
  b_energy b = Some es -> b_vert b = Some v -> length (f b) <> length es -> length (f b) <> 1 ->
  show_rays (b :: rest) esc (Some f) = Err ValueError.
Proof. exact draw_selector. Qed.
Print Assumptions c89_selector.
Example c89_selector_example : let b := mkB (Some [V3 0 0 0]) (Some [V3 0 0 1]) (Some [1%R]) None None [] in
  exists es v, b_energy b = Some es /\ b_vert b = Some v /\ let f := fun _ : bundle => [true; false] in
  length (f b) <> length es /\ length (f b) <> 1.
Proof. cbv zeta. do 2 eexists. repeat (split; [reflexivity|]). cbn. lia. Qed.

(** Containers of the wrong kind. *)
Theorem c89_containers : forall limit w n x c tr, w_node w n = Some x ->
  ((forall os ms, n_kind x <> KAsm os ms) ->
     snd (add_object limit n c tr w) = Err AttributeError /\ snd (add_assembly limit n c tr w) = Err AttributeError /\
     w_node (fst (add_object limit n c tr w)) = w_node w /\ w_node (fst (add_assembly limit n c tr w)) = w_node w) /\
  ((forall ss bs, n_kind x <> KObj ss bs) ->
     add_surface limit n c w = (w, Err AttributeError) /\ add_boundary limit n c w = (w, Err AttributeError)) /\
  ((forall os ms, n_kind x <> KAsm os ms) -> get_objects (S limit) n w = (w, Err AttributeError)) /\
  ((forall ss bs, n_kind x <> KObj ss bs) -> (forall os ms, n_kind x <> KAsm os ms) ->
     get_surfaces (S limit) n w = (w, Err AttributeError)).
Proof. exact add_wrong_kind. Qed.
Print Assumptions c89_containers.
Example c89_containers_example :
  (exists x, w_node (sc_w plain_scene) 0 = Some x /\ n_kind x = KSurf) /\
  (exists x, w_node (sc_w plain_scene) 1 = Some x /\ n_kind x = KObj [0] []).
Proof. split; eexists; split; reflexivity. Qed.

(** Tracing rays where there are no surfaces: the maximum of an empty array. *)
Theorem c89_no_surfaces : forall S G (ops : surf_ops S G) objs g b n reps me ta, rays b n -> 0 < n -> 0 < reps ->
  ray_tracer ops objs [] g b reps me ta = Err ValueError.
Proof. intros S G. exact trace_nothing. Qed.
Print Assumptions c89_no_surfaces.
Example c89_no_surfaces_example : rays (mkB (Some [V3 0 0 0]) (Some [V3 0 0 1]) (Some [1%R]) None None []) 1 /\ 0 < 1.
Proof. split; [|lia]. split; [eexists; reflexivity|]. intros [] l E; cbn in E; congruence || (injection E as <-; reflexivity). Qed.
