(** Properties C01-C06: ray bundles (tracer/ray_bundle.py). *)
From Coq Require Import Reals String List Arith Bool Lia Permutation.
From Verif.Base Require Import Py Num Vec.
From Verif.Model Require Import RayBundle.
From Verif.Spec Require Import BundleSpec.
From Verif.Proof Require Import ListLemmas BundleProof SetterProof.
Import ListNotations.

(** A bundle used in the examples: two rays, one extra property, no parents and
    no refractive index. *)
Definition ex_bundle : bundle :=
  mkB (Some [V3 0 0 1; V3 1 0 1]) (Some [V3 0 0 (-1); V3 0 0 (-1)]) (Some [1; 2]%R) None None
      [("wavelength"%string, Some [[3%R]; [4%R]])].

(** C01: every property of [inherit]'s result is the given value, else the
    selected entries of the source's, else unset. *)
Theorem c01_inherit_values : forall b sel ov b',
  inherit b sel ov = Ok b' ->
  forall p,
    match prop ov p with
    | Some given => prop b' p = Some given
    | None =>
        match prop b p with
        | None => prop b' p = None
        | Some l => exists l', prop b' p = Some l' /\ sel_ok sel (length l)
                      /\ picks l (positions sel (length l)) l'
        end
    end.
Proof. exact inherit_sound. Qed.
Print Assumptions c01_inherit_values.

(** C01: it fails only with IndexError, and exactly when the selector is invalid
    for some property that has to be copied. *)
Theorem c01_inherit_error : forall b sel ov,
  names_ok b ->
  (forall e, inherit b sel ov = Err e ->
     e = IndexError /\
     exists p l, prop ov p = None /\ prop b p = Some l /\ ~ sel_ok sel (length l)) /\
  ((forall p l, prop ov p = None -> prop b p = Some l -> sel_ok sel (length l)) ->
   exists b', inherit b sel ov = Ok b').
Proof.
  intros b sel ov Hn. exact (conj (fun e => inherit_fails b sel ov e Hn) (inherit_total b sel ov Hn)).
Qed.
Print Assumptions c01_inherit_error.

Example c01_example : exists b',
  names_ok ex_bundle /\
  inherit ex_bundle (SIdx [1; 1; 0]) (set_energy [5; 6; 7]%R no_bundle) = Ok b' /\
  prop b' (Extra "wavelength") = Some [PCell [4%R]; PCell [4%R]; PCell [3%R]].
Proof.
  eexists. split; [repeat constructor; simpl; tauto|]. split; reflexivity.
Qed.

(** C02 *)
Theorem c02_add : forall a b p,
  names_ok a ->
  prop (add_bundles a b) p =
  match prop a p, prop b p with
  | Some x, Some y => Some (x ++ y)
  | _, _ => None
  end.
Proof. exact add_bundles_prop. Qed.
Print Assumptions c02_add.

Theorem c02_add_assoc : forall a b c,
  names_ok a -> names_ok b ->
  same_props (add_bundles (add_bundles a b) c) (add_bundles a (add_bundles b c)).
Proof. exact add_bundles_assoc. Qed.
Print Assumptions c02_add_assoc.

Example c02_example :
  names_ok ex_bundle /\
  prop (add_bundles ex_bundle (set_parents [0; 0] ex_bundle)) Energy
    = Some [PReal 1; PReal 2; PReal 1; PReal 2] /\
  prop (add_bundles ex_bundle (set_parents [0; 0] ex_bundle)) Parents = None.
Proof. split; [repeat constructor; simpl; tauto|]. split; reflexivity. Qed.

(** C03 *)
Theorem c03_concatenate : forall b bs r,
  names_ok b -> concatenate_rays (b :: bs) = Ok r ->
  forall p, prop r p = match prop b p with
                       | None => None
                       | Some _ => concat_columns (map (fun c => prop c p) (b :: bs))
                       end.
Proof. exact concatenate_rays_columns. Qed.
Print Assumptions c03_concatenate.

Theorem c03_concatenate_fails : forall b bs,
  names_ok b ->
  ((exists p c, prop b p <> None /\ In c bs /\ prop c p = None) ->
   concatenate_rays (b :: bs) = Err KeyError) /\
  ((forall p c, prop b p <> None -> In c bs -> prop c p <> None) ->
   exists r, concatenate_rays (b :: bs) = Ok r).
Proof. exact concatenate_rays_iff. Qed.
Print Assumptions c03_concatenate_fails.

Theorem c03_concatenate_nothing :
  exists r, concatenate_rays [] = Ok r /\
    forall p, match p with
              | Extra _ => prop r p = None
              | _ => prop r p = Some []
              end.
Proof. exact concatenate_nothing. Qed.
Print Assumptions c03_concatenate_nothing.

Example c03_example : exists r,
  names_ok ex_bundle /\
  concatenate_rays [ex_bundle; ex_bundle; ex_bundle] = Ok r /\
  prop r Energy = Some [PReal 1; PReal 2; PReal 1; PReal 2; PReal 1; PReal 2].
Proof. eexists. split; [repeat constructor; simpl; tauto|]. split; reflexivity. Qed.

(** C04 *)
Theorem c04_delete : forall b n sel,
  names_ok b -> rays b n ->
  exists b', delete_rays b sel = Ok b' /\
  forall p, match prop b p with
            | None => prop b' p = None
            | Some l => exists l', prop b' p = Some l' /\
                picks l (filter (fun i => negb (existsb (Nat.eqb i) sel)) (seq 0 n)) l'
            end.
Proof. exact delete_rays_spec. Qed.
Print Assumptions c04_delete.

Theorem c04_delete_partition : forall b n sel b' c,
  names_ok b -> rays b n -> NoDup sel -> (forall i, In i sel -> i < n) ->
  delete_rays b sel = Ok b' -> inherit b (SIdx sel) no_bundle = Ok c ->
  forall p, match prop b p with
            | None => prop b' p = None /\ prop c p = None
            | Some l => exists x y, prop b' p = Some x /\ prop c p = Some y
                        /\ Permutation (x ++ y) l
            end.
Proof. exact delete_partition. Qed.
Print Assumptions c04_delete_partition.

Lemma ex_bundle_rays : rays ex_bundle 2.
Proof.
  split; [eexists; reflexivity|]. intros p l; destruct p as [| | | | |n];
    cbn [prop ex_bundle b_vert b_dir b_energy b_parents b_ref b_extra option_map lookup];
    try destruct (String.eqb "wavelength" n); intros H; try discriminate H;
    injection H as <-; reflexivity.
Qed.

Example c04_example : exists b',
  names_ok ex_bundle /\ rays ex_bundle 2 /\
  delete_rays ex_bundle [0] = Ok b' /\ prop b' Energy = Some [PReal 2].
Proof.
  eexists. split; [repeat constructor; simpl; tauto|]. split; [exact ex_bundle_rays|].
  split; reflexivity.
Qed.

(** C05: whatever the history of operations, all set properties have one entry
    per ray. *)
Theorem c05_equal_lengths : forall b n, made b n -> rays b n.
Proof. exact (fun b n H => proj2 (made_ok b n H)). Qed.
Print Assumptions c05_equal_lengths.

Example c05_example : made (add_bundles ex_bundle ex_bundle) (2 + 2).
Proof.
  assert (H : made ex_bundle 2).
  { apply made_given; [repeat constructor; simpl; tauto|exact ex_bundle_rays]. }
  apply made_add; exact H.
Qed.

(** C06: writing through a selector changes the selected entries of that property
    and nothing else, and fails only for a bad selector or number of values. *)
Theorem c06_set_selected : forall sel b, nodup_sel sel ->
  (forall v, writes b Vertices sel (map PVec v) (set_vertices_sel v sel b)) /\
  (forall v, writes b Directions sel (map PVec v) (set_directions_sel v sel b)) /\
  (forall v, writes b Energy sel (map PReal v) (set_energy_sel v sel b)) /\
  (forall v, writes b Parents sel (map PNat v) (set_parents_sel v sel b)) /\
  (forall v, writes b RefIndex sel (map PReal v) (set_ref_index_sel v sel b)) /\
  (forall name v, writes b (Extra name) sel (map PCell v) (set_named_sel name v sel b)).
Proof. exact setters_top. Qed.
Print Assumptions c06_set_selected.

(** Reading through a selector. *)
Theorem c06_get_selected : forall sel b,
  reads PVec b Vertices sel (get_prop (b_vert b) sel) /\
  reads PVec b Directions sel (get_prop (b_dir b) sel) /\
  reads PReal b Energy sel (get_prop (b_energy b) sel) /\
  reads PNat b Parents sel (get_prop (b_parents b) sel) /\
  reads PReal b RefIndex sel (get_prop (b_ref b) sel) /\
  (forall name, reads PCell b (Extra name) sel (get_named name b sel)).
Proof. exact getters_top. Qed.
Print Assumptions c06_get_selected.

(** A write without selector is read back. *)
Theorem c06_set_named : forall name vals b,
  match set_named name vals b with
  | Ok b' => prop b' (Extra name) = Some (map PCell vals) /\ forall q, q <> Extra name -> prop b' q = prop b q
  | Err e => e = AttributeError /\ prop b (Extra name) = None
  end.
Proof. exact set_named_top. Qed.
Print Assumptions c06_set_named.

(** Properties a bundle has no accessors for, and properties that are not set. *)
Theorem c06_missing : forall b name sel vals,
  (~ In name (map fst (b_extra b)) -> get_named name b sel = Err AttributeError /\
     set_named name vals b = Err AttributeError /\ set_named_sel name vals sel b = Err AttributeError) /\
  (In name (map fst (b_extra b)) -> exists b', set_named name vals b = Ok b') /\
  (In name (map fst (b_extra b)) -> prop b (Extra name) = None ->
     get_named name b sel = Err KeyError /\ set_named_sel name vals sel b = Err KeyError).
Proof. exact missing_top. Qed.
Print Assumptions c06_missing.

Theorem c06_unset : forall b sel,
  (prop b Vertices = None -> get_prop (b_vert b) sel = Err KeyError /\ get_vertices b = Err KeyError /\
     (forall v, set_vertices_sel v sel b = Err KeyError) /\ get_num_rays b = Err AttributeError) /\
  (prop b Directions = None -> get_prop (b_dir b) sel = Err KeyError /\ get_directions b = Err KeyError /\
     forall v, set_directions_sel v sel b = Err KeyError) /\
  (prop b Energy = None -> get_prop (b_energy b) sel = Err KeyError /\ get_energy b = Err KeyError /\
     forall v, set_energy_sel v sel b = Err KeyError) /\
  (prop b Parents = None -> get_prop (b_parents b) sel = Err KeyError /\ get_parents b = Err KeyError /\
     forall v, set_parents_sel v sel b = Err KeyError) /\
  (prop b RefIndex = None -> get_prop (b_ref b) sel = Err KeyError /\ get_ref_index b = Err KeyError /\
     forall v, set_ref_index_sel v sel b = Err KeyError).
Proof. exact unset_top. Qed.
Print Assumptions c06_unset.
Example c06_missing_example : let b := mkB (Some []) None None None None [("weight"%string, None)] in
  ~ In "colour"%string (map fst (b_extra b)) /\ In "weight"%string (map fst (b_extra b)) /\
  prop b (Extra "weight") = None /\ prop b Energy = None.
Proof. cbn. split; [intros [H|[]]; discriminate|]. auto. Qed.

(** [has_property] knows every property that is set, and no name but the five
    basic ones and those of additional properties. *)
Theorem c06_has_property : forall b p, (prop b p <> None -> has_property (property_name p) b = true) /\
  (has_property (property_name p) b = true ->
     match p with Extra n => In n (map fst (b_extra b)) \/
         exists q, (forall m, q <> Extra m) /\ property_name q = n
     | _ => True end).
Proof. exact has_property_top. Qed.
Print Assumptions c06_has_property.

Theorem c06_set_get : forall b v e d q n,
  get_vertices (set_vertices v b) = Ok v /\ get_energy (set_energy e b) = Ok e /\
  get_directions (set_directions d b) = Ok d /\ get_parents (set_parents q b) = Ok q /\
  get_ref_index (set_ref_index n b) = Ok n /\
  (forall p, p <> Vertices -> prop (set_vertices v b) p = prop b p) /\
  (forall p, p <> Energy -> prop (set_energy e b) p = prop b p) /\
  (forall p, p <> Directions -> prop (set_directions d b) p = prop b p) /\
  (forall p, p <> Parents -> prop (set_parents q b) p = prop b p) /\
  (forall p, p <> RefIndex -> prop (set_ref_index n b) p = prop b p).
Proof.
  intros; repeat split; intros p Hp; destruct p; try reflexivity; congruence.
Qed.
Print Assumptions c06_set_get.

Example c06_example : nodup_sel (SMask [false; true]) /\ exists b',
  set_energy_sel [9%R] (SMask [false; true]) ex_bundle = Ok b' /\
  prop b' Energy = Some [PReal 1; PReal 9].
Proof. split; [exact I|]. eexists; split; reflexivity. Qed.
