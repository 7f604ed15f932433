(** Properties of the storage of ray bundles. *)
From Coq Require Import Reals String List Arith Bool Lia Lra.
From Verif.Base Require Import Py Num Vec.
From Verif.Model Require Import RayBundle BundleHeap.
From Verif.Proof Require Import HeapProof HeapShare HeapGet.
From Verif.Spec Require BundleSpec.
From Verif.Spec Require Import HeapSpec.
Import ListNotations.
Local Open Scope R_scope.

(** C82 *)
Theorem c82_inherit : forall h o sel, made h o -> sel <> SAll ->
  makes h (h_inherit o sel no_slots) (inherit (contents h o) sel no_bundle).
Proof. exact inherit_makes. Qed.
Print Assumptions c82_inherit.

Theorem c82_delete_rays : forall h o sel, made h o ->
  makes h (h_delete o sel) (delete_rays (contents h o) sel).
Proof. exact delete_makes. Qed.
Print Assumptions c82_delete_rays.

Theorem c82_add : forall h o1 o2, made h o1 -> made h o2 ->
  makes h (h_add o1 o2) (Ok (add_bundles (contents h o1) (contents h o2))).
Proof. exact add_makes. Qed.
Print Assumptions c82_add.

Theorem c82_concatenate_rays : forall h os, Forall (made h) os ->
  makes h (h_concatenate os) (concatenate_rays (map (contents h) os)).
Proof. exact concatenate_makes. Qed.
Print Assumptions c82_concatenate_rays.

Theorem c82_empty_bund : forall h, makes h h_empty (Ok empty_bund).
Proof. exact empty_makes. Qed.
Print Assumptions c82_empty_bund.

(** With values for some properties: the values are as in C06, whatever is shared. *)
Theorem c82_inherit_values : forall h o sel ov, made h o -> (forall a, refers ov a -> (a < h_next h)%nat) ->
  let '(h', r) := h_inherit o sel ov h in
  untouched h h' /\
  match r, inherit (contents h o) sel (values h ov) with
  | Ok o', Ok b => made h' o' /\ contents h' o' = b /\ (h_onext h <= o')%nat
  | Err e, Err e' => e = e'
  | _, _ => False
  end.
Proof. exact inherit_values. Qed.
Print Assumptions c82_inherit_values.

(** Setting entries writes into one array, and is seen by whoever has it. *)
Theorem c82_set_entries : forall h p vals sel o,
  let '(h', r) := set_p_sel p vals sel o h in
  h_obj h' = h_obj h /\ h_next h' = h_next h /\ h_onext h' = h_onext h /\
  match slot p (h_obj h o) with
  | None => r = Err AttributeError /\ h' = h
  | Some None => r = Err KeyError /\ h' = h
  | Some (Some a) =>
      (forall k b, b <> a -> rd k h' b = rd k h b) /\
      match assign_sel (rd (kind_of p) h a) sel vals with
      | Ok l => r = Ok tt /\ rd (kind_of p) h' a = l
      | Err e => r = Err e /\ h' = h
      end
  end.
Proof. exact write_entries. Qed.
Print Assumptions c82_set_entries.

(** Setting a property as a whole changes the attribute of that bundle, and no array. *)
Theorem c82_set_whole : forall h p a o,
  let '(h', r) := set_p p a o h in
  (forall k b, rd k h' b = rd k h b) /\ h_next h' = h_next h /\ h_onext h' = h_onext h /\
  match slot p (h_obj h o) with
  | None => r = Err AttributeError /\ h' = h
  | Some _ => r = Ok tt /\ slot p (h_obj h' o) = Some (Some a) /\
      (forall p', p' <> p -> slot p' (h_obj h' o) = slot p' (h_obj h o)) /\
      forall o', o' <> o -> h_obj h' o' = h_obj h o'
  end.
Proof. exact set_whole. Qed.
Print Assumptions c82_set_whole.

(** What is read is the array itself. *)
Theorem c82_get : forall h p o, get_p p o h =
  (h, match slot p (h_obj h o) with
      | None => Err AttributeError
      | Some None => Err KeyError
      | Some (Some a) => Ok a
      end).
Proof. exact get_whole. Qed.
Print Assumptions c82_get.

(** What is read with a selector are the entries it denotes, in an array made for them;
    only the full slice gives the array itself. *)
Theorem c82_get_selected : forall h p o sel,
  let '(h', r) := get_p_sel p o sel h in
  untouched h h' /\
  match slot p (h_obj h o) with
  | None => r = Err AttributeError
  | Some None => r = Err KeyError
  | Some (Some a) =>
      let l := rd (kind_of p) h a in
      match r with
      | Ok a' => BundleSpec.sel_ok sel (length l) /\ BundleSpec.picks l (BundleSpec.positions sel (length l)) (rd (kind_of p) h' a') /\
          (sel = SAll -> a' = a) /\ (sel <> SAll -> a' = h_next h /\ h_next h' = S (h_next h))
      | Err e => e = IndexError /\ ~ BundleSpec.sel_ok sel (length l)
      end
  end.
Proof. exact get_selected. Qed.
Print Assumptions c82_get_selected.

(** The default selector copies nothing. *)
Theorem c82_inherit_default : forall h o, exists h', h_inherit o SAll no_slots h = (h', Ok (h_onext h)) /\
  h_obj h' (h_onext h) = h_obj h o.
Proof. exact inherit_default. Qed.
Print Assumptions c82_inherit_default.

(** A bundle keeps the arrays that it is given. *)
Theorem c82_given_arrays : forall h b h' o, new_bundle b h = (h', Ok o) -> h_obj h' o = b /\ untouched h h'.
Proof. exact new_keeps. Qed.
Print Assumptions c82_given_arrays.

(** A heap with one bundle of two rays: arrays 0 to 3. *)
Definition ex_heap : heap :=
  mkH (hupd (hupd (fun _ => []) 0 [V3 0 0 0; V3 1 0 0]) 1 [V3 0 0 1; V3 0 1 0])
      (hupd (fun _ => []) 2 [5; 7]) (hupd (fun _ => []) 3 [0; 0]%nat) (fun _ => []) 4
      (fun _ => mkHB (Some 0) (Some 1) (Some 2) (Some 3) None [])%nat 1.

Example ex_heap_made : made ex_heap 0 /\ h_delete 0 [0%nat] ex_heap <> (ex_heap, Err IndexError) /\
  delete_rays (contents ex_heap 0) [0%nat] =
    Ok (mkB (Some [V3 1 0 0]) (Some [V3 0 1 0]) (Some [7]) (Some [0%nat]) None []).
Proof.
  split; [|split].
  - split; [cbn; lia|]. intros a. unfold refers. cbn.
    intros [X|[X|[X|[X|[X|[n X]]]]]]; try contradiction; try discriminate; injection X as <-; lia.
  - discriminate.
  - reflexivity.
Qed.

(** What [inherit()] gives is not a copy: changing it changes the bundle it is from. *)
Theorem c82_inherit_default_refuted : exists h o h' o' c, made h o /\
  h_inherit o SAll no_slots h = (h', Ok o') /\ ~ independent h' o o' /\
  contents (make_change o' c h') o <> contents h o.
Proof.
  destruct (inherit_default ex_heap 0) as (h' & X & E).
  exists ex_heap, 0%nat, h', 1%nat, (Entries PEnergy [0] (SIdx [0%nat])).
  assert (N : contents (make_change 1 (Entries PEnergy [0] (SIdx [0%nat])) h') 0 <> contents h' 0 /\
    contents h' 0 = contents ex_heap 0).
  { assert (h' = fst (h_inherit 0 SAll no_slots ex_heap)) as -> by now rewrite X.
    split; [|reflexivity]. intros Y. apply (f_equal b_energy) in Y. cbn in Y. injection Y as Y. lra. }
  destruct N as [N E'].
  split; [apply ex_heap_made|]. split; [exact X|]. split; [|now rewrite <- E'].
  intros [_ I]. now apply N, (I [Entries PEnergy [0] (SIdx [0%nat])]).
Qed.
Print Assumptions c82_inherit_default_refuted.

(** Neither are the arrays given to the constructor copied: a later change of the bundle
    writes into the array of the caller. *)
Theorem c82_given_arrays_refuted : exists h a h' o c,
  (a < h_next h)%nat /\ new_bundle (mkHB None None (Some a) None None []) h = (h', Ok o) /\
  rd KNum (make_change o c h') a <> rd KNum h a.
Proof.
  exists ex_heap, 2%nat. eexists. exists 1%nat, (Entries PEnergy [0] (SIdx [0%nat])).
  split; [cbn; lia|]. split; [reflexivity|].
  cbn. intros Y. injection Y as Y. lra.
Qed.
Print Assumptions c82_given_arrays_refuted.
