(** Reading some of the rays of a bundle. *)
From Coq Require Import Reals String List Arith Bool Lia.
From Verif.Base Require Import Py Num Vec.
From Verif.Model Require Import RayBundle BundleHeap.
From Verif.Proof Require BundleProof.
From Verif.Proof Require Import HeapProof HeapShare.
From Verif.Spec Require BundleSpec.
From Verif.Spec Require Import HeapSpec.
Import ListNotations.

Lemma get_selected h p o sel :
  let '(h', r) := get_p_sel p o sel h in
  untouched h h' /\
  match slot p (h_obj h o) with
  | None => r = Err AttributeError
  | Some None => r = Err KeyError
  | Some (Some a) =>
      let l := rd (kind_of p) h a in
      match r with
      | Ok a' => BundleSpec.sel_ok sel (length l) /\ BundleSpec.picks l (BundleSpec.positions sel (length l)) (rd (kind_of p) h' a') /\
          (sel = SAll -> a' = a) /\ (sel <> SAll -> a' = h_next h /\ h_next h' = S (h_next h))
      | Err e => e = IndexError /\ ~ BundleSpec.sel_ok sel (length l)
      end
  end.
Proof.
  unfold get_p_sel, the_array, hbind at 2, hread. unfold hbind.
  destruct (slot p (h_obj h o)) as [[a|]|]; cbn [hret hlift]; try (split; [apply untouched_refl|reflexivity]).
  assert (Hs : forall l', select sel (rd (kind_of p) h a) = Ok l' ->
    BundleSpec.sel_ok sel (length (rd (kind_of p) h a)) /\ BundleSpec.picks (rd (kind_of p) h a) (BundleSpec.positions sel (length (rd (kind_of p) h a))) l').
  { intros l'. apply BundleProof.select_ok. }
  assert (He : forall e, select sel (rd (kind_of p) h a) = Err e -> e = IndexError /\ ~ BundleSpec.sel_ok sel (length (rd (kind_of p) h a))).
  { intros e E. apply BundleProof.select_err in E. tauto. }
  assert (Get : sel <> SAll -> get_array (kind_of p) a sel h =
    match select sel (rd (kind_of p) h a) with Ok l' => array (kind_of p) l' h | Err e => (h, Err e) end).
  { intros N. unfold get_array, hbind, hread, hlift. destruct sel; [congruence| |]; destruct (select _ _); reflexivity. }
  destruct (match sel with SAll => true | _ => false end) eqn:Es.
  - destruct sel; try discriminate. cbn. split; [apply untouched_refl|]. destruct (Hs _ eq_refl) as (A & B). repeat split; auto. all: congruence.
  - assert (N : sel <> SAll) by (intros ->; discriminate). rewrite (Get N).
    destruct (select sel (rd (kind_of p) h a)) as [l'|e].
    + pose proof (agrees_array (kind_of p) h l') as Ar. unfold agrees in Ar. unfold array in *. destruct Ar as (U & _ & _ & Rd).
      split; [exact U|]. destruct (Hs l' eq_refl) as (A & B). rewrite Rd. split; auto. split; auto. split; [congruence|]. intros _. split; auto.
      rewrite wr_next. reflexivity.
    + split; [apply untouched_refl|]. auto.
Qed.
