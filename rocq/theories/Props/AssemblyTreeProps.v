(** C72: the tree widget of an assembly. *)
From Coq Require Import String List Arith Bool.
From Verif.Base Require Import Py.
From Verif.Model Require Import AssemblyTree.
From Verif.Proof Require Import AssemblyTreeProof.
From Verif.Spec Require Import AssemblyTreeSpec.
Import ListNotations.
Local Open Scope string_scope.

(** Whatever the assembly and whatever tags there are: afterwards the tree shows exactly
    the parts, nested and in order, with the captions they now have; captions that were
    there are kept, a part without one gets its number among its like (where it is listed
    first, should it occur more than once), and no other tag changes. *)
Theorem c72_listed : forall x p w, exists cap top,
  wg_top (show_tree x p w) = Some top /\ picture_of top = tree_picture cap x p /\
  (forall y, In y (map fst (members p)) -> caption (wg_tags (show_tree x p w)) y = Some (cap y)) /\
  captioned (wg_tags w) (wg_tags (show_tree x p w)) p.
Proof. exact listed. Qed.
Print Assumptions c72_listed.
Example c72_listed_example :
  wg_top (show_tree 0 small (new_widget (fun i => if Nat.eqb i 5 then Some [("caption", "Dish")] else None))) =
  Some (Item 0 "Top assembly" (Some 0)
    [Item 1 "Subassemblies" None [Item 6 "Assembly 0" (Some 1)
       [Item 7 "Optical objects" None [Item 8 "Object 0" (Some 2) [Item 9 "Surface 0" (Some 3) []; Item 10 "Surface 1" (Some 4) []]]]];
     Item 2 "Optical objects" None [Item 3 "Dish" (Some 5) [Item 4 "Surface 0" (Some 6) []]; Item 5 "Object 1" (Some 7) []]]).
Proof. exact small_case. Qed.

(** Whatever was done with the widget before: renaming an item of the tree succeeds,
    changes the text of that item only, makes it the caption of the object the item stands
    for, and leaves every other object's tags, and its other tags, as they were.  Renaming
    a heading changes no tags. *)
Theorem c72_renamed : forall w i text c x kids, used w -> in_tree w (Item i c x kids) ->
  exists w' top top', rename i text w = Ok w' /\ wg_top w = Some top /\ wg_top w' = Some top' /\ retexted i text top top' /\
    NoDup (map item_id (all_items top)) /\
    other_tags_same (wg_tags w) (wg_tags w') /\
    (forall y, x = Some y -> caption (wg_tags w') y = Some text) /\
    (forall y, x <> Some y -> wg_tags w' y = wg_tags w y).
Proof. exact renamed. Qed.
Print Assumptions c72_renamed.

(** The name appears when an assembly with that part is listed again. *)
Theorem c72_name_kept : forall w i text c x kids w' a p, used w -> in_tree w (Item i c (Some x) kids) -> rename i text w = Ok w' ->
  exists cap top, wg_top (show_tree a p w') = Some top /\ picture_of top = tree_picture cap a p /\ (In x (map fst (members p)) -> cap x = text).
Proof. exact name_kept. Qed.
Print Assumptions c72_name_kept.
Example c72_renamed_example :
  used listed_small /\ in_tree listed_small (Item 9 "Surface 0" (Some 3) []) /\ In 3 (map fst (members small)).
Proof. exact small_used. Qed.

(** Not so for the top assembly itself: a name given to it is stored but never shown
    again. *)
Theorem c72_top_refuted : forall x p w text w' i kids, used w -> wg_top w = Some (Item i "Top assembly" (Some x) kids) -> rename i text w = Ok w' ->
  caption (wg_tags w') x = Some text /\ exists j kids', wg_top (show_tree x p w') = Some (Item j "Top assembly" (Some x) kids').
Proof. exact top_name_lost. Qed.
Print Assumptions c72_top_refuted.
Example c72_top_example : exists w w' i kids, used w /\ wg_top w = Some (Item i "Top assembly" (Some 0) kids) /\ rename i "Plant" w = Ok w'.
Proof. exact top_case. Qed.

(** And a part that is listed twice keeps its old text in the other item. *)
Theorem c72_twice_refuted : exists w i w' j c kids, used w /\ rename i "Dish" w = Ok w' /\
  in_tree w' (Item j c (Some 1) kids) /\ caption (wg_tags w') 1 <> Some c.
Proof. exact second_item_stale. Qed.
Print Assumptions c72_twice_refuted.
