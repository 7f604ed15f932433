(** Concrete histories of frames and assemblies. *)
From Coq Require Import Reals List Arith Bool Lia Lra.
From Verif.Base Require Import Py Num Vec.
From Verif.Model Require Import Spatial Assembly.
From Verif.Spec Require Import FrameSpec.
From Verif.Proof Require Import FrameProof FrameHistory PlaceProof PlaceTop FrameTop.
Import ListNotations.

Definition run (limit : nat) (es : list event) : world :=
  fold_left (fun w e => fst (perform limit e w)) es nothing.

Fixpoint careful_from (limit : nat) (w : world) (es : list event) : Prop :=
  match es with
  | [] => True
  | e :: r => careful w e /\ careful_from limit (fst (perform limit e w)) r
  end.

Lemma careful_history limit es : careful_from limit nothing es -> history limit es (run limit es).
Proof.
  unfold run. assert (G : forall es' w es0, history limit es0 w -> careful_from limit w es' ->
    history limit (es0 ++ es') (fold_left (fun w e => fst (perform limit e w)) es' w)).
  { induction es' as [|e es' IH]; simpl; intros w es0 H C; [rewrite app_nil_r; auto|].
    destruct C as (C1 & C2). replace (es0 ++ e :: es') with ((es0 ++ [e]) ++ es') by (rewrite <- app_assoc; auto).
    apply IH; auto. constructor; auto. }
  intros C. apply (G es nothing []); auto. constructor.
Qed.

Lemma path_cases w n l T : path w n l T ->
  (exists ss bs, kind_of w n = Some (KObj ss bs) /\ In l (ss ++ bs) /\ transform_of w n = Some T) \/
  (exists os ms c T1 T2, kind_of w n = Some (KAsm os ms) /\ In c (os ++ ms) /\ transform_of w n = Some T1 /\
     path w c l T2 /\ T = mm4 T1 T2).
Proof. intros P. destruct P; [left|right]; repeat eexists; eauto. Qed.

Lemma placed_surf w n l P : well_placed w n -> (forall T, path w n l T -> T = P) -> path w n l P ->
  kind_of w l = Some KSurf -> forall m f, transform_of w l = Some m -> placed_array w l = Some (A44 f) -> f = mm4 P m.
Proof.
  intros W U Pp K m f E F. destruct (W l (ex_intro _ P Pp)) as (T & PT & B). rewrite (U T PT) in B.
  unfold placed_by in B. rewrite K in B. destruct B as (m' & E' & F'). congruence.
Qed.

Section World.
Variables t1 t2 : mat4.

(** A surface 0 in an object 1 in an assembly 2; the assembly is put to [t2]. *)
Definition ex_events : list event :=
  [MkSurface id4 None None; MkObject [0] [] None; MkAssembly id4 [1] [] None None;
   New (A44 t2); SetTransform 2 (Whole 10); New (A44 t1)].
Definition ex_world : world := run 5 ex_events.


Ltac own_tac b m :=
  exists b, m; split; [reflexivity|]; split; [lazy; lia|]; split; [reflexivity|];
  intros [|[|[|?]]] x ? E; lazy in E; try discriminate; injection E as <-; let T := fresh in lazy; intros T; discriminate T.

Lemma ex_history : history 5 ex_events ex_world.
Proof.
  apply careful_history. cbn [careful_from ex_events careful].
  repeat match goal with |- _ /\ _ => split | |- True => exact I | |- plain_opt _ None => exact I
    | |- usable_opt _ _ None => exact I end.
  own_tac 10 t2.
Qed.

Lemma ex_nodes :
  kind_of ex_world 0 = Some KSurf /\ kind_of ex_world 1 = Some (KObj [0] []) /\ kind_of ex_world 2 = Some (KAsm [1] []) /\
  w_next ex_world = 13 /\ w_size ex_world = 3.
Proof. lazy. repeat split. Qed.

Lemma ex_own : usable_transform ex_world 1 (Whole 12).
Proof. own_tac 12 t1. Qed.

Lemma ex_sole : sole ex_world 2.
Proof.
  intros [|[|[|n]]] x x' N E E'; lazy in E, E'; try discriminate E; try discriminate E';
    injection E as <-; injection E' as <-; lazy; intros K; try discriminate K. apply N. reflexivity.
Qed.

Lemma ex_transforms :
  transform_of ex_world 0 = Some (mk4 id3 vzero) /\ transform_of ex_world 1 = Some id4 /\ transform_of ex_world 2 = Some t2.
Proof. repeat split; lazy; reflexivity. Qed.

Lemma ex_path : path ex_world 2 0 (mm4 t2 id4).
Proof.
  destruct ex_nodes as (_ & K1 & K2 & _). destruct ex_transforms as (_ & T1 & T2).
  eapply path_asm with (c := 1); [exact K2|left; reflexivity|exact T2|].
  eapply path_obj; [exact K1|left; reflexivity|exact T1].
Qed.

Lemma ex_built : built ex_world 5 2.
Proof.
  destruct ex_nodes as (K0 & K1 & K2 & _).
  eapply built_asm; [exact K2|]. constructor; [|constructor].
  eapply built_obj; [exact K1|]. constructor; [rewrite K0; discriminate|constructor].
Qed.

(** The object is put to [t1]. *)
Definition ex_world' : world := fst (set_transform 5 1 (Whole 12) ex_world).

Lemma ex_set : set_transform 5 1 (Whole 12) ex_world = (ex_world', Ok tt).
Proof.
  assert (E : snd (set_transform 5 1 (Whole 12) ex_world) = Ok tt) by (lazy; reflexivity).
  unfold ex_world'. destruct (set_transform 5 1 (Whole 12) ex_world). simpl in *. congruence.
Qed.

Lemma ex_nodes' :
  kind_of ex_world' 0 = Some KSurf /\ kind_of ex_world' 1 = Some (KObj [0] []) /\ kind_of ex_world' 2 = Some (KAsm [1] []) /\
  transform_of ex_world' 0 = Some (mk4 id3 vzero) /\ transform_of ex_world' 1 = Some t1 /\ transform_of ex_world' 2 = Some t2.
Proof. repeat split; lazy; reflexivity. Qed.

Lemma ex_frames :
  placed_array ex_world 0 = Some (A44 (mm4 (mm4 (mm4 id4 t2) id4) (mk4 id3 vzero))) /\
  placed_array ex_world' 0 = Some (A44 (mm4 (mm4 id4 t1) (mk4 id3 vzero))).
Proof. split; lazy; reflexivity. Qed.

Lemma ex_path' T : path ex_world' 2 0 T -> T = mm4 t2 t1.
Proof.
  destruct ex_nodes' as (K0 & K1 & K2 & T0 & T1 & T2). intros P.
  destruct (path_cases _ _ _ _ P) as [(ss & bs & K & _)|(os & ms & c & T3 & T' & K & Hc & HT & P2 & ->)].
  { rewrite K2 in K. discriminate K. }
  rewrite K2 in K. injection K as <- <-. destruct Hc as [<-|[]].
  destruct (path_cases _ _ _ _ P2) as [(ss & bs & K & Hl & HT')|(os & ms & c & T4 & T5 & K & _)];
    [|rewrite K1 in K; discriminate K].
  rewrite T2 in HT. rewrite T1 in HT'. injection HT as <-. injection HT' as <-. reflexivity.
Qed.

Lemma ex_wrong : well_placed ex_world' 2 -> mm4 (mm4 t2 t1) (mk4 id3 vzero) = mm4 (mm4 id4 t1) (mk4 id3 vzero).
Proof.
  destruct ex_nodes' as (K0 & K1 & K2 & T0 & T1 & T2). destruct ex_frames as (_ & F).
  intros W. symmetry. eapply placed_surf; [exact W|exact ex_path'| |exact K0|exact T0|exact F].
  eapply path_asm with (c := 1); [exact K2|left; reflexivity|exact T2|].
  eapply path_obj; [exact K1|left; reflexivity|exact T1].
Qed.

Lemma ex_right : well_placed ex_world 2.
Proof.
  destruct ex_nodes as (K0 & K1 & K2 & _).
  intros l (T & P). exists T. split; [exact P|].
  destruct ex_transforms as (T0 & T1 & T2). destruct ex_frames as (F & _).
  destruct (path_cases _ _ _ _ P) as [(ss & bs & K & _)|(os & ms & c & T3 & T' & K & Hc & HT & P2 & ->)].
  { rewrite K2 in K. discriminate K. }
  rewrite K2 in K. injection K as <- <-. destruct Hc as [<-|[]].
  destruct (path_cases _ _ _ _ P2) as [(ss & bs & K & Hl & HT')|(os & ms & c & T4 & T5 & K & _)];
    [|rewrite K1 in K; discriminate K].
  rewrite K1 in K. injection K as <- <-. destruct Hl as [<-|[]]. unfold placed_by. rewrite K0.
  exists (mk4 id3 vzero). split; [exact T0|]. rewrite F. rewrite mm4_id_l. rewrite T2 in HT. rewrite T1 in HT'. injection HT as <-. injection HT' as <-. reflexivity.
Qed.
End World.

(** Two objects share one transform array; the first is moved. *)
Definition shared_events : list event :=
  [New (A44 id4); MkObject [] [] (Some (Whole 0)); MkObject [] [] (Some (Whole 0));
   New (A3 (V3 1 0 0)); SetLocation 0 (Whole 1); New (A3 (V3 2 0 0)); SetLocation 1 (Whole 2)].

Lemma shared_desync : ~ in_sync (run 5 shared_events).
Proof.
  intros S. destruct (S 0) as (m & Hm & Hl & _); [lazy; discriminate|].
  assert (E : transform_of (run 5 shared_events) 0 = Some (with_loc (with_loc id4 (V3 1 0 0)) (V3 2 0 0))) by reflexivity.
  assert (El : location_of (run 5 shared_events) 0 = Some (V3 1 0 0)) by reflexivity.
  rewrite E in Hm. injection Hm as <-. rewrite El in Hl. injection Hl. intros. cbv [Vec.w3 with_loc q0 vx] in *. lra.
Qed.

(** The array given as the location of a surface is written into later. *)
Definition written_events (v v' : vec) : list event :=
  [New (A3 v); MkSurface id4 (Some (Whole 0)) None; Write (Whole 0) (A3 v')].

Lemma written_desync v v' : v <> v' ->
  history 5 [New (A3 v); MkSurface id4 (Some (Whole 0)) None] (run 5 [New (A3 v); MkSurface id4 (Some (Whole 0)) None]) /\
  transform_of (run 5 (written_events v v')) 0 = Some (mk4 id3 v) /\
  location_of (run 5 (written_events v v')) 0 = Some v' /\ ~ in_sync (run 5 (written_events v v')).
Proof.
  intros N. split.
  - apply careful_history. cbn. repeat split; auto. exists 0. split; [reflexivity|apply Nat.lt_0_1].
  - assert (E : transform_of (run 5 (written_events v v')) 0 = Some (mk4 id3 v)) by reflexivity.
    assert (El : location_of (run 5 (written_events v v')) 0 = Some v') by reflexivity.
    split; [exact E|]. split; [exact El|]. intros S. destruct (S 0) as (m & Hm & Hl & _); [lazy; discriminate|].
    rewrite E in Hm. injection Hm as <-. rewrite El in Hl. injection Hl as Hl. apply N. rewrite Hl. now destruct v.
Qed.

(** The array given as the transform of an object is written into later. *)
Definition rewritten_events (t t' : mat4) : list event :=
  [New (A44 t); MkObject [] [] (Some (Whole 0)); Write (Whole 0) (A44 t')].

Lemma rewritten_moves t t' :
  transform_of (run 5 [New (A44 t); MkObject [] [] (Some (Whole 0))]) 0 = Some t /\
  transform_of (run 5 (rewritten_events t t')) 0 = Some t' /\ synchronised (run 5 (rewritten_events t t')) 0.
Proof. split; [reflexivity|]. split; [reflexivity|]. exists t'. now repeat split. Qed.

(** A 3x3 array is given as the transform of an object. *)
Definition bad_events : list event := [MkObject [] [] None; New (A33 id3)].

Lemma bad_transform : let w := run 5 bad_events in let w' := fst (set_transform 5 0 (Whole 1) w) in
  history 5 bad_events w /\ snd (set_transform 5 0 (Whole 1) w) = Err IndexError /\
  transform_of w 0 = Some id4 /\ transform_of w' 0 = None.
Proof.
  split; [|repeat split]. apply careful_history. cbn. auto.
Qed.


Lemma nested_lost : exists limit es w top n r w', history limit es w /\
  composite w n /\ composite w top /\ built w limit top /\ usable_transform w n r /\
  well_placed w top /\ set_transform limit n r w = (w', Ok tt) /\ well_placed w' n /\ ~ well_placed w' top.
Proof.
  pose (t1 := translate 1 0 0). pose (t2 := translate 0 1 0).
  exists 5, (ex_events t1 t2), (ex_world t1 t2), 2, 1, (Whole 12), (ex_world' t1 t2).
  destruct (ex_nodes t1 t2) as (K0 & K1 & K2 & _).
  assert (C1 : composite (ex_world t1 t2) 1) by (unfold composite; rewrite K1; exact I).
  split; [apply ex_history|]. split; [exact C1|]. split; [unfold composite; rewrite K2; exact I|].
  split; [apply ex_built|]. split; [apply ex_own|]. split; [|split; [apply ex_set|split]].
  - apply ex_right.
  - destruct (reached_place_transform 5 _ _ (ex_history t1 t2) 1 (Whole 12) (ex_world' t1 t2)) as (W & _);
      [exact C1|apply ex_own|apply ex_set|exact W].
  - intros W. apply ex_wrong in W. apply (f_equal (fun m => Vec.w3 (q1 m))) in W.
    revert W. unfold t1, t2, translate, mm4, id4, mk4, id3, vzero. cbn -[Rplus Rmult IZR]. lra.
Qed.
