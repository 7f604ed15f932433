(** What a scene should show after each of its methods. *)
From Coq Require Import Reals List Arith ZArith Bool Permutation.
From Verif.Base Require Import Py Num Vec.
From Verif.Model Require Import RayBundle TraceTree Geometry OpticsCallables Engine Surface Mesh View.
Import ListNotations.
Local Open Scope R_scope.

Definition in_scene (v : viewer) : list drawing := map snd (v_drawn v).

(** The value a surface is annotated with, or the default. *)
Definition annotated {A : Type} (o : option A) (default x : A) : Prop := o = Some x \/ o = None /\ x = default.

(** The picture of a surface as it is now. *)
Definition portrait (w : world) (colour : vec) (resolution opacity : R) (sid : nat) (d : drawing) : Prop :=
  exists m r c o, annotated (w_resolution w sid) resolution r /\ annotated (w_colour w sid) colour c /\
    annotated (w_opacity w sid) opacity o /\ surf_mesh (w_surface w sid) r = Ok m /\ d = MeshOf m c o.
Definition plain_portrait (w : world) : nat -> drawing -> Prop := portrait w (V3 (1 / 2) (1 / 2) (1 / 2)) 10 1.

(** What was asked for so far. *)
Record settings : Type := mkSet {
  st_asm : nat; st_source : option bundle; st_esc : R; st_selector : ray_selector; st_iters : nat; st_min_energy : R }.
Definition has_settings (v : viewer) (s : settings) : Prop :=
  v_asm v = st_asm s /\ v_source v = st_source s /\ v_esc v = st_esc s /\ v_selector v = st_selector s /\
  v_iters v = st_iters s /\ v_min_energy v = st_min_energy s.

(** The picture of a trace made now. *)
Definition trace_picture (w : world) (s : settings) (b : bundle) (d : drawing) : Prop :=
  exists vs ds st pts cs,
    ray_tracer surface_ops (w_objects w (st_asm s)) (map (w_surface w) (w_surfaces w (st_asm s))) (w_shared w) b
      (st_iters s) (st_min_energy s) TreeTrue = Ok (vs, ds, st) /\
    show_rays (t_tree st) (st_esc s) (st_selector s) = Ok (pts, cs) /\ d = Lines pts cs.

(** The rays shown after a (re)plot: those of the source, or what was there if there is none. *)
Definition replotted (w : world) (s : settings) (rs rs' : list drawing) : Prop :=
  match st_source s with
  | None => rs' = rs
  | Some b => exists d, trace_picture w s b d /\ rs' = [d]
  end.

Definition selected (update : option (list nat)) (sid : nat) : Prop :=
  match update with None => True | Some l => In sid l end.

Definition each (l : list nat) : list nat := nodup Nat.eq_dec l.

Section History.
Variable order : list nat -> list nat.

(** [history w v s ids pic rs]: a scene [v] that came about by orderly calls, none of
    which raised an exception, in a world now like [w], with the settings [s], the
    surfaces [ids] known to it, the picture [pic] of each and pictures [rs] of rays.
    Orderly: the assembly is replaced only just after [clear_scene], and that is
    followed by this or by a redrawing.  Between the calls anything may happen to
    assemblies and surfaces. *)
Inductive history : world -> viewer -> settings -> list nat -> (nat -> drawing) -> list drawing -> Prop :=
  | h_new w v a src esc sel pic rs :
      new_viewer order w a src esc sel = Ok v ->
      (forall sid, In sid (w_surfaces w a) -> plain_portrait w sid (pic sid)) ->
      replotted w (mkSet a src esc sel (Z.to_nat 200000000) (5 / 100)) [] rs ->
      history w v (mkSet a src esc sel (Z.to_nat 200000000) (5 / 100)) (each (w_surfaces w a)) pic rs
  | h_world w w' v s ids pic rs : history w v s ids pic rs -> history w' v s ids pic rs
  | h_update w v v' s ids pic pic' rs :
      history w v s ids pic rs -> update_surfaces order w v = Ok v' ->
      (forall sid, In sid (w_surfaces w (st_asm s)) -> In sid ids -> pic' sid = pic sid) ->
      (forall sid, In sid (w_surfaces w (st_asm s)) -> ~ In sid ids -> plain_portrait w sid (pic' sid)) ->
      history w v' s (each (w_surfaces w (st_asm s))) pic' rs
  | h_show w v v' s ids pic pic' rs colour resolution update opacity :
      history w v s ids pic rs -> show_assembly order w colour resolution update opacity v = Ok v' ->
      (forall sid, In sid ids -> selected update sid -> portrait w colour resolution opacity sid (pic' sid)) ->
      (forall sid, In sid ids -> ~ selected update sid -> pic' sid = pic sid) ->
      history w v' s ids pic' rs
  | h_source w v v' s ids pic rs rs' src s' :
      history w v s ids pic rs -> set_source w src v = Ok v' ->
      s' = mkSet (st_asm s) src (st_esc s) (st_selector s) (st_iters s) (st_min_energy s) ->
      replotted w s' rs rs' ->
      history w v' s' ids pic rs'
  | h_plot w v v' s ids pic rs rs' :
      history w v s ids pic rs -> plot_ray_trace w v = Ok v' -> replotted w s rs rs' ->
      history w v' s ids pic rs'
  | h_control w v s ids pic rs i e s' :
      history w v s ids pic rs ->
      annotated i (st_iters s) (st_iters s') -> annotated e (st_min_energy s) (st_min_energy s') ->
      st_asm s' = st_asm s -> st_source s' = st_source s -> st_esc s' = st_esc s -> st_selector s' = st_selector s ->
      history w (set_trace_control i e v) s' ids pic rs
  | h_replace w v v' s ids pic pic' rs a :
      history w v s ids pic rs -> set_assembly order w a (clear_scene v) = Ok v' ->
      (forall sid, In sid (w_surfaces w a) -> plain_portrait w sid (pic' sid)) ->
      history w v' (mkSet a (st_source s) (st_esc s) (st_selector s) (st_iters s) (st_min_energy s)) (each (w_surfaces w a)) pic' []
  | h_redraw w v v' s ids pic pic' rs colour resolution opacity :
      history w v s ids pic rs -> show_assembly order w colour resolution None opacity (clear_scene v) = Ok v' ->
      (forall sid, In sid ids -> portrait w colour resolution opacity sid (pic' sid)) ->
      history w v' s ids pic' [].

(** What the scene then shows: one picture of each surface, the rays, nothing else. *)
Definition shows (v : viewer) (ids : list nat) (pic : nat -> drawing) (rs : list drawing) : Prop :=
  NoDup ids /\ Permutation (in_scene v) (map pic ids ++ rs) /\ (rs = [] \/ exists pts cs, rs = [Lines pts cs]).
End History.

(** A dictionary is gone through completely, in any order. *)
Definition some_order (order : list nat -> list nat) : Prop := forall l, Permutation (order l) l.
