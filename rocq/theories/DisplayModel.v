(** Model of the display functions called by MapBuilder::ConnectAllSubmap, builder/map_builder.cc:495-557
    (set by SetShowMapFunction etc., 764-778, called by ros_node/static_mapping_node.cpp:370-383), on top of
    the threads of BuilderModel.v.  The state of BuilderModel is extended by the place inside of lines
    503-557 and by the calls made so far.  Each look at an element of the trajectory is one step: the submap
    thread may run in between, and end() of a range-for over a tbb::concurrent_vector is size() when the loop
    starts, which counts an element that is still under construction.

    Poses of the submaps are written only by this thread (SetGlobalPose at 487 and inside of AddFrame), so they
    are given by a function of the number of submaps connected so far; it is arbitrary.  The cloud of a submap
    is a function of its frames (that it can be read at any time is C29 and C97).  The index in the id of a
    submap is its place in the trajectory (681, IdsModel).  Distances are real numbers.  GetWholeGraph, the
    argument of show_edge, is not modelled.  The functions are set before the first submap is complete. *)
From Coq Require Import List Bool Arith ZArith Reals.
From Verif Require Import Outcome BuilderModel RigidModel.
Import ListNotations.
Local Open Scope nat_scope.

(** 521-528 with kLocalMapRange = 30 (50). *)
Definition near (a b : vec) : bool :=
  if Rlt_dec (sqrt ((vx a - vx b) * (vx a - vx b) + (vy a - vy b) * (vy a - vy b))) 30
  then if Rlt_dec (Rabs (vz a - vz b)) 2 then true else false else false.

(** RandomSampler::Filter with rate 0.05 (545-549, filter_random_sample.cc:57-66): any choice of the points,
    in order. *)
Inductive chosen {A} : list A -> list A -> Prop :=
| ch_nil : chosen [] []
| ch_keep a l k : chosen l k -> chosen (a :: l) (a :: k)
| ch_drop a l k : chosen l k -> chosen (a :: l) k.

Section Display.
Variables cloud frame smst : Type.
Variable sm_init : smst.
Variable sm_step : smst -> cloud -> smst * option frame.
Variable fc : Z.
Notation st := (st cloud frame smst).
Notation bstep := (bstep cloud frame smst sm_step fc false).
Variables pose point : Type.
Variable translation : pose -> vec.
(** pcl::transformPointCloud *)
Variable move : pose -> point -> point.
(** the cloud of the submap with these frames *)
Variable points : list frame -> list point.
(** [pose_at m i]: pose of submap i when submaps 0..m are connected *)
Variable pose_at : nat -> nat -> pose.
(** Which functions are set. *)
Variables show_submap show_path show_map show_edge : bool.

Inductive shown :=
| Submap (ps : list point) (p : pose)     (* 499 *)
| Path (l : list pose)                    (* 511 *)
| Map (ps : list point)                   (* 552 *)
| Edges.                                  (* 556 *)
Inductive dpc :=
| DReady                                  (* 503 *)
| DPath (e i : nat) (l : list pose)       (* 506: about to look at submap i of e *)
| DMap0                                   (* 514 *)
| DMap (e i : nat) (l : list point)       (* 516: about to look at submap i of e; local_map so far *)
| DEdge.                                  (* 555 *)
Record dst := mkD { bst : st; dis : dpc; log : list shown }.
Inductive dresult := DNext (s : dst) | DCrash (o : outcome unit).

Definition built_at (s : st) (i : nat) (g : list frame) : Prop := nth_error (traj (su s)) i = Some (Some g).
Definition unbuilt_at (s : st) (i : nat) : Prop := forall g, ~ built_at s i g.
Definition cur_pose (s : st) (i : nat) : pose := pose_at (fin (cn s)) i.

Inductive dstep : dst -> dresult -> Prop :=
(** steps of BuilderModel other than those of 484-500 and of the end of the loop body *)
| DOther s d l s' : bstep s (Next s') -> fin (cn s') = fin (cn s) -> (xpc (cn s) = XConn [] -> xpc (cn s') = XConn []) ->
    dstep (mkD s d l) (DNext (mkD s' d l))
| DOtherCrash s d l o : bstep s (Crash o) -> dstep (mkD s d l) (DCrash o)
(** 484-501 *)
| DConnect s d l s' k r g : bstep s (Next s') -> xpc (cn s) = XConn (k :: r) -> fin (cn s') = S (fin (cn s)) -> built_at s k g ->
    dstep (mkD s d l) (DNext (mkD s' d (l ++ if show_submap then [Submap (points g) (cur_pose s' k)] else [])))
| DConnectUB s d l k r : xpc (cn s) = XConn (k :: r) -> show_submap = true -> unbuilt_at s k -> dstep (mkD s d l) (DCrash UB)
(** 503-512 *)
| DPathSkip s l : xpc (cn s) = XConn [] -> show_path = false -> dstep (mkD s DReady l) (DNext (mkD s DMap0 l))
| DPathStart s l : xpc (cn s) = XConn [] -> show_path = true ->
    dstep (mkD s DReady l) (DNext (mkD s (DPath (length (traj (su s))) 0 []) l))
| DPathStep s e i ps l g : i < e -> built_at s i g ->
    dstep (mkD s (DPath e i ps) l)
          (DNext (mkD s (DPath e (S i) (if i <=? fin (cn s) then ps ++ [cur_pose s i] else ps)) l))
| DPathUB s e i ps l : i < e -> unbuilt_at s i -> dstep (mkD s (DPath e i ps) l) (DCrash UB)
| DPathEnd s e i ps l : e <= i -> dstep (mkD s (DPath e i ps) l) (DNext (mkD s DMap0 (l ++ [Path ps])))
(** 514-553 *)
| DMapSkip s l : show_map = false -> dstep (mkD s DMap0 l) (DNext (mkD s DEdge l))
| DMapStart s l : show_map = true -> dstep (mkD s DMap0 l) (DNext (mkD s (DMap (length (traj (su s))) 0 []) l))
| DMapStep s e i ps l g : i < e -> built_at s i g -> i <= fin (cn s) ->
    dstep (mkD s (DMap e i ps) l)
          (DNext (mkD s (DMap e (S i)
            (if near (translation (cur_pose s i)) (translation (cur_pose s (fin (cn s))))
             then ps ++ map (move (cur_pose s i)) (points g) else ps)) l))
| DMapUB s e i ps l : i < e -> unbuilt_at s i -> dstep (mkD s (DMap e i ps) l) (DCrash UB)
| DMapEnd s e i ps l k : e <= i \/ fin (cn s) < i /\ (exists g, built_at s i g) -> chosen ps k ->
    dstep (mkD s (DMap e i ps) l) (DNext (mkD s DEdge (l ++ [Map k])))
(** 555-557, and back to 454 *)
| DBack s l s' : bstep s (Next s') -> xpc (cn s) = XConn [] -> xpc (cn s') = XSize ->
    dstep (mkD s DEdge l) (DNext (mkD s' DReady (l ++ if show_edge then [Edges] else []))).

Inductive dreach : dresult -> Prop :=
| dreach_init : dreach (DNext (mkD (init sm_init) DReady []))
| dreach_step s r : dreach (DNext s) -> dstep s r -> dreach r.
End Display.
Arguments Submap {pose point}. Arguments Path {pose point}. Arguments Map {pose point}. Arguments Edges {pose point}.
Arguments DReady {pose point}. Arguments DPath {pose point}. Arguments DMap0 {pose point}. Arguments DMap {pose point}.
Arguments DEdge {pose point}.
Arguments mkD {cloud frame smst pose point}. Arguments bst {cloud frame smst pose point}.
Arguments dis {cloud frame smst pose point}. Arguments log {cloud frame smst pose point}.
Arguments DNext {cloud frame smst pose point}. Arguments DCrash {cloud frame smst pose point}.
Arguments built_at {cloud frame smst}. Arguments unbuilt_at {cloud frame smst}.
