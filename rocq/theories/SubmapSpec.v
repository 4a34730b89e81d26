(** Specification vocabulary for submaps. *)
From Coq Require Import List ZArith String.
From Verif Require Import Outcome Pose CloudFileModel CloudFileSpec CloudStoreModel IdsModel SubmapModel.
Import ListNotations.

Section Spec.
Variable G : group.
Definition inserts (ops : list (sop G)) : nat :=
  List.length (filter (fun o => match o with SInsert _ => true | _ => false end) ops).
Definition is_insert (o : sop G) : Prop := match o with SInsert _ => True | _ => False end.
Definition is_matched (o : sop G) : Prop := match o with SMatched _ => True | _ => False end.
Definition is_clear (o : sop G) : Prop := match o with SClearFrames => True | _ => False end.
(** A frame as it is handed to the submap: it has a cloud object, and a cloud in memory is
    not empty. *)
Definition frame_ok (f : frame G) : Prop :=
  exists c, fr_cloud f = Some c /\ (in_memory c = true -> c_points (inner c) <> []).
(** A frame whose cloud is in memory and not empty. *)
Definition good_frame (f : frame G) : Prop :=
  exists c, fr_cloud f = Some c /\ in_memory c = true /\ c_points (inner c) <> [].
Definition insert_ok (o : sop G) : Prop := match o with SInsert f => frame_ok f | _ => True end.
(** Other objects leave this submap's own file alone. *)
Definition own_file (s : submap G) : string := append (sm_path s) (sm_name s).
Definition spares (s : submap G) (o : sop G) : Prop :=
  match o with SForeign f _ => f <> own_file s | _ => True end.
(** The submap's file is not the file of one of its frames. *)
Definition names_apart (s : submap G) : Prop :=
  forall k, sm_name s <> frame_file (mkFid (s_traj (sm_id s)) (s_index (sm_id s)) k).
Definition resident (s : submap G) : Prop :=
  exists c, sm_cloud s = Some c /\ in_memory c = true.
End Spec.
Arguments inserts {G}. Arguments is_insert {G}. Arguments is_matched {G}. Arguments is_clear {G}.
Arguments frame_ok {G}. Arguments good_frame {G}. Arguments insert_ok {G}. Arguments own_file {G}. Arguments spares {G}.
Arguments names_apart {G}. Arguments resident {G}.
