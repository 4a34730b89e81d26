(** Vocabulary for statements about the whole program (C126): how the states of the thread model
    (BuilderModel.v), of the submaps (SubmapModel.v) and of the output phase (OutputModel.v)
    belong together. *)
From Coq Require Import String List Bool ZArith.
From Verif Require Import Outcome Pose CloudFileModel CloudFileSpec CloudStoreModel IdsModel SubmapModel SubmapSpec OutputModel.
Import ListNotations.

Section Spec.
Variable G : group.
Variable move : G -> point -> point.
Variable finite : point -> bool.
Variable voxel : list point -> list point.
Variable kept_cols : list point -> nat.
Variable limit : Z.
Variable stamp0 : stamp.
Variables enu odom : Type.
Notation sexec := (sexec G move finite voxel kept_cols limit stamp0).
Notation new := (new_submap G stamp0).
Notation frame := (SubmapModel.frame G).
Notation submap := (SubmapModel.submap G).

(** A key frame as scan matching hands it over: its cloud is in memory, not empty and can be
    stored in a file. *)
Definition fresh (f : frame) : Prop :=
  exists c : store string, fr_cloud f = Some c /\ in_memory c = true /\ c_points (inner c) <> [] /\ cloud_ok limit (inner c).
(** Nobody else writes the files of the frames of the submap with this id and path. *)
Definition spares_frames (id : submap_id) (path : string) (o : sop G) : Prop :=
  match o with
  | SForeign f _ => forall k, f <> append path (frame_file (mkFid (s_traj id) (IdsModel.s_index id) k))
  | _ => True
  end.
(** [s] with the disk [d] is what a submap filled with the frames [fs] has become: then anything
    can have happened to it except further insertions and ClearCloudInFrames. *)
Definition made (d : disk string) (fs : list frame) (s : submap) : Prop :=
  exists o id path d0 s1 d1 ops,
    run sexec (new o id path, d0) (map SInsert fs) = Ok (s1, d1) /\
    run sexec (s1, d1) ops = Ok (s, d) /\
    Forall (fun op => ~ is_insert op /\ ~ is_clear op /\ spares_frames id path op) ops /\
    names_apart (new o id path).
(** What the output phase sees of a submap: its pose, and of every frame the pose in the submap
    and the cloud which Frame::Cloud returns. *)
Definition seen_frame (d : disk string) (f : frame) (g : OutputModel.frame G point) : Prop :=
  f_local g = fr_local f /\ f_global g = fr_global f /\
  exists f', frame_cloud G limit stamp0 d f = Ok f' /\ f_cloud g = c_points (frame_points stamp0 f').
Definition seen (d : disk string) (s : submap) (t : OutputModel.submap G point enu odom) : Prop :=
  s_global t = sm_global s /\ Forall2 (seen_frame d) (sm_frames s) (s_frames t).
End Spec.
