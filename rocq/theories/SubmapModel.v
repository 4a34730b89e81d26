(** Model of Submap, builder/submap.{h,cc}, with the frames it owns (builder/frame.cc,
    builder/frame_base.cc) and the memory manager's ticks (builder/memory_manager.cc:52-63).

    One thread; poses are elements of a group (SetLocalPose and SetGlobalPose also
    re-normalise the rotation, frame_base.cc:47-50, 58-61, which is the identity on rigid
    transforms).  Clouds are the stores of CloudStoreModel.v.  A frame is owned by its submap:
    nothing else changes it. *)
From Coq Require Import List Bool ZArith String.
From Verif Require Import Outcome Pose CloudFileModel CloudStoreModel IdsModel.
Import ListNotations.
Local Open Scope outcome_scope.
Local Open Scope Z_scope.

Section Submap.
Variable G : group.
(** TransformPoint, cloud_types.cc:167-178. *)
Variable move : G -> point -> point.
(** FATAL_CHECK_POINT, common/point_utils.h:60-64. *)
Variable finite : point -> bool.
(** The voxel-grid filter as configured at submap.cc:145-157. *)
Variable voxel : list point -> list point.
(** The number of columns left by normal estimation. *)
Variable kept_cols : list point -> nat.
Variable limit : Z.
Variable stamp0 : stamp.

Notation cstore := (store string).
Notation cdisk := (disk string).

(** Frame: id_, poses, stamp and cloud (null pointer = None). *)
Record frame := mkFrame {
  fr_id : frame_id; fr_global : G; fr_local : G; fr_stamp : stamp; fr_cloud : option cstore }.

(** SubmapOptions, submap_options.h:29-43, the fields used. *)
Record options := mkOpt {
  o_mrvm : bool; o_voxel : bool; o_check : bool;
  o_frame_count : Z;         (* int32 *)
  o_disk : bool; o_delay : Z; (* int32 *)
  o_prefix : string }.

Record submap := mkSub {
  sm_opt : options;
  sm_id : submap_id;
  sm_frames : list frame;
  sm_full : bool;
  sm_global : G;
  sm_stamp : stamp;
  sm_matched : bool;          (* got_matched_transform_to_next_ *)
  sm_next : G;
  sm_inactive : Z;            (* atomic<int> *)
  sm_cloud : option cstore;
  sm_name : string; sm_path : string }.

(** The constructor, submap.cc:70-76, followed by SetId, 165-172, and SetSavePath, 174-177
    (the path exists). *)
Definition new_submap (o : options) (id : submap_id) (path : string) : submap :=
  mkSub o id [] false gone stamp0 false gone 0 None (submap_file (o_prefix o) id) path.

(** Frame::Cloud, frame.cc:58-61. *)
Definition frame_cloud (d : cdisk) (f : frame) : outcome frame :=
  match fr_cloud f with
  | None => Abort
  | Some c => let* c' := cloud_in_memory limit stamp0 c d in
              Ok (mkFrame (fr_id f) (fr_global f) (fr_local f) (fr_stamp f) (Some c'))
  end.
Definition frame_points (f : frame) : cloud :=
  match fr_cloud f with None => mkCloud stamp0 [] | Some c => inner c end.

(** The loop of InsertFrame, submap.cc:113-125: every frame's cloud is moved by its local
    pose and appended; what is already in the sum is checked before each step. *)
Fixpoint add_clouds (chk : bool) (d : cdisk) (fs : list frame) (acc : list point) : outcome (list frame * list point) :=
  match fs with
  | [] => Ok ([], acc)
  | f :: r =>
      let* f' := frame_cloud d f in
      let t := map (move (fr_local f')) (c_points (frame_points f')) in
      let* _ := check (negb chk || forallb finite acc) in
      let* x := add_clouds chk d r (acc ++ t) in
      Ok (f' :: fst x, snd x)
  end.

(** The same loop of the MRVM branch, submap.cc:97-110: the transformed cloud is checked;
    nothing reaches the output cloud. *)
Fixpoint check_clouds (chk : bool) (d : cdisk) (fs : list frame) : outcome (list frame) :=
  match fs with
  | [] => Ok []
  | f :: r =>
      let* f' := frame_cloud d f in
      let t := map (move (fr_local f')) (c_points (frame_points f')) in
      let* _ := check (negb chk || forallb finite t) in
      let* x := check_clouds chk d r in
      Ok (f' :: x)
  end.

(** The processed cloud, submap.cc:94-161. *)
Definition finish (s : submap) (d : cdisk) : outcome submap :=
  let o := sm_opt s in
  let* x := (if o_mrvm o
             then let* fs := check_clouds (o_check o) d (sm_frames s) in
                  Ok (fs, mkCloud stamp0 [])
             else let* y := add_clouds (o_check o) d (sm_frames s) [] in
                  match fst y with
                  | [] => UB
                  | f0 :: _ => Ok (fst y, mkCloud (c_stamp (frame_points f0)) (snd y))
                  end) in
  let pc := snd x in
  let* _ := check (negb (o_check o) || forallb finite (c_points pc)) in
  let pc := if o_voxel o && negb (Nat.eqb (List.length (c_points pc)) 0)
            then mkCloud (c_stamp pc) (voxel (c_points pc)) else pc in
  let* st := make stamp0 pc in
  let st := calculate_normals st (kept_cols (c_points pc)) in
  Ok (mkSub o (sm_id s) (fst x) (sm_full s) (sm_global s) (sm_stamp s) (sm_matched s) (sm_next s)
            (sm_inactive s) (Some st) (sm_name s) (sm_path s)).

(** InsertFrame, submap.cc:78-163.  frames_.size() == options_.frame_count compares a
    size_t with an int32. *)
Definition insert_frame (s : submap) (d : cdisk) (f : frame) : outcome submap :=
  let* _ := check (negb (sm_full s)) in
  let first := match sm_frames s with [] => true | _ => false end in
  let global := if first then fr_global f else sm_global s in
  let local := if first then gone else gmul (ginv (sm_global s)) (fr_global f) in
  let st := if first then fr_stamp f else sm_stamp s in
  let id := mkFid (s_traj (sm_id s)) (s_index (sm_id s)) (Z.of_nat (List.length (sm_frames s))) in
  let fs := sm_frames s ++ [mkFrame id (fr_global f) local (fr_stamp f) (fr_cloud f)] in
  let full := Z.of_nat (List.length fs) =? o_frame_count (sm_opt s) mod 2 ^ 64 in
  let s' := mkSub (sm_opt s) (sm_id s) fs full global st (sm_matched s) (sm_next s)
                  (sm_inactive s) (sm_cloud s) (sm_name s) (sm_path s) in
  if full then finish s' d else Ok s'.

(** GetFrame, submap.cc:184-195: int32 against size_t. *)
Definition get_frame (s : submap) (id : frame_id) : option frame :=
  if negb (f_submap id =? s_index (sm_id s)) || negb (f_traj id =? s_traj (sm_id s)) then None
  else let i := f_index id mod 2 ^ 64 in
       if Z.of_nat (List.length (sm_frames s)) <=? i then None
       else nth_error (sm_frames s) (Z.to_nat i).

(** SetGlobalPose and UpdateInnerFramePose, submap.cc:268-274. *)
Definition set_pose (s : submap) (g : G) : submap :=
  mkSub (sm_opt s) (sm_id s) (sm_frames s) (sm_full s) g (sm_stamp s) (sm_matched s) (sm_next s)
        (sm_inactive s) (sm_cloud s) (sm_name s) (sm_path s).
Definition with_frames (s : submap) (fs : list frame) : submap :=
  mkSub (sm_opt s) (sm_id s) fs (sm_full s) (sm_global s) (sm_stamp s) (sm_matched s) (sm_next s)
        (sm_inactive s) (sm_cloud s) (sm_name s) (sm_path s).
Definition update_frames (s : submap) : submap :=
  with_frames s (map (fun f => mkFrame (fr_id f) (gmul (sm_global s) (fr_local f)) (fr_local f)
                                       (fr_stamp f) (fr_cloud f)) (sm_frames s)).

(** FrameBase::ClearCloud, frame_base.cc:119-123. *)
Definition clear_frame (f : frame) : frame :=
  mkFrame (fr_id f) (fr_global f) (fr_local f) (fr_stamp f) (option_map (clear stamp0) (fr_cloud f)).

(** Frame::ToPcdFile with ClearCloud for every frame, submap.cc:210-213, frame.cc:51-56. *)
Fixpoint save_frames (path : string) (d : cdisk) (fs : list frame) : outcome (list frame * cdisk) :=
  match fs with
  | [] => Ok ([], d)
  | f :: r =>
      match fr_cloud f with
      | None => Abort
      | Some c =>
          let* x := save String.eqb c d (append path (frame_file (fr_id f))) in
          let f' := clear_frame (mkFrame (fr_id f) (fr_global f) (fr_local f) (fr_stamp f) (Some (fst x))) in
          let* y := save_frames path (snd x) r in
          Ok (f' :: fst y, snd y)
      end
  end.

(** SetMatchedTransformedToNext, submap.cc:197-215 (the save name is never empty after
    SetId). *)
Definition set_matched (s : submap) (d : cdisk) (t : G) : outcome (submap * cdisk) :=
  let* _ := check (negb (sm_matched s)) in
  if o_disk (sm_opt s) then
    match sm_cloud s with
    | None => Abort
    | Some c =>
        let* x := save String.eqb c d (append (sm_path s) (sm_name s)) in
        let* y := save_frames (sm_path s) (snd x) (sm_frames s) in
        Ok (mkSub (sm_opt s) (sm_id s) (fst y) (sm_full s) (sm_global s) (sm_stamp s) true t
                  (sm_inactive s) (Some (fst x)) (sm_name s) (sm_path s), snd y)
    end
  else Ok (mkSub (sm_opt s) (sm_id s) (sm_frames s) (sm_full s) (sm_global s) (sm_stamp s) true t
                 (sm_inactive s) (sm_cloud s) (sm_name s) (sm_path s), d).

Definition with_cloud (s : submap) (n : Z) (c : cstore) : submap :=
  mkSub (sm_opt s) (sm_id s) (sm_frames s) (sm_full s) (sm_global s) (sm_stamp s) (sm_matched s)
        (sm_next s) n (Some c) (sm_name s) (sm_path s).

(** Cloud(), submap.cc:217-222. *)
Definition access (s : submap) (d : cdisk) : outcome submap :=
  match sm_cloud s with
  | None => Abort
  | Some c => let* c' := cloud_in_memory limit stamp0 c d in Ok (with_cloud s 0 c')
  end.

(** atomic<int> arithmetic wraps. *)
Definition wrap32 (z : Z) : Z := (z + 2 ^ 31) mod 2 ^ 32 - 2 ^ 31.

(** UpdateInactiveTime, submap.cc:224-236; inner_cloud_ is dereferenced without a test. *)
Definition tick (s : submap) (n : Z) : outcome submap :=
  if negb (o_disk (sm_opt s)) || negb (sm_matched s) then Ok s else
  match sm_cloud s with
  | None => UB
  | Some c =>
      let i := wrap32 (sm_inactive s + n) in
      if o_delay (sm_opt s) <? i then Ok (with_cloud s i (clear stamp0 c)) else Ok (with_cloud s i c)
  end.

(** ClearCloudInFrames, submap.cc:252-257. *)
Definition clear_frames (s : submap) : outcome submap :=
  let* _ := check (sm_full s) in Ok (with_frames s (map clear_frame (sm_frames s))).

Inductive sop :=
| SInsert (f : frame)
| SSetPose (g : G)
| SUpdateFrames
| SMatched (t : G)
| SAccess
| STick (n : Z)
| SClearFrames
| SForeign (f : string) (bytes : list Z).  (* another object writes a file *)

Definition sexec (sd : submap * cdisk) (o : sop) : outcome (submap * cdisk) :=
  let '(s, d) := sd in
  match o with
  | SInsert f => let* s' := insert_frame s d f in Ok (s', d)
  | SSetPose g => Ok (set_pose s g, d)
  | SUpdateFrames => Ok (update_frames s, d)
  | SMatched t => set_matched s d t
  | SAccess => let* s' := access s d in Ok (s', d)
  | STick n => let* s' := tick s n in Ok (s', d)
  | SClearFrames => let* s' := clear_frames s in Ok (s', d)
  | SForeign f b => Ok (s, write String.eqb d f b)
  end.
End Submap.
Arguments mkFrame {G}. Arguments fr_id {G}. Arguments fr_global {G}. Arguments fr_local {G}.
Arguments fr_stamp {G}. Arguments fr_cloud {G}. Arguments mkSub {G}.
Arguments sm_opt {G}. Arguments sm_id {G}. Arguments sm_frames {G}. Arguments sm_full {G}.
Arguments sm_global {G}. Arguments sm_stamp {G}. Arguments sm_matched {G}. Arguments sm_next {G}.
Arguments sm_inactive {G}. Arguments sm_cloud {G}. Arguments sm_name {G}. Arguments sm_path {G}.
Arguments SInsert {G}. Arguments SSetPose {G}. Arguments SUpdateFrames {G}. Arguments SMatched {G}.
Arguments SAccess {G}. Arguments STick {G}. Arguments SClearFrames {G}. Arguments SForeign {G}.
Arguments get_frame {G}. Arguments new_submap G stamp0 o id path.
Arguments frame_points {G}.
