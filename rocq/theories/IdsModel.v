(** Model of frame and submap identifiers and of the file names derived from them:
    builder/frame.cc:27-48, builder/submap.cc:46-66, 165-172, 204-208. *)
From Coq Require Import ZArith Bool String DecimalString.
Local Open Scope string_scope.
Local Open Scope Z_scope.

(** SubmapId, submap.h:42-50 (int32_t fields). *)
Record submap_id := mkSid { s_traj : Z; s_index : Z }.
(** FrameId, frame.h:31-42. *)
Record frame_id := mkFid { f_traj : Z; f_submap : Z; f_index : Z }.

(** Tuple comparisons, submap.cc:46-58. *)
Definition sid_eq (a b : submap_id) : bool := (s_traj a =? s_traj b) && (s_index a =? s_index b).
Definition sid_ne (a b : submap_id) : bool := negb (sid_eq a b).
(** std::tuple operator<: lexicographic, using only < on the elements. *)
Definition sid_lt (a b : submap_id) : bool :=
  (s_traj a <? s_traj b) || (negb (s_traj b <? s_traj a) && (s_index a <? s_index b)).

(** frame.cc:27-41. *)
Definition fid_eq (a b : frame_id) : bool :=
  (f_traj a =? f_traj b) && (f_submap a =? f_submap b) && (f_index a =? f_index b).
Definition fid_ne (a b : frame_id) : bool := negb (fid_eq a b).
Definition fid_lt (a b : frame_id) : bool :=
  (f_traj a <? f_traj b) ||
  (negb (f_traj b <? f_traj a) &&
   ((f_submap a <? f_submap b) ||
    (negb (f_submap b <? f_submap a) && (f_index a <? f_index b)))).

(** std::to_string(int) and operator<<(int) in the C locale. *)
Definition to_string (z : Z) : string := NilZero.string_of_int (Z.to_int z).

(** FrameId::DebugString, frame.cc:43-47. *)
Definition fid_string (a : frame_id) : string :=
  "f_" ++ to_string (f_traj a) ++ "_" ++ to_string (f_submap a) ++ "_" ++ to_string (f_index a).
(** SubmapId::DebugString, submap.cc:61-65. *)
Definition sid_string (a : submap_id) : string :=
  "(" ++ to_string (s_traj a) ++ "," ++ to_string (s_index a) ++ ")".

(** Submap::SetId on a submap without a name yet, submap.cc:167-171. *)
Definition submap_file (prefix : string) (a : submap_id) : string :=
  prefix ++ to_string (s_traj a) ++ "_" ++ to_string (s_index a) ++ ".bin".
(** The file of a frame cloud, submap.cc:211. *)
Definition frame_file (a : frame_id) : string := fid_string a ++ ".bin".
(** submap_options.h:42. *)
Definition default_prefix : string := "submap_".
