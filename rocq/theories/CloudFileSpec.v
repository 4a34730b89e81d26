(** Specification vocabulary for cloud files. *)
From Coq Require Import List ZArith.
From Verif Require Import CloudFileModel.
Local Open Scope Z_scope.

Definition word (z : Z) : Prop := 0 <= z < 2 ^ 32.
Definition point_ok (p : point) : Prop :=
  word (w_x p) /\ word (w_y p) /\ word (w_z p) /\ word (w_intensity p) /\ word (w_factor p).
Definition stamp_ok (s : stamp) : Prop :=
  word (st_secs s) /\ word (st_nsecs s) /\ word (st_judge s).
(** A cloud as it can exist in memory: 32-bit fields, at most [limit] points. *)
Definition cloud_ok (limit : Z) (c : cloud) : Prop :=
  stamp_ok (c_stamp c) /\ Forall point_ok (c_points c) /\
  Z.of_nat (length (c_points c)) <= limit /\ limit < 2 ^ 64.

(** What is left of a point when only its first [m] of 20 bytes are in the file. *)
Definition cut_point (m : nat) (p : point) : point :=
  point_of_bytes (firstn m (point_bytes p) ++ List.repeat 0 (20 - m)).
