(** Model of the binary cloud file format: InnerPointType / InnerCloudType Serialize and
    Deserialize, builder/data/cloud_types.cc:147-165, 180-195, 207-230, on a little-endian
    machine with 8-byte size_t.

    A float is its 32-bit pattern.  A file is a list of bytes (values 0..255). *)
From Coq Require Import List Bool ZArith.
From Verif Require Import Outcome.
Import ListNotations.
Local Open Scope Z_scope.

(** InnerPointType, cloud_types.h:43-48: five floats, 20 bytes without padding. *)
Record point := mkPoint { w_x : Z; w_y : Z; w_z : Z; w_intensity : Z; w_factor : Z }.
Definition default_point : point := mkPoint 0 0 0 0 0.

(** SimpleTime, simple_time.h:102-110: secs, nsecs and u_judge_range, 12 bytes. *)
Record stamp := mkStamp { st_secs : Z; st_nsecs : Z; st_judge : Z }.

(** InnerCloudType, cloud_types.h:57-59. *)
Record cloud := mkCloud { c_stamp : stamp; c_points : list point }.

(** The [n] bytes of a number in memory. *)
Fixpoint le (n : nat) (z : Z) : list Z :=
  match n with O => [] | S n' => z mod 256 :: le n' (z / 256) end.
Fixpoint unle (l : list Z) : Z :=
  match l with [] => 0 | b :: r => b + 256 * unle r end.

Definition point_bytes (p : point) : list Z :=
  le 4 (w_x p) ++ le 4 (w_y p) ++ le 4 (w_z p) ++ le 4 (w_intensity p) ++ le 4 (w_factor p).
Definition chunk (k n : nat) (l : list Z) : list Z := firstn n (skipn k l).
Definition point_of_bytes (l : list Z) : point :=
  mkPoint (unle (chunk 0 4 l)) (unle (chunk 4 4 l)) (unle (chunk 8 4 l))
          (unle (chunk 12 4 l)) (unle (chunk 16 4 l)).
Definition stamp_bytes (s : stamp) : list Z :=
  le 4 (st_secs s) ++ le 4 (st_nsecs s) ++ le 4 (st_judge s).
Definition stamp_of_bytes (l : list Z) : stamp :=
  mkStamp (unle (chunk 0 4 l)) (unle (chunk 4 4 l)) (unle (chunk 8 4 l)).

(** InnerCloudType::Serialize on an open stream, cloud_types.cc:180-195 (and
    InnerPointType::Serialize, 147-153).  The writes themselves are assumed to succeed:
    their result is not looked at by the code either. *)
Definition serialize (c : cloud) : list Z :=
  stamp_bytes (c_stamp c) ++ le 8 (Z.of_nat (length (c_points c)) mod 2 ^ 64) ++
  flat_map point_bytes (c_points c).

(** std::istream: remaining bytes, eofbit, failbit (badbit stays clear). *)
Record istream := mkIs { rest : list Z; eof : bool; fail : bool }.
Definition open_file (bytes : list Z) : istream := mkIs bytes false false.
Definition good (s : istream) : bool := negb (eof s) && negb (fail s).

(** istream::read(dest, n) ([istream.unformatted]): if the stream is not good nothing is
    stored and failbit is set; if the input ends early the available bytes are stored and
    eofbit and failbit are set. *)
Definition read (n : nat) (dest : list Z) (s : istream) : istream * list Z :=
  if negb (good s) then (mkIs (rest s) (eof s) true, dest)
  else if Nat.leb n (length (rest s)) then
    (mkIs (skipn n (rest s)) false false, firstn n (rest s))
  else (mkIs [] true true, rest s ++ skipn (length (rest s)) dest).

(** InnerPointType::Deserialize, cloud_types.cc:155-165. *)
Definition deserialize_point (p : point) (s : istream) : istream * point * bool :=
  let '(s1, b) := read 20 (point_bytes p) s in
  (s1, point_of_bytes b, good s1 || eof s1).

(** The loop of InnerCloudType::Deserialize, cloud_types.cc:222-226: the points not yet
    read have their default value. *)
Fixpoint read_points (n : nat) (s : istream) : istream * list point * bool :=
  match n with
  | O => (s, [], true)
  | S n' =>
      let '(s1, p, ok) := deserialize_point default_point s in
      if ok then
        let '(s2, ps, ok') := read_points n' s1 in (s2, p :: ps, ok')
      else (s1, p :: repeat default_point n', false)
  end.

(** InnerCloudType::Deserialize into an object with stamp [st0] and points [ps0],
    cloud_types.cc:207-230.  [limit] is the largest vector that can be allocated; beyond
    it points.resize throws.  The result is (return code, object). *)
Definition deserialize (limit : Z) (c0 : cloud) (bytes : list Z) : outcome (Z * cloud) :=
  let s0 := open_file bytes in
  let '(s1, sb) := read 12 (stamp_bytes (c_stamp c0)) s0 in
  let st := stamp_of_bytes sb in
  if negb (good s1) then Ok (-1, mkCloud st (c_points c0)) else
  let '(s2, nb) := read 8 (le 8 0) s1 in
  if negb (good s2) then Ok (-1, mkCloud st (c_points c0)) else
  let size := unle nb in
  if limit <? size then Throw else
  let '(_, ps, ok) := read_points (Z.to_nat size) s2 in
  Ok ((if ok then 0 else -1), mkCloud st ps).
