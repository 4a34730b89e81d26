(** Model of ros_node/kitti_reader.{h,cc} and of its loop in ros_node/static_mapping_node.cpp:431-451.

    Floats are an arbitrary type (values are copied, the reflectance is scaled by an arbitrary function); a
    file is the list of its complete floats: fread drops a rest of less than four bytes.  Oracles: the file
    system, the order of a directory listing, ros::ok and InsertPointcloudMsg. *)
From Coq Require Import ZArith String List Bool.
From Verif Require Import Outcome.
Import ListNotations.
Local Open Scope outcome_scope.
Local Open Scope nat_scope.

(** The file system.  [entries]: the regular files of a directory in the order of the iterator; [content]: None
    if fopen fails. *)
Record world (F : Type) := mkWorld {
  present : string -> bool; is_directory : string -> bool; entries : string -> list string; content : string -> option (list F) }.
Arguments present {F}. Arguments is_directory {F}. Arguments entries {F}. Arguments content {F}.
Record point (F : Type) := mkPoint { px : F; py : F; pz : F; intensity : F }.
Arguments mkPoint {F}.
(** KittiReader, kitti_reader.h:36-53; [heap]: bytes of malloc that are never freed. *)
Record reader := mkReader { files : list string; current_index : nat; heap : Z }.

(** common::ListFilesInPath, common/file_utils.cc:61-76. *)
Definition list_files {F} (w : world F) (path : string) : list string := if is_directory w path then entries w path else [].
(** std::sort of the names. *)
Fixpoint insert (x : string) (l : list string) : list string :=
  match l with
  | [] => [x]
  | y :: r => if String.leb x y then x :: l else y :: insert x r
  end.
Fixpoint sort (l : list string) : list string :=
  match l with [] => [] | x :: r => insert x (sort r) end.
(** SetPointCloudDataPath, kitti_reader.cc:120-127. *)
Definition set_path {F} (w : world F) (s : reader) (path : string) : outcome reader :=
  let* _ := check (present w path) in
  Ok (mkReader (sort (list_files w path)) 0 (heap s)).

Section Reader.
  Context {F : Type}.
  Variable scale : F -> F.                               (* reflectance times 255 *)
  (** The loop over the buffer, kitti_reader.cc:103-115. *)
  Fixpoint points (n : nat) (data : list F) : list (point F) :=
    match n, data with
    | S k, x :: y :: z :: r :: rest => mkPoint x y z (scale r) :: points k rest
    | _, _ => []
    end.
  (** ReadFromFile, kitti_reader.cc:84-118: the buffer takes 1000000 floats.  Without a stream fread is
      undefined. *)
  Definition limit : Z := 1000000.
  Definition read_from_file (w : world F) (name : string) : outcome (list (point F)) :=
    match content w name with
    | None => UB
    | Some data =>
        let got := firstn (Z.to_nat limit) data in
        Ok (points (length got / 4) got)
    end.
  (** ReadNext, kitti_reader.cc:139-144.  None: nullptr. *)
  Definition read_next (w : world F) (s : reader) : outcome (option (list (point F)) * reader) :=
    match nth_error (files s) (current_index s) with
    | Some name =>
        let* c := read_from_file w name in
        Ok (Some c, mkReader (files s) (S (current_index s)) (heap s + 4 * limit))
    | None => Ok (None, s)
    end.
  (** The loop, static_mapping_node.cpp:435-451.  [ok]: ros::ok() before the next iterations; [put]:
      InsertPointcloudMsg.  None: out of fuel. *)
  Context {M : Type}.
  Variables (put : M -> list (point F) -> outcome M) (ok : nat -> bool).
  Fixpoint play (fuel : nat) (w : world F) (s : reader) (m : M) (i : nat) : option (outcome (M * reader)) :=
    match fuel with
    | O => None
    | S n =>
        if ok i then
          match read_next w s with
          | Ok (Some (p :: c), s') =>
              match put m (p :: c) with
              | Ok m' => play n w s' m' (S i)
              | Abort => Some Abort | Throw => Some Throw | UB => Some UB
              end
          | Ok (_, s') => Some (Ok (m, s'))
          | Abort => Some Abort | Throw => Some Throw | UB => Some UB
          end
        else Some (Ok (m, s))
    end.
End Reader.
