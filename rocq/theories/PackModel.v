(** Model of builder/map_package.cc (SaveTrajectoriesAsMapPackage) and of tools/join_pieces.cc, in
    exact arithmetic. *)
From Coq Require Import ZArith QArith List String Bool.
From Verif Require Import Outcome MathModel IdsModel.
Import ListNotations.
Local Open Scope outcome_scope.

Section Pack.
(** Everything of a map point except x and y. *)
Variable P : Type.
Definition point : Type := (Q * Q * P)%type.
Definition xy (p : point) : Q * Q := fst p.
(** A submap: x, y of its GlobalTranslation and its cloud in global coordinates
    (ApplyTransformToOutput with the global pose). *)
Record submap := mkSubmap { position : Q * Q; cloud : list point }.
(** MultiResolutionVoxelMap: any function from the inserted clouds and origins to the output. *)
Variable voxel : list (list point * (Q * Q)) -> list point.

(** step1, map_package.cc:61-87: comparisons as written, starting from 1e50 / -1e50. *)
Definition Qgt (a b : Q) : bool := negb (Qle_bool a b).
Definition Qlt' (a b : Q) : bool := negb (Qle_bool b a).
Definition big : Q := inject_Z (10 ^ 50).
Definition upper (l : list Q) (start : Q) : Q := fold_left (fun m x => if Qgt x m then x else m) l start.
Definition lower (l : list Q) (start : Q) : Q := fold_left (fun m x => if Qlt' x m then x else m) l start.

(** Conversion of a double to int: undefined if the truncated value does not fit. *)
Definition qtrunc (q : Q) : Z := Z.quot (Qnum q) (Zpos (Qden q)).
Definition to_int (q : Q) : outcome Z :=
  if ((- 2 ^ 31 <=? qtrunc q) && (qtrunc q <? 2 ^ 31))%Z then Ok (qtrunc q) else UB.
(** Division of doubles by zero gives infinity or NaN, whose conversion to int is undefined. *)
Definition steps (lo hi h : Q) : outcome Z := if Qeq_bool h 0 then UB else to_int ((hi - lo) / h).

(** common::Clamp on doubles. *)
Definition qclamp : Q -> Q -> Q -> Q := clamp Qgt Qlt'.

(** step2, map_package.cc:119-128: one piece along one axis. *)
Definition center (lo h : Q) (k : Z) : Q := (lo + inject_Z (k + 1) * h)%Q.
Definition bb_min (lo hi h : Q) (k : Z) : Q := qclamp (center lo h k - h)%Q lo hi.
Definition bb_max (lo hi h : Q) (k : Z) : Q := qclamp (center lo h k + h)%Q lo hi.

Record box := mkBox { b_xmin : Q; b_ymin : Q; b_xmax : Q; b_ymax : Q }.
(** The lambda inside_bbox, map_package.cc:109-114. *)
Definition inside (p : Q * Q) (b : box) : bool :=
  Qle_bool (b_xmin b) (fst p) && Qle_bool (fst p) (b_xmax b) && Qle_bool (b_ymin b) (snd p) && Qle_bool (snd p) (b_ymax b).
Definition widen (b : box) (o : Q) : box := mkBox (b_xmin b - o)%Q (b_ymin b - o)%Q (b_xmax b + o)%Q (b_ymax b + o)%Q.

Record piece := mkPiece { p_x : Z; p_y : Z; p_center : Q * Q; p_cloud : list point }.

Section Options.
Variables (offset width : Q).    (* border_offset, piece_width *)
Variable prefix : string.        (* cloud_file_prefix *)
Variable submaps : list submap.  (* all submaps of all trajectories, in order *)

Definition min_x := (lower (map (fun s => fst (position s)) submaps) big - offset)%Q.
Definition max_x := (upper (map (fun s => fst (position s)) submaps) (- big)%Q + offset)%Q.
Definition min_y := (lower (map (fun s => snd (position s)) submaps) big - offset)%Q.
Definition max_y := (upper (map (fun s => snd (position s)) submaps) (- big)%Q + offset)%Q.
Definition half := (width * (1 # 2))%Q.

Definition piece_box (x y : Z) : box :=
  mkBox (bb_min min_x max_x half x) (bb_min min_y max_y half y) (bb_max min_x max_x half x) (bb_max min_y max_y half y).
(** inside_submaps, map_package.cc:130-139. *)
Definition inside_submaps (x y : Z) : list submap := filter (fun s => inside (position s) (widen (piece_box x y) offset)) submaps.
(** step3, map_package.cc:152-183: what is inserted into the voxel map of a piece. *)
Definition insertions (x y : Z) : list (list point * (Q * Q)) :=
  flat_map (fun s =>
    if inside (position s) (piece_box x y) then [(cloud s, position s)]
    else match filter (fun p => inside (xy p) (piece_box x y)) (cloud s) with
         | [] => []
         | c => [(c, position s)]
         end) (inside_submaps x y).
(** step4, map_package.cc:190-197. *)
Definition recentre (c : Q * Q) (p : point) : point := ((fst (xy p) - fst c)%Q, (snd (xy p) - snd c)%Q, snd p).
Definition make_piece (x y : Z) : piece :=
  let c := (center min_x half x, center min_y half y) in
  mkPiece x y c (map (recentre c) (filter (fun p => inside (xy p) (piece_box x y)) (voxel (insertions x y)))).

Definition zseq (n : Z) : list Z := map Z.of_nat (seq 0 (Z.to_nat n)).
(** The whole function: None is the return value false.  The array of pieces lives on the stack
    (map_package.cc:117); its overflow is not modelled, nor are the files. *)
Definition package : outcome (option (list piece)) :=
  let* xs := steps min_x max_x half in
  let* ys := steps min_y max_y half in
  if ((xs <? 0) || (ys <? 0))%Z then Ok None
  else let xs := if (xs =? 0)%Z then 1%Z else xs in
       let ys := if (ys =? 0)%Z then 1%Z else ys in
       Ok (Some (flat_map (fun x => map (make_piece x) (zseq ys)) (zseq xs))).
(** map_package.cc:200-202, 219-221. *)
Definition piece_file (x y : Z) : string := (prefix ++ to_string x ++ "_" ++ to_string y ++ ".pcd")%string.

(** join_pieces.cc:59-81: translate every piece by its recorded centre and concatenate. *)
Definition uncentre (c : Q * Q) (p : point) : point := ((fst (xy p) + fst c)%Q, (snd (xy p) + snd c)%Q, snd p).
Definition join (l : list piece) : list point := flat_map (fun p => map (uncentre (p_center p)) (p_cloud p)) l.
End Options.
End Pack.
