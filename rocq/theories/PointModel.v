(** The check of points, common/point_utils.h, and its use when a submap is built, builder/submap.cc 98-133.
    Coordinates are binary32; arithmetic rounds to nearest and the sum of squares is evaluated in float without
    contraction, as on the platform of the project. *)
From Coq Require Import ZArith List Bool SpecFloat.
From Verif Require Import Outcome FilterModel.
Import ListNotations.
Local Open Scope outcome_scope.

(** kValidLength, point_utils.h:32: the double 1e8. *)
Definition valid_length : spec_float := binary_normalize 53 1024 100000000 0 false.
(** Length, 34-37: the sum of squares and its root are floats, the result is widened. *)
Definition squares (p : point) : fl := fadd (fadd (fmul (px p) (px p)) (fmul (py p) (py p))) (fmul (pz p) (pz p)).
Definition length_of (p : point) : spec_float := widen (fsqrt (squares p)).

(** std::isinf, std::isnan, std::isfinite. *)
Definition is_inf (x : spec_float) : bool := match x with S754_infinity _ => true | _ => false end.
Definition is_nan (x : spec_float) : bool := match x with S754_nan => true | _ => false end.
Definition is_finite (x : spec_float) : bool := match x with S754_zero _ | S754_finite _ _ _ => true | _ => false end.

(** CheckPoint, 39-51. *)
Definition check_point (p : point) : bool :=
  if is_inf (px p) || is_inf (py p) || is_inf (pz p) || is_nan (px p) || is_nan (py p) || is_nan (pz p) then false
  else if is_inf (length_of p) || SFleb valid_length (length_of p) then false else true.

(** FATAL_CHECK_POINT, 56-64. *)
Definition fatal_point (p : point) : outcome unit :=
  let* _ := check (is_finite (px p) && negb (is_nan (px p))) in
  let* _ := check (is_finite (py p) && negb (is_nan (py p))) in
  let* _ := check (is_finite (pz p) && negb (is_nan (pz p))) in
  let* _ := check (is_finite (length_of p) && negb (is_nan (length_of p))) in
  check (SFltb (length_of p) valid_length).
(** FATAL_CHECK_CLOUD, 66-71: also counts the points looked at. *)
Fixpoint fatal_cloud (l : list point) : outcome nat :=
  match l with [] => Ok 0 | p :: l => let* _ := fatal_point p in let* n := fatal_cloud l in Ok (S n) end.

(** ** Building the cloud of a full submap, submap.cc:98-133 *)
(** The clouds are those of the frames after ApplyTransformToOutput.  [insert]: MultiResolutionVoxelMap::InsertPointCloud,
    of which only the outcome matters here as the map is thrown away.  The result is the processed cloud and how many
    points were looked at. *)
Definition maybe_check (enabled : bool) (l : list point) : outcome nat := if enabled then fatal_cloud l else Ok 0.
Fixpoint add_clouds (enabled : bool) (added : list point) (l : list (list point)) : outcome (list point * nat) :=
  match l with
  | [] => Ok (added, 0)
  | c :: l => let* n := maybe_check enabled added in
              let* r := add_clouds enabled (added ++ c) l in Ok (fst r, n + snd r)
  end.
Fixpoint voxel_clouds {M} (insert : M -> list point -> outcome M) (enabled : bool) (m : M) (l : list (list point)) : outcome nat :=
  match l with
  | [] => Ok 0
  | c :: l => let* n := maybe_check enabled c in let* m := insert m c in let* r := voxel_clouds insert enabled m l in Ok (n + r)
  end.
Definition build_cloud {M} (insert : M -> list point -> outcome M) (new : M) (mrvm enabled : bool) (l : list (list point)) : outcome (list point * nat) :=
  let* r := if mrvm then let* n := voxel_clouds insert enabled new l in Ok ([], n) else add_clouds enabled [] l in
  let* n := maybe_check enabled (fst r) in
  Ok (fst r, snd r + n).
