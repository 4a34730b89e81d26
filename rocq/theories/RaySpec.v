(** Specification vocabulary for voxel rays. *)
From Coq Require Import List ZArith.
From Verif Require Import RayModel.
Import ListNotations.
Local Open Scope Z_scope.

Definition max_delta (s e : voxel) : Z :=
  Z.max (Z.abs (px e - px s)) (Z.max (Z.abs (py e - py s)) (Z.abs (pz e - pz s))).

(** Two different voxels sharing a face, an edge or a corner. *)
Definition neighbours (a b : voxel) : Prop :=
  a <> b /\ Z.abs (px a - px b) <= 1 /\ Z.abs (py a - py b) <= 1 /\ Z.abs (pz a - pz b) <= 1.

(** All coordinates are int values and so are the coordinate differences. *)
Definition int_ray (limit : Z) (s e : voxel) : Prop :=
  (- 2 ^ 31 <= px s < 2 ^ 31 /\ - 2 ^ 31 <= py s < 2 ^ 31 /\ - 2 ^ 31 <= pz s < 2 ^ 31) /\
  (- 2 ^ 31 <= px e < 2 ^ 31 /\ - 2 ^ 31 <= py e < 2 ^ 31 /\ - 2 ^ 31 <= pz e < 2 ^ 31) /\
  max_delta s e < limit.

(** Coordinate [c] of the [k]-th of [n] equal steps from [a] to [b] is within half a
    voxel of the exact value a + k (b - a) / n. *)
Definition half_voxel (n k a b c : Z) : Prop := 2 * Z.abs (n * (c - a) - k * (b - a)) <= n.
