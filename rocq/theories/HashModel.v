(** Model of common/eigen_hash.h: the hash of the keys of the voxel map (Vector3i), of the voxel filter (Vector3i) and of
    the range image (Vector2i).  size_t has 64 bits, and std::hash<int> is the conversion to size_t, as in
    the library of the project's compiler. *)
From Coq Require Import List ZArith.
Import ListNotations.
Local Open Scope Z_scope.

(** Conversion to size_t. *)
Definition size (x : Z) : Z := x mod 2 ^ 64.
(** One element, eigen_hash.h:37-39: all arithmetic is modulo 2^64. *)
Definition mix (seed x : Z) : Z := Z.lxor seed (size (size x + 2654435769 + size (Z.shiftl seed 6) + Z.shiftr seed 2)).
(** operator(), 34-42. *)
Definition hash (key : list Z) : Z := fold_left mix key 0.
