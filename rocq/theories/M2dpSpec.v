(** Bins of the M2DP signature and the correlation of descriptors, independent of the code. *)
From Coq Require Import Reals ZArith List Bool.
From Verif Require Import RigidModel.
Import ListNotations.
Local Open Scope R_scope.

Definition leb (a b : R) : bool := if Rle_dec a b then true else false.
Definition ltb (a b : R) : bool := if Rlt_dec a b then true else false.
(** The distances [u] and [v] from the two axes fall into ring [i] of [l] (the last one is unbounded, the
    radii grow with the square) and into sector [j] of [t]. *)
Definition in_bin (r : R) (l t : Z) (u v : R) (i j : Z) : bool :=
  let d := sqrt (u * u + v * v) in
  let a := atan2 v u in
  leb (r * (IZR i * IZR i)) d && ((i =? l - 1)%Z || ltb d (r * (IZR (i + 1) * IZR (i + 1)))) &&
  leb (IZR j * (2 * PI / IZR t)) a && ltb a (IZR (j + 1) * (2 * PI / IZR t)).
Definition negated (p : vec) : vec := mkV (- vx p) (- vy p) (- vz p).

(** Two lists are related by a straight line that is not constant. *)
Definition on_a_line (P Q : list R) : Prop := exists a b, a <> 0 /\ Q = map (fun x => a * x + b) P.
Definition constant (P : list R) : Prop := exists c, forall x, In x P -> x = c.
