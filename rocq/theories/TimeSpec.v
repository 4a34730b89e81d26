(** What the time API promises, stated without reference to its implementation. *)
From Coq Require Import ZArith List.
From Verif Require Import TimeModel.
Import ListNotations.
Local Open Scope Z_scope.

(** Elapsed nanoseconds denoted by a (seconds, nanoseconds) pair. *)
Definition elapsed (t : time) : Z := secs t * 10 ^ 9 + nsecs t.

(** First nanosecond count that no longer fits: 2^32 seconds. *)
Definition range_ns : Z := 2 ^ 32 * 10 ^ 9.

(** The samples at positions [i] and [j] of a track (positions as integers). *)
Definition sample (l : list time) (i : Z) (t : time) : Prop :=
  0 <= i /\ nth_error l (Z.to_nat i) = Some t.

(** A track sorted by time (equal stamps allowed). *)
Definition time_sorted (l : list time) : Prop :=
  forall i j a b, sample l i a -> sample l j b -> i <= j -> elapsed a <= elapsed b.
