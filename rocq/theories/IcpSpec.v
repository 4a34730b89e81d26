(** Vocabulary for the ICP properties. *)
From Coq Require Import QArith ZArith List Bool Sorted Permutation SpecFloat.
From Verif Require Import Outcome IcpModel.
Import ListNotations.
Local Open Scope nat_scope.

(** std::nth_element on an ordered range. *)
Definition selects (nth : list dbl -> nat -> list dbl) : Prop :=
  forall l k, k < length l -> (forall x, In x l -> x <> S754_nan) ->
    Permutation l (nth l k) /\
    exists x, nth_error (nth l k) k = Some x /\
      forall i y, nth_error (nth l k) i = Some y -> (i < k -> SFltb x y = false) /\ (k < i -> SFltb y x = false).
(** Squared distances: zero, positive or infinite; infinite if there is no match. *)
Definition distance (d : dbl) : Prop := SFleb (S754_zero false) d = true.
Definition finite (d : dbl) : Prop := d <> S754_infinity false.
Definition finite_count (l : list dbl) : nat :=
  length (List.filter (fun d => match d with S754_infinity false => false | _ => true end) l).

(** The mean of the last four steps of the sequence [ts], up to its [n]-th element, is below [bound]. *)
Definition mean_step {A} (dist : A -> A -> Q) (ts : nat -> A) (n : nat) : Q :=
  let d i := dist (ts i) (ts (i - 1)) in ((d n + d (n - 1)%nat + d (n - 2)%nat + d (n - 3)%nat) / 4)%Q.
Definition settled {A} (drot dtra : A -> A -> Q) (ts : nat -> A) (n : nat) : Prop :=
  4 <= n /\ (mean_step drot ts n < 1 # 1000)%Q /\ (mean_step dtra ts n < 1 # 100)%Q.
