(** Programs with profiled blocks, and what the table is to say about them. *)
From Coq Require Import ZArith List String Permutation.
From Verif Require Import Outcome ProfModel.
Import ListNotations.
Local Open Scope Z_scope.

(** A block with the blocks inside it, in the order they run, and the time it takes. *)
Inductive block := Block (name : string) (inner : list block) (time : Z).
Fixpoint actions (b : block) : list action :=
  match b with Block n inner d => Enter n :: Register :: flat_map actions inner ++ [Finish d; Leave] end.
(** The times of the blocks with the name, in the order in which the blocks end. *)
Fixpoint times (n : string) (b : block) : list Z :=
  match b with Block m inner d => flat_map (times n) inner ++ (if String.eqb m n then [d] else []) end.
(** Thread [t] runs the blocks [prog t], one after the other. *)
Definition program (prog : nat -> list block) (t : nat) : list action := flat_map actions (prog t).

(** What thread [t] does in an execution. *)
Fixpoint of_thread (t : nat) (tr : list event) : list action :=
  match tr with
  | [] => []
  | Do u a :: r => if Nat.eqb u t then a :: of_thread t r else of_thread t r
  | Exit :: r => of_thread t r
  end.
(** An execution of [n] threads so far; when the static objects are destroyed no thread enters a new block. *)
Record execution (n : nat) (prog : nat -> list block) (tr : list event) : Prop := {
  x_prefix : forall t, (t < n)%nat -> exists rest, of_thread t tr ++ rest = program prog t;
  x_threads : forall t a, In (Do t a) tr -> (t < n)%nat;
  x_exit : forall l1 l2, tr = l1 ++ Exit :: l2 -> ~ In Exit l2 /\ forall t m, ~ In (Do t (Enter m)) l2 }.
Definition complete (n : nat) (prog : nat -> list block) (tr : list event) : Prop :=
  In Exit tr /\ forall t, (t < n)%nat -> of_thread t tr = program prog t.

(** The order of iteration of the two maps: each key once. *)
Definition enumerates (d : durations) (names : list string) (threads : string -> list nat) : Prop :=
  NoDup names /\ (forall n, In n names <-> exists t, d n t <> None) /\
  forall n, NoDup (threads n) /\ forall t, In t (threads n) <-> d n t <> None.

Definition total (l : list Z) : Z := fold_right Z.add 0 l.
(** The figures of a list of times. *)
Definition describes (l : list Z) (s : details) : Prop :=
  d_size s = Z.of_nat (List.length l) /\ d_sum s = total l /\
  In (d_min s) l /\ In (d_max s) l /\ (forall x, In x l -> d_min s <= x <= d_max s) /\
  d_size s * d_average s <= d_sum s < d_size s * (d_average s + 1).
(** The text of a time in units of [u] microseconds. *)
Definition text (u x : Z) (s : shown) : Prop :=
  match s with Less => x < u | Shown n => n * u <= x < (n + 1) * u end.
