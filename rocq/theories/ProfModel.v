(** Model of the profiler: common/performance/simple_prof.{h,cc} (on by default, CMakeLists.txt:129-136).

    REGISTER_BLOCK (simple_prof.h:108-111) declares [manager], a copy of the shared pointer to the only TimerManager,
    and then [timer].  The destructors run in the opposite order: the timer stores the time, then the pointer is given
    up.  The TimerManager is destroyed, and prints its table, when the last pointer to it is given up; the static one
    (simple_prof.cc:31) is given up when the program ends.

    Simplifications: the factors 1e-3 and 1e-6 of time_to_string are exact divisions; layout and colours of the table
    are left out; the first call of Instance, which is not protected, is the one of main
    (static_mapping_node.cpp:96), before other threads exist.  References into an unordered_map stay valid when it grows,
    so that the pointer of a timer is the pair of block name and thread. *)
From Coq Require Import ZArith List Bool String Lia.
From Verif Require Import Outcome TimeModel.
Import ListNotations.
Local Open Scope outcome_scope.
Local Open Scope Z_scope.

(** ** Statistics: GetStatistics, simple_prof.cc:33-53 *)
Record details := Details { d_size : Z; d_average : Z; d_max : Z; d_min : Z; d_sum : Z }.
Fixpoint insert (x : Z) (l : list Z) : list Z :=
  match l with [] => [x] | y :: r => if x <=? y then x :: l else y :: insert x r end.
(** std::sort. *)
Fixpoint sort (l : list Z) : list Z := match l with [] => [] | x :: r => insert x (sort r) end.
(** 47-49: the sum in int64_t. *)
Fixpoint sum_from (a : Z) (l : list Z) : outcome Z :=
  match l with [] => Ok a | x :: r => let* b := i64 (a + x) in sum_from b r end.
(** Conversion to int64_t, and size_t. *)
Definition wrap64 (x : Z) : Z := let y := x mod 2 ^ 64 in if y <? 2 ^ 63 then y else y - 2 ^ 64.
Definition statistics (data : list Z) : outcome details :=
  let sorted := sort data in
  match sorted with
  | [] => UB (* back and front of an empty vector, 43-44 *)
  | first :: _ =>
      let size := Z.of_nat (List.length sorted) in
      let* sum := sum_from 0 sorted in
      (* 51: int64_t / size_t is a division of unsigned numbers *)
      Ok (Details size (wrap64 ((sum mod 2 ^ 64) / size)) (last sorted 0) first sum)
  end.

(** time_to_string, 81-84.  [Less]: "<1". *)
Inductive shown := Less | Shown (n : Z).
Definition time_to_string (unit_ : Z) (time : Z) : outcome shown :=
  let n := Z.quot time unit_ in
  if (- 2 ^ 31 <=? n) && (n <? 2 ^ 31) then Ok (if 1 <=? n then Shown n else Less) else UB.

(** One line of the table, 97-122. *)
Record row := Row { r_name : string; r_times : Z; r_avg : shown; r_sum : shown; r_min : shown; r_max : shown }.
Definition one_row (unit_ : Z) (name : string) (data : list Z) : outcome row :=
  let* s := statistics data in
  let* a := time_to_string unit_ (d_average s) in
  let* b := time_to_string unit_ (d_sum s) in
  let* c := time_to_string unit_ (d_min s) in
  let* d := time_to_string unit_ (d_max s) in
  Ok (Row name (d_size s) a b c d).
Fixpoint all_rows (l : list (outcome row)) : outcome (list row) :=
  match l with [] => Ok [] | x :: r => let* a := x in let* b := all_rows r in Ok (a :: b) end.

(** durations_: for every name and thread a vector, if it was created. *)
Definition durations := string -> nat -> option (list Z).
Definition vector (d : durations) (n : string) (t : nat) : list Z := match d n t with Some l => l | None => [] end.
(** ~TimerManager, 61-127.  [names], [threads]: the order in which the two levels of unordered_map are walked. *)
Definition table (unit_ : Z) (merge : bool) (names : list string) (threads : string -> list nat) (d : durations) : outcome (list row) :=
  all_rows (flat_map (fun n =>
    if merge then [one_row unit_ n (flat_map (vector d n) (threads n))]
    else map (fun t => one_row unit_ n (vector d n t)) (threads n)) names).

(** ** Threads *)
(** What a thread does with a block: Instance, RegisterTimer, ~SimpleTimer with the time measured, ~shared_ptr. *)
Inductive action := Enter (n : string) | Register | Finish (d : Z) | Leave.
(** A block on the stack of a thread: before RegisterTimer, running, after ~SimpleTimer. *)
Inductive phase := Held | Running | Stored.
Definition stack := list (string * phase).
Definition upd (d : durations) (n : string) (t : nat) (l : list Z) : durations :=
  fun n' t' => if (String.eqb n' n && Nat.eqb t' t)%bool then Some l else d n' t'.
(** One action of thread [t] on its stack and the vectors; [None]: the program has no such action here. *)
Definition act (t : nat) (k : stack) (d : durations) (a : action) : option (stack * durations) :=
  match a, k with
  | Enter n, [] => Some ([(n, Held)], d)
  | Enter n, (_, Running) :: _ => Some ((n, Held) :: k, d)
  | Register, (n, Held) :: r => Some ((n, Running) :: r, upd d n t (vector d n t)) (* simple_prof.cc:55-59 *)
  | Finish x, (n, Running) :: r => Some ((n, Stored) :: r, upd d n t (vector d n t ++ [x])) (* simple_prof.h:53-62 *)
  | Leave, (_, Stored) :: r => Some (r, d)
  | _, _ => None
  end.

(** All threads.  [exited]: the static pointer is gone; [refs]: use_count; [printed]: the vectors the destructor
    saw. *)
Record state := State { stacks : list stack; vecs : durations; exited : bool; refs : nat; printed : option durations }.
Inductive event := Exit | Do (t : nat) (a : action).
Fixpoint replace {A} (i : nat) (x : A) (l : list A) : list A :=
  match l, i with [], _ => [] | _ :: r, O => x :: r | y :: r, S i => y :: replace i x r end.
Definition release (ss : list stack) (d : durations) (e : bool) (r : nat) (p : option durations) : state :=
  State ss d e (pred r) (if Nat.eqb (pred r) 0 then Some d else p).
(** Events that no thread can perform leave the state as it is. *)
Definition step (s : state) (e : event) : outcome state :=
  match e with
  | Exit => if exited s then Ok s else Ok (release (stacks s) (vecs s) true (refs s) (printed s))
  | Do t a =>
      match nth_error (stacks s) t with
      | None => Ok s
      | Some k =>
          match act t k (vecs s) a with
          | None => Ok s
          | Some (k', d) =>
              let ss := replace t k' (stacks s) in
              match a with
              | Enter _ => if exited s then UB else Ok (State ss d (exited s) (S (refs s)) (printed s))
              | Register | Finish _ => match printed s with Some _ => UB | None => Ok (State ss d (exited s) (refs s) (printed s)) end
              | Leave => Ok (release ss d (exited s) (refs s) (printed s))
              end
          end
      end
  end.
Definition start (n : nat) : state := State (repeat [] n) (fun _ _ => None) false 1 None.
