(** Model of common/simple_thread_pool.h as a labelled transition system.

    Every section protected by queue_mutex_ is one atomic step; inside those sections
    nothing blocks (condition_variable::wait releases the mutex atomically), so this is
    the usual reduction for mutual exclusion.  notify_one / notify_all happen outside the
    mutex (lines 97, 108) and are separate steps.  Spurious wake-ups are possible.  A task
    is a packaged_task, so an exception thrown by it ends up in the future and never
    leaves the worker. *)
From Coq Require Import List Bool Arith.
Import ListNotations.

Section Pool.
Variable task : Type.

(** Where a worker is in the loop of lines 63-79. *)
Inductive worker :=
| Ready                (* before taking the lock / re-checking the predicate, lines 67-70 *)
| Waiting              (* blocked inside condition_.wait, line 69 *)
| Running (t : task)   (* task(), line 77 *)
| Exited.              (* return at line 71 *)

(** Where the thread running ~ThreadPool (lines 103-113) is. *)
Inductive dtor :=
| NotCalled
| Stopped              (* after lines 104-107: stop_ = true *)
| Joining              (* after line 108: notify_all *)
| Returned.            (* after the joins, lines 109-111 *)

(** The pool: tasks_, stop_ (true exactly from [Stopped] on), the workers, and the number
    of enqueue calls between line 96 (unlock) and line 97 (notify_one).  [accepted],
    [started], [finished] and [rejected] are history variables. *)
Record pool := mkPool {
  queue : list task;
  stop : bool;
  workers : list worker;
  pending : nat;
  phase : dtor;
  accepted : list task;
  started : list task;
  finished : list task;
  rejected : list task }.

(** ThreadPool(size_t threads), lines 60-81. *)
Definition pool_init (n : nat) : pool :=
  mkPool [] false (repeat Ready n) 0 NotCalled [] [] [] [].

(** Replace the [i]-th element. *)
Fixpoint upd {A} (i : nat) (x : A) (l : list A) : list A :=
  match i, l with
  | _, [] => []
  | O, _ :: l' => x :: l'
  | S i', y :: l' => y :: upd i' x l'
  end.

Definition wake (w : worker) : worker :=
  match w with Waiting => Ready | _ => w end.

Inductive label :=
| LEnqueue (t : task)      (* enqueue succeeds in the locked part *)
| LReject (t : task)       (* enqueue throws *)
| LNotify                  (* notify_one *)
| LWorker (i : nat)        (* worker i passes the locked section *)
| LFinish (i : nat)        (* the task of worker i returns *)
| LSpurious (i : nat)      (* spurious wake-up of worker i *)
| LStop | LNotifyAll | LJoin.

Inductive step : pool -> label -> pool -> Prop :=
(** enqueue, lines 86-99: not stopped, push; the notification is still to come. *)
| SEnqueue : forall s t, stop s = false ->
    step s (LEnqueue t)
      (mkPool (queue s ++ [t]) (stop s) (workers s) (S (pending s)) (phase s)
              (accepted s ++ [t]) (started s) (finished s) (rejected s))
(** enqueue, lines 91-93: stopped, throw. *)
| SReject : forall s t, stop s = true ->
    step s (LReject t)
      (mkPool (queue s) (stop s) (workers s) (pending s) (phase s)
              (accepted s) (started s) (finished s) (rejected s ++ [t]))
(** condition_.notify_one(), line 97: any waiting worker is woken ... *)
| SNotifyOne : forall s i p, pending s = S p -> nth_error (workers s) i = Some Waiting ->
    step s LNotify
      (mkPool (queue s) (stop s) (upd i Ready (workers s)) p (phase s)
              (accepted s) (started s) (finished s) (rejected s))
(** ... and it has no effect if no worker waits. *)
| SNotifyNone : forall s p, pending s = S p ->
    (forall i, nth_error (workers s) i <> Some Waiting) ->
    step s LNotify
      (mkPool (queue s) (stop s) (workers s) p (phase s)
              (accepted s) (started s) (finished s) (rejected s))
(** Lines 67-70: the predicate [stop_ || !tasks_.empty()] is false: block. *)
| SWait : forall s i, nth_error (workers s) i = Some Ready ->
    stop s = false -> queue s = [] ->
    step s (LWorker i)
      (mkPool (queue s) (stop s) (upd i Waiting (workers s)) (pending s) (phase s)
              (accepted s) (started s) (finished s) (rejected s))
(** Line 71: stop_ and no task left: return. *)
| SExit : forall s i, nth_error (workers s) i = Some Ready ->
    stop s = true -> queue s = [] ->
    step s (LWorker i)
      (mkPool (queue s) (stop s) (upd i Exited (workers s)) (pending s) (phase s)
              (accepted s) (started s) (finished s) (rejected s))
(** Lines 72-73: take the front task. *)
| STake : forall s i t q, nth_error (workers s) i = Some Ready ->
    queue s = t :: q ->
    step s (LWorker i)
      (mkPool q (stop s) (upd i (Running t) (workers s)) (pending s) (phase s)
              (accepted s) (started s ++ [t]) (finished s) (rejected s))
(** Line 77: the task returns. *)
| SFinish : forall s i t, nth_error (workers s) i = Some (Running t) ->
    step s (LFinish i)
      (mkPool (queue s) (stop s) (upd i Ready (workers s)) (pending s) (phase s)
              (accepted s) (started s) (finished s ++ [t]) (rejected s))
(** A spurious wake-up, allowed by the C++ standard. *)
| SSpurious : forall s i, nth_error (workers s) i = Some Waiting ->
    step s (LSpurious i)
      (mkPool (queue s) (stop s) (upd i Ready (workers s)) (pending s) (phase s)
              (accepted s) (started s) (finished s) (rejected s))
(** ~ThreadPool, lines 104-107. *)
| SStop : forall s, phase s = NotCalled ->
    step s LStop
      (mkPool (queue s) true (workers s) (pending s) Stopped
              (accepted s) (started s) (finished s) (rejected s))
(** Line 108. *)
| SNotifyAll : forall s, phase s = Stopped ->
    step s LNotifyAll
      (mkPool (queue s) (stop s) (map wake (workers s)) (pending s) Joining
              (accepted s) (started s) (finished s) (rejected s))
(** Lines 109-111: all joins have returned. *)
| SJoin : forall s, phase s = Joining -> Forall (fun w => w = Exited) (workers s) ->
    step s LJoin
      (mkPool (queue s) (stop s) (workers s) (pending s) Returned
              (accepted s) (started s) (finished s) (rejected s)).

(** Any finite schedule. *)
Inductive steps : pool -> list label -> pool -> Prop :=
| steps_nil : forall s, steps s [] s
| steps_cons : forall s l s' ls s'', step s l s' -> steps s' ls s'' -> steps s (l :: ls) s''.

End Pool.
Arguments Ready {task}. Arguments Waiting {task}. Arguments Running {task}.
Arguments Exited {task}.
Arguments mkPool {task}. Arguments queue {task}. Arguments stop {task}.
Arguments workers {task}. Arguments pending {task}. Arguments phase {task}.
Arguments accepted {task}. Arguments started {task}. Arguments finished {task}.
Arguments rejected {task}. Arguments pool_init {task}.
Arguments LEnqueue {task}. Arguments LReject {task}. Arguments LNotify {task}.
Arguments LWorker {task}. Arguments LFinish {task}. Arguments LSpurious {task}.
Arguments LStop {task}. Arguments LNotifyAll {task}. Arguments LJoin {task}.
Arguments step {task}. Arguments steps {task}. Arguments wake {task}.
