(** Specification vocabulary for the thread pool. *)
From Coq Require Import List.
From Verif Require Import PoolModel.
Import ListNotations.

Section Spec.
Variable task : Type.
Notation worker := (worker task).

(** Tasks currently being run. *)
Definition running (ws : list worker) : list task :=
  flat_map (fun w => match w with Running t => [t] | _ => [] end) ws.

(** Every step except an enqueue call that throws (which changes nothing). *)
Definition effective (l : label task) : Prop :=
  match l with LReject _ => False | _ => True end.

(** Steps the pool and its destructor take by themselves: no new caller and no
    spurious wake-up is needed for them. *)
Definition genuine (l : label task) : Prop :=
  match l with LReject _ | LSpurious _ | LEnqueue _ => False | _ => True end.

End Spec.
Arguments running {task}. Arguments effective {task}. Arguments genuine {task}.
