(** Result of running a piece of C++ code.

    [Ok v]   the function returned [v];
    [Abort]  a glog CHECK failed or LOG(FATAL) ran: the process is terminated;
    [Throw]  a C++ exception left the function;
    [UB]     the C++ standard gives no meaning to the execution. *)

Set Implicit Arguments.

Inductive outcome (A : Type) : Type :=
| Ok (a : A)
| Abort
| Throw
| UB.

Arguments Ok {A} a.
Arguments Abort {A}.
Arguments Throw {A}.
Arguments UB {A}.

Definition bind {A B : Type} (m : outcome A) (f : A -> outcome B) : outcome B :=
  match m with
  | Ok a => f a
  | Abort => Abort
  | Throw => Throw
  | UB => UB
  end.

Declare Scope outcome_scope.
Delimit Scope outcome_scope with outcome.
Notation "'let*' x ':=' m 'in' f" := (bind m (fun x => f))
  (at level 200, x pattern, m at level 100, f at level 200) : outcome_scope.

(** glog CHECK(b): continue if [b], otherwise terminate the process. *)
Definition check (b : bool) : outcome unit := if b then Ok tt else Abort.

(** Run a list of inputs through a state transformer, stopping at the first
    input that does not return normally. *)
Fixpoint run {S I : Type} (step : S -> I -> outcome S) (s : S) (l : list I)
  : outcome S :=
  match l with
  | nil => Ok s
  | cons i l' => bind (step s i) (fun s' => run step s' l')
  end.
