(** Notions used in the statements about the concurrent submap (C96 to C98). *)
From Coq Require Import List Bool ZArith.
From Verif Require Import Outcome EvictModel.
Import ListNotations.
Local Open Scope Z_scope.

(** Two ways of owning the same mutex that may coexist in different threads: readers among
    each other and with one upgrade owner, nothing with an exclusive owner. *)
Definition compatible (a b : mode) : bool :=
  match a, b with
  | No, _ | _, No => true
  | Shared, (Shared | Upgrade | Waiting) => true
  | (Upgrade | Waiting), Shared => true
  | _, _ => false
  end.

Definition finished (t : thread) : Prop := t_todo t = [].

(** Number of calls of SetMatchedTransformedToNext in all threads. *)
Definition is_matched_call (c : call) : bool := match c with CMatched => true | _ => false end.
Definition matched_calls (calls : list (list call)) : nat :=
  length (filter is_matched_call (concat calls)).

(** Number of accesses to the cloud in all threads. *)
Definition is_get_call (c : call) : bool := match c with CGetCloud => true | _ => false end.
Definition get_calls (calls : list (list call)) : nat :=
  length (filter is_get_call (concat calls)).

Section Log.
Variable P : Type.
(** Time added since the last access to the cloud. *)
Definition since_access (l : list (event P)) : Z :=
  fold_left (fun a e => match e with EReset => 0 | EAdd k => a + k | _ => a end) l 0.
Definition drops (l : list (event P)) : nat :=
  length (filter (fun e => match e with EDrop => true | _ => false end) l).
Definition decisions (l : list (event P)) : nat :=
  length (filter (fun e => match e with EOld => true | _ => false end) l).
(** Number of resets of the counter and of clouds handed out. *)
Definition resets (l : list (event P)) : nat :=
  length (filter (fun e => match e with EReset => true | _ => false end) l).
Definition gots (l : list (event P)) : nat :=
  length (filter (fun e => match e with EGot _ _ => true | _ => false end) l).
End Log.
Arguments resets {P}. Arguments gots {P}.
Arguments since_access {P}. Arguments drops {P}. Arguments decisions {P}.

(** The member that the next instruction of a thread accesses, and whether it writes. *)
Inductive member := InnerCloud | Frames.
Definition access (x : instr) : option (member * bool) :=
  match x with
  | IDropCloud | ILoadCloud => Some (InnerCloud, true)
  | ISave | ICheckNotEmpty | IGetInner => Some (InnerCloud, false)
  | IWritePoses => Some (Frames, true)
  | ITouchFrames => Some (Frames, false)
  | _ => None
  end.
(** Two threads about to access the same member, one of them writing: a data race. *)
Definition races (t u : thread) : Prop :=
  exists x k y l m a b, t_todo t = x :: k /\ t_todo u = y :: l /\
    access x = Some (m, a) /\ access y = Some (m, b) /\ a || b = true.

(** The thread is about to call GetInnerCloud. *)
Definition about_to_get (t : thread) : Prop := exists k, t_todo t = IGetInner :: k.
