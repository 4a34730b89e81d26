(** Model of ros_node/playable_bag.cc and of the playback loop of ros_node/static_mapping_node.cpp.
    A message is any value with a time; the rosbag view is the list of its messages in the order in
    which it iterates over them. *)
From Coq Require Import ZArith List Bool.
From Verif Require Import Outcome.
Import ListNotations.
Local Open Scope Z_scope.
Local Open Scope outcome_scope.

Section Bag.
Variable Msg : Type.
Variable time : Msg -> Z.   (* MessageInstance::getTime in nanoseconds, in [0, 2^32 s) *)
Variable delay : Z.         (* buffer_delay_ in nanoseconds *)

(** ros::Time - ros::Duration: throws std::runtime_error if the result does not fit the unsigned
    32-bit seconds of ros::Time. *)
Definition time_minus (t d : Z) : outcome Z :=
  if (t - d <? 0) || (2 ^ 32 * 1000000000 <=? t - d) then Throw else Ok (t - d).

Record state := mkState { rest : list Msg; buffer : list Msg; finished : bool }.

(** IsMessageAvailable, playable_bag.cc:74-78. *)
Definition available (buf : list Msg) : outcome bool :=
  match buf with
  | [] => Ok false
  | m :: _ => let* d := time_minus (time (last buf m)) delay in Ok (time m <? d)
  end.

(** The do-while loop of AdvanceUntilMessageAvailable with AdvanceOneMessage inlined,
    playable_bag.cc:80-100; [finished_] is false on entry. *)
Fixpoint advance (r buf : list Msg) : outcome state :=
  match r with
  | [] => Ok (mkState [] buf true)
  | m :: r' => let* a := available (buf ++ [m]) in
               if a then Ok (mkState r' (buf ++ [m]) false) else advance r' (buf ++ [m])
  end.
Definition advance_until (s : state) : outcome state := if finished s then Ok s else advance (rest s) (buffer s).

(** Constructor, playable_bag.cc:33-50. *)
Definition construct (bag : list Msg) : outcome state := advance_until (mkState bag [] false).

(** GetNextMessage, playable_bag.cc:61-72. *)
Definition next (s : state) : outcome (Msg * state) :=
  let* a := available (buffer s) in
  let* _ := check a in
  match buffer s with
  | [] => UB
  | m :: b => let* s' := advance_until (mkState (rest s) b (finished s)) in Ok (m, s')
  end.

(** The playback loop, static_mapping_node.cpp:396-431: the delivered messages; the loop body is
    not modelled.  None: [fuel] iterations were not enough. *)
Fixpoint play (fuel : nat) (s : state) : option (outcome (list Msg)) :=
  match fuel with
  | O => None
  | S f => match available (buffer s) with
           | Ok true => match next s with
                        | Ok (m, s') => match play f s' with Some r => Some (let* l := r in Ok (m :: l)) | None => None end
                        | Abort => Some Abort | Throw => Some Throw | UB => Some UB
                        end
           | Ok false => Some (Ok [])
           | Abort => Some Abort | Throw => Some Throw | UB => Some UB
           end
  end.
Definition playback (fuel : nat) (bag : list Msg) : option (outcome (list Msg)) :=
  match construct bag with
  | Ok s => play fuel s
  | Abort => Some Abort | Throw => Some Throw | UB => Some UB
  end.
End Bag.
