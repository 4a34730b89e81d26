(** Specification vocabulary for the pose graph optimizer. *)
From Coq Require Import List Bool ZArith SpecFloat.
From Verif Require Import Outcome Pose MathModel LoopModel ViewModel IsamModel.
Import ListNotations.
Local Open Scope nat_scope.
Local Open Scope outcome_scope.

Section Spec.
Variable G : group.
Variable enu : Type.
Notation factor := (factor G enu).
Notation sub := (sub G enu).

(** A sequence of AddFrame calls: the submaps, as they are when they are added, and what the loop
    detector observes. *)
Fixpoint frames_in (add : sub -> obs G -> opt G enu -> outcome (opt G enu)) (l : list (sub * obs G)) (s : opt G enu) : outcome (opt G enu) :=
  match l with
  | [] => Ok s
  | x :: l' => let* s := add (fst x) (snd x) s in frames_in add l' s
  end.

(** The kinds of factors. *)
Definition anchors (l : list factor) : list (nat * G) := flat_map (fun f => match f with FPrior i p => [(i, p)] | _ => [] end) l.
Definition moves (l : list factor) : list (nat * nat * G) := flat_map (fun f => match f with FMove i j t => [(i, j, t)] | _ => [] end) l.
Definition loops (l : list factor) : list (nat * nat * G) := flat_map (fun f => match f with FLoop i j t => [(i, j, t)] | _ => [] end) l.
Definition odoms (l : list factor) : list (nat * G) := flat_map (fun f => match f with FOdom i p => [(i, p)] | _ => [] end) l.
Definition odom_anchors (l : list factor) : list G := flat_map (fun f => match f with FOdomPrior t => [t] | _ => [] end) l.
Definition gps_anchors (l : list factor) : list G := flat_map (fun f => match f with FGpsPrior t => [t] | _ => [] end) l.
Definition enus (l : list factor) : list (nat * enu) := flat_map (fun f => match f with FEnu i e _ => [(i, e)] | _ => [] end) l.

(** The readings of a sequence of submaps, with the indices of the submaps. *)
Definition indexed {A B} (f : A -> option B) (l : list A) : list (nat * B) :=
  flat_map (fun x => match f (snd x) with Some b => [(fst x, b)] | None => [] end) (combine (seq 0 (length l)) l).
(** The accepted loop closures of a sequence of detection results. *)
Definition accepted (l : list (result G)) : list (nat * nat * G) :=
  flat_map (fun r => if r_succeed r then map (fun e => (fst e, r_index r, snd e)) (r_edges r) else []) l.
(** The edges leaving a vertex. *)
Definition leaving (l : list (nat * nat * G)) (i : nat) : list (Z * G) :=
  flat_map (fun e => if Nat.eqb (fst (fst e)) i then [(Z.of_nat (snd (fst e)), snd e)] else []) l.
End Spec.
Arguments frames_in {G enu}. Arguments anchors {G enu}. Arguments moves {G enu}. Arguments loops {G enu}. Arguments odoms {G enu}.
Arguments odom_anchors {G enu}. Arguments gps_anchors {G enu}. Arguments enus {G enu}. Arguments accepted {G}. Arguments leaving {G}.
