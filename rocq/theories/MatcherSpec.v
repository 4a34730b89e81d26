(** Which clouds a matcher uses after a sequence of calls. *)
From Coq Require Import Reals List.
From Verif Require Import Outcome MatcherModel.
Import ListNotations.

Section Spec.
  Context {P T : Type}.
  (** Which clouds a call of SetInput* leaves out. *)
  Definition ignored (k : kind) (c : option (cloud P)) : Prop :=
    match k with
    | Ndt | NdtGicp => exists x, c = Some x /\ pts x = []
    | IcpPm => forall x, c = Some x -> pts x = []
    | FastIcp => False
    end.
  Definition sources (l : list (call P T)) : list (option (cloud P)) := flat_map (fun c => match c with Source x => [x] | _ => [] end) l.
  Definition targets (l : list (call P T)) : list (option (cloud P)) := flat_map (fun c => match c with Target x => [x] | _ => [] end) l.
  (** [c] is what is left of the clouds [l] given to a matcher that started with [c0]. *)
  Definition left_by (k : kind) (c0 : option (cloud P)) (l : list (option (cloud P))) (c : option (cloud P)) : Prop :=
    (Forall (ignored k) l /\ c = c0) \/ exists l1 l2, l = l1 ++ c :: l2 /\ ~ ignored k c /\ Forall (ignored k) l2.
End Spec.
