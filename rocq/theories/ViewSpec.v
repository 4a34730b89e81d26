(** What a view graph should contain, in terms of the history of calls (most recent call last). *)
From Coq Require Import ZArith QArith List.
From Verif Require Import ViewModel.
Import ListNotations.
Local Open Scope Z_scope.

Section Spec.
Variable M : Type.
Notation op := (op M).

Definition added (h : list op) (i : Z) : Prop := exists p, In (Vertex M i p) h.
(** [p] is the pose given last for vertex [i]. *)
Definition last_pose (h : list op) (i : Z) (p : pose M) : Prop :=
  exists a b, h = a ++ Vertex M i p :: b /\ forall q, ~ In (Vertex M i q) b.
(** The accepted edges out of [i], in order: both ends were known at the time of the call. *)
Inductive edges_from (i : Z) : list op -> list (Z * M) -> Prop :=
| ef_nil : edges_from i [] []
| ef_edge h l b t : edges_from i h l -> added h i -> added h b -> edges_from i (h ++ [Edge M i b t]) (l ++ [(b, t)])
| ef_rejected h l b t : edges_from i h l -> ~ (added h i /\ added h b) -> edges_from i (h ++ [Edge M i b t]) l
| ef_other h l o : edges_from i h l -> (forall b t, o <> Edge M i b t) -> edges_from i (h ++ [o]) l.
Definition saves (h : list op) : nat := length (filter (fun o => match o with Save _ _ => true | _ => false end) h).
End Spec.
