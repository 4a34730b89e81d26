(** Specification vocabulary for the pose extrapolator. *)
From Coq Require Import List ZArith.
From Verif Require Import Outcome TimeModel TimeSpec ExtrapModel.
Import ListNotations.
Local Open Scope Z_scope.

Section Spec.
Variables Pz I : Type.
(** The poses / IMU messages added by a history, in order. *)
Definition poses (ops : list (eop Pz I)) : list (time * Pz) :=
  flat_map (fun o => match o with EPose t p => [(t, p)] | _ => [] end) ops.
Definition imus (ops : list (eop Pz I)) : list (time * I) :=
  flat_map (fun o => match o with EImu t i => [(t, i)] | _ => [] end) ops.
Definition is_query (o : eop Pz I) : Prop := match o with EQuery _ => True | _ => False end.
Definition op_time (o : eop Pz I) : time := match o with EPose t _ | EImu t _ | EQuery t => t end.
(** stamps in time order *)
Fixpoint ordered {A} (l : list (time * A)) : Prop :=
  match l with
  | [] => True
  | a :: r => (forall b, In b r -> elapsed (fst a) <= elapsed (fst b)) /\ ordered r
  end.
Fixpoint strictly_ordered {A} (l : list (time * A)) : Prop :=
  match l with
  | [] => True
  | a :: r => (forall b, In b r -> elapsed (fst a) < elapsed (fst b)) /\ strictly_ordered r
  end.
(** Queries come after the first pose and are not older than the last one. *)
Fixpoint well_timed (last : option time) (ops : list (eop Pz I)) : Prop :=
  match ops with
  | [] => True
  | EPose t _ :: r => well_timed (Some t) r
  | EImu _ _ :: r => well_timed last r
  | EQuery t :: r => (exists l, last = Some l /\ elapsed l <= elapsed t) /\ well_timed last r
  end.
End Spec.
Arguments poses {Pz I}. Arguments imus {Pz I}. Arguments is_query {Pz I}. Arguments op_time {Pz I}.
Arguments well_timed {Pz I}.

Section Fed.
Variables V I : Type.
(** The IMU messages whose acceleration a tracker has used, oldest first. *)
Definition used (k : tracker V I) : list I :=
  flat_map (fun e => match e with TAcc _ _ (OImu _ _ i) => [i] | _ => [] end) (rev (tr_log k)).
End Fed.
Arguments used {V I}.
