(** Specification vocabulary for sensor tracks. *)
From Coq Require Import ZArith QArith List.
From Verif Require Import TimeModel TimeSpec GpsModel.
Import ListNotations.
Local Open Scope Z_scope.

(** Every stamp is strictly later than the one before it. *)
Definition increasing (l : list time) : Prop :=
  forall i a b, nth_error l i = Some a -> nth_error l (S i) = Some b ->
                elapsed a < elapsed b.

(** [a], [b] are the consecutive samples number [i], [i+1] of the track and bracket
    [t]; a query that hits a sample exactly uses that sample as the earlier one, unless
    it is the last sample of the track. *)
Definition bracket {A} (stamp : A -> time) (track : list A) (t : time)
    (i : nat) (a b : A) : Prop :=
  nth_error track i = Some a /\ nth_error track (S i) = Some b /\
  elapsed (stamp a) <= elapsed t /\
  (elapsed t < elapsed (stamp b) \/
   (S (S i) = length track /\ elapsed t = elapsed (stamp b))).

(** [v] divides the segment from [a] to [b] in the ratio of the times. *)
Definition linear_between (a b v : Q) (ta tb t : Z) : Prop :=
  ((v - a) * inject_Z (tb - ta) == (b - a) * inject_Z (t - ta))%Q.

Definition between (a b v : Q) : Prop := (a <= v <= b \/ b <= v <= a)%Q.

Definition on_segment (a b v : vec3) (ta tb t : Z) : Prop :=
  linear_between (vx a) (vx b) (vx v) ta tb t /\ between (vx a) (vx b) (vx v) /\
  linear_between (vy a) (vy b) (vy v) ta tb t /\ between (vy a) (vy b) (vy v) /\
  linear_between (vz a) (vz b) (vz v) ta tb t /\ between (vz a) (vz b) (vz v).
