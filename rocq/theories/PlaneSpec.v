(** Which points PlaneDetector should find and what the sampler should keep. *)
From Coq Require Import ZArith QArith Qround List Bool Sorting.Sorted.
From Verif Require Import Outcome PlaneModel.
Import ListNotations.

Section Spec.
  Variable P : Type.
  Variable height : P -> Q.
  Variable cell : Q -> P -> outcome idx3.
  Variable segment : list P -> list nat.
  Variable dense : nat -> nat -> bool.
  Variable leaf : Q.
  Variable least : nat.

  (** Point [i] of the cloud is in voxel [k]. *)
  Definition inside (l : list P) (k : idx3) (i : nat) : Prop := exists p, nth_error l i = Some p /\ cell leaf p = Ok k.
  (** The points of voxel [k], in the order of the cloud. *)
  Definition voxel (l : list P) (k : idx3) (is : list nat) : Prop := StronglySorted lt is /\ forall i, In i is <-> inside l k i.
  (** A voxel below the sensor or at its height is a plane if the heights are within the threshold. *)
  Definition level (l : list P) (thr : Q) (is : list nat) : Prop :=
    forall i j p q, In i is -> In j is -> nth_error l i = Some p -> nth_error l j = Some q -> (height p - height q <= thr)%Q.
  (** Point [i] belongs to a plane. *)
  Definition plane (l : list P) (thr : Q) (i : nat) : Prop :=
    exists k is, voxel l k is /\ In i is /\ (least <= length is)%nat /\
      ((zi k <= 0)%Z /\ level l thr is \/
       (0 < zi k)%Z /\ (2 * least <= length is)%nat /\
       exists ps n, map Some ps = map (nth_error l) is /\ dense (length (segment ps)) (length is) = true /\
         In n (segment ps) /\ nth_error is n = Some i).
  (** The segmentation returns positions of the cloud, each once. *)
  Definition sound_segments : Prop := forall ps, NoDup (segment ps) /\ forall n, In n (segment ps) -> (n < length ps)%nat.
End Spec.

Definition mem (i : nat) (g : list nat) : bool := existsb (Nat.eqb i) g.
(** How many of the points [i], ..., [i + n - 1] are in no plane, and how many of these are kept. *)
Definition others (g : list nat) (i n : nat) : nat := length (filter (fun j => negb (mem j g)) (seq i n)).
Definition taken (g kept : list nat) (i n : nat) : nat := length (filter (fun j => negb (mem j g) && mem j kept) (seq i n)).
Definition at_rate (r : Q) (n : nat) : Z := Qceiling (r * inject_Z (Z.of_nat n)).
