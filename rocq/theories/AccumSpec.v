(** Specification vocabulary for cloud accumulation. *)
From Coq Require Import ZArith QArith List.
From Verif Require Import TimeModel AccumModel.
Import ListNotations.
Local Open Scope Z_scope.

(** The [j]-th group of [n] consecutive elements. *)
Definition group_of {A} (n : nat) (j : nat) (l : list A) : list A :=
  firstn n (skipn (j * n) l).

Section Spec.
Variable PclPoint Payload : Type.
Variable to_payload : PclPoint -> Payload.

(** All points of a sequence of clouds, in order. *)
Definition all_points (l : list (pcl_cloud PclPoint)) : list PclPoint := flat_map pc_points l.

(** [out] is the merge of the non-empty sequence of inputs [g]: all points in order, the
    stamp of the first input, and point number i of m carries the factor i/m. *)
Definition merged (g : list (pcl_cloud PclPoint)) (out : icloud Payload) : Prop :=
  map ip_payload (ic_points out) = map to_payload (all_points g) /\
  (exists first tl, g = first :: tl /\ ic_stamp out = to_local_time (pc_stamp first)) /\
  (forall i p, nth_error (ic_points out) i = Some p ->
     (ip_factor p == Z.of_nat i # Pos.of_nat (length (ic_points out)))%Q).
End Spec.
Arguments all_points {PclPoint}.
Arguments merged {PclPoint Payload}.
