(** What an ICP step is for, independent of its equations. *)
From Coq Require Import Reals List.
From Verif Require Import RigidModel PlaneIcpModel.
Import ListNotations.
Local Open Scope R_scope.

(** Signed distance of [p] from the plane through [q] with normal [n] (for a unit normal). *)
Definition off_plane (p q n : vec) : R := dot (vsub p q) n.
(** A small motion: [w] is the rotation vector, [t] the translation.  A point with factor [f] makes the part
    [f] of it. *)
Definition nudged (w t : vec) (f : R) (p : vec) : vec := vadd p (vscale f (vadd (cross w p) t)).
Definition share (comp : bool) (m : pair) : R := if comp then factor m else 1.
(** Weighted sum of the squared distances from the planes after a small motion. *)
Definition cost (comp : bool) (ms : list pair) (w t : vec) : R :=
  rsum (map (fun m => weight m * Rsqr (off_plane (nudged w t (share comp m) (reading m)) (reference m) (normal m))) ms).
(** The same for a rigid motion. *)
Definition true_cost (ms : list pair) (T : transform) : R :=
  rsum (map (fun m => weight m * Rsqr (off_plane (apply T (reading m)) (reference m) (normal m))) ms).

(** [x] solves the system of 6 equations. *)
Definition solves (a : nat -> nat -> R) (b x : nat -> R) : Prop :=
  forall r, (r < 6)%nat -> rsum (map (fun c => a r c * x c) (seq 0 6)) = b r.
Definition rot_part (x : nat -> R) : vec := mkV (x 0%nat) (x 1%nat) (x 2%nat).
Definition tra_part (x : nat -> R) : vec := mkV (x 3%nat) (x 4%nat) (x 5%nat).
Definition len (v : vec) : R := sqrt (dot v v).
