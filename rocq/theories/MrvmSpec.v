(** Specification vocabulary for the voxel map. *)
From Coq Require Import List Bool ZArith QArith Qabs.
From Verif Require Import Outcome RayModel.
Import ListNotations.
Local Open Scope Z_scope.

(** Bayes' rule for a binary state: prior [p], likelihood [h]. *)
Definition bayes (p h : Q) : Q := (p * h / (p * h + (1 - p) * (1 - h)))%Q.

(** What the machine computes for the level [n] (probability n/256) is within 10^-5 of the
    exact value. *)
Definition accurate (hit miss : Q) (raw : Z -> bool -> Q) : Prop :=
  forall n (b : bool), 25 <= n <= 230 ->
    (Qabs (raw n b - bayes (n # 256) (if b then hit else miss)) <= 1 # 100000)%Q.

Section Scans.
Variable P : Type.
Variable vox : P -> voxel.
Definition vdec (a b : voxel) : {a = b} + {a <> b}.
Proof. decide equality; apply Z.eq_dec. Defined.
(** The points of a list that end in voxel [k]. *)
Definition ends (k : voxel) (pts : list P) : list P :=
  filter (fun p => if vdec (vox p) k then true else false) pts.
(** How often the rays of [pts] from [o] pass through [k] before their end. *)
Definition passes (o k : voxel) (p : P) : nat :=
  match bresenham o (vox p) with
  | Ok path => count_occ vdec (removelast path) k
  | _ => 0
  end.
Definition all_passes (o k : voxel) (pts : list P) : nat :=
  fold_right Nat.add 0%nat (map (passes o k) pts).
(** The points before the first one that ends in [k]. *)
Fixpoint before (k : voxel) (pts : list P) : list P :=
  match pts with
  | [] => []
  | p :: r => if vdec (vox p) k then [] else p :: before k r
  end.
End Scans.
Arguments ends {P}. Arguments passes {P}. Arguments all_passes {P}. Arguments before {P}.
