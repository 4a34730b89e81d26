(** Histories of calls on an extrapolator with odometry. *)
From Coq Require Import List.
From Verif Require Import Outcome TimeModel ExtrapModel ExtOdomModel.
Import ListNotations.

(** The result of a call, seen through [f]. *)
Definition omap {A B} (f : A -> B) (m : outcome A) : outcome B :=
  match m with Ok a => Ok (f a) | Abort => Abort | Throw => Throw | UB => UB end.
Section Spec.
Variables Rot I O : Type.
Notation oop := (ExtOdomModel.oop Rot I O).
Definition is_odom (o : oop) : bool := match o with OOdom _ _ _ _ _ => true | _ => false end.
Definition is_pose (o : oop) : bool := match o with OCore _ _ _ (EPose _ _) => true | _ => false end.
(** Numbers of odometry messages and poses. *)
Definition odoms (ops : list oop) : nat := length (filter is_odom ops).
Definition poses_in (ops : list oop) : nat := length (filter is_pose ops).
(** The newest pose after a history that began with the newest pose [b]. *)
Fixpoint newest (b : option (time * pose Rot)) (ops : list oop) : option (time * pose Rot) :=
  match ops with
  | [] => b
  | OCore _ _ _ (EPose t p) :: r => newest (Some (t, p)) r
  | _ :: r => newest b r
  end.
End Spec.
Arguments is_odom {Rot I O}. Arguments is_pose {Rot I O}. Arguments odoms {Rot I O}. Arguments poses_in {Rot I O}. Arguments newest {Rot I O}.
