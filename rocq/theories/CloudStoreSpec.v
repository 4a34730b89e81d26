(** Specification vocabulary for evicted clouds. *)
From Coq Require Import List ZArith.
From Verif Require Import Outcome CloudFileModel CloudFileSpec CloudStoreModel.
Import ListNotations.

Section Spec.
Variables name motion : Type.
(** Calls that cannot change the file [f] and do not save. *)
Definition harmless (f : name) (o : op name motion) : Prop :=
  match o with
  | OSave _ => False
  | OForeign g _ => g <> f
  | _ => True
  end.
(** Calls that neither change the points nor the file [f]. *)
Definition passive (f : name) (o : op name motion) : Prop :=
  match o with
  | OClear | ORead | ONormals _ => True
  | OForeign g _ => g <> f
  | _ => False
  end.
End Spec.
Arguments harmless {name motion}. Arguments passive {name motion}.
