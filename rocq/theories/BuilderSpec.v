(** Specification vocabulary for the map builder. *)
From Coq Require Import List ZArith.
From Verif Require Import BuilderModel.
Import ListNotations.

Section Spec.
Variables cloud frame smst : Type.
(** The clouds inside the preprocessing thread. *)
Definition held (o : option cloud) : list cloud := match o with Some c => [c] | None => [] end.
(** Key frames of a sequence of clouds: scan matching applied to one cloud after the other. *)
Variable sm_step : smst -> cloud -> smst * option frame.
Fixpoint key_frames (x : smst) (l : list cloud) : list frame :=
  match l with
  | [] => []
  | c :: r => let (x', o) := sm_step x c in
              match o with Some f => f :: key_frames x' r | None => key_frames x' r end
  end.
(** The [k]-th group of [n] elements. *)
Definition group {A} (n k : nat) (l : list A) : list A := firstn n (skipn (k * n) l).
(** The elements of a concurrent vector that have been constructed. *)
Definition built {A} (l : list (option A)) : list A :=
  flat_map (fun o => match o with Some x => [x] | None => [] end) l.
End Spec.
Arguments held {cloud}. Arguments key_frames {cloud frame smst}.
