(** Specification vocabulary for the cloud pipeline. *)
From Coq Require Import List.
From Verif Require Import Outcome TimeModel PipeModel.
Import ListNotations.

Section Spec.
Variable cloud : Type.
Variable stamp : cloud -> time.
Variable filt : cloud -> outcome cloud -> Prop.

(** [c'] is what one pass of [c] through the filter chain and the stamp check yields. *)
Definition passed (c c' : cloud) : Prop :=
  filt c (Ok c') /\ t_eq (stamp c) (stamp c') = Ok true.

(** The cloud the preprocessing thread holds before / after filtering. *)
Definition unfiltered (k : kpc cloud) : list cloud :=
  match k with K4 c => [c] | _ => [] end.
Definition filtered (k : kpc cloud) : list cloud :=
  match k with K5 c | K6 c => [c] | _ => [] end.

(** Which threads are inside a section protected by the mutex. *)
Definition inside (s : pipe cloud) (t : tid) : Prop :=
  match t with
  | Producer => exists c, prod s = P1 c
  | Preproc => pre s = K3 \/ exists c, pre s = K6 c
  | Consumer => cons s <> C0
  end.
End Spec.
Arguments passed {cloud}. Arguments unfiltered {cloud}. Arguments filtered {cloud}.
Arguments inside {cloud}.
