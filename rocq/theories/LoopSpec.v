(** Specification vocabulary for loop detection. *)
From Coq Require Import List Bool ZArith SpecFloat.
From Verif Require Import Pose LoopModel.
Import ListNotations.

(** IEEE comparisons of doubles. *)
Definition fle (x y : spec_float) : Prop := match SFcompare x y with Some Lt | Some Eq => True | _ => False end.
Definition fgt (x y : spec_float) : Prop := match SFcompare x y with Some Gt => True | _ => False end.

(** Frames that may be loop partners of frame [cur]: with a search window those in it, without
    one those more than [thr] frames older. *)
Definition eligible (window : option (Z * Z)) (thr : Z) (cur i : nat) : Prop :=
  i < cur /\
  match window with
  | Some (a, b) => (a <= Z.of_nat i < b)%Z
  | None => (Z.of_nat i + thr < Z.of_nat cur)%Z
  end.
Definition window (s : det) : option (Z * Z) :=
  if ((0 <=? wstart s) && (0 <=? wend s))%Z then Some (wstart s, wend s) else None.

(** The status after a frame, given the status before it and whether the frame was found to be
    at an already visited place; [first]: one detection is enough to enter the loop. *)
Inductive follows (first : bool) : status -> bool -> status -> Prop :=
| F_idle : follows first NoLoop false NoLoop
| F_start : first = false -> follows first NoLoop true Trying
| F_start1 : first = true -> follows first NoLoop true Entering
| F_lost : follows first Trying false NoLoop
| F_trying : first = false -> follows first Trying true Trying
| F_enter : follows first Trying true Entering
| F_entered : follows first Entering true Continuous
| F_back : follows first Entering false Trying
| F_in_loop : follows first Continuous true Continuous
| F_leave : follows first Continuous false Leaving
| F_again : follows first Leaving true Trying
| F_left : follows first Leaving false NoLoop.

Section Spec.
Variable G : group.
Definition near (S : settings) (o : obs G) (i : nat) : Prop := fle (xy o i) (maxd S) /\ fle (zd o i) (maxz S).
Definition alike (S : settings) (o : obs G) (i : nat) : Prop := use_descriptor S = true -> dmatch o i = true.
(** The tasks report every result once, in some order. *)
Definition fair (o : obs G) : Prop := forall l, Permutation.Permutation (finish o l) l.
(** Whether a frame was found to be at an already visited place. *)
Definition detected (r : result G) : bool := match r_cand r with [] => false | _ => true end.
(** Number of detections among some results. *)
Definition detections (l : list (result G)) : nat := length (filter detected l).
(** The calls in which detection was carried out. *)
Definition rans (l : list (result G)) : list (result G) := filter (@r_ran G) l.
(** Two edges place the new frame within 0.25 m and 0.02 rad of each other (0.25 and 0.02
    as doubles); not-a-number differences count as far. *)
Definition agree (tn rn : G -> spec_float) (p q : G) : Prop :=
  fle (tn (gmul (ginv p) q)) (S754_finite false 4503599627370496 (-54)) /\
  fle (rn (gmul (ginv p) q)) (S754_finite false 5764607523034235 (-58)).
End Spec.
Arguments near {G}. Arguments alike {G}. Arguments fair {G}. Arguments detected {G}. Arguments detections {G}. Arguments rans {G}.
Arguments agree {G}.
