(** Specification vocabulary for key frame selection. *)
From Coq Require Import List Bool ZArith SpecFloat.
From Verif Require Import Pose.
Import ListNotations.

(** IEEE comparison with NaN: [x >= y] holds only for two numbers. *)
Definition at_least (x y : spec_float) : Prop :=
  match SFcompare x y with Some Gt | Some Eq => True | _ => False end.

Section Spec.
Variable G : group.
Variable cloud : Type.
Variable mt : cloud -> cloud -> G.
Variables tnorm tang : G -> spec_float.
Variables tr ar : spec_float.
(** 0.001 rounded up to a float *)
Definition thousandth : spec_float := S754_finite false 8589935 (-33).
(** The motion reaches the translation range, or the angle range if that is not negligible. *)
Definition significant (a : G) : Prop :=
  at_least (tnorm a) tr \/ at_least ar thousandth /\ at_least (tang a) ar.
(** A sequence of clouds after a key frame [k], cut into segments (clouds that are not key
    frames, next key frame) and a rest. *)
Fixpoint well_cut (k : cloud) (segs : list (list cloud * cloud)) (rest : list cloud) : Prop :=
  match segs with
  | [] => forall c, In c rest -> ~ significant (mt k c)
  | (g, k') :: r => (forall c, In c g -> ~ significant (mt k c)) /\ significant (mt k k') /\ well_cut k' r rest
  end.
Definition joined (segs : list (list cloud * cloud)) (rest : list cloud) : list cloud :=
  flat_map (fun s => fst s ++ [snd s]) segs ++ rest.
(** Poses along a chain of key frames. *)
Definition chained (l : list (cloud * G)) : Prop :=
  forall i k p k' p', nth_error l i = Some (k, p) -> nth_error l (S i) = Some (k', p') -> p' = gmul p (mt k k').
(** Time stamps never decrease. *)
Definition in_order (time : cloud -> Z) (l : list cloud) : Prop :=
  forall i j a b, i < j -> nth_error l i = Some a -> nth_error l j = Some b -> (time a <= time b)%Z.
End Spec.
