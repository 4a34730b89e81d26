(** Model of integer helpers in common/math.h. *)
From Coq Require Import ZArith List QArith SpecFloat.
From Verif Require Import Outcome.
Import ListNotations.
Local Open Scope Z_scope.
Local Open Scope outcome_scope.

(** Clamp, common/math.h:66-75, for any type with a comparison [gt] / [lt]. *)
Definition clamp {A} (gt lt : A -> A -> bool) (v lo hi : A) : A :=
  if gt v hi then hi else if lt v lo then lo else v.
Definition iclamp : Z -> Z -> Z -> Z := clamp Z.gtb Z.ltb.

(** Power, common/math.h:78-81: recursion on an int exponent.  [fuel] bounds the depth of the
    recursion, None: it has not returned yet.  [exponent - 1] overflows (undefined) at -2^31. *)
Section Power.
Variable T : Type.
Variable mul : T -> T -> T.
Variable one : T.
Fixpoint power (fuel : nat) (b : T) (e : Z) : option (outcome T) :=
  match fuel with
  | O => None
  | S f => if e =? 0 then Some (Ok one)
           else if e =? - 2 ^ 31 then Some UB
           else match power f b (e - 1) with
                | Some r => Some (let* x := r in Ok (mul b x))
                | None => None
                end
  end.
End Power.

(** NormalizeAngleDifference, common/math.h:96-105, for any type of numbers.  [fuel] bounds the
    number of iterations of the two loops together, None: still looping. *)
Section Angle.
Variable T : Type.
Variables gt lt : T -> T -> bool.
Variables add sub : T -> T -> T.
Variables pi mpi twopi : T.     (* M_PI, -M_PI, T(2. * M_PI) *)
Fixpoint norm_up (fuel : nat) (x : T) : option T :=
  if lt x mpi then match fuel with O => None | S f => norm_up f (add x twopi) end else Some x.
Fixpoint norm_down (fuel : nat) (x : T) : option T :=
  if gt x pi then match fuel with O => None | S f => norm_down f (sub x twopi) end else norm_up fuel x.
End Angle.
(** on doubles *)
Definition d_pi : spec_float := S754_finite false 7074237752028440 (-51).
Definition d_mpi : spec_float := S754_finite true 7074237752028440 (-51).
Definition d_twopi : spec_float := S754_finite false 7074237752028440 (-50).
Definition normalize_double : nat -> spec_float -> option spec_float :=
  norm_down spec_float (fun a b => SFltb b a) SFltb (SFadd 53 1024) (SFsub 53 1024) d_pi d_mpi d_twopi.
(** in exact arithmetic *)
Definition Qlt_b (a b : Q) : bool := negb (Qle_bool b a).
Definition normalize_exact (pi : Q) : nat -> Q -> option Q :=
  norm_down Q (fun a b => Qlt_b b a) Qlt_b Qplus Qminus pi (- pi)%Q (2 * pi)%Q.

(** AverageTransforms, common/math.cc:177-196, in exact arithmetic.  A transform is given by its
    translation and its Euler angles (RotationMatrixToEulerAngles, each in (-pi, pi]). *)
Definition vec3 : Type := (Q * Q * Q).
Definition vadd (a b : vec3) : vec3 :=
  let '(x, y, z) := a in let '(u, v, w) := b in ((x + u)%Q, (y + v)%Q, (z + w)%Q).
Definition vdiv (a : vec3) (n : Q) : vec3 := let '(x, y, z) := a in ((x / n)%Q, (y / n)%Q, (z / n)%Q).
Definition average (l : list (vec3 * vec3)) : outcome (vec3 * vec3) :=
  match l with
  | [] => Abort
  | _ => let t := fold_left (fun a x => vadd a (fst x)) l (0, 0, 0)%Q in
         let r := fold_left (fun a x => vadd a (snd x)) l (0, 0, 0)%Q in
         let n := inject_Z (Z.of_nat (length l)) in
         Ok (vdiv t n, vdiv r n)
  end.
