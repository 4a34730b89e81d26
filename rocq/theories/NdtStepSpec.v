(** The Newton iteration over the real numbers, with the usual scalar product and norm, and the quantities the claims
    are about. *)
From Coq Require Import Reals ZArith List QArith Qreals.
From Verif Require Import NdtStepModel.
Import ListNotations.
Local Open Scope R_scope.

Definition rlt (a b : R) : bool := if Rlt_dec a b then true else false.
Definition rle (a b : R) : bool := if Rle_dec a b then true else false.
Definition req (a b : R) : bool := if Req_EM_T a b then true else false.
Definition six := [0; 1; 2; 3; 4; 5]%nat.
Definition dot6 (a b : nat -> R) : R := fold_right (fun i s => a i * b i + s) 0 six.
Definition norm6 (a : nat -> R) : R := sqrt (dot6 a a).
Definition unit6 (a : nat -> R) : nat -> R := fun i => a i / norm6 a.
(** Distance of two parameter vectors. *)
Definition apart (a b : nat -> R) : R := norm6 (fun i => a i - b i).
Definition total (l : list R) : R := fold_right Rplus 0 l.

Section Reals.
  Variables (mat6 : Type) (solve : mat6 -> (nat -> R) -> nat -> R).
  Variables (score_at : (nat -> R) -> R) (gradient_at : (nat -> R) -> nat -> R) (hessian_at hessian_again : (nat -> R) -> mat6).
  Variable zero_matrix : mat6.
  Definition rstep_length := step_length R mat6 Rplus Rminus Rmult Rdiv Ropp Rabs sqrt rlt rle req Q2R dot6
    score_at gradient_at hessian_at hessian_again zero_matrix.
  Definition rturn (step_size epsilon : R) (max_iterations : Z) :=
    turn R mat6 Rplus Rminus Rmult Rdiv Ropp Rabs sqrt rlt rle req Q2R dot6 norm6 unit6 solve
      score_at gradient_at hessian_at hessian_again zero_matrix step_size epsilon max_iterations.
  Definition ralign (step_size epsilon : R) (max_iterations : Z) :=
    align R mat6 Rplus Rminus Rmult Rdiv Ropp Rabs sqrt rlt rle req Q2R dot6 norm6 unit6 solve
      score_at gradient_at hessian_at hessian_again zero_matrix step_size epsilon max_iterations.
End Reals.
