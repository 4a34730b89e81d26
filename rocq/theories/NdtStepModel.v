(** Model of the Newton iteration of the normal distributions transform and of its line search:
    registrators/pclomp/ndt_omp_impl.hpp:80-167 (computeTransformation), 632-676 (updateIntervalMT), 679-757
    (trialValueSelectionMT), 760-920 (computeStepLengthMT) and ndt_omp.h:425-442 (psi and its derivative).
    The numbers are any type with any operations (doubles with NaN, or the reals); so are the library's scalar
    product, norm, normalisation and the solution of the linear system (sv.solve).  The score, gradient and Hessian
    for parameters x are any functions of x: computeDerivatives after transformPointCloud of the input by the
    transform of x (C130 for what they are).  Not modelled: the visualizer, transformation_ and
    previous_transformation_ (not read again), the overflow of the counter nr_iterations_. *)
From Coq Require Import ZArith List Bool QArith.
Import ListNotations.

Section Step.
  Variables (num mat6 : Type).
  (** Six parameters, or a direction. *)
  Definition vec6 := nat -> num.
  Variables (add sub mul div : num -> num -> num) (opp absolute root : num -> num) (lt le eq : num -> num -> bool).
  Variable const : Q -> num.
  Variables (dot : vec6 -> vec6 -> num) (norm : vec6 -> num) (unit_of : vec6 -> vec6) (solve : mat6 -> vec6 -> vec6).
  (** computeDerivatives at the parameters: score, gradient and (if asked for, else zero) Hessian; computeHessian. *)
  Variables (score_at : vec6 -> num) (gradient_at : vec6 -> vec6) (hessian_at hessian_again : vec6 -> mat6).
  Variable zero_matrix : mat6.

  Definition zero := const 0.
  (** std::min and std::max. *)
  Definition smin (a b : num) : num := if lt b a then b else a.
  Definition smax (a b : num) : num := if lt a b then b else a.
  (** operator > and >=. *)
  Definition gt (a b : num) : bool := lt b a.
  Definition ge (a b : num) : bool := le b a.

  (** updateIntervalMT, 632-676: an end point of the interval with value and slope; new lower end, new upper end, and
      whether the interval has converged. *)
  Definition ending := (num * num * num)%type.
  Definition update_interval (l u t : ending) : ending * ending * bool :=
    let '(a_l, f_l, g_l) := l in let '(a_t, f_t, g_t) := t in
    if gt f_t f_l then (l, t, false)
    else if gt (mul g_t (sub a_l a_t)) zero then (t, u, false)
    else if lt (mul g_t (sub a_l a_t)) zero then (t, l, false)
    else (l, u, true).

  (** trialValueSelectionMT, 679-757. *)
  Definition cubic (l t : ending) : num :=
    let '(a_l, f_l, g_l) := l in let '(a_t, f_t, g_t) := t in
    let z := sub (sub (div (mul (const 3) (sub f_t f_l)) (sub a_t a_l)) g_t) g_l in
    let w := root (sub (mul z z) (mul g_t g_l)) in
    add a_l (div (mul (sub a_t a_l) (sub (sub w g_l) z)) (add (sub g_t g_l) (mul (const 2) w))).
  Definition secant (l t : ending) : num :=
    let '(a_l, f_l, g_l) := l in let '(a_t, f_t, g_t) := t in
    sub a_l (mul (div (sub a_l a_t) (sub g_l g_t)) g_l).
  Definition trial_value (l u t : ending) : num :=
    let '(a_l, f_l, g_l) := l in let '(a_u, f_u, g_u) := u in let '(a_t, f_t, g_t) := t in
    if gt f_t f_l then
      let a_c := cubic l t in
      let a_q := sub a_l (div (mul (mul (const (1 # 2)) (sub a_l a_t)) g_l) (sub g_l (div (sub f_l f_t) (sub a_l a_t)))) in
      if lt (absolute (sub a_c a_l)) (absolute (sub a_q a_l)) then a_c else mul (const (1 # 2)) (add a_q a_c)
    else if lt (mul g_t g_l) zero then
      let a_c := cubic l t in let a_s := secant l t in
      if ge (absolute (sub a_c a_t)) (absolute (sub a_s a_t)) then a_c else a_s
    else if le (absolute g_t) (absolute g_l) then
      let a_c := cubic l t in let a_s := secant l t in
      let a_next := if lt (absolute (sub a_c a_t)) (absolute (sub a_s a_t)) then a_c else a_s in
      let a_66 := add a_t (mul (const (66 # 100)) (sub a_u a_t)) in
      if gt a_t a_l then smin a_66 a_next else smax a_66 a_next
    else cubic u t.

  (** ndt_omp.h:425-442, with mu = 1e-4. *)
  Definition mu := const (1 # 10000).
  Definition nu := const (9 # 10).
  Definition psi (a f_a f_0 g_0 : num) : num := sub (sub f_a f_0) (mul (mul mu g_0) a).
  Definition dpsi (g_a g_0 : num) : num := sub g_a (mul mu g_0).
  (** 834: "Sufficient Decrease" and "Curvature Condition". *)
  Definition good_enough (psi_t d_phi_t d_phi_0 : num) : bool := (le psi_t zero && le d_phi_t (mul (opp nu) d_phi_0))%bool.
  (** 882-888: "Converts f_l and g_l from psi to phi". *)
  Definition to_phi (phi_0 d_phi_0 : num) (e : ending) : ending :=
    let '(a, f, g) := e in (a, sub (add f phi_0) (mul (mul mu d_phi_0) a), add g (mul mu d_phi_0)).

  (** What a step leaves behind: its length, the direction (reversed if it leads down), the parameters of
      final_transformation_ (None: as before), the score, gradient and Hessian, and the parameters at which
      computeDerivatives was called, in order. *)
  Record step := mkStep { length_ : num; direction : vec6; final : option vec6; s_score : num; s_gradient : vec6;
                          s_hessian : mat6; calls : list vec6 }.

  Definition clamp (a step_max step_min : num) : num := smax (smin a step_max) step_min.
  Definition ahead (x dir : vec6) (a : num) : vec6 := fun i => add (x i) (mul (dir i) a).

  (** The loop, 829-913.  [n]: turns left of max_step_iterations = 10; [ran]: step_iterations > 0. *)
  Fixpoint search (n : nat) (x dir : vec6) (step_max step_min phi_0 d_phi_0 : num) (converged open ran : bool)
      (l u : ending) (a_t phi_t d_phi_t psi_t d_psi_t : num) (x_t : vec6) (hess : mat6) (seen : list vec6) : step :=
    let stop := mkStep a_t dir (Some x_t) (score_at x_t) (gradient_at x_t) (if ran then hessian_again x_t else hess) seen in
    match n with
    | O => stop
    | S n =>
      if (negb converged && negb (good_enough psi_t d_phi_t d_phi_0))%bool then
        let a_t := if open then trial_value l u (a_t, psi_t, d_psi_t) else trial_value l u (a_t, phi_t, d_phi_t) in
        let a_t := clamp a_t step_max step_min in
        let x_t := ahead x dir a_t in
        let phi_t := opp (score_at x_t) in
        let d_phi_t := opp (dot (gradient_at x_t) dir) in
        let psi_t := psi a_t phi_t phi_0 d_phi_0 in
        let d_psi_t := dpsi d_phi_t d_phi_0 in
        let closes := (open && (le psi_t zero && ge d_psi_t zero))%bool in
        let open := (open && negb closes)%bool in
        let l := if closes then to_phi phi_0 d_phi_0 l else l in
        let u := if closes then to_phi phi_0 d_phi_0 u else u in
        let '(l, u, converged) :=
          if open then update_interval l u (a_t, psi_t, d_psi_t) else update_interval l u (a_t, phi_t, d_phi_t) in
        search n x dir step_max step_min phi_0 d_phi_0 converged open true l u a_t phi_t d_phi_t psi_t d_psi_t x_t
               zero_matrix (seen ++ [x_t])
      else stop
    end.

  (** computeStepLengthMT, 760-920. *)
  Definition step_length (x dir : vec6) (step_init step_max step_min score : num) (gradient : vec6) (hess : mat6) : step :=
    let phi_0 := opp score in
    let d_phi_0 := opp (dot gradient dir) in
    if (ge d_phi_0 zero && eq d_phi_0 zero)%bool then mkStep zero dir None score gradient hess []
    else
      let up := ge d_phi_0 zero in
      let d_phi_0 := if up then mul d_phi_0 (const (-1)) else d_phi_0 in
      let dir := if up then (fun i => mul (dir i) (const (-1))) else dir in
      let l := (zero, psi zero phi_0 phi_0 d_phi_0, dpsi d_phi_0 d_phi_0) in
      let converged := gt (sub step_max step_min) zero in
      let a_t := clamp step_init step_max step_min in
      let x_t := ahead x dir a_t in
      let phi_t := opp (score_at x_t) in
      let d_phi_t := opp (dot (gradient_at x_t) dir) in
      search 10 x dir step_max step_min phi_0 d_phi_0 converged true false l l a_t phi_t d_phi_t
             (psi a_t phi_t phi_0 d_phi_0) (dpsi d_phi_t d_phi_0) x_t (hessian_at x_t) [x_t].

  (** computeTransformation, 80-167: the state of the loop. *)
  Record state := mkSt { p : vec6; placed : option vec6; cur_score : num; cur_gradient : vec6; cur_hessian : mat6;
                         iterations : Z; lengths : list num; evaluations : list vec6 }.
  (** How the loop ends: converged_ and the state; [placed] None: final_transformation_ is still the guess. *)
  Definition ended := (bool * state)%type.

  Variables (step_size epsilon : num) (max_iterations : Z).
  (** transformation_epsilon_ / 2. *)
  Definition least_step : num := div epsilon (const 2).

  (** One turn of the loop, 115-160. *)
  Definition turn (s : state) : state + ended :=
    let delta := solve (cur_hessian s) (fun i => opp (cur_gradient s i)) in
    let n := norm delta in
    if (eq n zero || negb (eq n n))%bool then inr (eq n n, s)
    else
      let r := step_length (p s) (unit_of delta) n step_size least_step (cur_score s) (cur_gradient s) (cur_hessian s) in
      let s' := mkSt (ahead (p s) (direction r) (length_ r))
                     (match final r with Some q => Some q | None => placed s end)
                     (s_score r) (s_gradient r) (s_hessian r) (iterations s + 1)
                     (lengths s ++ [length_ r]) (evaluations s ++ calls r) in
      if ((max_iterations <? iterations s)%Z
          || (negb (iterations s =? 0)%Z && lt (absolute (length_ r)) epsilon))%bool
      then inr (true, s') else inl s'.

  (** The loop; [fuel] bounds the turns (see C131_ends). *)
  Fixpoint loop (fuel : nat) (s : state) : option ended :=
    match fuel with
    | O => None
    | S fuel => match turn s with inr e => Some e | inl s => loop fuel s end
    end.

  (** The start, 99-112: parameters [p0] of the guess, and what computeDerivatives gives for the moved cloud. *)
  Definition start (p0 : vec6) (score : num) (gradient : vec6) (hess : mat6) : state :=
    mkSt p0 None score gradient hess 0 [] [].
  Definition align (p0 : vec6) (score : num) (gradient : vec6) (hess : mat6) : option ended :=
    loop (S (S (Z.to_nat max_iterations))) (start p0 score gradient hess).
End Step.
