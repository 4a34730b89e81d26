(** C131: the Newton iteration of the normal distributions transform. *)
From Coq Require Import Reals ZArith List Bool QArith Qreals Lra Lia SpecFloat FunctionalExtensionality.
From Verif Require Import NdtStepModel NdtStepSpec NdtStepProofs.
Import ListNotations.

(** Whatever the numbers (doubles, with infinities and NaN, or reals) and the score are: if step_size minus half of
    epsilon is positive, there is no line search.  The length of the step is that of the Newton step, cut to the range
    from epsilon / 2 to step_size; the score is evaluated once, at the end of the step, which becomes the result. *)
Theorem C131_no_search :
  forall num mat6 (add sub mul div : num -> num -> num) (opp absolute root : num -> num) (lt le eq : num -> num -> bool)
         (const : Q -> num) dot score_at gradient_at (hessian_at hessian_again : (nat -> num) -> mat6) zero_matrix
         x dir newton step_max step_min score gradient hess,
  let zero := const 0%Q in
  let slope := opp (dot gradient dir) in
  lt zero (sub step_max step_min) = true ->
  (le zero slope && eq slope zero)%bool = false ->
  let r := step_length num mat6 add sub mul div opp absolute root lt le eq const dot score_at gradient_at hessian_at
             hessian_again zero_matrix x dir newton step_max step_min score gradient hess in
  let cut := if lt step_max newton then step_max else newton in
  let a := if lt cut step_min then step_min else cut in
  let d := if le zero slope then (fun i => mul (dir i) (const (-1)%Q)) else dir in
  let q := fun i => add (x i) (mul (d i) a) in
  length_ _ _ r = a /\ direction _ _ r = d /\ final _ _ r = Some q /\ calls _ _ r = [q] /\
  s_score _ _ r = score_at q /\ s_gradient _ _ r = gradient_at q /\ s_hessian _ _ r = hessian_at q.
Proof.
  intros num mat6 add sub mul div opp absolute root lt le eq const dot score_at gradient_at hessian_at hessian_again zero_matrix
    x dir newton step_max step_min score gradient hess zero slope L F r cut a d q.
  unfold r. rewrite step_no_search; [|exact F|exact L]. repeat split.
Qed.

Local Open Scope R_scope.
(** Over the reals this holds for all settings: also when the search runs, it ends with that same length.  The
    direction is the Newton direction or its opposite, the one that does not lead down; the length is zero iff the
    gradient has no part along it. *)
Theorem C131_step : forall mat6 score_at gradient_at (hessian_at hessian_again : (nat -> R) -> mat6) zero_matrix
    x dir newton step_max step_min score gradient hess,
  let r := rstep_length mat6 score_at gradient_at hessian_at hessian_again zero_matrix
             x dir newton step_max step_min score gradient hess in
  (dot6 gradient dir = 0 -> length_ _ _ r = 0 /\ final _ _ r = None /\ s_score _ _ r = score) /\
  (dot6 gradient dir <> 0 ->
     length_ _ _ r = Rmax (Rmin newton step_max) step_min /\ 0 < dot6 gradient (direction _ _ r) /\
     ((forall i, direction _ _ r i = dir i) \/ (forall i, direction _ _ r i = - dir i)) /\
     exists q, final _ _ r = Some q /\ (forall i, q i = x i + direction _ _ r i * length_ _ _ r) /\ s_score _ _ r = score_at q).
Proof.
  intros. pose proof (rstep_value mat6 score_at gradient_at hessian_at hessian_again zero_matrix
    x dir newton step_max step_min score gradient hess) as V. cbn zeta in V. fold r in V. split; intro H.
  - apply req_true in H. rewrite H in V. rewrite V. repeat split.
  - assert (N := H). apply req_false in H. rewrite H in V. destruct V as (A & B & C & D & _).
    split; [exact A|]. rewrite B. split; [rewrite facingR_up; now apply Rabs_pos_lt|]. split.
    + destruct (Rle_dec (dot6 gradient dir) 0) as [L|L]; [right|left]; intro i; rewrite facingR_value;
        destruct (Rle_dec (dot6 gradient dir) 0); try reflexivity; contradiction.
    + eexists. split; [exact C|]. split; [intro i; cbn beta; now rewrite A|exact D].
Qed.

(** Whatever the numbers are, the iteration ends: after at most max_iterations + 2 steps. *)
Theorem C131_ends :
  forall num mat6 (add sub mul div : num -> num -> num) (opp absolute root : num -> num) (lt le eq : num -> num -> bool)
         (const : Q -> num) dot norm unit_of solve score_at gradient_at (hessian_at hessian_again : (nat -> num) -> mat6) zero_matrix
         step_size epsilon max_iterations p0 score gradient hess, (0 <= max_iterations)%Z ->
  exists converged s,
    align num mat6 add sub mul div opp absolute root lt le eq const dot norm unit_of solve score_at gradient_at hessian_at
      hessian_again zero_matrix step_size epsilon max_iterations p0 score gradient hess = Some (converged, s) /\
    (Z.of_nat (List.length (lengths _ _ s)) <= max_iterations + 2)%Z /\
    (converged = false -> let n := norm (solve (cur_hessian _ _ s) (fun i => opp (cur_gradient _ _ s i))) in eq n n = false).
Proof.
  intros num mat6 add sub mul div opp absolute root lt le eq const dot norm unit_of solve score_at gradient_at hessian_at hessian_again
    zero_matrix step_size epsilon max_iterations p0 score gradient hess H.
  destruct (loop_ends num mat6 add sub mul div opp absolute root lt le eq const dot norm unit_of solve score_at gradient_at hessian_at
    hessian_again zero_matrix step_size epsilon max_iterations (S (S (Z.to_nat max_iterations))) (start num mat6 p0 score gradient hess))
    as (c & s & E & [C1 C2] & I).
  - split; cbn; [lia|reflexivity].
  - cbn [iterations start]. lia.
  - cbn [iterations start]. lia.
  - exists c, s. split; [exact E|]. split; [rewrite C2; lia|].
    intro F. subst c. clear I C1 C2. unfold align in *.
    revert E. generalize (start num mat6 p0 score gradient hess). generalize (S (S (Z.to_nat max_iterations))).
    induction n as [|n IH]; intros st E; [discriminate|]. cbn [loop] in E.
    destruct (turn_cases num mat6 add sub mul div opp absolute root lt le eq const dot norm unit_of solve score_at gradient_at
      hessian_at hessian_again zero_matrix step_size epsilon max_iterations st) as [[O T]|(_ & _ & r & s' & _ & Es & T)]; cbn zeta in T; rewrite T in E.
    + injection E as E1 E2. subst s. exact E1.
    + destruct (_ || _)%bool; [discriminate|]. now apply (IH s').
Qed.

(** Over the reals: the result is at most (max_iterations + 2) * step_size away from the guess, in the six parameters;
    no step is shorter than epsilon / 2 unless it is zero; the transform returned is that of the parameters reached,
    or still the guess if all steps were zero. *)
Theorem C131_distance : forall mat6 solve score_at gradient_at (hessian_at hessian_again : (nat -> R) -> mat6) zero_matrix
    step_size epsilon max_iterations p0 score gradient hess converged s,
  (0 <= max_iterations)%Z -> 0 < epsilon -> epsilon / 2 <= step_size ->
  ralign mat6 solve score_at gradient_at hessian_at hessian_again zero_matrix step_size epsilon max_iterations
    p0 score gradient hess = Some (converged, s) ->
  apart (p _ _ s) p0 <= IZR (max_iterations + 2) * step_size /\
  Forall (fun a => a = 0 \/ epsilon / 2 <= a <= step_size) (lengths _ _ s) /\
  match placed _ _ s with
  | Some q => forall i, q i = p _ _ s i
  | None => (forall i, p _ _ s i = p0 i) /\ Forall (fun a => a = 0) (lengths _ _ s)
  end.
Proof.
  intros mat6 solve score_at gradient_at hessian_at hessian_again zero_matrix step_size epsilon max_iterations p0 score gradient hess
    converged s Hm He Hs H.
  pose proof (align_moved mat6 solve score_at gradient_at hessian_at hessian_again zero_matrix step_size epsilon max_iterations
    ltac:(lra) p0 score gradient hess _ H) as (A & B & C). cbn [snd] in *.
  split; [|split; [exact B|exact C]].
  destruct (C131_ends R mat6 Rplus Rminus Rmult Rdiv Ropp Rabs sqrt rlt rle req Q2R dot6 norm6 unit6 solve score_at gradient_at
    hessian_at hessian_again zero_matrix step_size epsilon max_iterations p0 score gradient hess Hm) as (c' & s' & E & L & _).
  unfold ralign in H. rewrite H in E. injection E as <- <-.
  eapply Rle_trans; [exact A|]. eapply Rle_trans; [apply (total_bound _ step_size)|].
  - eapply Forall_impl; [|exact B]. intros a Ha. cbn beta in Ha. lra.
  - apply Rmult_le_compat_r; [lra|]. rewrite INR_IZR_INZ. now apply IZR_le.
Qed.

(** An example for what follows: the score -|x|^2 / 2, whose Hessian is minus the identity; the best place is 0, and
    the Newton step leads there exactly.  Steps and tolerance are those the code uses. *)
Definition along (t : R) : nat -> R := fun i => match i with O => t | _ => 0 end.
Definition q_score (x : nat -> R) : R := - dot6 x x / 2.
Definition q_gradient (x : nat -> R) : nat -> R := fun i => - x i.
Definition q_hess (x : nat -> R) : R := -1.
Definition q_solve (h : R) (v : nat -> R) : nat -> R := fun i => v i / h.
Definition q_turn := rturn R q_solve q_score q_gradient q_hess q_hess 0 (1 / 10) (1 / 10) 35.
Definition q_align (t : R) := ralign R q_solve q_score q_gradient q_hess q_hess 0 (1 / 10) (1 / 10) 35
  (along t) (q_score (along t)) (q_gradient (along t)) (-1).

Lemma dot_along : forall a b, dot6 (along a) (along b) = a * b.
Proof. intros. rewrite dot6_sum. cbn. ring. Qed.
Lemma norm_along : forall a, norm6 (along a) = Rabs a.
Proof. intros. unfold norm6. rewrite dot_along. apply sqrt_Rsqr_abs. Qed.
Definition q_state (t : R) (pl : option (nat -> R)) (n : Z) (ls : list R) (ev : list (nat -> R)) : state R R :=
  mkSt R R (along t) pl (q_score (along t)) (q_gradient (along t)) (-1) n ls ev.

(** One step from [t] toward 0. *)
Lemma q_step : forall t pl n ls ev, t <> 0 ->
  let a := Rmax (Rmin (Rabs t) (1 / 10)) (1 / 20) in
  let t' := t - (if Rlt_dec 0 t then a else - a) in
  let s' := q_state t' (Some (along t')) (n + 1) (ls ++ [a]) (ev ++ [along t']) in
  q_turn (q_state t pl n ls ev)
  = if ((35 <? n)%Z || (negb (n =? 0)%Z && rlt a (1 / 10)))%bool then inr (true, s') else inl s'.
Proof.
  intros t pl n ls ev Ht a t' s'.
  destruct (turn_cases R R Rplus Rminus Rmult Rdiv Ropp Rabs sqrt rlt rle req Q2R dot6 norm6 unit6 q_solve q_score q_gradient
    q_hess q_hess 0 (1 / 10) (1 / 10) 35 (q_state t pl n ls ev)) as [[O _]|(_ & _ & r & s1 & Er & Es & E)].
  - exfalso. cbn [cur_hessian cur_gradient q_state] in O.
    replace (q_solve (-1) (fun i => - q_gradient (along t) i)) with (along (- t)) in O.
    2:{ apply functional_extensionality. intro i. unfold q_solve, q_gradient, along. destruct i; field. }
    rewrite norm_along, Rabs_Ropp in O. unfold zero in O. rewrite Q2R_0 in O.
    destruct O as [O|O]; [apply req_true in O; apply Rabs_no_R0 in Ht; contradiction|apply req_false in O; contradiction].
  - cbn zeta in E. unfold q_turn, rturn. rewrite E. cbn [iterations q_state].
    cbn [cur_hessian cur_gradient cur_score p q_state] in Er.
    assert (Dl : q_solve (-1) (fun i => - q_gradient (along t) i) = along (- t)).
    { apply functional_extensionality. intro i. unfold q_solve, q_gradient, along. destruct i; field. }
    rewrite Dl in Er.
    assert (Un : unit6 (along (- t)) = along (- t / Rabs t)).
    { apply functional_extensionality. intro i. unfold unit6. rewrite norm_along, Rabs_Ropp. destruct i; cbn; [reflexivity|].
      unfold Rdiv. ring. }
    rewrite Un, norm_along, Rabs_Ropp in Er.
    assert (Gr : q_gradient (along t) = along (- t)).
    { apply functional_extensionality. intros [|i]; unfold q_gradient; cbn; ring. }
    pose proof (rstep_value R q_score q_gradient q_hess q_hess 0 (along t) (along (- t / Rabs t)) (Rabs t) (1 / 10) (1 / 20)
      (q_score (along t)) (q_gradient (along t)) (-1)) as V.
    cbn zeta in V. rewrite Gr, dot_along in V.
    assert (Pos : - t * (- t / Rabs t) = Rabs t).
    { pose proof (Rabs_no_R0 t Ht). unfold Rabs in *. destruct (Rcase_abs t); field; lra. }
    rewrite Pos in V. pose proof (Rabs_pos_lt t Ht) as Pt.
    replace (req (Rabs t) 0) with false in V by (symmetry; apply req_false; lra).
    assert (Fa : facing R Rmult Ropp rle Q2R dot6 (along (- t)) (along (- t / Rabs t)) = along (- t / Rabs t)).
    { apply functional_extensionality. intro i. rewrite facingR_value, dot_along, Pos.
      destruct (Rle_dec (Rabs t) 0); [lra|reflexivity]. }
    rewrite Fa in V. fold a in V.
    assert (Q : (fun i => along t i + along (- t / Rabs t) i * a) = along t').
    { apply functional_extensionality. intros [|i]; cbn; [|ring]. unfold t', Rabs.
      destruct (Rlt_dec 0 t), (Rcase_abs t); try lra; field; lra. }
    rewrite Q in V.
    assert (Le : least_step R Rdiv Q2R (1 / 10) = 1 / 20) by (unfold least_step; rewrite Q2R_2; field).
    rewrite Le, Gr in Er. unfold rstep_length in V. rewrite <- Er in V.
    destruct V as (A & B & C & D & G & _ & H). destruct (H ltac:(lra)) as [H1 H2].
    assert (S : s1 = s').
    { rewrite Es. unfold s', q_state, ahead. cbn [p placed iterations lengths evaluations q_state]. rewrite A, B, C, D, G, H1, H2.
      f_equal. exact Q. }
    rewrite S, A. assert (Ha : 0 <= a) by (unfold a; pose proof (Rmax_r (Rmin (Rabs t) (1 / 10)) (1 / 20)); lra).
    rewrite (Rabs_pos_eq a Ha). reflexivity.
Qed.

Lemma q_far : forall t, 1 / 10 <= t -> Rmax (Rmin (Rabs t) (1 / 10)) (1 / 20) = 1 / 10.
Proof. intros t H. rewrite Rabs_pos_eq by lra. rewrite Rmin_right by lra. rewrite Rmax_left; lra. Qed.

(** From 100 the iteration walks 37 steps of 1/10 and then says that it has converged. *)
Lemma q_walk : forall k n t pl ls ev, (Z.of_nat k = 37 - n)%Z -> (0 <= n)%Z -> (k <> 0)%nat -> INR k <= t ->
  exists s, loop R R Rplus Rminus Rmult Rdiv Ropp Rabs sqrt rlt rle req Q2R dot6 norm6 unit6 q_solve q_score q_gradient
    q_hess q_hess 0 (1 / 10) (1 / 10) 35 k (q_state t pl n ls ev) = Some (true, s) /\
    (exists before, lengths _ _ s = before ++ [1 / 10]) /\ p _ _ s = along (t - INR k / 10).
Proof.
  induction k as [|k IH]; intros n t pl ls ev Hk Hn N Ht; [contradiction|]. cbn [loop].
  pose proof (pos_INR k) as Pk. rewrite S_INR in Ht.
  pose proof (q_step t pl n ls ev ltac:(lra)) as T. cbn zeta in T. unfold q_turn, rturn in T. rewrite T. clear T.
  rewrite q_far by lra. destruct (Rlt_dec 0 t) as [_|?]; [|lra].
  replace (rlt (1 / 10) (1 / 10)) with false by (symmetry; apply rlt_false; lra). rewrite andb_false_r, orb_false_r.
  destruct (Z.ltb_spec 35 n) as [L|L].
  - assert (k = 0)%nat by lia. subst k. eexists. split; [reflexivity|]. split; [now exists ls|].
    reflexivity.
  - destruct (IH (n + 1)%Z (t - 1 / 10) (Some (along (t - 1 / 10))) (ls ++ [1 / 10]) (ev ++ [along (t - 1 / 10)])) as (s & E & F & G);
      [lia|lia|lia|lra|]. exists s. split; [exact E|]. split; [exact F|]. rewrite G. f_equal. rewrite S_INR. field.
Qed.

(** hasConverged() does not mean that the steps had become small. *)
Theorem C131_converged_refuted :
  ~ forall mat6 solve score_at gradient_at (hessian_at hessian_again : (nat -> R) -> mat6) zero_matrix
      step_size epsilon max_iterations p0 score gradient hess s before a,
    (0 <= max_iterations)%Z -> 0 < epsilon -> epsilon / 2 <= step_size ->
    ralign mat6 solve score_at gradient_at hessian_at hessian_again zero_matrix step_size epsilon max_iterations
      p0 score gradient hess = Some (true, s) ->
    lengths _ _ s = before ++ [a] -> a < epsilon.
Proof.
  intro H.
  destruct (q_walk 37 0 100 None [] [] ltac:(lia) ltac:(lia) ltac:(lia) ltac:(rewrite INR_IZR_INZ; cbn; lra)) as (s & E & (before & F) & _).
  specialize (H R q_solve q_score q_gradient q_hess q_hess 0 (1 / 10) (1 / 10) 35%Z (along 100) (q_score (along 100))
    (q_gradient (along 100)) (-1) s before (1 / 10) ltac:(lia) ltac:(lra) ltac:(lra) E F). lra.
Qed.

(** The step does not find an increase of the score: from 0.12 the iteration goes to 0.02 and then to -0.03, which is
    worse, and stops there. *)
Lemma q_overshoot : exists s, q_align (12 / 100) = Some (true, s) /\
  evaluations _ _ s = [along (2 / 100); along (- (3 / 100))] /\ p _ _ s = along (- (3 / 100)) /\
  cur_score _ _ s = q_score (along (- (3 / 100))).
Proof.
  eexists. unfold q_align, ralign, align. change (Z.to_nat 35) with 35%nat.
  change (start R R (along (12 / 100)) (q_score (along (12 / 100))) (q_gradient (along (12 / 100))) (-1)) with (q_state (12 / 100) None 0 [] []).
  cbn [loop].
  pose proof (q_step (12 / 100) None 0 [] [] ltac:(lra)) as T. cbn zeta in T. unfold q_turn, rturn in T. rewrite T. clear T.
  cbn [Z.ltb Z.compare Z.eqb negb andb orb]. rewrite q_far by lra. destruct (Rlt_dec 0 (12 / 100)) as [_|?]; [|lra].
  replace (12 / 100 - 1 / 10) with (2 / 100) by field.
  pose proof (q_step (2 / 100) (Some (along (2 / 100))) (0 + 1) ([] ++ [1 / 10]) ([] ++ [along (2 / 100)]) ltac:(lra)) as T.
  cbn zeta in T. unfold q_turn, rturn in T. rewrite T. clear T.
  assert (A : Rmax (Rmin (Rabs (2 / 100)) (1 / 10)) (1 / 20) = 1 / 20).
  { rewrite Rabs_pos_eq by lra. rewrite Rmin_left by lra. apply Rmax_right. lra. }
  rewrite A. replace (rlt (1 / 20) (1 / 10)) with true by (symmetry; apply rlt_true; lra).
  destruct (Rlt_dec 0 (2 / 100)) as [_|?]; [|lra].
  change ((35 <? 0 + 1)%Z || negb (0 + 1 =? 0)%Z && true)%bool with true.
  replace (2 / 100 - 1 / 20) with (- (3 / 100)) by field.
  split; [reflexivity|]. repeat split.
Qed.
Theorem C131_increase_refuted :
  ~ forall mat6 solve score_at gradient_at (hessian_at hessian_again : (nat -> R) -> mat6) zero_matrix
      step_size epsilon max_iterations p0 score gradient hess converged s q,
    (0 <= max_iterations)%Z -> 0 < epsilon -> epsilon / 2 <= step_size ->
    ralign mat6 solve score_at gradient_at hessian_at hessian_again zero_matrix step_size epsilon max_iterations
      p0 score gradient hess = Some (converged, s) ->
    In q (evaluations _ _ s) -> score_at q <= cur_score _ _ s.
Proof.
  intro H. destruct q_overshoot as (s & E & F & _ & G).
  specialize (H R q_solve q_score q_gradient q_hess q_hess 0 (1 / 10) (1 / 10) 35%Z (along (12 / 100)) (q_score (along (12 / 100)))
    (q_gradient (along (12 / 100))) (-1) true s (along (2 / 100)) ltac:(lia) ltac:(lra) ltac:(lra) E).
  rewrite F, G in H. specialize (H (or_introl eq_refl)). unfold q_score in H. rewrite !dot_along in H. lra.
Qed.

(** In doubles the settings of the code (0.1 and 0.1 / 2) meet the condition of C131_no_search. *)
Definition tenth := S754_finite false 7205759403792794 (-56).
Definition dlt (a b : spec_float) : bool := SFltb a b.
Example C131_ex_doubles :
  dlt (S754_zero false) (SFsub 53 1024 tenth (SFdiv 53 1024 tenth (S754_finite false 4503599627370496 (-51)))) = true /\
  SFdiv 53 1024 tenth (S754_finite false 4503599627370496 (-51)) = S754_finite false 7205759403792794 (-57).
Proof. split; vm_compute; reflexivity. Qed.
(** A flat and a steep direction over the reals. *)
Example C131_ex_step : dot6 (along 1) (along 0) = 0 /\ dot6 (along 1) (along (-1)) <> 0.
Proof. rewrite !dot_along. split; lra. Qed.
Example C131_ex_run : exists s, q_align (12 / 100) = Some (true, s) /\ lengths _ _ s <> [].
Proof.
  destruct q_overshoot as (s & E & F & P & _). exists s. split; [exact E|]. intro N.
  destruct (C131_distance R q_solve q_score q_gradient q_hess q_hess 0 (1 / 10) (1 / 10) 35 (along (12 / 100))
    (q_score (along (12 / 100))) (q_gradient (along (12 / 100))) (-1) true s ltac:(lia) ltac:(lra) ltac:(lra) E) as (_ & _ & M).
  pose proof (align_moved R q_solve q_score q_gradient q_hess q_hess 0 (1 / 10) (1 / 10) 35 ltac:(lra) _ _ _ _ _ E) as (A & _).
  cbn [snd] in A. rewrite N, P in A. cbn in A. unfold apart in A.
  rewrite (norm6_ext _ (along (- (3 / 100) - 12 / 100))) in A by (intros [|i]; cbn; ring). rewrite norm_along in A.
  rewrite Rabs_left in A by lra. lra.
Qed.
Print Assumptions C131_no_search.
Print Assumptions C131_step.
Print Assumptions C131_ends.
Print Assumptions C131_distance.
Print Assumptions C131_converged_refuted.
Print Assumptions C131_increase_refuted.
