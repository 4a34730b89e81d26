(** The log-odds formula of the voxel map over the real numbers. *)
From Coq Require Import Reals Lra.
Local Open Scope R_scope.

(** ProbabilityToOdd, multi_resolution_voxel_map.h:134-136, over the reals *)
Definition prob_to_odd (p : R) : R := ln (p / (1 - p)).
(** OddToProbability, multi_resolution_voxel_map.h:138-140, over the reals *)
Definition odd_to_prob (o : R) : R := 1 - 1 / (1 + exp o).

Lemma odds_pos : forall p, 0 < p < 1 -> 0 < p / (1 - p).
Proof. intros p H. apply Rdiv_lt_0_compat; lra. Qed.

(** Adding log odds and converting back (multi_resolution_voxel_map.cc:66-70) is Bayes' rule
    for a binary state; in particular the two conversions are inverse to each other. *)
Theorem C33_log_odds_is_bayes : forall p h, 0 < p < 1 -> 0 < h < 1 ->
  odd_to_prob (prob_to_odd p + prob_to_odd h) = p * h / (p * h + (1 - p) * (1 - h)) /\
  odd_to_prob (prob_to_odd p) = p.
Proof.
  intros p h Hp Hh. unfold odd_to_prob, prob_to_odd.
  assert (0 < p * h) by (apply Rmult_lt_0_compat; lra).
  assert (0 < (1 - p) * (1 - h)) by (apply Rmult_lt_0_compat; lra).
  rewrite exp_plus, !exp_ln by (apply odds_pos; assumption). split; field; repeat split; lra.
Qed.
Print Assumptions C33_log_odds_is_bayes.
Example log_odds_half : odd_to_prob (prob_to_odd (1 / 2) + prob_to_odd (11 / 20)) = 11 / 20.
Proof. destruct (C33_log_odds_is_bayes (1 / 2) (11 / 20)) as [H _]; [lra|lra|]. rewrite H. field. Qed.
