(** Proofs about the registrators. *)
From Coq Require Import Reals List Bool Lra Lia.
From Verif Require Import Outcome MatcherModel MatcherSpec.
Import ListNotations.
Local Open Scope outcome_scope.
Local Open Scope R_scope.

Lemma ge_iff : forall x y, ge x y = true <-> exists r, x = Some r /\ y <= r.
Proof. intros [r|] y; cbn; [destruct (Rle_dec y r)|]; split; try discriminate; intros H; [eauto|auto|destruct H as (? & [= <-] & ?); contradiction|destruct H as (? & [=] & ?)]. Qed.
Lemma gt_iff : forall x y, gt x y = true <-> exists r, x = Some r /\ y < r.
Proof. intros [r|] y; cbn; [destruct (Rlt_dec y r)|]; split; try discriminate; intros H; [eauto|auto|destruct H as (? & [= <-] & ?); contradiction|destruct H as (? & [=] & ?)]. Qed.
Lemma le_iff : forall x y, le x y = true <-> exists r, x = Some r /\ r <= y.
Proof. intros [r|] y; cbn; [destruct (Rle_dec r y)|]; split; try discriminate; intros H; [eauto|auto|destruct H as (? & [= <-] & ?); contradiction|destruct H as (? & [=] & ?)]. Qed.
Lemma lt_iff : forall x y, lt x y = true <-> exists r, x = Some r /\ r < y.
Proof. intros [r|] y; cbn; [destruct (Rlt_dec r y)|]; split; try discriminate; intros H; [eauto|auto|destruct H as (? & [= <-] & ?); contradiction|destruct H as (? & [=] & ?)]. Qed.

(** exp(-e) >= l iff e <= -ln l. *)
Lemma exp_ge : forall e l, 0 < l -> (l <= exp (- e) <-> e <= - ln l).
Proof.
  intros e l H. split; intros G.
  - destruct G as [G|G].
    + apply ln_increasing in G; [rewrite ln_exp in G; lra|exact H].
    + rewrite G, ln_exp. lra.
  - destruct (Req_dec e (- ln l)) as [->|N]; [rewrite Ropp_involutive, exp_ln; lra|].
    left. rewrite <- (exp_ln l H) at 1. apply exp_increasing. lra.
Qed.
Lemma exp_gt : forall e l, 0 < l -> (l < exp (- e) <-> e < - ln l).
Proof.
  intros e l H. split; intros G.
  - apply ln_increasing in G; [rewrite ln_exp in G; lra|exact H].
  - rewrite <- (exp_ln l H) at 1. apply exp_increasing. lra.
Qed.
Lemma exp_unit : forall e, 0 <= e -> 0 < exp (- e) <= 1.
Proof. intros e H. split; [apply exp_pos|]. rewrite <- exp_0. destruct H as [H| <-]; [left; apply exp_increasing; lra|right; f_equal; lra]. Qed.
Lemma mean_nonneg : forall l, l <> [] -> Forall (fun d => 0 <= d) l -> exists r, mean l = Some r /\ 0 <= r.
Proof.
  intros l N H. unfold mean. destruct l as [|d l]; [contradiction|]. eexists. split; [reflexivity|].
  apply Rmult_le_pos; [|left; apply Rinv_0_lt_compat, lt_0_INR; cbn; lia].
  clear N. induction H as [|x r Hx Hr IH]; cbn; lra.
Qed.

Section Matcher.
  Context {P T : Type}.
  Variable broken : P -> bool.
  Variables (pm : option (cloud P) -> option (cloud P) -> T -> outcome (T * list R)) (plain ndt gicp : cloud P -> cloud P -> T -> T * num)
            (fast : cloud P -> cloud P -> T -> outcome (T * num)) (voxel : cloud P -> cloud P) (use_ndt use_voxel : bool).
  Notation align := (align pm plain ndt gicp fast voxel use_ndt use_voxel).
  Notation step := (step broken pm plain ndt gicp fast voxel use_ndt use_voxel).

  (** Align keeps the clouds and the type. *)
  Lemma align_keeps : forall m g o b r m', align m g o = Ok (b, r, m') -> type m' = type m /\ source m' = source m /\ target m' = target m.
  Proof.
    intros m g o b r m' H. unfold MatcherModel.align in H. destruct (type m) eqn:K.
    - destruct (pm (source m) (target m) g) as [[t l]| | |]; cbn in H; try discriminate. inversion H; subst. cbn. auto.
    - destruct (source m) eqn:A, (target m) eqn:B; try discriminate. destruct (le _ 1); inversion H; subst; cbn; auto.
    - destruct (source m) eqn:A, (target m) eqn:B; inversion H; subst; cbn; auto.
    - destruct (source m) as [a|] eqn:A, (target m) as [b'|] eqn:B; try discriminate.
      destruct (fast a b' g) as [[t l]| | |]; cbn in H; try discriminate. inversion H; subst. cbn. auto.
  Qed.
  Lemma empty_iff : forall c : cloud P, empty c = true <-> pts c = [].
  Proof. intros c. unfold empty. destruct (pts c); split; congruence. Qed.
  Lemma set_source_spec : forall m c m', set_source broken m c = Ok m' ->
    type m' = type m /\ target m' = target m /\ ((ignored (type m) c /\ source m' = source m) \/ (~ ignored (type m) c /\ source m' = c)).
  Proof.
    intros m c m' H. unfold set_source in H. unfold ignored. destruct (type m) eqn:K, c as [x|].
    - destruct (empty x) eqn:E.
      + injection H as <-. repeat split; auto. left. split; auto. intros y [= <-]. apply empty_iff. exact E.
      + destruct (negb _); [|discriminate]. injection H as <-. cbn. repeat split; auto. right. split; auto. intros G.
        assert (X := proj2 (empty_iff x) (G x eq_refl)). congruence.
    - injection H as <-. repeat split; auto. left. split; auto. intros y [=].
    - injection H as <-. destruct (empty x) eqn:E; cbn; repeat split; auto.
      + left. split; auto. exists x. split; auto. apply empty_iff. exact E.
      + right. split; auto. intros (y & [= <-] & G). apply empty_iff in G. congruence.
    - injection H as <-. cbn. repeat split; auto. right. split; auto. intros (y & [=] & _).
    - injection H as <-. destruct (empty x) eqn:E; cbn; repeat split; auto.
      + left. split; auto. exists x. split; auto. apply empty_iff. exact E.
      + right. split; auto. intros (y & [= <-] & G). apply empty_iff in G. congruence.
    - injection H as <-. cbn. repeat split; auto. right. split; auto. intros (y & [=] & _).
    - injection H as <-. cbn. repeat split; auto.
    - discriminate.
  Qed.
  Lemma set_target_spec : forall m c m', set_target broken m c = Ok m' ->
    type m' = type m /\ source m' = source m /\ ((ignored (type m) c /\ target m' = target m) \/ (~ ignored (type m) c /\ target m' = c)).
  Proof.
    intros m c m' H. unfold set_target in H. unfold ignored. destruct (type m) eqn:K, c as [x|].
    - destruct (empty x) eqn:E.
      + injection H as <-. repeat split; auto. left. split; auto. intros y [= <-]. apply empty_iff. exact E.
      + destruct (negb _); [|discriminate]. injection H as <-. cbn. repeat split; auto. right. split; auto. intros G.
        assert (X := proj2 (empty_iff x) (G x eq_refl)). congruence.
    - injection H as <-. repeat split; auto. left. split; auto. intros y [=].
    - injection H as <-. destruct (empty x) eqn:E; cbn; repeat split; auto.
      + left. split; auto. exists x. split; auto. apply empty_iff. exact E.
      + right. split; auto. intros (y & [= <-] & G). apply empty_iff in G. congruence.
    - injection H as <-. cbn. repeat split; auto. right. split; auto. intros (y & [=] & _).
    - injection H as <-. destruct (empty x) eqn:E; cbn; repeat split; auto.
      + left. split; auto. exists x. split; auto. apply empty_iff. exact E.
      + right. split; auto. intros (y & [= <-] & G). apply empty_iff in G. congruence.
    - injection H as <-. cbn. repeat split; auto. right. split; auto. intros (y & [=] & _).
    - destruct (normals x); [|discriminate]. injection H as <-. cbn. repeat split; auto.
    - discriminate.
  Qed.

  Lemma left_cons : forall k (c0 c1 x : option (cloud P)) l c, (ignored k x /\ c1 = c0 \/ ~ ignored k x /\ c1 = x) -> left_by k c1 l c -> left_by k c0 (x :: l) c.
  Proof.
    intros k c0 c1 x l c H [[A B]|(l1 & l2 & A & B & C)].
    - destruct H as [[H ->]|[H ->]]; [left; split; [constructor|]; assumption|]. right. exists [], l. subst c. repeat split; auto.
    - right. exists (x :: l1), l2. rewrite A. repeat split; auto.
  Qed.
  Lemma run_inputs : forall l m m', run step m l = Ok m' ->
    type m' = type m /\ left_by (type m) (source m) (sources l) (source m') /\ left_by (type m) (target m) (targets l) (target m').
  Proof.
    induction l as [|c l IH]; intros m m' H; cbn in H.
    - injection H as <-. repeat split; auto; left; split; auto; constructor.
    - destruct (step m c) as [m1| | |] eqn:E; cbn in H; try discriminate. destruct (IH m1 m' H) as (K & S & G). destruct c as [x|x|g o]; cbn in E.
      + apply set_source_spec in E. destruct E as (A & B & C). rewrite A in *. repeat split; auto; [|rewrite <- B; exact G].
        cbn. eapply left_cons; [exact C|exact S].
      + apply set_target_spec in E. destruct E as (A & B & C). rewrite A in *. repeat split; auto; [rewrite <- B; exact S|].
        cbn. eapply left_cons; [exact C|exact G].
      + destruct (align m g o) as [[[b r] m2]| | |] eqn:F; cbn in E; try discriminate. injection E as <-.
        apply align_keeps in F. destruct F as (A & B & C). rewrite A, B, C in *. auto.
  Qed.
End Matcher.
