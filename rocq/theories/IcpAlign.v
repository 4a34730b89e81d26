(** Proofs about the convergence test and the loop of Align. *)
From Coq Require Import QArith Lqa ZArith List Bool Lia SpecFloat.
From Verif Require Import Outcome Pose FilterModel FilterSpec FloatRound IcpModel IcpSpec IcpProofs.
Import ListNotations.
Local Open Scope outcome_scope.
Local Open Scope nat_scope.

Definition history {A} (ts : nat -> A) (n : nat) : list A := map ts (seq 0 (S n)).
Lemma history_length : forall A (ts : nat -> A) n, length (history ts n) = S n.
Proof. intros. unfold history. rewrite map_length, seq_length. reflexivity. Qed.
Lemma history_nth : forall A (ts : nat -> A) n i, i <= n -> nth_error (history ts n) i = Some (ts i).
Proof.
  intros A ts n i H. unfold history. erewrite map_nth_error; [reflexivity|].
  rewrite (nth_error_nth' _ 0) by (rewrite seq_length; lia). rewrite seq_nth by lia. reflexivity.
Qed.

Lemma converged_spec : forall A (drot dtra : A -> A -> Q) ts n fuel, 4 <= fuel -> (Z.of_nat n + 1 < 2 ^ 64)%Z ->
  exists b, converged drot dtra fuel (history ts n) = Some (Ok b) /\ (b = true <-> settled drot dtra ts n).
Proof.
  intros A drot dtra ts n fuel Hf Hn. unfold converged. rewrite history_length. cbv zeta.
  destruct (Z.ltb_spec 4 (Z.of_nat (S n))) as [L|L].
  - assert (Step : forall f i r t, 0 < i -> i <= n ->
      conv_loop drot dtra (S f) (history ts n) (Z.of_nat i) (Z.of_nat (S n) - 4) r t =
      if (Z.of_nat (S n) - 4 <=? Z.of_nat i)%Z then conv_loop drot dtra f (history ts n) (Z.of_nat (i - 1)) (Z.of_nat (S n) - 4) (r + drot (ts i) (ts (i - 1)%nat))%Q (t + dtra (ts i) (ts (i - 1)%nat))%Q else Some (Ok (r, t))).
    { intros f i r t H1 H2. cbn [conv_loop]. destruct (_ <=? _)%Z; [|reflexivity].
      replace (size_dec (Z.of_nat i)) with (Z.of_nat (i - 1)) by (unfold size_dec; rewrite Z.mod_small by lia; lia).
      rewrite !Nat2Z.id, !history_nth by lia. reflexivity. }
    assert (Stop : forall f i r t, (Z.of_nat i < Z.of_nat (S n) - 4)%Z -> conv_loop drot dtra f (history ts n) (Z.of_nat i) (Z.of_nat (S n) - 4) r t = Some (Ok (r, t))).
    { intros f i r t H. destruct f; cbn [conv_loop]; destruct (Z.leb_spec (Z.of_nat (S n) - 4) (Z.of_nat i)); try lia; reflexivity. }
    destruct fuel as [|[|[|[|f]]]]; try lia.
    replace (Z.of_nat (S n) - 1)%Z with (Z.of_nat n) by lia.
    assert (Go : forall i, n - 3 <= i -> (Z.of_nat (S n) - 4 <=? Z.of_nat i)%Z = true) by (intros; apply Z.leb_le; lia).
    do 4 (rewrite Step by lia; rewrite Go by lia).
    rewrite Stop by lia. cbn [bind fst snd]. eexists. split; [reflexivity|].
    unfold settled, mean_step. cbv zeta. replace (n - 2) with (n - 1 - 1) by lia. replace (n - 3) with (n - 1 - 1 - 1) by lia.
    destruct (Qlt_le_dec _ (1 # 1000)) as [H1|H1]; [destruct (Qlt_le_dec _ (1 # 100)) as [H2|H2]|].
    + split; [|reflexivity]. intros _. split; [lia|]. unfold Qdiv in *. lra.
    + split; [discriminate|]. intros (_ & _ & S3). unfold Qdiv in *. lra.
    + split; [discriminate|]. intros (_ & S2 & _). unfold Qdiv in *. lra.
  - exists false. split; [reflexivity|]. split; [discriminate|]. intros (H & _). lia.
Qed.

Lemma converged_false : forall A (drot dtra : A -> A -> Q) ts n, (Z.of_nat n + 1 < 2 ^ 64)%Z ->
  exists b, converged drot dtra 4 (history ts n) = Some (Ok b) /\ (b = true <-> settled drot dtra ts n).
Proof. intros. apply converged_spec; [lia|assumption]. Qed.

Section Align.
  Context {G : group}.
  Variables (nth : list dbl -> nat -> list dbl) (matches : G -> list dbl * list nat) (solve : list (nat * nat) -> G -> G)
            (drot dtra : G -> G -> Q).
  Notation step := (icp_step nth matches solve).
  Notation loop := (icp_loop nth matches solve drot dtra).

  Lemma history_ext : forall (ts ts' : nat -> G) n, (forall i, i <= n -> ts i = ts' i) -> history ts n = history ts' n.
  Proof. intros ts ts' n H. unfold history. apply map_ext_in. intros i I. apply in_seq in I. apply H. lia. Qed.
  Lemma history_snoc : forall (ts : nat -> G) n, history ts n ++ [ts (S n)] = history ts (S n).
  Proof. intros. unfold history. rewrite (seq_S (S n)), map_app. reflexivity. Qed.

  Lemma loop_spec : forall fuel cfg n (ts : nat -> G), (max_iter cfg < 2 ^ 31)%Z -> (Z.of_nat n < 2 ^ 31)%Z ->
    (Z.max 1 (max_iter cfg - Z.of_nat n) <= Z.of_nat fuel)%Z ->
    exists r, loop fuel cfg (ts n) (Z.of_nat n) (history ts n) = Some r /\
      match r with
      | Ok (T, c) => exists ts' k, (forall i, i <= n -> ts' i = ts i) /\ n < k /\ c = Z.of_nat k /\ T = ts' k /\
          (forall i, n <= i -> i < k -> step cfg (ts' i) = Ok (ts' (S i))) /\
          (settled drot dtra ts' k \/ (max_iter cfg <= Z.of_nat k)%Z) /\
          (forall i, n < i -> i < k -> ~ settled drot dtra ts' i /\ (Z.of_nat i < max_iter cfg)%Z)
      | _ => exists ts' k, (forall i, i <= n -> ts' i = ts i) /\ n <= k /\
          (forall i, n <= i -> i < k -> step cfg (ts' i) = Ok (ts' (S i))) /\ (forall T, step cfg (ts' k) <> Ok T) /\ step cfg (ts' k) = (let* _ := r in Ok gone)
      end.
  Proof.
    induction fuel as [|fuel IH]; intros cfg n ts M N F; [lia|]. cbn [icp_loop].
    destruct (step cfg (ts n)) as [T'| | |] eqn:E.
    2-4: eexists; split; [reflexivity|]; exists ts, n; (split; [auto|]); (split; [lia|]); (split; [intros; lia|]); rewrite E; split; [discriminate|reflexivity].
    set (ts1 := fun i => if Nat.leb i n then ts i else T').
    assert (T1 : forall i, i <= n -> ts1 i = ts i) by (intros i Hi; unfold ts1; rewrite (proj2 (Nat.leb_le i n) Hi); reflexivity).
    assert (T2 : ts1 (S n) = T') by (unfold ts1; rewrite (proj2 (Nat.leb_gt (S n) n)); [reflexivity|lia]).
    rewrite <- T2, (history_ext ts ts1 n), history_snoc by (intros; symmetry; apply T1; assumption).
    destruct (converged_false _ drot dtra ts1 (S n) ltac:(lia)) as (b & -> & Hb).
    replace (Z.of_nat n + 1)%Z with (Z.of_nat (S n)) by lia.
    destruct (b || (max_iter cfg <=? Z.of_nat (S n))%Z)%bool eqn:Stop.
    - eexists. split; [reflexivity|]. exists ts1, (S n). split; [exact T1|]. split; [lia|]. split; [reflexivity|]. split; [reflexivity|].
      split; [intros i H1 H2; assert (i = n) by lia; subst i; rewrite T1, T2 by lia; exact E|].
      split; [|intros; lia]. apply orb_true_iff in Stop. rewrite Hb, Z.leb_le in Stop. exact Stop.
    - apply orb_false_iff in Stop. destruct Stop as (B1 & B2). apply Z.leb_gt in B2.
      destruct (IH cfg (S n) ts1 M ltac:(lia) ltac:(lia)) as (r & -> & R). exists r. split; [reflexivity|].
      assert (NS : ~ settled drot dtra ts1 (S n)) by (intros S1; apply Hb in S1; congruence).
      destruct r as [[T c]| | |].
      + destruct R as (ts' & k & R1 & R2 & R3 & R4 & R5 & R6 & R7). exists ts', k.
        split; [intros i Hi; rewrite R1, T1 by lia; reflexivity|]. split; [lia|]. split; [assumption|]. split; [assumption|].
        split; [intros i H1 H2; destruct (Nat.eq_dec i n) as [->|]; [rewrite !R1, T1, T2 by lia; exact E|apply R5; lia]|].
        split; [assumption|]. intros i H1 H2. destruct (Nat.eq_dec i (S n)) as [->|]; [|apply R7; lia]. split; [|lia].
        intros S1. apply NS. unfold settled, mean_step in *. cbv zeta in *. rewrite !R1 in S1 by lia. exact S1.
      + destruct R as (ts' & k & R1 & R2 & R3 & R4). exists ts', k. split; [intros i Hi; rewrite R1, T1 by lia; reflexivity|]. split; [lia|].
        split; [intros i H1 H2; destruct (Nat.eq_dec i n) as [->|]; [rewrite !R1, T1, T2 by lia; exact E|apply R3; lia]|]. exact R4.
      + destruct R as (ts' & k & R1 & R2 & R3 & R4). exists ts', k. split; [intros i Hi; rewrite R1, T1 by lia; reflexivity|]. split; [lia|].
        split; [intros i H1 H2; destruct (Nat.eq_dec i n) as [->|]; [rewrite !R1, T1, T2 by lia; exact E|apply R3; lia]|]. exact R4.
      + destruct R as (ts' & k & R1 & R2 & R3 & R4). exists ts', k. split; [intros i Hi; rewrite R1, T1 by lia; reflexivity|]. split; [lia|].
        split; [intros i H1 H2; destruct (Nat.eq_dec i n) as [->|]; [rewrite !R1, T1, T2 by lia; exact E|apply R3; lia]|]. exact R4.
  Qed.

  Lemma align_unfold : forall fuel cfg mean guess, 0 < sources cfg ->
    align nth matches solve drot dtra fuel (Some cfg) mean guess =
    match loop fuel cfg gone 0 [gone] with
    | None => None
    | Some r => Some (let* x := r in Ok (gmul (gmul mean (fst x)) (gmul (ginv mean) guess), snd x))
    end.
  Proof. intros. cbn [align]. rewrite (proj2 (Nat.ltb_lt _ _) H). reflexivity. Qed.
End Align.
