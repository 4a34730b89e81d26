(** Property theorems C01-C06: SimpleTime and TimeStampBinarySearch. *)
From Coq Require Import ZArith List Bool Lia.
From Verif Require Import Outcome TimeModel TimeSpec TimeProofs.
Import ListNotations.
Local Open Scope Z_scope.
Local Open Scope outcome_scope.

(** C01.  Nanosecond conversion. *)
Theorem C01_nano_roundtrip :
  (forall n, 0 <= n < range_ns -> to_nano (from_nano n) = n) /\
  (forall t, normal t -> from_nano (to_nano t) = t) /\
  (forall n, 0 <= n < 2 ^ 64 ->
     normal (from_nano n) /\ to_nano (from_nano n) = n mod range_ns).
Proof. exact nano_roundtrip. Qed.
Print Assumptions C01_nano_roundtrip.

(** The conversion to nanoseconds is the elapsed time for every value of the type,
    also for a nanosecond field of a second or more. *)
Theorem C01_nano_is_elapsed : forall t, rep t -> to_nano t = elapsed t.
Proof. exact to_nano_elapsed. Qed.
Print Assumptions C01_nano_is_elapsed.

Example C01_ex1 : from_nano (to_nano time_max) = time_max /\
  to_nano (from_nano (range_ns + 5)) = 5 /\ to_nano (mkTime 3 2000000001) = 5000000001.
Proof. vm_compute. auto. Qed.

(** C02.  Comparison operators. *)
Theorem C02_order : forall a b, rep a -> rep b ->
  (t_lt a b = true <-> elapsed a < elapsed b) /\
  (t_le a b = true <-> elapsed a <= elapsed b) /\
  (t_gt a b = true <-> elapsed a > elapsed b) /\
  (t_ge a b = true <-> elapsed a >= elapsed b).
Proof. exact order_spec. Qed.
Print Assumptions C02_order.

(** The order is total on normalised times, with plain equality of the fields. *)
Theorem C02_total : forall a b, normal a -> normal b ->
  (t_lt a b = true \/ a = b \/ t_lt b a = true) /\
  (t_le a b = true -> t_le b a = true -> a = b).
Proof.
  intros a b Ha Hb.
  destruct (order_spec a b) as (L1 & E1 & _); try (apply normal_rep; assumption).
  destruct (order_spec b a) as (L2 & E2 & _); try (apply normal_rep; assumption).
  split.
  - destruct (Z.lt_trichotomy (elapsed a) (elapsed b)) as [H|[H|H]].
    + left; apply L1, H.
    + right; left; apply elapsed_inj; assumption.
    + right; right; apply L2, H.
  - intros H1 H2. apply E1 in H1. apply E2 in H2. apply elapsed_inj; try assumption; lia.
Qed.
Print Assumptions C02_total.

Theorem C02_equality_is_tolerance : forall a b, rep a -> rep b ->
  t_eq a b = Ok (Z.abs (elapsed a - elapsed b) <=? 1) /\
  t_ne a b = Ok (negb (Z.abs (elapsed a - elapsed b) <=? 1)).
Proof. intros a b Ha Hb. exact (conj (t_eq_spec a b Ha Hb) (t_ne_spec a b Ha Hb)). Qed.
Print Assumptions C02_equality_is_tolerance.

Theorem C02_transitivity_refuted : exists a b c, normal a /\ normal b /\ normal c /\
  t_eq a b = Ok true /\ t_eq b c = Ok true /\ t_eq a c = Ok false.
Proof. exact t_eq_not_transitive. Qed.
Print Assumptions C02_transitivity_refuted.

Theorem C02_lt_excludes_eq_refuted : exists a b, normal a /\ normal b /\
  t_eq a b = Ok true /\ t_lt a b = true.
Proof. exact t_eq_and_lt. Qed.
Print Assumptions C02_lt_excludes_eq_refuted.

(** TimeMax and the default time are the ends of the order, and IsZero singles out the latter. *)
Theorem C02_extremes : forall t,
  (normal t -> t_le time_zero t = true /\ t_le t time_max = true) /\
  (rep t -> (t_is_zero t = true <-> elapsed t = 0)) /\
  (rep t -> (t_is_zero t = true <-> t = time_zero)).
Proof.
  intros t. split; [|split].
  - intros N. pose proof (normal_rep _ N) as R. split.
    + destruct (order_spec time_zero t) as (_ & O & _); [unfold rep, time_zero; cbn [secs nsecs]; lia | assumption |].
      apply O. destruct N as [S M]. unfold elapsed, time_zero; cbn [secs nsecs]. lia.
    + destruct (order_spec t time_max) as (_ & O & _); [assumption | unfold rep, time_max; cbn [secs nsecs]; lia |].
      apply O. destruct N as [S M]. unfold NS in M. unfold elapsed, time_max; cbn [secs nsecs]. lia.
  - intros [S M]. unfold t_is_zero, elapsed. rewrite andb_true_iff, !Z.eqb_eq. lia.
  - intros [S M]. unfold t_is_zero. rewrite andb_true_iff, !Z.eqb_eq.
    destruct t as [a b]; unfold time_zero; cbn [secs nsecs] in *. split.
    + intros [-> ->]. reflexivity.
    + intros E. inversion E. auto.
Qed.
Print Assumptions C02_extremes.

Example C02_ex : rep (mkTime 5 1500000000) /\
  t_lt (mkTime 5 1500000000) (mkTime 6 600000000) = true.
Proof. vm_compute. intuition discriminate. Qed.

(** C03.  Addition and subtraction. *)
Theorem C03_add_sub :
  (forall a b, rep a -> rep b ->
     exists c, t_add a b = Ok c /\ normal c /\
               elapsed c = (elapsed a + elapsed b) mod range_ns) /\
  (forall a b, rep a -> normal b -> elapsed a < range_ns ->
     exists c, t_sub a b = Ok c /\ normal c /\
               elapsed c = if elapsed b <=? elapsed a then elapsed a - elapsed b else 0) /\
  (forall a b, normal a -> normal b ->
     (let* d := t_sub a b in t_add d b) = Ok (if t_lt a b then b else a)) /\
  (forall a b, normal a -> normal b -> elapsed a + elapsed b < range_ns ->
     (let* s := t_add a b in t_sub s b) = Ok a).
Proof. exact add_sub_laws. Qed.
Print Assumptions C03_add_sub.

Example C03_ex : t_add time_max (mkTime 0 2) = Ok (mkTime 0 1) /\
  t_sub (mkTime 5 3) (mkTime 4 4) = Ok (mkTime 0 999999999) /\
  t_sub (mkTime 5 3) (mkTime 5 4) = Ok (mkTime 0 0).
Proof. vm_compute. auto. Qed.

(** C04.  Division by an int. *)
Theorem C04_divide :
  (forall t, t_div t 0 = Ok t) /\
  (forall t a, normal t -> - 2 ^ 31 < a < 2 ^ 31 -> a <> 0 ->
     exists c, t_div t a = Ok c /\ normal c /\ elapsed c = elapsed t / Z.abs a) /\
  (forall t, t_div t (- 2 ^ 31) = UB).
Proof. exact t_div_laws. Qed.
Print Assumptions C04_divide.

Example C04_ex : t_div (mkTime 7 1) (-2) = Ok (mkTime 3 500000000).
Proof. reflexivity. Qed.

(** C05.  PCL stamps. *)
Theorem C05_pcl_roundtrip :
  (forall us, 0 <= us < 2 ^ 32 * 10 ^ 6 ->
     normal (to_local_time us) /\ elapsed (to_local_time us) = us * 1000 /\
     to_pcl_time (to_local_time us) = us) /\
  (forall t, normal t ->
     elapsed (to_local_time (to_pcl_time t)) <= elapsed t
       <= elapsed (to_local_time (to_pcl_time t)) + 999) /\
  (exists us, 0 <= us < 2 ^ 64 /\ to_pcl_time (to_local_time us) <> us) /\
  (forall us, 2 ^ 32 * 10 ^ 6 <= us < 2 ^ 64 -> to_pcl_time (to_local_time us) <> us).
Proof. exact pcl_laws. Qed.
Print Assumptions C05_pcl_roundtrip.

Example C05_ex : to_pcl_time (to_local_time 1602828000123456) = 1602828000123456 /\
  to_local_time (to_pcl_time (mkTime 3 1999)) = mkTime 3 1000.
Proof. vm_compute. auto. Qed.

(** C06.  Binary search. *)
Theorem C06_search_partition : forall times q,
  (2 <= length times)%nat -> Forall rep times -> rep q -> time_sorted times ->
  exists i, binary_search times q = Some (Ok (i, i + 1)) /\
    0 <= i /\ i + 1 < Z.of_nat (length times) /\
    (forall k t, sample times k t -> 0 < k <= i -> elapsed t <= elapsed q) /\
    (forall k t, sample times k t -> i + 1 <= k < Z.of_nat (length times) - 1 ->
       elapsed q < elapsed t).
Proof. exact binary_search_spec. Qed.
Print Assumptions C06_search_partition.

Theorem C06_search_bracket : forall times q f l,
  (2 <= length times)%nat -> Forall rep times -> rep q -> time_sorted times ->
  sample times 0 f -> sample times (Z.of_nat (length times) - 1) l ->
  elapsed f <= elapsed q -> elapsed q < elapsed l ->
  exists i a b, binary_search times q = Some (Ok (i, i + 1)) /\
    sample times i a /\ sample times (i + 1) b /\
    elapsed a <= elapsed q < elapsed b.
Proof. exact binary_search_bracket. Qed.
Print Assumptions C06_search_bracket.

(** Termination and memory safety need no sortedness. *)
Theorem C06_search_safe : forall times q, (2 <= length times)%nat ->
  exists i, binary_search times q = Some (Ok (i, i + 1)) /\
    0 <= i /\ i + 1 < Z.of_nat (length times).
Proof. exact binary_search_any. Qed.
Print Assumptions C06_search_safe.

Theorem C06_search_short_aborts : forall times q, (length times < 2)%nat ->
  binary_search times q = Some Abort.
Proof. exact binary_search_short. Qed.
Print Assumptions C06_search_short_aborts.

Example C06_ex :
  let track := [mkTime 1 0; mkTime 2 0; mkTime 2 0; mkTime 5 0; mkTime 9 0] in
  time_sorted track /\ Forall rep track /\
  binary_search track (mkTime 2 0) = Some (Ok (2, 3)) /\
  binary_search track (mkTime 0 0) = Some (Ok (0, 1)) /\
  binary_search track (mkTime 99 0) = Some (Ok (3, 4)).
Proof.
  cbn zeta. split; [|split; [|vm_compute; auto]].
  - intros i j a b [Hi A] [Hj B] Hij.
    pose proof (nth_error_Some_length A) as Li. pose proof (nth_error_Some_length B) as Lj.
    cbn [length] in Li, Lj.
    assert (Hi' : i = 0 \/ i = 1 \/ i = 2 \/ i = 3 \/ i = 4) by lia.
    assert (Hj' : j = 0 \/ j = 1 \/ j = 2 \/ j = 3 \/ j = 4) by lia.
    destruct Hi' as [ -> |[ -> |[ -> |[ -> | -> ]]]];
      destruct Hj' as [ -> |[ -> |[ -> |[ -> | -> ]]]]; try lia;
      vm_compute in A, B; injection A as <-; injection B as <-; vm_compute; discriminate.
  - repeat constructor; cbn; lia.
Qed.
