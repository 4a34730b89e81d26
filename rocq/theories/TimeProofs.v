From Coq Require Import ZArith List Bool Lia.
From Coq Require Import ZifyBool.
From Verif Require Import Outcome TimeModel TimeSpec.
Import ListNotations.
Local Open Scope Z_scope.
Local Open Scope outcome_scope.

Ltac Zify.zify_post_hook ::= Z.to_euclidean_division_equations.

Lemma normal_rep : forall t, normal t -> rep t.
Proof. unfold normal, rep, NS; intros; lia. Qed.

Lemma to_nano_elapsed : forall t, rep t -> to_nano t = elapsed t.
Proof.
  intros t [Hs Hn]. unfold to_nano, elapsed, u64, NS.
  rewrite Z.mod_small by lia.
  destruct (_ <? _) eqn:E; lia.
Qed.

Lemma elapsed_bound : forall t, rep t -> 0 <= elapsed t < 2 ^ 32 * 10 ^ 9 + 2 ^ 32.
Proof. unfold rep, elapsed; intros; lia. Qed.

Lemma from_nano_normal : forall n, 0 <= n -> normal (from_nano n).
Proof.
  intros n Hn. unfold normal, from_nano, u32, NS; cbn [secs nsecs].
  split; [apply Z.mod_pos_bound; lia|].
  rewrite Z.mod_small; [apply Z.mod_pos_bound; lia|].
  pose proof (Z.mod_pos_bound n 1000000000). lia.
Qed.

Lemma elapsed_from_nano : forall n, 0 <= n ->
  elapsed (from_nano n) = n mod range_ns.
Proof.
  intros n Hn. unfold elapsed, from_nano, u32, NS, range_ns; cbn [secs nsecs].
  rewrite (Z.mod_small (n mod 1000000000)) by lia.
  change (10 ^ 9) with 1000000000.
  rewrite (Z.mul_comm (2 ^ 32) 1000000000), Z.rem_mul_r by lia. lia.
Qed.

Lemma to_nano_from_nano : forall n, 0 <= n ->
  to_nano (from_nano n) = n mod range_ns.
Proof.
  intros n Hn. rewrite to_nano_elapsed by (apply normal_rep, from_nano_normal, Hn).
  apply elapsed_from_nano, Hn.
Qed.

Lemma elapsed_inj : forall a b, normal a -> normal b -> elapsed a = elapsed b -> a = b.
Proof.
  intros [s n] [s' n']; unfold normal, elapsed, NS; cbn [secs nsecs]; intros.
  f_equal; lia.
Qed.

Lemma from_nano_elapsed : forall t, normal t -> from_nano (elapsed t) = t.
Proof.
  intros t Ht. pose proof (elapsed_bound t (normal_rep t Ht)) as Hb.
  apply elapsed_inj; [apply from_nano_normal; lia|assumption|].
  rewrite elapsed_from_nano by lia. apply Z.mod_small.
  unfold normal, elapsed, NS, range_ns in *. lia.
Qed.

Lemma nano_roundtrip :
  (forall n, 0 <= n < range_ns -> to_nano (from_nano n) = n) /\
  (forall t, normal t -> from_nano (to_nano t) = t) /\
  (forall n, 0 <= n < 2 ^ 64 ->
     normal (from_nano n) /\ to_nano (from_nano n) = n mod range_ns).
Proof.
  split; [|split].
  - intros n Hn. rewrite to_nano_from_nano by lia. apply Z.mod_small; lia.
  - intros t Ht. rewrite to_nano_elapsed by (apply normal_rep, Ht).
    apply from_nano_elapsed, Ht.
  - intros n Hn. split; [apply from_nano_normal; lia|].
    apply to_nano_from_nano; lia.
Qed.

Lemma i64_ok : forall x, - 2 ^ 63 <= x < 2 ^ 63 -> i64 x = Ok x.
Proof. intros x Hx. unfold i64. destruct (_ && _) eqn:E; [reflexivity|lia]. Qed.

Lemma t_eq_spec : forall a b, rep a -> rep b ->
  t_eq a b = Ok (Z.abs (elapsed a - elapsed b) <=? 1).
Proof.
  intros a b Ha Hb. pose proof (elapsed_bound a Ha). pose proof (elapsed_bound b Hb).
  unfold t_eq. rewrite !to_nano_elapsed by assumption.
  rewrite i64_ok by lia. cbn [bind].
  destruct (elapsed a - elapsed b <? 0) eqn:E.
  - rewrite i64_ok by lia. cbn [bind]. unfold judge_range. f_equal. lia.
  - cbn [bind]. unfold judge_range. f_equal. lia.
Qed.

Lemma order_spec : forall a b, rep a -> rep b ->
  (t_lt a b = true <-> elapsed a < elapsed b) /\
  (t_le a b = true <-> elapsed a <= elapsed b) /\
  (t_gt a b = true <-> elapsed a > elapsed b) /\
  (t_ge a b = true <-> elapsed a >= elapsed b).
Proof.
  intros a b Ha Hb. unfold t_lt, t_le, t_gt, t_ge.
  rewrite !to_nano_elapsed by assumption. lia.
Qed.

Lemma t_ne_spec : forall a b, rep a -> rep b ->
  t_ne a b = Ok (negb (Z.abs (elapsed a - elapsed b) <=? 1)).
Proof. intros a b Ha Hb. unfold t_ne. rewrite t_eq_spec by assumption. reflexivity. Qed.

Lemma t_eq_not_transitive : exists a b c, normal a /\ normal b /\ normal c /\
  t_eq a b = Ok true /\ t_eq b c = Ok true /\ t_eq a c = Ok false.
Proof.
  exists (mkTime 7 1), (mkTime 7 2), (mkTime 7 3).
  repeat split; unfold NS; cbn; lia.
Qed.

Lemma t_eq_and_lt : exists a b, normal a /\ normal b /\
  t_eq a b = Ok true /\ t_lt a b = true.
Proof.
  exists (mkTime 6 999999999), (mkTime 7 0).
  repeat split; unfold NS; cbn; lia.
Qed.

Lemma t_add_spec : forall a b, rep a -> rep b ->
  exists c, t_add a b = Ok c /\ normal c /\
            elapsed c = (elapsed a + elapsed b) mod range_ns.
Proof.
  intros a b Ha Hb. pose proof (elapsed_bound a Ha). pose proof (elapsed_bound b Hb).
  unfold t_add. rewrite !to_nano_elapsed by assumption.
  rewrite i64_ok by lia. cbn [bind].
  unfold u64. rewrite Z.mod_small by lia.
  eexists; split; [reflexivity|]. split; [apply from_nano_normal; lia|].
  apply elapsed_from_nano; lia.
Qed.

(** Largest elapsed value of a normalised time. *)
Lemma normal_elapsed : forall t, normal t -> 0 <= elapsed t < range_ns.
Proof. unfold normal, elapsed, NS, range_ns; intros; lia. Qed.

Lemma t_sub_spec : forall a b, rep a -> rep b ->
  exists c, t_sub a b = Ok c /\ normal c /\
            elapsed c = (Z.max 0 (elapsed a - elapsed b)) mod range_ns.
Proof.
  intros a b Ha Hb. pose proof (elapsed_bound a Ha). pose proof (elapsed_bound b Hb).
  unfold t_sub. rewrite !to_nano_elapsed by assumption.
  rewrite i64_ok by lia. cbn [bind].
  destruct (elapsed a - elapsed b <? 0) eqn:E;
    unfold u64; rewrite Z.mod_small by lia;
    (eexists; split; [reflexivity|]; split; [apply from_nano_normal; lia|];
     rewrite elapsed_from_nano by lia; f_equal; lia).
Qed.

Lemma sub_add : forall a b, normal a -> normal b ->
  (let* d := t_sub a b in t_add d b) = Ok (if t_lt a b then b else a).
Proof.
  intros a b Ha Hb.
  pose proof (normal_elapsed a Ha). pose proof (normal_elapsed b Hb).
  destruct (t_sub_spec a b) as (d & Hd & Nd & Ed); try (apply normal_rep; assumption).
  rewrite Hd. cbn [bind].
  destruct (t_add_spec d b) as (c & Hc & Nc & Ec); try (apply normal_rep; assumption).
  rewrite Hc. f_equal.
  destruct (order_spec a b) as (Hlt & _); try (apply normal_rep; assumption).
  rewrite (Z.mod_small (Z.max _ _)) in Ed by lia.
  destruct (t_lt a b).
  - apply elapsed_inj; try assumption. rewrite Ec, Ed.
    rewrite Z.mod_small; lia.
  - apply elapsed_inj; try assumption. rewrite Ec, Ed.
    assert (~ elapsed a < elapsed b) by (intros A; apply Hlt in A; discriminate).
    rewrite Z.mod_small; lia.
Qed.

Lemma add_sub : forall a b, normal a -> normal b ->
  elapsed a + elapsed b < range_ns ->
  (let* s := t_add a b in t_sub s b) = Ok a.
Proof.
  intros a b Ha Hb Hab.
  pose proof (normal_elapsed a Ha). pose proof (normal_elapsed b Hb).
  destruct (t_add_spec a b) as (d & Hd & Nd & Ed); try (apply normal_rep; assumption).
  rewrite Hd. cbn [bind]. rewrite Z.mod_small in Ed by lia.
  destruct (t_sub_spec d b) as (c & Hc & Nc & Ec); try (apply normal_rep; assumption).
  rewrite Hc. f_equal. apply elapsed_inj; try assumption.
  rewrite Ec, Z.mod_small; lia.
Qed.

Lemma add_sub_laws :
  (forall a b, rep a -> rep b ->
     exists c, t_add a b = Ok c /\ normal c /\
               elapsed c = (elapsed a + elapsed b) mod range_ns) /\
  (forall a b, rep a -> normal b -> elapsed a < range_ns ->
     exists c, t_sub a b = Ok c /\ normal c /\
               elapsed c = if elapsed b <=? elapsed a then elapsed a - elapsed b else 0) /\
  (forall a b, normal a -> normal b ->
     (let* d := t_sub a b in t_add d b) = Ok (if t_lt a b then b else a)) /\
  (forall a b, normal a -> normal b -> elapsed a + elapsed b < range_ns ->
     (let* s := t_add a b in t_sub s b) = Ok a).
Proof.
  split; [apply t_add_spec|]. split; [|split; [apply sub_add|apply add_sub]].
  intros a b Ha Hb Hlt.
  pose proof (elapsed_bound a Ha). pose proof (normal_elapsed b Hb).
  destruct (t_sub_spec a b) as (c & Hc & Nc & Ec); [assumption|apply normal_rep; assumption|].
  exists c. split; [assumption|]. split; [assumption|]. rewrite Ec.
  rewrite Z.mod_small by lia. destruct (_ <=? _) eqn:E; lia.
Qed.

Lemma t_div_spec : forall t a, rep t -> - 2 ^ 31 < a < 2 ^ 31 ->
  (a = 0 -> t_div t a = Ok t) /\
  (a <> 0 -> exists c, t_div t a = Ok c /\ rep c /\ nsecs c < 10 ^ 9 /\
     elapsed c = (elapsed t / Z.abs a) mod range_ns).
Proof.
  intros t a Ht Ha. pose proof (elapsed_bound t Ht) as Hb.
  unfold t_div. split; intros H0.
  - subst a. reflexivity.
  - destruct (a =? 0) eqn:E0; [lia|]. clear E0.
    assert (Hd : (if a <? 0 then i32 (- a) else Ok a) = Ok (Z.abs a)).
    { destruct (a <? 0) eqn:E; [|f_equal; lia].
      unfold i32. destruct (_ && _) eqn:E2; [f_equal; lia|lia]. }
    rewrite Hd. cbn [bind]. rewrite to_nano_elapsed by assumption.
    assert (Hq : 0 <= elapsed t ÷ Z.abs a) by (apply Z.quot_pos; lia).
    rewrite (Z.quot_div_nonneg (elapsed t) (Z.abs a)) in * by lia.
    set (q := elapsed t / Z.abs a) in *.
    rewrite Z.quot_div_nonneg by (unfold NS; lia).
    rewrite Z.rem_mod_nonneg by (unfold NS; lia).
    change (mkTime (u32 (q / NS)) (u32 (q mod NS))) with (from_nano q).
    exists (from_nano q). split; [reflexivity|].
    pose proof (from_nano_normal q Hq) as Nq.
    split; [apply normal_rep, Nq|]. split; [unfold normal, NS in Nq; lia|].
    apply elapsed_from_nano, Hq.
Qed.

Lemma t_div_int_min : forall t, t_div t (- 2 ^ 31) = UB.
Proof. reflexivity. Qed.

Lemma t_div_laws :
  (forall t, t_div t 0 = Ok t) /\
  (forall t a, normal t -> - 2 ^ 31 < a < 2 ^ 31 -> a <> 0 ->
     exists c, t_div t a = Ok c /\ normal c /\ elapsed c = elapsed t / Z.abs a) /\
  (forall t, t_div t (- 2 ^ 31) = UB).
Proof.
  split; [reflexivity|]. split; [|reflexivity].
  intros t a Ht Ha H0.
  destruct (t_div_spec t a (normal_rep t Ht) Ha) as [_ Hc].
  destruct (Hc H0) as (c & E & R & N & El).
  pose proof (normal_elapsed t Ht).
  assert (0 <= elapsed t / Z.abs a <= elapsed t).
  { split; [apply Z.div_pos; lia|]. apply Z.div_le_upper_bound; nia. }
  exists c. split; [assumption|]. split.
  - unfold normal, rep, NS in *. lia.
  - rewrite El. apply Z.mod_small. lia.
Qed.

Lemma pcl_laws :
  (forall us, 0 <= us < 2 ^ 32 * 10 ^ 6 ->
     normal (to_local_time us) /\ elapsed (to_local_time us) = us * 1000 /\
     to_pcl_time (to_local_time us) = us) /\
  (forall t, normal t ->
     elapsed (to_local_time (to_pcl_time t)) <= elapsed t
       <= elapsed (to_local_time (to_pcl_time t)) + 999) /\
  (exists us, 0 <= us < 2 ^ 64 /\ to_pcl_time (to_local_time us) <> us) /\
  (forall us, 2 ^ 32 * 10 ^ 6 <= us < 2 ^ 64 -> to_pcl_time (to_local_time us) <> us).
Proof.
  assert (Hloc : forall us, 0 <= us < 2 ^ 32 * 10 ^ 6 ->
     normal (to_local_time us) /\ elapsed (to_local_time us) = us * 1000).
  { intros us Hus. unfold to_local_time, u64. rewrite Z.mod_small by lia.
    split; [apply from_nano_normal; lia|].
    rewrite elapsed_from_nano by lia. apply Z.mod_small. unfold range_ns; lia. }
  assert (Hpcl : forall t, rep t -> to_pcl_time t = elapsed t / 1000).
  { intros t Ht. pose proof (elapsed_bound t Ht).
    unfold to_pcl_time, u64. rewrite to_nano_elapsed by assumption.
    rewrite Z.mod_small by lia. reflexivity. }
  split; [|split; [|split]].
  - intros us Hus. destruct (Hloc us Hus) as [N E].
    split; [assumption|]. split; [assumption|].
    rewrite Hpcl by (apply normal_rep, N). rewrite E. apply Z.div_mul. lia.
  - intros t Ht. pose proof (normal_elapsed t Ht) as Hb. unfold range_ns in Hb.
    rewrite Hpcl by (apply normal_rep, Ht).
    destruct (Hloc (elapsed t / 1000)) as [N E].
    { split; [apply Z.div_pos; lia|]. apply Z.div_lt_upper_bound; lia. }
    rewrite E. lia.
  - exists (2 ^ 63). split; [lia|]. vm_compute. discriminate.
  - intros us Hus.
    assert (N : normal (to_local_time us)).
    { unfold to_local_time. apply from_nano_normal. unfold u64. apply Z.mod_pos_bound. lia. }
    rewrite Hpcl by (apply normal_rep, N).
    pose proof (normal_elapsed _ N) as Hb. unfold range_ns in Hb.
    assert (elapsed (to_local_time us) / 1000 < 2 ^ 32 * 10 ^ 6)
      by (apply Z.div_lt_upper_bound; lia).
    lia.
Qed.

(** * Binary search *)

Lemma nth_error_Some_length : forall A (l : list A) n x,
  nth_error l n = Some x -> (n < length l)%nat.
Proof. intros A l n x H. apply nth_error_Some. congruence. Qed.
Arguments nth_error_Some_length {A l n x}.

Lemma at_ok : forall A (l : list A) i, 0 <= i < Z.of_nat (length l) ->
  exists x, at_ l i = Ok x /\ nth_error l (Z.to_nat i) = Some x.
Proof.
  intros A l i Hi. unfold at_.
  destruct (i <? 0) eqn:E; [lia|].
  destruct (nth_error l (Z.to_nat i)) as [x|] eqn:En.
  - exists x. auto.
  - apply nth_error_None in En. lia.
Qed.

Lemma search_loop_spec : forall fuel times q start end_,
  0 <= start -> start < end_ -> end_ < Z.of_nat (length times) ->
  end_ - start - 1 <= Z.of_nat fuel ->
  exists i, search_loop fuel times q start end_ = Some (Ok (i, i + 1)) /\
    start <= i /\ i + 1 <= end_ /\
    (i = start \/ exists m, sample times i m /\ t_lt q m = false) /\
    (i + 1 = end_ \/ exists m, sample times (i + 1) m /\ t_lt q m = true).
Proof.
  induction fuel as [|fuel IH]; intros times q start end_ H0 H1 H2 H3.
  - cbn [search_loop]. destruct (end_ - start >? 1) eqn:E; [lia|].
    exists start. replace (start + 1) with end_ by lia.
    split; [reflexivity|]. repeat split; try lia; left; lia.
  - cbn [search_loop]. destruct (end_ - start >? 1) eqn:E.
    + set (mid := start + (end_ - start) ÷ 2).
      assert (Hmid : start < mid < end_).
      { unfold mid. rewrite Z.quot_div_nonneg by lia. lia. }
      destruct (at_ok _ times mid) as (m & Hm & Hn); [lia|].
      rewrite Hm. destruct (t_lt q m) eqn:Elt.
      * destruct (IH times q start mid) as (i & Hi & A & B & C & D); try lia.
        exists i. split; [assumption|]. repeat split; try lia; [assumption|].
        destruct D as [D|D]; [|right; assumption].
        right. exists m. split; [|assumption]. rewrite D. split; [lia|assumption].
      * destruct (IH times q mid end_) as (i & Hi & A & B & C & D); try lia.
        exists i. split; [assumption|]. repeat split; try lia; [|assumption].
        destruct C as [C|C]; [|right; assumption].
        right. exists m. split; [|assumption]. rewrite C. split; [lia|assumption].
    + exists start. replace (start + 1) with end_ by lia.
      split; [reflexivity|]. repeat split; try lia; left; lia.
Qed.

Lemma sample_fun : forall l i a b, sample l i a -> sample l i b -> a = b.
Proof. intros l i a b [_ A] [_ B]. congruence. Qed.

Lemma binary_search_spec : forall times q,
  (2 <= length times)%nat -> Forall rep times -> rep q -> time_sorted times ->
  exists i, binary_search times q = Some (Ok (i, i + 1)) /\
    0 <= i /\ i + 1 < Z.of_nat (length times) /\
    (forall k t, sample times k t -> 0 < k <= i -> elapsed t <= elapsed q) /\
    (forall k t, sample times k t -> i + 1 <= k < Z.of_nat (length times) - 1 ->
       elapsed q < elapsed t).
Proof.
  intros times q Hlen Hrep Hq Hs. unfold binary_search.
  destruct (search_loop_spec (length times) times q 0 (Z.of_nat (length times) - 1))
    as (i & Hi & A & B & C & D); try lia.
  rewrite Hi. cbn [bind fst snd].
  exists i. replace (i + 1 - i =? 1) with true by lia.
  split; [reflexivity|]. split; [lia|]. split; [lia|].
  assert (Hr : forall k t, sample times k t -> rep t).
  { intros k t [_ Ht]. eapply Forall_forall; [exact Hrep|]. eapply nth_error_In, Ht. }
  split.
  - intros k t Hk Hki. destruct C as [C|(m & Hm & Hlt)]; [lia|].
    destruct (order_spec q m Hq (Hr _ _ Hm)) as (O & _).
    assert (~ elapsed q < elapsed m) by (intros X; apply O in X; congruence).
    pose proof (Hs k i t m Hk Hm). lia.
  - intros k t Hk Hki. destruct D as [D|(m & Hm & Hlt)]; [lia|].
    destruct (order_spec q m Hq (Hr _ _ Hm)) as (O & _). apply O in Hlt.
    pose proof (Hs (i + 1) k m t Hm Hk). lia.
Qed.

Lemma binary_search_bracket : forall times q f l,
  (2 <= length times)%nat -> Forall rep times -> rep q -> time_sorted times ->
  sample times 0 f -> sample times (Z.of_nat (length times) - 1) l ->
  elapsed f <= elapsed q -> elapsed q < elapsed l ->
  exists i a b, binary_search times q = Some (Ok (i, i + 1)) /\
    sample times i a /\ sample times (i + 1) b /\
    elapsed a <= elapsed q < elapsed b.
Proof.
  intros times q f l Hlen Hrep Hq Hs Hf Hl Hfq Hql.
  destruct (binary_search_spec times q Hlen Hrep Hq Hs) as (i & Hi & A & B & C & D).
  destruct (at_ok _ times i) as (a & _ & Ha); [lia|].
  destruct (at_ok _ times (i + 1)) as (b & _ & Hb); [lia|].
  exists i, a, b. split; [assumption|].
  assert (Sa : sample times i a) by (split; [lia|assumption]).
  assert (Sb : sample times (i + 1) b) by (split; [lia|assumption]).
  split; [assumption|]. split; [assumption|]. split.
  - destruct (Z.eq_dec i 0) as [->|Hi0].
    + rewrite (sample_fun _ _ _ _ Sa Hf). assumption.
    + apply (C i a Sa). lia.
  - destruct (Z.eq_dec (i + 1) (Z.of_nat (length times) - 1)) as [E|E].
    + rewrite E in Sb. rewrite (sample_fun _ _ _ _ Sb Hl). assumption.
    + apply (D (i + 1) b Sb). lia.
Qed.

Lemma binary_search_any : forall times q, (2 <= length times)%nat ->
  exists i, binary_search times q = Some (Ok (i, i + 1)) /\
    0 <= i /\ i + 1 < Z.of_nat (length times).
Proof.
  intros times q Hlen. unfold binary_search.
  destruct (search_loop_spec (length times) times q 0 (Z.of_nat (length times) - 1))
    as (i & Hi & A & B & C & D); try lia.
  rewrite Hi. cbn [bind fst snd].
  exists i. replace (i + 1 - i =? 1) with true by lia.
  split; [reflexivity|]. lia.
Qed.

Lemma binary_search_short : forall times q, (length times < 2)%nat ->
  binary_search times q = Some Abort.
Proof.
  intros [|a [|b times]] q H; [reflexivity|reflexivity|cbn in H; lia].
Qed.
