(** Products of floats that are not negative, exact conversions and truncation to int. *)
From Coq Require Import QArith Qpower Qabs Lqa ZArith List Bool Lia SpecFloat.
From Verif Require Import Outcome FilterModel FilterSpec FloatOrder FloatRound FloatOps.
Local Open Scope Z_scope.

(** Two finite positive floats that are not above each other are the same. *)
Lemma leb_antisym : forall m e n f, SFleb (S754_finite false m e) (S754_finite false n f) = true ->
  SFleb (S754_finite false n f) (S754_finite false m e) = true -> m = n /\ e = f.
Proof.
  intros m e n f. unfold SFleb, SFcompare. rewrite (Z.compare_antisym e f). destruct (Z.compare_spec e f) as [->|L|L]; cbn [CompOpp]; try discriminate.
  change (Pcompare m n Eq) with (m ?= n)%positive. change (Pcompare n m Eq) with (n ?= m)%positive. rewrite (Pos.compare_antisym m n).
  destruct (Pos.compare_spec m n); cbn [CompOpp]; try discriminate; auto.
Qed.

Section Ops.
  Variables prec emax : Z.
  Hypothesis (Hprec : 1 < prec) (Hemax : prec < emax).
  Local Notation plus := (plus prec emax).
  Local Notation rounded := (rounded prec emax).
  Local Notation bounded := (bounded prec emax).

  (** Rounding a float gives it back. *)
  Lemma rounded_id : forall v m e x, bounded m e = true -> (v == dyadic (Zpos m) e)%Q -> rounded (at_least v) (at_most v) x ->
    x = S754_finite false m e.
  Proof.
    intros v m e x B V (P & R). destruct (R (S754_finite false m e) (dyadic (Zpos m) e) B eq_refl) as (R1 & R2).
    specialize (R1 ltac:(unfold at_least; rewrite V; apply Qle_refl)). specialize (R2 ltac:(unfold at_most; rewrite V; apply Qle_refl)).
    destruct x as [[]|[]| |[] n f]; try contradiction; try discriminate. destruct (leb_antisym _ _ _ _ R1 R2) as (-> & ->). reflexivity.
  Qed.
  Lemma bounded_near : forall m e, 0 < m < 2 ^ prec -> emin prec emax <= e <= emax - prec -> exists n f, bounded n f = true /\ (dyadic (Zpos n) f == dyadic m e)%Q.
  Proof.
    intros m e Hm He. destruct m as [|p|p]; try lia. pose proof (digits_pos p) as D.
    assert (L : Zdigits2 (Zpos p) <= prec) by (apply digits_le; lia). cbn [Zdigits2] in L.
    set (k := Z.min (prec - Zpos (digits2_pos p)) (e - emin prec emax)). assert (Hk : 0 <= k) by (unfold k; lia).
    assert (P : 0 < 2 ^ k) by (apply Z.pow_pos_nonneg; lia).
    exists (Z.to_pos (Zpos p * 2 ^ k)), (e - k). rewrite Z2Pos.id by lia. split.
    - apply bounded_spec; [assumption|]. rewrite Z2Pos.id by lia.
      assert (Sp : forall a, 0 <= a -> 2 ^ (a + k) = 2 ^ a * 2 ^ k) by (intros; apply Z.pow_add_r; lia).
      pose proof (Sp (Zpos (digits2_pos p)) ltac:(lia)) as S1. pose proof (Sp (Zpos (digits2_pos p) - 1) ltac:(lia)) as S2.
      assert (2 ^ (Zpos (digits2_pos p) + k) <= 2 ^ prec) by (apply Z.pow_le_mono_r; unfold k; lia).
      split; [nia|]. split; [unfold k; lia|]. intros G. assert (Zpos (digits2_pos p) - 1 + k = prec - 1) by (unfold k in *; lia).
      rewrite H0 in S2. rewrite S2. nia.
    - rewrite <- dyadic_shift by assumption. replace (e - k + k) with e by lia. reflexivity.
  Qed.

  Lemma mul_spec : forall m e n f, bounded m e = true -> bounded n f = true ->
    rounded (at_least (dyadic (Zpos m) e * dyadic (Zpos n) f)) (at_most (dyadic (Zpos m) e * dyadic (Zpos n) f))
      (SFmul prec emax (S754_finite false m e) (S754_finite false n f)).
  Proof.
    intros m e n f Bm Bn. cbn [SFmul xorb].
    assert (V : (dyadic (Zpos m) e * dyadic (Zpos n) f == dyadic (Zpos (m * n)) (e + f))%Q).
    { unfold dyadic. rewrite pow_split, Pos2Z.inj_mul, inject_Z_mult. ring. }
    eapply rounded_ext; [| |apply (round_exact prec emax Hprec Hemax (Zpos (m * n)) (e + f)); [lia|]].
    - intros q H. unfold at_least in *. rewrite <- V. exact H.
    - intros q H. unfold at_most in *. rewrite <- V. exact H.
    - apply bounded_spec in Bm, Bn; try assumption. destruct Bm as (A & B & C), Bn as (A' & B' & C').
      assert (Full : 2 ^ (prec - 1) <= Zpos m \/ 2 ^ (prec - 1) <= Zpos n -> e + f <= fexp prec emax (Zdigits2 (Zpos (m * n)) + (e + f))).
      { intros H. pose proof (fexp_prec prec emax (Zdigits2 (Zpos (m * n)) + (e + f))).
        assert (D : prec <= Zdigits2 (Zpos (m * n))); [|lia].
        pose proof (digits_pos (m * n)) as D. cbn [Zdigits2].
        destruct (Z.le_gt_cases prec (Zpos (digits2_pos (m * n)))); [assumption|]. exfalso.
        assert (2 ^ Zpos (digits2_pos (m * n)) <= 2 ^ (prec - 1)) by (apply Z.pow_le_mono_r; lia).
        rewrite Pos2Z.inj_mul in D. assert (0 < 2 ^ (prec - 1)) by (apply Z.pow_pos_nonneg; lia). destruct H; nia. }
      destruct (Z.eq_dec (emin prec emax) e) as [E|E]; [|apply Full; left; apply C; lia].
      destruct (Z.eq_dec (emin prec emax) f) as [F|F]; [|apply Full; right; apply C'; lia].
      pose proof (fexp_emin prec emax (Zdigits2 (Zpos (m * n)) + (e + f))). unfold emin in *. lia.
  Qed.
End Ops.

(** Truncation. *)
Lemma trunc_spec : forall m e z, trunc_fl (S754_finite false m e) = Some z -> 0 <= z /\ (dyadic z 0 <= dyadic (Zpos m) e)%Q /\ (dyadic (Zpos m) e < dyadic (z + 1) 0)%Q.
Proof.
  intros m e z H. cbn [trunc_fl] in H. destruct (Z.leb_spec 0 e) as [L|L].
  - assert (E : z = Zpos m * 2 ^ e) by congruence. clear H. pose proof (Z.pow_pos_nonneg 2 e ltac:(lia) L). split; [nia|].
    pose proof (dyadic_shift (Zpos m) 0 e L) as D. rewrite Z.add_0_l, <- E in D. rewrite D. split; [apply Qle_refl|apply dyadic_lt; lia].
  - assert (E : z = Zpos m / 2 ^ (- e)) by congruence. clear H. set (p := 2 ^ (- e)) in *.
    assert (P : 0 < p) by (apply Z.pow_pos_nonneg; lia).
    pose proof (Z.div_mod (Zpos m) p ltac:(lia)). pose proof (Z.mod_pos_bound (Zpos m) p P).
    assert (0 <= z) by (rewrite E; apply Z.div_pos; lia). split; [assumption|].
    assert (Sh : forall a, (dyadic a 0 == dyadic (a * p) e)%Q) by (intros; replace 0 with (e + - e) by lia; apply dyadic_shift; lia).
    rewrite !Sh. split; [apply dyadic_le; nia|apply dyadic_lt; nia].
Qed.
Lemma trunc_total : forall m e, exists z, trunc_fl (S754_finite false m e) = Some z.
Proof. intros. cbn [trunc_fl]. eauto. Qed.

(** Integers as doubles. *)
Lemma of_int_spec : forall z, 0 < z < 2 ^ 53 -> exists m e, of_int z = S754_finite false m e /\ bounded 53 1024 m e = true /\ (dyadic (Zpos m) e == dyadic z 0)%Q.
Proof.
  intros z Hz. destruct (bounded_near 53 1024 ltac:(lia) z 0 Hz ltac:(cbn; lia)) as (m & e & B & V). exists m, e. split; [|auto].
  unfold of_int. destruct z as [|p|p]; try lia. cbn [binary_normalize].
  apply (rounded_id 53 1024 (dyadic (Zpos p) 0)); [assumption|symmetry; assumption|]. apply binary_round_spec; lia.
Qed.
(** A float as double. *)
Lemma widen_spec : forall m e, bounded 24 128 m e = true ->
  exists n f, widen (S754_finite false m e) = S754_finite false n f /\ bounded 53 1024 n f = true /\ (dyadic (Zpos n) f == dyadic (Zpos m) e)%Q.
Proof.
  intros m e B. apply bounded_spec in B; [|lia]. unfold emin in B. destruct B as (A & B & C).
  assert (P : 2 ^ 24 < 2 ^ 53) by reflexivity.
  destruct (bounded_near 53 1024 ltac:(lia) (Zpos m) e ltac:(lia) ltac:(unfold emin; lia)) as (n & f & Bn & V). exists n, f. split; [|auto].
  cbn [widen cond_Zopp binary_normalize]. apply (rounded_id 53 1024 (dyadic (Zpos m) e)); [assumption|symmetry; assumption|]. apply binary_round_spec; lia.
Qed.

(** The index of a quantile: a count times a float below one, rounded, truncated. *)
Lemma quantile_index : forall n m e, 0 < n < 2 ^ 31 -> bounded 24 128 m e = true -> (dyadic (Zpos m) e < 1)%Q ->
  exists k, to_int (SFmul 53 1024 (of_int n) (widen (S754_finite false m e))) = Ok k /\ 0 <= k < n /\ (dyadic n 0 * dyadic (Zpos m) e < dyadic (k + 1) 0)%Q.
Proof.
  intros n m e Hn B L.
  destruct (of_int_spec n) as (a & b & -> & Ba & Va); [assert (2 ^ 31 < 2 ^ 53) by reflexivity; lia|].
  destruct (widen_spec m e B) as (c & d & -> & Bc & Vc).
  pose proof (mul_spec 53 1024 ltac:(lia) ltac:(lia) a b c d Ba Bc) as R.
  set (v := (dyadic (Zpos a) b * dyadic (Zpos c) d)%Q) in *. set (x := SFmul 53 1024 _ _) in *. destruct R as (P & R).
  assert (Vv : (v == dyadic n 0 * dyadic (Zpos m) e)%Q) by (unfold v; rewrite Va, Vc; reflexivity).
  (* the factor is at most 1 - 2^-24 *)
  assert (Q1 : (dyadic (Zpos m) e <= 1 - dyadic 1 (-24))%Q).
  { apply bounded_spec in B; [|lia]. destruct B as (A & _).
    destruct (Z.le_gt_cases e (-24)) as [Le|Gt].
    - assert (dyadic (Zpos m) e <= dyadic (2 ^ 24 - 1) (-24))%Q.
      { replace (-24) with (e + (-24 - e)) by lia. rewrite dyadic_shift by lia. apply dyadic_le. assert (1 <= 2 ^ (-24 - e)) by (apply (Z.pow_le_mono_r 2 0); lia). nia. }
      eapply Qle_trans; [eassumption|]. unfold Qle. vm_compute. discriminate.
    - assert (One : (1 == dyadic (2 ^ 24) (-24))%Q) by reflexivity. 
      replace e with (-24 + (e + 24)) in L |- * by lia. rewrite dyadic_shift in L |- * by lia. rewrite One in L. apply dyadic_lt in L.
      assert (Zpos m * 2 ^ (e + 24) <= 2 ^ 24 - 1) by lia. apply Qle_trans with (dyadic (2 ^ 24 - 1) (-24)); [apply dyadic_le; assumption|unfold Qle; vm_compute; discriminate]. }
  (* a double below n and not below the product *)
  assert (Below : exists g h, bounded 53 1024 g h = true /\ (dyadic (Zpos g) h < dyadic n 0)%Q /\ (v <= dyadic (Zpos g) h)%Q).
  { assert (Pick : exists s, 0 < s <= 24 /\ n * 2 ^ s < 2 ^ 53 /\ 2 ^ 24 <= n * 2 ^ s).
    { destruct (Z.lt_ge_cases n (2 ^ 29)); [exists 24|exists 22]; (split; [lia|]).
      - change (2 ^ 53) with (2 ^ 29 * 2 ^ 24). assert (0 < 2 ^ 24) by reflexivity. nia.
      - change (2 ^ 53) with (2 ^ 31 * 2 ^ 22). assert (2 ^ 24 < 2 ^ 29 * 2 ^ 22) by reflexivity. assert (0 < 2 ^ 22) by reflexivity. nia. }
    destruct Pick as (s & Hs & S1 & S2).
    assert (Ps : 1 < 2 ^ s) by (apply Z.pow_gt_1; lia).
    destruct (bounded_near 53 1024 ltac:(lia) (n * 2 ^ s - 1) (- s)) as (g & h & Bg & Vg); [nia|unfold emin; lia|].
    assert (N0 : (dyadic n 0 == dyadic (n * 2 ^ s) (- s))%Q) by (replace 0 with (- s + s) by lia; apply dyadic_shift; lia).
    exists g, h. split; [assumption|]. rewrite Vg. split; [rewrite N0; apply dyadic_lt; lia|].
    assert (N1 : (dyadic (n * 2 ^ s - 1) (- s) == dyadic n 0 - dyadic 1 (- s))%Q).
    { rewrite N0. unfold dyadic. replace (n * 2 ^ s - 1) with (n * 2 ^ s + - (1)) by ring. rewrite inject_Z_plus, inject_Z_opp. ring. }
    rewrite N1, Vv.
    assert (Z0 : (0 <= dyadic n 0)%Q) by (apply dyadic_nonneg; lia).
    assert (Tiny : (dyadic 1 (- s) <= dyadic n 0 * dyadic 1 (-24))%Q).
    { assert (E1 : (dyadic n 0 * dyadic 1 (-24) == dyadic n (-24))%Q) by (unfold dyadic; change (2 ^ 0)%Q with 1%Q; change (inject_Z 1) with 1%Q; ring).
      rewrite E1. replace (- s) with (-24 + (24 - s)) by lia. rewrite dyadic_shift by lia. apply dyadic_le.
      assert (2 ^ 24 = 2 ^ (24 - s) * 2 ^ s) by (rewrite <- Z.pow_add_r by lia; f_equal; lia). nia. }
    nra. }
  destruct Below as (g & h & Bg & Lg & Ug).
  destruct (R (S754_finite false g h) _ Bg eq_refl) as (_ & R2). specialize (R2 Ug).
  assert (K : exists k, trunc_fl x = Some k /\ 0 <= k < n /\ (v < dyadic (k + 1) 0)%Q).
  { assert (Int : forall z, 0 < z < 2 ^ 53 -> (dyadic z 0 <= v)%Q -> exists p q, SFleb (S754_finite false p q) x = true /\ bounded 53 1024 p q = true /\ (dyadic (Zpos p) q == dyadic z 0)%Q).
    { intros z Hz Lz. destruct (bounded_near 53 1024 ltac:(lia) z 0 Hz ltac:(unfold emin; lia)) as (p & q & Bp & Vp).
      exists p, q. split; [|auto]. apply (R (S754_finite false p q) _ Bp eq_refl). unfold at_least. rewrite Vp. exact Lz. }
    assert (Vn : (v < dyadic n 0)%Q) by (eapply Qle_lt_trans; eassumption).
    assert (Big : 2 ^ 31 < 2 ^ 53) by reflexivity.
    destruct x as [[]|[]| |[] p q]; try contradiction; try discriminate.
    - exists 0. split; [reflexivity|]. split; [lia|]. destruct (Qlt_le_dec v (dyadic (0 + 1) 0)) as [|G]; [assumption|]. exfalso.
      destruct (Int 1 ltac:(lia) G) as (? & ? & C & _). discriminate.
    - destruct (trunc_total p q) as (k & Ek). exists k. split; [assumption|]. destruct (trunc_spec p q k Ek) as (K0 & K1 & K2).
      assert (Le : (dyadic (Zpos p) q <= dyadic (Zpos g) h)%Q) by (apply (finite_order 53 1024); [lia|exact P|exact Bg|exact R2]).
      assert (Kn : k < n) by (apply (dyadic_lt _ _ 0); eapply Qle_lt_trans; [exact K1|]; eapply Qle_lt_trans; eassumption).
      split; [lia|]. destruct (Qlt_le_dec v (dyadic (k + 1) 0)) as [|G]; [assumption|]. exfalso.
      destruct (Int (k + 1) ltac:(lia) G) as (p' & q' & C & Bp & Vp).
      apply (finite_order 53 1024) in C; [|lia|exact Bp|exact P]. rewrite Vp in C. apply (Qlt_not_le _ _ K2). exact C. }
  destruct K as (k & Tk & Hk & Lk). exists k. split; [|split; [assumption|rewrite <- Vv; assumption]].
  unfold to_int. rewrite Tk. replace ((- 2 ^ 31 <=? k) && (k <? 2 ^ 31)) with true; [reflexivity|]. symmetry. rewrite andb_true_iff, Z.leb_le, Z.ltb_lt. lia.
Qed.
