(** Addition, multiplication and square root of SpecFloat in terms of the exact results. *)
From Coq Require Import QArith Qpower Qabs Lqa ZArith List Bool Lia SpecFloat.
From Verif Require Import FilterModel FilterSpec FloatOrder FloatRound.
Local Open Scope Z_scope.

Lemma digits_mul_pow : forall p k, 0 <= k -> Zdigits2 (Zpos p * 2 ^ k) = Zdigits2 (Zpos p) + k.
Proof.
  intros p k H. cbn [Zdigits2]. pose proof (digits_pos p) as D. assert (P : 0 < 2 ^ k) by (apply Z.pow_pos_nonneg; lia).
  apply digits_unique; [lia|]. replace (Zpos (digits2_pos p) + k - 1) with (Zpos (digits2_pos p) - 1 + k) by lia.
  rewrite !Z.pow_add_r by lia. nia.
Qed.
Lemma shift_spec : forall p q, Zpos (shift_pos p q) = Zpos q * 2 ^ Zpos p.
Proof. intros. rewrite shift_pos_correct, Z.pow_pos_fold || idtac. rewrite Z.mul_comm. reflexivity. Qed.
Lemma shl_align_spec : forall m e e', let r := shl_align m e e' in
  snd r = Z.min e e' /\ Zpos (fst r) = Zpos m * 2 ^ (e - Z.min e e').
Proof.
  intros m e e'. unfold shl_align. cbv zeta. destruct (e' - e) as [|p|p] eqn:E; cbn [fst snd].
  - split; [lia|]. replace (e - Z.min e e') with 0 by lia. cbn. lia.
  - split; [lia|]. replace (e - Z.min e e') with 0 by lia. cbn. lia.
  - split; [lia|]. replace (e - Z.min e e') with (Zpos p) by lia. apply shift_spec.
Qed.
Lemma shl_align_dyadic : forall m e e', (dyadic (Zpos (fst (shl_align m e e'))) (snd (shl_align m e e')) == dyadic (Zpos m) e)%Q.
Proof.
  intros m e e'. destruct (shl_align_spec m e e') as (S & F). rewrite S, F.
  rewrite <- dyadic_shift by lia. replace (Z.min e e' + (e - Z.min e e')) with e by lia. reflexivity.
Qed.

Section Ops.
  Variables prec emax : Z.
  Hypothesis (Hprec : 1 < prec) (Hemax : prec < emax).
  Local Notation plus := (plus prec emax).
  Local Notation rounded := (rounded prec emax).
  Local Notation valid := (valid_binary prec emax).

  Lemma aux_sign : forall s m e l, binary_round_aux prec emax s m e l =
    match binary_round_aux prec emax false m e l with
    | S754_zero _ => S754_zero s | S754_infinity _ => S754_infinity s | S754_nan => S754_nan | S754_finite _ a b => S754_finite s a b
    end.
  Proof.
    intros. unfold binary_round_aux. destruct (shr_fexp prec emax m e l) as [r e1]. destruct (shr_fexp _ _ _ e1 loc_Exact) as [r2 e2].
    destruct (shr_m r2); try reflexivity. destruct (e2 <=? emax - prec); reflexivity.
  Qed.

  Definition at_least (v q : Q) : Prop := (q <= v)%Q.
  Definition at_most (v q : Q) : Prop := (v <= q)%Q.
  Lemma round_exact : forall m e, 0 <= m -> e <= fexp prec emax (Zdigits2 m + e) ->
    rounded (at_least (dyadic m e)) (at_most (dyadic m e)) (binary_round_aux prec emax false m e loc_Exact).
  Proof. intros. apply round_spec; try assumption. split; intros q H'; exact H'. Qed.

  Lemma rounded_ext : forall (b a b' a' : Q -> Prop) x, (forall q, b' q -> b q) -> (forall q, a' q -> a q) -> rounded b a x -> rounded b' a' x.
  Proof. intros b a b' a' x Hb Ha (P & R). split; [assumption|]. intros g q Pg V. destruct (R g q Pg V). auto. Qed.

  Lemma binary_round_spec : forall m e, rounded (at_least (dyadic (Zpos m) e)) (at_most (dyadic (Zpos m) e)) (binary_round prec emax false m e).
  Proof.
    intros m e. unfold binary_round. pose proof (shl_align_dyadic m e (fexp prec emax (Zpos (digits2_pos m) + e))) as D.
    destruct (shl_align_spec m e (fexp prec emax (Zpos (digits2_pos m) + e))) as (S & F).
    destruct (shl_align m e (fexp prec emax (Zpos (digits2_pos m) + e))) as [mz ez]. cbn [fst snd] in *.
    eapply rounded_ext; [| |apply round_exact; [lia|]].
    - intros q H. unfold at_least in *. rewrite D. exact H.
    - intros q H. unfold at_most in *. rewrite D. exact H.
    - rewrite F, digits_mul_pow by lia. cbn [Zdigits2]. replace (Zpos (digits2_pos m) + (e - Z.min e (fexp prec emax (Zpos (digits2_pos m) + e))) + ez) with (Zpos (digits2_pos m) + e) by lia. lia.
  Qed.
  Lemma binary_round_sign : forall s m e, binary_round prec emax s m e =
    match binary_round prec emax false m e with
    | S754_zero _ => S754_zero s | S754_infinity _ => S754_infinity s | S754_nan => S754_nan | S754_finite _ a b => S754_finite s a b
    end.
  Proof. intros. unfold binary_round. destruct (shl_align _ _ _). apply aux_sign. Qed.
  Lemma binary_round_valid : forall s m e, valid (binary_round prec emax s m e) = true /\ binary_round prec emax s m e <> S754_nan.
  Proof.
    intros. rewrite binary_round_sign. destruct (binary_round_spec m e) as (P & _). destruct (binary_round prec emax false m e) as [[]|[]| |[] a b]; try contradiction; split; try discriminate; try reflexivity. exact P.
  Qed.
  Lemma normalize_valid : forall z e s, valid (binary_normalize prec emax z e s) = true /\ binary_normalize prec emax z e s <> S754_nan.
  Proof. intros [|p|p] e s; cbn [binary_normalize]; [split; [reflexivity|discriminate]| |]; apply binary_round_valid. Qed.

  Lemma add_valid : forall x y, valid x = true -> valid y = true -> valid (SFadd prec emax x y) = true.
  Proof.
    intros [s|s| |s m e] [t|t| |t n f] Vx Vy; cbn [SFadd]; try reflexivity; try assumption; try (destruct (Bool.eqb s t); reflexivity).
    apply normalize_valid.
  Qed.

  Lemma plus_valid : forall x, plus x -> valid x = true.
  Proof. intros [[]|[]| |[] m e] H; try contradiction; try reflexivity; exact H. Qed.

  (** Products *)
  Lemma square_plus : forall x, valid x = true -> x <> S754_nan -> plus (SFmul prec emax x x).
  Proof.
    intros [s|s| |s m e] V N; cbn [SFmul]; try rewrite xorb_nilpotent; try exact I; [congruence|].
    apply round_spec with (below := at_least (dyadic (Zpos (m * m)) (e + e))) (above := at_most (dyadic (Zpos (m * m)) (e + e))); try assumption.
    - lia.
    - cbn [valid_binary] in V. apply bounded_spec in V; [|assumption]. destruct V as (A & B & C).
      destruct (Z.eq_dec (emin prec emax) e) as [E|E].
      + pose proof (fexp_emin prec emax (Zdigits2 (Zpos (m * m)) + (e + e))). unfold emin in *. lia.
      + specialize (C ltac:(lia)). pose proof (fexp_prec prec emax (Zdigits2 (Zpos (m * m)) + (e + e))).
        assert (D : prec <= Zdigits2 (Zpos (m * m))); [|lia].
        pose proof (digits_pos (m * m)) as D. cbn [Zdigits2].
        destruct (Z.le_gt_cases prec (Zpos (digits2_pos (m * m)))); [assumption|]. exfalso.
        assert (2 ^ Zpos (digits2_pos (m * m)) <= 2 ^ (prec - 1)) by (apply Z.pow_le_mono_r; lia).
        assert (2 <= 2 ^ (prec - 1)) by (change 2 with (2 ^ 1) at 1; apply Z.pow_le_mono_r; lia).
        rewrite Pos2Z.inj_mul in D. nia.
    - split; intros q H; exact H.
  Qed.

  (** Sums of numbers that are not negative *)
  Lemma plus_refl : forall x, plus x -> SFleb x x = true.
  Proof. intros x H. apply SFleb_refl, num_nan. intros ->. exact H. Qed.
  Lemma add_plus : forall x y, plus x -> plus y -> plus (SFadd prec emax x y) /\ SFleb x (SFadd prec emax x y) = true.
  Proof.
    intros x y Px Py.
    destruct x as [[]|[]| |[] m e]; try contradiction; destruct y as [[]|[]| |[] n f]; try contradiction; cbn [SFadd Bool.eqb];
      try (split; [exact I|reflexivity]); try (split; [exact Py|reflexivity]); try (split; [exact Px|apply (plus_refl _ Px)]).
    set (z := cond_Zopp false (Zpos (fst (shl_align m e (Z.min e f)))) + cond_Zopp false (Zpos (fst (shl_align n f (Z.min e f))))).
    assert (Zv : exists p, z = Zpos p /\ (dyadic (Zpos m) e <= dyadic (Zpos p) (Z.min e f))%Q).
    { unfold z. cbn [cond_Zopp]. eexists. split; [reflexivity|].
      pose proof (shl_align_dyadic m e (Z.min e f)) as D. destruct (shl_align_spec m e (Z.min e f)) as (S & _).
      rewrite S in D. replace (Z.min e (Z.min e f)) with (Z.min e f) in D by lia. rewrite <- D. apply dyadic_le. lia. }
    destruct Zv as (p & -> & Le). cbn [binary_normalize]. destruct (binary_round_spec p (Z.min e f)) as (P & R). split; [assumption|].
    apply (R (S754_finite false m e) _ Px eq_refl). exact Le.
  Qed.

  (** Square root *)
  Lemma digits_sqrt : forall m, 0 < m -> Zdigits2 (Z.sqrt m) = Z.div2 (Zdigits2 m + 1).
  Proof.
    intros m H. pose proof (Z.sqrt_spec m ltac:(lia)) as S. set (q := Z.sqrt m) in *.
    assert (0 < q) by (apply Z.sqrt_pos; assumption).
    assert (D : 2 ^ (Zdigits2 m - 1) <= m < 2 ^ Zdigits2 m) by (destruct m as [|p|p]; try lia; apply digits_pos).
    assert (0 < Zdigits2 m) by (destruct m; cbn; lia).
    rewrite Z.div2_div. set (c := (Zdigits2 m + 1) / 2). assert (C : 2 * c = Zdigits2 m \/ 2 * c = Zdigits2 m + 1).
    { unfold c. pose proof (Z.div_mod (Zdigits2 m + 1) 2 ltac:(lia)). pose proof (Z.mod_pos_bound (Zdigits2 m + 1) 2 ltac:(lia)). lia. }
    assert (Q : forall k, 0 <= k -> 2 ^ (2 * k) = 2 ^ k * 2 ^ k) by (intros; rewrite <- Z.pow_add_r by lia; f_equal; lia).
    assert (Pc : 0 < 2 ^ c) by (apply Z.pow_pos_nonneg; lia).
    assert (Pd : 0 < 2 ^ (c - 1)) by (apply Z.pow_pos_nonneg; lia).
    assert (2 ^ Zdigits2 m <= 2 ^ c * 2 ^ c) by (rewrite <- Q by lia; apply Z.pow_le_mono_r; lia).
    assert (2 ^ (c - 1) * 2 ^ (c - 1) <= 2 ^ (Zdigits2 m - 1)) by (rewrite <- Q by lia; apply Z.pow_le_mono_r; lia).
    apply digits_unique; [lia|]. unfold Z.succ in S. split; nia.
  Qed.

  Definition root_least (v q : Q) : Prop := (q <= 0 \/ q * q <= v)%Q.
  Definition root_most (v q : Q) : Prop := (0 <= q /\ v <= q * q)%Q.
  Lemma square_lt : forall a b : Q, (0 <= b -> a * a < b * b -> a < b)%Q.
  Proof. intros a b Hb H. destruct (Qlt_le_dec a b) as [L|L]; [assumption|]. exfalso. nra. Qed.
  Lemma square_le : forall a b : Q, (0 <= b -> a * a <= b * b -> a <= b)%Q.
  Proof. intros a b Hb H. destruct (Qlt_le_dec b a) as [L|L]; [|assumption]. exfalso. nra. Qed.
  Lemma dyadic_square : forall m e, (dyadic m e * dyadic m e == dyadic (m * m) (2 * e))%Q.
  Proof. intros. unfold dyadic. replace (2 * e) with (e + e) by lia. rewrite pow_split, inject_Z_mult. ring. Qed.
  Lemma dyadic_nonneg : forall m e, 0 <= m -> (0 <= dyadic m e)%Q.
  Proof. intros m e H. assert (E : (0 == dyadic 0 e)%Q) by (unfold dyadic; ring). rewrite E. apply dyadic_le. assumption. Qed.

  Lemma sqrt_finite : forall m e, let r := SFsqrt_core_binary prec emax (Zpos m) e in
    rounded (root_least (dyadic (Zpos m) e)) (root_most (dyadic (Zpos m) e)) (SFsqrt prec emax (S754_finite false m e)).
  Proof.
    intros m e r. cbn [SFsqrt]. unfold SFsqrt_core_binary.
    set (e' := Z.min (fexp prec emax (Z.div2 (Zdigits2 (Zpos m) + e + 1))) (Z.div2 e)).
    assert (He : 0 <= e - 2 * e'). { assert (e' <= e / 2) by (unfold e'; rewrite (Z.div2_div e); lia). pose proof (Z.mul_div_le e 2 ltac:(lia)). lia. }
    set (m' := match e - 2 * e' with 0 => Zpos m | Zpos _ => Z.shiftl (Zpos m) (e - 2 * e') | Zneg _ => 0 end).
    assert (Em : m' = Zpos m * 2 ^ (e - 2 * e')).
    { unfold m'. destruct (e - 2 * e') eqn:E; [cbn; lia| |lia]. rewrite Z.shiftl_mul_pow2 by lia. reflexivity. }
    assert (Pm : 0 < m') by (rewrite Em; apply Z.mul_pos_pos; [lia|apply Z.pow_pos_nonneg; lia]).
    pose proof (Z.sqrtrem_spec m' ltac:(lia)) as Sp. pose proof (Z.sqrtrem_sqrt m') as Sq.
    destruct (Z.sqrtrem m') as [q rem]. cbn [fst] in Sq. destruct Sp as (Sp & Rb).
    assert (V : (dyadic (Zpos m) e == dyadic m' (2 * e'))%Q).
    { rewrite Em. replace e with (2 * e' + (e - 2 * e')) at 1 by lia. apply dyadic_shift. lia. }
    assert (Hq : 0 < q) by (rewrite Sq; apply Z.sqrt_pos; assumption).
    apply round_spec; try assumption; [lia| |].
    - rewrite Sq, digits_sqrt by assumption. rewrite Em, digits_mul_pow by lia.
      replace (Z.div2 (Zdigits2 (Zpos m) + (e - 2 * e') + 1) + e') with (Z.div2 (Zdigits2 (Zpos m) + e + 1)); [lia|].
      rewrite !Z.div2_div. replace (Zdigits2 (Zpos m) + (e - 2 * e') + 1) with (Zdigits2 (Zpos m) + e + 1 + (- e') * 2) by lia.
      rewrite Z.div_add by lia. lia.
    - assert (Z1 : (0 <= dyadic q e')%Q) by (apply dyadic_nonneg; lia).
      assert (Z2 : (0 < dyadic (q + 1) e')%Q) by (apply Qle_lt_trans with (dyadic q e'); [assumption|apply dyadic_lt; lia]).
      destruct (Zeq_bool rem 0) eqn:Er; [apply Zeq_bool_eq in Er|apply Zeq_bool_neq in Er]; split; intros x H.
      + destruct H as [H|H]; [lra|]. apply square_le; [assumption|]. rewrite dyadic_square. rewrite V in H. replace (q * q) with m' by lia. assumption.
      + destruct H as (H0 & H). apply square_le; [assumption|]. rewrite dyadic_square. rewrite V in H. replace (q * q) with m' by lia. assumption.
      + destruct H as [H|H]; [lra|]. apply square_lt; [lra|]. rewrite dyadic_square. rewrite V in H. eapply Qle_lt_trans; [eassumption|]. apply dyadic_lt. lia.
      + destruct H as (H0 & H). apply square_lt; [assumption|]. rewrite dyadic_square. rewrite V in H. eapply Qlt_le_trans; [|eassumption]. apply dyadic_lt. lia.
  Qed.
  Lemma sqrt_plus : forall x, plus x -> plus (SFsqrt prec emax x).
  Proof. intros [[]|[]| |[] m e] H; try contradiction; try exact I. apply (sqrt_finite m e). Qed.

  (** A root that is at least [c] has an argument above the square of every smaller float, and so has every
      larger argument. *)
  Lemma sqrt_bound : forall x y c d q, plus x -> plus y -> plus c -> plus d -> value d = Some q -> (0 <= q)%Q -> SFltb d c = true ->
    SFltb (SFsqrt prec emax x) c = false -> SFleb x y = true -> SFleb d (SFsqrt prec emax y) = true.
  Proof.
    intros x y c d q Px Py Pc Pd Vd Hq Ldc Ls Lxy.
    assert (Num : forall v, plus v -> num v) by (intros v Pv; apply num_nan; intros ->; exact Pv).
    assert (Pos : SFltb (S754_zero false) c = true).
    { destruct c as [[]|[]| |[] a b]; try contradiction; try reflexivity. destruct d as [[]|[]| |[] u v]; try contradiction; discriminate. }
    assert (Lc : SFleb c (SFsqrt prec emax x) = true).
    { destruct (SFleb c (SFsqrt prec emax x)) eqn:E; [reflexivity|]. apply SFleb_false in E; [congruence| |]; apply Num; [assumption|apply sqrt_plus; assumption]. }
    assert (Fx : forall m e, x = S754_finite false m e -> (q * q < dyadic (Zpos m) e)%Q).
    { intros m e ->. destruct (Qlt_le_dec (q * q) (dyadic (Zpos m) e)) as [L|L]; [assumption|]. exfalso.
      destruct (sqrt_finite m e) as (_ & R). destruct (R d q Pd Vd) as (_ & R2). specialize (R2 (conj Hq L)).
      assert (SFltb (SFsqrt prec emax (S754_finite false m e)) c = true) by (eapply SFleb_ltb_trans; eassumption). congruence. }
    destruct x as [[]|[]| |[] m e]; try contradiction.
    - cbn [SFsqrt] in Ls. congruence.
    - destruct y as [[]|[]| |[] ? ?]; try contradiction; try discriminate. cbn [SFsqrt].
      destruct d as [[]|[]| |[] ? ?]; try contradiction; reflexivity.
    - specialize (Fx m e eq_refl). destruct y as [[]|[]| |[] n f]; try contradiction; try discriminate.
      + cbn [SFsqrt]. destruct d as [[]|[]| |[] ? ?]; try contradiction; reflexivity.
      + destruct (sqrt_finite n f) as (_ & R). apply (R d q Pd Vd). right. apply Qlt_le_weak. eapply Qlt_le_trans; [eassumption|].
        apply (finite_order prec emax); assumption.
  Qed.
End Ops.
