(** Rounding of SpecFloat: the result of an operation is not above a float that is not below the exact
    result, and not below a float that is not above it. *)
From Coq Require Import QArith Qpower Qabs Lqa ZArith List Bool Lia SpecFloat.
From Verif Require Import FilterModel FilterSpec FloatOrder.
Local Open Scope Z_scope.

(** ** Powers of two in Q *)
Lemma two_nz : ~ (2 == 0)%Q.
Proof. discriminate. Qed.
Lemma pow_pos : forall e, (0 < 2 ^ e)%Q.
Proof. intros. apply Qpower_0_lt. reflexivity. Qed.
Lemma pow_split : forall a b, (2 ^ (a + b) == 2 ^ a * 2 ^ b)%Q.
Proof. intros. apply Qpower_plus, two_nz. Qed.
Lemma pow_Z : forall k, 0 <= k -> (2 ^ k == inject_Z (2 ^ k))%Q.
Proof. intros k H. apply (Zpower_Qpower 2 k) in H. symmetry. exact H. Qed.
Definition dyadic (m e : Z) : Q := (inject_Z m * 2 ^ e)%Q.
Lemma dyadic_shift : forall m e k, 0 <= k -> (dyadic m (e + k) == dyadic (m * 2 ^ k) e)%Q.
Proof. intros. unfold dyadic. rewrite pow_split, inject_Z_mult, (pow_Z k) by assumption. ring. Qed.
Lemma dyadic_le : forall a b e, (dyadic a e <= dyadic b e)%Q <-> a <= b.
Proof. intros. unfold dyadic. rewrite Qmult_le_r by apply pow_pos. rewrite <- Zle_Qle. tauto. Qed.
Lemma dyadic_lt : forall a b e, (dyadic a e < dyadic b e)%Q <-> a < b.
Proof. intros. unfold dyadic. rewrite Qmult_lt_r by apply pow_pos. rewrite <- Zlt_Qlt. tauto. Qed.

(** ** Number of digits *)
Lemma digits_pos : forall p, 2 ^ (Zpos (digits2_pos p) - 1) <= Zpos p < 2 ^ Zpos (digits2_pos p).
Proof.
  induction p as [p IH|p IH|]; cbn [digits2_pos]; [| |cbn; lia]; rewrite Pos2Z.inj_succ;
    (replace (Z.succ (Zpos (digits2_pos p)) - 1) with (Z.succ (Zpos (digits2_pos p) - 1)) by lia);
    rewrite !Z.pow_succ_r by lia; lia.
Qed.
Lemma digits_nonneg : forall m, 0 <= m -> 0 <= Zdigits2 m /\ m < 2 ^ Zdigits2 m.
Proof. intros [|p|p] H; cbn [Zdigits2]; [cbn; lia| |lia]. pose proof (digits_pos p). lia. Qed.
Lemma digits_le : forall m n, 0 <= n -> 0 <= m < 2 ^ n -> Zdigits2 m <= n.
Proof.
  intros [|p|p] n Hn H; cbn [Zdigits2]; [lia| |lia]. pose proof (digits_pos p) as D.
  destruct (Z.le_gt_cases (Zpos (digits2_pos p)) n); [assumption|].
  assert (2 ^ n <= 2 ^ (Zpos (digits2_pos p) - 1)) by (apply Z.pow_le_mono_r; lia). lia.
Qed.
Lemma digits_unique : forall m n, 0 < n -> 2 ^ (n - 1) <= m < 2 ^ n -> Zdigits2 m = n.
Proof.
  intros m n Hn H. assert (0 < 2 ^ (n - 1)) by (apply Z.pow_pos_nonneg; lia).
  apply Z.le_antisymm; [apply digits_le; lia|]. destruct m as [|p|p]; try lia. cbn [Zdigits2]. pose proof (digits_pos p) as D.
  destruct (Z.le_gt_cases n (Zpos (digits2_pos p))); [assumption|].
  assert (2 ^ Zpos (digits2_pos p) <= 2 ^ (n - 1)) by (apply Z.pow_le_mono_r; lia). lia.
Qed.

(** ** Shifting right *)
Definition exact (r : shr_record) : bool := negb (shr_r r) && negb (shr_s r).
Lemma iter_nat : forall A (f : A -> A) p x, iter_pos f p x = Nat.iter (Pos.to_nat p) f x.
Proof.
  intros A f. unfold Nat.iter.
  assert (P : forall a b x, nat_rect (fun _ => A) x (fun _ => f) (a + b) = nat_rect (fun _ => A) (nat_rect (fun _ => A) x (fun _ => f) b) (fun _ => f) a)
    by (induction a as [|a IH]; intros; cbn; [reflexivity|f_equal; apply IH]).
  assert (S : forall n x, nat_rect (fun _ => A) (f x) (fun _ => f) n = f (nat_rect (fun _ => A) x (fun _ => f) n))
    by (induction n as [|n IH]; intros; cbn; [reflexivity|f_equal; apply IH]).
  induction p as [p IH|p IH|]; intros x; cbn [iter_pos]; [| |reflexivity].
  - rewrite !IH, Pos2Nat.inj_xI, <- P. replace (2 * Pos.to_nat p)%nat with (Pos.to_nat p + Pos.to_nat p)%nat by lia. apply S.
  - rewrite !IH, Pos2Nat.inj_xO, <- P. f_equal. lia.
Qed.
Lemma shr_1_spec : forall r, 0 <= shr_m r -> shr_m (shr_1 r) = shr_m r / 2 /\ exact (shr_1 r) = exact r && Z.even (shr_m r).
Proof.
  intros [m r s] H. cbn in H. unfold exact. destruct m as [|[p|p|]|p]; try lia; cbn [shr_1 shr_m shr_r shr_s Z.even]; split.
  all: try (destruct r, s; reflexivity). all: try reflexivity.
  - rewrite (Pos2Z.inj_xI p). apply (Z.div_unique_pos _ 2 _ 1); lia.
  - rewrite (Pos2Z.inj_xO p). apply (Z.div_unique_pos _ 2 _ 0); lia.
Qed.
Lemma shr_iter : forall n r, 0 <= shr_m r ->
  let r' := Nat.iter n shr_1 r in
  shr_m r' = shr_m r / 2 ^ Z.of_nat n /\ (exact r' = true <-> exact r = true /\ (2 ^ Z.of_nat n | shr_m r)).
Proof.
  induction n as [|n IH]; intros r H.
  - cbn. rewrite Z.div_1_r. split; [reflexivity|]. intuition auto using Z.divide_1_l.
  - change (Nat.iter (S n) shr_1 r) with (shr_1 (Nat.iter n shr_1 r)). destruct (IH r H) as (M & X). cbv zeta in M, X.
    assert (P : 0 < 2 ^ Z.of_nat n) by (apply Z.pow_pos_nonneg; lia).
    assert (H' : 0 <= shr_m (Nat.iter n shr_1 r)) by (rewrite M; apply Z.div_pos; lia).
    destruct (shr_1_spec _ H') as (M1 & X1).
    rewrite Nat2Z.inj_succ, Z.pow_succ_r by lia. cbv zeta. split.
    + rewrite M1, M, Z.div_div, Z.mul_comm by lia. reflexivity.
    + rewrite X1, andb_true_iff, X, Z.even_spec, M. split.
      * intros ((E & D) & (k & K)). split; [assumption|]. destruct D as (j & D). rewrite D in K |- *. rewrite Z.div_mul in K by lia.
        exists k. rewrite K. ring.
      * intros (E & (k & K)). split; [split; [assumption|]|].
        -- exists (2 * k). rewrite K. ring.
        -- exists k. rewrite K. replace (k * (2 * 2 ^ Z.of_nat n)) with (2 * k * 2 ^ Z.of_nat n) by ring. apply Z.div_mul. lia.
Qed.
Lemma shr_spec : forall r e k, 0 <= shr_m r -> 0 <= k ->
  let r' := fst (shr r e k) in
  shr_m r' = shr_m r / 2 ^ k /\ (exact r' = true <-> exact r = true /\ (2 ^ k | shr_m r)) /\ snd (shr r e k) = e + k.
Proof.
  intros r e [|p|p] H Hk; try lia; cbn [shr fst snd].
  - cbn. rewrite Z.div_1_r. split; [reflexivity|]. split; [|lia]. intuition auto using Z.divide_1_l.
  - rewrite iter_nat. pose proof (shr_iter (Pos.to_nat p) r H) as S. rewrite positive_nat_Z in S. cbv zeta in S |- *. tauto.
Qed.
Lemma record_loc : forall m l, shr_m (shr_record_of_loc m l) = m /\ (exact (shr_record_of_loc m l) = true <-> l = loc_Exact).
Proof. intros m [|[| |]]; cbn; split; try reflexivity; split; intros H; try reflexivity; discriminate. Qed.
Lemma even_round : forall r, (exact r = true -> round_nearest_even (shr_m r) (loc_of_shr_record r) = shr_m r) /\
  shr_m r <= round_nearest_even (shr_m r) (loc_of_shr_record r) <= shr_m r + 1.
Proof. intros [m [] []]; cbn; try (destruct (Z.even m)); split; intros; try discriminate; lia. Qed.

Section Format.
  Variables prec emax : Z.
  Hypothesis (Hprec : 1 < prec) (Hemax : prec < emax).
  Let fexp := fexp prec emax.
  Let emin := emin prec emax.

  Lemma fexp_emin : forall e, emin <= fexp e.
  Proof. intros. unfold fexp, SpecFloat.fexp. fold emin. lia. Qed.
  Lemma fexp_prec : forall e, e - prec <= fexp e.
  Proof. intros. unfold fexp, SpecFloat.fexp. lia. Qed.
  Lemma fexp_or : forall e, fexp e = emin \/ fexp e = e - prec.
  Proof. intros. unfold fexp, SpecFloat.fexp. fold emin. lia. Qed.

  Lemma bounded_spec : forall m e, bounded prec emax m e = true <->
    Zpos m < 2 ^ prec /\ emin <= e <= emax - prec /\ (emin < e -> 2 ^ (prec - 1) <= Zpos m).
  Proof.
    intros m e. unfold bounded, canonical_mantissa. rewrite andb_true_iff, Z.leb_le, <- Zeq_is_eq_bool.
    pose proof (digits_pos m) as D. fold fexp. split.
    - intros (F & L). pose proof (fexp_emin (Zpos (digits2_pos m) + e)). pose proof (fexp_prec (Zpos (digits2_pos m) + e)).
      assert (2 ^ Zpos (digits2_pos m) <= 2 ^ prec) by (apply Z.pow_le_mono_r; lia). split; [lia|]. split; [lia|]. intros G.
      destruct (fexp_or (Zpos (digits2_pos m) + e)); [lia|]. replace prec with (Zpos (digits2_pos m)) by lia. apply D.
    - intros (A & (B & B') & C). split; [|assumption].
      assert (L : Zdigits2 (Zpos m) <= prec) by (apply digits_le; lia). cbn [Zdigits2] in L.
      unfold fexp, SpecFloat.fexp. fold emin. destruct (Z.eq_dec emin e) as [|N]; [lia|].
      pose proof (digits_unique (Zpos m) prec ltac:(lia) ltac:(split; [apply C; lia|assumption])) as Dg. cbn [Zdigits2] in Dg. lia.
  Qed.

  (** Within a format the order of floats is the order of their values. *)
  Lemma finite_order : forall m e n f, bounded prec emax m e = true -> bounded prec emax n f = true ->
    (dyadic (Zpos m) e <= dyadic (Zpos n) f)%Q <-> SFleb (S754_finite false m e) (S754_finite false n f) = true.
  Proof.
    assert (Strict : forall m e n f, bounded prec emax m e = true -> bounded prec emax n f = true -> e < f ->
      (dyadic (Zpos m) e < dyadic (Zpos n) f)%Q).
    { intros m e n f Bm Bn L. apply bounded_spec in Bm, Bn. destruct Bm as (A & B & C), Bn as (A' & B' & C').
      replace f with (e + (f - e)) by lia. rewrite dyadic_shift by lia. apply dyadic_lt.
      assert (2 ^ prec = 2 ^ (prec - 1) * 2) by (replace prec with (Z.succ (prec - 1)) at 1 by lia; rewrite Z.pow_succ_r by lia; ring).
      assert (2 <= 2 ^ (f - e)) by (change 2 with (2 ^ 1) at 1; apply Z.pow_le_mono_r; lia).
      specialize (C' ltac:(lia)). nia. }
    intros m e n f Bm Bn. unfold SFleb, SFcompare. destruct (Z.compare_spec e f) as [->|L|L].
    - rewrite dyadic_le. change (Pcompare m n Eq) with (m ?= n)%positive. destruct (Pos.compare_spec m n); split; intros; try reflexivity; try lia; discriminate.
    - split; [reflexivity|]. intros _. apply Qlt_le_weak, Strict; assumption.
    - split; [|discriminate]. intros H. exfalso. apply (Qlt_not_le _ _ (Strict _ _ _ _ Bn Bm L)). assumption.
  Qed.

  (** The exact result is given by the rationals not above and not below it. *)
  Definition located (below above : Q -> Prop) (m e : Z) (l : location) : Prop :=
    (forall q, below q -> match l with loc_Exact => q <= dyadic m e | _ => q < dyadic (m + 1) e end)%Q /\
    (forall q, above q -> match l with loc_Exact => dyadic m e <= q | _ => dyadic m e < q end)%Q.

  (** A float that is not negative and not NaN. *)
  Definition plus (x : spec_float) : Prop :=
    match x with S754_zero false | S754_infinity false => True | S754_finite false m e => bounded prec emax m e = true | _ => False end.
  Definition rounded (below above : Q -> Prop) (x : spec_float) : Prop :=
    plus x /\ (forall g q, plus g -> value g = Some q -> (below q -> SFleb g x = true) /\ (above q -> SFleb x g = true)).

  Lemma round_spec : forall m e l below above, 0 <= m -> e <= fexp (Zdigits2 m + e) -> located below above m e l ->
    rounded below above (binary_round_aux prec emax false m e l).
  Proof.
    intros m e l below above Hm He (Lb & La). unfold binary_round_aux, shr_fexp. fold fexp.
    set (f := fexp (Zdigits2 m + e)) in *. destruct (record_loc m l) as (Rm & Rx).
    destruct (shr (shr_record_of_loc m l) e (f - e)) as [r1 e1] eqn:S1.
    destruct (shr_spec (shr_record_of_loc m l) e (f - e) ltac:(rewrite Rm; lia) ltac:(lia)) as (M1 & X1 & E1).
    rewrite S1 in M1, X1, E1. cbn [fst snd] in M1, X1, E1. rewrite Rm in M1, X1. rewrite Rx in X1.
    replace (e + (f - e)) with f in E1 by lia. subst e1.
    set (m1 := shr_m r1) in *. set (k := f - e) in *. assert (Hk : 0 <= k) by (unfold k; lia).
    assert (P : 0 < 2 ^ k) by (apply Z.pow_pos_nonneg; lia).
    assert (Dm : m1 * 2 ^ k <= m < (m1 + 1) * 2 ^ k) by (rewrite M1; pose proof (Z.div_mod m (2 ^ k)); pose proof (Z.mod_pos_bound m (2 ^ k)); nia).
    assert (Hm1 : 0 <= m1) by (rewrite M1; apply Z.div_pos; lia).
    destruct (digits_nonneg m Hm) as (Dg0 & Dg).
    pose proof (fexp_prec (Zdigits2 m + e)) as Fp. pose proof (fexp_emin (Zdigits2 m + e)) as Fe. fold f in Fp, Fe.
    assert (U1 : m1 < 2 ^ prec).
    { assert (2 ^ Zdigits2 m <= 2 ^ (prec + k)) by (apply Z.pow_le_mono_r; unfold k; lia). rewrite Z.pow_add_r in H by lia. nia. }
    assert (N1 : emin < f -> 2 ^ (prec - 1) <= m1).
    { intros G. destruct (fexp_or (Zdigits2 m + e)) as [F|F]; fold f in F; [lia|].
      destruct m as [|p|p]; [|cbn [Zdigits2] in *|lia].
      - cbn in *. lia.
      - pose proof (digits_pos p) as D. assert (Zpos (digits2_pos p) - 1 = prec - 1 + k) by (unfold k; lia). rewrite H, Z.pow_add_r in D by lia. nia. }
    destruct (even_round r1) as (Ev & Bd). fold m1 in Ev, Bd.
    set (m2 := round_nearest_even m1 (loc_of_shr_record r1)) in *.
    assert (LowG : forall g a b, g = S754_finite false a b -> bounded prec emax a b = true -> b < f -> (dyadic (Zpos a) b < dyadic m1 f)%Q).
    { intros g a b -> B L. apply bounded_spec in B. destruct B as (B1 & B2 & _). replace f with (b + (f - b)) by lia.
      rewrite dyadic_shift by lia. apply dyadic_lt. specialize (N1 ltac:(lia)).
      assert (2 ^ prec = 2 ^ (prec - 1) * 2) by (replace prec with (Z.succ (prec - 1)) at 1 by lia; rewrite Z.pow_succ_r by lia; ring).
      assert (2 <= 2 ^ (f - b)) by (change 2 with (2 ^ 1) at 1; apply Z.pow_le_mono_r; lia). nia. }
    assert (Mf : forall a, (dyadic a f == dyadic (a * 2 ^ k) e)%Q).
    { intros a. replace f with (e + k) by (unfold k; lia). apply dyadic_shift. assumption. }
    (* the result *)
    assert (Res : exists e2, emin <= e2 /\ let '(r2, e'') := shr (shr_record_of_loc m2 loc_Exact) f (fexp (Zdigits2 m2 + f) - f) in
      e'' = e2 /\ 0 <= shr_m r2 < 2 ^ prec /\ (dyadic (shr_m r2) e2 == dyadic m2 f)%Q /\ (emin < e2 -> 2 ^ (prec - 1) <= shr_m r2)).
    { assert (m2 <= 2 ^ prec) by lia. destruct (Z.eq_dec m2 (2 ^ prec)) as [E2|N2].
      - exists (f + 1). split; [lia|]. rewrite E2.
        assert (Dg2 : Zdigits2 (2 ^ prec) = prec + 1).
        { apply digits_unique; [lia|]. replace (prec + 1 - 1) with prec by lia. split; [lia|]. apply Z.pow_lt_mono_r; lia. }
        rewrite Dg2. replace (fexp (prec + 1 + f) - f) with 1 by (unfold fexp, SpecFloat.fexp; fold emin; lia).
        destruct (shr (shr_record_of_loc (2 ^ prec) loc_Exact) f 1) as [r2 e''] eqn:S2.
        destruct (shr_spec (shr_record_of_loc (2 ^ prec) loc_Exact) f 1 ltac:(cbn [shr_record_of_loc shr_m]; lia) ltac:(lia)) as (M2 & _ & E''). rewrite S2 in M2, E''. cbn [fst snd shr_record_of_loc shr_m] in M2, E''.
        assert (Half : 2 ^ prec / 2 ^ 1 = 2 ^ (prec - 1)).
        { rewrite <- Z.pow_sub_r by lia. reflexivity. }
        rewrite Half in M2. rewrite M2. split; [assumption|].
        assert (2 ^ prec = 2 ^ (prec - 1) * 2) by (replace prec with (Z.succ (prec - 1)) at 1 by lia; rewrite Z.pow_succ_r by lia; ring).
        assert (0 < 2 ^ (prec - 1)) by (apply Z.pow_pos_nonneg; lia).
        split; [lia|]. split; [|lia]. rewrite dyadic_shift by lia. change (2 ^ 1) with 2. rewrite H0. reflexivity.
      - exists f. split; [assumption|].
        assert (D2 : Zdigits2 m2 <= prec) by (apply digits_le; lia).
        assert (Le : fexp (Zdigits2 m2 + f) - f <= 0) by (unfold fexp, SpecFloat.fexp; fold emin; lia).
        unfold shr. destruct (fexp (Zdigits2 m2 + f) - f); [| lia |]; cbn [shr_record_of_loc shr_m]; (split; [reflexivity|]); (split; [lia|]); (split; [reflexivity|]); intros G; specialize (N1 G); lia. }
    destruct Res as (e2 & He2 & Res). destruct (shr _ f _) as [r2 e''] in Res |- *. destruct Res as (-> & Rm2 & Rv & Rn).
    assert (Val : forall a b, bounded prec emax a b = true ->
      (below (dyadic (Zpos a) b) -> (dyadic (Zpos a) b <= dyadic m2 f)%Q) /\ (above (dyadic (Zpos a) b) -> (dyadic m2 f <= dyadic (Zpos a) b)%Q)).
    { intros a b B. destruct (Z.lt_ge_cases b f) as [L|L].
      - pose proof (LowG _ a b eq_refl B L) as G. assert (G2 : (dyadic m1 f <= dyadic m2 f)%Q) by (apply dyadic_le; lia). split; intros H; [lra|].
        exfalso. apply La in H. assert (G3 : (dyadic m1 f <= dyadic m e)%Q) by (rewrite Mf; apply dyadic_le; lia). destruct l; lra.
      - assert (E : (dyadic (Zpos a) b == dyadic (Zpos a * 2 ^ (b - f)) f)%Q).
        { replace b with (f + (b - f)) at 1 by lia. apply dyadic_shift. lia. }
        split; intros H.
        + rewrite E. apply dyadic_le. apply Lb in H. assert (Zpos a * 2 ^ (b - f) * 2 ^ k < (m1 + 1) * 2 ^ k); [|nia].
          destruct l; rewrite E, Mf in H; [apply dyadic_le in H; lia|apply dyadic_lt in H; lia].
        + rewrite E. apply dyadic_le. apply La in H. set (a' := Zpos a * 2 ^ (b - f)) in *. destruct (exact r1) eqn:Ex.
          * rewrite Ev by reflexivity. destruct (proj1 X1 eq_refl) as (-> & _). rewrite E, Mf in H. apply dyadic_le in H. nia.
          * assert (m1 * 2 ^ k < a' * 2 ^ k); [|nia]. destruct l as [|c]; rewrite E, Mf in H.
            -- apply dyadic_le in H. destruct (Z.eq_dec (m1 * 2 ^ k) m) as [E'|]; [|lia]. exfalso.
               assert (false = true); [|discriminate]. apply X1. split; [reflexivity|]. exists m1. symmetry. assumption.
            -- apply dyadic_lt in H. lia. }
    assert (Zero : forall q, (q == 0)%Q -> above q -> m2 = 0).
    { intros q Eq H. apply La in H. assert (Hd : (dyadic 0 e == 0)%Q) by (unfold dyadic; ring).
      assert (m = 0 /\ l = loc_Exact).
      { destruct l; rewrite Eq, <- Hd in H; [apply dyadic_le in H; split; [lia|reflexivity]|apply dyadic_lt in H; lia]. }
      destruct H0 as (-> & ->). assert (m1 = 0) by (rewrite M1; apply Z.div_0_l; lia).
      rewrite Ev; [assumption|]. apply X1. split; [reflexivity|]. apply Z.divide_0_r. }
    destruct (shr_m r2) as [|mr|mr] eqn:Er; [| |lia].
    - assert (m2 = 0).
      { assert (Hd : (dyadic m2 f == dyadic 0 f)%Q) by (rewrite <- Rv; unfold dyadic; ring). 
        apply Z.le_antisymm; apply (dyadic_le _ _ f); rewrite Hd; apply Qle_refl. }
      split; [exact I|]. intros [[]|[]| |[] a b] q Hg Hv; try discriminate; try contradiction; cbn in Hv; injection Hv as <-; (split; intros H'); try reflexivity.
      exfalso. apply (proj1 (Val a b Hg)) in H'. rewrite H in H'. assert (Z0 : (dyadic 0 f == dyadic 0 b)%Q) by (unfold dyadic; ring). rewrite Z0 in H'. apply dyadic_le in H'. lia.
    - destruct (Z.leb_spec e2 (emax - prec)) as [Le|Gt].
      + assert (B : bounded prec emax mr e2 = true) by (apply bounded_spec; lia).
        split; [exact B|]. intros [[]|[]| |[] a b] q Hg Hv; try discriminate; try contradiction; cbn in Hv; injection Hv as <-; (split; intros H'); try reflexivity.
        * exfalso. assert (m2 = 0) by (apply (Zero 0%Q); [reflexivity|assumption]). rewrite H in Rv.
          assert (Z0 : (dyadic 0 f == dyadic 0 e2)%Q) by (unfold dyadic; ring). rewrite Z0 in Rv.
          assert (Zpos mr <= 0) by (apply (dyadic_le _ _ e2); rewrite Rv; apply Qle_refl). lia.
        * apply finite_order; [exact Hg|exact B|]. rewrite Rv. apply (proj1 (Val a b Hg)). exact H'.
        * apply finite_order; [exact B|exact Hg|]. rewrite Rv. apply (proj2 (Val a b Hg)). exact H'.
      + assert (Big : forall a b, bounded prec emax a b = true -> (dyadic (Zpos a) b < dyadic m2 f)%Q).
        { intros a b B. apply bounded_spec in B. destruct B as (B1 & B2 & _). rewrite <- Rv. replace e2 with (b + (e2 - b)) by lia.
          rewrite dyadic_shift by lia. apply dyadic_lt. specialize (Rn ltac:(unfold emin, SpecFloat.emin in *; lia)).
          assert (2 ^ prec = 2 ^ (prec - 1) * 2) by (replace prec with (Z.succ (prec - 1)) at 1 by lia; rewrite Z.pow_succ_r by lia; ring).
          assert (2 <= 2 ^ (e2 - b)) by (change 2 with (2 ^ 1) at 1; apply Z.pow_le_mono_r; lia). nia. }
        split; [exact I|]. intros [[]|[]| |[] a b] q Hg Hv; try discriminate; try contradiction; cbn in Hv; injection Hv as <-; (split; intros H'); try reflexivity; exfalso.
        * assert (m2 = 0) by (apply (Zero 0%Q); [reflexivity|assumption]). rewrite H in Rv.
          assert (Z0 : (dyadic 0 f == dyadic 0 e2)%Q) by (unfold dyadic; ring). rewrite Z0 in Rv.
          assert (Zpos mr <= 0) by (apply (dyadic_le _ _ e2); rewrite Rv; apply Qle_refl). lia.
        * apply (proj2 (Val a b Hg)) in H'. apply (Qle_not_lt _ _ H'), Big. exact Hg.
  Qed.
End Format.
