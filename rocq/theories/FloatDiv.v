(** Division and subtraction of SpecFloat are monotone: roundings of rationals that are not dyadic. *)
From Coq Require Import QArith Qpower Qabs Qround Lqa ZArith List Bool Lia SpecFloat.
From Verif Require Import FilterModel FilterSpec FloatOrder FloatRound FloatOps FloatMono.
Local Open Scope Z_scope.

(** The nearest integer, ties to even. *)
Definition rne (t : Q) : Z :=
  match Qcompare (2 * (t - inject_Z (Qfloor t))) 1 with
  | Lt => Qfloor t
  | Eq => if Z.even (Qfloor t) then Qfloor t else Qfloor t + 1
  | Gt => Qfloor t + 1
  end.
Lemma rne_range : forall t, Qfloor t <= rne t <= Qfloor t + 1.
Proof. intros t. unfold rne. destruct (_ ?= _)%Q; try destruct (Z.even _); lia. Qed.
Lemma floor_between : forall t n, (inject_Z n <= t)%Q -> (t < inject_Z (n + 1))%Q -> Qfloor t = n.
Proof.
  intros t n A B. pose proof (Qfloor_resp_le _ _ A) as C. rewrite Qfloor_Z in C.
  pose proof (Qfloor_le t) as D. assert (inject_Z (Qfloor t) < inject_Z (n + 1))%Q by lra. rewrite <- Zlt_Qlt in H. lia.
Qed.
Lemma rne_mono : forall t u, (t <= u)%Q -> rne t <= rne u.
Proof.
  intros t u L. pose proof (Qfloor_resp_le _ _ L) as F. pose proof (rne_range t). pose proof (rne_range u).
  destruct (Z.eq_dec (Qfloor t) (Qfloor u)) as [E|E]; [|lia]. unfold rne. rewrite E.
  destruct (Qcompare_spec (2 * (t - inject_Z (Qfloor u))) 1) as [C|C|C]; destruct (Qcompare_spec (2 * (u - inject_Z (Qfloor u))) 1) as [D|D|D];
    try destruct (Z.even (Qfloor u)); try lia; lra.
Qed.
Lemma rne_ext : forall t u, (t == u)%Q -> rne t = rne u.
Proof. intros t u E. apply Z.le_antisymm; apply rne_mono; lra. Qed.

(** A number with whole part [m / 2^k] rounds by the remainder and what comes behind it. *)
Lemma rne_split : forall m k th, 0 <= m -> 0 <= k -> (0 <= th)%Q -> (th < 1)%Q ->
  rne ((inject_Z m + th) / inject_Z (2 ^ k)) =
  match Qcompare (2 * (inject_Z (m mod 2 ^ k) + th)) (inject_Z (2 ^ k)) with
  | Lt => m / 2 ^ k
  | Eq => if Z.even (m / 2 ^ k) then m / 2 ^ k else m / 2 ^ k + 1
  | Gt => m / 2 ^ k + 1
  end.
Proof.
  intros m k th Hm Hk H0 H1. assert (P : 0 < 2 ^ k) by (apply Z.pow_pos_nonneg; lia).
  pose proof (Z.div_mod m (2 ^ k) ltac:(lia)) as D. pose proof (Z.mod_pos_bound m (2 ^ k) P) as B.
  set (n := m / 2 ^ k) in *. set (r := m mod 2 ^ k) in *. set (K := 2 ^ k) in *.
  assert (PK : (0 < inject_Z K)%Q) by (change 0%Q with (inject_Z 0); rewrite <- Zlt_Qlt; exact P).
  assert (E : ((inject_Z m + th) / inject_Z K == inject_Z n + (inject_Z r + th) / inject_Z K)%Q).
  { rewrite D, inject_Z_plus, inject_Z_mult. field. lra. }
  assert (R0 : (0 <= (inject_Z r + th) / inject_Z K)%Q).
  { apply Qle_shift_div_l; [assumption|]. assert (0 <= inject_Z r)%Q by (change 0%Q with (inject_Z 0); rewrite <- Zle_Qle; lia). lra. }
  assert (R1 : ((inject_Z r + th) / inject_Z K < 1)%Q).
  { apply Qlt_shift_div_r; [assumption|]. assert (inject_Z (r + 1) <= inject_Z K)%Q by (rewrite <- Zle_Qle; lia).
    rewrite inject_Z_plus in H. change (inject_Z 1) with 1%Q in H. lra. }
  rewrite (rne_ext _ _ E).
  assert (F : Qfloor (inject_Z n + (inject_Z r + th) / inject_Z K) = n).
  { apply floor_between; [lra|]. rewrite inject_Z_plus. change (inject_Z 1) with 1%Q. lra. }
  unfold rne. rewrite F.
  assert (C : forall q, (0 < inject_Z K -> (2 * (inject_Z n + q / inject_Z K - inject_Z n) ?= 1) = (2 * q ?= inject_Z K))%Q).
  { intros q _. assert (Q1 : (q == q / inject_Z K * inject_Z K)%Q) by (field; lra). set (d := (q / inject_Z K)%Q) in *.
    destruct (Qcompare_spec (2 * (inject_Z n + d - inject_Z n)) 1) as [X|X|X]; symmetry.
    - apply Qeq_alt. rewrite Q1. assert (d == 1 # 2)%Q by lra. rewrite H. field.
    - apply (proj1 (Qlt_alt _ _)). rewrite Q1. assert (2 * d < 1)%Q by lra. setoid_replace (2 * (d * inject_Z K))%Q with (2 * d * inject_Z K)%Q by ring.
      rewrite <- (Qmult_1_l (inject_Z K)) at 2. apply Qmult_lt_r; assumption.
    - apply (proj1 (Qgt_alt _ _)). rewrite Q1. assert (1 < 2 * d)%Q by lra. setoid_replace (2 * (d * inject_Z K))%Q with (2 * d * inject_Z K)%Q by ring.
      rewrite <- (Qmult_1_l (inject_Z K)) at 1. apply Qmult_lt_r; assumption. }
  rewrite C by assumption. reflexivity.
Qed.
(** Only where the rest lies counts: nothing, below a half, a half, above. *)
Definition class (th : Q) : location :=
  if Qeq_bool th 0 then loc_Exact else loc_Inexact (Qcompare (2 * th) 1).
Lemma rne_class : forall m k th th', 0 <= m -> 0 <= k -> (0 <= th < 1)%Q -> (0 <= th' < 1)%Q -> class th = class th' ->
  rne ((inject_Z m + th) / inject_Z (2 ^ k)) = rne ((inject_Z m + th') / inject_Z (2 ^ k)).
Proof.
  intros m k th th' Hm Hk [A B] [A' B'] C. rewrite !rne_split by assumption.
  assert (E : (2 * (inject_Z (m mod 2 ^ k) + th) ?= inject_Z (2 ^ k))%Q = (2 * (inject_Z (m mod 2 ^ k) + th') ?= inject_Z (2 ^ k))%Q); [|rewrite E; reflexivity].
  unfold class in C. destruct (Qeq_bool th 0) eqn:Z1; destruct (Qeq_bool th' 0) eqn:Z2; try discriminate.
  - apply Qeq_bool_iff in Z1. apply Qeq_bool_iff in Z2. rewrite Z1, Z2. reflexivity.
  - apply Qeq_bool_neq in Z1. apply Qeq_bool_neq in Z2. assert (P1 : (0 < th)%Q) by (destruct (Qlt_le_dec 0 th); [assumption|exfalso; apply Z1; lra]).
    assert (P2 : (0 < th')%Q) by (destruct (Qlt_le_dec 0 th'); [assumption|exfalso; apply Z2; lra]).
    destruct (Z.eq_dec k 0) as [->|K0].
    + rewrite Z.mod_1_r. change (inject_Z (2 ^ 0)) with 1%Q. change (inject_Z 0) with 0%Q. injection C as C.
      transitivity (2 * th ?= 1)%Q; [apply Qcompare_comp; [ring|reflexivity]|]. rewrite C. apply Qcompare_comp; [ring|reflexivity].
    + replace k with (Z.succ (k - 1)) by lia. rewrite Z.pow_succ_r by lia. generalize (2 ^ (k - 1)). intros h. generalize (m mod (2 * h)). intros r.
      rewrite inject_Z_mult. change (inject_Z 2) with 2%Q.
      assert (G : forall t, (0 < t < 1 -> (2 * (inject_Z r + t) ?= 2 * inject_Z h) = if (r <? h)%Z then Lt else Gt)%Q).
      { intros t [T1 T2]. destruct (Z.ltb_spec r h) as [L|L].
        - apply (proj1 (Qlt_alt _ _)). assert (inject_Z (r + 1) <= inject_Z h)%Q by (rewrite <- Zle_Qle; lia). rewrite inject_Z_plus in H. change (inject_Z 1) with 1%Q in H. lra.
        - apply (proj1 (Qgt_alt _ _)). assert (inject_Z h <= inject_Z r)%Q by (rewrite <- Zle_Qle; lia). lra. }
      rewrite (G th), (G th') by (split; assumption). reflexivity.
Qed.

(** Two more digits for the rest. *)
Definition quarter (l : location) : Z :=
  match l with loc_Exact => 0 | loc_Inexact Lt => 1 | loc_Inexact Eq => 2 | loc_Inexact Gt => 3 end.
Lemma quarter_range : forall l, 0 <= quarter l <= 3.
Proof. intros [|[]]; cbn; lia. Qed.
Lemma quarter_class : forall l, (0 <= inject_Z (quarter l) / 4 < 1)%Q /\ class (inject_Z (quarter l) / 4) = l.
Proof. intros [|[]]; (split; [split; [discriminate|reflexivity]|reflexivity]). Qed.
Lemma quarter_shr : forall m l, 0 <= m ->
  shr_1 (shr_1 {| shr_m := 4 * m + quarter l; shr_r := false; shr_s := false |}) = shr_record_of_loc m l.
Proof. intros [|p|p] [|[]] H; try lia; reflexivity. Qed.
Lemma iter_two : forall A (f : A -> A) p x, iter_pos f (p + 2) x = iter_pos f p (f (f x)).
Proof.
  intros. rewrite !iter_nat, Pos2Nat.inj_add. change (Pos.to_nat 2) with 2%nat. rewrite Nat.add_comm.
  replace (f (f x)) with (Nat.iter 2 f x) by reflexivity. generalize (Pos.to_nat p). intros n.
  induction n as [|n IH]; [reflexivity|]. rewrite Nat.add_succ_r. cbn [Nat.iter nat_rect] in *. unfold Nat.iter in *. cbn [nat_rect] in *. rewrite IH. reflexivity.
Qed.

Section Format.
  Variables prec emax : Z.
  Hypothesis (Hprec : 1 < prec) (Hemax : prec < emax).
  Local Notation fexp := (fexp prec emax).
  Local Notation emin := (emin prec emax).
  Local Notation plus := (plus prec emax).
  Local Notation valid := (valid_binary prec emax).
  Local Notation finish := (finish prec emax).

  Lemma quarter_fexp : forall m e l, 0 <= m -> 0 < m \/ e <= emin -> fexp (Zdigits2 (4 * m + quarter l) + (e - 2)) = fexp (Zdigits2 m + e).
  Proof.
    intros m e l Hm [H|H].
    - f_equal. destruct m as [|p|p]; try lia. pose proof (quarter_range l) as Q. pose proof (digits_pos p) as D. cbn [Zdigits2] in *.
      rewrite (digits_unique (4 * Zpos p + quarter l) (Zpos (digits2_pos p) + 2)); [lia|lia|].
      rewrite Z.pow_add_r by lia. replace (Zpos (digits2_pos p) + 2 - 1) with (Zpos (digits2_pos p) - 1 + 2) by lia. rewrite Z.pow_add_r by lia.
      change (2 ^ 2) with 4. lia.
    - destruct (Z.eq_dec m 0) as [->|N].
      + assert (forall x, x <= e -> fexp x = emin) by (intros; unfold SpecFloat.fexp; lia). cbn [Zdigits2]. rewrite !H0; try lia.
        pose proof (quarter_range l). assert (Zdigits2 (4 * 0 + quarter l) <= 2); [|lia]. apply digits_le; lia.
      + f_equal. destruct m as [|p|p]; try lia. pose proof (quarter_range l) as Q. pose proof (digits_pos p) as D. cbn [Zdigits2] in *.
        rewrite (digits_unique (4 * Zpos p + quarter l) (Zpos (digits2_pos p) + 2)); [lia|lia|].
        rewrite Z.pow_add_r by lia. replace (Zpos (digits2_pos p) + 2 - 1) with (Zpos (digits2_pos p) - 1 + 2) by lia. rewrite Z.pow_add_r by lia.
        change (2 ^ 2) with 4. lia.
  Qed.
  Lemma aux_quarter : forall s m e l, 0 <= m -> 0 < m \/ e <= emin -> e <= fexp (Zdigits2 m + e) ->
    binary_round_aux prec emax s m e l = binary_round_aux prec emax s (4 * m + quarter l) (e - 2) loc_Exact.
  Proof.
    intros s m e l Hm H He. unfold binary_round_aux.
    assert (E : shr_fexp prec emax (4 * m + quarter l) (e - 2) loc_Exact = shr_fexp prec emax m e l); [|rewrite E; reflexivity].
    unfold shr_fexp. rewrite quarter_fexp by assumption. set (f := fexp (Zdigits2 m + e)) in *.
    rewrite <- (quarter_shr m l Hm). set (r := {| shr_m := 4 * m + quarter l; shr_r := false; shr_s := false |}).
    change (shr_record_of_loc (4 * m + quarter l) loc_Exact) with r.
    replace (f - (e - 2)) with (f - e + 2) by lia. destruct (f - e) as [|p|p] eqn:K; try lia.
    - change (0 + 2) with 2. cbn [shr iter_pos]. f_equal; lia.
    - change (Zpos p + 2) with (Zpos (p + 2)). unfold shr. rewrite iter_two. f_equal. lia.
  Qed.
  (** [v] lies in the [m]th interval of size [2^e], at [l]. *)
  Definition within (v : Q) (m e : Z) (l : location) : Prop :=
    exists th, (0 <= th < 1)%Q /\ class th = l /\ (v == (inject_Z m + th) * 2 ^ e)%Q.
  Lemma near_rne : forall m k, 0 <= m -> 0 <= k -> near_even (m / 2 ^ k) (m mod 2 ^ k) k = rne (inject_Z m / inject_Z (2 ^ k)).
  Proof.
    intros m k Hm Hk. rewrite (rne_ext _ ((inject_Z m + 0) / inject_Z (2 ^ k))) by (apply Qmult_comp; [ring|reflexivity]).
    rewrite rne_split by (try lia; lra). unfold near_even, loc_of.
    assert (C : (2 * (inject_Z (m mod 2 ^ k) + 0) ?= inject_Z (2 ^ k))%Q = (2 * (m mod 2 ^ k) ?= 2 ^ k)).
    { transitivity (inject_Z (2 * (m mod 2 ^ k)) ?= inject_Z (2 ^ k))%Q.
      - apply Qcompare_comp; [rewrite inject_Z_mult; change (inject_Z 2) with 2%Q; ring|reflexivity].
      - unfold Qcompare, inject_Z. cbn [Qnum Qden]. rewrite !Z.mul_1_r. reflexivity. }
    rewrite C. destruct (Z.eqb_spec (m mod 2 ^ k) 0) as [E|E]; cbn [round_nearest_even].
    - rewrite E. assert (0 < 2 ^ k) by (apply Z.pow_pos_nonneg; lia). destruct (Z.compare_spec (2 * 0) (2 ^ k)); try lia.
    - destruct (2 * (m mod 2 ^ k) ?= 2 ^ k); reflexivity.
  Qed.
  Lemma pow_neg : forall k, 0 <= k -> (2 ^ (- k) == / inject_Z (2 ^ k))%Q.
  Proof. intros k H. rewrite Qpower_opp, pow_Z by assumption. reflexivity. Qed.

  (** The positive part of [x] is the rounding of [v]. *)
  Definition rounds (v : Q) (x : spec_float) : Prop :=
    exists f, emin <= f /\ (0 <= v)%Q /\ (v < dyadic (2 ^ prec) f)%Q /\ (emin < f -> (dyadic (2 ^ (prec - 1)) f <= v)%Q) /\
      x = finish (rne (v * 2 ^ (- f))) f.
  Lemma aux_rounds : forall v m e l, 0 <= m -> 0 < m \/ e <= emin -> e <= fexp (Zdigits2 m + e) -> within v m e l ->
    rounds v (binary_round_aux prec emax false m e l).
  Proof.
    intros v m e l Hm H He (th & T & Cl & V). set (f := fexp (Zdigits2 m + e)) in *.
    pose proof (quarter_range l) as Qr. destruct (quarter_class l) as [Qc Ql].
    exists f. assert (Fe : emin <= f) by apply fexp_emin. split; [exact Fe|].
    assert (M0 : (0 <= inject_Z m)%Q) by (change 0%Q with (inject_Z 0); rewrite <- Zle_Qle; exact Hm).
    assert (P : (0 < 2 ^ e)%Q) by apply pow_pos.
    destruct (digits_nonneg m Hm) as (Dg0 & Dg). pose proof (fexp_prec prec emax (Zdigits2 m + e)) as Fp. fold f in Fp.
    split; [rewrite V; apply Qmult_le_0_compat; lra|].
    assert (U : (v < dyadic (m + 1) e)%Q).
    { rewrite V. unfold dyadic. apply Qmult_lt_r; [assumption|]. rewrite inject_Z_plus. change (inject_Z 1) with 1%Q. lra. }
    assert (Lo : (dyadic m e <= v)%Q).
    { rewrite V. unfold dyadic. apply Qmult_le_r; [assumption|]. lra. }
    split; [|split].
    - eapply Qlt_le_trans; [exact U|]. replace f with (e + (f - e)) by lia. rewrite dyadic_shift by lia. apply dyadic_le.
      rewrite <- Z.pow_add_r by lia. assert (2 ^ Zdigits2 m <= 2 ^ (prec + (f - e))) by (apply Z.pow_le_mono_r; lia). lia.
    - intros G. destruct (fexp_or prec emax (Zdigits2 m + e)) as [F|F]; fold f in F; [lia|].
      eapply Qle_trans; [|exact Lo]. replace f with (e + (f - e)) by lia. rewrite dyadic_shift by lia. apply dyadic_le.
      destruct m as [|p|p]; [|cbn [Zdigits2] in *|lia].
      + cbn [Zdigits2] in *. lia.
      + pose proof (digits_pos p) as D. rewrite <- Z.pow_add_r by lia. replace (prec - 1 + (f - e)) with (Zpos (digits2_pos p) - 1) by lia. lia.
    - rewrite aux_quarter by assumption. rewrite aux_finish; [|lia|rewrite quarter_fexp by assumption; fold f; lia].
      unfold whole, left_. rewrite quarter_fexp by assumption. fold f. rewrite near_rne by lia. f_equal.
      replace (f - (e - 2)) with (f - e + 2) by lia. rewrite Z.pow_add_r by lia. change (2 ^ 2) with 4.
      transitivity (rne ((inject_Z m + inject_Z (quarter l) / 4) / inject_Z (2 ^ (f - e)))).
      + apply rne_ext. rewrite inject_Z_plus, !inject_Z_mult. change (inject_Z 4) with 4%Q.
        assert (0 < inject_Z (2 ^ (f - e)))%Q by (rewrite <- pow_Z by lia; apply pow_pos). field. lra.
      + rewrite (rne_class m (f - e) _ th) by (try lia; try assumption; congruence).
        apply rne_ext. rewrite V. unfold Qdiv. rewrite <- pow_neg by lia. replace (- (f - e)) with (e + - f) by lia. rewrite pow_split. ring.
  Qed.
  Lemma rounds_mono : forall v w x y, rounds v x -> rounds w y -> (v <= w)%Q -> plus x /\ SFleb x y = true.
  Proof.
    assert (Sh : forall v f, emin <= f -> (0 <= v)%Q -> (v < dyadic (2 ^ prec) f)%Q -> (emin < f -> (dyadic (2 ^ (prec - 1)) f <= v)%Q) ->
      shaped prec emax (rne (v * 2 ^ (- f))) f).
    { intros v f F V U L. pose proof (rne_range (v * 2 ^ (- f))) as R. set (t := (v * 2 ^ (- f))%Q) in *.
      assert (Inv : (2 ^ f * 2 ^ (- f) == 1)%Q) by (rewrite <- pow_split, Z.add_opp_diag_r; reflexivity).
      pose proof (pow_pos (- f)) as Pf.
      assert (T0 : (0 <= t)%Q) by (unfold t; apply Qmult_le_0_compat; lra).
      assert (T1 : (t < inject_Z (2 ^ prec))%Q).
      { setoid_replace (inject_Z (2 ^ prec)) with (dyadic (2 ^ prec) f * 2 ^ (- f))%Q by (unfold dyadic; rewrite <- Qmult_assoc, Inv; ring).
        unfold t. apply Qmult_lt_r; assumption. }
      pose proof (Qfloor_resp_le _ _ T0) as A. change (Qfloor 0) with 0 in A.
      assert (B : Qfloor t < 2 ^ prec) by (pose proof (Qfloor_le t); rewrite Zlt_Qlt; lra).
      split; [lia|]. split; [assumption|]. intros G. specialize (L G).
      assert (T2 : (inject_Z (2 ^ (prec - 1)) <= t)%Q).
      { setoid_replace (inject_Z (2 ^ (prec - 1))) with (dyadic (2 ^ (prec - 1)) f * 2 ^ (- f))%Q by (unfold dyadic; rewrite <- Qmult_assoc, Inv; ring).
        unfold t. apply Qmult_le_r; assumption. }
      apply Qfloor_resp_le in T2. rewrite Qfloor_Z in T2. lia. }
    intros v w x y (f & F & V & U & L & ->) (g & G & W & U' & L' & ->) Le.
    pose proof (Sh v f F V U L) as S1. pose proof (Sh w g G W U' L') as S2.
    apply finish_mono; try assumption. destruct S1 as (A1 & A2 & A3), S2 as (B1 & B2 & B3).
    pose proof (pow_half prec Hprec) as Ph. assert (P1 : 0 < 2 ^ (prec - 1)) by (apply Z.pow_pos_nonneg; lia).
    destruct (Z.lt_trichotomy f g) as [Lt|[->|Gt]].
    - specialize (B3 ltac:(lia)). replace g with (f + (g - f)) by lia. rewrite dyadic_shift by lia. apply dyadic_le.
      assert (2 <= 2 ^ (g - f)) by (change 2 with (2 ^ 1) at 1; apply Z.pow_le_mono_r; lia).
      replace (f + (g - f)) with g by lia. nia.
    - apply dyadic_le. apply rne_mono. apply Qmult_le_compat_r; [assumption|]. apply Qlt_le_weak, pow_pos.
    - exfalso. specialize (L ltac:(lia)).
      assert (C2 : (dyadic (2 ^ prec) g <= dyadic (2 ^ (prec - 1)) f)%Q).
      { replace f with (g + (f - g)) by lia. rewrite dyadic_shift by lia. apply dyadic_le. rewrite Ph.
        assert (2 <= 2 ^ (f - g)) by (change 2 with (2 ^ 1) at 1; apply Z.pow_le_mono_r; lia). nia. }
      lra.
  Qed.

  (** ** Division *)
  Lemma new_location_class : forall n k, 0 < n -> 0 <= k < n -> class (inject_Z k / inject_Z n) = new_location n k.
  Proof.
    intros n k Hn Hk. assert (Pn : (0 < inject_Z n)%Q) by (change 0%Q with (inject_Z 0); rewrite <- Zlt_Qlt; exact Hn).
    unfold class, new_location, new_location_even, new_location_odd.
    destruct (Zeq_bool k 0) eqn:K.
    - apply Zeq_bool_eq in K. subst k. change (inject_Z 0) with 0%Q.
      assert (Z0 : Qeq_bool (0 / inject_Z n) 0 = true) by (apply Qeq_bool_iff; field; lra). rewrite Z0. destruct (Z.even n); reflexivity.
    - pose proof K as Kb. apply Zeq_bool_neq in K.
      assert (Z0 : Qeq_bool (inject_Z k / inject_Z n) 0 = false).
      { destruct (Qeq_bool (inject_Z k / inject_Z n) 0) eqn:E; [|reflexivity]. apply Qeq_bool_iff in E. exfalso.
        assert (inject_Z k == 0)%Q. { setoid_replace (inject_Z k) with (inject_Z k / inject_Z n * inject_Z n)%Q by (field; lra). rewrite E. ring. }
        unfold Qeq in H. cbn in H. lia. }
      rewrite Z0. assert (C : (2 * (inject_Z k / inject_Z n) ?= 1)%Q = (2 * k ?= n)).
      { assert (E : (2 * (inject_Z k / inject_Z n) * inject_Z n == inject_Z (2 * k))%Q) by (rewrite inject_Z_mult; change (inject_Z 2) with 2%Q; field; lra).
        set (d := (2 * (inject_Z k / inject_Z n))%Q) in *. destruct (Z.compare_spec (2 * k) n) as [X|X|X].
        - apply (proj1 (Qeq_alt _ _)). rewrite X in E. apply (Qmult_inj_r _ _ (inject_Z n)); [lra|]. lra.
        - apply (proj1 (Qlt_alt _ _)). apply (Qmult_lt_r _ _ (inject_Z n)); [assumption|]. rewrite E, Qmult_1_l, <- Zlt_Qlt. exact X.
        - apply (proj1 (Qgt_alt _ _)). apply (Qmult_lt_r _ _ (inject_Z n)); [assumption|]. rewrite E, Qmult_1_l, <- Zlt_Qlt. exact X. }
      rewrite C. rewrite ?Kb. destruct (Z.even n) eqn:Ev; rewrite ?Kb; [reflexivity|]. f_equal.
      assert (Od : exists h, n = 2 * h + 1) by (apply Zodd_ex; rewrite <- Zodd_bool_iff; rewrite <- Z.negb_even, Ev; reflexivity).
      destruct Od as [h ->]. destruct (Z.compare_spec (2 * k) (2 * h + 1)); destruct (Z.compare_spec (2 * k + 1) (2 * h + 1)); try lia; reflexivity.
  Qed.
  Lemma div_rounds : forall m e n f, bounded prec emax m e = true -> bounded prec emax n f = true ->
    rounds (dyadic (Zpos m) e / dyadic (Zpos n) f) (SFdiv prec emax (S754_finite false m e) (S754_finite false n f)).
  Proof.
    intros m e n f Bm Bn. cbn [SFdiv xorb]. unfold SFdiv_core_binary.
    set (dl := Zdigits2 (Zpos m) + e - (Zdigits2 (Zpos n) + f)). set (e' := Z.min (fexp dl) (e - f)). set (s := e - f - e').
    assert (Hs : 0 <= s) by (unfold s, e'; lia).
    assert (Em : match s with 0 => Zpos m | Zpos _ => Z.shiftl (Zpos m) s | Zneg _ => 0 end = Zpos m * 2 ^ s).
    { clearbody s. destruct s as [|p|p]; try lia. rewrite Z.shiftl_mul_pow2 by lia. reflexivity. }
    rewrite Em. pose proof (Z_div_mod (Zpos m * 2 ^ s) (Zpos n) ltac:(lia)) as DM.
    destruct (Z.div_eucl (Zpos m * 2 ^ s) (Zpos n)) as [q r]. destruct DM as [DM Hr].
    assert (P : 0 < 2 ^ s) by (apply Z.pow_pos_nonneg; lia). assert (Hq : 0 <= q) by nia.
    pose proof (digits_pos m) as Dm. pose proof (digits_pos n) as Dn. cbn [Zdigits2] in dl.
    set (a := Zpos (digits2_pos m)) in *. set (b := Zpos (digits2_pos n)) in *.
    assert (Cases : (0 < q /\ dl <= Zdigits2 q + e') \/ (q = 0 /\ e' <= emin)).
    { destruct (Z.eq_dec q 0) as [Z0|Z0].
      - right. split; [assumption|]. subst q. assert (Lt : Zpos m * 2 ^ s < Zpos n) by lia.
        assert (a - 1 + s < b).
        { apply (Z.pow_lt_mono_r_iff 2); try (unfold a, b; lia). rewrite Z.pow_add_r by (unfold a; lia). nia. }
        destruct (fexp_or prec emax dl) as [F|F]; unfold e' in *; [lia|]. exfalso. unfold s, e', dl in *. lia.
      - left. split; [lia|]. destruct q as [|p|p]; try lia. pose proof (digits_pos p) as Dq. cbn [Zdigits2].
        assert (a - 1 + s < b + Zpos (digits2_pos p)).
        { apply (Z.pow_lt_mono_r_iff 2); try (unfold a, b; lia). rewrite !Z.pow_add_r by (unfold a, b; lia).
          assert (0 < 2 ^ b) by (apply Z.pow_pos_nonneg; unfold b; lia). nia. }
        unfold s, dl in *. lia. }
    apply aux_rounds; [assumption| | |].
    - destruct Cases as [[C _]|[_ C]]; [left|right]; assumption.
    - destruct Cases as [[_ C]|[-> C]].
      + assert (fexp dl <= fexp (Zdigits2 q + e')) by (unfold SpecFloat.fexp; lia). unfold e' in *. lia.
      + pose proof (fexp_emin prec emax (Zdigits2 0 + e')). lia.
    - exists (inject_Z r / inject_Z (Zpos n))%Q. assert (Pn : (0 < inject_Z (Zpos n))%Q) by reflexivity.
      split; [split|split].
      + apply Qle_shift_div_l; [assumption|]. rewrite Qmult_0_l. change 0%Q with (inject_Z 0). rewrite <- Zle_Qle. lia.
      + apply Qlt_shift_div_r; [assumption|]. rewrite Qmult_1_l, <- Zlt_Qlt. lia.
      + apply new_location_class; lia.
      + assert (Q1 : (inject_Z q + inject_Z r / inject_Z (Zpos n) == inject_Z (Zpos m * 2 ^ s) / inject_Z (Zpos n))%Q).
        { rewrite DM, inject_Z_plus, inject_Z_mult. field. lra. }
        rewrite Q1, inject_Z_mult, <- pow_Z by assumption. unfold dyadic.
        replace e with (f + e' + s) at 1 by (unfold s; lia). rewrite !pow_split. pose proof (pow_pos f). field. split; lra.
  Qed.
  Lemma div_sign : forall s m e n f, SFdiv prec emax (S754_finite s m e) (S754_finite false n f) =
    if s then SFopp (SFdiv prec emax (S754_finite false m e) (S754_finite false n f)) else SFdiv prec emax (S754_finite false m e) (S754_finite false n f).
  Proof.
    intros s m e n f. cbn [SFdiv]. rewrite !xorb_false_r. destruct (SFdiv_core_binary prec emax (Zpos m) e (Zpos n) f) as [[q e'] l].
    destruct s; [|reflexivity]. unfold binary_round_aux. destruct (shr_fexp prec emax q e' l) as [r g].
    destruct (shr_fexp prec emax (round_nearest_even (shr_m r) (loc_of_shr_record r)) g loc_Exact) as [r' g'].
    destruct (shr_m r'); try reflexivity. destruct (g' <=? emax - prec); reflexivity.
  Qed.
  Lemma div_mono : forall x y d u v, valid x = true -> valid y = true -> valid d = true -> value x = Some u -> value y = Some v ->
    SFltb (S754_zero false) d = true -> (exists w, value d = Some w) -> (u <= v)%Q ->
    SFleb (SFdiv prec emax x d) (SFdiv prec emax y d) = true.
  Proof.
    intros x y d u v Vx Vy Vd Ex Ey Pd [w Ed] L. destruct d as [[]|[]| |[] n f]; try discriminate. clear Pd w Ed. cbn [valid_binary] in Vd.
    pose proof (dyadic_pos n f) as Pn.
    assert (Pl : forall m e, bounded prec emax m e = true -> plus (SFdiv prec emax (S754_finite false m e) (S754_finite false n f))).
    { intros m e B. pose proof (div_rounds m e n f B Vd) as R. apply (rounds_mono _ _ _ _ R R (Qle_refl _)). }
    assert (Mo : forall m e m' e', bounded prec emax m e = true -> bounded prec emax m' e' = true -> (dyadic (Zpos m) e <= dyadic (Zpos m') e')%Q ->
      SFleb (SFdiv prec emax (S754_finite false m e) (S754_finite false n f)) (SFdiv prec emax (S754_finite false m' e') (S754_finite false n f)) = true).
    { intros m e m' e' B B' Le. apply (rounds_mono _ _ _ _ (div_rounds m e n f B Vd) (div_rounds m' e' n f B' Vd)).
      unfold Qdiv. apply Qmult_le_compat_r; [assumption|]. apply Qlt_le_weak, Qinv_lt_0_compat. assumption. }
    destruct x as [s|s| |s m e]; try discriminate; destruct y as [t|t| |t m' e']; try discriminate; cbn in Ex, Ey; injection Ex as <-; injection Ey as <-; cbn [valid_binary] in Vx, Vy.
    - reflexivity.
    - rewrite div_sign. cbn [SFdiv]. pose proof (dyadic_pos m' e') as P. unfold dyadic in P. destruct t; cbn [cond_Zopp] in L.
      + change (Zneg m') with (- Zpos m') in L. rewrite inject_Z_opp in L. lra.
      + apply (plus_zero_leb prec emax). apply Pl. assumption.
    - rewrite div_sign. cbn [SFdiv]. pose proof (dyadic_pos m e) as P. unfold dyadic in P. destruct s; cbn [cond_Zopp] in L.
      + apply (plus_zero_leb prec emax). apply Pl. assumption.
      + lra.
    - rewrite (div_sign s m e), (div_sign t m' e'). pose proof (dyadic_pos m e) as P. pose proof (dyadic_pos m' e') as P'. unfold dyadic in P, P'.
      destruct s, t; cbn [cond_Zopp] in L; try (change (Zneg m) with (- Zpos m) in L; rewrite inject_Z_opp in L);
        try (change (Zneg m') with (- Zpos m') in L; rewrite inject_Z_opp in L).
      + apply plus_leb_neg with (prec := prec) (emax := emax); try (apply Pl; assumption). apply Mo; try assumption. unfold dyadic. lra.
      + apply (plus_signs prec emax); apply Pl; assumption.
      + lra.
      + apply Mo; try assumption.
  Qed.
  Lemma div_valid : forall x d u, valid x = true -> valid d = true -> value x = Some u ->
    SFltb (S754_zero false) d = true -> (exists w, value d = Some w) -> valid (SFdiv prec emax x d) = true.
  Proof.
    intros x d u Vx Vd Ex Pd [w Ed]. destruct d as [[]|[]| |[] n f]; try discriminate. clear Pd w Ed. cbn [valid_binary] in Vd.
    destruct x as [s|s| |s m e]; try discriminate; [reflexivity|]. rewrite div_sign. cbn [valid_binary] in Vx.
    pose proof (div_rounds m e n f Vx Vd) as R. apply (rounds_mono _ _ _ _ R) in R; [|apply Qle_refl]. destruct R as [R _].
    destruct (SFdiv prec emax (S754_finite false m e) (S754_finite false n f)) as [[]|[]| |[] a b]; try contradiction; destruct s; try reflexivity; exact R.
  Qed.

  (** ** Subtraction *)
  Lemma sub_rnd : forall x y v w, valid x = true -> valid y = true -> value x = Some v -> value y = Some w ->
    is_rnd prec emax (v - w) (SFsub prec emax x y).
  Proof.
    assert (Neg : forall s m e, (inject_Z (cond_Zopp (negb s) (Zpos m)) * 2 ^ e == - (inject_Z (cond_Zopp s (Zpos m)) * 2 ^ e))%Q).
    { intros [] m e; cbn [negb cond_Zopp]; rewrite inject_Z_opp; ring. }
    intros [s|s| |s m e] [t|t| |t n f] v w Vx Vy Ex Ey; try discriminate; cbn [SFsub].
    - cbn in Ex, Ey. injection Ex as <-. injection Ey as <-. left. split; [ring|]. destruct (Bool.eqb s (negb t)); eexists; reflexivity.
    - cbn in Ex, Ey. injection Ex as <-. injection Ey as <-. eapply is_rnd_ext; [|apply self_rnd; [exact Vy|reflexivity]].
      rewrite Neg. ring.
    - cbn in Ey. injection Ey as <-. apply is_rnd_ext with v; [ring|]. apply self_rnd; assumption.
    - cbn in Ex, Ey. injection Ex as <-. injection Ey as <-.
      eapply is_rnd_ext; [|apply normalize_rnd; assumption].
      pose proof (shl_align_dyadic m e (Z.min e f)) as D. destruct (shl_align_spec m e (Z.min e f)) as (S & _). rewrite S in D.
      replace (Z.min e (Z.min e f)) with (Z.min e f) in D by lia.
      pose proof (shl_align_dyadic n f (Z.min e f)) as D'. destruct (shl_align_spec n f (Z.min e f)) as (S' & _). rewrite S' in D'.
      replace (Z.min f (Z.min e f)) with (Z.min e f) in D' by lia.
      assert (Sum : forall a b g, (dyadic (a - b) g == dyadic a g - dyadic b g)%Q).
      { intros. unfold dyadic, Z.sub. rewrite inject_Z_plus, inject_Z_opp. ring. }
      rewrite Sum. change (inject_Z (cond_Zopp s (Zpos m)) * 2 ^ e)%Q with (dyadic (cond_Zopp s (Zpos m)) e).
      change (inject_Z (cond_Zopp t (Zpos n)) * 2 ^ f)%Q with (dyadic (cond_Zopp t (Zpos n)) f).
      assert (Opp : forall b p q g h, (dyadic (Zpos p) g == dyadic (Zpos q) h)%Q -> (dyadic (cond_Zopp b (Zpos p)) g == dyadic (cond_Zopp b (Zpos q)) h)%Q).
      { intros [] p q g h E; cbn [cond_Zopp]; [|exact E]. change (Zneg p) with (- Zpos p). change (Zneg q) with (- Zpos q). rewrite !dyadic_opp, E. reflexivity. }
      rewrite (Opp s _ _ _ _ D), (Opp t _ _ _ _ D'). reflexivity.
  Qed.
End Format.

(** Truncation is monotone. *)
Lemma trunc_floor : forall x v z, value x = Some v -> trunc_fl x = Some z -> z = if Qle_bool 0 v then Qfloor v else - Qfloor (- v).
Proof.
  assert (T : forall m e z, trunc_fl (S754_finite false m e) = Some z -> z = Qfloor (dyadic (Zpos m) e)).
  { intros m e z H. cbn [trunc_fl] in H. destruct (Z.leb_spec 0 e) as [L|L].
    - assert (E : z = Zpos m * 2 ^ e) by congruence. rewrite E. symmetry. rewrite <- (Qfloor_Z (Zpos m * 2 ^ e)). apply Qfloor_comp. unfold dyadic. rewrite inject_Z_mult, <- pow_Z by assumption. reflexivity.
    - assert (E : z = Zpos m / 2 ^ (- e)) by congruence. rewrite E. symmetry. clear E H. assert (P : 0 < 2 ^ (- e)) by (apply Z.pow_pos_nonneg; lia).
      rewrite (Qfloor_comp _ (inject_Z (Zpos m) / inject_Z (2 ^ (- e)))).
      + destruct (2 ^ (- e)) as [|p|p] eqn:E; try lia. rewrite <- Qmake_Qdiv. reflexivity.
      + unfold dyadic, Qdiv. apply Qmult_comp; [reflexivity|]. rewrite <- pow_Z by lia. rewrite <- Qpower_opp, Z.opp_involutive. reflexivity. }
  intros [s|s| |s m e] v z Ev Ez; try discriminate; cbn in Ev; injection Ev as <-.
  - cbn in Ez. injection Ez as <-. reflexivity.
  - pose proof (dyadic_pos m e) as P. unfold dyadic in P. destruct s.
    + assert (E : exists a, trunc_fl (S754_finite false m e) = Some a /\ z = - a) by (cbn [trunc_fl] in *; eexists; split; [reflexivity|congruence]).
      destruct E as (a & Ea & ->). apply T in Ea. cbn [cond_Zopp]. change (- Z.pos m) with (Z.neg m). change (Zneg m) with (- Zpos m).
      assert (N : (inject_Z (- Zpos m) * 2 ^ e == - (inject_Z (Zpos m) * 2 ^ e))%Q) by (rewrite inject_Z_opp; ring).
      destruct (Qle_bool 0 (inject_Z (- Zpos m) * 2 ^ e)) eqn:B; [apply Qle_bool_iff in B; lra|].
      rewrite Ea. f_equal. apply Qfloor_comp. rewrite N. unfold dyadic. ring.
    + apply T in Ez. cbn [cond_Zopp]. destruct (Qle_bool 0 (inject_Z (Zpos m) * 2 ^ e)) eqn:B; [exact Ez|].
      exfalso. assert (Qle_bool 0 (inject_Z (Zpos m) * 2 ^ e) = true) by (apply Qle_bool_iff; lra). congruence.
Qed.
Lemma trunc_mono : forall x y u v a b, value x = Some u -> value y = Some v -> trunc_fl x = Some a -> trunc_fl y = Some b -> (u <= v)%Q -> a <= b.
Proof.
  intros x y u v a b Ex Ey Ta Tb L. rewrite (trunc_floor _ _ _ Ex Ta), (trunc_floor _ _ _ Ey Tb).
  assert (F0 : forall q, (0 <= q)%Q -> 0 <= Qfloor q) by (intros q H; apply Qfloor_resp_le in H; exact H).
  destruct (Qle_bool 0 u) eqn:U; destruct (Qle_bool 0 v) eqn:V.
  - apply Qfloor_resp_le. assumption.
  - exfalso. apply Qle_bool_iff in U. assert (Qle_bool 0 v = true) by (apply Qle_bool_iff; lra). congruence.
  - apply Qle_bool_iff in V. assert (~ (0 <= u)%Q) by (intros H; apply Qle_bool_iff in H; congruence).
    pose proof (F0 v V). pose proof (F0 (- u)%Q). assert (0 <= - u)%Q by lra. specialize (H1 H2). lia.
  - assert (- v <= - u)%Q by lra. apply Qfloor_resp_le in H. lia.
Qed.
