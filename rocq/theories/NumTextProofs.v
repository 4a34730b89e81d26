(** Proofs about the texts of NumTextModel.v. *)
From Coq Require Import ZArith QArith Qpower Qabs List Bool String Ascii SpecFloat Lia Lqa DecimalString DecimalZ Decimal.
From Verif Require Import IdsModel MapFileModel MapFileProofs FilterSpec ProcModel ProcProofs NumTextModel NumTextSpec.
Import ListNotations.
Local Open Scope string_scope.
Local Open Scope Z_scope.

(** ** Strings *)
(** Continues no number. *)
Definition ends (s : string) : Prop :=
  match s with EmptyString => True | String c _ => digit c = None /\ c <> "."%char /\ c <> "e"%char end.
Lemma ends_stops : forall s, ends s -> stops s.
Proof. destruct s; cbn; tauto. Qed.
Lemma digits_of_stop : forall s acc k, stops s -> digits_of acc k s = (acc, k, s).
Proof. destruct s; cbn; intros; auto. rewrite H. auto. Qed.
Lemma digits_of_uint : forall d acc k s, stops s ->
  exists j, k <= j /\ (d <> Nil -> k < j) /\ digits_of acc k (NilEmpty.string_of_uint d ++ s) = (uval d acc, j, s).
Proof.
  induction d; intros acc k s H; cbn [NilEmpty.string_of_uint append uval];
    [exists k; rewrite digits_of_stop by auto; repeat split; [lia|congruence]|..]; cbn [digits_of];
    match goal with |- context [digit ?c] => let r := eval compute in (digit c) in change (digit c) with r end;
    cbv iota;
    match goal with |- context [digits_of (10 * ?a + ?z) (?k + 1)] =>
      destruct (IHd (10 * a + z) (k + 1) s H) as (j & L & _ & E); exists j; rewrite E end;
    (split; [lia|split; [lia|]]); try reflexivity; do 3 f_equal; lia.
Qed.
Lemma to_string_uint : forall z, 0 <= z -> exists d, to_string z = NilEmpty.string_of_uint d /\ d <> Nil /\ uval d 0 = z.
Proof.
  intros z H. assert (E : Z.of_int (Z.to_int z) = z) by apply DecimalZ.of_to.
  unfold to_string, NilZero.string_of_int. destruct (Z.to_int z) as [d|d] eqn:D.
  - cbn [Z.of_int] in E. rewrite uval_of in E. destruct d; [exists (D0 Nil); repeat split; [congruence|cbn in E |- *; lia]|..]; eexists; (split; [reflexivity|split; [congruence|exact E]]).
  - destruct z; cbn in D; discriminate || lia.
Qed.
Lemma whole_spec : forall z s, 0 <= z -> stops s -> exists k, 0 < k /\ digits_of 0 0 (to_string z ++ s) = (z, k, s).
Proof.
  intros z s H S. destruct (to_string_uint z H) as (d & -> & N & U).
  destruct (digits_of_uint d 0 0 s S) as (j & _ & L & E). exists j. rewrite E, U. auto.
Qed.
Lemma to_string_head : forall z, 0 <= z -> exists c r, to_string z = String c r /\ digit c <> None.
Proof.
  intros z H. destruct (to_string_uint z H) as (d & -> & N & _).
  destruct d; try congruence; cbn [NilEmpty.string_of_uint]; eexists; eexists; (split; [reflexivity|vm_compute; congruence]).
Qed.

Lemma digit_char_spec : forall d, 0 <= d < 10 -> digit (digit_char d) = Some d.
Proof.
  intros d H. assert (d = 0 \/ d = 1 \/ d = 2 \/ d = 3 \/ d = 4 \/ d = 5 \/ d = 6 \/ d = 7 \/ d = 8 \/ d = 9) as C by lia.
  decompose [or] C; subst; reflexivity.
Qed.
Lemma last_digits_spec : forall k n acc j s, stops s ->
  digits_of acc j (last_digits k n ++ s) = (acc * 10 ^ Z.of_nat k + n mod 10 ^ Z.of_nat k, j + Z.of_nat k, s).
Proof.
  induction k as [|k IH]; intros n acc j s S.
  - cbn [last_digits append]. rewrite digits_of_stop by exact S. change (Z.of_nat 0) with 0. rewrite Z.pow_0_r, Z.mod_1_r. f_equal. f_equal; lia.
  - cbn [last_digits append digits_of]. rewrite digit_char_spec by (apply Z.mod_pos_bound; lia). rewrite IH by exact S.
    rewrite Nat2Z.inj_succ, Z.pow_succ_r by lia.
    assert (P : 0 < 10 ^ Z.of_nat k) by (apply Z.pow_pos_nonneg; lia). set (b := 10 ^ Z.of_nat k) in *.
    assert (n mod (10 * b) = n mod b + b * (n / b mod 10)) as -> by (rewrite (Z.mul_comm 10 b), Z.rem_mul_r by lia; reflexivity).
    f_equal. f_equal; [ring|lia].
Qed.
Lemma stops_dot : forall s, stops ("." ++ s). Proof. intros. reflexivity. Qed.
Lemma fixed_mantissa : forall k n s, 0 <= n -> ends s -> mantissa (fixed k n ++ s) = Some (n, Z.of_nat k, s).
Proof.
  intros k n s H Hs. pose proof (ends_stops _ Hs) as S1. unfold fixed, mantissa.
  assert (P : 0 < 10 ^ Z.of_nat k) by (apply Z.pow_pos_nonneg; lia).
  assert (Hd : 0 <= n / 10 ^ Z.of_nat k) by (apply Z.div_pos; lia).
  rewrite app_s. destruct k as [|k].
  - change (10 ^ Z.of_nat 0) with 1 in *. rewrite Z.div_1_r in *. cbn [append].
    destruct (whole_spec n s H S1) as (j & J & ->). destruct (Z.eqb_spec j 0); [lia|]. f_equal.
    destruct s as [|c r]; [reflexivity|]. destruct Hs as (_ & Hs & _).
    destruct c as [[] [] [] [] [] [] [] []]; try reflexivity. congruence.
  - cbn [append]. destruct (whole_spec _ ("." ++ last_digits (S k) n ++ s) Hd (stops_dot _)) as (j & J & E). cbn [append] in E.
    rewrite E. destruct (Z.eqb_spec j 0); [lia|]. f_equal. rewrite last_digits_spec by exact S1.
    f_equal. f_equal. rewrite (Z.mul_comm (n / _)). symmetry. apply Z.div_mod. lia.
Qed.
Lemma fixed_head : forall k n, 0 <= n -> exists c r, fixed k n = String c r /\ digit c <> None.
Proof.
  intros k n H. unfold fixed. destruct (to_string_head (n / 10 ^ Z.of_nat k)) as (c & r & E & D).
  - apply Z.div_pos; [lia|apply Z.pow_pos_nonneg; lia].
  - rewrite E. cbn [append]. eauto.
Qed.
Lemma digit_not : forall c, digit c <> None -> is_space c = false /\ c <> "-"%char.
Proof. intros c H. split; [apply digit_space; exact H|]. intros ->. apply H. reflexivity. Qed.
(** A text that starts with a digit is read as an unsigned number, behind a sign with that sign. *)
Lemma read_signed : forall s c r, digit c <> None ->
  read (sign s ++ String c r) = match unsigned (String c r) with Some (q, t) => Some (if s then Qopp q else q, t) | None => None end.
Proof.
  intros s c r D. destruct (digit_not c D) as [B M]. unfold read. destruct s; cbn [sign append skip].
  - change (is_space "-") with false. cbv iota. reflexivity.
  - rewrite B. destruct (unsigned (String c r)) as [[q t]|] eqn:E; destruct c as [[] [] [] [] [] [] [] []]; try (rewrite E); try reflexivity; congruence.
Qed.
Lemma fixed_unsigned : forall k n s, 0 <= n -> ends s -> unsigned (fixed k n ++ s) = Some ((inject_Z n * 10 ^ (- Z.of_nat k))%Q, s).
Proof.
  intros k n s H S. unfold unsigned. rewrite fixed_mantissa by assumption.
  assert (exponent_of s = Some (0, s)) as ->; [|reflexivity].
  destruct s as [|c r]; [reflexivity|]. destruct S as (_ & _ & S). cbn [exponent_of].
  destruct c as [[] [] [] [] [] [] [] []]; try reflexivity. congruence.
Qed.
Lemma exponent_spec : forall X s, stops s -> exponent_of ("e" ++ exponent X ++ s) = Some (X, s).
Proof.
  intros X s S. unfold exponent. cbn [append exponent_of].
  assert (E : exists k, 0 < k /\ digits_of 0 0 (((if Z.abs X <? 10 then "0" else "") ++ to_string (Z.abs X)) ++ s) = (Z.abs X, k, s)).
  { destruct (Z.abs X <? 10); cbn [append].
    - cbn [digits_of]. change (digit "0") with (Some 0). cbv iota. destruct (to_string_uint (Z.abs X) ltac:(lia)) as (d & -> & N & U).
      destruct (digits_of_uint d (10 * 0 + 0) (0 + 1) s S) as (j & L & _ & ->). exists j. change (10 * 0 + 0) with 0. rewrite U. split; [lia|reflexivity].
    - apply whole_spec; [lia|exact S]. }
  destruct E as (k & K & E).
  destruct (Z.ltb_spec X 0); cbn [append]; rewrite E; destruct (Z.eqb_spec k 0); try lia; do 2 f_equal; lia.
Qed.
Lemma sci_unsigned : forall k n X s, 0 <= n -> stops s ->
  unsigned (fixed k n ++ "e" ++ exponent X ++ s) = Some ((inject_Z n * 10 ^ (X - Z.of_nat k))%Q, s).
Proof.
  intros k n X s H Hs. unfold unsigned.
  assert (M : mantissa (fixed k n ++ "e" ++ exponent X ++ s) = Some (n, Z.of_nat k, "e" ++ exponent X ++ s)).
  { pose (t := "e" ++ exponent X ++ s). change ("e" ++ exponent X ++ s) with t.
    pose proof (stops_dot (last_digits k n ++ t)) as Sd. assert (S1 : stops t) by reflexivity. unfold fixed, mantissa.
    assert (P : 0 < 10 ^ Z.of_nat k) by (apply Z.pow_pos_nonneg; lia).
    assert (Hd : 0 <= n / 10 ^ Z.of_nat k) by (apply Z.div_pos; lia).
    rewrite app_s. destruct k as [|k].
    - change (10 ^ Z.of_nat 0) with 1 in *. rewrite Z.div_1_r in *. cbn [append].
      destruct (whole_spec n t H S1) as (j & J & ->). destruct (Z.eqb_spec j 0); [lia|]. reflexivity.
    - cbn [append]. destruct (whole_spec _ ("." ++ last_digits (S k) n ++ t) Hd Sd) as (j & J & E). cbn [append] in E.
      rewrite E. destruct (Z.eqb_spec j 0); [lia|]. f_equal. rewrite last_digits_spec by exact S1.
      f_equal. f_equal. rewrite (Z.mul_comm (n / _)). symmetry. apply Z.div_mod. lia. }
  rewrite M, exponent_spec by exact Hs. reflexivity.
Qed.

(** ** Rounding *)
Lemma div_even_nearest : forall a b, 0 < b -> nearest (inject_Z a / inject_Z b) (div_even a b).
Proof.
  intros a b B. pose proof (Z.div_mod a b ltac:(lia)) as D. pose proof (Z.mod_pos_bound a b B) as M.
  assert (Bq : (0 < inject_Z b)%Q) by (change 0%Q with (inject_Z 0); rewrite <- Zlt_Qlt; exact B).
  set (q := a / b) in *. set (r := a mod b) in *.
  assert (V : (inject_Z a / inject_Z b == inject_Z q + inject_Z r / inject_Z b)%Q).
  { rewrite D, inject_Z_plus, inject_Z_mult. field. lra. }
  assert (R0 : (0 <= inject_Z r / inject_Z b)%Q) by (apply Qle_shift_div_l; [exact Bq|]; rewrite Qmult_0_l; change 0%Q with (inject_Z 0); rewrite <- Zle_Qle; lia).
  assert (R1 : (inject_Z r / inject_Z b <= 1)%Q) by (apply Qle_shift_div_r; [exact Bq|]; rewrite Qmult_1_l, <- Zle_Qle; lia).
  assert (Rh : 2 * r <= b -> (inject_Z r / inject_Z b <= 1 # 2)%Q).
  { intros H. apply Qle_shift_div_r; [exact Bq|]. rewrite (Zle_Qle (2 * r) b) in H. rewrite inject_Z_mult in H. change (inject_Z 2) with 2%Q in H. lra. }
  assert (Rg : b <= 2 * r -> (1 # 2 <= inject_Z r / inject_Z b)%Q).
  { intros H. apply Qle_shift_div_l; [exact Bq|]. rewrite (Zle_Qle b (2 * r)) in H. rewrite inject_Z_mult in H. change (inject_Z 2) with 2%Q in H. lra. }
  assert (Rl : 2 * r < b -> (inject_Z r / inject_Z b < 1 # 2)%Q).
  { intros H. apply Qlt_shift_div_r; [exact Bq|]. rewrite (Zlt_Qlt (2 * r) b) in H. rewrite inject_Z_mult in H. change (inject_Z 2) with 2%Q in H. lra. }
  assert (Rm : b < 2 * r -> (1 # 2 < inject_Z r / inject_Z b)%Q).
  { intros H. apply Qlt_shift_div_l; [exact Bq|]. rewrite (Zlt_Qlt b (2 * r)) in H. rewrite inject_Z_mult in H. change (inject_Z 2) with 2%Q in H. lra. }
  unfold nearest, div_even. fold q r. rewrite V. generalize dependent (inject_Z r / inject_Z b)%Q. intros t _ R0 R1 Rh Rg Rl Rm.
  destruct (Z.compare_spec (2 * r) b) as [E|E|E].
  - specialize (Rh ltac:(lia)). specialize (Rg ltac:(lia)). destruct (Z.even q) eqn:Ev.
    + split; [lra|]. intros _. exact Ev.
    + rewrite inject_Z_plus. change (inject_Z 1) with 1%Q. split; [lra|]. intros _. rewrite Z.even_add, Ev. reflexivity.
  - specialize (Rl E). split; [lra|]. intros [K|K]; exfalso; lra.
  - specialize (Rm E). rewrite inject_Z_plus. change (inject_Z 1) with 1%Q. split; [lra|]. intros [K|K]; exfalso; lra.
Qed.
Lemma nearest_whole : forall q k, (q == inject_Z k)%Q -> nearest q k.
Proof. intros q k H. unfold nearest. rewrite H. split; [lra|]. intros [K|K]; exfalso; lra. Qed.
Lemma nearest_eq : forall q q' k, (q == q')%Q -> nearest q k -> nearest q' k.
Proof. intros q q' k E [A B]. unfold nearest. rewrite <- E. split; [exact A|exact B]. Qed.
Lemma nearest_opp : forall q k, nearest q k -> nearest (- q) (- k).
Proof.
  intros q k [A B]. unfold nearest. rewrite inject_Z_opp, Z.even_opp. split; [lra|]. intros [K|K]; apply B; [right|left]; lra.
Qed.
Lemma nearest_mono : forall q q' k k', (q <= q')%Q -> nearest q k -> nearest q' k' -> k <= k'.
Proof.
  intros q q' k k' L [A B] [A' B']. apply Z.le_ngt. intros G.
  assert (G1 : (inject_Z k' + 1 <= inject_Z k)%Q) by (change 1%Q with (inject_Z 1); rewrite <- inject_Z_plus, <- Zle_Qle; lia).
  assert (E : (inject_Z k == inject_Z k' + 1)%Q) by lra.
  assert (K : k = k' + 1) by (change 1%Q with (inject_Z 1) in E; rewrite <- inject_Z_plus in E; unfold Qeq in E; cbn [Qnum Qden inject_Z] in E; lia).
  assert (B1 : Z.even k = true) by (apply B; right; lra).
  assert (B2 : Z.even k' = true) by (apply B'; left; lra).
  rewrite K, Z.even_add, B2 in B1. discriminate.
Qed.
Lemma nearest_unique : forall q k k', nearest q k -> nearest q k' -> k = k'.
Proof. intros q k k' A B. apply Z.le_antisymm; [eapply nearest_mono|eapply nearest_mono]; eauto; apply Qle_refl. Qed.

Lemma pow_pos10 : forall z, (0 < 10 ^ z)%Q. Proof. intros. apply Qpower_0_lt. reflexivity. Qed.
Lemma pow10_Z : forall k, 0 <= k -> (inject_Z (10 ^ k) == 10 ^ k)%Q.
Proof. intros. apply Zpower_Qpower. exact H. Qed.
Lemma micro_nearest : forall m e, nearest (inject_Z (Zpos m) * 2 ^ e * 10 ^ 6) (micro m e) /\ 0 <= micro m e.
Proof.
  intros m e. unfold micro. destruct (Z.leb_spec 0 e) as [L|L].
  - split; [|assert (0 < 2 ^ e) by (apply Z.pow_pos_nonneg; lia); nia]. apply nearest_whole.
    rewrite !inject_Z_mult, pow10_Z, (Zpower_Qpower 2 e) by lia. reflexivity.
  - assert (P : 0 < 2 ^ (- e)) by (apply Z.pow_pos_nonneg; lia). split.
    + eapply nearest_eq; [|apply div_even_nearest; exact P].
      rewrite inject_Z_mult, pow10_Z, (Zpower_Qpower 2 (- e)), Qpower_opp by lia. change (inject_Z 2) with 2%Q.
      assert (~ (2 ^ e == 0)%Q) by (assert ((0 < 2 ^ e)%Q) by (apply Qpower_0_lt; reflexivity); lra). field. assumption.
    + unfold div_even. assert (0 <= Zpos m * 10 ^ 6 / 2 ^ (- e)) by (apply Z.div_pos; lia). destruct (_ ?= _); try lia. destruct (Z.even _); lia.
Qed.

(** What "%f" prints is read as the nearest multiple of a millionth. *)
Lemma print_f_read : forall x q s, value x = Some q -> ends s ->
  exists r k, read (print_f x ++ s) = Some (r, s) /\ (r == inject_Z k / 1000000)%Q /\ nearest (q * 1000000) k.
Proof.
  intros x q s V S.
  assert (G : forall (b : bool) n, 0 <= n -> nearest (if b then - q * 1000000 else q * 1000000)%Q n ->
    exists r k, read ((sign b ++ fixed 6 n) ++ s) = Some (r, s) /\ (r == inject_Z k / 1000000)%Q /\ nearest (q * 1000000) k).
  { intros b n N H. pose proof (fixed_unsigned 6 n s N S) as F. destruct (fixed_head 6 n N) as (c & r & E & D). rewrite E in *.
    rewrite app_s. cbn [append] in F |- *. rewrite read_signed by exact D. rewrite F. clear F E.
    change (10 ^ (- Z.of_nat 6))%Q with (1 # 1000000)%Q. destruct b.
    - exists (- (inject_Z n * (1 # 1000000)))%Q, (- n). split; [reflexivity|]. split; [rewrite inject_Z_opp; field|].
      eapply nearest_eq; [|apply nearest_opp; exact H]. ring.
    - exists (inject_Z n * (1 # 1000000))%Q, n. split; [reflexivity|]. split; [field|exact H]. }
  destruct x as [b|b| |b m e]; cbn [value] in V; try discriminate; injection V as <-; cbn [print_f]; apply G; try lia.
  - apply nearest_whole. destruct b; reflexivity.
  - apply micro_nearest.
  - destruct (micro_nearest m e) as [N _]. eapply nearest_eq; [|exact N]. change (10 ^ 6)%Q with 1000000%Q.
    destruct b; cbn [cond_Zopp]; [rewrite inject_Z_opp|]; ring.
Qed.
Lemma not_numbers : forall s, read (sign s ++ "inf") = None /\ read (sign s ++ "inf ") = None /\ read "nan" = None /\ read "nan " = None.
Proof. destruct s; repeat split; reflexivity. Qed.

(** ** Eight digits *)
Lemma width_from_spec : forall f v, 0 < v < 2 ^ (Z.of_nat f + 1) -> 1 <= width_from f v /\ 10 ^ (width_from f v - 1) <= v < 10 ^ width_from f v.
Proof.
  induction f as [|f IH]; intros v H.
  - change (2 ^ (Z.of_nat 0 + 1)) with 2 in H. cbn [width_from]. change (10 ^ (1 - 1)) with 1. change (10 ^ 1) with 10. lia.
  - cbn [width_from]. destruct (Z.ltb_spec v 10) as [L|L]; [change (10 ^ (1 - 1)) with 1; change (10 ^ 1) with 10; lia|].
    rewrite Nat2Z.inj_succ in H. replace (Z.succ (Z.of_nat f) + 1) with (Z.succ (Z.of_nat f + 1)) in H by lia. rewrite Z.pow_succ_r in H by lia.
    assert (P : 0 < 2 ^ (Z.of_nat f + 1)) by (apply Z.pow_pos_nonneg; lia).
    assert (Q : 0 < v / 10 < 2 ^ (Z.of_nat f + 1)) by (split; [apply Z.div_str_pos; lia|apply Z.div_lt_upper_bound; lia]).
    destruct (IH _ Q) as (A & B & C). set (w := width_from f (v / 10)) in *.
    pose proof (Z.div_mod v 10 ltac:(lia)). pose proof (Z.mod_pos_bound v 10 ltac:(lia)).
    split; [lia|]. replace (1 + w - 1) with (Z.succ (w - 1)) by lia. replace (1 + w) with (Z.succ w) by lia. rewrite !Z.pow_succ_r by lia. lia.
Qed.
Lemma width_spec : forall v, 0 < v -> 1 <= width v /\ 10 ^ (width v - 1) <= v < 10 ^ width v.
Proof.
  intros v H. apply width_from_spec. rewrite Z2Nat.id by apply Z.log2_nonneg. split; [exact H|]. rewrite Z.add_1_r. apply Z.log2_spec. exact H.
Qed.
Lemma exact_spec : forall m e V D, exact m e = (V, D) -> 0 < V /\ (inject_Z (Zpos m) * 2 ^ e == inject_Z V * 10 ^ (- D))%Q.
Proof.
  intros m e V D E. unfold exact in E. destruct (Z.leb_spec 0 e) as [L|L]; apply pair_equal_spec in E; destruct E as [<- <-].
  - split; [apply Z.mul_pos_pos; [reflexivity|apply Z.pow_pos_nonneg; lia]|]. rewrite inject_Z_mult, (Zpower_Qpower 2 e) by lia. change (10 ^ (- 0))%Q with 1%Q. change (inject_Z 2) with 2%Q. ring.
  - split; [apply Z.mul_pos_pos; [reflexivity|apply Z.pow_pos_nonneg; lia]|]. rewrite inject_Z_mult, (Zpower_Qpower 5 (- e)), Z.opp_involutive by lia.
    change (inject_Z 5) with 5%Q. assert (10 ^ e == 2 ^ e * 5 ^ e)%Q as -> by (change 10%Q with (2 * 5)%Q; apply Qmult_power).
    rewrite Qpower_opp. assert (~ (5 ^ e == 0)%Q) by (assert ((0 < 5 ^ e)%Q) by (apply Qpower_0_lt; reflexivity); lra). field. assumption.
Qed.
Lemma ten : ~ (10 == 0)%Q. Proof. lra. Qed.
Lemma pow10_plus : forall a b, (10 ^ (a + b) == 10 ^ a * 10 ^ b)%Q. Proof. intros. apply Qpower_plus. apply ten. Qed.
Lemma digits8_spec : forall m e n X, digits8 m e = (n, X) -> 0 <= n /\ exists Y k,
  (10 ^ Y <= inject_Z (Zpos m) * 2 ^ e < 10 ^ (Y + 1))%Q /\ nearest (inject_Z (Zpos m) * 2 ^ e * 10 ^ (7 - Y)) k /\
  (inject_Z n * 10 ^ (X - 7) == inject_Z k * 10 ^ (Y - 7))%Q.
Proof.
  intros m e n X E. unfold digits8 in E. destruct (exact m e) as [V D] eqn:Ex. destruct (exact_spec _ _ _ _ Ex) as [Vp Q].
  destruct (width_spec V Vp) as (W1 & W2 & W3). set (w := width V) in *. cbv zeta in E.
  set (k := if w <=? 8 then V * 10 ^ (8 - w) else div_even V (10 ^ (w - 8))) in *.
  assert (K0 : 0 <= k).
  { unfold k. destruct (Z.leb_spec w 8); [assert (0 < 10 ^ (8 - w)) by (apply Z.pow_pos_nonneg; lia); nia|].
    unfold div_even. assert (0 <= V / 10 ^ (w - 8)) by (apply Z.div_pos; [lia|apply Z.pow_pos_nonneg; lia]). destruct (_ ?= _); try lia. destruct (Z.even _); lia. }
  assert (Rn : nearest (inject_Z V * 10 ^ (8 - w)) k).
  { unfold k. destruct (Z.leb_spec w 8) as [L|L].
    - apply nearest_whole. rewrite inject_Z_mult, pow10_Z by lia. reflexivity.
    - eapply nearest_eq; [|apply div_even_nearest; apply Z.pow_pos_nonneg; lia]. rewrite pow10_Z by lia.
      replace (8 - w) with (- (w - 8)) by lia. rewrite Qpower_opp. reflexivity. }
  clearbody k. split.
  { destruct (k =? 10 ^ 8); injection E as <- <-; lia. }
  exists (w - 1 - D), k. split; [|split].
  - rewrite Q. replace (w - 1 - D) with ((w - 1) + - D) by lia. replace (w - 1 + - D + 1) with (w + - D) by lia. rewrite !pow10_plus.
    pose proof (pow_pos10 (- D)) as P. split.
    + apply Qmult_le_compat_r; [|lra]. rewrite <- pow10_Z, <- Zle_Qle by lia. lia.
    + apply Qmult_lt_compat_r; [exact P|]. rewrite <- pow10_Z, <- Zlt_Qlt by lia. lia.
  - eapply nearest_eq; [|exact Rn]. rewrite Q, <- Qmult_assoc, <- pow10_plus. replace (- D + (7 - (w - 1 - D))) with (8 - w) by lia. reflexivity.
  - destruct (Z.eqb_spec k (10 ^ 8)) as [H|H]; apply pair_equal_spec in E; destruct E as [<- <-]; [|reflexivity].
    rewrite H, (pow10_Z 7), (pow10_Z 8), <- !pow10_plus by lia. replace (8 + (w - 1 - D - 7)) with (7 + (w - D - 7)) by lia. reflexivity.
Qed.
Lemma strip_spec : forall k n k' n', 0 <= n -> strip k n = (k', n') -> 0 <= n' /\ (inject_Z n' * 10 ^ (- Z.of_nat k') == inject_Z n * 10 ^ (- Z.of_nat k))%Q.
Proof.
  induction k as [|k IH]; intros n k' n' H E; cbn [strip] in E.
  - injection E as <- <-. split; [exact H|reflexivity].
  - destruct (Z.eqb_spec (n mod 10) 0) as [M|M]; [|injection E as <- <-; split; [exact H|reflexivity]].
    destruct (IH (n / 10) k' n' ltac:(apply Z.div_pos; lia) E) as [A B]. split; [exact A|]. rewrite B.
    pose proof (Z.div_mod n 10 ltac:(lia)) as Dm. rewrite M, Z.add_0_r in Dm. rewrite Dm at 2. rewrite inject_Z_mult.
    replace (- Z.of_nat k) with (1 + - Z.of_nat (S k)) by lia. rewrite pow10_plus. change (10 ^ 1)%Q with 10%Q. change (inject_Z 10) with 10%Q. ring.
Qed.
Lemma general_spec : forall m e s, ends s -> exists r,
  (exists c t, general m e = String c t /\ digit c <> None) /\ unsigned (general m e ++ s) = Some (r, s) /\
  exists Y k, (10 ^ Y <= inject_Z (Zpos m) * 2 ^ e < 10 ^ (Y + 1))%Q /\ nearest (inject_Z (Zpos m) * 2 ^ e * 10 ^ (7 - Y)) k /\
  (r == inject_Z k * 10 ^ (Y - 7))%Q.
Proof.
  intros m e s S. unfold general. destruct (digits8 m e) as [n X] eqn:E. destruct (digits8_spec _ _ _ _ E) as (N & Y & k & A & B & C).
  destruct ((-4 <=? X) && (X <? 8)) eqn:F.
  - apply andb_true_iff in F. destruct F as [F1 F2]. apply Z.leb_le in F1. apply Z.ltb_lt in F2.
    destruct (strip (Z.to_nat (7 - X)) n) as [j n'] eqn:St. destruct (strip_spec _ _ _ _ N St) as [N' V].
    rewrite fixed_unsigned by assumption. eexists. split; [apply fixed_head; exact N'|]. split; [reflexivity|]. exists Y, k. split; [exact A|]. split; [exact B|].
    rewrite V, <- C. rewrite Z2Nat.id by lia. replace (- (7 - X)) with (X - 7) by lia. reflexivity.
  - destruct (strip 7 n) as [j n'] eqn:St. destruct (strip_spec _ _ _ _ N St) as [N' V].
    rewrite !app_s, sci_unsigned by (assumption || apply ends_stops; assumption). eexists. split; [|split; [reflexivity|]].
    { destruct (fixed_head j n' N') as (c & t & Et & D). rewrite Et. cbn [append]. eauto. }
    exists Y, k. split; [exact A|]. split; [exact B|]. rewrite <- C. unfold Z.sub at 1. rewrite pow10_plus.
    rewrite (Qmult_comm (10 ^ X)), Qmult_assoc, V. change (- Z.of_nat 7) with (- (7)). unfold Z.sub. rewrite pow10_plus. ring.
Qed.
Lemma print_g_read : forall x q s, value x = Some q -> ends s -> exists r, read (print_g x ++ s) = Some (r, s) /\
  ((q == 0 /\ r == 0)%Q \/ exists Y k, (10 ^ Y <= Qabs q < 10 ^ (Y + 1))%Q /\ nearest (q * 10 ^ (7 - Y)) k /\ (r == inject_Z k * 10 ^ (Y - 7))%Q).
Proof.
  intros x q s V S. destruct x as [b|b| |b m e]; cbn [value] in V; try discriminate; injection V as <-; cbn [print_g].
  - rewrite app_s. cbn [append]. rewrite read_signed by (vm_compute; congruence).
    change (String "0" s) with (to_string 0 ++ "" ++ s). pose proof (fixed_unsigned 0 0 s ltac:(lia) S) as F. unfold fixed in F.
    change (0 / 10 ^ Z.of_nat 0) with 0 in F. rewrite app_s in F. rewrite F. eexists. split; [reflexivity|]. left. split; [reflexivity|]. destruct b; reflexivity.
  - destruct (general_spec m e s S) as (r & (c & t & G & D) & U & Y & k & A & B & C). rewrite app_s, G in *. cbn [append] in *.
    rewrite read_signed, U by exact D. assert (P : (0 < inject_Z (Zpos m) * 2 ^ e)%Q).
    { apply Qmult_lt_0_compat; [reflexivity|apply Qpower_0_lt; reflexivity]. }
    set (v := (inject_Z (Zpos m) * 2 ^ e)%Q) in *. destruct b; cbn [cond_Zopp].
    + exists (- r)%Q. split; [reflexivity|]. right. exists Y, (- k).
      assert (E : (inject_Z (- Zpos m) * 2 ^ e == - v)%Q) by (unfold v; rewrite inject_Z_opp; ring).
      change (- Zpos m)%Z with (Zneg m) in *. generalize dependent (inject_Z (Zneg m) * 2 ^ e)%Q. intros u E. clearbody v.
      assert (Ab : (Qabs u == v)%Q) by (rewrite E, Qabs_opp, Qabs_pos; [reflexivity|lra]). rewrite Ab. split; [exact A|]. split.
      * eapply nearest_eq; [|apply nearest_opp; exact B]. rewrite E. ring.
      * rewrite C, inject_Z_opp. ring.
    + exists r. split; [reflexivity|]. right. exists Y, k. rewrite Qabs_pos by (apply Qlt_le_weak; exact P). auto.
Qed.

(** ** Lines and fields *)
Lemma split_from_absent : forall d a cur r, absent d a -> split_from d cur (a ++ String d r) = (cur ++ a) :: split_from d "" r.
Proof.
  intros d. induction a as [|c a IH]; intros cur r A; cbn [append split_from].
  - rewrite Ascii.eqb_refl, app_nil_s. reflexivity.
  - destruct A as [N A]. destruct (Ascii.eqb_spec c d); [congruence|]. rewrite IH by exact A. rewrite app_s. reflexivity.
Qed.
Lemma split_at_absent : forall d a r, absent d a -> split_at d (a ++ String d r) = a :: split_at d r.
Proof. intros. apply (split_from_absent d a ""). exact H. Qed.
Lemma split_at_end : forall d a, absent d a -> a <> "" -> split_at d a = [a].
Proof.
  intros d a A N. unfold split_at. assert (G : forall cur, cur ++ a <> "" -> split_from d cur a = [cur ++ a]).
  { clear N. induction a as [|c a IH]; intros cur H; cbn [split_from].
    - rewrite app_nil_s in *. destruct cur; [congruence|reflexivity].
    - destruct A as [N A]. destruct (Ascii.eqb_spec c d); [congruence|]. rewrite IH; [rewrite app_s; reflexivity|exact A|]. rewrite app_s. destruct cur; discriminate. }
  apply (G ""). exact N.
Qed.
(** The characters of printed numbers. *)
Definition apart (d : ascii) : Prop := digit d = None /\ d <> "-"%char /\ d <> "."%char /\ d <> "+"%char /\ d <> "e"%char /\ d <> "i"%char /\ d <> "n"%char /\ d <> "f"%char /\ d <> "a"%char.
Lemma absent_last : forall d k n, digit d = None -> absent d (last_digits k n).
Proof.
  intros d. induction k as [|k IH]; intros n H; cbn [last_digits absent]; [exact I|]. split; [|auto]. intros E.
  rewrite <- E, digit_char_spec in H by (apply Z.mod_pos_bound; lia). discriminate.
Qed.
Lemma absent_string : forall d z, apart d -> absent d (to_string z).
Proof. intros d z (A & B & _). rewrite <- (app_nil_s (to_string z)). apply absent_number; auto. exact I. Qed.
Lemma absent_fixed : forall d k n, apart d -> absent d (fixed k n).
Proof.
  intros d k n H. unfold fixed. apply absent_app. split; [apply absent_string; exact H|]. destruct H as (A & B & C & _). destruct k; [exact I|].
  cbn [append absent]. split; [congruence|]. apply absent_last. exact A.
Qed.
Lemma absent_sign : forall d s, apart d -> absent d (sign s).
Proof. intros d s (A & B & _). destruct s; cbn; [split; [congruence|exact I]|exact I]. Qed.
Lemma absent_print_f : forall d x, apart d -> absent d (print_f x).
Proof.
  intros d x H. destruct x; cbn [print_f]; try apply absent_app; try split; try (apply absent_sign; exact H); try (apply absent_fixed; exact H);
    destruct H as (A & B & C & D & E & F & G & K & L); cbn; repeat split; congruence.
Qed.
Lemma absent_general : forall d m e, apart d -> absent d (general m e).
Proof.
  intros d m e H. unfold general. destruct (digits8 m e) as [n X]. destruct (_ && _).
  - destruct (strip _ n). apply absent_fixed. exact H.
  - destruct (strip 7 n). apply absent_app. split; [apply absent_fixed; exact H|]. unfold exponent.
    apply absent_app. split; [destruct H as (A & B & C & D & E & F); cbn; split; [congruence|exact I]|].
    apply absent_app. split; [destruct H as (A & B & C & D & E & F); destruct (X <? 0); cbn; split; congruence || exact I|].
    apply absent_app. split; [|apply absent_string; exact H]. destruct (_ <? 10); cbn; [|exact I]. split; [|exact I]. intros <-. destruct H as (A & _). discriminate A.
Qed.
Lemma absent_print_g : forall d x, apart d -> absent d (print_g x).
Proof.
  intros d x H. destruct x; cbn [print_g]; try apply absent_app; try split; try (apply absent_sign; exact H); try (apply absent_general; exact H);
    destruct H as (A & B & C & D & E & F & G & K & L); cbn; repeat split; try congruence. intros <-. discriminate A.
Qed.
Lemma apart_comma : apart ",". Proof. repeat split; congruence. Qed.
Lemma apart_blank : apart " ". Proof. repeat split; congruence. Qed.
Lemma apart_newline : apart (ascii_of_nat 10). Proof. repeat split; cbv; congruence. Qed.

(** A text of lines is split into them. *)
Lemma lines_spec : forall A (f : A -> string) l, (forall a, absent (ascii_of_nat 10) (f a)) ->
  split_at (ascii_of_nat 10) (sum_text (fun a => f a ++ newline) l) = map f l.
Proof.
  intros A f l H. induction l as [|a l IH]; [reflexivity|]. cbn [sum_text fold_right map]. fold (sum_text (fun a => f a ++ newline) l).
  rewrite app_s. unfold newline at 1. cbn [append]. rewrite split_at_absent by apply H. rewrite IH. reflexivity.
Qed.
