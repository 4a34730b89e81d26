(** Rounding of SpecFloat is monotone: exact results in order give floats in order. *)
From Coq Require Import QArith Qpower Qabs Qround Lqa ZArith List Bool Lia SpecFloat.
From Verif Require Import FilterModel FilterSpec FloatOrder FloatRound FloatOps.
Local Open Scope Z_scope.

(** ** Where the remainder of a shift lies *)
Definition loc_of (rem k : Z) : location :=
  if rem =? 0 then loc_Exact else loc_Inexact (2 * rem ?= 2 ^ k).
Lemma shr_1_bits : forall r, 0 <= shr_m r ->
  shr_r (shr_1 r) = Z.odd (shr_m r) /\ shr_s (shr_1 r) = shr_r r || shr_s r.
Proof. intros [m r s] H. cbn in H. destruct m as [|[p|p|]|p]; try lia; split; reflexivity. Qed.
Lemma shr_iter_loc : forall n m, 0 <= m ->
  let r := Nat.iter n shr_1 {| shr_m := m; shr_r := false; shr_s := false |} in
  loc_of_shr_record r = loc_of (m mod 2 ^ Z.of_nat n) (Z.of_nat n).
Proof.
  induction n as [|n IH]; intros m H.
  - cbn. unfold loc_of. rewrite Z.mod_1_r. reflexivity.
  - cbv zeta in *. set (r0 := {| shr_m := m; shr_r := false; shr_s := false |}) in *.
    change (Nat.iter (S n) shr_1 r0) with (shr_1 (Nat.iter n shr_1 r0)).
    destruct (shr_iter n r0 H) as (M & X). cbv zeta in M, X. cbn [shr_m r0] in M, X. specialize (IH m H). fold r0 in IH.
    assert (P : 0 < 2 ^ Z.of_nat n) by (apply Z.pow_pos_nonneg; lia).
    assert (H' : 0 <= shr_m (Nat.iter n shr_1 r0)) by (rewrite M; apply Z.div_pos; lia).
    destruct (shr_1_bits _ H') as (B1 & B2). set (r := Nat.iter n shr_1 r0) in *.
    rewrite Nat2Z.inj_succ, Z.pow_succ_r by lia. rewrite (Z.mul_comm 2), Z.rem_mul_r by lia. rewrite <- M.
    assert (Sx : shr_r r || shr_s r = negb (m mod 2 ^ Z.of_nat n =? 0)).
    { destruct (Z.eqb_spec (m mod 2 ^ Z.of_nat n) 0) as [E|E].
      - apply Z.mod_divide in E; [|lia]. assert (exact r = true) as Q by (apply X; split; [reflexivity|exact E]).
        unfold exact in Q. destruct (shr_r r), (shr_s r); try discriminate; reflexivity.
      - destruct (shr_r r || shr_s r) eqn:Q; [reflexivity|]. exfalso. apply E. apply Z.mod_divide; [lia|]. apply X. unfold exact.
        apply orb_false_iff in Q. destruct Q as [-> ->]. reflexivity. }
    rewrite Sx in B2. pose proof (Z.mod_pos_bound m (2 ^ Z.of_nat n) P) as Bd.
    set (q := m mod 2 ^ Z.of_nat n) in *.
    assert (Od : shr_m r mod 2 = if Z.odd (shr_m r) then 1 else 0) by (rewrite Zmod_odd; reflexivity).
    rewrite Od. unfold loc_of. rewrite Z.pow_succ_r by lia.
    destruct (shr_1 r) as [m' r' s']. cbn [shr_r shr_s] in B1, B2. unfold loc_of_shr_record. cbn [shr_r shr_s]. rewrite B1, B2.
    destruct (Z.odd (shr_m r)); destruct (Z.eqb_spec q 0) as [E|E]; cbn [negb].
    + rewrite E. destruct (Z.eqb_spec (0 + 2 ^ Z.of_nat n * 1) 0); [lia|]. f_equal. symmetry. apply Z.compare_eq_iff. lia.
    + destruct (Z.eqb_spec (q + 2 ^ Z.of_nat n * 1) 0); [lia|]. f_equal. symmetry. apply Z.compare_gt_iff. lia.
    + rewrite E, Z.mul_0_r. reflexivity.
    + destruct (Z.eqb_spec (q + 2 ^ Z.of_nat n * 0) 0); [lia|]. f_equal. symmetry. apply Z.compare_lt_iff. lia.
Qed.
Lemma shr_loc : forall m e k, 0 <= m -> 0 <= k ->
  loc_of_shr_record (fst (shr (shr_record_of_loc m loc_Exact) e k)) = loc_of (m mod 2 ^ k) k.
Proof.
  intros m e [|p|p] H Hk; try lia; cbn [shr fst shr_record_of_loc].
  - cbn. unfold loc_of. rewrite Z.mod_1_r. reflexivity.
  - rewrite iter_nat. pose proof (shr_iter_loc (Pos.to_nat p) m H) as S. rewrite positive_nat_Z in S. exact S.
Qed.

(** Rounding a quotient of the same whole part goes up for the larger remainder if it does for the smaller. *)
Definition near_even (m1 rem k : Z) : Z := round_nearest_even m1 (loc_of rem k).
Lemma near_even_range : forall m1 rem k, m1 <= near_even m1 rem k <= m1 + 1.
Proof.
  intros. unfold near_even, loc_of. destruct (rem =? 0); cbn [round_nearest_even]; [lia|]. destruct (2 * rem ?= 2 ^ k); try destruct (Z.even m1); lia.
Qed.
Lemma near_even_mono : forall m1 a k b j, 0 <= k -> 0 <= j -> 0 <= a -> 0 <= b -> a * 2 ^ j <= b * 2 ^ k ->
  near_even m1 a k <= near_even m1 b j.
Proof.
  intros m1 a k b j Hk Hj Ha Hb L. unfold near_even, loc_of.
  assert (P : 0 < 2 ^ k) by (apply Z.pow_pos_nonneg; lia). assert (Q : 0 < 2 ^ j) by (apply Z.pow_pos_nonneg; lia).
  destruct (Z.eqb_spec a 0) as [Ea|Ea]; destruct (Z.eqb_spec b 0) as [Eb|Eb]; cbn [round_nearest_even]; try lia.
  - destruct (2 * b ?= 2 ^ j); try destruct (Z.even m1); lia.
  - destruct (Z.compare_spec (2 * a) (2 ^ k)) as [Ca|Ca|Ca]; destruct (Z.compare_spec (2 * b) (2 ^ j)) as [Cb|Cb|Cb];
      try destruct (Z.even m1); try lia; exfalso; nia.
Qed.

Section Format.
  Variables prec emax : Z.
  Hypothesis (Hprec : 1 < prec) (Hemax : prec < emax).
  Local Notation fexp := (fexp prec emax).
  Local Notation emin := (emin prec emax).
  Local Notation plus := (plus prec emax).
  Local Notation valid := (valid_binary prec emax).

  (** The second half of binary_round_aux. *)
  Definition finish (m e : Z) : spec_float :=
    let '(r, e2) := shr_fexp prec emax m e loc_Exact in
    match shr_m r with
    | 0 => S754_zero false
    | Zpos q => if e2 <=? emax - prec then S754_finite false q e2 else S754_infinity false
    | Zneg _ => S754_nan
    end.
  Definition whole (m e : Z) : Z := m / 2 ^ (fexp (Zdigits2 m + e) - e).
  Definition left_ (m e : Z) : Z := m mod 2 ^ (fexp (Zdigits2 m + e) - e).
  Lemma aux_finish : forall m e, 0 <= m -> e <= fexp (Zdigits2 m + e) ->
    binary_round_aux prec emax false m e loc_Exact =
    finish (near_even (whole m e) (left_ m e) (fexp (Zdigits2 m + e) - e)) (fexp (Zdigits2 m + e)).
  Proof.
    intros m e Hm He. unfold binary_round_aux. unfold shr_fexp at 1. set (f := fexp (Zdigits2 m + e)) in *.
    pose proof (shr_loc m e (f - e) Hm ltac:(lia)) as L.
    destruct (shr_spec (shr_record_of_loc m loc_Exact) e (f - e) ltac:(cbn; lia) ltac:(lia)) as (M & _ & E).
    destruct (shr (shr_record_of_loc m loc_Exact) e (f - e)) as [r e1]. cbn [fst snd shr_record_of_loc shr_m] in L, M, E.
    replace (e + (f - e)) with f in E by lia. subst e1. rewrite L, M. unfold near_even, whole, left_. fold f. reflexivity.
  Qed.

  (** The shape of what is rounded. *)
  Definition shaped (a f : Z) : Prop := 0 <= a <= 2 ^ prec /\ emin <= f /\ (emin < f -> 2 ^ (prec - 1) <= a).
  Lemma pow_half : 2 ^ prec = 2 ^ (prec - 1) * 2.
  Proof. replace prec with (Z.succ (prec - 1)) at 1 by lia. rewrite Z.pow_succ_r by lia. ring. Qed.

  Lemma whole_shaped : forall m e, 0 <= m -> e <= fexp (Zdigits2 m + e) ->
    0 <= whole m e < 2 ^ prec /\ emin <= fexp (Zdigits2 m + e) /\ (emin < fexp (Zdigits2 m + e) -> 2 ^ (prec - 1) <= whole m e).
  Proof.
    intros m e Hm He. unfold whole. set (f := fexp (Zdigits2 m + e)) in *. set (k := f - e). assert (Hk : 0 <= k) by (unfold k; lia).
    assert (P : 0 < 2 ^ k) by (apply Z.pow_pos_nonneg; lia). set (m1 := m / 2 ^ k).
    assert (Dm : m1 * 2 ^ k <= m < (m1 + 1) * 2 ^ k) by (unfold m1; pose proof (Z.div_mod m (2 ^ k)); pose proof (Z.mod_pos_bound m (2 ^ k)); nia).
    assert (Hm1 : 0 <= m1) by (unfold m1; apply Z.div_pos; lia).
    destruct (digits_nonneg m Hm) as (Dg0 & Dg).
    pose proof (fexp_prec prec emax (Zdigits2 m + e)) as Fp. pose proof (fexp_emin prec emax (Zdigits2 m + e)) as Fe. fold f in Fp, Fe.
    split; [split; [exact Hm1|]|split; [exact Fe|]].
    - assert (2 ^ Zdigits2 m <= 2 ^ (prec + k)) by (apply Z.pow_le_mono_r; unfold k; lia). rewrite Z.pow_add_r in H by lia. nia.
    - intros G. destruct (fexp_or prec emax (Zdigits2 m + e)) as [F|F]; fold f in F; [lia|].
      destruct m as [|p|p]; [|cbn [Zdigits2] in *|lia].
      + cbn in *. lia.
      + pose proof (digits_pos p) as D. assert (Zpos (digits2_pos p) - 1 = prec - 1 + k) by (unfold k; lia). rewrite H, Z.pow_add_r in D by lia. nia.
  Qed.
  Lemma near_shaped : forall m e, 0 <= m -> e <= fexp (Zdigits2 m + e) ->
    shaped (near_even (whole m e) (left_ m e) (fexp (Zdigits2 m + e) - e)) (fexp (Zdigits2 m + e)).
  Proof.
    intros m e Hm He. destruct (whole_shaped m e Hm He) as (A & B & C).
    pose proof (near_even_range (whole m e) (left_ m e) (fexp (Zdigits2 m + e) - e)). unfold shaped.
    split; [lia|]. split; [lia|]. intros G. specialize (C G). lia.
  Qed.

  (** What the second half makes of it: the float of this value, or infinity if there is none. *)
  Lemma finish_spec : forall a f, shaped a f ->
    (exists p e2, finish a f = S754_finite false p e2 /\ bounded prec emax p e2 = true /\ (dyadic (Zpos p) e2 == dyadic a f)%Q) \/
    (finish a f = S754_zero false /\ a = 0) \/
    (finish a f = S754_infinity false /\ (dyadic 1 emax <= dyadic a f)%Q).
  Proof.
    intros a f ((A0 & A1) & F & N). pose proof pow_half as Ph. assert (P1 : 0 < 2 ^ (prec - 1)) by (apply Z.pow_pos_nonneg; lia).
    unfold finish, shr_fexp.
    assert (Res : exists a2 e2, let '(r, e'') := shr (shr_record_of_loc a loc_Exact) f (fexp (Zdigits2 a + f) - f) in
      shr_m r = a2 /\ e'' = e2 /\ 0 <= a2 < 2 ^ prec /\ emin <= e2 /\ (dyadic a2 e2 == dyadic a f)%Q /\ (emin < e2 -> 2 ^ (prec - 1) <= a2) /\ (a2 = 0 -> a = 0)).
    { destruct (Z.eq_dec a (2 ^ prec)) as [E2|N2].
      - exists (2 ^ (prec - 1)), (f + 1). rewrite E2.
        assert (Dg2 : Zdigits2 (2 ^ prec) = prec + 1).
        { apply digits_unique; [lia|]. replace (prec + 1 - 1) with prec by lia. split; [lia|]. apply Z.pow_lt_mono_r; lia. }
        rewrite Dg2. replace (fexp (prec + 1 + f) - f) with 1 by (unfold SpecFloat.fexp; lia).
        destruct (shr_spec (shr_record_of_loc (2 ^ prec) loc_Exact) f 1 ltac:(cbn [shr_record_of_loc shr_m]; lia) ltac:(lia)) as (M2 & _ & E'').
        destruct (shr (shr_record_of_loc (2 ^ prec) loc_Exact) f 1) as [r2 e'']. cbn [fst snd shr_record_of_loc shr_m] in M2, E''.
        assert (Half : 2 ^ prec / 2 ^ 1 = 2 ^ (prec - 1)) by (rewrite <- Z.pow_sub_r by lia; reflexivity).
        rewrite Half in M2. rewrite M2, E''. repeat split; try lia. rewrite dyadic_shift by lia. change (2 ^ 1) with 2. rewrite Ph. reflexivity.
      - exists a, f.
        assert (D2 : Zdigits2 a <= prec) by (apply digits_le; lia).
        assert (Le : fexp (Zdigits2 a + f) - f <= 0) by (unfold SpecFloat.fexp; lia).
        unfold shr. destruct (fexp (Zdigits2 a + f) - f); [|lia|]; cbn [shr_record_of_loc shr_m]; repeat split; try lia; try reflexivity; exact N. }
    destruct Res as (a2 & e2 & Res). destruct (shr _ f _) as [r e'']. destruct Res as (-> & -> & B1 & B2 & B3 & B4 & B5).
    destruct a2 as [|p|p]; [right; left; split; [reflexivity|apply B5; reflexivity]| |lia].
    destruct (Z.leb_spec e2 (emax - prec)) as [Le|Gt].
    - left. exists p, e2. split; [reflexivity|]. split; [apply bounded_spec; [exact Hprec|lia]|exact B3].
    - right. right. split; [reflexivity|]. rewrite <- B3.
      assert (G : emin < e2) by (unfold SpecFloat.emin in *; lia). specialize (B4 G).
      assert (E : (dyadic 1 emax <= dyadic (2 ^ (prec - 1)) (emax - prec + 1))%Q).
      { replace emax with ((emax - prec + 1) + (prec - 1)) at 1 by lia. rewrite dyadic_shift by lia. rewrite Z.mul_1_l. apply Qle_refl. }
      eapply Qle_trans; [exact E|]. replace e2 with ((emax - prec + 1) + (e2 - (emax - prec + 1))) by lia.
      rewrite (dyadic_shift (Zpos p)) by lia. apply dyadic_le.
      assert (0 < 2 ^ (e2 - (emax - prec + 1))) by (apply Z.pow_pos_nonneg; lia). nia.
  Qed.
  Lemma bounded_small : forall p e, bounded prec emax p e = true -> (dyadic (Zpos p) e < dyadic 1 emax)%Q.
  Proof.
    intros p e B. apply bounded_spec in B; [|exact Hprec]. destruct B as (B1 & B2 & _).
    replace emax with (e + (emax - e)) by lia. rewrite dyadic_shift by lia. apply dyadic_lt. rewrite Z.mul_1_l.
    assert (2 ^ prec <= 2 ^ (emax - e)) by (apply Z.pow_le_mono_r; lia). lia.
  Qed.
  Lemma dyadic_zero : forall e, (dyadic 0 e == 0)%Q.
  Proof. intros. unfold dyadic. ring. Qed.
  Lemma dyadic_pos : forall p e, (0 < dyadic (Zpos p) e)%Q.
  Proof. intros. rewrite <- (dyadic_zero e). apply dyadic_lt. lia. Qed.
  Lemma finish_mono : forall a f b g, shaped a f -> shaped b g -> (dyadic a f <= dyadic b g)%Q ->
    plus (finish a f) /\ SFleb (finish a f) (finish b g) = true.
  Proof.
    intros a f b g Sa Sb L.
    destruct (finish_spec a f Sa) as [(p & e & -> & Bp & Vp)|[[-> ->]|[-> Va]]];
    destruct (finish_spec b g Sb) as [(q & e' & -> & Bq & Vq)|[[-> ->]|[-> Vb]]]; (split; [first [exact Bp|exact I]|]); try reflexivity.
    - apply (finite_order prec emax); auto. lra.
    - exfalso. pose proof (dyadic_pos p e). pose proof (dyadic_zero g). lra.
    - exfalso. pose proof (bounded_small _ _ Bq). lra.
    - exfalso. pose proof (dyadic_zero g). pose proof (dyadic_pos 1 emax). lra.
  Qed.

  Lemma round_mono : forall m e n f, 0 <= m -> 0 <= n -> e <= fexp (Zdigits2 m + e) -> f <= fexp (Zdigits2 n + f) ->
    (dyadic m e <= dyadic n f)%Q ->
    plus (binary_round_aux prec emax false m e loc_Exact) /\
    SFleb (binary_round_aux prec emax false m e loc_Exact) (binary_round_aux prec emax false n f loc_Exact) = true.
  Proof.
    intros m e n f Hm Hn He Hf L. rewrite !aux_finish by assumption.
    apply finish_mono; try (apply near_shaped; assumption).
    destruct (whole_shaped m e Hm He) as (A1 & A2 & A3). destruct (whole_shaped n f Hn Hf) as (B1 & B2 & B3).
    pose proof (near_even_range (whole m e) (left_ m e) (fexp (Zdigits2 m + e) - e)) as R1.
    pose proof (near_even_range (whole n f) (left_ n f) (fexp (Zdigits2 n + f) - f)) as R2.
    unfold whole, left_ in *. set (x := fexp (Zdigits2 m + e)) in *. set (y := fexp (Zdigits2 n + f)) in *.
    assert (Kx : 0 < 2 ^ (x - e)) by (apply Z.pow_pos_nonneg; lia). assert (Ky : 0 < 2 ^ (y - f)) by (apply Z.pow_pos_nonneg; lia).
    pose proof (Z.div_mod m (2 ^ (x - e)) ltac:(lia)) as Dm. pose proof (Z.div_mod n (2 ^ (y - f)) ltac:(lia)) as Dn.
    pose proof (Z.mod_pos_bound m (2 ^ (x - e)) Kx) as Mm. pose proof (Z.mod_pos_bound n (2 ^ (y - f)) Ky) as Mn.
    set (m1 := m / 2 ^ (x - e)) in *. set (n1 := n / 2 ^ (y - f)) in *.
    set (ra := m mod 2 ^ (x - e)) in *. set (rb := n mod 2 ^ (y - f)) in *.
    assert (Low : forall a, (dyadic a x == dyadic (a * 2 ^ (x - e)) e)%Q).
    { intro a. replace x with (e + (x - e)) at 1 by lia. apply dyadic_shift. lia. }
    assert (Lowy : forall a, (dyadic a y == dyadic (a * 2 ^ (y - f)) f)%Q).
    { intro a. replace y with (f + (y - f)) at 1 by lia. apply dyadic_shift. lia. }
    assert (V1 : (dyadic m1 x <= dyadic m e)%Q) by (rewrite Low; apply dyadic_le; nia).
    assert (W2 : (dyadic n f < dyadic (n1 + 1) y)%Q) by (rewrite Lowy; apply dyadic_lt; nia).
    pose proof pow_half as Ph. assert (P1 : 0 < 2 ^ (prec - 1)) by (apply Z.pow_pos_nonneg; lia).
    destruct (Z.lt_trichotomy x y) as [Lt|[Eq|Gt]].
    - specialize (B3 ltac:(lia)).
      eapply Qle_trans; [apply (proj2 (dyadic_le _ (2 ^ prec) x)); lia|].
      apply Qle_trans with (dyadic (2 ^ (prec - 1)) y); [|apply dyadic_le; lia].
      replace y with (x + (y - x)) by lia. rewrite dyadic_shift by lia. apply dyadic_le. rewrite Ph.
      assert (2 <= 2 ^ (y - x)) by (change 2 with (2 ^ 1) at 1; apply Z.pow_le_mono_r; lia). nia.
    - rewrite <- Eq in *. apply dyadic_le.
      assert (m1 < n1 + 1) by (apply (dyadic_lt _ _ x); lra).
      destruct (Z.eq_dec m1 n1) as [E|E]; [|lia]. rewrite <- E in *. apply near_even_mono; try lia.
      (* the remainders *)
      assert (Q1 : (dyadic m e == dyadic m1 x + dyadic ra e)%Q).
      { rewrite Low. unfold dyadic. rewrite Dm at 1. rewrite inject_Z_plus, !inject_Z_mult. ring. }
      assert (Q2 : (dyadic n f == dyadic m1 x + dyadic rb f)%Q).
      { rewrite Lowy. unfold dyadic. rewrite Dn at 1. rewrite inject_Z_plus, !inject_Z_mult. ring. }
      assert (Q3 : (dyadic ra e <= dyadic rb f)%Q) by lra.
      assert (Q4 : (dyadic (ra * 2 ^ (x - f)) (e + f - x) == dyadic ra e)%Q).
      { rewrite <- dyadic_shift by lia. replace (e + f - x + (x - f)) with e by lia. reflexivity. }
      assert (Q5 : (dyadic (rb * 2 ^ (x - e)) (e + f - x) == dyadic rb f)%Q).
      { rewrite <- dyadic_shift by lia. replace (e + f - x + (x - e)) with f by lia. reflexivity. }
      apply (dyadic_le _ _ (e + f - x)). lra.
    - exfalso. specialize (A3 ltac:(lia)).
      assert (C1 : (dyadic (2 ^ (prec - 1)) x <= dyadic n f)%Q).
      { eapply Qle_trans; [apply (proj2 (dyadic_le _ m1 x)); lia|]. lra. }
      assert (C2 : (dyadic (2 ^ prec) y <= dyadic (2 ^ (prec - 1)) x)%Q).
      { replace x with (y + (x - y)) by lia. rewrite dyadic_shift by lia. apply dyadic_le. rewrite Ph.
        assert (2 <= 2 ^ (x - y)) by (change 2 with (2 ^ 1) at 1; apply Z.pow_le_mono_r; lia). nia. }
      assert (C3 : (dyadic (n1 + 1) y <= dyadic (2 ^ prec) y)%Q) by (apply dyadic_le; lia).
      lra.
  Qed.

  (** ** Floats as roundings of rationals *)
  (** [x] is the rounding of [v]. *)
  Definition is_rnd (v : Q) (x : spec_float) : Prop :=
    (v == 0 /\ exists s, x = S754_zero s)%Q \/
    exists s m e, e <= fexp (Zdigits2 (Zpos m) + e) /\ (v == dyadic (cond_Zopp s (Zpos m)) e)%Q /\
      x = binary_round_aux prec emax s (Zpos m) e loc_Exact.
  Lemma dyadic_opp : forall z e, (dyadic (- z) e == - dyadic z e)%Q.
  Proof. intros. unfold dyadic. rewrite inject_Z_opp. ring. Qed.
  Lemma is_rnd_ext : forall v w x, (v == w)%Q -> is_rnd v x -> is_rnd w x.
  Proof.
    intros v w x E [[Z S]|(s & m & e & H & V & X)]; [left; split; [lra|exact S]|right; exists s, m, e].
    split; [exact H|]. split; [lra|exact X].
  Qed.
  Lemma is_rnd_num : forall v x, is_rnd v x -> x <> S754_nan /\ valid x = true.
  Proof.
    intros v x [[_ (s & ->)]|(s & m & e & H & _ & ->)]; [split; [discriminate|reflexivity]|].
    rewrite aux_sign. destruct (round_mono (Zpos m) e (Zpos m) e ltac:(lia) ltac:(lia) H H (Qle_refl _)) as [P _].
    destruct (binary_round_aux prec emax false (Zpos m) e loc_Exact) as [[]|[]| |[] a b]; try contradiction; split; try discriminate; try reflexivity. exact P.
  Qed.
  Lemma plus_leb_neg : forall a b, plus a -> plus b -> SFleb a b = true ->
    SFleb (SFopp b) (SFopp a) = true.
  Proof.
    intros [[]|[]| |[] m e] [[]|[]| |[] n f] Pa Pb L; try contradiction; try reflexivity; try discriminate.
    unfold SFleb, SFcompare, SFopp in *. cbn [negb] in *. rewrite (Z.compare_antisym e f). destruct (e ?= f); cbn [CompOpp]; try discriminate; try reflexivity.
    change (Pcompare m n Eq) with (m ?= n)%positive in L. change (Pcompare n m Eq) with (n ?= m)%positive. rewrite (Pos.compare_antisym m n). destruct (m ?= n)%positive; try discriminate; reflexivity.
  Qed.
  Lemma plus_zero_leb : forall a s, plus a -> SFleb (S754_zero s) a = true /\ SFleb (SFopp a) (S754_zero s) = true.
  Proof. intros [[]|[]| |[] m e] s P; try contradiction; split; reflexivity. Qed.
  Lemma plus_signs : forall a b, plus a -> plus b -> SFleb (SFopp a) b = true.
  Proof. intros [[]|[]| |[] m e] [[]|[]| |[] n f] Pa Pb; try contradiction; reflexivity. Qed.
  Lemma aux_opp : forall m e, e <= fexp (Zdigits2 (Zpos m) + e) ->
    binary_round_aux prec emax true (Zpos m) e loc_Exact = SFopp (binary_round_aux prec emax false (Zpos m) e loc_Exact) /\
    plus (binary_round_aux prec emax false (Zpos m) e loc_Exact).
  Proof.
    intros m e H. destruct (round_mono (Zpos m) e (Zpos m) e ltac:(lia) ltac:(lia) H H (Qle_refl _)) as [P _]. split; [|exact P].
    rewrite aux_sign. destruct (binary_round_aux prec emax false (Zpos m) e loc_Exact) as [[]|[]| |[] a b]; try contradiction; reflexivity.
  Qed.

  Lemma rnd_mono : forall v w x y, is_rnd v x -> is_rnd w y -> (v <= w)%Q -> SFleb x y = true.
  Proof.
    intros v w x y [[Zv (sx & ->)]|(s & m & e & H & V & ->)] [[Zw (sy & ->)]|(t & n & f & K & W & ->)] L.
    - reflexivity.
    - destruct (aux_opp n f K) as [O P]. pose proof (dyadic_pos n f). destruct t; cbn [cond_Zopp] in W.
      + change (Zneg n) with (- Zpos n) in W. rewrite dyadic_opp in W. lra.
      + apply plus_zero_leb. exact P.
    - destruct (aux_opp m e H) as [O P]. pose proof (dyadic_pos m e). destruct s; cbn [cond_Zopp] in V.
      + rewrite O. apply plus_zero_leb. exact P.
      + lra.
    - destruct (aux_opp m e H) as [O1 P1]. destruct (aux_opp n f K) as [O2 P2].
      pose proof (dyadic_pos m e). pose proof (dyadic_pos n f).
      destruct s, t; cbn [cond_Zopp] in V, W; try (change (Zneg m) with (- Zpos m) in V; rewrite dyadic_opp in V);
        try (change (Zneg n) with (- Zpos n) in W; rewrite dyadic_opp in W).
      + rewrite O1, O2. apply plus_leb_neg; auto. apply round_mono; auto; try lia. lra.
      + rewrite O1. apply plus_signs; assumption.
      + lra.
      + apply round_mono; auto; try lia. lra.
  Qed.

  Lemma bounded_fexp : forall m e, bounded prec emax m e = true -> fexp (Zdigits2 (Zpos m) + e) = e.
  Proof. intros m e B. unfold bounded in B. apply andb_true_iff in B. destruct B as [B _]. unfold canonical_mantissa in B. apply Zeq_bool_eq in B. exact B. Qed.
  (** A float is the rounding of its value. *)
  Lemma self_rnd : forall x v, valid x = true -> value x = Some v -> is_rnd v x.
  Proof.
    intros [s|s| |s m e] v V E; try discriminate; cbn in E; injection E as <-.
    - left. split; [reflexivity|]. exists s. reflexivity.
    - right. cbn [valid_binary] in V. pose proof (bounded_fexp m e V) as Fe. exists s, m, e. split; [lia|]. split; [reflexivity|].
      rewrite aux_sign, aux_finish by lia. rewrite Fe.
      assert (W : near_even (whole (Zpos m) e) (left_ (Zpos m) e) (e - e) = Zpos m).
      { unfold whole, left_. rewrite Fe. replace (e - e) with 0 by lia. change (2 ^ 0) with 1. rewrite Z.div_1_r, Z.mod_1_r. reflexivity. }
      rewrite W. unfold finish, shr_fexp. rewrite Fe. replace (e - e) with 0 by lia. cbn [shr shr_record_of_loc shr_m].
      unfold bounded in V. apply andb_true_iff in V. destruct V as [_ V]. rewrite V. reflexivity.
  Qed.

  Lemma product_fexp : forall m e n f, bounded prec emax m e = true -> bounded prec emax n f = true ->
    e + f <= fexp (Zdigits2 (Zpos (m * n)) + (e + f)).
  Proof.
    intros m e n f Bm Bn. apply bounded_spec in Bm; [|assumption]. apply bounded_spec in Bn; [|assumption].
    destruct Bm as (A & B & C). destruct Bn as (A' & B' & C').
    assert (Em : emin <= 0 - 1 + 1) by (unfold SpecFloat.emin; lia).
    pose proof (fexp_emin prec emax (Zdigits2 (Zpos (m * n)) + (e + f))) as Fe. pose proof (fexp_prec prec emax (Zdigits2 (Zpos (m * n)) + (e + f))) as Fp.
    assert (Big : forall a b, 2 ^ (prec - 1) <= Zpos a -> prec <= Zdigits2 (Zpos (a * b))).
    { intros a b Ha. pose proof (digits_pos (a * b)) as D. cbn [Zdigits2].
      destruct (Z.le_gt_cases prec (Zpos (digits2_pos (a * b)))); [assumption|]. exfalso.
      assert (2 ^ Zpos (digits2_pos (a * b)) <= 2 ^ (prec - 1)) by (apply Z.pow_le_mono_r; lia).
      rewrite Pos2Z.inj_mul in D. nia. }
    destruct (Z.eq_dec emin e) as [E|E]; destruct (Z.eq_dec emin f) as [E'|E'].
    - lia.
    - specialize (C' ltac:(lia)). pose proof (Big n m C'). rewrite Pos.mul_comm in H. lia.
    - specialize (C ltac:(lia)). pose proof (Big m n C). lia.
    - specialize (C ltac:(lia)). pose proof (Big m n C). lia.
  Qed.
  Lemma mul_rnd : forall x y v w, valid x = true -> valid y = true -> value x = Some v -> value y = Some w ->
    is_rnd (v * w) (SFmul prec emax x y).
  Proof.
    intros [s|s| |s m e] [t|t| |t n f] v w Vx Vy Ex Ey; try discriminate; cbn in Ex, Ey; injection Ex as <-; injection Ey as <-; cbn [SFmul].
    - left. split; [ring|]. eexists. reflexivity.
    - left. split; [ring|]. eexists. reflexivity.
    - left. split; [ring|]. eexists. reflexivity.
    - right. cbn [valid_binary] in Vx, Vy. exists (xorb s t), (m * n)%positive, (e + f). split; [now apply product_fexp|]. split; [|reflexivity].
      unfold dyadic. rewrite pow_split. destruct s, t; cbn [xorb cond_Zopp]; rewrite ?inject_Z_opp, Pos2Z.inj_mul, inject_Z_mult; ring.
  Qed.

  Lemma normalize_rnd : forall z e, is_rnd (dyadic z e) (binary_normalize prec emax z e false).
  Proof.
    assert (G : forall s p e, is_rnd (dyadic (cond_Zopp s (Zpos p)) e) (binary_round prec emax s p e)).
    { intros s p e. right. unfold binary_round. pose proof (shl_align_dyadic p e (fexp (Zpos (digits2_pos p) + e))) as D.
      destruct (shl_align_spec p e (fexp (Zpos (digits2_pos p) + e))) as (S & F).
      destruct (shl_align p e (fexp (Zpos (digits2_pos p) + e))) as [mz ez]. cbn [fst snd] in *.
      exists s, mz, ez. split; [|split; [|reflexivity]].
      - rewrite F, digits_mul_pow by lia. cbn [Zdigits2].
        replace (Zpos (digits2_pos p) + (e - Z.min e (fexp (Zpos (digits2_pos p) + e))) + ez) with (Zpos (digits2_pos p) + e) by lia. lia.
      - destruct s; cbn [cond_Zopp]; [|symmetry; exact D].
        change (Zneg p) with (- Zpos p). change (Zneg mz) with (- Zpos mz). rewrite !dyadic_opp, D. reflexivity. }
    intros [|p|p] e; cbn [binary_normalize].
    - left. split; [apply dyadic_zero|]. eexists. reflexivity.
    - apply (G false).
    - apply (G true).
  Qed.
  Lemma add_rnd : forall x y v w, valid x = true -> valid y = true -> value x = Some v -> value y = Some w ->
    is_rnd (v + w) (SFadd prec emax x y).
  Proof.
    intros [s|s| |s m e] [t|t| |t n f] v w Vx Vy Ex Ey; try discriminate; cbn [SFadd].
    - cbn in Ex, Ey. injection Ex as <-. injection Ey as <-. left. split; [ring|]. destruct (Bool.eqb s t); eexists; reflexivity.
    - cbn in Ex. injection Ex as <-. apply is_rnd_ext with w; [ring|]. apply self_rnd; assumption.
    - cbn in Ey. injection Ey as <-. apply is_rnd_ext with v; [ring|]. apply self_rnd; assumption.
    - cbn in Ex, Ey. injection Ex as <-. injection Ey as <-.
      eapply is_rnd_ext; [|apply normalize_rnd].
      pose proof (shl_align_dyadic m e (Z.min e f)) as D. destruct (shl_align_spec m e (Z.min e f)) as (S & _). rewrite S in D.
      replace (Z.min e (Z.min e f)) with (Z.min e f) in D by lia.
      pose proof (shl_align_dyadic n f (Z.min e f)) as D'. destruct (shl_align_spec n f (Z.min e f)) as (S' & _). rewrite S' in D'.
      replace (Z.min f (Z.min e f)) with (Z.min e f) in D' by lia.
      assert (Sum : forall a b g, (dyadic (a + b) g == dyadic a g + dyadic b g)%Q).
      { intros. unfold dyadic. rewrite inject_Z_plus. ring. }
      rewrite Sum. change (inject_Z (cond_Zopp s (Zpos m)) * 2 ^ e)%Q with (dyadic (cond_Zopp s (Zpos m)) e).
      change (inject_Z (cond_Zopp t (Zpos n)) * 2 ^ f)%Q with (dyadic (cond_Zopp t (Zpos n)) f).
      assert (Opp : forall b p q g h, (dyadic (Zpos p) g == dyadic (Zpos q) h)%Q -> (dyadic (cond_Zopp b (Zpos p)) g == dyadic (cond_Zopp b (Zpos q)) h)%Q).
      { intros [] p q g h E; cbn [cond_Zopp]; [|exact E]. change (Zneg p) with (- Zpos p). change (Zneg q) with (- Zpos q). rewrite !dyadic_opp, E. reflexivity. }
      rewrite (Opp s _ _ _ _ D), (Opp t _ _ _ _ D'). reflexivity.
  Qed.

  (** The order of floats is that of their values. *)
  Lemma leb_value : forall x y v w, valid x = true -> valid y = true -> value x = Some v -> value y = Some w ->
    (SFleb x y = true <-> (v <= w)%Q).
  Proof.
    intros x y v w Vx Vy Ex Ey. split.
    - intro L. destruct (Qlt_le_dec w v) as [G|G]; [|exact G]. exfalso.
      destruct x as [s|s| |s m e]; destruct y as [t|t| |t n f]; try discriminate; cbn in Ex, Ey; injection Ex as <-; injection Ey as <-.
      + lra.
      + pose proof (dyadic_pos n f) as P. unfold dyadic in P. destruct t; [discriminate|]. cbn [cond_Zopp] in G. lra.
      + pose proof (dyadic_pos m e) as P. unfold dyadic in P. destruct s; [|discriminate]. cbn [cond_Zopp] in G.
        change (Zneg m) with (- Zpos m) in G. rewrite inject_Z_opp in G. lra.
      + pose proof (dyadic_pos m e) as P. pose proof (dyadic_pos n f) as P'. unfold dyadic in P, P'.
        destruct s, t; cbn [cond_Zopp] in G; try (change (Zneg m) with (- Zpos m) in G; rewrite inject_Z_opp in G);
          try (change (Zneg n) with (- Zpos n) in G; rewrite inject_Z_opp in G); try lra; try discriminate.
        * assert (L' : SFleb (S754_finite false n f) (S754_finite false m e) = true).
          { unfold SFleb, SFcompare in L |- *. rewrite (Z.compare_antisym e f). destruct (e ?= f); cbn [CompOpp]; try discriminate; try reflexivity.
            change (Pcompare m n Eq) with (m ?= n)%positive in L. change (Pcompare n m Eq) with (n ?= m)%positive. rewrite (Pos.compare_antisym m n).
            destruct (m ?= n)%positive; try discriminate; reflexivity. }
          apply (finite_order prec emax) in L'; auto. unfold dyadic in L'. lra.
        * apply (finite_order prec emax) in L; auto. unfold dyadic in L. lra.
    - intro L. apply (rnd_mono v w); try apply self_rnd; assumption.
  Qed.
End Format.

(** The integer part of a float, as std::floor gives it. *)
Definition floor_of (x : spec_float) : option Z := match value x with Some v => Some (Qfloor v) | None => None end.
