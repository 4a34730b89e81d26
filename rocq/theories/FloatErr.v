(** The error of rounding in SpecFloat: half a unit in the last place. *)
From Coq Require Import QArith Qpower Qabs Qround Lqa ZArith List Bool Lia SpecFloat.
From Verif Require Import FilterModel FilterSpec FloatOrder FloatRound FloatOps FloatMono.
Local Open Scope Z_scope.

Lemma near_even_half : forall m1 rem k, 0 <= k -> 0 <= rem < 2 ^ k ->
  - 2 ^ k <= 2 * (near_even m1 rem k * 2 ^ k) - 2 * (m1 * 2 ^ k + rem) <= 2 ^ k.
Proof.
  intros m1 rem k Hk Hr. unfold near_even, loc_of. destruct (Z.eqb_spec rem 0) as [E|E]; cbn [round_nearest_even]; [nia|].
  destruct (Z.compare_spec (2 * rem) (2 ^ k)) as [C|C|C]; try destruct (Z.even m1); nia.
Qed.

Section Format.
  Variables prec emax : Z.
  Hypothesis (Hprec : 1 < prec) (Hemax : prec < emax).
  Local Notation fexp := (fexp prec emax).
  Local Notation emin := (emin prec emax).

  (** The number that is rounded and the number it is rounded to. *)
  Lemma near_error : forall m e, 0 <= m -> e <= fexp (Zdigits2 m + e) ->
    let f := fexp (Zdigits2 m + e) in
    let a := near_even (whole prec emax m e) (left_ prec emax m e) (f - e) in
    (Qabs (dyadic a f - dyadic m e) <= dyadic m e * 2 ^ (- prec) + 2 ^ (emin - 1))%Q.
  Proof.
    intros m e Hm He f a. destruct (whole_shaped prec emax Hprec m e Hm He) as (W & Fe & N). fold f in Fe, N. cbv zeta.
    set (k := f - e). assert (Hk : 0 <= k) by (unfold k, f; lia). assert (P : 0 < 2 ^ k) by (apply Z.pow_pos_nonneg; lia).
    assert (Dm : m = whole prec emax m e * 2 ^ k + left_ prec emax m e).
    { unfold whole, left_. fold f. fold k. pose proof (Z.div_mod m (2 ^ k) ltac:(lia)). lia. }
    assert (Lr : 0 <= left_ prec emax m e < 2 ^ k) by (unfold left_; fold f; fold k; apply Z.mod_pos_bound; exact P).
    pose proof (near_even_half (whole prec emax m e) (left_ prec emax m e) k Hk Lr) as H. fold k in a. fold a in H.
    rewrite <- Dm in H.
    assert (Ef : (dyadic a f == dyadic (a * 2 ^ k) e)%Q).
    { replace f with (e + k) by (unfold k; lia). apply dyadic_shift. exact Hk. }
    assert (Half : (Qabs (dyadic a f - dyadic m e) <= dyadic 1 (f - 1))%Q).
    { assert (E1 : (dyadic a f == dyadic (2 * (a * 2 ^ k)) (e - 1))%Q).
      { rewrite Ef. replace e with (e - 1 + 1) at 1 by lia. rewrite dyadic_shift by lia. change (2 ^ 1) with 2.
        replace (a * 2 ^ k * 2) with (2 * (a * 2 ^ k)) by ring. reflexivity. }
      assert (E2 : (dyadic m e == dyadic (2 * m) (e - 1))%Q).
      { replace e with (e - 1 + 1) at 1 by lia. rewrite dyadic_shift by lia. change (2 ^ 1) with 2.
        replace (m * 2) with (2 * m) by ring. reflexivity. }
      assert (E3 : (dyadic 1 (f - 1) == dyadic (2 ^ k) (e - 1))%Q).
      { replace (f - 1) with (e - 1 + k) by (unfold k; lia). rewrite dyadic_shift by exact Hk. rewrite Z.mul_1_l. reflexivity. }
      rewrite E1, E2, E3.
      assert (E4 : (dyadic (2 * (a * 2 ^ k)) (e - 1) - dyadic (2 * m) (e - 1) == dyadic (2 * (a * 2 ^ k) - 2 * m) (e - 1))%Q).
      { unfold dyadic, Z.sub. rewrite inject_Z_plus, inject_Z_opp. ring. }
      rewrite E4. apply Qabs_Qle_condition. rewrite <- (dyadic_opp (2 ^ k) (e - 1)). split; apply dyadic_le; lia. }
    assert (Pn : (0 <= dyadic m e * 2 ^ (- prec))%Q).
    { apply Qmult_le_0_compat; [apply dyadic_nonneg; exact Hm|apply Qlt_le_weak, pow_pos]. }
    assert (Pe : (0 < 2 ^ (emin - 1))%Q) by apply pow_pos.
    assert (E5 : forall z, (dyadic 1 z == 2 ^ z)%Q) by (intros; unfold dyadic; ring).
    destruct (Z.eq_dec f emin) as [E|E].
    - rewrite E in Half at 2. rewrite (E5 (emin - 1)) in Half. lra.
    - specialize (N ltac:(lia)).
      assert (B : (dyadic 1 (f - 1) <= dyadic m e * 2 ^ (- prec))%Q).
      { assert (L : (dyadic (2 ^ (prec - 1)) f <= dyadic m e)%Q).
        { replace f with (e + k) by (unfold k; lia). rewrite dyadic_shift by exact Hk. apply dyadic_le. nia. }
        assert (E6 : (dyadic 1 (f - 1) == dyadic (2 ^ (prec - 1)) f * 2 ^ (- prec))%Q).
        { replace (f - 1) with (f + (prec - 1) + - prec) by lia. unfold dyadic at 1. rewrite pow_split.
          rewrite (pow_split f (prec - 1)), (pow_Z (prec - 1)) by lia. unfold dyadic. ring. }
        rewrite E6. apply Qmult_le_compat_r; [exact L|apply Qlt_le_weak, pow_pos]. }
      lra.
  Qed.

  (** A finite result differs from the exact one by at most half a unit in the last place. *)
  Lemma rnd_error : forall v x w, is_rnd prec emax v x -> value x = Some w ->
    (Qabs (w - v) <= Qabs v * 2 ^ (- prec) + 2 ^ (emin - 1))%Q.
  Proof.
    intros v x w [[Z (s & ->)]|(s & m & e & H & V & ->)] Ew.
    - cbn in Ew. injection Ew as <-. assert (E : (0 - v == 0)%Q) by lra. rewrite E, Z. change (Qabs 0) with 0%Q.
      pose proof (pow_pos (emin - 1)) as Pe. rewrite Qmult_0_l, Qplus_0_l. apply Qlt_le_weak, Pe.
    - pose proof (near_error (Zpos m) e ltac:(lia) H) as Er. cbv zeta in Er.
      rewrite aux_sign, aux_finish in Ew by (assumption || lia).
      destruct (finish_spec prec emax Hprec Hemax _ _ (near_shaped prec emax Hprec (Zpos m) e ltac:(lia) H)) as [(p & e2 & F & B & Vp)|[(F & A)|(F & A)]].
      + rewrite F in Ew. cbn in Ew. injection Ew as <-.
        assert (Ep : (inject_Z (Zpos p) * 2 ^ e2 == dyadic (Zpos p) e2)%Q) by reflexivity.
        pose proof (dyadic_pos m e) as Dp. pose proof (Qabs_pos (dyadic (Zpos m) e) ltac:(lra)) as Dq.
        destruct s; cbn [cond_Zopp] in V |- *.
        * change (Zneg m) with (- Zpos m) in V. rewrite dyadic_opp in V. change (Zneg p) with (- Zpos p). rewrite inject_Z_opp.
          assert (E1 : (- inject_Z (Zpos p) * 2 ^ e2 - v == - (dyadic (near_even (whole prec emax (Zpos m) e) (left_ prec emax (Zpos m) e) (fexp (Zdigits2 (Zpos m) + e) - e)) (fexp (Zdigits2 (Zpos m) + e)) - dyadic (Zpos m) e))%Q).
          { rewrite V, <- Vp. unfold dyadic. ring. }
          rewrite E1, Qabs_opp. rewrite V, Qabs_opp, Dq. exact Er.
        * assert (E1 : (inject_Z (Zpos p) * 2 ^ e2 - v == dyadic (near_even (whole prec emax (Zpos m) e) (left_ prec emax (Zpos m) e) (fexp (Zdigits2 (Zpos m) + e) - e)) (fexp (Zdigits2 (Zpos m) + e)) - dyadic (Zpos m) e)%Q).
          { rewrite V, <- Vp. unfold dyadic. ring. }
          rewrite E1. rewrite V, Dq. exact Er.
      + rewrite F in Ew. cbn in Ew. injection Ew as <-. rewrite A in Er.
        pose proof (dyadic_pos m e) as Dp. pose proof (Qabs_pos (dyadic (Zpos m) e) ltac:(lra)) as Dq. rewrite dyadic_zero in Er.
        assert (E1 : (Qabs (0 - v) == Qabs (0 - dyadic (Zpos m) e))%Q).
        { destruct s; cbn [cond_Zopp] in V; rewrite V; [|reflexivity]. change (Zneg m) with (- Zpos m). rewrite dyadic_opp.
          rewrite <- Qabs_opp. apply Qabs_wd. ring. }
        assert (E2 : (Qabs v == dyadic (Zpos m) e)%Q).
        { destruct s; cbn [cond_Zopp] in V; rewrite V; [|exact Dq]. change (Zneg m) with (- Zpos m). rewrite dyadic_opp, Qabs_opp. exact Dq. }
        rewrite E1, E2. exact Er.
      + rewrite F in Ew. discriminate.
  Qed.

  (** An infinite result comes from a number beyond the range. *)
  Lemma rnd_infinite : forall v x, is_rnd prec emax v x -> value x = None ->
    (2 ^ emax <= Qabs v + (Qabs v * 2 ^ (- prec) + 2 ^ (emin - 1)))%Q.
  Proof.
    intros v x [[Z (s & ->)]|(s & m & e & H & V & ->)] Ew; [discriminate|].
    pose proof (near_error (Zpos m) e ltac:(lia) H) as Er. cbv zeta in Er.
    rewrite aux_sign, aux_finish in Ew by (assumption || lia).
    destruct (finish_spec prec emax Hprec Hemax _ _ (near_shaped prec emax Hprec (Zpos m) e ltac:(lia) H)) as [(p & e2 & F & B & Vp)|[(F & A)|(F & A)]];
      rewrite F in Ew; try discriminate.
    pose proof (dyadic_pos m e) as Dp. pose proof (Qabs_pos (dyadic (Zpos m) e) ltac:(lra)) as Dq.
    assert (E2 : (Qabs v == dyadic (Zpos m) e)%Q).
    { destruct s; cbn [cond_Zopp] in V; rewrite V; [|exact Dq]. change (Zneg m) with (- Zpos m). rewrite dyadic_opp, Qabs_opp. exact Dq. }
    rewrite E2. apply Qabs_Qle_condition in Er.
    assert (E5 : (dyadic 1 emax == 2 ^ emax)%Q) by (unfold dyadic; ring). lra.
  Qed.
End Format.
