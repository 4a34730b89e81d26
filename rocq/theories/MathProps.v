(** Properties C60, C82, C83: integer and angle helpers. *)
From Coq Require Import ZArith List QArith Qabs Qround SpecFloat Lia Lqa.
From Verif Require Import Outcome MathModel.
Import ListNotations.

(** ** C60 *)
Theorem C60_clamp : forall v lo hi, (lo <= hi)%Z ->
  (lo <= iclamp v lo hi <= hi)%Z /\ ((lo <= v <= hi)%Z -> iclamp v lo hi = v) /\
  (v < lo -> iclamp v lo hi = lo)%Z /\ (hi < v -> iclamp v lo hi = hi)%Z.
Proof.
  intros v lo hi H. unfold iclamp, clamp. rewrite Z.gtb_ltb. destruct (Z.ltb_spec hi v); [lia|]. destruct (Z.ltb_spec v lo); lia.
Qed.
(** On doubles a NaN is returned unchanged. *)
Theorem C60_clamp_nan : forall lo hi, clamp (fun a b => SFltb b a) SFltb S754_nan lo hi = S754_nan.
Proof. intros lo hi. unfold clamp, SFltb. destruct lo, hi; reflexivity. Qed.

Section Power.
Variable T : Type.
Variable mul : T -> T -> T.
Variable one : T.
Fixpoint product (b : T) (n : nat) : T := match n with O => one | S m => mul b (product b m) end.
Theorem C60_power : forall n b fuel, (Z.of_nat n < 2 ^ 31)%Z -> (n < fuel)%nat -> power T mul one fuel b (Z.of_nat n) = Some (Ok (product b n)).
Proof.
  induction n as [|n IH]; intros b fuel Hn Hf; destruct fuel as [|fuel]; try lia; cbn [power product]; [reflexivity|].
  replace (Z.of_nat (S n) =? 0)%Z with false by (symmetry; apply Z.eqb_neq; lia).
  replace (Z.of_nat (S n) =? - 2 ^ 31)%Z with false by (symmetry; apply Z.eqb_neq; lia).
  replace (Z.of_nat (S n) - 1)%Z with (Z.of_nat n) by lia. rewrite IH by lia. reflexivity.
Qed.
(** A negative exponent never returns: the recursion goes on until the exponent overflows. *)
Theorem C60_power_negative : forall fuel b e x, (- 2 ^ 31 <= e < 0)%Z -> power T mul one fuel b e <> Some (Ok x).
Proof.
  induction fuel as [|fuel IH]; intros b e x He; cbn [power]; [discriminate|].
  replace (e =? 0)%Z with false by (symmetry; apply Z.eqb_neq; lia).
  destruct (Z.eqb_spec e (- 2 ^ 31)); [discriminate|]. specialize (IH b (e - 1)%Z).
  destruct (power T mul one fuel b (e - 1)) as [[y| | |]|]; cbn; try discriminate. exfalso. apply (IH y); [lia|reflexivity].
Qed.
Theorem C60_power_negative_depth : forall fuel b e, (- 2 ^ 31 <= e < 0)%Z -> (Z.of_nat fuel <= e + 2 ^ 31)%Z -> power T mul one fuel b e = None.
Proof.
  induction fuel as [|fuel IH]; intros b e He Hf; cbn [power]; [reflexivity|].
  replace (e =? 0)%Z with false by (symmetry; apply Z.eqb_neq; lia).
  destruct (Z.eqb_spec e (- 2 ^ 31)); [lia|]. rewrite IH by lia. reflexivity.
Qed.
End Power.
Example C60_power_example : power Z Z.mul 1%Z 4 3%Z 2%Z = Some (Ok 9%Z).
Proof. reflexivity. Qed.

(** ** C82 *)
Lemma Qlt_b_spec : forall a b, Qlt_b a b = true <-> a < b.
Proof.
  intros a b. unfold Qlt_b. rewrite Bool.negb_true_iff, <- Bool.not_true_iff_false, Qle_bool_iff. split; [apply Qnot_le_lt|apply Qlt_not_le].
Qed.
Definition congruent (pi x y : Q) : Prop := exists k : Z, y == x + inject_Z k * (2 * pi).
Lemma up_ok : forall pi fuel x, 0 < pi -> x <= pi -> - pi - inject_Z (Z.of_nat fuel) * (2 * pi) <= x ->
  exists y, norm_up Q Qlt_b Qplus (- pi) (2 * pi) fuel x = Some y /\ - pi <= y <= pi /\ congruent pi x y.
Proof.
  intros pi fuel. induction fuel as [|fuel IH]; intros x Hp H1 H2; cbn [norm_up].
  - destruct (Qlt_b x (- pi)) eqn:E.
    + exfalso. apply Qlt_b_spec in E. change (inject_Z (Z.of_nat 0)) with 0 in H2. lra.
    + exists x. split; [reflexivity|]. apply Bool.not_true_iff_false in E. rewrite Qlt_b_spec in E. apply Qnot_lt_le in E.
      split; [split; assumption|]. exists 0%Z. change (inject_Z 0) with 0. lra.
  - destruct (Qlt_b x (- pi)) eqn:E.
    + apply Qlt_b_spec in E. destruct (IH (x + 2 * pi) Hp) as (y & Y1 & Y2 & k & Y3); [lra| |].
      { rewrite Nat2Z.inj_succ in H2. unfold Z.succ in H2. rewrite inject_Z_plus in H2. change (inject_Z 1) with 1 in H2. lra. }
      exists y. split; [exact Y1|]. split; [exact Y2|]. exists (k + 1)%Z. rewrite inject_Z_plus. change (inject_Z 1) with 1. lra.
    + exists x. split; [reflexivity|]. apply Bool.not_true_iff_false in E. rewrite Qlt_b_spec in E. apply Qnot_lt_le in E.
      split; [split; assumption|]. exists 0%Z. change (inject_Z 0) with 0. lra.
Qed.
(** In exact arithmetic the loops end and bring the difference into [-pi, pi], changing it by a
    multiple of 2 pi. *)
Theorem C82_exact : forall pi x, 0 < pi -> exists fuel y, normalize_exact pi fuel x = Some y /\ - pi <= y <= pi /\ congruent pi x y.
Proof.
  intros pi x Hp. unfold normalize_exact.
  assert (forall fuel x, x <= pi + inject_Z (Z.of_nat fuel) * (2 * pi) -> - pi - inject_Z (Z.of_nat fuel) * (2 * pi) <= x ->
    exists y, norm_down Q (fun a b => Qlt_b b a) Qlt_b Qplus Qminus pi (- pi) (2 * pi) fuel x = Some y /\ - pi <= y <= pi /\ congruent pi x y) as Go.
  { clear x. induction fuel as [|fuel IH]; intros x H1 H2; cbn [norm_down].
    - destruct (Qlt_b pi x) eqn:E.
      + exfalso. apply Qlt_b_spec in E. change (inject_Z (Z.of_nat 0)) with 0 in H1. lra.
      + apply up_ok; [exact Hp|change (inject_Z (Z.of_nat 0)) with 0 in H1; lra|exact H2].
    - destruct (Qlt_b pi x) eqn:E.
      + apply Qlt_b_spec in E. assert (0 <= inject_Z (Z.of_nat fuel)) as Fp by (unfold Qle; cbn; lia).
        assert (0 <= inject_Z (Z.of_nat fuel) * (2 * pi)) as Fp' by (apply Qmult_le_0_compat; [exact Fp|lra]).
        rewrite Nat2Z.inj_succ in H1. unfold Z.succ in H1. rewrite inject_Z_plus in H1. change (inject_Z 1) with 1 in H1.
        destruct (IH (x - 2 * pi)) as (y & Y1 & Y2 & k & Y3); [lra|lra|].
        exists y. split; [exact Y1|]. split; [exact Y2|]. exists (k - 1)%Z. unfold Z.sub. rewrite inject_Z_plus, inject_Z_opp. change (inject_Z 1) with 1. lra.
      + apply Bool.not_true_iff_false in E. rewrite Qlt_b_spec in E. apply Qnot_lt_le in E. apply up_ok; assumption. }
  set (b := Qceiling (Qabs x / (2 * pi))).
  assert (Qabs x <= inject_Z b * (2 * pi)) as Hb.
  { assert (Qabs x / (2 * pi) <= inject_Z b) by apply Qle_ceiling.
    setoid_replace (Qabs x) with ((Qabs x / (2 * pi)) * (2 * pi)) at 1 by (field; lra).
    apply Qmult_le_compat_r; [assumption|lra]. }
  assert (0 <= b)%Z as Pb.
  { assert (0 <= Qabs x / (2 * pi)) as Z0. { apply Qle_shift_div_l; [lra|]. rewrite Qmult_0_l. apply Qabs_nonneg. }
    pose proof (Qle_ceiling (Qabs x / (2 * pi))) as C0. fold b in C0.
    assert (0 <= inject_Z b) as C1 by lra. unfold Qle in C1. cbn in C1. lia. }
  exists (Z.to_nat b). apply Go; rewrite Z2Nat.id by exact Pb.
  - pose proof (Qle_Qabs x). lra.
  - pose proof (Qle_Qabs (- x)) as H. rewrite Qabs_opp in H. lra.
Qed.
(** On doubles the loop does not end for infinite values ... *)
Theorem C82_infinite : forall b fuel, normalize_double fuel (S754_infinity b) = None.
Proof.
  intros b fuel. unfold normalize_double. destruct b.
  - assert (forall fuel, norm_up spec_float SFltb (SFadd 53 1024) d_mpi d_twopi fuel (S754_infinity true) = None) as U.
    { induction fuel0; cbn; auto. }
    destruct fuel; cbn; [reflexivity|]. apply U.
  - induction fuel; cbn; [reflexivity|exact IHfuel].
Qed.
(** ... nor for large finite ones, for instance 2^57. *)
Theorem C82_large : forall fuel, normalize_double fuel (S754_finite false 4503599627370496 5) = None.
Proof.
  intros fuel. unfold normalize_double. induction fuel as [|fuel IH]; cbn [norm_down]; [reflexivity|].
  replace (SFltb d_pi (S754_finite false 4503599627370496 5)) with true by (vm_compute; reflexivity).
  replace (SFsub 53 1024 (S754_finite false 4503599627370496 5) d_twopi) with (S754_finite false 4503599627370496 5) by (vm_compute; reflexivity).
  exact IH.
Qed.
(** On doubles: values in [-pi, pi] (pi rounded to a double, 0x400921FB54442D18) and NaN are
    returned unchanged; a value above that from which one subtraction of 2 pi (0x401921FB54442D18)
    leads into the interval is replaced by the rounded difference, and one below by the sum. *)
Definition pi64 : spec_float := S754_finite false 7074237752028440 (-51).
Definition mpi64 : spec_float := S754_finite true 7074237752028440 (-51).
Definition twopi64 : spec_float := S754_finite false 7074237752028440 (-50).
Definition in_range (x : spec_float) : Prop := SFltb pi64 x = false /\ SFltb x mpi64 = false.
Theorem C82_double_steps : forall fuel x,
  (in_range x -> normalize_double fuel x = Some x) /\
  (SFltb pi64 x = true -> in_range (SFsub 53 1024 x twopi64) ->
     normalize_double (S fuel) x = Some (SFsub 53 1024 x twopi64)) /\
  (SFltb pi64 x = false -> SFltb x mpi64 = true -> in_range (SFadd 53 1024 x twopi64) ->
     normalize_double (S fuel) x = Some (SFadd 53 1024 x twopi64)).
Proof.
  intros fuel x. unfold normalize_double.
  change d_pi with pi64. change d_mpi with mpi64. change d_twopi with twopi64.
  assert (forall f y, in_range y -> norm_down spec_float (fun a b => SFltb b a) SFltb (SFadd 53 1024) (SFsub 53 1024) pi64 mpi64 twopi64 f y = Some y) as In.
  { intros f y [A B]. destruct f; cbn [norm_down norm_up]; rewrite A, B; reflexivity. }
  split; [apply In|]. split.
  - intros A B. cbn [norm_down]. rewrite A. apply In, B.
  - intros A B [C D]. cbn [norm_down norm_up]. rewrite A, B. destruct fuel; cbn [norm_up]; rewrite D; reflexivity.
Qed.
Example C82_double_nan : in_range S754_nan.
Proof. split; reflexivity. Qed.
Example C82_double_ex : exists y, normalize_double 1 (S754_finite false 4503599627370496 (-50)) = Some y /\
  in_range y /\ SFltb y (S754_zero false) = true.
Proof. eexists. split; [vm_compute; reflexivity|]. split; [split|]; vm_compute; reflexivity. Qed.
Example C82_example : normalize_exact (22 # 7) 3 10 = Some (10 - 2 * (22 # 7) - 2 * (22 # 7)).
Proof. vm_compute. reflexivity. Qed.

(** ** C83 *)
Definition veq (a b : vec3) : Prop := let '(x, y, z) := a in let '(u, v, w) := b in x == u /\ y == v /\ z == w.
(** Averaging no transform aborts, averaging copies of one transform gives it back. *)
Theorem C83_average : average [] = Abort /\
  forall t r n, exists t' r', average (repeat (t, r) (S n)) = Ok (t', r') /\ veq t' t /\ veq r' r.
Proof.
  split; [reflexivity|]. intros t r n.
  assert (forall (f : vec3 * vec3 -> vec3) v, f (t, r) = v -> forall n a, veq (fold_left (fun a x => vadd a (f x)) (repeat (t, r) n) a)
    (let '(p, q, s) := a in let '(x, y, z) := v in (p + inject_Z (Z.of_nat n) * x, q + inject_Z (Z.of_nat n) * y, s + inject_Z (Z.of_nat n) * z))) as Go.
  { intros f v Hv. induction n0 as [|m IH]; intros [[p q] s].
    - cbn. destruct v as [[x y] z]. repeat split; ring.
    - cbn [repeat fold_left]. rewrite Hv. specialize (IH (vadd (p, q, s) v)). destruct v as [[x y] z]. cbn [vadd] in IH |- *.
      destruct (fold_left (fun a x0 => vadd a (f x0)) (repeat (t, r) m) ((p + x)%Q, (q + y)%Q, (s + z)%Q)) as [[u1 u2] u3].
      rewrite Nat2Z.inj_succ. unfold Z.succ. cbn in IH |- *. destruct IH as (E1 & E2 & E3). rewrite E1, E2, E3, !inject_Z_plus.
      change (inject_Z 1) with 1. repeat split; ring. }
  unfold average. cbn [repeat]. change ((t, r) :: repeat (t, r) n) with (repeat (t, r) (S n)). rewrite repeat_length.
  pose proof (Go fst t eq_refl (S n) (0, 0, 0)) as Gt. pose proof (Go snd r eq_refl (S n) (0, 0, 0)) as Gr.
  destruct (fold_left (fun a x => vadd a (fst x)) (repeat (t, r) (S n)) (0, 0, 0)) as [[a1 a2] a3].
  destruct (fold_left (fun a x => vadd a (snd x)) (repeat (t, r) (S n)) (0, 0, 0)) as [[b1 b2] b3].
  eexists _, _. split; [reflexivity|]. destruct t as [[x y] z], r as [[u v] w]. cbn [vdiv veq] in *.
  assert (~ inject_Z (Z.of_nat (S n)) == 0) as N0 by (unfold Qeq; cbn; lia).
  destruct Gt as (T1 & T2 & T3), Gr as (R1 & R2 & R3). rewrite T1, T2, T3, R1, R2, R3. repeat split; field; exact N0.
Qed.
(** Headings just left and right of backwards average to forwards: for every small [e] the mean
    of the yaws pi - e and -(pi - e) is 0, although both are within e of pi (mod 2 pi). *)
Theorem C83_wraparound : forall pi e : Q, exists t r y, average [((0, 0, 0), (0, 0, pi - e)); ((0, 0, 0), (0, 0, - (pi - e)))] = Ok (t, (r, y)) /\
  y == 0 /\ congruent pi (- (pi - e)) (pi + e).
Proof.
  intros pi e. eexists _, _, _. split; [unfold average; cbn [fold_left fst snd vadd vdiv length]; reflexivity|]. split.
  - cbn. field.
  - exists 1%Z. change (inject_Z 1) with 1. ring.
Qed.

Print Assumptions C60_clamp.
Print Assumptions C60_clamp_nan.
Print Assumptions C60_power.
Print Assumptions C60_power_negative.
Print Assumptions C60_power_negative_depth.
Print Assumptions C82_exact.
Print Assumptions C82_infinite.
Print Assumptions C82_large.
Print Assumptions C82_double_steps.
Print Assumptions C83_average.
Print Assumptions C83_wraparound.
