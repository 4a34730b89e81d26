(** Proofs about the check of points. *)
From Coq Require Import QArith Qpower Qabs Lqa ZArith List Bool Lia SpecFloat.
From Verif Require Import Outcome FilterModel FilterSpec FloatOrder FloatRound FloatOps FloatMono FloatErr FloatTrunc PointModel.
Import ListNotations.
Local Open Scope Z_scope.

Definition fvalid (x : fl) : Prop := valid_binary 24 128 x = true.
Definition pvalid (p : point) : Prop := fvalid (px p) /\ fvalid (py p) /\ fvalid (pz p).
Local Notation pls := (plus 24 128).

(** ** The root *)
Lemma widen_value : forall x q, pls x -> value x = Some q -> exists w, valid_binary 53 1024 (widen x) = true /\ value (widen x) = Some w /\ (w == q)%Q.
Proof.
  intros [[]|[]| |[] m e] q P E; try contradiction; try discriminate.
  - exists 0%Q. cbn in E. injection E as <-. repeat split; reflexivity.
  - destruct (widen_spec m e P) as (n & f & -> & B & V). cbn in E. injection E as <-. eexists. split; [exact B|]. split; [reflexivity|]. exact V.
Qed.
Lemma valid_length_value : valid_binary 53 1024 valid_length = true /\ exists w, value valid_length = Some w /\ (w == 100000000)%Q.
Proof. split; [reflexivity|]. eexists. split; [reflexivity|]. vm_compute. reflexivity. Qed.

(** The root of a float is below 1e8 just if the float is below 1e16. *)
Lemma root_below : forall s, pls s ->
  ((exists q, value s = Some q /\ (q < 10000000000000000)%Q) -> is_finite (widen (fsqrt s)) = true /\ SFltb (widen (fsqrt s)) valid_length = true) /\
  (~ (exists q, value s = Some q /\ (q < 10000000000000000)%Q) -> SFltb (widen (fsqrt s)) valid_length = false /\ SFleb valid_length (widen (fsqrt s)) = true).
Proof.
  intros s P.
  assert (Num : forall x, pls x -> num x) by (intros x Px; apply num_nan; intros ->; exact Px).
  assert (Vl := valid_length_value). destruct Vl as (Vb & wl & Vw & El).
  assert (Low : SFleb (fsqrt s) (S754_finite false 12499999 3) = true ->
    is_finite (widen (fsqrt s)) = true /\ SFltb (widen (fsqrt s)) valid_length = true).
  { intros L. pose proof (sqrt_plus 24 128 ltac:(lia) ltac:(lia) s P) as Pr. fold fsqrt in Pr.
    assert (Vr : exists r, value (fsqrt s) = Some r).
    { destruct (fsqrt s) as [[]|[]| |[] m e]; try contradiction; try discriminate; eexists; reflexivity. }
    destruct Vr as (r & Vr). destruct (widen_value _ _ Pr Vr) as (w & Bw & Ww & Ew).
    assert (Lr : (r <= 99999992)%Q).
    { pose proof (proj1 (leb_value 24 128 ltac:(lia) ltac:(lia) (fsqrt s) (S754_finite false 12499999 3) r (inject_Z 12499999 * 2 ^ 3)%Q (plus_valid 24 128 _ Pr) eq_refl Vr eq_refl) L) as H.
      eapply Qle_trans; [exact H|]. vm_compute. discriminate. }
    split; [destruct (widen (fsqrt s)); try discriminate; reflexivity|].
    destruct (SFltb (widen (fsqrt s)) valid_length) eqn:E; [reflexivity|]. exfalso.
    apply SFltb_false in E; [|apply num_nan; intros N; rewrite N in Ww; discriminate|apply num_nan; vm_compute; discriminate].
    apply (proj1 (leb_value 53 1024 ltac:(lia) ltac:(lia) valid_length (widen (fsqrt s)) wl w Vb Bw Vw Ww)) in E. lra. }
  split.
  - intros (q & Vq & L). apply Low. destruct s as [[]|[]| |[] m e]; try contradiction; try discriminate; [reflexivity|].
    cbn in Vq. injection Vq as <-. cbn in P.
    destruct (sqrt_finite 24 128 ltac:(lia) ltac:(lia) m e) as (_ & R).
    destruct (R (S754_finite false 12499999 3) (inject_Z 12499999 * 2 ^ 3)%Q eq_refl eq_refl) as (_ & R2).
    assert (K : SFleb (S754_finite false m e) (S754_finite false 9313225 30) = true).
    { destruct (SFleb (S754_finite false m e) (S754_finite false 9313225 30)) eqn:E; [reflexivity|]. exfalso.
      assert (N : SFleb (S754_finite false 9313226 30) (S754_finite false m e) = true).
      { unfold SFleb, SFcompare in E |- *. rewrite (Z.compare_antisym e 30). destruct (e ?= 30); cbn [CompOpp]; try discriminate; try reflexivity.
        change (Pcompare m 9313225 Eq) with (m ?= 9313225)%positive in E. change (Pcompare 9313226 m Eq) with (9313226 ?= m)%positive.
        destruct (Pos.compare_spec m 9313225), (Pos.compare_spec 9313226 m); try discriminate; try reflexivity; lia. }
      apply (proj1 (leb_value 24 128 ltac:(lia) ltac:(lia) (S754_finite false 9313226 30) (S754_finite false m e) (inject_Z 9313226 * 2 ^ 30)%Q (inject_Z (Zpos m) * 2 ^ e)%Q eq_refl P eq_refl eq_refl)) in N.
      assert (B : (10000000000000000 <= inject_Z 9313226 * 2 ^ 30)%Q) by (vm_compute; discriminate). lra. }
    destruct (SFleb (S754_finite false m e) (S754_finite false 9313224 30)) eqn:E.
    + apply R2. split; [vm_compute; discriminate|].
      apply (proj1 (leb_value 24 128 ltac:(lia) ltac:(lia) (S754_finite false m e) (S754_finite false 9313224 30) (inject_Z (Zpos m) * 2 ^ e)%Q (inject_Z 9313224 * 2 ^ 30)%Q P eq_refl eq_refl eq_refl)) in E.
      eapply Qle_trans; [exact E|]. vm_compute. discriminate.
    + assert (Eq : S754_finite false m e = S754_finite false 9313225 30).
      { unfold SFleb, SFcompare in E, K. destruct (Z.compare_spec e 30) as [->|?|?]; try discriminate.
        change (Pcompare m 9313225 Eq) with (m ?= 9313225)%positive in K. change (Pcompare m 9313224 Eq) with (m ?= 9313224)%positive in E.
        destruct (Pos.compare_spec m 9313225), (Pos.compare_spec m 9313224); try discriminate; try lia; subst; reflexivity. }
      rewrite Eq. vm_compute. reflexivity.
  - intros N.
    assert (G : SFleb valid_length (widen (fsqrt s)) = true).
    { destruct s as [[]|[]| |[] m e]; try contradiction.
      - exfalso. apply N. exists 0%Q. split; reflexivity.
      - reflexivity.
      - cbn in P. assert (Q1 : (10000000000000000 <= dyadic (Zpos m) e)%Q).
        { apply Qnot_lt_le. intros F. apply N. eexists. split; [reflexivity|]. exact F. }
        destruct (sqrt_finite 24 128 ltac:(lia) ltac:(lia) m e) as (Pr & R).
        destruct (R (S754_finite false 12500000 3) (inject_Z 12500000 * 2 ^ 3)%Q eq_refl eq_refl) as (R1 & _).
        assert (L : SFleb (S754_finite false 12500000 3) (fsqrt (S754_finite false m e)) = true).
        { apply R1. right. eapply Qle_trans; [|exact Q1]. vm_compute. discriminate. }
        fold fsqrt in Pr. destruct (fsqrt (S754_finite false m e)) as [[]|[]| |[] n f] eqn:Er; try contradiction; try discriminate; [reflexivity|].
        destruct (widen_value _ _ Pr eq_refl) as (w & Bw & Ww & Ew).
        apply (proj2 (leb_value 53 1024 ltac:(lia) ltac:(lia) valid_length (widen (S754_finite false n f)) wl w Vb Bw Vw Ww)).
        apply (proj1 (leb_value 24 128 ltac:(lia) ltac:(lia) (S754_finite false 12500000 3) (S754_finite false n f) (inject_Z 12500000 * 2 ^ 3)%Q (inject_Z (Zpos n) * 2 ^ f)%Q eq_refl Pr eq_refl eq_refl)) in L.
        assert (B : (100000000 <= inject_Z 12500000 * 2 ^ 3)%Q) by (vm_compute; discriminate). cbn [cond_Zopp] in Ew. lra. }
    split; [|exact G]. destruct (SFltb (widen (fsqrt s)) valid_length) eqn:E; [|reflexivity]. exfalso.
    pose proof (SFltb_leb_trans _ _ _ E G) as F. unfold SFltb in F. rewrite SFcompare_key in F.
    apply SFltb_num in E. destruct E as [E _]. apply num_key in E. destruct E as (a & E). rewrite E in F.
    destruct (kcmp a a) eqn:C; try discriminate. apply kcmp_lt in C. apply (klt_irrefl _ C).
Qed.

(** ** The sum of squares *)
Lemma finite_num : forall x, is_finite x = true -> x <> S754_nan.
Proof. intros x H ->. discriminate. Qed.
Lemma finite_value : forall x, is_finite x = true <-> exists q, value x = Some q.
Proof. intros [[]|[]| |[] m e]; cbn; split; intros H; try reflexivity; try (eexists; reflexivity); try discriminate; destruct H; discriminate. Qed.
Lemma squares_plus : forall p, pvalid p -> is_finite (px p) = true -> is_finite (py p) = true -> is_finite (pz p) = true ->
  pls (fmul (px p) (px p)) /\ pls (fmul (py p) (py p)) /\ pls (fmul (pz p) (pz p)) /\ pls (fadd (fmul (px p) (px p)) (fmul (py p) (py p))) /\ pls (squares p).
Proof.
  intros p (Vx & Vy & Vz) Fx Fy Fz.
  pose proof (square_plus 24 128 ltac:(lia) ltac:(lia) _ Vx (finite_num _ Fx)) as Sx.
  pose proof (square_plus 24 128 ltac:(lia) ltac:(lia) _ Vy (finite_num _ Fy)) as Sy.
  pose proof (square_plus 24 128 ltac:(lia) ltac:(lia) _ Vz (finite_num _ Fz)) as Sz.
  destruct (add_plus 24 128 ltac:(lia) ltac:(lia) _ _ Sx Sy) as (Sxy & _).
  destruct (add_plus 24 128 ltac:(lia) ltac:(lia) _ _ Sxy Sz) as (S & _). repeat split; assumption.
Qed.

(** ** CheckPoint and FATAL_CHECK_POINT *)
Definition small (p : point) : Prop := exists q, value (squares p) = Some q /\ (q < 10000000000000000)%Q.
Definition coords_finite (p : point) : Prop := is_finite (px p) = true /\ is_finite (py p) = true /\ is_finite (pz p) = true.
Lemma small_dec : forall p, small p \/ ~ small p.
Proof.
  intros p. unfold small. destruct (value (squares p)) as [q|]; [|right; intros (q & H & _); discriminate].
  destruct (Qlt_le_dec q 10000000000000000) as [L|L]; [left; eauto|right]. intros (r & H & G). injection H as <-. lra.
Qed.
Lemma fatal_finite : forall x, is_finite x && negb (is_nan x) = is_finite x.
Proof. intros [| | |]; reflexivity. Qed.
Lemma infnan_finite : forall x, is_inf x || is_nan x = negb (is_finite x).
Proof. intros [| | |]; reflexivity. Qed.
Lemma fatal_cases : forall p, pvalid p ->
  (coords_finite p /\ small p -> fatal_point p = Ok tt /\ check_point p = true) /\
  (~ (coords_finite p /\ small p) -> fatal_point p = Abort /\ check_point p = false).
Proof.
  intros p V. unfold fatal_point, check_point, bind, check. rewrite !fatal_finite.
  replace (is_inf (px p) || is_inf (py p) || is_inf (pz p) || is_nan (px p) || is_nan (py p) || is_nan (pz p))
    with (negb (is_finite (px p) && is_finite (py p) && is_finite (pz p)))
    by (destruct (px p), (py p), (pz p); reflexivity).
  split.
  - intros ((Fx & Fy & Fz) & S). rewrite Fx, Fy, Fz. cbn [andb negb].
    destruct (squares_plus p V Fx Fy Fz) as (_ & _ & _ & _ & P). destruct (root_below _ P) as (A & _). specialize (A S).
    fold (length_of p) in A. destruct A as (A & B). rewrite A, B. split; [reflexivity|].
    assert (I : is_inf (length_of p) = false) by (destruct (length_of p); try discriminate; reflexivity). rewrite I. cbn [orb].
    destruct (SFleb valid_length (length_of p)) eqn:E; [|reflexivity]. exfalso.
    pose proof (SFltb_leb_trans _ _ _ B E) as F. apply SFltb_key in F. destruct F as (a & b & Ea & Eb & L).
    rewrite Ea in Eb. injection Eb as <-. apply (klt_irrefl _ L).
  - intros N. destruct (is_finite (px p)) eqn:Fx; cbn [andb negb]; [|split; reflexivity].
    destruct (is_finite (py p)) eqn:Fy; cbn [andb negb]; [|split; reflexivity].
    destruct (is_finite (pz p)) eqn:Fz; cbn [andb negb]; [|split; reflexivity].
    destruct (squares_plus p V Fx Fy Fz) as (_ & _ & _ & _ & P). destruct (root_below _ P) as (_ & B).
    assert (NS : ~ small p) by (intros S; apply N; repeat split; assumption). specialize (B NS). fold (length_of p) in B. destruct B as (B & C).
    rewrite B, C, orb_true_r. destruct (is_finite (length_of p)); split; reflexivity.
Qed.

(** ** The sum against the exact one *)
Definition tiny : Q := (2 ^ (-150))%Q.
Definition unit_ : Q := (2 ^ (-24))%Q.
Lemma mul_error0 : forall x v, fvalid x -> value x = Some v ->
  (forall w, value (fmul x x) = Some w -> ((1 - unit_) * (v * v) - tiny <= w /\ w <= (1 + unit_) * (v * v) + tiny)%Q) /\
  (value (fmul x x) = None -> (2 ^ 128 <= (1 + unit_) * (v * v) + tiny)%Q).
Proof.
  intros x v V E. pose proof (mul_rnd 24 128 ltac:(lia) ltac:(lia) x x v v V V E E) as R.
  assert (Sq : (0 <= v * v)%Q) by nra. pose proof (Qabs_pos (v * v) Sq) as Ab.
  change (2 ^ (- 24))%Q with unit_ in *. split.
  - intros w W. pose proof (rnd_error 24 128 ltac:(lia) ltac:(lia) _ _ _ R W) as H. rewrite Ab in H.
    change (2 ^ (emin 24 128 - 1))%Q with tiny in H. change (2 ^ (- (24)))%Q with unit_ in H. apply Qabs_Qle_condition in H.
    generalize dependent unit_. generalize dependent tiny. generalize dependent (v * v)%Q. intros. split; lra.
  - intros W. pose proof (rnd_infinite 24 128 ltac:(lia) ltac:(lia) _ _ R W) as H. rewrite Ab in H.
    change (2 ^ (emin 24 128 - 1))%Q with tiny in H. change (2 ^ (- (24)))%Q with unit_ in H.
    generalize dependent (2 ^ 128)%Q. generalize dependent unit_. generalize dependent tiny. generalize dependent (v * v)%Q. intros. lra.
Qed.
Lemma add_error0 : forall x y v w, fvalid x -> fvalid y -> value x = Some v -> value y = Some w -> (0 <= v)%Q -> (0 <= w)%Q ->
  (forall z, value (fadd x y) = Some z -> ((1 - unit_) * (v + w) - tiny <= z /\ z <= (1 + unit_) * (v + w) + tiny)%Q) /\
  (value (fadd x y) = None -> (2 ^ 128 <= (1 + unit_) * (v + w) + tiny)%Q).
Proof.
  intros x y v w Vx Vy Ex Ey Hv Hw. pose proof (add_rnd 24 128 x y v w Vx Vy Ex Ey) as R.
  assert (Hvw : (0 <= v + w)%Q) by (clear R; lra). pose proof (Qabs_pos (v + w) Hvw) as Ab. split.
  - intros z W. pose proof (rnd_error 24 128 ltac:(lia) ltac:(lia) _ _ _ R W) as H. rewrite Ab in H.
    change (2 ^ (emin 24 128 - 1))%Q with tiny in H. change (2 ^ (- (24)))%Q with unit_ in H. apply Qabs_Qle_condition in H.
    generalize dependent (v + w)%Q. generalize dependent unit_. generalize dependent tiny. intros. split; lra.
  - intros W. pose proof (rnd_infinite 24 128 ltac:(lia) ltac:(lia) _ _ R W) as H. rewrite Ab in H.
    change (2 ^ (emin 24 128 - 1))%Q with tiny in H. change (2 ^ (- (24)))%Q with unit_ in H.
    generalize dependent (v + w)%Q. generalize dependent (2 ^ 128)%Q. generalize dependent unit_. generalize dependent tiny. intros. lra.
Qed.
Lemma coarse : forall a w : Q, ((1 - unit_) * a - tiny <= w -> w <= (1 + unit_) * a + tiny -> 0 <= a ->
  (1 - (1 # 16777216)) * a - (1 # 1000) <= w /\ w <= (1 + (1 # 16777216)) * a + (1 # 1000))%Q.
Proof.
  intros a w. assert (U : (unit_ == 1 # 16777216)%Q) by reflexivity. assert (T : (tiny <= 1 # 1000)%Q) by (vm_compute; discriminate).
  rewrite U. generalize dependent tiny. intros. split; lra.
Qed.
Lemma coarse_big : forall a : Q, (2 ^ 128 <= (1 + unit_) * a + tiny -> 100000000000000000000 <= (1 + (1 # 16777216)) * a + (1 # 1000))%Q.
Proof.
  intros a. assert (U : (unit_ == 1 # 16777216)%Q) by reflexivity. assert (T : (tiny <= 1 # 1000)%Q) by (vm_compute; discriminate).
  assert (Big : (100000000000000000000 <= 2 ^ 128)%Q) by (vm_compute; discriminate). rewrite U.
  generalize dependent tiny. generalize dependent (2 ^ 128)%Q. intros. lra.
Qed.
Lemma mul_error : forall x v, fvalid x -> value x = Some v ->
  (forall w, value (fmul x x) = Some w -> ((1 - (1 # 16777216)) * (v * v) - (1 # 1000) <= w /\ w <= (1 + (1 # 16777216)) * (v * v) + (1 # 1000))%Q) /\
  (value (fmul x x) = None -> (100000000000000000000 <= (1 + (1 # 16777216)) * (v * v) + (1 # 1000))%Q).
Proof.
  intros x v V E. destruct (mul_error0 x v V E) as (A & B). assert (Sq : (0 <= v * v)%Q) by nra. split.
  - intros w W. destruct (A w W). apply coarse; assumption.
  - intros W. apply coarse_big, B, W.
Qed.
Lemma add_error : forall x y v w, fvalid x -> fvalid y -> value x = Some v -> value y = Some w -> (0 <= v)%Q -> (0 <= w)%Q ->
  (forall z, value (fadd x y) = Some z -> ((1 - (1 # 16777216)) * (v + w) - (1 # 1000) <= z /\ z <= (1 + (1 # 16777216)) * (v + w) + (1 # 1000))%Q) /\
  (value (fadd x y) = None -> (100000000000000000000 <= (1 + (1 # 16777216)) * (v + w) + (1 # 1000))%Q).
Proof.
  intros x y v w Vx Vy Ex Ey Hv Hw. destruct (add_error0 x y v w Vx Vy Ex Ey Hv Hw) as (A & B). assert (Sq : (0 <= v + w)%Q) by lra. split.
  - intros z W. destruct (A z W). apply coarse; assumption.
  - intros W. apply coarse_big, B, W.
Qed.
Lemma plus_value_nonneg : forall x q, pls x -> value x = Some q -> (0 <= q)%Q.
Proof.
  intros [[]|[]| |[] m e] q P E; try contradiction; try discriminate; cbn in E; injection E as <-; [lra|].
  apply (dyadic_nonneg (Zpos m) e). lia.
Qed.
Lemma plus_add_none : forall x y, pls x -> pls y -> value x = None \/ value y = None -> value (fadd x y) = None.
Proof.
  intros [[]|[]| |[] m e] [[]|[]| |[] n f] Px Py [H|H]; try contradiction; try discriminate; reflexivity.
Qed.

(** Sums of which the exact value is 1e16 less 1.8e9 or more by as much. *)
Lemma squares_margin : forall p x y z, pvalid p -> value (px p) = Some x -> value (py p) = Some y -> value (pz p) = Some z ->
  ((x * x + y * y + z * z <= 99999991 * 99999991)%Q -> small p) /\
  ((100000009 * 100000009 <= x * x + y * y + z * z)%Q -> ~ small p).
Proof.
  intros p x y z V Ex Ey Ez.
  assert (Fx : is_finite (px p) = true) by (apply finite_value; eauto).
  assert (Fy : is_finite (py p) = true) by (apply finite_value; eauto).
  assert (Fz : is_finite (pz p) = true) by (apply finite_value; eauto).
  destruct (squares_plus p V Fx Fy Fz) as (Px & Py & Pz & Pxy & P). destruct V as (Vx & Vy & Vz).
  destruct (mul_error _ _ Vx Ex) as (Mx & Nx). destruct (mul_error _ _ Vy Ey) as (My & Ny). destruct (mul_error _ _ Vz Ez) as (Mz & Nz).
  assert (Sx : (0 <= x * x)%Q) by nra. assert (Sy : (0 <= y * y)%Q) by nra. assert (Sz : (0 <= z * z)%Q) by nra.
  set (X := (x * x)%Q) in *. set (Y := (y * y)%Q) in *. set (Z := (z * z)%Q) in *. clearbody X Y Z.
  split.
  - intros L.
    assert (Cx : exists a, value (fmul (px p) (px p)) = Some a).
    { destruct (value (fmul (px p) (px p))) as [a|]; [eauto|]. specialize (Nx eq_refl). lra. }
    assert (Cy : exists a, value (fmul (py p) (py p)) = Some a).
    { destruct (value (fmul (py p) (py p))) as [a|]; [eauto|]. specialize (Ny eq_refl). lra. }
    assert (Cz : exists a, value (fmul (pz p) (pz p)) = Some a).
    { destruct (value (fmul (pz p) (pz p))) as [a|]; [eauto|]. specialize (Nz eq_refl). lra. }
    destruct Cx as (a & Ea), Cy as (b & Eb), Cz as (c & Ec).
    specialize (Mx a Ea). specialize (My b Eb). specialize (Mz c Ec).
    pose proof (plus_value_nonneg _ _ Px Ea). pose proof (plus_value_nonneg _ _ Py Eb). pose proof (plus_value_nonneg _ _ Pz Ec).
    destruct (add_error _ _ a b (plus_valid 24 128 _ Px) (plus_valid 24 128 _ Py) Ea Eb ltac:(lra) ltac:(lra)) as (Mab & Nab).
    assert (Cab : exists d, value (fadd (fmul (px p) (px p)) (fmul (py p) (py p))) = Some d).
    { destruct (value (fadd (fmul (px p) (px p)) (fmul (py p) (py p)))) as [d|]; [eauto|]. specialize (Nab eq_refl). lra. }
    destruct Cab as (d & Ed). specialize (Mab d Ed). pose proof (plus_value_nonneg _ _ Pxy Ed).
    destruct (add_error _ _ d c (plus_valid 24 128 _ Pxy) (plus_valid 24 128 _ Pz) Ed Ec ltac:(lra) ltac:(lra)) as (Ms & Ns).
    unfold small, squares. destruct (value (fadd (fadd (fmul (px p) (px p)) (fmul (py p) (py p))) (fmul (pz p) (pz p)))) as [s|].
    + exists s. split; [reflexivity|]. specialize (Ms s eq_refl). lra.
    + specialize (Ns eq_refl). lra.
  - intros L (s & Es & Ls). unfold squares in Es.
    destruct (value (fadd (fmul (px p) (px p)) (fmul (py p) (py p)))) as [d|] eqn:Ed; [|rewrite (plus_add_none _ _ Pxy Pz) in Es by auto; discriminate].
    destruct (value (fmul (pz p) (pz p))) as [c|] eqn:Ec; [|rewrite (plus_add_none _ _ Pxy Pz) in Es by auto; discriminate].
    destruct (value (fmul (px p) (px p))) as [a|] eqn:Ea; [|rewrite (plus_add_none _ _ Px Py) in Ed by auto; discriminate].
    destruct (value (fmul (py p) (py p))) as [b|] eqn:Eb; [|rewrite (plus_add_none _ _ Px Py) in Ed by auto; discriminate].
    specialize (Mx a eq_refl). specialize (My b eq_refl). specialize (Mz c eq_refl).
    pose proof (plus_value_nonneg _ _ Px Ea). pose proof (plus_value_nonneg _ _ Py Eb). pose proof (plus_value_nonneg _ _ Pz Ec). pose proof (plus_value_nonneg _ _ Pxy Ed).
    destruct (add_error _ _ a b (plus_valid 24 128 _ Px) (plus_valid 24 128 _ Py) Ea Eb ltac:(lra) ltac:(lra)) as (Mab & _). specialize (Mab d Ed).
    destruct (add_error _ _ d c (plus_valid 24 128 _ Pxy) (plus_valid 24 128 _ Pz) Ed Ec ltac:(lra) ltac:(lra)) as (Ms & _). specialize (Ms s Es).
    lra.
Qed.

(** ** Points nearer to the origin *)
Lemma fin_leb : forall x y q, pls x -> pls y -> SFleb x y = true -> value y = Some q -> exists r, value x = Some r /\ (r <= q)%Q.
Proof.
  intros x y q Px Py L E.
  assert (V : exists r, value x = Some r).
  { destruct x as [[]|[]| |[] m e]; try contradiction; try (eexists; reflexivity). destruct y as [[]|[]| |[] n f]; try contradiction; discriminate. }
  destruct V as (r & V). exists r. split; [exact V|].
  apply (proj1 (leb_value 24 128 ltac:(lia) ltac:(lia) x y r q (plus_valid 24 128 _ Px) (plus_valid 24 128 _ Py) V E)). exact L.
Qed.
Lemma squares_mono : forall p p' x y z x' y' z', pvalid p -> pvalid p' ->
  value (px p) = Some x -> value (py p) = Some y -> value (pz p) = Some z ->
  value (px p') = Some x' -> value (py p') = Some y' -> value (pz p') = Some z' ->
  (x * x <= x' * x')%Q -> (y * y <= y' * y')%Q -> (z * z <= z' * z')%Q -> small p' -> small p.
Proof.
  intros p p' x y z x' y' z' V V' Ex Ey Ez Ex' Ey' Ez' Lx Ly Lz (s & Es & Ls).
  assert (Fx : is_finite (px p) = true) by (apply finite_value; eauto).
  assert (Fy : is_finite (py p) = true) by (apply finite_value; eauto).
  assert (Fz : is_finite (pz p) = true) by (apply finite_value; eauto).
  assert (Fx' : is_finite (px p') = true) by (apply finite_value; eauto).
  assert (Fy' : is_finite (py p') = true) by (apply finite_value; eauto).
  assert (Fz' : is_finite (pz p') = true) by (apply finite_value; eauto).
  destruct (squares_plus p V Fx Fy Fz) as (Px & Py & Pz & Pxy & P). destruct (squares_plus p' V' Fx' Fy' Fz') as (Px' & Py' & Pz' & Pxy' & P').
  destruct V as (Vx & Vy & Vz), V' as (Vx' & Vy' & Vz').
  assert (Mul : forall a b u v, fvalid a -> fvalid b -> value a = Some u -> value b = Some v -> (u * u <= v * v)%Q -> SFleb (fmul a a) (fmul b b) = true).
  { intros a b u v Va Vb Ea Eb L. apply (rnd_mono 24 128 ltac:(lia) ltac:(lia) (u * u) (v * v)); [| |exact L]; apply mul_rnd; try lia; assumption. }
  assert (Add : forall a b a' b' q, pls a -> pls b -> pls a' -> pls b' -> SFleb a a' = true -> SFleb b b' = true -> value (fadd a' b') = Some q ->
    SFleb (fadd a b) (fadd a' b') = true).
  { intros a b a' b' q Pa Pb Pa' Pb' La Lb E.
    destruct (value a') as [u'|] eqn:Ea'; [|rewrite (plus_add_none _ _ Pa' Pb') in E by auto; discriminate].
    destruct (value b') as [v'|] eqn:Eb'; [|rewrite (plus_add_none _ _ Pa' Pb') in E by auto; discriminate].
    destruct (fin_leb _ _ _ Pa Pa' La Ea') as (u & Eu & Lu). destruct (fin_leb _ _ _ Pb Pb' Lb Eb') as (v & Ev & Lv).
    apply (rnd_mono 24 128 ltac:(lia) ltac:(lia) (u + v) (u' + v')); [| |lra]; apply add_rnd; try assumption; apply plus_valid; assumption. }
  unfold squares in Es.
  destruct (value (fadd (fmul (px p') (px p')) (fmul (py p') (py p')))) as [d|] eqn:Ed; [|rewrite (plus_add_none _ _ Pxy' Pz') in Es by auto; discriminate].
  pose proof (Mul _ _ _ _ Vx Vx' Ex Ex' Lx) as Mx. pose proof (Mul _ _ _ _ Vy Vy' Ey Ey' Ly) as My. pose proof (Mul _ _ _ _ Vz Vz' Ez Ez' Lz) as Mz.
  pose proof (Add _ _ _ _ d Px Py Px' Py' Mx My Ed) as Mxy. pose proof (Add _ _ _ _ s Pxy Pz Pxy' Pz' Mxy Mz Es) as M.
  destruct (fin_leb _ _ _ P P' M Es) as (r & Er & Lr). exists r. split; [exact Er|]. lra.
Qed.

(** ** Clouds *)
Lemma fatal_cloud_ok : forall l, Forall (fun p => fatal_point p = Ok tt) l -> fatal_cloud l = Ok (length l).
Proof. induction 1 as [|p l H _ IH]; [reflexivity|]. cbn [fatal_cloud length]. rewrite H. cbn [bind]. rewrite IH. reflexivity. Qed.
Lemma fatal_or : forall p, fatal_point p = Ok tt \/ fatal_point p = Abort.
Proof.
  intros p. unfold fatal_point, bind, check.
  repeat match goal with |- context [if ?b then _ else _] => destruct b end; auto.
Qed.
Lemma fatal_cloud_bad : forall l, ~ Forall (fun p => fatal_point p = Ok tt) l -> fatal_cloud l = Abort.
Proof.
  induction l as [|p l IH]; intros N; [exfalso; apply N; constructor|]. cbn [fatal_cloud].
  destruct (fatal_or p) as [H|H]; rewrite H; cbn [bind]; [|reflexivity]. rewrite IH; [reflexivity|]. intros F. apply N. constructor; assumption.
Qed.
Lemma all_dec : forall l, Forall (fun p => fatal_point p = Ok tt) l \/ ~ Forall (fun p => fatal_point p = Ok tt) l.
Proof.
  intros l. destruct (fatal_cloud l) as [n| | |] eqn:E.
  - left. revert n E. induction l as [|p l IH]; intros n E; [constructor|]. cbn [fatal_cloud] in E.
    destruct (fatal_or p) as [H|H]; rewrite H in E; cbn [bind] in E; [|discriminate]. constructor; [exact H|].
    destruct (fatal_cloud l) as [m| | |]; try discriminate. apply (IH m). reflexivity.
  - right. intros F. rewrite (fatal_cloud_ok _ F) in E. discriminate.
  - right. intros F. rewrite (fatal_cloud_ok _ F) in E. discriminate.
  - right. intros F. rewrite (fatal_cloud_ok _ F) in E. discriminate.
Qed.

(** How often points are looked at: those of the first cloud as often as there are clouds, those of the last once. *)
Fixpoint looks (l : list (list point)) : nat :=
  match l with [] => 0 | c :: r => length l * length c + looks r end%nat.
Lemma add_off : forall l added, add_clouds false added l = Ok (added ++ concat l, 0%nat).
Proof.
  induction l as [|c l IH]; intros added; cbn [add_clouds concat maybe_check bind]; [rewrite app_nil_r; reflexivity|].
  rewrite IH. cbn [bind fst snd]. rewrite app_assoc. reflexivity.
Qed.
Lemma add_on : forall l added, Forall (fun p => fatal_point p = Ok tt) (added ++ concat l) ->
  exists n, add_clouds true added l = Ok (added ++ concat l, n) /\ (n + length (added ++ concat l) = length l * length added + length added + looks l)%nat.
Proof.
  induction l as [|c l IH]; intros added F; cbn [add_clouds concat].
  - exists 0%nat. rewrite app_nil_r. split; [reflexivity|]. cbn. lia.
  - cbn [maybe_check]. assert (Fa : Forall (fun p => fatal_point p = Ok tt) added) by (apply Forall_app in F; apply F).
    rewrite (fatal_cloud_ok _ Fa). cbn [bind]. cbn [concat] in F. rewrite app_assoc in F. destruct (IH (added ++ c) F) as (n & E & C).
    rewrite E. cbn [bind fst snd]. rewrite <- app_assoc. exists (length added + n)%nat. split; [reflexivity|].
    cbn [looks length]. rewrite <- app_assoc in C. rewrite !app_length in *. nia.
Qed.
Lemma add_bad : forall l added, ~ Forall (fun p => fatal_point p = Ok tt) (added ++ concat l) ->
  add_clouds true added l = Abort \/ exists n, add_clouds true added l = Ok (added ++ concat l, n).
Proof.
  induction l as [|c l IH]; intros added N; cbn [add_clouds concat]; [right; exists 0%nat; rewrite app_nil_r; reflexivity|].
  cbn [maybe_check]. destruct (all_dec added) as [F|F]; [|left; rewrite (fatal_cloud_bad _ F); reflexivity].
  rewrite (fatal_cloud_ok _ F). cbn [bind]. cbn [concat] in N. rewrite app_assoc in N. destruct (IH (added ++ c) N) as [E|(n & E)]; rewrite E; cbn [bind fst snd].
  - left. reflexivity.
  - right. exists (length added + n)%nat. rewrite <- app_assoc. reflexivity.
Qed.
