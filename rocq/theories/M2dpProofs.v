(** Proofs about the M2DP descriptor. *)
From Coq Require Import Reals ZArith List Bool Lia Lra.
From Verif Require Import Outcome RigidModel RigidSpec RigidProofs M2dpModel M2dpSpec.
Import ListNotations.
Local Open Scope outcome_scope.
Local Open Scope R_scope.

Lemma floor_iff : forall x z, floor x = z <-> IZR z <= x < IZR z + 1.
Proof.
  intros x z. unfold floor. split.
  - intros <-. destruct (base_Int_part x) as (A & B). lra.
  - intros (A & B). unfold Int_part. assert (U := tech_up x (z + 1)). rewrite plus_IZR in U. rewrite <- U by lra. lia.
Qed.
Lemma floor_nonneg : forall x, 0 <= x -> (0 <= floor x)%Z.
Proof.
  intros x H. assert (F := proj1 (floor_iff x (floor x)) eq_refl). apply Z.lt_succ_r. apply lt_IZR. rewrite succ_IZR. lra.
Qed.
Lemma ceil_pos : forall x, 0 < x -> (1 <= ceil x)%Z.
Proof.
  intros x H. unfold ceil. assert (F := proj1 (floor_iff (- x) (floor (- x))) eq_refl). unfold floor in F.
  assert (L : (Int_part (- x) < 0)%Z) by (apply lt_IZR; lra). lia.
Qed.

(** Angles of points of the first quadrant. *)
Lemma atan2_quadrant : forall u v, 0 <= u -> 0 <= v -> 0 <= atan2 v u <= PI / 2.
Proof.
  intros u v U V. assert (P := PI_RGT_0). unfold atan2.
  repeat match goal with |- context [if ?c then _ else _] => destruct c end; try lra.
  - assert (B := atan_bound (v / u)). split; [|lra].
    destruct (Rle_lt_or_eq_dec 0 v V) as [V'|<-].
    + left. rewrite <- atan_0. apply atan_increasing. apply Rdiv_lt_0_compat; assumption.
    + unfold Rdiv. rewrite Rmult_0_l, atan_0. lra.
Qed.

Lemma split_unique : forall a b i j t, (0 <= b < t)%Z -> (0 <= j < t)%Z -> (a * t + b = i * t + j)%Z -> a = i /\ b = j.
Proof.
  intros a b i j t B J E. assert (a = i) by (destruct (Z.lt_trichotomy a i) as [L|[L|L]]; [nia|exact L|nia]). subst. split; [reflexivity|lia].
Qed.

Section Index.
  Variable par : params.
  Hypothesis (T1 : (1 <= par_t par)%Z) (R1 : 0 < par_r par).
  Let t := par_t par.
  Let r := par_r par.
  Let step := PI * 2 / IZR t.
  Lemma t_pos : 1 <= IZR t.
  Proof. apply IZR_le. exact T1. Qed.
  Lemma step_pos : 0 < step.
  Proof. unfold step. assert (P := PI_RGT_0). assert (Q := t_pos). apply Rdiv_lt_0_compat; lra. Qed.
  Lemma sector_range : forall a, 0 <= a <= PI / 2 -> (0 <= floor (a / step) < t)%Z /\ (4 * floor (a / step) <= t)%Z.
  Proof.
    intros a (A & B). assert (S := step_pos). assert (P := PI_RGT_0). assert (Q := t_pos).
    assert (F := proj1 (floor_iff (a / step) _) eq_refl).
    assert (N : (0 <= floor (a / step))%Z).
    { apply floor_nonneg. apply Rmult_le_pos; [exact A|]. left. apply Rinv_0_lt_compat. exact S. }
    assert (U : a / step <= IZR t / 4).
    { apply Rmult_le_reg_r with step; [exact S|]. replace (a / step * step) with a by (field; lra).
      unfold step. replace (IZR t / 4 * (PI * 2 / IZR t)) with (PI / 2) by (field; lra). exact B. }
    assert (V : (4 * floor (a / step) <= t)%Z) by (apply le_IZR; rewrite mult_IZR; lra).
    split; [lia|exact V].
  Qed.
  Lemma sector_floor : forall a j, floor (a / step) = j <-> IZR j * (2 * PI / IZR t) <= a /\ a < IZR (j + 1) * (2 * PI / IZR t).
  Proof.
    intros a j. assert (S := step_pos). replace (2 * PI / IZR t) with step by (unfold step; field; assert (Q := t_pos); lra).
    rewrite floor_iff, plus_IZR.
    assert (E : a = a / step * step) by (field; lra). split.
    - intros (A & B). split; rewrite E at 1.
      + apply Rmult_le_compat_r; lra.
      + apply Rmult_lt_compat_r; lra.
    - intros (A & B). rewrite E in A, B. split.
      + apply Rmult_le_reg_r with step; assumption.
      + apply Rmult_lt_reg_r with step; assumption.
  Qed.
  Lemma ring_low : forall d (i : Z), 0 <= d -> (0 <= i)%Z -> (IZR i <= sqrt (d / r) <-> r * (IZR i * IZR i) <= d).
  Proof.
    intros d i D I. fold r in R1. assert (Q : 0 <= d / r) by (apply Rmult_le_pos; [exact D|]; left; apply Rinv_0_lt_compat; exact R1).
    apply IZR_le in I. assert (S := sqrt_sqrt _ Q). assert (N := sqrt_pos (d / r)).
    assert (E : d = r * (d / r)) by (field; lra). split; intro H.
    - rewrite E. apply Rmult_le_compat_l; [lra|]. rewrite <- S. apply Rmult_le_compat; lra.
    - rewrite E in H. apply Rmult_le_reg_l in H; [|exact R1]. apply Rsqr_incr_0; [|lra|lra]. unfold Rsqr. lra.
  Qed.
  Lemma ring_floor : forall d (l i : Z), 0 <= d -> (0 <= i < l)%Z ->
    (clip (floor (sqrt (d / r))) l = i <-> r * (IZR i * IZR i) <= d /\ (i = (l - 1)%Z \/ d < r * (IZR (i + 1) * IZR (i + 1)))).
  Proof.
    intros d l i D I. set (x := sqrt (d / r)).
    assert (F := proj1 (floor_iff x (floor x)) eq_refl). assert (N : (0 <= floor x)%Z) by (apply floor_nonneg, sqrt_pos).
    assert (L := ring_low d i D (proj1 I)). assert (H := ring_low d (i + 1) D ltac:(lia)). fold x in L, H.
    unfold clip. destruct (Z.gtb_spec (floor x) (l - 1)) as [G|G].
    - split.
      + intro E. split; [|left; lia]. apply L. apply Rle_trans with (IZR (floor x)); [|apply F]. apply IZR_le. lia.
      + intros (A & [E|B]); [lia|]. exfalso.
        assert (C : IZR (i + 1) <= x) by (apply Rle_trans with (IZR (floor x)); [apply IZR_le; lia|apply F]).
        apply H in C. lra.
    - split.
      + intro E. split; [apply L; rewrite <- E; apply F|]. right. apply Rnot_le_lt. intro C. apply H in C.
        rewrite <- E, plus_IZR in C. lra.
      + intros (A & B). apply L in A. apply Z.le_antisymm.
        * destruct B as [->|B]; [exact G|]. apply Z.lt_succ_r. apply lt_IZR. apply Rle_lt_trans with x; [apply F|].
          apply Rnot_le_lt. intro C. replace (Z.succ i) with (i + 1)%Z in C by lia. apply H in C. lra.
        * apply Z.lt_succ_r. apply lt_IZR. rewrite succ_IZR. lra.
  Qed.
  Lemma polar_abs : forall m p, polar (project m p) =
    (let u := Rabs (dot p (x_axis m)) in let v := Rabs (dot p (y_axis m)) in (sqrt (u * u + v * v), atan2 v u)).
  Proof.
    intros m p. unfold polar, project. cbn [fst snd]. cbv zeta. f_equal.
    assert (Q := atan2_quadrant _ _ (Rabs_pos (dot p (x_axis m))) (Rabs_pos (dot p (y_axis m)))).
    destruct (Rlt_dec _ 0) as [L|L]; [lra|reflexivity].
  Qed.
  Lemma leb_iff : forall a b, leb a b = true <-> a <= b.
  Proof. intros. unfold leb. destruct (Rle_dec a b); split; auto; try discriminate; contradiction. Qed.
  Lemma ltb_iff : forall a b, ltb a b = true <-> a < b.
  Proof. intros. unfold ltb. destruct (Rlt_dec a b); split; auto; try discriminate; contradiction. Qed.
  Lemma index_bin : forall l m p i j, (0 <= i < l)%Z -> (0 <= j < t)%Z ->
    (index par l m p = i * t + j)%Z <-> in_bin r l t (Rabs (dot p (x_axis m))) (Rabs (dot p (y_axis m))) i j = true.
  Proof.
    intros l m p i j I J. unfold index. rewrite polar_abs. cbv zeta. cbn [fst snd]. fold t r step.
    set (u := Rabs (dot p (x_axis m))). set (v := Rabs (dot p (y_axis m))).
    assert (Q := atan2_quadrant u v (Rabs_pos _) (Rabs_pos _)). destruct (sector_range _ Q) as (S1 & S2).
    assert (D : 0 <= sqrt (u * u + v * v)) by apply sqrt_pos.
    replace (clip (floor (atan2 v u / step)) t) with (floor (atan2 v u / step)) by (unfold clip; destruct (Z.gtb_spec (floor (atan2 v u / step)) (t - 1)); lia).
    assert (A := sector_floor (atan2 v u) j). assert (B := ring_floor _ l i D I).
    unfold in_bin. rewrite !andb_true_iff, !leb_iff, ltb_iff, orb_true_iff, Z.eqb_eq, ltb_iff.
    split.
    - intro E.
      assert (Ei : clip (floor (sqrt (sqrt (u * u + v * v) / r))) l = i /\ floor (atan2 v u / step) = j) by (apply (split_unique _ _ _ _ t); assumption).
      destruct Ei as (Ei & Ej). apply A in Ej. apply B in Ei. tauto.
    - intros (((H1 & H2) & H3) & H4). rewrite (proj2 A) by tauto. rewrite (proj2 B) by tauto. reflexivity.
  Qed.
  Lemma index_range : forall l m p, (1 <= l)%Z -> exists i j, (0 <= i < l /\ 0 <= j < t /\ 4 * j <= t /\ index par l m p = i * t + j)%Z.
  Proof.
    intros l m p L. unfold index. rewrite polar_abs. cbv zeta. cbn [fst snd]. fold t r step.
    set (u := Rabs (dot p (x_axis m))). set (v := Rabs (dot p (y_axis m))).
    assert (Q := atan2_quadrant u v (Rabs_pos _) (Rabs_pos _)). destruct (sector_range _ Q) as (S1 & S2).
    assert (N : (0 <= floor (sqrt (sqrt (u * u + v * v) / r)))%Z) by (apply floor_nonneg, sqrt_pos).
    exists (clip (floor (sqrt (sqrt (u * u + v * v) / r))) l), (floor (atan2 v u / step)).
    replace (clip (floor (atan2 v u / step)) t) with (floor (atan2 v u / step)) by (unfold clip; destruct (Z.gtb_spec (floor (atan2 v u / step)) (t - 1)); lia).
    split; [unfold clip; destruct (Z.gtb_spec (floor (sqrt (sqrt (u * u + v * v) / r))) (l - 1)); lia|]. split; [exact S1|]. split; [exact S2|reflexivity].
  Qed.
End Index.

(** Filling a row. *)
Lemma bump_length : forall row i, length (bump row i) = length row.
Proof. induction row as [|x r IH]; intros [|i]; cbn; [reflexivity..|]. rewrite IH. reflexivity. Qed.
Lemma bump_nth : forall row i k, (i < length row)%nat -> nth k (bump row i) 0%nat = (nth k row 0 + if Nat.eqb k i then 1 else 0)%nat.
Proof.
  induction row as [|x r IH]; intros i k H; [cbn in H; lia|]. destruct i as [|i]; destruct k as [|k]; cbn [bump nth Nat.eqb]; [lia|lia|lia|].
  apply IH. cbn in H. lia.
Qed.
Lemma bump_sum : forall row i, (i < length row)%nat -> list_sum (bump row i) = S (list_sum row).
Proof.
  induction row as [|x r IH]; intros i H; [cbn in H; lia|]. destruct i as [|i]; cbn [bump list_sum fold_right]; [reflexivity|].
  cbn in H. change (fold_right Nat.add 0%nat (bump r i)) with (list_sum (bump r i)). rewrite IH by lia. change (fold_right Nat.add 0%nat r) with (list_sum r). lia.
Qed.
Lemma fill_spec : forall is row, (forall i, In i is -> (0 <= i < Z.of_nat (length row))%Z) ->
  exists row', fill row is = Ok row' /\ length row' = length row /\ list_sum row' = (list_sum row + length is)%nat /\
    forall k, nth k row' 0%nat = (nth k row 0 + length (filter (fun i => Z.eqb i (Z.of_nat k)) is))%nat.
Proof.
  induction is as [|i is IH]; intros row H.
  - exists row. cbn. repeat split; lia.
  - assert (B := H i (or_introl eq_refl)). cbn [fill]. unfold add_point.
    replace ((0 <=? i) && (i <? Z.of_nat (length row)))%Z%bool with true by (symmetry; apply andb_true_iff; split; [apply Z.leb_le|apply Z.ltb_lt]; lia).
    cbn [bind]. destruct (IH (bump row (Z.to_nat i))) as (row' & E & L & S & N).
    + intros k K. rewrite bump_length. apply H. right. exact K.
    + exists row'. split; [exact E|]. rewrite bump_length in L. split; [exact L|]. split.
      * rewrite S, bump_sum by lia. cbn [length]. lia.
      * intro k. rewrite N, bump_nth by lia. cbn [filter]. destruct (Nat.eqb_spec k (Z.to_nat i)) as [->|D].
        -- rewrite Z2Nat.id by lia. rewrite Z.eqb_refl. cbn [length]. lia.
        -- destruct (Z.eqb_spec i (Z.of_nat k)) as [->|_]; [rewrite Nat2Z.id in D; contradiction|]. lia.
Qed.
Lemma filter_map_length : forall A B (f : A -> B) g l, length (filter g (map f l)) = length (filter (fun a => g (f a)) l).
Proof. induction l as [|a l IH]; cbn; [reflexivity|]. destruct (g (f a)); cbn; rewrite IH; reflexivity. Qed.
Lemma list_sum_repeat0 : forall n, list_sum (repeat 0%nat n) = 0%nat.
Proof. induction n as [|n IH]; [reflexivity|]. exact IH. Qed.
Lemma single_view_spec : forall par l cloud th ph, (1 <= par_t par)%Z -> 0 < par_r par -> (1 <= l)%Z ->
  exists row, single_view par l cloud th ph = Ok row /\ length row = Z.to_nat (l * par_t par) /\ list_sum row = length cloud /\
    forall i j, (0 <= i < l)%Z -> (0 <= j < par_t par)%Z ->
      nth (Z.to_nat (i * par_t par + j)) row 0%nat =
      length (filter (fun p => let m := view_normal th ph in in_bin (par_r par) l (par_t par) (Rabs (dot p (x_axis m))) (Rabs (dot p (y_axis m))) i j) cloud).
Proof.
  intros par l cloud th ph T R L. unfold single_view. cbv zeta. set (m := view_normal th ph).
  assert (Ln : Z.of_nat (length (repeat 0%nat (Z.to_nat (l * par_t par)))) = (l * par_t par)%Z) by (rewrite repeat_length, Z2Nat.id; nia).
  destruct (fill_spec (map (index par l m) cloud) (repeat 0%nat (Z.to_nat (l * par_t par)))) as (row & E & Le & S & N).
  - intros k K. apply in_map_iff in K as (p & <- & _). rewrite Ln. destruct (index_range par T l m p L) as (i & j & I & J & _ & ->). nia.
  - exists row. split; [exact E|]. split; [rewrite Le, repeat_length; reflexivity|]. split; [rewrite S, map_length, list_sum_repeat0; lia|].
    intros i j I J. rewrite N. rewrite nth_repeat, filter_map_length. cbn [Nat.add]. f_equal. apply filter_ext. intro p.
    rewrite Z2Nat.id by nia. apply eq_true_iff_eq. rewrite Z.eqb_eq. apply index_bin; assumption.
Qed.
Lemma quarter_empty : forall par l m p i j, (1 <= par_t par)%Z -> 0 < par_r par -> (0 <= i < l)%Z -> (0 <= j < par_t par)%Z -> (par_t par < 4 * j)%Z ->
  in_bin (par_r par) l (par_t par) (Rabs (dot p (x_axis m))) (Rabs (dot p (y_axis m))) i j = false.
Proof.
  intros par l m p i j T R I J Q. apply not_true_is_false. intro H. apply index_bin in H; [|assumption..].
  destruct (index_range par T l m p ltac:(lia)) as (i' & j' & I' & J' & Q' & E). rewrite E in H.
  apply split_unique in H; [|assumption..]. lia.
Qed.
Lemma rows_spec : forall par l cloud vs, (1 <= par_t par)%Z -> 0 < par_r par -> (1 <= l)%Z ->
  exists a, rows par l cloud vs = Ok a /\ Forall2 (fun v row => single_view par l cloud (fst v) (snd v) = Ok row) vs a.
Proof.
  intros par l cloud vs T R L. induction vs as [|[th ph] vs IH]; [exists []; split; [reflexivity|constructor]|].
  destruct IH as (a & E & F). destruct (single_view_spec par l cloud th ph T R L) as (row & S & _).
  exists (row :: a). cbn [rows]. rewrite S. cbn [bind]. rewrite E. cbn [bind]. split; [reflexivity|]. constructor; [exact S|exact F].
Qed.
Lemma project_neg : forall m p, project m (negated p) = project m p.
Proof.
  intros m p. unfold project. assert (E : forall a, dot (negated p) a = - dot p a) by (intro a; unfold dot, negated; cbn; ring).
  rewrite !E, !Rabs_Ropp. reflexivity.
Qed.
Lemma rows_neg : forall par l cloud vs, rows par l (map negated cloud) vs = rows par l cloud vs.
Proof.
  intros par l cloud vs. induction vs as [|[th ph] vs IH]; [reflexivity|]. cbn [rows]. rewrite IH. f_equal.
  unfold single_view. cbv zeta. f_equal. rewrite map_map. apply map_ext. intro p. unfold index. rewrite project_neg. reflexivity.
Qed.
Lemma axes : forall th ph, let m := view_normal th ph in
  dot m m = 1 /\ dot (y_axis m) m = 0 /\ dot (x_axis m) m = cos th * cos ph - Rabs (cos th * cos ph).
Proof.
  intros th ph m. assert (A := sin2_cos2 th). assert (B := sin2_cos2 ph). unfold Rsqr in *.
  assert (N : dot m m = 1).
  { unfold m, view_normal, dot. cbn. replace (cos th * cos ph * (cos th * cos ph) + cos th * sin ph * (cos th * sin ph) + sin th * sin th)
      with (cos th * cos th * (sin ph * sin ph + cos ph * cos ph) + sin th * sin th) by ring. rewrite B. lra. }
  split; [exact N|]. split; [unfold y_axis, dot, cross; cbn; ring|].
  unfold x_axis. replace (dot (mkV 1 0 0) m) with (cos th * cos ph) by (unfold m, view_normal, dot; cbn; ring).
  set (k := Rabs (cos th * cos ph)).
  transitivity (dot (mkV 1 0 0) m - k * dot m m); [unfold dot, vsub, vscale; cbn; ring|]. rewrite N.
  unfold m, view_normal, dot. cbn. ring.
Qed.

(** The correlation. *)
Definition var (P : list R) : R := INR (length P) * rdot P P - rsum P * rsum P.
Definition cov (P Q : list R) : R := INR (length P) * rdot P Q - rsum P * rsum Q.
Lemma sq_sum : forall P Q a b c, length P = length Q ->
  rsum (map (fun xy => (a * fst xy + b * snd xy + c) * (a * fst xy + b * snd xy + c)) (combine P Q)) =
  a * a * rdot P P + b * b * rdot Q Q + INR (length P) * (c * c) + 2 * a * b * rdot P Q + 2 * a * c * rsum P + 2 * b * c * rsum Q.
Proof.
  induction P as [|x P IH]; intros [|y Q] a b c L; try discriminate; [cbn; ring|]. injection L as L.
  cbn [combine map rsum fold_right rdot fst snd]. specialize (IH Q a b c L). unfold rsum in *. rewrite IH.
  change (length (x :: P)) with (S (length P)). rewrite S_INR. ring.
Qed.
Lemma sq_list : forall A (f : A -> R) l, 0 <= rsum (map (fun x => f x * f x) l) /\
  (rsum (map (fun x => f x * f x) l) = 0 -> forall x, In x l -> f x = 0).
Proof.
  intros A f. induction l as [|x l (P & Z)]; [cbn; split; [lra|]; intros _ x []|].
  cbn [map rsum fold_right]. fold (rsum (map (fun x => f x * f x) l)). assert (S := Rle_0_sqr (f x)). unfold Rsqr in S.
  split; [lra|]. intros E y [<-|I].
  - assert (Q : f x * f x = 0) by lra. apply Rmult_integral in Q as [Q|Q]; exact Q.
  - apply Z; [lra|exact I].
Qed.
Lemma rdot_comm : forall P Q, rdot P Q = rdot Q P.
Proof. induction P as [|x P IH]; intros [|y Q]; cbn; try reflexivity. rewrite IH. ring. Qed.
Lemma cov_comm : forall P Q, length P = length Q -> cov P Q = cov Q P.
Proof. intros P Q L. unfold cov. rewrite rdot_comm, L. ring. Qed.
Lemma var_cov : forall P, var P = cov P P.
Proof. reflexivity. Qed.
Lemma rdot_map : forall P Q a b, length P = length Q -> rdot (map (fun x => a * x + b) P) Q = a * rdot P Q + b * rsum Q.
Proof.
  induction P as [|x P IH]; intros [|y Q] a b L; try discriminate; [cbn; ring|]. injection L as L.
  cbn [map rdot rsum fold_right]. rewrite IH by exact L. unfold rsum. ring.
Qed.
Lemma rsum_map : forall P a b, rsum (map (fun x => a * x + b) P) = a * rsum P + INR (length P) * b.
Proof.
  induction P as [|x P IH]; intros a b; [cbn; ring|]. cbn [map rsum fold_right]. specialize (IH a b). unfold rsum in *. rewrite IH.
  change (length (x :: P)) with (S (length P)). rewrite S_INR. ring.
Qed.
Lemma cov_map : forall P Q a b, length P = length Q -> cov (map (fun x => a * x + b) P) Q = a * cov P Q.
Proof. intros P Q a b L. unfold cov. rewrite map_length, rdot_map, rsum_map by exact L. rewrite L. ring. Qed.
Lemma var_map : forall P a b, var (map (fun x => a * x + b) P) = a * a * var P.
Proof.
  intros P a b. rewrite !var_cov. rewrite cov_map by (rewrite map_length; reflexivity).
  rewrite cov_comm by (rewrite map_length; reflexivity). rewrite cov_map by reflexivity. ring.
Qed.
Lemma var_spec : forall P, 0 <= var P /\ (var P = 0 <-> constant P).
Proof.
  intro P. destruct P as [|x0 P0] eqn:EP.
  - unfold var. cbn. split; [lra|]. split; [intros _; exists 0; intros x []|intros _; lra].
  - rewrite <- EP. assert (N : 0 < INR (length P)) by (rewrite EP; apply lt_0_INR; cbn; lia).
    destruct (sq_list _ (fun xy => INR (length P) * fst xy + 0 * snd xy + - rsum P) (combine P P)) as (A & B).
    rewrite (sq_sum P P _ _ _ eq_refl) in A, B.
    match type of A with 0 <= ?e => replace e with (INR (length P) * var P) in A, B by (unfold var; ring) end.
    assert (V : 0 <= var P) by (apply Rmult_le_reg_l with (INR (length P)); [exact N|]; rewrite Rmult_0_r; exact A).
    split; [exact V|]. split.
    + intro E. exists (rsum P / INR (length P)). intros x I.
      assert (Ic : In (x, x) (combine P P)).
      { clear - I. induction P as [|y P IH]; [destruct I|]. destruct I as [->|I]; [left; reflexivity|right; apply IH; exact I]. }
      assert (Z : INR (length P) * fst (x, x) + 0 * snd (x, x) + - rsum P = 0) by (apply B; [rewrite E; ring|exact Ic]).
      cbn in Z. apply Rmult_eq_reg_l with (INR (length P)); [|lra]. replace (INR (length P) * (rsum P / INR (length P))) with (rsum P) by (field; lra). lra.
    + intros (c & C). replace P with (map (fun x => 0 * x + c) P).
      * rewrite var_map. ring.
      * rewrite <- (map_id P) at 2. apply map_ext_in. intros x I. rewrite (C x I). ring.
Qed.
Lemma line_map : forall P Q k c, length P = length Q -> (forall xy, In xy (combine P Q) -> snd xy = k * fst xy + c) -> Q = map (fun x => k * x + c) P.
Proof.
  induction P as [|x P IH]; intros [|y Q] k c L K; try discriminate; [reflexivity|]. injection L as L. cbn [map]. f_equal.
  - apply (K (x, y)). left. reflexivity.
  - apply IH; [exact L|]. intros xy I. apply K. right. exact I.
Qed.
Lemma corr : forall P Q, length P = length Q -> 0 < var P ->
  cov P Q * cov P Q <= var P * var Q /\
  (cov P Q * cov P Q = var P * var Q -> exists b, Q = map (fun x => cov P Q / var P * x + b) P).
Proof.
  intros P Q L V.
  assert (N : 0 < INR (length P)).
  { destruct P as [|x P]; [unfold var in V; cbn in V; lra|]. apply lt_0_INR. cbn. lia. }
  set (n := INR (length P)) in *. set (A := var P) in *. set (B := cov P Q).
  destruct (sq_list _ (fun xy => (- (B * n)) * fst xy + (A * n) * snd xy + (B * rsum P - A * rsum Q)) (combine P Q)) as (S & Z).
  rewrite (sq_sum P Q _ _ _ L) in S, Z.
  match type of S with 0 <= ?e => replace e with (n * A * (A * var Q - B * B)) in S, Z end.
  2:{ fold n. unfold A, B, var, cov. rewrite <- L. fold n. ring. }
  assert (NA : 0 < n * A) by (apply Rmult_lt_0_compat; assumption). split.
  - assert (0 <= A * var Q - B * B) by (apply Rmult_le_reg_l with (n * A); [exact NA|]; rewrite Rmult_0_r; exact S). lra.
  - intro E. exists ((A * rsum Q - B * rsum P) / (A * n)).
    assert (K : forall xy, In xy (combine P Q) -> snd xy = B / A * fst xy + (A * rsum Q - B * rsum P) / (A * n)).
    { intros xy I. assert (Z0 : - (B * n) * fst xy + A * n * snd xy + (B * rsum P - A * rsum Q) = 0) by (apply Z; [rewrite E; ring|exact I]).
      apply Rmult_eq_reg_l with (A * n); [|lra].
      replace (A * n * (B / A * fst xy + (A * rsum Q - B * rsum P) / (A * n))) with (B * n * fst xy + (A * rsum Q - B * rsum P)) by (field; lra). lra. }
    apply line_map; assumption.
Qed.
Lemma score_unfold : forall P Q, length P = length Q -> (10 <= length P)%nat ->
  match_score P Q = if Req_EM_T (sqrt (var P * var Q)) 0 then None else Some (Rabs (cov P Q / sqrt (var P * var Q))).
Proof.
  intros P Q L N. unfold match_score. rewrite <- L, Nat.eqb_refl. destruct (Nat.ltb_spec (length P) 10); [lia|]. cbn [negb orb].
  unfold var, cov. rewrite <- L. reflexivity.
Qed.
Lemma var_product : forall P Q, sqrt (var P * var Q) = 0 <-> constant P \/ constant Q.
Proof.
  intros P Q. destruct (var_spec P) as (A & <-), (var_spec Q) as (B & <-). split.
  - intro E. apply sqrt_eq_0 in E; [|apply Rmult_le_pos; assumption]. apply Rmult_integral in E. exact E.
  - intros [->| ->]; [rewrite Rmult_0_l|rewrite Rmult_0_r]; apply sqrt_0.
Qed.
Lemma score_value : forall P Q, length P = length Q -> (10 <= length P)%nat -> ~ constant P -> ~ constant Q ->
  0 < var P /\ 0 < var Q /\ 0 < sqrt (var P * var Q) /\ match_score P Q = Some (Rabs (cov P Q) / sqrt (var P * var Q)).
Proof.
  intros P Q L N CP CQ. destruct (var_spec P) as (A & A'), (var_spec Q) as (B & B').
  assert (VP : 0 < var P) by (destruct (Rle_lt_or_eq_dec _ _ A); [assumption|exfalso; apply CP; apply A'; auto]).
  assert (VQ : 0 < var Q) by (destruct (Rle_lt_or_eq_dec _ _ B); [assumption|exfalso; apply CQ; apply B'; auto]).
  assert (S : 0 < sqrt (var P * var Q)) by (apply sqrt_lt_R0, Rmult_lt_0_compat; assumption).
  split; [exact VP|]. split; [exact VQ|]. split; [exact S|].
  rewrite score_unfold by assumption. destruct (Req_EM_T _ 0); [lra|]. f_equal. unfold Rdiv. rewrite Rabs_mult. f_equal.
  apply Rabs_right. left. apply Rinv_0_lt_compat. exact S.
Qed.
