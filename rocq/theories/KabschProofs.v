(** Lemmas about least squares by singular values. *)
From Coq Require Import Reals List Lra Lia Psatz Arith.
From Verif Require Import Outcome RigidModel RigidSpec RigidProofs PlaneIcpModel KabschModel KabschSpec.
Import ListNotations.
Local Open Scope R_scope.

Ltac ms := cbn [m00 m01 m02 m10 m11 m12 m20 m21 m22 vx vy vz t_rot t_pos] in *.
Ltac vext := unfold vadd, vsub, vscale, zero_vec; ms; f_equal; try ring.

Definition inner (a b : mat) : R :=
  m00 a * m00 b + m01 a * m01 b + m02 a * m02 b + m10 a * m10 b + m11 a * m11 b + m12 a * m12 b
  + m20 a * m20 b + m21 a * m21 b + m22 a * m22 b.
Fixpoint squares (c : vec) (ws : list R) (pts : list vec) : R :=
  match ws, pts with
  | w :: ws, p :: pts => w * dot (vsub p c) (vsub p c) + squares c ws pts
  | _, _ => 0
  end.

Lemma rot_length : forall m v, orthonormal m -> dot (mvec m v) (mvec m v) = dot v v.
Proof.
  intros m v H. unfold orthonormal, mmul, mtrans, ident in H. ms. injection H as A B C D E F G I J.
  unfold dot, mvec. ms.
  transitivity ((m00 m * m00 m + m10 m * m10 m + m20 m * m20 m) * (vx v * vx v)
    + (m01 m * m01 m + m11 m * m11 m + m21 m * m21 m) * (vy v * vy v)
    + (m02 m * m02 m + m12 m * m12 m + m22 m * m22 m) * (vz v * vz v)
    + 2 * (m00 m * m01 m + m10 m * m11 m + m20 m * m21 m) * (vx v * vy v)
    + 2 * (m00 m * m02 m + m10 m * m12 m + m20 m * m22 m) * (vx v * vz v)
    + 2 * (m01 m * m02 m + m11 m * m12 m + m21 m * m22 m) * (vy v * vz v)); [ring|].
  rewrite A, B, C, E, F, J. ring.
Qed.
Lemma rot_orthonormal : forall m, rotation m -> orthonormal m.
Proof. intros m H. apply rot_trans, H. Qed.

Lemma dot_eq : forall a b c d, a = c -> b = d -> dot a b = dot c d.
Proof. intros; subst; reflexivity. Qed.

Lemma misfit_expand : forall r t a b, orthonormal r -> forall ws source target,
  length ws = length source -> length source = length target ->
  misfit (mkT r t) source target ws =
  squares b ws source + squares a ws target - 2 * inner r (covariance a b ws target source)
  + 2 * dot (vsub (vadd (mvec r b) t) a)
        (vsub (mvec r (vsub (weighted_sum ws source) (vscale (weight_sum ws) b))) (vsub (weighted_sum ws target) (vscale (weight_sum ws) a)))
  + weight_sum ws * dot (vsub (vadd (mvec r b) t) a) (vsub (vadd (mvec r b) t) a).
Proof.
  intros r t a b O. set (e := vsub (vadd (mvec r b) t) a).
  induction ws as [|w ws IH]; intros [|p source] [|q target] L1 L2; try discriminate.
  - cbn [misfit squares covariance weighted_sum]. unfold inner, weight_sum, dot, mvec, vsub, vscale, zero_vec. ms. cbn [fold_right]. ring.
  - cbn [misfit squares covariance weighted_sum].
    change (weight_sum (w :: ws)) with (w + weight_sum ws).
    rewrite (IH source target) by (cbn in L1, L2; congruence).
    set (p' := vsub p b). set (q' := vsub q a).
    assert (E : vsub (apply (mkT r t) p) q = vadd (vsub (mvec r p') q') e).
    { unfold e, p', q', apply, mvec. vext. }
    rewrite E. clear E.
    assert (E : dot (vadd (vsub (mvec r p') q') e) (vadd (vsub (mvec r p') q') e)
      = dot p' p' + dot q' q' - 2 * dot q' (mvec r p') + 2 * dot e (vsub (mvec r p') q') + dot e e).
    { rewrite <- (rot_length r p' O). generalize (mvec r p'). intros x. unfold dot, vadd, vsub. ms. ring. }
    rewrite E. clear E.
    assert (P : p = vadd p' b) by (destruct p; unfold p'; vext).
    assert (Q : q = vadd q' a) by (destruct q; unfold q'; vext).
    clearbody p' q' e. subst p q.
    cbv zeta. unfold inner. ms.
    generalize (squares b ws source) (squares a ws target) (weighted_sum ws source) (weighted_sum ws target) (weight_sum ws)
      (covariance a b ws target source). intros. unfold dot, mvec, vsub, vadd, vscale. ms. ring.
Qed.

Lemma weighted_sum_model : forall ws pts, fold_right (fun wp s => vadd (vscale (fst wp) (snd wp)) s) zero_vec (combine ws pts) = weighted_sum ws pts.
Proof. induction ws as [|w ws IH]; intros [|p pts]; cbn; auto. rewrite IH. reflexivity. Qed.
Lemma mean_balance : forall ws pts, weight_sum ws <> 0 ->
  vsub (weighted_sum ws pts) (vscale (weight_sum ws) (weighted_mean ws pts)) = zero_vec.
Proof.
  intros ws pts W. unfold weighted_mean. rewrite weighted_sum_model. unfold vsub, vscale, zero_vec. ms. f_equal; field; exact W.
Qed.
Lemma spread_cov : forall a b ws target source, spread ws (without a target) (without b source) = covariance a b ws target source.
Proof.
  intros a b. induction ws as [|w ws IH]; intros [|q target] [|p source]; try reflexivity.
  change (spread (w :: ws) (without a (q :: target)) (without b (p :: source)))
    with (madd (outer w (vsub q a) (vsub p b)) (spread ws (without a target) (without b source))).
  rewrite IH. cbn [covariance]. cbv zeta. unfold madd, outer. ms. f_equal; ring.
Qed.

(** ** Orthogonal matrices *)
Definition mneg (m : mat) : mat := mkM (- m00 m) (- m01 m) (- m02 m) (- m10 m) (- m11 m) (- m12 m) (- m20 m) (- m21 m) (- m22 m).
Lemma det_trans : forall m, det (mtrans m) = det m.
Proof. intros. unfold det, mtrans. ms. ring. Qed.
Lemma orth_det : forall m, orthonormal m -> det m = 1 \/ det m = -1.
Proof.
  intros m H. assert (E : det m * det m = 1).
  { unfold orthonormal in H. rewrite <- (det_trans m) at 1. rewrite <- det_mmul, H. unfold det, ident. ms. ring. }
  assert (F : (det m - 1) * (det m + 1) = 0) by lra. apply Rmult_integral in F. destruct F; [left|right]; lra.
Qed.
Lemma det_neg : forall m, det (mneg m) = - det m.
Proof. intros. unfold det, mneg. ms. ring. Qed.
Lemma neg_orth : forall m, orthonormal m -> orthonormal (mneg m).
Proof.
  intros m H. unfold orthonormal in *. rewrite <- H. unfold mmul, mtrans, mneg. ms. f_equal; ring.
Qed.
Lemma orth_rot : forall m, orthonormal m -> det m = 1 -> rotation m.
Proof. intros. apply rotation_of; auto. Qed.
Lemma orth_right : forall m, orthonormal m -> mmul m (mtrans m) = ident.
Proof.
  intros m H. destruct (orth_det m H) as [D|D].
  - apply orth_rot; auto.
  - assert (R : rotation (mneg m)) by (apply orth_rot; [apply neg_orth, H|rewrite det_neg, D; ring]).
    destruct R as [R _]. rewrite <- R. unfold mmul, mtrans, mneg. ms. f_equal; ring.
Qed.
Lemma orth_mul : forall a b, orthonormal a -> orthonormal b -> orthonormal (mmul a b).
Proof.
  intros a b A B. unfold orthonormal in *. rewrite mtrans_mmul, <- mmul_assoc, (mmul_assoc (mtrans a)), A, mmul_ident_l. exact B.
Qed.
Lemma mtrans_mtrans : forall a, mtrans (mtrans a) = a.
Proof. intros []. reflexivity. Qed.
Lemma orth_trans : forall a, orthonormal a -> orthonormal (mtrans a).
Proof. intros a A. unfold orthonormal. rewrite mtrans_mtrans. apply orth_right, A. Qed.
Lemma orth_diag_le : forall m, orthonormal m -> m00 m <= 1 /\ m11 m <= 1 /\ m22 m <= 1.
Proof.
  intros m H. unfold orthonormal, mmul, mtrans, ident in H. ms. injection H as A _ _ _ E _ _ _ J.
  repeat split; nra.
Qed.
Lemma rot_trace : forall m, rotation m -> -1 <= trace m.
Proof.
  intros m H. pose proof (rot_orthonormal m H) as O. apply orth_diag_le in O. destruct (rot_facts m H) as [(F1 & F2 & F3 & F4 & F5 & F6 & F7 & F8 & F9) (S1 & S2 & S3 & S4 & S5 & S6)].
  unfold trace. set (a := 1 + m00 m + m11 m + m22 m).
  assert (B : a * (1 + m00 m - m11 m - m22 m) = (m21 m - m12 m) * (m21 m - m12 m)).
  { unfold a. assert (m11 m * m22 m = m00 m + m12 m * m21 m) by lra. nra. }
  assert (C : a * (1 - m00 m + m11 m - m22 m) = (m02 m - m20 m) * (m02 m - m20 m)).
  { unfold a. assert (m00 m * m22 m = m11 m + m02 m * m20 m) by lra. nra. }
  assert (D : a * (1 - m00 m - m11 m + m22 m) = (m10 m - m01 m) * (m10 m - m01 m)).
  { unfold a. assert (m00 m * m11 m = m22 m + m01 m * m10 m) by lra. nra. }
  assert (E : 0 <= a * (4 - a)).
  { replace (a * (4 - a)) with (a * (1 + m00 m - m11 m - m22 m) + a * (1 - m00 m + m11 m - m22 m) + a * (1 - m00 m - m11 m + m22 m)) by (unfold a; ring).
    rewrite B, C, D. pose proof (Rle_0_sqr (m21 m - m12 m)). pose proof (Rle_0_sqr (m02 m - m20 m)). pose proof (Rle_0_sqr (m10 m - m01 m)).
    unfold Rsqr in *. lra. }
  assert (a <= 4) by (unfold a; lra). assert (0 <= a). { clearbody a. clear - E H0. nra. } unfold a in *. lra.
Qed.

(** ** The best rotation *)
Lemma inner_svd : forall r u s v, inner r (mmul u (mmul (diag s) (mtrans v))) =
  vx s * m00 (mmul (mtrans u) (mmul r v)) + vy s * m11 (mmul (mtrans u) (mmul r v)) + vz s * m22 (mmul (mtrans u) (mmul r v)).
Proof. intros. unfold inner, mmul, mtrans, diag. ms. ring. Qed.
Lemma mul_t_is : forall a b, mul_t a b = mmul a (mtrans b).
Proof. reflexivity. Qed.
Definition flip : mat := mkM 1 0 0 0 1 0 0 0 (-1).
Lemma flip_is : forall v, flip_last v = mmul v flip.
Proof. intros. unfold flip_last, mmul, flip. ms. f_equal; ring. Qed.
Lemma flip_orth : orthonormal flip /\ det flip = -1 /\ mtrans flip = flip.
Proof. split; [|split]. - unfold orthonormal, mmul, mtrans, flip, ident. ms. f_equal; ring. - unfold det, flip. ms. ring. - reflexivity. Qed.
Lemma determinant_is : forall m, determinant m = det m.
Proof. reflexivity. Qed.
Lemma best_rotation : forall u s v, orthonormal u -> orthonormal v -> 0 <= vz s <= vy s -> vy s <= vx s ->
  rotation (rotation_from u v) /\
  forall r, rotation r -> inner r (mmul u (mmul (diag s) (mtrans v))) <= inner (rotation_from u v) (mmul u (mmul (diag s) (mtrans v))).
Proof.
  intros u s v U V S1 S2. unfold rotation_from. rewrite determinant_is, !mul_t_is.
  pose proof (orth_trans v V) as VT. pose proof (orth_mul u (mtrans v) U VT) as UV.
  destruct (orth_det _ UV) as [D|D].
  - destruct (Rlt_dec _ _) as [L|_]; [rewrite D in L; lra|]. split; [apply orth_rot; auto|].
    intros r R. rewrite !inner_svd.
    assert (E : mmul (mtrans u) (mmul (mmul u (mtrans v)) v) = ident).
    { rewrite <- (mmul_assoc u). unfold orthonormal in U, V. rewrite V, mmul_ident_r. exact U. }
    rewrite E.
    pose proof (orth_diag_le _ (orth_mul _ _ (orth_trans u U) (orth_mul _ _ (rot_orthonormal r R) V))) as Z.
    revert Z. generalize (mmul (mtrans u) (mmul r v)). intros z (Z0 & Z1 & Z2). unfold ident. ms.
    assert (A : 0 <= vx s * (1 - m00 z)) by (apply Rmult_le_pos; lra).
    assert (B : 0 <= vy s * (1 - m11 z)) by (apply Rmult_le_pos; lra).
    assert (C : 0 <= vz s * (1 - m22 z)) by (apply Rmult_le_pos; lra). lra.
  - destruct (Rlt_dec _ _) as [_|L]; [|rewrite D in L; lra].
    destruct flip_orth as [FO [FD FT]].
    rewrite flip_is, mtrans_mmul, FT.
    assert (O : orthonormal (mmul u (mmul flip (mtrans v)))) by (repeat apply orth_mul; auto).
    assert (D' : det u * det v = -1). { rewrite det_mmul, det_trans in D. exact D. }
    split.
    { apply orth_rot; auto. rewrite !det_mmul, det_trans, FD. lra. }
    intros r R. rewrite !inner_svd.
    assert (E : mmul (mtrans u) (mmul (mmul u (mmul flip (mtrans v))) v) = flip).
    { rewrite <- (mmul_assoc u), <- (mmul_assoc flip). unfold orthonormal in U, V. rewrite V, mmul_ident_r, mmul_assoc, U, mmul_ident_l. reflexivity. }
    rewrite E.
    pose proof (orth_mul _ _ (orth_trans u U) (orth_mul _ _ (rot_orthonormal r R) V)) as Z.
    assert (ZD : det (mneg (mmul (mtrans u) (mmul r v))) = 1).
    { rewrite det_neg, !det_mmul, det_trans. destruct R as [_ ->]. lra. }
    pose proof (rot_trace _ (orth_rot _ (neg_orth _ Z) ZD)) as T.
    pose proof (orth_diag_le _ Z) as ZL.
    clear - T ZL S1 S2. revert T ZL. generalize (mmul (mtrans u) (mmul r v)). intros z T ZL. unfold trace, mneg, flip in *. ms.
    destruct ZL as (Z0 & Z1 & Z2).
    assert (A : 0 <= vz s * (1 - (m00 z + m11 z + m22 z))) by (apply Rmult_le_pos; lra).
    assert (B : 0 <= (vy s - vz s) * (2 - m00 z - m11 z)) by (apply Rmult_le_pos; lra).
    assert (C : 0 <= (vx s - vy s) * (1 - m00 z)) by (apply Rmult_le_pos; lra).
    lra.
Qed.

(** ** The best motion *)
Lemma point_to_point_eq : forall svd source target ws a b, length ws = length source -> length source = length target -> rsum ws <> 0 ->
  weighted_sum ws source = vscale (rsum ws) b -> weighted_sum ws target = vscale (rsum ws) a ->
  point_to_point svd source target ws =
  Ok (let r := rotation_from (fst (fst (svd (covariance a b ws target source)))) (snd (svd (covariance a b ws target source))) in
      mkT r (vsub a (mvec r b)), map (fun p => vsub p b) source, map (fun q => vsub q a) target).
Proof.
  intros svd source target ws a b L1 L2 W B A. change (rsum ws) with (weight_sum ws) in *.
  unfold point_to_point. rewrite L1, L2, !Nat.eqb_refl. cbn [negb].
  assert (MB : weighted_mean ws source = b).
  { unfold weighted_mean. rewrite weighted_sum_model, B. destruct b. unfold vscale. ms. f_equal; field; exact W. }
  assert (MA : weighted_mean ws target = a).
  { unfold weighted_mean. rewrite weighted_sum_model, A. destruct a. unfold vscale. ms. f_equal; field; exact W. }
  rewrite MA, MB, spread_cov. cbv zeta. destruct (svd _) as [[u s] v]. reflexivity.
Qed.
Lemma point_to_point_least : forall svd source target ws a b, length ws = length source -> length source = length target -> 0 < rsum ws ->
  weighted_sum ws source = vscale (rsum ws) b -> weighted_sum ws target = vscale (rsum ws) a ->
  is_svd (covariance a b ws target source) (svd (covariance a b ws target source)) ->
  let r := rotation_from (fst (fst (svd (covariance a b ws target source)))) (snd (svd (covariance a b ws target source))) in
  let T := mkT r (vsub a (mvec r b)) in
  rigid T /\ apply T b = a /\ forall T', rigid T' -> misfit T source target ws <= misfit T' source target ws.
Proof.
  intros svd source target ws a b L1 L2 W B A. generalize (svd (covariance a b ws target source)). intros [[u s] v] S. cbn [fst snd].
  destruct S as (U & V & S1 & S2 & M).
  destruct (best_rotation u s v U V S1 S2) as [R0 Best]. rewrite <- M in Best. clear M.
  cbv zeta. split; [exact R0|]. split.
  { destruct a. unfold apply, vadd, vsub. ms. f_equal; ring. }
  intros [r t] R. unfold rigid in R. ms. specialize (Best r R).
  rewrite (misfit_expand (rotation_from u v) _ a b (rot_orthonormal _ R0) ws source target L1 L2).
  rewrite (misfit_expand r t a b (rot_orthonormal _ R) ws source target L1 L2).
  change (rsum ws) with (weight_sum ws) in *. rewrite A, B.
  assert (Z : vsub (vadd (mvec (rotation_from u v) b) (vsub a (mvec (rotation_from u v) b))) a = zero_vec) by (unfold vsub, vadd, zero_vec; ms; f_equal; ring).
  rewrite Z.
  assert (Z1 : vsub (vscale (weight_sum ws) b) (vscale (weight_sum ws) b) = zero_vec) by (unfold vsub, zero_vec; f_equal; ring).
  assert (Z2 : vsub (vscale (weight_sum ws) a) (vscale (weight_sum ws) a) = zero_vec) by (unfold vsub, zero_vec; f_equal; ring).
  rewrite Z1, Z2.
  assert (Z3 : forall m, vsub (mvec m zero_vec) zero_vec = zero_vec) by (intros; unfold vsub, mvec, zero_vec; ms; f_equal; ring).
  rewrite !Z3.
  assert (Z4 : forall x, dot x zero_vec = 0) by (intros; unfold dot, zero_vec; ms; ring).
  rewrite !Z4.
  assert (P : forall x, 0 <= dot x x).
  { intros x. unfold dot. pose proof (Rle_0_sqr (vx x)). pose proof (Rle_0_sqr (vy x)). pose proof (Rle_0_sqr (vz x)). unfold Rsqr in *. lra. }
  specialize (P (vsub (vadd (mvec r b) t) a)).
  assert (0 <= weight_sum ws * dot (vsub (vadd (mvec r b) t) a) (vsub (vadd (mvec r b) t) a)) by (apply Rmult_le_pos; lra).
  lra.
Qed.
Lemma dot_nonneg : forall x, 0 <= dot x x.
Proof. intros x. unfold dot. pose proof (Rle_0_sqr (vx x)). pose proof (Rle_0_sqr (vy x)). pose proof (Rle_0_sqr (vz x)). unfold Rsqr in *. lra. Qed.
Lemma dot_zero : forall x, dot x x = 0 -> x = zero_vec.
Proof.
  intros [x y z] H. unfold dot in H. ms. pose proof (Rle_0_sqr x). pose proof (Rle_0_sqr y). pose proof (Rle_0_sqr z). unfold Rsqr in *.
  unfold zero_vec. f_equal; nra.
Qed.
Lemma vsub_zero : forall a b, vsub a b = zero_vec -> a = b.
Proof. intros [] [] H. unfold vsub, zero_vec in H. ms. injection H as A B C. f_equal; lra. Qed.
Lemma misfit_zero : forall T source target ws, (forall w, In w ws -> 0 <= w) -> misfit T source target ws <= 0 ->
  length ws = length source -> length source = length target ->
  forall i p q w, nth_error source i = Some p -> nth_error target i = Some q -> nth_error ws i = Some w -> 0 < w -> apply T p = q.
Proof.
  intros T. assert (P : forall source target ws, (forall w, In w ws -> 0 <= w) -> 0 <= misfit T source target ws).
  { induction source as [|p source IH]; intros [|q target] [|w ws] N; cbn [misfit]; try lra.
    specialize (IH target ws (fun w' I => N w' (or_intror I))). pose proof (N w (or_introl eq_refl)).
    pose proof (dot_nonneg (vsub (apply T p) q)). nra. }
  induction source as [|p source IH]; intros [|q target] [|w ws] N M L1 L2 i p' q' w' Ep Eq Ew W; try discriminate;
    try (destruct i; discriminate).
  cbn [misfit] in M. pose proof (P source target ws (fun w' I => N w' (or_intror I))) as P'.
  pose proof (N w (or_introl eq_refl)) as W0. pose proof (dot_nonneg (vsub (apply T p) q)) as D0.
  assert (0 <= w * dot (vsub (apply T p) q) (vsub (apply T p) q)) by (apply Rmult_le_pos; lra).
  destruct i as [|i].
  - cbn in Ep, Eq, Ew. injection Ep as <-. injection Eq as <-. injection Ew as <-.
    apply vsub_zero, dot_zero. nra.
  - cbn in Ep, Eq, Ew. eapply (IH target ws); eauto; try (cbn in L1, L2; congruence); [intros; apply N; right; auto|lra].
Qed.
Lemma misfit_exact : forall T ws source, misfit T source (map (apply T) source) ws = 0.
Proof.
  intros T. induction ws as [|w ws IH]; intros [|p source]; cbn [misfit map]; auto.
  rewrite IH. assert (vsub (apply T p) (apply T p) = zero_vec) as -> by (unfold vsub, zero_vec; f_equal; ring).
  unfold dot, zero_vec. ms. ring.
Qed.
(** Two rotations that agree on two vectors that are not parallel. *)
Lemma perp_all : forall x a b, dot x a = 0 -> dot x b = 0 -> dot x (cross a b) = 0 -> cross a b <> zero_vec -> x = zero_vec.
Proof.
  intros x a b A B C N. apply dot_zero.
  assert (L : dot x x * dot (cross a b) (cross a b) = 0).
  { replace (dot x x * dot (cross a b) (cross a b))
      with (dot x (cross a b) * dot x (cross a b)
            + dot (vsub (vscale (dot x b) a) (vscale (dot x a) b)) (vsub (vscale (dot x b) a) (vscale (dot x a) b))).
    - rewrite A, B, C. unfold dot, vsub, vscale. ms. ring.
    - unfold dot, cross, vsub, vscale. ms. ring. }
  apply Rmult_integral in L. destruct L as [L|L]; auto. apply dot_zero in L. contradiction.
Qed.
Lemma rot_cross : forall m a b, rotation m -> mvec m (cross a b) = cross (mvec m a) (mvec m b).
Proof.
  intros m a b H. destruct (rot_facts m H) as [(F1 & F2 & F3 & F4 & F5 & F6 & F7 & F8 & F9) _].
  unfold mvec, cross. ms.
  f_equal.
  - rewrite <- F1, <- F4, <- F7. ring.
  - rewrite <- F2, <- F5, <- F8. ring.
  - rewrite <- F3, <- F6, <- F9. ring.
Qed.
Lemma rot_unique : forall m n a b, rotation m -> rotation n -> mvec m a = mvec n a -> mvec m b = mvec n b -> cross a b <> zero_vec -> m = n.
Proof.
  intros m n a b M N A B C.
  assert (D : mvec m (cross a b) = mvec n (cross a b)) by (rewrite !rot_cross by assumption; rewrite A, B; reflexivity).
  pose proof (perp_all (mkV (m00 m - m00 n) (m01 m - m01 n) (m02 m - m02 n)) a b) as P1.
  pose proof (perp_all (mkV (m10 m - m10 n) (m11 m - m11 n) (m12 m - m12 n)) a b) as P2.
  pose proof (perp_all (mkV (m20 m - m20 n) (m21 m - m21 n) (m22 m - m22 n)) a b) as P3.
  unfold mvec in A, B, D. injection A as A1 A2 A3. injection B as B1 B2 B3. unfold cross in *. ms. injection D as D1 D2 D3.
  assert (Q1 := P1). clear P1. do 3 (lapply Q1; [clear Q1; intro Q1|unfold dot; ms; lra]). specialize (Q1 C).
  assert (Q2 := P2). clear P2. do 3 (lapply Q2; [clear Q2; intro Q2|unfold dot; ms; lra]). specialize (Q2 C).
  assert (Q3 := P3). clear P3. do 3 (lapply Q3; [clear Q3; intro Q3|unfold dot; ms; lra]). specialize (Q3 C).
  unfold zero_vec in *. injection Q1 as X1 X2 X3. injection Q2 as X4 X5 X6. injection Q3 as X7 X8 X9.
  apply mat_eq; lra.
Qed.
Lemma rigid_unique : forall S T p q r, rigid S -> rigid T -> apply S p = apply T p -> apply S q = apply T q -> apply S r = apply T r ->
  cross (vsub q p) (vsub r p) <> zero_vec -> S = T.
Proof.
  intros [m t] [n u] p q r M N P Q R C. unfold rigid in *. ms.
  assert (D : forall x, apply (mkT m t) x = apply (mkT n u) x -> mvec m (vsub x p) = mvec n (vsub x p)).
  { intros x X. unfold apply, mvec, vadd, vsub in *. ms. injection P as P1 P2 P3. injection X as X1 X2 X3. f_equal; lra. }
  assert (m = n) as -> by (apply (rot_unique m n (vsub q p) (vsub r p)); auto).
  f_equal. unfold apply, vadd in P. ms. injection P as P1 P2 P3. destruct t, u. ms. f_equal; lra.
Qed.

(** ** Planes *)
Lemma shifted_squares : forall (k : R) (l : list R),
  rsum (map (fun x => Rsqr (x + k)) l) = rsum (map Rsqr l) + 2 * k * rsum l + INR (length l) * Rsqr k.
Proof.
  intros k. induction l as [|x l IH]; [cbn; ring|]. cbn [map length]. rewrite S_INR. cbn [rsum fold_right].
  fold (rsum (map (fun x => Rsqr (x + k)) l)). fold (rsum (map Rsqr l)). fold (rsum l). rewrite IH. unfold Rsqr. ring.
Qed.
Lemma rsum_dots : forall n l, rsum (map (fun p => dot p n) l) = dot (mkV (rsum (map vx l)) (rsum (map vy l)) (rsum (map vz l))) n.
Proof.
  intros n. induction l as [|p l IH]; [unfold dot; cbn; ring|]. cbn [map rsum fold_right].
  fold (rsum (map (fun p => dot p n) l)). fold (rsum (map vx l)). fold (rsum (map vy l)). fold (rsum (map vz l)). rewrite IH. unfold dot. ms. ring.
Qed.
Lemma left_squares : forall u s vs m,
  rsum (map (fun v => Rsqr (dot (mvec u (mkV (vx s * vx v) (vy s * vy v) (vz s * vz v))) m)) vs) =
  let y := mvec (mtrans u) m in
  Rsqr (vx s * vx y) * sum_of (fun v => vx v * vx v) vs + Rsqr (vy s * vy y) * sum_of (fun v => vy v * vy v) vs
  + Rsqr (vz s * vz y) * sum_of (fun v => vz v * vz v) vs
  + 2 * (vx s * vx y) * (vy s * vy y) * sum_of (fun v => vx v * vy v) vs
  + 2 * (vx s * vx y) * (vz s * vz y) * sum_of (fun v => vx v * vz v) vs
  + 2 * (vy s * vy y) * (vz s * vz y) * sum_of (fun v => vy v * vz v) vs.
Proof.
  intros u s vs m. cbv zeta. induction vs as [|v vs IH]; [unfold sum_of; cbn; ring|].
  unfold sum_of in *. cbn [map rsum fold_right].
  repeat match goal with |- context [fold_right Rplus 0 ?l] => change (fold_right Rplus 0 l) with (rsum l) end.
  rewrite IH. unfold Rsqr, dot, mvec, mtrans. ms. ring.
Qed.
Lemma trans_length : forall u m, orthonormal u -> dot (mvec (mtrans u) m) (mvec (mtrans u) m) = dot m m.
Proof. intros. apply rot_length, orth_trans. assumption. Qed.
Lemma last_unit : forall u, orthonormal u -> dot (last_column u) (last_column u) = 1 /\ mvec (mtrans u) (last_column u) = mkV 0 0 1.
Proof.
  intros u H. unfold orthonormal, mmul, mtrans, ident in H. ms. injection H as _ _ A _ _ B _ _ C.
  unfold dot, mvec, mtrans, last_column. ms. split; [lra|f_equal; lra].
Qed.
Lemma left_least : forall cols u, is_left cols u ->
  forall m, dot m m = 1 -> rsum (map (fun p => Rsqr (dot p (last_column u))) cols) <= rsum (map (fun p => Rsqr (dot p m)) cols).
Proof.
  intros cols u (U & s & vs & S1 & S2 & -> & XY & XZ & YZ & XX & YY & ZZ) m M.
  rewrite !map_map, !left_squares. cbv zeta. destruct (last_unit u U) as [_ L]. rewrite L. ms. rewrite XY, XZ, YZ.
  pose proof (trans_length u m U) as Y. rewrite M in Y. revert Y. generalize (mvec (mtrans u) m). intros y Y. unfold dot in Y.
  revert XX YY ZZ. generalize (sum_of (fun v => vx v * vx v) vs) (sum_of (fun v => vy v * vy v) vs) (sum_of (fun v => vz v * vz v) vs).
  intros sx sy sz XX YY ZZ.
  assert (X : Rsqr (vx s * vx y) * sx = Rsqr (vx s) * Rsqr (vx y)) by (unfold Rsqr; destruct XX as [->| ->]; ring).
  assert (Y' : Rsqr (vy s * vy y) * sy = Rsqr (vy s) * Rsqr (vy y)) by (unfold Rsqr; destruct YY as [->| ->]; ring).
  assert (Z : Rsqr (vz s * vz y) * sz = Rsqr (vz s) * Rsqr (vz y)) by (unfold Rsqr; destruct ZZ as [->| ->]; ring).
  assert (Z1 : Rsqr (vz s * 1) * sz = Rsqr (vz s)) by (unfold Rsqr; destruct ZZ as [->| ->]; ring).
  rewrite X, Y', Z, Z1.
  assert (Rsqr (vz s) <= Rsqr (vy s)) by (apply Rsqr_incr_1; lra).
  assert (Rsqr (vy s) <= Rsqr (vx s)) by (apply Rsqr_incr_1; lra).
  pose proof (Rle_0_sqr (vx y)) as Px. pose proof (Rle_0_sqr (vy y)) as Py.
  change (vx y * vx y) with (Rsqr (vx y)) in Y. change (vy y * vy y) with (Rsqr (vy y)) in Y. change (vz y * vz y) with (Rsqr (vz y)) in Y.
  assert (0 <= (Rsqr (vx s) - Rsqr (vz s)) * Rsqr (vx y)) by (apply Rmult_le_pos; lra).
  assert (0 <= (Rsqr (vy s) - Rsqr (vz s)) * Rsqr (vy y)) by (apply Rmult_le_pos; lra).
  assert (Rsqr (vz y) = 1 - Rsqr (vx y) - Rsqr (vy y)) as -> by lra.
  assert (O1 : Rsqr (vx s * 0) = 0) by (unfold Rsqr; ring). assert (O2 : Rsqr (vy s * 0) = 0) by (unfold Rsqr; ring). rewrite O1, O2. lra.
Qed.
(** The columns around their centroid sum up to 0. *)
Lemma centred : forall a l n, rsum (map (fun p => dot (vsub p a) n) l)
  = rsum (map (fun p => dot p n) l) - INR (length l) * dot a n.
Proof.
  intros a l n. induction l as [|p l IH]; [cbn; ring|]. cbn [map length]. rewrite S_INR. cbn [rsum fold_right].
  repeat match goal with |- context [fold_right Rplus 0 ?l] => change (fold_right Rplus 0 l) with (rsum l) end.
  rewrite IH. unfold dot, vsub. ms. ring.
Qed.
Definition centroid (pts : list vec) : vec :=
  mkV (rsum (map vx pts) / INR (length pts)) (rsum (map vy pts) / INR (length pts)) (rsum (map vz pts) / INR (length pts)).
Lemma centroid_least : forall pts a n, pts <> [] -> plane_misfit (centroid pts) n pts <= plane_misfit a n pts.
Proof.
  intros pts a n N. unfold plane_misfit.
  assert (NZ : 0 < INR (length pts)) by (apply lt_0_INR; destruct pts; [congruence|cbn; lia]).
  assert (Z : rsum (map (fun p => dot (vsub p (centroid pts)) n) pts) = 0).
  { rewrite centred, rsum_dots. unfold dot, centroid. ms. field. lra. }
  assert (E : map (fun p => Rsqr (dot (vsub p a) n)) pts
    = map (fun x => Rsqr (x + dot (vsub (centroid pts) a) n)) (map (fun p => dot (vsub p (centroid pts)) n) pts)).
  { rewrite map_map. apply map_ext. intros p. f_equal. unfold dot, vsub. ms. ring. }
  rewrite E, shifted_squares, Z, map_map, map_length.
  pose proof (Rle_0_sqr (dot (vsub (centroid pts) a) n)).
  assert (0 <= INR (length pts) * Rsqr (dot (vsub (centroid pts) a) n)) by (apply Rmult_le_pos; lra). lra.
Qed.
Lemma misfit_of_cols : forall a n pts, plane_misfit a n pts = rsum (map (fun p => Rsqr (dot p n)) (map (fun p => vsub p a) pts)).
Proof. intros. unfold plane_misfit. rewrite map_map. reflexivity. Qed.
Lemma plane_fitting_eq : forall left limit pts, (2 <= length pts)%nat ->
  plane_fitting left limit pts = (centroid pts, last_column (left (map (fun p => vsub p (centroid pts)) pts))).
Proof.
  intros left limit pts L. unfold plane_fitting. assert ((length pts <? 2)%nat = false) as -> by (apply Nat.ltb_ge; exact L). reflexivity.
Qed.
Lemma plane_zero : forall a n pts, plane_misfit a n pts <= 0 -> forall p, In p pts -> dot (vsub p a) n = 0.
Proof.
  intros a n. assert (P : forall pts, 0 <= plane_misfit a n pts).
  { induction pts as [|q pts IH]; [unfold plane_misfit; cbn; lra|]. unfold plane_misfit in *. cbn [map rsum fold_right].
    change (fold_right Rplus 0 (map (fun p => Rsqr (dot (vsub p a) n)) pts)) with (rsum (map (fun p => Rsqr (dot (vsub p a) n)) pts)).
    pose proof (Rle_0_sqr (dot (vsub q a) n)). lra. }
  induction pts as [|q pts IH]; intros M p I; [destruct I|].
  assert (E : plane_misfit a n (q :: pts) = Rsqr (dot (vsub q a) n) + plane_misfit a n pts) by reflexivity.
  rewrite E in M. specialize (P pts). pose proof (Rle_0_sqr (dot (vsub q a) n)).
  destruct I as [<-|I]; [apply Rsqr_0_uniq; lra|apply IH; auto; lra].
Qed.
Lemma plane_on : forall a n pts, (forall p, In p pts -> dot (vsub p a) n = 0) -> plane_misfit a n pts = 0.
Proof.
  intros a n. induction pts as [|q pts IH]; intros H; [reflexivity|].
  assert (E : plane_misfit a n (q :: pts) = Rsqr (dot (vsub q a) n) + plane_misfit a n pts) by reflexivity.
  rewrite E, (H q (or_introl eq_refl)), IH by (intros; apply H; right; auto). unfold Rsqr. ring.
Qed.
(** A unit vector perpendicular to two given ones. *)
Lemma unit_of_nonzero : forall x, x <> zero_vec -> exists k, dot (vscale k x) (vscale k x) = 1.
Proof.
  intros x N. pose proof (dot_nonneg x). destruct (Req_dec (dot x x) 0) as [Z|Z]; [apply dot_zero in Z; contradiction|].
  exists (/ sqrt (dot x x)). assert (P : 0 < dot x x) by lra. pose proof (sqrt_lt_R0 _ P) as Q. pose proof (sqrt_sqrt (dot x x) ltac:(lra)) as E.
  assert (D : dot (vscale (/ sqrt (dot x x)) x) (vscale (/ sqrt (dot x x)) x) = / sqrt (dot x x) * / sqrt (dot x x) * dot x x) by (unfold dot at 1, vscale; ms; unfold dot; ring).
  rewrite D. rewrite <- E at 3. field. lra.
Qed.
Lemma perp_one : forall a, exists n, dot n n = 1 /\ dot a n = 0.
Proof.
  intros a.
  destruct (Req_dec (vx a) 0) as [X|X].
  - exists (mkV 1 0 0). unfold dot. ms. split; [ring|rewrite X; ring].
  - destruct (unit_of_nonzero (mkV (vy a) (- vx a) 0)) as [k K].
    + unfold zero_vec. intros E. injection E. intros. lra.
    + exists (vscale k (mkV (vy a) (- vx a) 0)). split; auto. unfold dot, vscale. ms. ring.
Qed.
Lemma perp_two : forall a b, exists n, dot n n = 1 /\ dot a n = 0 /\ dot b n = 0.
Proof.
  intros a b. destruct (Req_dec (dot (cross a b) (cross a b)) 0) as [Z|Z].
  - destruct (Req_dec (dot a a) 0) as [A|A].
    + destruct (perp_one b) as (n & N & B). exists n. split; auto. split; auto. apply dot_zero in A. subst a. unfold dot, zero_vec. ms. ring.
    + destruct (perp_one a) as (n & N & P). exists n. split; auto. split; auto. apply dot_zero in Z.
      assert (E : dot a a * dot b n = dot a b * dot a n - dot (cross a b) (cross n a)) by (unfold dot, cross; ms; ring).
      rewrite Z, P in E. assert (F : dot zero_vec (cross n a) = 0) by (unfold dot, zero_vec; ms; ring). rewrite F in E.
      assert (G : dot a a * dot b n = 0) by lra. apply Rmult_integral in G. destruct G; auto. contradiction.
  - destruct (unit_of_nonzero (cross a b)) as [k K].
    + intros E. rewrite E in Z. apply Z. unfold dot, zero_vec. ms. ring.
    + exists (vscale k (cross a b)). split; auto. unfold dot, vscale, cross. ms. split; ring.
Qed.
Lemma flip_left : forall cols u, is_left cols u -> is_left cols (flip_last u).
Proof.
  intros cols u (U & s & vs & S1 & S2 & E & XY & XZ & YZ & XX & YY & ZZ). split.
  { rewrite flip_is. apply orth_mul; auto. apply flip_orth. }
  exists s, (map (fun v => mkV (vx v) (vy v) (- vz v)) vs). unfold sum_of in *. rewrite !map_map. ms.
  assert (N : forall f : vec -> R, rsum (map (fun v => - f v) vs) = - rsum (map f vs)).
  { intros f. clear. induction vs as [|v vs IH]; [cbn; ring|]. cbn [map rsum fold_right]. fold (rsum (map (fun v => - f v) vs)). fold (rsum (map f vs)). rewrite IH. ring. }
  repeat split; try apply S1; auto.
  - rewrite E. apply map_ext. intros v. unfold mvec, flip_last. ms. f_equal; ring.
  - rewrite (map_ext _ (fun v => - (vx v * vz v))) by (intros; ring). rewrite N, XZ. ring.
  - rewrite (map_ext _ (fun v => - (vy v * vz v))) by (intros; ring). rewrite N, YZ. ring.
  - rewrite (map_ext (fun v => - vz v * - vz v) (fun v => vz v * vz v)) by (intros; ring). exact ZZ.
Qed.
