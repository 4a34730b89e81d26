(** C117: a step of ICP solves the linear point to plane problem.
    C118: what Align returns: a rigid motion, the guess for a perfect guess, a score of the step before. *)
From Coq Require Import Reals List Lia Lra.
From Verif Require Import RigidModel RigidSpec RigidProofs PlaneIcpModel PlaneIcpSpec PlaneIcpProofs.
Import ListNotations.
Local Open Scope R_scope.

(** ** C117 *)
(** The solutions of the equations that are built are the motions of least cost. *)
Theorem C117_solution_is_least_cost : forall comp ms x, (forall m, In m ms -> 0 <= weight m) ->
  (solves (mat_a comp ms) (rhs comp ms) x <-> forall w t, cost comp ms (rot_part x) (tra_part x) <= cost comp ms w t).
Proof. exact solution_min. Qed.

(** The matrix is symmetric and has no negative direction, as the Cholesky decomposition needs it. *)
Theorem C117_matrix_positive : forall comp ms, (forall m, In m ms -> 0 <= weight m) ->
  (forall r c, mat_a comp ms r c = mat_a comp ms c r) /\
  (forall x, 0 <= rsum (map (fun r => x r * rsum (map (fun c => mat_a comp ms r c * x c) (seq 0 6))) (seq 0 6))).
Proof.
  intros comp ms W. split.
  - intros r c. unfold mat_a. f_equal. apply map_ext. intro m. rewrite !wcol_col. ring.
  - intro x. assert (E : rsum (map (fun r => x r * rsum (map (fun c => mat_a comp ms r c * x c) (seq 0 6))) (seq 0 6)) = quad comp ms x).
    { transitivity (rsum (map (fun r => x r * rsum (map (fun m => weight m * col comp m r * lin comp m x) ms)) (seq 0 6))).
      - f_equal. apply map_ext. intro r. rewrite row_sum. reflexivity.
      - unfold quad. clear. induction ms as [|m ms IH]; [cbn; ring|]. cbn [map rsum fold_right]. unfold rsum in IH. rewrite <- IH.
        assert (L : lin comp m x * lin comp m x = lin comp m x * (col comp m 0 * x 0%nat + (col comp m 1 * x 1%nat + (col comp m 2 * x 2%nat + (col comp m 3 * x 3%nat + (col comp m 4 * x 4%nat + (col comp m 5 * x 5%nat + 0)))))))
          by (f_equal; unfold lin; reflexivity).
        rewrite L. unfold rsum. cbn [map fold_right seq]. ring. }
    rewrite E. apply quad_nonneg. exact W.
Qed.

(** Two solutions differ by a motion along all planes that have weight, and by nothing else. *)
Theorem C117_unique_up_to_sliding : forall comp ms x y, (forall m, In m ms -> 0 <= weight m) ->
  solves (mat_a comp ms) (rhs comp ms) x ->
  (solves (mat_a comp ms) (rhs comp ms) (fun k => x k + y k) <->
   forall m, In m ms -> 0 < weight m -> share comp m * dot (vadd (cross (rot_part y) (reading m)) (tra_part y)) (normal m) = 0).
Proof.
  intros comp ms x y W S. rewrite (difference_slides comp ms x y W S). split; intros H m I P; [rewrite <- lin_geo|rewrite lin_geo]; apply H; assumption.
Qed.

(** The motion that is returned has the distances from the planes of the small motion, up to half of the
    squared angle times the distance of the point from the mean of the target. *)
Theorem C117_second_order : forall x p q n, dot n n = 1 ->
  Rabs (off_plane (apply (motion x) p) q n - off_plane (nudged (rot_part x) (tra_part x) 1 p) q n) <= dot (rot_part x) (rot_part x) / 2 * len p.
Proof. exact plane_second_order. Qed.

(** "A step never makes the distances larger": false for a large angle, with the solution of least norm. *)
Definition far_pair : pair := mkPair (mkV 3 0 0) (mkV 3 (- (5 * PI)) 0) (mkV 0 1 0) 1 1 (25 * (PI * PI)).
Definition far_step : nat -> R := entry (mkV 0 0 (- (3 * (PI / 2)))) (mkV 0 (- (PI / 2)) 0).
Lemma far_motion : apply (motion far_step) (mkV 3 0 0) = mkV 0 (3 - PI / 2) 0.
Proof.
  assert (P := PI_RGT_0). unfold motion, far_step. cbn [entry vx vy vz].
  set (w := mkV 0 0 (- (3 * (PI / 2)))).
  assert (D : dot w w = 3 * (PI / 2) * (3 * (PI / 2))) by (unfold dot, w; cbn; ring).
  assert (S : sqrt (dot w w) = 3 * (PI / 2)) by (rewrite D; apply sqrt_square; lra).
  assert (U : unit_of w = mkV 0 0 (-1)).
  { unfold unit_of. destruct (Rlt_dec 0 (dot w w)) as [_|N].
    - rewrite S. unfold vscale, w. cbn. f_equal; field; lra.
    - exfalso. apply N. rewrite D. apply Rmult_lt_0_compat; lra. }
  rewrite S, U. unfold apply, axis_matrix, mvec, vadd, vscale. cbn. rewrite sin_3PI2, cos_3PI2. f_equal; field.
Qed.
Theorem C117_never_worse_refuted : exists ms x, (forall m, In m ms -> 0 <= weight m /\ dot (normal m) (normal m) = 1) /\
  solves (mat_a false ms) (rhs false ms) x /\
  (forall y, solves (mat_a false ms) (rhs false ms) y -> rsum (map (fun k => x k * x k) (seq 0 6)) <= rsum (map (fun k => y k * y k) (seq 0 6))) /\
  true_cost ms identity < true_cost ms (motion x).
Proof.
  exists [far_pair], far_step. assert (P := PI_RGT_0). assert (P4 := PI_4). repeat split.
  - destruct H as [<-|[]]. cbn. lra.
  - destruct H as [<-|[]]. unfold dot. cbn. ring.
  - intros r L. unfold mat_a, rhs, wcol, col, dot_prod, far_pair, far_step, cross_product, entry, rsum.
    destruct r as [|[|[|[|[|[|r]]]]]]; try lia; cbn; field.
  - intros y Hy. specialize (Hy 4%nat ltac:(lia)).
    unfold mat_a, rhs, wcol, col, dot_prod, far_pair, cross_product, rsum in Hy. cbn in Hy.
    unfold rsum, far_step. cbn [map fold_right seq entry vx vy vz].
    assert (E : 3 * y 2%nat + y 4%nat = - (5 * PI)) by lra.
    assert (Q0 := Rle_0_sqr (y 0%nat)). assert (Q1 := Rle_0_sqr (y 1%nat)). assert (Q3 := Rle_0_sqr (y 3%nat)). assert (Q5 := Rle_0_sqr (y 5%nat)).
    assert (Q := Rle_0_sqr (y 2%nat - 3 * y 4%nat)). unfold Rsqr in *.
    assert (I : 10 * (y 2%nat * y 2%nat + y 4%nat * y 4%nat) = (3 * y 2%nat + y 4%nat) * (3 * y 2%nat + y 4%nat) + (y 2%nat - 3 * y 4%nat) * (y 2%nat - 3 * y 4%nat)) by ring.
    rewrite E in I. lra.
  - unfold true_cost. cbn [map rsum fold_right far_pair weight reading reference normal]. rewrite far_motion, apply_identity.
    unfold off_plane, dot, vsub, Rsqr. cbn. assert (H : 0 < (3 - PI / 2) * (3 - PI / 2 + 10 * PI)) by (apply Rmult_lt_0_compat; lra). lra.
Qed.

(** Three planes at the origin: the step is the translation that is missing. *)
Definition corner (d : vec) : list pair :=
  [ mkPair (mkV 0 0 0) d (mkV 1 0 0) 1 1 (dot d d); mkPair (mkV 0 0 0) d (mkV 0 1 0) 1 1 (dot d d); mkPair (mkV 0 0 0) d (mkV 0 0 1) 1 1 (dot d d) ].
Example C117_corner : forall d, solves (mat_a false (corner d)) (rhs false (corner d)) (entry zero_vec d).
Proof.
  intros [a b c] r L. unfold mat_a, rhs, wcol, col, dot_prod, corner, cross_product, entry, rsum.
  destruct r as [|[|[|[|[|[|r]]]]]]; try lia; cbn; ring.
Qed.

(** ** C118 *)
Section Claims.
  Variable solve : (nat -> nat -> R) -> (nat -> R) -> nat -> R.
  Variable matched : list vec -> list vec -> list pair.
  Notation align := (align solve matched).

  (** From a rigid guess a rigid motion is returned, whatever the equations and their solutions are. *)
  Theorem C118_rigid : forall n source target guess s, rigid guess -> rigid (fst (fst (align n source target guess s))).
  Proof.
    intros n source target guess s G. unfold PlaneIcpModel.align. cbv zeta.
    match goal with |- context [loop solve matched n ?a ?b identity s] => assert (L := loop_rigid solve matched n a b identity s rotation_ident);
      destruct (loop solve matched n a b identity s) as [T s'] end. cbn [fst snd] in *.
    apply compose_rigid; [apply compose_rigid; [apply rigid_shift|exact L]|]. apply compose_rigid; [apply rigid_shift|exact G].
  Qed.

  (** The loop works around the mean of the target: the source is placed by the guess and moved with
      it, the mean is added again at the end; the target cloud is left as it was. *)
  Theorem C118_around_the_mean : forall n source target guess s, target <> [] ->
    exists mean T,
      fold_right vadd zero_vec (map (fun q => vsub q mean) target) = zero_vec /\
      T = fst (loop solve matched n (map (fun p => vsub (apply guess p) mean) source) (map (fun q => vsub q mean) target) identity s) /\
      (forall p, apply (fst (fst (align n source target guess s))) p = vadd (apply T (vsub (apply guess p) mean)) mean) /\
      snd (align n source target guess s) = target.
  Proof.
    intros n source target guess s N. exists (mean_of target). eexists. split; [apply mean_centred; exact N|]. split; [reflexivity|].
    unfold PlaneIcpModel.align. cbv zeta.
    assert (I : forall p, apply (compose (mkT ident (vscale (-1) (mean_of target))) guess) p = vsub (apply guess p) (mean_of target)).
    { intro p. rewrite apply_compose, apply_shift. unfold vadd, vscale, vsub. cbn. f_equal; ring. }
    rewrite (map_ext _ _ I).
    destruct (loop solve matched n _ _ identity s) as [T s']. cbn [fst snd]. split.
    - intro p. rewrite apply_compose, I, apply_compose, apply_shift. reflexivity.
    - rewrite map_map. erewrite map_ext; [apply map_id|]. intro q. apply vsub_add.
  Qed.

  (** If the guess puts every kept point on the plane of its match and the solver returns 0 for a zero right
      hand side, the guess is returned after any number of iterations. *)
  Theorem C118_perfect_guess : (forall a b, (forall r, (r < 6)%nat -> b r = 0) -> forall k, (k < 6)%nat -> solve a b k = 0) ->
    forall n source target guess s,
    (forall mean m, fold_right vadd zero_vec (map (fun q => vsub q mean) target) = zero_vec ->
       In m (matched (map (fun p => vsub (apply guess p) mean) source) (map (fun q => vsub q mean) target)) ->
       off_plane (reading m) (reference m) (normal m) = 0) ->
    target <> [] -> forall p, apply (fst (fst (align n source target guess s))) p = apply guess p.
  Proof.
    intros Hs n source target guess s H N p.
    destruct (C118_around_the_mean n source target guess s N) as (mean & T & Z & ET & R & _). rewrite R, ET.
    rewrite loop_rest; [rewrite apply_identity; apply vsub_add|exact Hs|].
    intros m I. rewrite (map_ext _ (fun p => p) apply_identity), map_id in I. specialize (H mean m Z I).
    unfold off_plane, dot in H. unfold dot_prod. exact H.
  Qed.

  (** The score lies between 0 and 1 and is 1 just for kept points at distance 0, in the cloud as it was
      before the last step. *)
  Theorem C118_score : (forall a b, matched a b <> [] /\ forall m, In m (matched a b) -> 0 <= sqdist m) ->
    forall n source target guess s, (0 < n)%nat ->
    exists source' target', let r := snd (fst (align n source target guess s)) in
      0 < r <= 1 /\ (r = 1 <-> forall m, In m (matched source' target') -> sqdist m = 0).
  Proof.
    intros H n source target guess s P. unfold PlaneIcpModel.align. cbv zeta.
    match goal with |- context [loop solve matched n ?a ?b identity s] => destruct (loop_score solve matched n a b identity s P) as (T & E);
      exists (map (apply T) a), b; destruct (loop solve matched n a b identity s) as [T' s'] end.
    cbn [fst snd] in *. rewrite E. destruct (H (map (apply T) (map (apply (compose (mkT ident (vscale (-1) (mean_of target))) guess)) source)) (map (fun q => vsub q (mean_of target)) target)) as (N & D).
    apply score_bounds; assumption.
  Qed.
End Claims.

(** If the readings are the references moved by [d] and no motion slides along all planes, every solution is
    the translation by [-d]: one step puts all points on their matches. *)
Theorem C118_translation_in_one_step : forall ms d x, (forall m, In m ms -> 0 <= weight m /\ reading m = vadd (reference m) d) ->
  (forall w t, (forall m, In m ms -> 0 < weight m -> dot (vadd (cross w (reading m)) t) (normal m) = 0) -> w = zero_vec /\ t = zero_vec) ->
  solves (mat_a false ms) (rhs false ms) x ->
  forall m, In m ms -> apply (motion x) (reading m) = reference m.
Proof.
  intros ms d x H U S m I.
  assert (W : forall m, In m ms -> 0 <= weight m) by (intros; apply H; assumption).
  set (z := entry zero_vec (vscale (-1) d)).
  assert (Rz : forall m, In m ms -> res false m z = 0).
  { intros m' I'. destruct (H m' I') as (_ & E). rewrite <- res_geo. unfold share, off_plane, nudged. rewrite E.
    unfold z, rot_part, tra_part, entry, dot, vsub, vadd, vscale, cross, zero_vec. cbn. ring. }
  assert (Sz : solves (mat_a false ms) (rhs false ms) z).
  { apply solves_grad. intros r _. unfold grad. clear - Rz. induction ms as [|m ms IH]; [reflexivity|]. cbn [map rsum fold_right].
    unfold rsum in IH. rewrite IH by (intros; apply Rz; right; assumption). rewrite (Rz m (or_introl eq_refl)). ring. }
  set (y := fun k => x k - z k).
  assert (Sy : solves (mat_a false ms) (rhs false ms) (fun k => z k + y k)).
  { intros r L. rewrite <- (S r L). f_equal. apply map_ext. intro c. unfold y. ring. }
  assert (Sl := proj1 (C117_unique_up_to_sliding false ms z y W Sz) Sy).
  destruct (U (rot_part y) (tra_part y)) as (Yr & Yt).
  { intros m' I' P'. specialize (Sl m' I' P'). unfold share in Sl. lra. }
  injection Yr as Y0 Y1 Y2. injection Yt as Y3 Y4 Y5. unfold y, z, entry in *. cbn in *.
  destruct (H m I) as (_ & E).
  assert (Mx : motion x = mkT ident (vscale (-1) d)).
  { unfold motion. replace (x 0%nat) with 0 by lra. replace (x 1%nat) with 0 by lra. replace (x 2%nat) with 0 by lra.
    change (mkV 0 0 0) with zero_vec. unfold unit_of. rewrite dot_zero_vec. destruct (Rlt_dec 0 0) as [A|_]; [lra|]. rewrite sqrt_0, axis_zero.
    f_equal. unfold vscale. f_equal; lra. }
  rewrite Mx, apply_shift, E. destruct (reference m), d. unfold vadd, vscale. cbn. f_equal; ring.
Qed.

(** "The score tells how well the returned transform fits": false, the last step is not in it. *)
Definition one_pair (a b : list vec) : list pair :=
  map (fun pq => mkPair (fst pq) (snd pq) (mkV 1 0 0) 1 1 (dot (vsub (fst pq) (snd pq)) (vsub (fst pq) (snd pq)))) (combine a b).
Theorem C118_score_of_result_refuted : exists solve source target,
  (let ms := one_pair (map (fun p => vsub p (mean_of target)) source) (map (fun q => vsub q (mean_of target)) target) in
   ms <> [] /\ solves (mat_a false ms) (rhs false ms) (solve (mat_a false ms) (rhs false ms))) /\
  let r := fst (align solve one_pair 1 source target identity 0) in
  map (apply (fst r)) source = target /\ snd r < 1.
Proof.
  set (x := entry zero_vec (mkV (-1) 0 0)).
  exists (fun _ _ => x), [mkV 1 0 0], [zero_vec].
  assert (M : mean_of [zero_vec] = zero_vec) by (unfold mean_of, vscale, vadd, zero_vec; cbn; f_equal; ring).
  split.
  - cbv zeta. rewrite M. split; [discriminate|]. intros r L.
    unfold mat_a, rhs, wcol, col, dot_prod, one_pair, cross_product, x, entry, rsum.
    destruct r as [|[|[|[|[|[|r]]]]]]; try lia; cbn; ring.
  - assert (Mx : motion x = mkT ident (mkV (-1) 0 0)).
    { unfold motion, x. cbn [entry vx vy vz zero_vec]. change (mkV 0 0 0) with zero_vec. unfold unit_of. rewrite dot_zero_vec.
      destruct (Rlt_dec 0 0) as [A|_]; [lra|]. rewrite sqrt_0, axis_zero. reflexivity. }
    cbv zeta. unfold align. cbv zeta. rewrite M. cbn [loop fst snd]. unfold point_to_plane. rewrite Mx. split.
    + cbn [map]. f_equal. rewrite !apply_compose, !apply_shift, !apply_identity. unfold vadd, vscale, zero_vec. cbn. f_equal; ring.
    + cbn [map]. rewrite !apply_compose, !apply_shift, !apply_identity.
      unfold score, one_pair, rsum. cbn [combine map fst snd fold_right sqdist length]. apply Rlt_le_trans with (exp 0); [|rewrite exp_0; lra]. apply exp_increasing.
      match goal with |- - ((sqrt ?d + 0) / INR 1) < 0 => replace d with 1 by (unfold dot, vsub, vadd, vscale, zero_vec; cbn; ring) end.
      rewrite sqrt_1. cbn. lra.
Qed.

(** The solution of [C117_corner] is the missing translation. *)
Example C118_corner : forall d, apply (motion (entry zero_vec d)) (mkV 0 0 0) = d.
Proof.
  intros [a b c]. unfold motion. cbn [entry vx vy vz zero_vec]. change (mkV 0 0 0) with zero_vec. unfold unit_of. rewrite dot_zero_vec.
  destruct (Rlt_dec 0 0) as [A|_]; [lra|]. rewrite sqrt_0, axis_zero, apply_shift. unfold vadd, zero_vec. cbn. f_equal; ring.
Qed.
(** Planes that fix all six degrees of freedom: the hypotheses of [C118_translation_in_one_step] hold. *)
Definition box (d : vec) : list pair :=
  map (fun pn => mkPair (vadd (fst pn) d) (fst pn) (snd pn) 1 1 (dot d d))
    [ (mkV 0 1 0, mkV 1 0 0); (mkV 0 (-1) 0, mkV 1 0 0); (mkV 0 0 1, mkV 0 1 0); (mkV 0 0 (-1), mkV 0 1 0); (mkV 1 0 0, mkV 0 0 1); (mkV (-1) 0 0, mkV 0 0 1) ].
Example C118_box : forall d x, solves (mat_a false (box d)) (rhs false (box d)) x ->
  forall m, In m (box d) -> apply (motion x) (reading m) = reference m.
Proof.
  intros d x S. apply (C118_translation_in_one_step (box d) d x); [| |exact S].
  - intros m I. cbn in I. repeat (destruct I as [<-|I]; [cbn; split; [lra|reflexivity]|]). contradiction.
  - intros w t H. destruct d as [a b c], w as [w0 w1 w2], t as [t0 t1 t2].
    assert (K : forall m, In m (box (mkV a b c)) -> dot (vadd (cross (mkV w0 w1 w2) (reading m)) (mkV t0 t1 t2)) (normal m) = 0).
    { intros m I. apply H; [exact I|]. cbn in I. repeat (destruct I as [<-|I]; [cbn; lra|]). contradiction. }
    clear H. unfold box in K. cbn [map fst snd] in K.
    assert (K0 := K _ (or_introl eq_refl)). assert (K1 := K _ (or_intror (or_introl eq_refl))).
    assert (K2 := K _ (or_intror (or_intror (or_introl eq_refl)))). assert (K3 := K _ (or_intror (or_intror (or_intror (or_introl eq_refl))))).
    assert (K4 := K _ (or_intror (or_intror (or_intror (or_intror (or_introl eq_refl)))))). assert (K5 := K _ (or_intror (or_intror (or_intror (or_intror (or_intror (or_introl eq_refl))))))).
    clear K. unfold dot, vadd, cross in *. cbn in *.
    assert (w2 = 0) by lra. assert (w0 = 0) by lra. assert (w1 = 0) by lra. subst. unfold zero_vec. split; f_equal; lra.
Qed.

(** A source that the guess puts on the target: any solver that is linear in the right hand side keeps it. *)
Example C118_perfect_kept : forall v n p, apply (fst (fst (align (fun _ b => b) one_pair n [v] [v] identity 0))) p = p.
Proof.
  intros v n p. rewrite C118_perfect_guess; [apply apply_identity|auto| |discriminate].
  intros mean m _ I. cbn in I. destruct I as [<-|[]]. rewrite apply_identity. unfold off_plane, dot, vsub. cbn. ring.
Qed.
(** With the pairs of [corner] the score is exp(-|d|). *)
Example C118_corner_score : forall d, 0 < score (corner d) <= 1 /\ (score (corner d) = 1 <-> dot d d = 0).
Proof.
  intro d. destruct (score_bounds (corner d)) as (B & E); [discriminate| |].
  - intros m I. cbn in I. repeat (destruct I as [<-|I]; [apply dot_nonneg|]). contradiction.
  - split; [exact B|]. rewrite E. split.
    + intro H. apply (H _ (or_introl eq_refl)).
    + intros H m I. cbn in I. repeat (destruct I as [<-|I]; [exact H|]). contradiction.
Qed.

Print Assumptions C117_solution_is_least_cost.
Print Assumptions C117_matrix_positive.
Print Assumptions C117_unique_up_to_sliding.
Print Assumptions C117_second_order.
Print Assumptions C117_never_worse_refuted.
Print Assumptions C118_rigid.
Print Assumptions C118_around_the_mean.
Print Assumptions C118_perfect_guess.
Print Assumptions C118_score.
Print Assumptions C118_translation_in_one_step.
Print Assumptions C118_score_of_result_refuted.
