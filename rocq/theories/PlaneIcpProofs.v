(** Proofs about the point to plane step. *)
From Coq Require Import Reals List Lia Lra.
From Verif Require Import RigidModel RigidSpec RigidProofs PlaneIcpModel PlaneIcpSpec.
Import ListNotations.
Local Open Scope R_scope.

Definition lin (comp : bool) (m : pair) (x : nat -> R) : R := rsum (map (fun c => col comp m c * x c) (seq 0 6)).
Definition res (comp : bool) (m : pair) (x : nat -> R) : R := dot_prod m + lin comp m x.
Definition grad (comp : bool) (ms : list pair) (x : nat -> R) (r : nat) : R :=
  rsum (map (fun m => weight m * col comp m r * res comp m x) ms).
Definition quad (comp : bool) (ms : list pair) (y : nat -> R) : R :=
  rsum (map (fun m => weight m * (lin comp m y * lin comp m y)) ms).

Lemma wcol_col : forall comp m k, wcol comp m k = weight m * col comp m k.
Proof. intros [] m k; unfold wcol, col; cbv zeta; ring. Qed.
Lemma lin_geo : forall comp m x, lin comp m x = share comp m * dot (vadd (cross (rot_part x) (reading m)) (tra_part x)) (normal m).
Proof.
  intros comp [p q n w f d] x. unfold lin, col, share, dot, vadd, cross, rot_part, tra_part.
  destruct comp; cbn; ring.
Qed.
Lemma res_geo : forall comp m x,
  off_plane (nudged (rot_part x) (tra_part x) (share comp m) (reading m)) (reference m) (normal m) = res comp m x.
Proof.
  intros comp m x. unfold res. rewrite lin_geo. unfold off_plane, nudged, dot_prod, dot, vsub, vadd, vscale, cross, rot_part, tra_part.
  cbn. ring.
Qed.
Lemma cost_res : forall comp ms x, cost comp ms (rot_part x) (tra_part x) = rsum (map (fun m => weight m * (res comp m x * res comp m x)) ms).
Proof.
  intros comp ms x. unfold cost. f_equal. apply map_ext. intro m. rewrite res_geo. unfold Rsqr. reflexivity.
Qed.
Lemma row_sum : forall comp ms x r,
  rsum (map (fun c => mat_a comp ms r c * x c) (seq 0 6)) = rsum (map (fun m => weight m * col comp m r * lin comp m x) ms).
Proof.
  intros comp ms x r. induction ms as [|m ms IH]; [unfold mat_a; cbn; ring|].
  cbn [map rsum fold_right]. fold (rsum (map (fun m => weight m * col comp m r * lin comp m x) ms)). rewrite <- IH.
  unfold lin, mat_a, rsum. cbn [map fold_right seq]. rewrite !wcol_col. ring.
Qed.
Lemma rhs_sum : forall comp ms r, rhs comp ms r = - rsum (map (fun m => weight m * col comp m r * dot_prod m) ms).
Proof. intros. unfold rhs. f_equal. f_equal. apply map_ext. intro m. rewrite wcol_col. reflexivity. Qed.
Lemma grad_split : forall comp ms x r,
  grad comp ms x r = rsum (map (fun m => weight m * col comp m r * lin comp m x) ms) + rsum (map (fun m => weight m * col comp m r * dot_prod m) ms).
Proof.
  intros comp ms x r. unfold grad, res. induction ms as [|m ms IH]; [cbn; ring|]. cbn [map rsum fold_right].
  fold (rsum (map (fun m => weight m * col comp m r * (dot_prod m + lin comp m x)) ms)). rewrite IH. unfold rsum. ring.
Qed.
Lemma solves_grad : forall comp ms x, solves (mat_a comp ms) (rhs comp ms) x <-> (forall r, (r < 6)%nat -> grad comp ms x r = 0).
Proof.
  intros comp ms x. split; intros H r L; specialize (H r L).
  - rewrite row_sum, rhs_sum in H. rewrite grad_split. lra.
  - rewrite row_sum, rhs_sum. rewrite grad_split in H. lra.
Qed.
Lemma lin_add : forall comp m x y, lin comp m (fun k => x k + y k) = lin comp m x + lin comp m y.
Proof. intros. unfold lin. cbn [map rsum fold_right seq]. ring. Qed.
Lemma lin_scale : forall comp m k x, lin comp m (fun c => k * x c) = k * lin comp m x.
Proof. intros. unfold lin. cbn [map rsum fold_right seq]. ring. Qed.
Lemma lin_col : forall comp m r, (r < 6)%nat -> lin comp m (fun k => if Nat.eqb k r then 1 else 0) = col comp m r.
Proof.
  intros comp m r L. unfold lin. cbn [map rsum fold_right seq].
  destruct r as [|[|[|[|[|[|r]]]]]]; try lia; cbn [Nat.eqb]; ring.
Qed.
Lemma grad_dir : forall comp ms x y,
  rsum (map (fun m => weight m * (res comp m x * lin comp m y)) ms) = rsum (map (fun r => grad comp ms x r * y r) (seq 0 6)).
Proof.
  intros comp ms x y. induction ms as [|m ms IH]; [unfold grad; cbn; ring|].
  cbn [map rsum fold_right]. fold (rsum (map (fun m => weight m * (res comp m x * lin comp m y)) ms)). rewrite IH.
  unfold grad, rsum. cbn [map fold_right seq]. unfold lin at 1, rsum. cbn [map fold_right seq]. ring.
Qed.
Lemma cost_add : forall comp ms x y,
  let z := fun k => x k + y k in
  cost comp ms (rot_part z) (tra_part z) =
  cost comp ms (rot_part x) (tra_part x) + 2 * rsum (map (fun m => weight m * (res comp m x * lin comp m y)) ms) + quad comp ms y.
Proof.
  intros comp ms x y z. rewrite !cost_res. unfold quad. induction ms as [|m ms IH]; [cbn; ring|].
  cbn [map rsum fold_right]. unfold rsum in IH. rewrite IH. unfold res, z. rewrite lin_add. ring.
Qed.
Lemma quad_nonneg : forall comp ms y, (forall m, In m ms -> 0 <= weight m) -> 0 <= quad comp ms y.
Proof.
  intros comp ms y. unfold quad. induction ms as [|m ms IH]; intro H; [cbn; lra|]. cbn [map rsum fold_right].
  apply Rplus_le_le_0_compat; [|apply IH; intros; apply H; right; assumption].
  apply Rmult_le_pos; [apply H; left; reflexivity|]. apply Rle_0_sqr.
Qed.
Lemma quad_zero : forall comp ms y, (forall m, In m ms -> 0 <= weight m) ->
  (quad comp ms y = 0 <-> forall m, In m ms -> 0 < weight m -> lin comp m y = 0).
Proof.
  intros comp ms y. induction ms as [|m ms IH]; intro H; [cbn; split; [intros _ m []|reflexivity]|].
  unfold quad. cbn [map rsum fold_right]. fold (rsum (map (fun m => weight m * (lin comp m y * lin comp m y)) ms)). fold (quad comp ms y).
  assert (H' : forall m, In m ms -> 0 <= weight m) by (intros; apply H; right; assumption).
  assert (Q := quad_nonneg comp ms y H'). assert (W := H m (or_introl eq_refl)).
  assert (S := Rle_0_sqr (lin comp m y)). unfold Rsqr in S. assert (P := Rmult_le_pos _ _ W S).
  split.
  - intros E m' [<-|I] Wm.
    + assert (Z : weight m * (lin comp m y * lin comp m y) = 0) by lra. apply Rmult_integral in Z as [Z|Z]; [lra|].
      apply Rmult_integral in Z as [Z|Z]; exact Z.
    + apply (proj1 (IH H')); [lra|assumption|assumption].
  - intros E. rewrite (proj2 (IH H')) by (intros; apply E; [right; assumption|assumption]).
    destruct (Rle_lt_or_eq_dec _ _ W) as [Wp|Wz]; [|rewrite <- Wz; ring].
    rewrite (E m (or_introl eq_refl) Wp). ring.
Qed.
Lemma of_parts : forall w t, exists x, rot_part x = w /\ tra_part x = t.
Proof. intros [a b c] [d e f]. exists (entry (mkV a b c) (mkV d e f)). split; reflexivity. Qed.

Lemma solution_min : forall comp ms x, (forall m, In m ms -> 0 <= weight m) ->
  (solves (mat_a comp ms) (rhs comp ms) x <-> forall w t, cost comp ms (rot_part x) (tra_part x) <= cost comp ms w t).
Proof.
  intros comp ms x W. rewrite solves_grad. split.
  - intros G w t. destruct (of_parts w t) as (z & <- & <-).
    set (y := fun k => z k - x k).
    assert (E := cost_add comp ms x y). cbv zeta in E.
    replace (rot_part (fun k => x k + y k)) with (rot_part z) in E by (unfold rot_part, y; f_equal; ring).
    replace (tra_part (fun k => x k + y k)) with (tra_part z) in E by (unfold tra_part, y; f_equal; ring).
    rewrite E, grad_dir. assert (Q := quad_nonneg comp ms y W).
    assert (Z : rsum (map (fun r => grad comp ms x r * y r) (seq 0 6)) = 0).
    { cbn [map rsum fold_right seq]. rewrite !G by lia. ring. }
    rewrite Z. lra.
  - intros Min r L.
    set (e := fun k => if Nat.eqb k r then 1 else 0). set (g := grad comp ms x r). set (q := quad comp ms e).
    assert (Q : 0 <= q) by (apply quad_nonneg; assumption).
    assert (Hh : forall h, 0 <= 2 * (h * g) + h * h * q).
    { intro h. assert (E := cost_add comp ms x (fun k => h * e k)). cbv zeta in E.
      assert (M := Min (rot_part (fun k => x k + h * e k)) (tra_part (fun k => x k + h * e k))). rewrite E, grad_dir in M.
      replace (rsum (map (fun r0 => grad comp ms x r0 * (h * e r0)) (seq 0 6))) with (h * g) in M.
      2:{ unfold e, g. cbn [map rsum fold_right seq]. destruct r as [|[|[|[|[|[|r]]]]]]; try lia; cbn [Nat.eqb]; ring. }
      replace (quad comp ms (fun k => h * e k)) with (h * h * q) in M; [lra|].
      unfold q, quad. clear. induction ms as [|m ms IH]; [cbn; ring|]. cbn [map rsum fold_right]. unfold rsum in IH.
      rewrite <- IH, lin_scale. ring. }
    destruct (Req_dec g 0) as [Z|Z]; [exact Z|exfalso].
    assert (P : 0 < 1 + q) by lra.
    specialize (Hh (- g / (1 + q))). 
    replace (2 * (- g / (1 + q) * g) + - g / (1 + q) * (- g / (1 + q)) * q) with (- (g * g) * ((2 + q) / ((1 + q) * (1 + q)))) in Hh by (field; lra).
    assert (0 < g * g) by (destruct (Rtotal_order g 0) as [?|[?|?]]; [nra|contradiction|nra]).
    assert (0 < (2 + q) / ((1 + q) * (1 + q))) by (apply Rdiv_lt_0_compat; [lra|apply Rmult_lt_0_compat; lra]).
    assert (0 < (g * g) * ((2 + q) / ((1 + q) * (1 + q)))) by (apply Rmult_lt_0_compat; assumption). lra.
Qed.

(** Sliding motions: those that no plane notices. *)
Lemma difference_slides : forall comp ms x y, (forall m, In m ms -> 0 <= weight m) ->
  solves (mat_a comp ms) (rhs comp ms) x ->
  (solves (mat_a comp ms) (rhs comp ms) (fun k => x k + y k) <-> forall m, In m ms -> 0 < weight m -> lin comp m y = 0).
Proof.
  intros comp ms x y W Sx. assert (G := proj1 (solves_grad comp ms x) Sx).
  assert (E := cost_add comp ms x y). cbv zeta in E. rewrite grad_dir in E.
  assert (Z : rsum (map (fun r => grad comp ms x r * y r) (seq 0 6)) = 0) by (cbn [map rsum fold_right seq]; rewrite !G by lia; ring).
  rewrite Z in E. rewrite <- quad_zero by assumption. split.
  - intro Sy. assert (M := proj1 (solution_min comp ms _ W) Sy (rot_part x) (tra_part x)).
    assert (Q := quad_nonneg comp ms y W). lra.
  - intro Q. apply solution_min; [assumption|]. intros w t. rewrite E, Q.
    assert (M := proj1 (solution_min comp ms _ W) Sx w t). lra.
Qed.

(** Rodrigues' formula. *)
Lemma axis_rotation : forall a u, dot u u = 1 -> rotation (axis_matrix a u).
Proof.
  intros a [x y z] H. unfold dot in H. cbn in H. assert (C := sin2_cos2 a). unfold Rsqr in C.
  unfold rotation, axis_matrix, mmul, mtrans, det, ident, vscale. cbn.
  set (s := sin a) in *. set (c := cos a) in *. clearbody s c.
  assert (S2 : s * s = 1 - c * c) by lra. clear C.
  assert (Z2 : z * z = 1 - x * x - y * y) by lra.
  split; [f_equal|]; ring [S2 Z2].
Qed.
Lemma unit_of_unit : forall w, 0 < dot w w -> dot (unit_of w) (unit_of w) = 1.
Proof.
  intros w H. unfold unit_of. destruct (Rlt_dec 0 (dot w w)) as [L|L]; [|contradiction].
  assert (S := sqrt_sqrt (dot w w) (Rlt_le _ _ L)). assert (P := sqrt_lt_R0 _ L).
  transitivity (/ sqrt (dot w w) * / sqrt (dot w w) * dot w w); [unfold dot, vscale; cbn; ring|].
  rewrite <- S at 3. field. lra.
Qed.
Lemma dot_zero : forall w, ~ 0 < dot w w -> w = zero_vec.
Proof.
  intros [x y z] H. unfold dot in H. cbn in H. assert (X := Rle_0_sqr x). assert (Y := Rle_0_sqr y). assert (Z := Rle_0_sqr z). unfold Rsqr in *.
  unfold zero_vec. f_equal; nra.
Qed.
Lemma axis_zero : axis_matrix 0 zero_vec = ident.
Proof. unfold axis_matrix, ident, zero_vec, vscale. cbn. rewrite sin_0, cos_0. f_equal; ring. Qed.
Lemma dot_zero_vec : dot zero_vec zero_vec = 0.
Proof. unfold dot, zero_vec. cbn. ring. Qed.
Lemma motion_rigid : forall x, rigid (motion x).
Proof.
  intro x. unfold rigid, motion. cbn [t_rot]. fold (rot_part x). set (w := rot_part x). destruct (Rlt_dec 0 (dot w w)) as [L|L].
  - apply axis_rotation. apply unit_of_unit. exact L.
  - apply dot_zero in L. rewrite L. unfold unit_of. rewrite dot_zero_vec. destruct (Rlt_dec 0 0) as [A|_]; [lra|].
    rewrite sqrt_0, axis_zero. apply rotation_ident.
Qed.
Lemma motion_zero : forall x, (forall k, (k < 6)%nat -> x k = 0) -> motion x = identity.
Proof.
  intros x H. unfold motion. rewrite !H by lia. change (mkV 0 0 0) with zero_vec. unfold unit_of. rewrite dot_zero_vec.
  destruct (Rlt_dec 0 0) as [A|_]; [lra|]. rewrite sqrt_0, axis_zero. reflexivity.
Qed.

(** A small rotation is the identity and the cross product, up to second order. *)
Lemma one_minus_cos : forall a, 1 - cos a <= a * a / 2.
Proof.
  intro a. assert (H := half_cos a). assert (S := half_sq a).
  assert (E : 1 - cos a = 2 * (sin (a / 2) * sin (a / 2))) by lra. rewrite E.
  assert (B : sin (a / 2) * sin (a / 2) <= (a / 2) * (a / 2)).
  { apply Rsqr_le_abs_1. assert (X : forall b, 0 <= b -> Rabs (sin b) <= b).
    { intros b B. destruct (Rle_lt_or_eq_dec 0 b B) as [P|<-]; [|rewrite sin_0, Rabs_R0; lra].
      assert (U := sin_lt_x b P). apply Rabs_le. split; [|lra].
      destruct (Rle_lt_dec b 1) as [L|L]; [|assert (V := SIN_bound b); lra].
      assert (0 <= sin b) by (apply sin_ge_0; [lra|assert (Q := PI2_1); lra]). lra. }
    destruct (Rle_dec 0 (a / 2)) as [P|P].
    - rewrite (Rabs_right (a / 2)) by lra. apply X. exact P.
    - rewrite <- (Rabs_Ropp (sin (a / 2))), <- sin_neg, (Rabs_left (a / 2)) by lra. apply X. lra. }
  lra.
Qed.
Lemma taylor2 : forall a, 0 <= a -> (a - sin a) * (a - sin a) + (1 - cos a) * (1 - cos a) <= a * a / 2 * (a * a / 2).
Proof.
  intros a Ha. destruct (Rle_lt_or_eq_dec 0 a Ha) as [P|<-]; [|rewrite sin_0, cos_0; lra].
  set (sq := mult_fct id id).
  set (g := plus_fct (plus_fct (minus_fct (mult_real_fct (/ 4) (mult_fct sq sq)) sq) (mult_real_fct 2 (mult_fct id sin))) (mult_real_fct 2 cos)).
  set (g' := fun t => t * t * t - 2 * t + 2 * (t * cos t)).
  assert (Dsq : forall t, derivable_pt_lim sq t (1 * id t + id t * 1)).
  { intro t. apply derivable_pt_lim_mult; apply derivable_pt_lim_id. }
  assert (D : forall t, derivable_pt_lim g t (g' t)).
  { intro t. replace (g' t) with (/ 4 * ((1 * id t + id t * 1) * sq t + sq t * (1 * id t + id t * 1)) - (1 * id t + id t * 1) + 2 * (1 * sin t + id t * cos t) + 2 * - sin t)
      by (unfold g', sq, mult_fct, id; field).
    apply derivable_pt_lim_plus; [apply derivable_pt_lim_plus; [apply derivable_pt_lim_minus|]|].
    - apply derivable_pt_lim_scal, derivable_pt_lim_mult; apply Dsq.
    - apply Dsq.
    - apply derivable_pt_lim_scal, derivable_pt_lim_mult; [apply derivable_pt_lim_id|apply derivable_pt_lim_sin].
    - apply derivable_pt_lim_scal, derivable_pt_lim_cos. }
  destruct (MVT_cor2 g g' 0 a P (fun c _ => D c)) as (c & E & C1 & C2).
  assert (G0 : g 0 = 2) by (unfold g, sq, plus_fct, minus_fct, mult_real_fct, mult_fct, id; rewrite sin_0, cos_0; field).
  assert (Ga : g a = / 4 * (a * a * (a * a)) - a * a + 2 * (a * sin a) + 2 * cos a) by reflexivity.
  assert (G' : 0 <= g' c).
  { unfold g'. assert (B := one_minus_cos c).
    replace (c * c * c - 2 * c + 2 * (c * cos c)) with (2 * c * (c * c / 2 - (1 - cos c))) by field.
    apply Rmult_le_pos; lra. }
  assert (0 <= g' c * (a - 0)) by (apply Rmult_le_pos; lra).
  assert (T := sin2_cos2 a). unfold Rsqr in T.
  replace ((a - sin a) * (a - sin a) + (1 - cos a) * (1 - cos a)) with (a * a - 2 * (a * sin a) + 1 - 2 * cos a + (sin a * sin a + cos a * cos a)) by ring.
  rewrite T. lra.
Qed.

Lemma dot_nonneg : forall v, 0 <= dot v v.
Proof. intros [x y z]. unfold dot. cbn. assert (X := Rle_0_sqr x). assert (Y := Rle_0_sqr y). assert (Z := Rle_0_sqr z). unfold Rsqr in *. lra. Qed.
Lemma cauchy3 : forall a b, dot a b * dot a b <= dot a a * dot b b.
Proof.
  intros a b. assert (H := dot_nonneg (cross a b)).
  assert (E : dot (cross a b) (cross a b) = dot a a * dot b b - dot a b * dot a b) by (unfold dot, cross; cbn; ring). lra.
Qed.
Lemma rodrigues : forall th u p, dot u u = 1 ->
  vsub (mvec (axis_matrix th u) p) (vadd p (cross (vscale th u) p)) =
  vadd (vscale (sin th - th) (cross u p)) (vscale (1 - cos th) (cross u (cross u p))).
Proof.
  intros th [x y z] [a b c] H. unfold dot in H. cbn in H. assert (Z : z * z = 1 - x * x - y * y) by lra.
  unfold vsub, vadd, vscale, cross, mvec, axis_matrix. cbn. f_equal; ring [Z].
Qed.
Lemma rodrigues_norm : forall th u p, dot u u = 1 ->
  let d := vsub (mvec (axis_matrix th u) p) (vadd p (cross (vscale th u) p)) in
  dot d d = ((th - sin th) * (th - sin th) + (1 - cos th) * (1 - cos th)) * dot (cross u p) (cross u p).
Proof.
  intros th u p H d. unfold d. rewrite rodrigues by assumption.
  set (v := cross u p).
  assert (N : dot (cross u v) (cross u v) = dot v v).
  { assert (O : dot u v = 0) by (unfold v, dot, cross; cbn; ring).
    assert (E : dot (cross u v) (cross u v) = dot u u * dot v v - dot u v * dot u v) by (unfold dot, cross; cbn; ring).
    rewrite E, O, H. ring. }
  assert (O : dot v (cross u v) = 0) by (unfold dot, cross; cbn; ring).
  assert (X : forall k l a b, dot (vadd (vscale k a) (vscale l b)) (vadd (vscale k a) (vscale l b)) = k * k * dot a a + 2 * (k * l) * dot a b + l * l * dot b b)
    by (intros; unfold dot, vadd, vscale; cbn; ring).
  rewrite X, N, O. ring.
Qed.
Lemma small_rotation : forall x p,
  let w := rot_part x in
  let d := vsub (mvec (t_rot (motion x)) p) (vadd p (cross w p)) in
  dot d d <= (dot w w / 2) * (dot w w / 2) * dot p p.
Proof.
  intros x p w d. unfold d, motion. cbn [t_rot]. fold (rot_part x). fold w. destruct (Rlt_dec 0 (dot w w)) as [L|L].
  - set (th := sqrt (dot w w)). assert (P : 0 < th) by (apply sqrt_lt_R0; exact L).
    assert (S : th * th = dot w w) by (apply sqrt_sqrt; lra).
    assert (U := unit_of_unit w L). set (u := unit_of w) in *.
    assert (W : w = vscale th u).
    { unfold u, unit_of. destruct (Rlt_dec 0 (dot w w)) as [_|B]; [|contradiction]. fold th. destruct w as [a b c]. unfold vscale. cbn. f_equal; field; lra. }
    assert (E0 : cross w p = cross (vscale th u) p) by (rewrite <- W; reflexivity). rewrite E0. rewrite rodrigues_norm by assumption. rewrite <- S.
    assert (C : dot (cross u p) (cross u p) <= dot p p).
    { assert (E : dot (cross u p) (cross u p) = dot u u * dot p p - dot u p * dot u p) by (unfold dot, cross; cbn; ring).
      rewrite E, U. assert (Q := Rle_0_sqr (dot u p)). unfold Rsqr in Q. lra. }
    assert (T := taylor2 th (Rlt_le _ _ P)). apply Rmult_le_compat; [|apply dot_nonneg|exact T|exact C].
    assert (Q1 := Rle_0_sqr (th - sin th)). assert (Q2 := Rle_0_sqr (1 - cos th)). unfold Rsqr in *. lra.
  - apply dot_zero in L. rewrite L. unfold unit_of. rewrite dot_zero_vec. destruct (Rlt_dec 0 0) as [A|_]; [lra|].
    rewrite sqrt_0, axis_zero. destruct p as [a b c]. unfold dot, vsub, vadd, cross, mvec, ident, zero_vec. cbn. lra.
Qed.
Lemma plane_second_order : forall x p q n, dot n n = 1 ->
  Rabs (off_plane (apply (motion x) p) q n - off_plane (nudged (rot_part x) (tra_part x) 1 p) q n) <= dot (rot_part x) (rot_part x) / 2 * len p.
Proof.
  intros x p q n N. assert (S := small_rotation x p). cbv zeta in S.
  set (d := vsub (mvec (t_rot (motion x)) p) (vadd p (cross (rot_part x) p))) in *.
  assert (E : off_plane (apply (motion x) p) q n - off_plane (nudged (rot_part x) (tra_part x) 1 p) q n = dot d n).
  { unfold d, off_plane, nudged, apply. change (t_pos (motion x)) with (tra_part x). unfold dot, vsub, vadd, vscale. cbn. ring. }
  rewrite E. assert (B := dot_nonneg (rot_part x)). apply Rabs_sq.
  - apply Rmult_le_pos; [lra|apply sqrt_pos].
  - assert (C := cauchy3 d n). rewrite N in C. unfold len.
    assert (Q := sqrt_sqrt (dot p p) (dot_nonneg p)).
    replace (dot (rot_part x) (rot_part x) / 2 * sqrt (dot p p) * (dot (rot_part x) (rot_part x) / 2 * sqrt (dot p p)))
      with (dot (rot_part x) (rot_part x) / 2 * (dot (rot_part x) (rot_part x) / 2) * (sqrt (dot p p) * sqrt (dot p p))) by ring.
    rewrite Q. lra.
Qed.

(** Frames. *)
Lemma compose_rot : forall a b, t_rot (compose a b) = mmul (t_rot a) (t_rot b).
Proof. reflexivity. Qed.
Lemma compose_rigid : forall a b, rigid a -> rigid b -> rigid (compose a b).
Proof. intros a b A B. unfold rigid. rewrite compose_rot. apply rotation_mmul; assumption. Qed.
Lemma apply_compose : forall a b p, apply (compose a b) p = apply a (apply b p).
Proof.
  intros [m u] [n v] p. unfold apply, compose. cbn [t_rot t_pos].
  destruct m, n, u, v, p. unfold vadd, mvec. cbn. f_equal; ring.
Qed.
Lemma apply_identity : forall p, apply identity p = p.
Proof. intros []. unfold apply, identity, vadd, mvec, ident, zero_vec. cbn. f_equal; ring. Qed.
Lemma compose_identity : forall a, compose a identity = a.
Proof. intros [m u]. destruct m, u. unfold compose, identity, vadd, mvec, ident, zero_vec. cbn. f_equal; f_equal; ring. Qed.
Lemma identity_compose : forall a, compose identity a = a.
Proof. intros [m u]. destruct m, u. unfold compose, identity, vadd, mvec, ident, zero_vec. cbn. f_equal; f_equal; ring. Qed.
Lemma apply_shift : forall v p, apply (mkT ident v) p = vadd p v.
Proof. intros [] []. unfold apply, vadd, mvec, ident. cbn. f_equal; ring. Qed.
Lemma rigid_shift : forall v, rigid (mkT ident v).
Proof. intro v. apply rotation_ident. Qed.
Lemma vsub_add : forall p m, vadd (vsub p m) m = p.
Proof. intros [] []. unfold vadd, vsub. cbn. f_equal; ring. Qed.

Section Align.
  Variable solve : (nat -> nat -> R) -> (nat -> R) -> nat -> R.
  Variable matched : list vec -> list vec -> list pair.
  Notation loop := (loop solve matched).
  Lemma loop_rigid : forall n source target T s, rigid T -> rigid (fst (loop n source target T s)).
  Proof.
    induction n as [|n IH]; intros source target T s H; cbn [PlaneIcpModel.loop]; [exact H|].
    apply IH. apply compose_rigid; [apply motion_rigid|exact H].
  Qed.
  Lemma loop_rest : (forall a b, (forall r, (r < 6)%nat -> b r = 0) -> forall k, (k < 6)%nat -> solve a b k = 0) ->
    forall source target, (forall m, In m (matched (map (apply identity) source) target) -> dot_prod m = 0) ->
    forall n s, fst (loop n source target identity s) = identity.
  Proof.
    intros Hs source target H. induction n as [|n IH]; intro s; cbn [PlaneIcpModel.loop]; [reflexivity|].
    unfold point_to_plane. rewrite motion_zero, identity_compose; [apply IH|]. intros k K. apply Hs; [|exact K]. intros r _.
    rewrite rhs_sum. apply Ropp_eq_0_compat.
    generalize (matched (map (apply identity) source) target) H. clear. induction l as [|m l IH]; intro H; [reflexivity|].
    cbn [map rsum fold_right]. unfold rsum in IH. rewrite IH by (intros; apply H; right; assumption). rewrite (H m (or_introl eq_refl)). ring.
  Qed.
  Lemma loop_score : forall n source target T s, (0 < n)%nat -> exists T', snd (loop n source target T s) = score (matched (map (apply T') source) target).
  Proof.
    induction n as [|n IH]; intros source target T s H; [lia|]. cbn [PlaneIcpModel.loop]. destruct n as [|n].
    - exists T. reflexivity.
    - apply IH. lia.
  Qed.
End Align.
Lemma rsum_nonneg : forall A (f : A -> R) l, (forall a, In a l -> 0 <= f a) -> 0 <= rsum (map f l) /\ (rsum (map f l) = 0 <-> forall a, In a l -> f a = 0).
Proof.
  intros A f. induction l as [|x l IH]; intro H; [cbn; split; [lra|]; split; [intros _ a []|reflexivity]|].
  cbn [map rsum fold_right]. fold (rsum (map f l)). destruct IH as (P & Q); [intros; apply H; right; assumption|].
  assert (X := H x (or_introl eq_refl)). split; [lra|]. split.
  - intros E a [<-|I]; [lra|]. apply Q; [lra|exact I].
  - intro E. rewrite (E x (or_introl eq_refl)), (proj2 Q) by (intros; apply E; right; assumption). lra.
Qed.
Lemma score_bounds : forall ms, ms <> [] -> (forall m, In m ms -> 0 <= sqdist m) ->
  0 < score ms <= 1 /\ (score ms = 1 <-> forall m, In m ms -> sqdist m = 0).
Proof.
  intros ms N H. unfold score.
  assert (L : 0 < INR (length ms)) by (destruct ms; [contradiction|]; apply lt_0_INR; cbn; lia).
  destruct (rsum_nonneg _ (fun m => sqrt (sqdist m)) ms) as (P & Q); [intros; apply sqrt_pos|].
  set (r := rsum (map (fun m => sqrt (sqdist m)) ms)) in *.
  assert (D : 0 <= r / INR (length ms)) by (apply Rmult_le_pos; [exact P|left; apply Rinv_0_lt_compat; exact L]).
  split; [split; [apply exp_pos|]|].
  - rewrite <- exp_0. destruct (Rle_lt_or_eq_dec _ _ D) as [D'|D']; [left; apply exp_increasing; lra|]. rewrite <- D'. rewrite Ropp_0. right. reflexivity.
  - rewrite <- exp_0. split.
    + intros E m I. apply exp_inv in E. assert (R0 : r = 0).
      { destruct (Rle_lt_or_eq_dec _ _ P) as [P'|P']; [|lra]. assert (0 < r / INR (length ms)) by (apply Rdiv_lt_0_compat; assumption). lra. }
      apply sqrt_eq_0; [apply H; exact I|]. apply (proj1 Q R0 m I).
    + intro E. f_equal. rewrite (proj2 Q); [field; lra|]. intros m I. rewrite (E m I). apply sqrt_0.
Qed.
Lemma mean_centred : forall l, l <> [] -> fold_right vadd zero_vec (map (fun q => vsub q (mean_of l)) l) = zero_vec.
Proof.
  intros l N. set (m := mean_of l).
  assert (G : forall k, fold_right vadd zero_vec (map (fun q => vsub q m) k) = vsub (fold_right vadd zero_vec k) (vscale (INR (length k)) m)).
  { induction k as [|q k IH]; [unfold vsub, vscale, zero_vec; cbn; f_equal; ring|].
    cbn [map fold_right]. rewrite IH. change (length (q :: k)) with (S (length k)). rewrite S_INR.
    unfold vadd, vsub, vscale. cbn. f_equal; ring. }
  rewrite G. unfold m, mean_of. assert (L : 0 < INR (length l)) by (destruct l; [contradiction|]; apply lt_0_INR; cbn; lia).
  unfold vsub, vscale, zero_vec. cbn. f_equal; field; lra.
Qed.
