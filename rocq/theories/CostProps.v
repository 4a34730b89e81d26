(** C151: the residuals of GPS positions and odometry. *)
From Coq Require Import Reals Lra Psatz.
From Verif Require Import RigidModel RigidSpec RigidProofs OdomMsgModel OdomMsgProofs CostModel.
Local Open Scope R_scope.

(** ** Lengths *)
Definition len (a : vec) : R := sqrt (dot a a).
Lemma dot_nonneg : forall a, 0 <= dot a a.
Proof. intros a. unfold dot. pose proof (Rle_0_sqr (vx a)). pose proof (Rle_0_sqr (vy a)). pose proof (Rle_0_sqr (vz a)). unfold Rsqr in *. lra. Qed.
Lemma sq_zero : forall x y z, x * x + y * y + z * z <= 0 -> x = 0 /\ y = 0 /\ z = 0.
Proof. intros x y z H. repeat split; nra. Qed.
Lemma sqrt_zero_iff : forall x, 0 <= x -> (sqrt x = 0 <-> x = 0).
Proof. intros x H. split; [apply sqrt_eq_0; exact H|]. intros ->. apply sqrt_0. Qed.
Lemma vec_eq : forall a b, vx a = vx b -> vy a = vy b -> vz a = vz b -> a = b.
Proof. intros [a1 a2 a3] [b1 b2 b3] H1 H2 H3. cbn in *. congruence. Qed.
Lemma unit3_scale : forall d, 0 < dot d d -> unit3 d = vscale (/ len d) d.
Proof. intros d H. unfold unit3, len, vscale. destruct (Rlt_dec 0 (dot d d)); [|contradiction]. f_equal; unfold Rdiv; ring. Qed.
Lemma len_pos : forall d, 0 < dot d d -> 0 < len d /\ len d * len d = dot d d.
Proof. intros d H. split; [apply sqrt_lt_R0, H|apply sqrt_sqrt; lra]. Qed.
Lemma dot_pos : forall d, d <> zero_vec -> 0 < dot d d.
Proof.
  intros d H. destruct (Rlt_dec 0 (dot d d)) as [|X]; [assumption|]. exfalso. apply H. apply Rnot_lt_le in X.
  unfold dot in X. apply sq_zero in X as (A & B & C). apply vec_eq; assumption.
Qed.
Lemma beside_sq : forall d a, 0 < dot d d ->
  let e := vsub a (vscale (dot a (unit3 d)) (unit3 d)) in dot e e = dot a a - dot a d * dot a d / dot d d.
Proof.
  intros d a H e. destruct (len_pos d H) as [L LL]. unfold e. rewrite (unit3_scale d H), <- LL.
  unfold vsub, vscale, dot. cbn [vx vy vz]. set (l := len d) in *. assert (K : vx d * vx d + vy d * vy d + vz d * vz d = l * l) by (rewrite LL; reflexivity).
  set (x := vx d) in *. set (y := vy d) in *. set (z := vz d) in *. set (p := vx a). set (q := vy a). set (r := vz a).
  set (s := p * x + q * y + r * z).
  replace (p * (/ l * x) + q * (/ l * y) + r * (/ l * z)) with (/ l * s) by (unfold s; ring).
  transitivity (p * p + q * q + r * r - 2 * (/ l * / l) * (s * s) + (/ l * / l) * (/ l * / l) * (s * s) * (x * x + y * y + z * z)); [unfold s; ring|].
  rewrite K. field. lra.
Qed.

(** The residual in space: the distance to the line through the map's position, the least one. *)
Lemma beside_least : forall d a, 0 < dot d d ->
  (forall s, beside d a <= len (vsub a (vscale s d))) /\ exists s, beside d a = len (vsub a (vscale s d)).
Proof.
  intros d a H. assert (G : forall s, dot (vsub a (vscale s d)) (vsub a (vscale s d)) = dot a a - 2 * s * dot a d + s * s * dot d d).
  { intros s. unfold vsub, vscale, dot. cbn [vx vy vz]. ring. }
  unfold beside, len. cbv zeta. rewrite (beside_sq d a H). split.
  - intros s. apply sqrt_le_1_alt. rewrite G. assert (0 <= (s * dot d d - dot a d) * (s * dot d d - dot a d) / dot d d).
    { apply Rmult_le_pos; [apply Rle_0_sqr|]. left. apply Rinv_0_lt_compat, H. }
    replace (dot a a - 2 * s * dot a d + s * s * dot d d) with (dot a a - dot a d * dot a d / dot d d + (s * dot d d - dot a d) * (s * dot d d - dot a d) / dot d d) by (field; lra). lra.
  - exists (dot a d / dot d d). f_equal. rewrite G. field. lra.
Qed.
Lemma beside_zero : forall d a, 0 < dot d d -> (beside d a = 0 <-> exists s, a = vscale s d).
Proof.
  intros d a H. destruct (beside_least d a H) as [A [s B]]. split.
  - intros E. exists s. rewrite E in B. symmetry in B. apply (proj1 (sqrt_zero_iff _ (dot_nonneg _))) in B. unfold dot in B.
    destruct (sq_zero _ _ _ (Req_le _ _ B)) as (X & Y & Z). unfold vsub in X, Y, Z. cbn [vx vy vz] in X, Y, Z. apply vec_eq; lra.
  - intros [u ->]. specialize (A u). assert (E : len (vsub (vscale u d) (vscale u d)) = 0).
    { unfold len. apply sqrt_zero_iff; [apply dot_nonneg|]. unfold vsub, dot. cbn [vx vy vz]. ring. }
    rewrite E in A. apply Rle_antisym; [exact A|]. apply sqrt_pos.
Qed.
Lemma beside_point : forall a, beside zero_vec a = len a.
Proof.
  intros a. unfold beside, unit3, len. destruct (Rlt_dec 0 (dot zero_vec zero_vec)) as [X|X]; [unfold dot, zero_vec in X; cbn in X; lra|].
  f_equal. unfold vsub, vscale, zero_vec, dot. cbn [vx vy vz]. ring.
Qed.
Lemma beside_same : forall d a k s, k <> 0 -> beside (vscale k d) (vadd a (vscale s d)) = beside d a.
Proof.
  intros d a k s K. destruct (Rlt_dec 0 (dot d d)) as [H|H].
  - assert (Ek : dot (vscale k d) (vscale k d) = k * k * dot d d) by (unfold dot, vscale; cbn [vx vy vz]; ring).
    assert (Hk : 0 < dot (vscale k d) (vscale k d)). { rewrite Ek. apply Rmult_lt_0_compat; [|exact H]. destruct (Rdichotomy _ _ K); nra. }
    unfold beside. cbv zeta. rewrite (beside_sq _ _ Hk), (beside_sq _ _ H), Ek. f_equal. 
    replace (dot (vadd a (vscale s d)) (vadd a (vscale s d))) with (dot a a + 2 * s * dot a d + s * s * dot d d) by (unfold dot, vadd, vscale; cbn [vx vy vz]; ring).
    replace (dot (vadd a (vscale s d)) (vscale k d)) with (k * (dot a d + s * dot d d)) by (unfold dot, vadd, vscale; cbn [vx vy vz]; ring).
    field. split; [lra|exact K].
  - assert (E : d = zero_vec).
    { apply Rnot_lt_le in H. unfold dot in H. apply sq_zero in H as (A & B & C). apply vec_eq; assumption. }
    subst d. replace (vscale k zero_vec) with zero_vec by (apply vec_eq; unfold vscale, zero_vec; cbn; ring).
    replace (vadd a (vscale s zero_vec)) with a by (apply vec_eq; unfold vadd, vscale, zero_vec; cbn; ring). reflexivity.
Qed.

(** ** GPS in the plane *)
(** Zero exactly when the position lies on the map's, which some translation reaches for every angle; with the right
    angle it is the distance to the right translation. *)
Theorem C151_path : forall map enu theta, (forall t, 0 <= gps_path map enu t theta) /\
  (forall t, gps_path map enu t theta = 0 <-> in_map enu t theta = map) /\
  exists t0, forall t, gps_path map enu t theta = sqrt ((fst t - fst t0) * (fst t - fst t0) + (snd t - snd t0) * (snd t - snd t0)).
Proof.
  intros [mx my] [ex ey] th. split; [|split].
  - intros t. apply sqrt_pos.
  - intros t. unfold gps_path. cbv zeta. rewrite sqrt_zero_iff by (pose proof (pow2_ge_0 (fst (in_map (ex, ey) t th) - mx)); pose proof (pow2_ge_0 (snd (in_map (ex, ey) t th) - my)); cbn [fst snd] in *; lra).
    destruct (in_map (ex, ey) t th) as [px py]. cbn [fst snd]. split; [|intros [= -> ->]; ring].
    intros E. destruct (sq_zero (px - mx) (py - my) 0) as (X & Y & _); [nra|]. f_equal; lra.
  - exists (mx - (cos th * ex + - sin th * ey), my - (sin th * ex + cos th * ey)). intros t. unfold gps_path, in_map. cbn [fst snd]. f_equal. ring.
Qed.
(** The squared distance between two positions is the same in the map: a turn and a move. *)
Theorem C151_rigid : forall a b t theta, let p := in_map a t theta in let q := in_map b t theta in
  (fst p - fst q) ^ 2 + (snd p - snd q) ^ 2 = (fst a - fst b) ^ 2 + (snd a - snd b) ^ 2 /\
  (fst p - fst t) * snd (in_map b (0, 0) theta) - (snd p - snd t) * fst (in_map b (0, 0) theta) = fst a * snd b - snd a * fst b.
Proof.
  intros [ax ay] [bx by_] [tx ty] th p q. unfold p, q, in_map. cbn [fst snd]. pose proof (sin2_cos2 th) as E. unfold Rsqr in E. split.
  - transitivity ((sin th * sin th + cos th * cos th) * ((ax - bx) ^ 2 + (ay - by_) ^ 2)); [ring|]. rewrite E. ring.
  - transitivity ((sin th * sin th + cos th * cos th) * (ax * by_ - ay * bx)); [ring|]. rewrite E. ring.
Qed.
Lemma unit2_unit : forall n, fst n * fst n + snd n * snd n = 1 -> unit2 n = n.
Proof. intros [x y] H. unfold unit2. cbn [fst snd] in *. rewrite H, sqrt_1. destruct (Rlt_dec 0 1); [|reflexivity]. f_equal; field. Qed.
(** With a normal of length one: the least distance to the line through the map's position along the normal. *)
Theorem C151_normal : forall map enu n t theta, fst n * fst n + snd n * snd n = 1 ->
  let p := in_map enu t theta in let d s := sqrt ((fst p - (fst map + s * fst n)) ^ 2 + (snd p - (snd map + s * snd n)) ^ 2) in
  (forall s, gps_normal map enu n t theta <= d s) /\ exists s, gps_normal map enu n t theta = d s.
Proof.
  intros [mx my] [ex ey] [nx ny] t th H p d. unfold gps_normal, d. cbv zeta. rewrite (unit2_unit (nx, ny) H). fold p. destruct p as [px py]. cbn [fst snd] in *.
  set (a := px - mx). set (b := py - my). split.
  - intros s. apply sqrt_le_1_alt.
    replace ((px - (mx + s * nx)) ^ 2 + (py - (my + s * ny)) ^ 2) with (a * a + b * b - 2 * s * (a * nx + b * ny) + s * s * (nx * nx + ny * ny)) by (unfold a, b; ring).
    replace ((a - nx * (a * nx + b * ny)) * (a - nx * (a * nx + b * ny)) + (b - ny * (a * nx + b * ny)) * (b - ny * (a * nx + b * ny)))
      with (a * a + b * b - 2 * (a * nx + b * ny) * (a * nx + b * ny) + (a * nx + b * ny) * (a * nx + b * ny) * (nx * nx + ny * ny)) by ring.
    rewrite H. pose proof (Rle_0_sqr (s - (a * nx + b * ny))) as X. unfold Rsqr in X. nra.
  - exists (a * nx + b * ny). f_equal. unfold a, b. ring.
Qed.
(** "The distance to the plane with that normal", as its comment says: false, that part is removed. *)
Theorem C151_plane_refuted : exists map enu n t theta, fst n * fst n + snd n * snd n = 1 /\
  let p := in_map enu t theta in Rabs ((fst p - fst map) * fst n + (snd p - snd map) * snd n) = 5 /\ gps_normal map enu n t theta = 0.
Proof.
  exists (0, 0), (5, 0), (1, 0), (0, 0), 0. cbn [fst snd]. split; [ring|]. unfold gps_normal, in_map. cbv zeta. rewrite (unit2_unit (1, 0)) by (cbn; ring).
  cbn [fst snd]. rewrite cos_0, sin_0. split.
  - replace ((1 * 5 + - 0 * 0 + 0 - 0) * 1 + (0 * 5 + 1 * 0 + 0 - 0) * 0) with 5 by ring. apply Rabs_right. lra.
  - match goal with |- sqrt ?x = 0 => replace x with 0 by ring end. apply sqrt_0.
Qed.
(** "Only the direction of the normal matters": false. *)
Theorem C151_length_refuted : exists map enu n t theta k, 0 < k /\ fst n * fst n + snd n * snd n = 1 /\
  gps_normal map enu n t theta = 0 /\ gps_normal map enu (k * fst n, k * snd n) t theta = 5.
Proof.
  exists (0, 0), (5, 0), (1, 0), (0, 0), 0, 2. cbn [fst snd]. split; [lra|]. split; [ring|]. unfold gps_normal, in_map. cbv zeta. rewrite (unit2_unit (1, 0)) by (cbn; ring).
  assert (U : unit2 (2 * 1, 2 * 0) = (1, 0)).
  { unfold unit2. cbn [fst snd]. replace (2 * 1 * (2 * 1) + 2 * 0 * (2 * 0)) with (2 * 2) by ring. rewrite sqrt_square by lra. destruct (Rlt_dec 0 (2 * 2)) as [_|N]; [f_equal; field|lra]. }
  rewrite U. cbn [fst snd]. rewrite cos_0, sin_0. split.
  - match goal with |- sqrt ?x = 0 => replace x with 0 by ring end. apply sqrt_0.
  - match goal with |- sqrt ?x = 5 => replace x with (5 * 5) by ring end. apply sqrt_square. lra.
Qed.
(** "The residual has a derivative everywhere", as the solver needs: false, at every exact match. *)
Theorem C151_smooth_refuted : forall map enu theta ty tx, in_map enu (tx, ty) theta = map ->
  forall l, ~ derivable_pt_lim (fun x => gps_path map enu (x, ty) theta) tx l.
Proof.
  intros [mx my] [ex ey] th ty tx E l D. unfold in_map in E. cbn [fst snd] in E. injection E as E1 E2.
  assert (A : forall h, gps_path (mx, my) (ex, ey) (tx + h, ty) th = Rabs h).
  { intros h. unfold gps_path, in_map. cbn [fst snd]. replace (_ + _) with (Rsqr h) by (unfold Rsqr; subst mx my; ring). apply sqrt_Rsqr_abs. }
  assert (A0 : gps_path (mx, my) (ex, ey) (tx, ty) th = 0).
  { replace tx with (tx + 0) by ring. rewrite A. apply Rabs_R0. }
  destruct (D (1 / 2) ltac:(lra)) as [dl Hd]. pose proof (cond_pos dl) as P. set (h := dl / 2). assert (0 < h < dl) by (unfold h; lra).
  pose proof (Hd h ltac:(lra)) as X. pose proof (Hd (- h) ltac:(lra)) as Y. rewrite A, A0 in X, Y. rewrite Rabs_Ropp in Y.
  rewrite (Rabs_right h) in X, Y by lra. specialize (X ltac:(lra)). specialize (Y ltac:(lra)).
  replace ((h - 0) / h) with 1 in X by (field; lra). replace ((h - 0) / - h) with (-1) in Y by (field; lra).
  apply Rabs_def2 in X. apply Rabs_def2 in Y. lra.
Qed.

(** ** GPS in space *)
(** The least distance of the turned and moved position to the line of the path; zero exactly on the line; without a
    direction the distance to the map's position. *)
Theorem C151_gps_line : forall map enu d t r, let p := vadd (mvec (eulers_to_matrix r) enu) t in
  (d <> zero_vec -> (forall s, gps_3d map enu d t r <= len (vsub p (vadd map (vscale s d)))) /\
     (exists s, gps_3d map enu d t r = len (vsub p (vadd map (vscale s d)))) /\
     (gps_3d map enu d t r = 0 <-> exists s, p = vadd map (vscale s d))) /\
  gps_3d map enu zero_vec t r = len (vsub p map).
Proof.
  intros map enu d t r p. unfold gps_3d. fold p. clearbody p. split; [|apply beside_point].
  intros H. apply dot_pos in H. assert (G : forall s, vsub p (vadd map (vscale s d)) = vsub (vsub p map) (vscale s d)).
  { intros s. apply vec_eq; unfold vsub, vadd, vscale; cbn [vx vy vz]; ring. }
  destruct (beside_least d (vsub p map) H) as [A [s B]]. split; [intros u; rewrite G; apply A|]. split; [exists s; rewrite G; exact B|].
  rewrite (beside_zero d _ H). split; intros [u E]; exists u.
  - apply (f_equal (vadd map)) in E. rewrite <- E. apply vec_eq; unfold vsub, vadd; cbn [vx vy vz]; ring.
  - rewrite E. apply vec_eq; unfold vsub, vadd, vscale; cbn [vx vy vz]; ring.
Qed.
(** Only the direction matters, and a move along the path is not noticed. *)
Theorem C151_gps_along : forall map enu d t r k s, k <> 0 -> gps_3d map enu (vscale k d) (vadd t (vscale s d)) r = gps_3d map enu d t r.
Proof.
  intros map enu d t r k s K. unfold gps_3d. rewrite <- (beside_same d _ k s K). f_equal. apply vec_eq; unfold vsub, vadd, vscale; cbn [vx vy vz]; ring.
Qed.

(** ** Odometry *)
(** Where the sensor is after the odometry's motion, in its first frame: turned back by the mounting, it is what the lever
    arm does under the motion. *)
Lemma odom_place : forall o t r, mvec (eulers_to_matrix r) (t_pos (compose (compose (inverse (mkT (eulers_to_matrix r) t)) o) (mkT (eulers_to_matrix r) t))) =
  vsub (apply o t) t.
Proof.
  intros o t r. set (m := eulers_to_matrix r). assert (Rm : rotation m) by (unfold m; rewrite eulers_zyx; apply rotation_zyx).
  assert (D : det (t_rot (mkT m t)) <> 0) by (cbn [t_rot]; rewrite (proj2 Rm); lra).
  pose proof (inverse_right (mkT m t) (compose o (mkT m t)) D) as E. apply (f_equal t_pos) in E.
  assert (As : t_pos (compose (compose (inverse (mkT m t)) o) (mkT m t)) = t_pos (compose (inverse (mkT m t)) (compose o (mkT m t)))).
  { apply vec_eq; unfold compose, product, mvec, vadd; cbn [t_rot t_pos vx vy vz m00 m01 m02 m10 m11 m12 m20 m21 m22]; ring. }
  rewrite As. set (w := t_pos (compose (inverse (mkT m t)) (compose o (mkT m t)))) in *.
  change (vadd (mvec m w) t = apply o t) in E. rewrite <- E. apply vec_eq; unfold vsub, vadd; cbn [vx vy vz]; ring.
Qed.
Theorem C151_odom_line : forall map o d t r, exists p, mvec (eulers_to_matrix r) p = vsub (apply o t) t /\
  (d <> zero_vec -> (forall s, odom_path map o d t r <= len (vsub p (vadd map (vscale s d)))) /\
     (exists s, odom_path map o d t r = len (vsub p (vadd map (vscale s d)))) /\
     (odom_path map o d t r = 0 <-> exists s, p = vadd map (vscale s d))) /\
  odom_path map o zero_vec t r = len (vsub p map) /\
  forall k, k <> 0 -> odom_path map o (vscale k d) t r = odom_path map o d t r.
Proof.
  intros map o d t r. eexists. split; [apply odom_place|]. unfold odom_path. cbv zeta. set (p := t_pos _). clearbody p. split; [|split; [apply beside_point|]].
  - intros H. apply dot_pos in H. assert (G : forall s, vsub p (vadd map (vscale s d)) = vsub (vsub p map) (vscale s d)).
    { intros s. apply vec_eq; unfold vsub, vadd, vscale; cbn [vx vy vz]; ring. }
    destruct (beside_least d (vsub p map) H) as [A [s B]]. split; [intros u; rewrite G; apply A|]. split; [exists s; rewrite G; exact B|].
    rewrite (beside_zero d _ H). split; intros [u E]; exists u.
    + apply (f_equal (vadd map)) in E. rewrite <- E. apply vec_eq; unfold vsub, vadd; cbn [vx vy vz]; ring.
    + rewrite E. apply vec_eq; unfold vsub, vadd, vscale; cbn [vx vy vz]; ring.
  - intros k K. rewrite <- (beside_same d (vsub p map) k 0 K). f_equal. apply vec_eq; unfold vsub, vadd, vscale; cbn [vx vy vz]; ring.
Qed.
Lemma turn_back : forall r a b, mvec (eulers_to_matrix r) a = mvec (eulers_to_matrix r) b -> a = b.
Proof.
  intros r a b E. assert (Rm : rotation (eulers_to_matrix r)) by (rewrite eulers_zyx; apply rotation_zyx). set (m := eulers_to_matrix r) in *.
  assert (Z : dot (vsub a b) (vsub a b) = 0).
  { rewrite <- (rotation_dot m _ Rm). replace (mvec m (vsub a b)) with (vsub (mvec m a) (mvec m b)) by (apply vec_eq; unfold mvec, vsub; cbn [vx vy vz]; ring).
    rewrite E. unfold dot, vsub. cbn [vx vy vz]. ring. }
  unfold dot in Z. destruct (sq_zero _ _ _ (Req_le _ _ Z)) as (X & Y & W). unfold vsub in X, Y, W. cbn [vx vy vz] in X, Y, W. apply vec_eq; lra.
Qed.
(** What odometry cannot tell: the lever arm along an axis that the motion does not turn. *)
Theorem C151_odom_blind : forall map o d t r u s, mvec (t_rot o) u = u -> odom_path map o d (vadd t (vscale s u)) r = odom_path map o d t r.
Proof.
  intros map o d t r u s U. unfold odom_path. cbv zeta. do 2 f_equal. apply (turn_back r). rewrite !odom_place.
  unfold apply. replace (mvec (t_rot o) (vadd t (vscale s u))) with (vadd (mvec (t_rot o) t) (vscale s (mvec (t_rot o) u))) by (apply vec_eq; unfold mvec, vadd, vscale; cbn [vx vy vz]; ring).
  rewrite U. apply vec_eq; unfold vsub, vadd; cbn [vx vy vz]; ring.
Qed.
(** Without a turn the lever arm does not matter at all. *)
Theorem C151_odom_straight : forall map o d t t' r, t_rot o = ident -> odom_path map o d t r = odom_path map o d t' r.
Proof.
  intros map o d t t' r I. rewrite <- (C151_odom_blind map o d t r (vsub t' t) 1).
  - f_equal. apply vec_eq; unfold vadd, vscale, vsub; cbn; ring.
  - rewrite I. apply vec_eq; unfold mvec, ident; cbn; ring.
Qed.
Print Assumptions C151_path.
Print Assumptions C151_rigid.
Print Assumptions C151_normal.
Print Assumptions C151_plane_refuted.
Print Assumptions C151_length_refuted.
Print Assumptions C151_smooth_refuted.
Print Assumptions C151_gps_line.
Print Assumptions C151_gps_along.
Print Assumptions C151_odom_line.
Print Assumptions C151_odom_blind.
Print Assumptions C151_odom_straight.

(** ** Concrete cases *)
Example C151_ex_turn : in_map (1, 0) (2, 3) (PI / 2) = (2, 4) /\ gps_path (2, 4) (1, 0) (2, 3) (PI / 2) = 0 /\ gps_path (5, 8) (1, 0) (2, 3) (PI / 2) = 5.
Proof.
  assert (E : in_map (1, 0) (2, 3) (PI / 2) = (2, 4)) by (unfold in_map; cbn [fst snd]; rewrite cos_PI2, sin_PI2; f_equal; ring).
  split; [exact E|]. unfold gps_path. cbv zeta. rewrite E. cbn [fst snd]. split.
  - match goal with |- sqrt ?x = 0 => replace x with 0 by ring end. apply sqrt_0.
  - match goal with |- sqrt ?x = 5 => replace x with (5 * 5) by ring end. apply sqrt_square. lra.
Qed.
Example C151_ex_space : zyx zero_vec = ident /\ gps_3d zero_vec (mkV 3 4 7) (mkV 0 0 2) zero_vec zero_vec = 5.
Proof.
  assert (Z : zyx zero_vec = ident) by (unfold zyx, ident, zero_vec; cbn [vx vy vz]; rewrite cos_0, sin_0; f_equal; ring).
  split; [exact Z|]. unfold gps_3d. rewrite eulers_zyx, Z. unfold beside. cbv zeta. rewrite beside_sq by (unfold dot; cbn; lra).
  unfold dot, vsub, vadd, mvec, ident, zero_vec. cbn [vx vy vz m00 m01 m02 m10 m11 m12 m20 m21 m22].
  match goal with |- sqrt ?x = 5 => replace x with (5 * 5) by field end. apply sqrt_square. lra.
Qed.
(** The motion is a quarter turn about the axis z; the lever arm along z is not seen, the one along x is. *)
Example C151_ex_lever : let o := mkT (about_z (PI / 2)) zero_vec in let d := mkV 0 1 0 in
  mvec (t_rot o) (mkV 0 0 1) = mkV 0 0 1 /\ odom_path zero_vec o d (mkV 1 0 9) zero_vec = 1 /\ odom_path zero_vec o d (mkV 2 0 0) zero_vec = 2.
Proof.
  intros o d. assert (Z : zyx zero_vec = ident) by (unfold zyx, ident, zero_vec; cbn [vx vy vz]; rewrite cos_0, sin_0; f_equal; ring).
  assert (O : forall x z, odom_path zero_vec o d (mkV x 0 z) zero_vec = Rabs x).
  { intros x z. unfold odom_path. cbv zeta. rewrite eulers_zyx, Z. set (p := t_pos _).
    assert (Ep : p = mkV (- x) x 0).
    { pose proof (odom_place o (mkV x 0 z) zero_vec) as P. rewrite eulers_zyx, Z in P. fold p in P.
      replace p with (mvec ident p) by (apply vec_eq; unfold mvec, ident; cbn [vx vy vz m00 m01 m02 m10 m11 m12 m20 m21 m22]; ring). rewrite P.
      unfold apply, o, about_z, mvec, vsub, vadd, zero_vec. cbn [t_rot t_pos vx vy vz m00 m01 m02 m10 m11 m12 m20 m21 m22]. rewrite cos_PI2, sin_PI2. f_equal; ring. }
    rewrite Ep. unfold beside. cbv zeta. rewrite beside_sq by (unfold dot, d; cbn; lra). unfold dot, vsub, zero_vec, d. cbn [vx vy vz].
    rewrite <- sqrt_Rsqr_abs. f_equal. unfold Rsqr. field. }
  rewrite !O. split; [|split; apply Rabs_right; lra].
  unfold o, about_z, mvec. cbn [t_rot vx vy vz m00 m01 m02 m10 m11 m12 m20 m21 m22]. f_equal; ring.
Qed.
