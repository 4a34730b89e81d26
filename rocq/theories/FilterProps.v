(** Properties C13, C48-C52, C87, C88: point cloud filters. *)
From Coq Require Import QArith Lqa Qabs ZArith List Bool Lia Sorted Permutation SpecFloat.
From Verif Require Import Outcome TimeModel TimeSpec TimeProofs LoopSpec FilterModel FilterSpec FilterProofs FilterVoxels FilterGround.
Import ListNotations.
Local Open Scope outcome_scope.
Local Open Scope nat_scope.

(** ** Examples of clouds *)
Definition f0 : fl := S754_zero false.
Definition fz (z : Z) : fl := binary_normalize 24 128 z 0 false.
Definition pt (x y z : fl) : point := mkPoint x y z f0 f0.
Definition at_0 (c : cloud) : heap := fun a => if Nat.eqb a 0 then c else no_cloud.
Definition three : cloud :=
  mkCloud (mkTime 5 0) [pt (fz 1) (fz 2) (fz 3); pt S754_nan (fz 0) (fz 0); pt (fz 10) (fz 0) (fz 0)].

(** C48: the predicate filters divide the cloud into what the configuration wants and the rest. *)
Theorem C48_split : forall k h a d prev, predicate k -> box_ordered k -> a <> d -> points (h a) <> [] ->
  exists h' o, apply k h a d prev = Ok (h', o) /\
    (forall b, b <> d -> h' b = h b) /\
    stamp (h' d) = stamp (h a) /\
    divided (length (points (h a))) (inliers o) (outliers o) /\
    picked (points (h a)) (inliers o) (points (h' d)) /\
    (forall i p, nth_error (points (h a)) i = Some p -> (In i (inliers o) <-> wanted k i p)).
Proof. exact predicate_split. Qed.
Print Assumptions C48_split.
Example C48_split_case : exists h' o, apply (Range (fz 1) (fz 5)) (at_0 three) 0 1 new_obj = Ok (h', o) /\
  inliers o = [0] /\ outliers o = [1; 2] /\ points (h' 1) = [pt (fz 1) (fz 2) (fz 3)] /\ stamp (h' 1) = mkTime 5 0.
Proof. eexists _, _. split; [vm_compute; reflexivity|]. repeat split. Qed.

(** A bounding box filter whose limits are not in order aborts on the first non-empty cloud. *)
Theorem C48_bad_box_aborts : forall x0 y0 z0 x1 y1 z1 h a d prev, points (h a) <> [] ->
  ~ (fgt x1 x0 /\ fgt y1 y0 /\ fgt z1 z0) -> apply (Box x0 y0 z0 x1 y1 z1) h a d prev = Abort.
Proof. intros. apply bad_box; assumption. Qed.
Print Assumptions C48_bad_box_aborts.
Example C48_bad_box_case : apply (Box f0 f0 f0 f0 f0 f0) (at_0 three) 0 1 new_obj = Abort.
Proof. apply C48_bad_box_aborts; [discriminate|]. vm_compute. tauto. Qed.

(** C87: filtering a cloud in place loses all its points. *)
Theorem C87_in_place : forall k h a prev, predicate k -> box_ordered k -> points (h a) <> [] ->
  ~ (forall i p, wanted k i p) ->
  exists h' o, apply k h a a prev = Ok (h', o) /\ h' a = mkCloud (stamp (h a)) [] /\ inliers o = [] /\ outliers o = [].
Proof.
  intros k h a prev Hp Hb Hn W. apply alias_empties; try assumption. destruct (passes k) eqn:P; [|reflexivity].
  exfalso. apply W. intros i p. apply passes_wanted; assumption.
Qed.
Print Assumptions C87_in_place.
Example C87_in_place_case : ~ (forall i p, wanted (Range (fz 1) (fz 5)) i p) /\
  exists h' o, apply (Range (fz 1) (fz 5)) (at_0 three) 0 0 new_obj = Ok (h', o) /\ points (h' 0) = [].
Proof.
  split.
  - intros H. specialize (H 0 (pt S754_nan f0 f0)). vm_compute in H. tauto.
  - eexists _, _. split; [vm_compute; reflexivity|]. reflexivity.
Qed.

(** C87: calling Filter again without a new SetInputCloud lists every index twice when the filter passes
    all points: inliers and outliers are not a division of the cloud after every call of Filter. *)
Theorem C87_repeated_filter_refuted : ~ (forall k h a d prev h1 o1 h2 o2, predicate k -> box_ordered k -> a <> d ->
  points (h a) <> [] -> apply k h a d prev = Ok (h1, o1) -> filter k h1 (Some d) o1 = Ok (h2, o2) ->
  divided (length (points (h a))) (inliers o2) (outliers o2)).
Proof.
  intros H.
  assert (E : exists h1 o1 h2 o2, apply (Sample true f0 (fun _ => f0)) (at_0 three) 0 1 new_obj = Ok (h1, o1) /\
    filter (Sample true f0 (fun _ => f0)) h1 (Some 1) o1 = Ok (h2, o2) /\ inliers o2 = [0; 1; 2; 0; 1; 2]).
  { eexists _, _, _, _. split; [vm_compute; reflexivity|]. split; vm_compute; reflexivity. }
  destruct E as (h1 & o1 & h2 & o2 & E1 & E2 & E3).
  specialize (H (Sample true f0 (fun _ => f0)) (at_0 three) 0 1 new_obj h1 o1 h2 o2 I I (ltac:(discriminate) : 0 <> 1) (ltac:(discriminate) : points (at_0 three 0) <> []) E1 E2).
  destruct H as (S & _). rewrite E3 in S. inversion_clear S as [|? ? S' F]. rewrite Forall_forall in F.
  specialize (F 0 ltac:(cbn; tauto)). lia.
Qed.
Print Assumptions C87_repeated_filter_refuted.

(** C49: NaN coordinates. *)
Theorem C49_axis_keeps_nan : forall lo hi axis i p x, coord axis p x -> x = S754_nan -> wanted (Axis lo hi axis) i p.
Proof.
  intros lo hi axis i p x C ->. right. intros y Cy.
  assert (E : y = S754_nan) by (unfold coord in *; destruct C as [(? & ?)|[(? & ?)|(? & ?)]], Cy as [(? & ?)|[(? & ?)|(? & ?)]]; subst; congruence).
  subst y. unfold fgt. split; [destruct lo|]; cbn; auto.
Qed.
Print Assumptions C49_axis_keeps_nan.
Theorem C49_axis_filter_keeps_nan : forall lo hi axis h a d prev, a <> d -> points (h a) <> [] ->
  exists h' o, apply (Axis lo hi axis) h a d prev = Ok (h', o) /\
    forall i p x, nth_error (points (h a)) i = Some p -> coord axis p x -> x = S754_nan -> In i (inliers o).
Proof.
  intros lo hi axis h a d prev Hd Hn.
  destruct (C48_split (Axis lo hi axis) h a d prev I I Hd Hn) as (h' & o & E & _ & _ & _ & _ & W).
  exists h', o. split; [assumption|]. intros i p x Hi C N. apply (W i p Hi). exact (C49_axis_keeps_nan lo hi axis i p x C N).
Qed.
Print Assumptions C49_axis_filter_keeps_nan.
Example C49_axis_case : exists h' o, apply (Axis (fz 5) (fz 20) 0) (at_0 three) 0 1 new_obj = Ok (h', o) /\ inliers o = [1; 2].
Proof. eexists _, _. split; vm_compute; reflexivity. Qed.

Theorem C49_range_removes_nan : forall lo hi h a d prev, a <> d -> points (h a) <> [] ->
  exists h' o, apply (Range lo hi) h a d prev = Ok (h', o) /\
    forall i p, nth_error (points (h a)) i = Some p ->
      (px p = S754_nan \/ py p = S754_nan \/ pz p = S754_nan -> In i (outliers o)) /\
      (In i (inliers o) -> fle lo (range_of p) /\ fle (range_of p) hi).
Proof.
  intros lo hi h a d prev Hd Hn.
  destruct (C48_split (Range lo hi) h a d prev I I Hd Hn) as (h' & o & E & _ & _ & (_ & _ & D) & _ & W).
  exists h', o. split; [assumption|]. intros i p Hi. specialize (W i p Hi). split.
  - intros N. destruct (proj1 (D i)) as [(A & _)|(A & _)]; [apply nth_error_Some; congruence| |assumption].
    apply W in A. destruct A as (A & _). rewrite (nan_range p N) in A. destruct lo; contradiction.
  - intros A. apply W in A. exact A.
Qed.
Print Assumptions C49_range_removes_nan.

(** C50: ground removal. *)
Theorem C50_ground : forall leaf height least h a d prev cs, a <> d -> points (h a) <> [] ->
  Forall2 (fun p c => ground_cell leaf p = Ok c) (points (h a)) cs ->
  (forall p, In p (points (h a)) -> fgt (pz p) minus_billion /\ fgt billion (pz p)) ->
  exists h' o, apply (Ground leaf height least) h a d prev = Ok (h', o) /\
    (forall b, b <> d -> h' b = h b) /\
    stamp (h' d) = stamp (h a) /\
    StronglySorted lt (inliers o) /\ StronglySorted lt (outliers o) /\
    (forall i, In i (outliers o) <->
       exists x y z ps, nth_error cs i = Some (x, y, z) /\ (least <= Z.of_nat (length (members cs (x, y, z))))%Z /\
         picked (points (h a)) (members cs (x, y, z)) ps /\ (z <= 0)%Z /\ flat ps height) /\
    (forall i, In i (inliers o) <->
       exists x y z ps, nth_error cs i = Some (x, y, z) /\ (least <= Z.of_nat (length (members cs (x, y, z))))%Z /\
         picked (points (h a)) (members cs (x, y, z)) ps /\ ~ ((z <= 0)%Z /\ flat ps height)) /\
    exists q, picked (points (h a)) (inliers o) q /\ Permutation q (points (h' d)).
Proof. exact ground_apply. Qed.
Print Assumptions C50_ground.

(** The consequence for single points: an index is reported iff its voxel is populated, and then once. *)
Theorem C50_sparse_dropped : forall leaf height least h a d prev cs, a <> d -> points (h a) <> [] ->
  Forall2 (fun p c => ground_cell leaf p = Ok c) (points (h a)) cs ->
  (forall p, In p (points (h a)) -> fgt (pz p) minus_billion /\ fgt billion (pz p)) ->
  exists h' o, apply (Ground leaf height least) h a d prev = Ok (h', o) /\
    forall i c, nth_error cs i = Some c ->
      ((least <= Z.of_nat (length (members cs c)))%Z ->
         (In i (inliers o) /\ ~ In i (outliers o)) \/ (~ In i (inliers o) /\ In i (outliers o))) /\
      ((Z.of_nat (length (members cs c)) < least)%Z -> ~ In i (inliers o) /\ ~ In i (outliers o)).
Proof.
  intros leaf height least h a d prev cs Hd Hn F B.
  destruct (ground_apply leaf height least h a d prev cs Hd Hn F B) as (h' & o & E & _ & _ & _ & _ & Iy & Ix & _).
  exists h', o. split; [assumption|]. intros i [[x y] z] Hi. split.
  - intros L. assert (Len : length cs = length (points (h a))) by (symmetry; clear - F; induction F; cbn; congruence).
    destruct (gather_spec (points (h a)) (members cs (x, y, z))) as (ps & _ & P).
    { intros j Hj. apply members_bound in Hj. lia. }
    assert (Dec : ((z <= 0)%Z /\ flat ps height) \/ ~ ((z <= 0)%Z /\ flat ps height)).
    { rewrite <- (ground_flat x y z ps height).
      - destruct (is_ground (x, y, z) ps height); [left; reflexivity|right; discriminate].
      - apply members_in in Hi. intros ->. inversion P as [E0|]. rewrite <- E0 in Hi. contradiction.
      - intros p Hp. apply B. clear - P Hp. induction P as [|j r l ps Hj P IH]; [contradiction|].
        destruct Hp as [->|Hp]; [eapply nth_error_In; eassumption|auto]. }
    destruct Dec as [G|G].
    + right. split; [|apply Iy; exists x, y, z, ps; tauto].
      intros C. apply Ix in C. destruct C as (u & v & w & qs & C1 & C2 & C3 & C4). rewrite Hi in C1. injection C1 as <- <- <-.
      rewrite (picked_fun _ _ _ _ C3 P) in C4. tauto.
    + left. split; [apply Ix; exists x, y, z, ps; tauto|].
      intros C. apply Iy in C. destruct C as (u & v & w & qs & C1 & C2 & C3 & C4). rewrite Hi in C1. injection C1 as <- <- <-.
      rewrite (picked_fun _ _ _ _ C3 P) in C4. tauto.
  - intros L. split; intros C; [apply Ix in C|apply Iy in C]; destruct C as (u & v & w & qs & C1 & C2 & _);
      rewrite Hi in C1; injection C1 as <- <- <-; lia.
Qed.
Print Assumptions C50_sparse_dropped.

(** Two ground points, one sparse point above and two tall points; leaf 1, height 1/2, 2 points per voxel.
    The output is in voxel order, not in the order of Inliers(). *)
Definition half : fl := S754_finite false 8388608 (-24).
Definition yard : cloud := mkCloud (mkTime 7 0)
  [pt (fz 5) f0 (fz 3); pt f0 f0 f0; pt (fz 9) (fz 9) (fz 9); pt (fz 2) f0 (fz 3); pt f0 f0 half; pt (fz 2) f0 (fz 3); pt (fz 5) f0 (fz 3)].
Definition yard_cells : list cell := [(5, 0, 3); (0, 0, 0); (9, 9, 9); (2, 0, 3); (0, 0, 0); (2, 0, 3); (5, 0, 3)]%Z.
Example C50_case :
  Forall2 (fun p c => ground_cell (fz 1) p = Ok c) (points yard) yard_cells /\
  (forall p, In p (points yard) -> fgt (pz p) minus_billion /\ fgt billion (pz p)) /\
  exists h' o, apply (Ground (fz 1) half 2) (at_0 yard) 0 1 new_obj = Ok (h', o) /\
    inliers o = [0; 3; 5; 6] /\ outliers o = [1; 4] /\
    points (h' 1) = [pt (fz 2) f0 (fz 3); pt (fz 2) f0 (fz 3); pt (fz 5) f0 (fz 3); pt (fz 5) f0 (fz 3)].
Proof.
  split; [repeat constructor|]. split.
  - intros p Hp. repeat (destruct Hp as [<-|Hp]; [vm_compute; auto|]). destruct Hp.
  - eexists _, _. split; [vm_compute; reflexivity|]. repeat split.
Qed.
(** A coordinate that is NaN, or whose voxel index does not fit an int, is undefined behaviour. *)
Theorem C50_nan_undefined : forall leaf height least h a d prev,
  (exists p, In p (points (h a)) /\ (px p = S754_nan \/ py p = S754_nan \/ pz p = S754_nan)) ->
  apply (Ground leaf height least) h a d prev = UB.
Proof.
  intros leaf height least h a d prev (p & Hp & N). apply ground_ub. exists p. split; [assumption|].
  assert (D : fdiv S754_nan leaf = S754_nan) by (destruct leaf; reflexivity).
  destruct (ground_cell_ok leaf p) as [(c & E)|E]; [|assumption]. exfalso. unfold ground_cell in E.
  assert (T : to_int (fdiv S754_nan leaf) = UB) by (rewrite D; reflexivity).
  destruct N as [N|[N|N]]; rewrite N, T in E; cbn in E; try discriminate;
    destruct (to_int (fdiv (px p) leaf)); try discriminate; cbn in E;
    destruct (to_int (fdiv (py p) leaf)); discriminate.
Qed.
Print Assumptions C50_nan_undefined.
Example C50_nan_case : apply (Ground (fz 1) half 2) (at_0 three) 0 1 new_obj = UB.
Proof. apply C50_nan_undefined. exists (pt S754_nan (fz 0) (fz 0)). cbn. auto. Qed.

(** C51: one average per occupied voxel. *)
Theorem C51_centroids : forall size odd order h a d prev, a <> d -> points (h a) <> [] ->
  (forall m, Permutation (order m) m) ->
  exists h' o vs, apply (Voxel size odd order) h a d prev = Ok (h', o) /\
    (forall b, b <> d -> h' b = h b) /\
    stamp (h' d) = stamp (h a) /\ inliers o = [] /\ outliers o = [] /\
    NoDup vs /\ (forall c, In c vs <-> exists p, In p (points (h a)) /\ voxel_of size odd p = c) /\
    Forall2 (fun c q => exists ps, (forall p, count_occ point_dec ps p = if cell_eq (voxel_of size odd p) c then count_occ point_dec (points (h a)) p else 0) /\
      q = average ps) vs (points (h' d)).
Proof.
  intros size odd order h a d prev Hd Hn P.
  destruct (voxel_apply size odd order h a d prev Hd Hn P) as (h' & o & vs & E & H1 & H2 & H3 & H4 & H5 & H6 & H7).
  exists h', o, vs. do 7 (split; [assumption|]). rewrite H7. clear. induction vs as [|c vs IH]; cbn [map]; constructor; [clear IH|exact IH].
  exists (in_voxel size odd (points (h a)) c). split; [|reflexivity]. intros p. unfold in_voxel.
  induction (points (h a)) as [|q l IHl]; cbn [List.filter count_occ]; [destruct (cell_eq (voxel_of size odd p) c); reflexivity|].
  destruct (cell_eq (voxel_of size odd q) c) eqn:Q; cbn [count_occ]; destruct (point_dec q p) as [->|]; rewrite ?IHl, ?Q; try reflexivity.
Qed.
Print Assumptions C51_centroids.
Example C51_case : exists h' o, apply (Voxel (fz 2) (fun _ => 0%Z) (@rev _)) (at_0 yard) 0 1 new_obj = Ok (h', o) /\
  length (points (h' 1)) = 4 /\ exists p, In p (points (h' 1)) /\ px p = fz 5.
Proof.
  eexists _, _. split; [vm_compute; reflexivity|]. split; [reflexivity|].
  exists (pt (fz 5) f0 (fz 3)). split; vm_compute; auto.
Qed.

(** In exact arithmetic the averaging code gives the arithmetic mean, so it stays between the smallest and
    largest coordinate of the voxel; and the index used for a point is the nearest integer. *)
Theorem C51_average_exact : forall f l lo hi, l <> [] -> (forall p, In p l -> (lo <= f p <= hi)%Q) ->
  let m := mean_with f (fun x : Q => x) 0%Q Qplus Qdiv (fun n => inject_Z (Z.of_nat n)) (fun x => x) l in
  (m * inject_Z (Z.of_nat (length l)) == total f l)%Q /\ (lo <= m <= hi)%Q.
Proof.
  intros f l lo hi Hl H m. pose proof (mean_exact f l Hl : (m * inject_Z (Z.of_nat (length l)) == total f l)%Q) as M.
  split; [exact M|]. destruct (total_bounds f l lo hi H) as [A B]. rewrite <- M in A, B.
  assert (N : (0 < inject_Z (Z.of_nat (length l)))%Q).
  { change 0%Q with (inject_Z 0). rewrite <- Zlt_Qlt. destruct l; [congruence|cbn [length]; lia]. }
  split; apply (Qmult_lt_0_le_reg_r _ _ _ N); assumption.
Qed.
Print Assumptions C51_average_exact.
Theorem C51_nearest_index : forall odd x v, value x = Some v -> (Qabs v <= inject_Z (2 ^ 31 - 1))%Q ->
  (Qabs (v - inject_Z (lround odd x)) <= 1 # 2)%Q.
Proof.
  intros odd x v Hv B. unfold lround. destruct (round_fl x) as [z|] eqn:R.
  - pose proof (round_near x z v Hv R) as N.
    assert (Zb : (- 2 ^ 31 <= z < 2 ^ 31)%Z).
    { apply Qabs_Qle_condition in B, N. destruct B as [B1 B2], N as [N1 N2].
      assert (L : (inject_Z z < inject_Z (2 ^ 31))%Q) by (change (inject_Z (2 ^ 31)) with (2147483648 # 1); change (inject_Z (2 ^ 31 - 1)) with (2147483647 # 1) in *; lra).
      assert (G : (inject_Z (- 2 ^ 31) < inject_Z z)%Q) by (change (inject_Z (- 2 ^ 31)) with (- 2147483648 # 1); change (inject_Z (2 ^ 31 - 1)) with (2147483647 # 1) in *; lra).
      rewrite <- Zlt_Qlt in L, G. lia. }
    replace ((- 2 ^ 63 <=? z) && (z <? 2 ^ 63))%Z with true by (symmetry; apply andb_true_iff; rewrite Z.leb_le, Z.ltb_lt; lia).
    unfold to_int32. rewrite Z.mod_small by lia. replace (z + 2 ^ 31 - 2 ^ 31)%Z with z by lia. exact N.
  - destruct x; cbn in *; discriminate.
Qed.
Print Assumptions C51_nearest_index.
Example C51_nearest_case : lround (fun _ => 0%Z) (S754_finite true 10485760 (-22)) = (-3)%Z.
Proof. reflexivity. Qed.

(** C52: chains of filters. *)
Theorem C52_composition : forall k prev fs c old, k <> Statistic -> points c <> [] ->
  factory ((k, prev) :: fs) c old = in_order (k :: List.filter (fun k => negb (statistic k)) (map fst fs)) c.
Proof.
  intros k prev fs c old Hk Hn. rewrite factory_in_order by assumption. unfold plain. cbn [map fst List.filter].
  replace (statistic k) with false by (symmetry; destruct k; congruence || reflexivity). reflexivity.
Qed.
Print Assumptions C52_composition.
Theorem C52_no_filters : forall c old, points c <> [] -> factory [] c old = Ok c.
Proof. intros c old H. unfold factory. destruct (points c); [congruence|reflexivity]. Qed.
Print Assumptions C52_no_filters.
Theorem C52_empty_stays_empty : forall k prev fs1 fs2 c old m, k <> Statistic ->
  points c <> [] -> factory ((k, prev) :: fs1) c old = Ok m -> points m = [] ->
  factory (((k, prev) :: fs1) ++ fs2) c old = Ok m.
Proof.
  intros k prev fs1 fs2 c old m Hk Hn H E. cbn [app]. rewrite C52_composition in * by assumption. rewrite map_app, filter_app.
  rewrite app_comm_cons. revert H. generalize (k :: List.filter (fun k => negb (statistic k)) (map fst fs1)). clear - E.
  intros l. revert c. induction l as [|j l IH]; intros c H; cbn [app in_order] in *.
  - injection H as ->. apply in_order_empty. assumption.
  - destruct (points c); [assumption|]. destruct (once j c); try discriminate. cbn [bind] in *. auto.
Qed.
Print Assumptions C52_empty_stays_empty.
Theorem C52_empty_input_untouched : forall fs c old, points c = [] -> factory fs c old = Ok old.
Proof. intros fs c old H. unfold factory. rewrite H. reflexivity. Qed.
Print Assumptions C52_empty_input_untouched.
Example C52_case : exists m,
  factory [(Range (fz 1) (fz 50), new_obj); (Statistic, new_obj); (Axis (fz 5) (fz 20) 0, new_obj)] three no_cloud = Ok m /\
  points m = [pt (fz 10) (fz 0) (fz 0)] /\ stamp m = mkTime 5 0.
Proof. eexists. split; [vm_compute; reflexivity|]. auto. Qed.

(** C88: a statistics removal filter in first position empties every cloud and loses its stamp; anywhere else
    it has no effect. *)
Theorem C88_statistic_first : forall prev fs c old, points c <> [] -> factory ((Statistic, prev) :: fs) c old = Ok no_cloud.
Proof. exact factory_statistic. Qed.
Print Assumptions C88_statistic_first.
Theorem C88_statistic_later : forall k prev fs1 prev' fs2 c old, k <> Statistic -> points c <> [] ->
  factory ((k, prev) :: fs1 ++ (Statistic, prev') :: fs2) c old = factory ((k, prev) :: fs1 ++ fs2) c old.
Proof.
  intros k prev fs1 prev' fs2 c old Hk Hn. rewrite !C52_composition by assumption. rewrite !map_app, !filter_app. reflexivity.
Qed.
Print Assumptions C88_statistic_later.
Example C88_case : factory [(Statistic, new_obj); (Range (fz 1) (fz 50), new_obj)] three no_cloud = Ok no_cloud.
Proof. apply C88_statistic_first. discriminate. Qed.

(** C13: the stamp check of the preprocessing thread. *)
Theorem C13_empty_aborts : forall fs c, rep (stamp c) -> (1 < elapsed (stamp c))%Z -> points c = [] -> preprocess fs c = Abort.
Proof.
  intros fs c R L E. unfold preprocess. rewrite C52_empty_input_untouched by assumption. cbn [bind stamp no_cloud].
  rewrite t_eq_spec by (assumption || (unfold rep; cbn; lia)). cbn [bind]. change (elapsed time_zero) with 0%Z.
  destruct (Z.leb_spec (Z.abs (elapsed (stamp c) - 0)) 1); [lia|reflexivity].
Qed.
Print Assumptions C13_empty_aborts.
Theorem C13_check_passes : forall fs c, rep (stamp c) -> points c <> [] -> (forall prev fs', fs <> (Statistic, prev) :: fs') ->
  preprocess fs c = factory fs c no_cloud /\
  forall m, factory fs c no_cloud = Ok m -> stamp m = stamp c.
Proof.
  intros fs c R Hn Hs.
  assert (S : forall m, factory fs c no_cloud = Ok m -> stamp m = stamp c).
  { intros m H. destruct fs as [|[k prev] fs].
    - rewrite C52_no_filters in H by assumption. injection H as <-. reflexivity.
    - assert (Hk : k <> Statistic) by (intros ->; eapply Hs; reflexivity).
      rewrite factory_in_order in H by assumption. eapply in_order_stamp; [|exact H]. apply plain_plain. }
  split; [|exact S]. unfold preprocess. destruct (factory fs c no_cloud) as [m| | |]; try reflexivity. cbn [bind].
  rewrite (S m eq_refl), t_eq_spec by assumption. rewrite Z.sub_diag. reflexivity.
Qed.
Print Assumptions C13_check_passes.
Theorem C13_statistic_first_aborts : forall prev fs c, rep (stamp c) -> (1 < elapsed (stamp c))%Z -> points c <> [] ->
  preprocess ((Statistic, prev) :: fs) c = Abort.
Proof.
  intros prev fs c R L Hn. unfold preprocess. rewrite C88_statistic_first by assumption. cbn [bind stamp no_cloud].
  rewrite t_eq_spec by (assumption || (unfold rep; cbn; lia)). cbn [bind]. change (elapsed time_zero) with 0%Z.
  destruct (Z.leb_spec (Z.abs (elapsed (stamp c) - 0)) 1); [lia|reflexivity].
Qed.
Print Assumptions C13_statistic_first_aborts.
Example C13_case : preprocess [(Range (fz 1) (fz 50), new_obj)] (mkCloud (mkTime 5 0) []) = Abort /\
  exists m, preprocess [(Range (fz 100) (fz 500), new_obj)] three = Ok m /\ points m = [].
Proof. split; [reflexivity|]. eexists. split; vm_compute; reflexivity. Qed.
