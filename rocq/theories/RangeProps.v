(** Properties C53, C54, C89, C90: range image and depth clustering. *)
From Coq Require Import QArith Lqa ZArith List Bool Lia Sorted Relations SpecFloat.
From Verif Require Import Outcome TimeModel LoopSpec FloatOrder FloatRound FilterModel FilterSpec FilterProofs FilterVoxels RangeModel RangeSpec RangeProofs RangeVisible RangeCluster RangeMain.
Import ListNotations.
Local Open Scope outcome_scope.
Local Open Scope nat_scope.

(** ** Examples: an image of 2 rows and 24 columns.  The angles of a point are its z and y coordinates,
    neighbours are linked within a row only. *)
Definition fz (z : Z) : fl := binary_normalize 24 128 z 0 false.
Definition dz (z : Z) : spec_float := binary_normalize 53 1024 z 0 false.
Definition z0 : fl := S754_zero false.
Definition angle (y x : fl) : fl := match x with S754_nan => S754_nan | _ => y end.
Definition small : config := mkConfig 2 24 z0 (dz 1) (fz 1) z0 z0 z0 angle (fun _ => 0%Z) (fun h _ _ => h).
Definition spot (y z : Z) : point := mkPoint (fz 100) (fz y) (fz z) z0 z0.
Definition ring : cloud :=
  mkCloud (mkTime 7 0) (map (fun n => spot (Z.of_nat n) 0) (seq 0 21) ++ [spot 3 0; spot 3 1; spot 3 5; mkPoint z0 z0 (fz 9) z0 z0]).
Definition ring_spots : list (option pix) :=
  map (fun n => Some (0, Z.of_nat n)%Z) (seq 0 21) ++ [Some (0, 3)%Z; Some (1, 3)%Z; None; None].
Lemma small_quiet : quiet small.
Proof. intros y x [-> | ->]; [destruct x|]; reflexivity. Qed.
Lemma ring_floats : floats small (points ring).
Proof. split; [repeat split|]. intros p I. repeat (destruct I as [<-|I]; [vm_compute; auto|]). destruct I. Qed.
Lemma ring_lands : spots small (points ring) ring_spots.
Proof. unfold spots, ring, ring_spots. repeat (constructor; [vm_compute; reflexivity|]). constructor. Qed.

(** C53: each pixel keeps the first point that falls into it, and every point is an inlier or an outlier. *)
Theorem C53_first_point : forall C c s0 ws old, (0 < rows C)%Z -> (0 < cols C)%Z -> points c <> [] ->
  quiet C -> floats C (points c) -> spots C (points c) ws ->
  exists s out, filter C (set_input C (Some c) s0) old = Ok (s, out) /\
    divided (length (points c)) (kept s) (dropped s) /\
    picked (points c) (kept s) (points out) /\ stamp out = stamp c /\
    (forall i, In i (kept s) <-> exists q, first_in ws i q) /\
    (forall q i, (exists l, pixels s q = Some (i, l)) <-> first_in ws i q) /\
    (forall q i, first_in ws i q -> inside C q /\ i < length (points c)).
Proof.
  intros C c s0 ws old Hr Hc Hn Q F S.
  destruct (filter_ok C c s0 ws old Hr Hc Hn (floats_visible C _ Q F) S) as (s & out & E & Fi & D & P & T).
  assert (B : forall q i, first_in ws i q -> inside C q /\ i < length (points c)).
  { intros q i (Hi & _). destruct (spots_nth _ _ _ S i q Hi) as (p & Np & Hp). split; [eapply place_inside; eassumption|].
    apply nth_error_Some. congruence. }
  exists s, out. split; [assumption|]. split; [assumption|]. split; [assumption|]. split; [assumption|]. split; [|split; [|assumption]].
  - intros i. rewrite (fi_kept _ _ _ _ _ Fi), filter_In, in_seq, is_first_in, (spots_length _ _ _ S). split; [tauto|].
    intros (q & H). split; [|eauto]. destruct (B q i H). lia.
  - intros q i. rewrite (fi_pixels _ _ _ _ _ Fi), <- first_at_in. destruct (first_at ws q) as [j|]; cbn; split.
    + intros (l & H). injection H as -> _. reflexivity.
    + intros H. injection H as ->. eauto.
    + intros (l & H). discriminate.
    + discriminate.
Qed.
Print Assumptions C53_first_point.
(** The columns close the circle: a direction that rounds to the full circle is in column 0, and no
    point is lost because of its horizontal direction. *)
Theorem C53_full_circle : forall C p r k, (0 < cols C)%Z -> SFltb (flat_dist (moved C p)) centi = false ->
  double_to_int (SFdiv 53 1024 (SFsub 53 1024 (widen (atan2 C (pz (moved C p)) (flat_dist (moved C p)))) (bottom C)) (vres C)) = Ok r -> (0 <= r < rows C)%Z ->
  SFltb (atan2 C (py (moved C p)) (px (moved C p))) (S754_zero false) = false ->
  lround (odd C) (fdiv (atan2 C (py (moved C p)) (px (moved C p))) (hres C)) = k -> (0 <= k <= cols C)%Z ->
  place C p = Ok (Some (r, (k mod cols C)%Z)).
Proof.
  intros C p r k Hc Hd Hr Rr Hh Hk Rk. unfold place. rewrite Hd, Hr. cbn [bind].
  destruct (Z.ltb_spec r 0); [lia|]. destruct (Z.leb_spec (rows C) r); [lia|]. cbn [orb]. unfold column. rewrite Hh, Hk.
  destruct (Z.leb_spec (cols C) k) as [Q|Q].
  - assert (k = cols C) as -> by lia. rewrite Z.sub_diag, Z_mod_same_full. destruct (Z.ltb_spec 0 0); [lia|]. destruct (Z.leb_spec (cols C) 0); [lia|]. reflexivity.
  - rewrite Z.mod_small by lia. destruct (Z.ltb_spec k 0); [lia|]. destruct (Z.leb_spec (cols C) k); [lia|]. reflexivity.
Qed.
Print Assumptions C53_full_circle.
Example C53_full_circle_case : place small (spot 24 1) = Ok (Some (1, 0)%Z).
Proof. apply (C53_full_circle small (spot 24 1) 1 24); vm_compute; try reflexivity; split; (reflexivity || discriminate). Qed.
Example C53_case : exists s out, filter small (set_input small (Some ring) new_image) no_cloud = Ok (s, out) /\
  kept s = seq 0 21 ++ [22] /\ dropped s = [21; 23; 24] /\ quiet small /\ floats small (points ring) /\ spots small (points ring) ring_spots.
Proof.
  eexists _, _. split; [vm_compute; reflexivity|]. split; [reflexivity|]. split; [reflexivity|].
  exact (conj small_quiet (conj ring_floats ring_lands)).
Qed.

(** A point with a NaN coordinate makes Filter undefined: the row is a conversion of NaN to int. *)
Theorem C53_nan_undefined : forall C c s0 old p, (0 < rows C)%Z -> (0 < cols C)%Z -> quiet C -> In p (points c) ->
  (px p = S754_nan \/ py p = S754_nan \/ (pz p = S754_nan /\ SFltb (flat_dist (moved C p)) centi = false)) ->
  filter C (set_input C (Some c) s0) old = UB.
Proof.
  intros C c s0 old p Hr Hc Q I H. unfold filter, set_input. destruct (points c) as [|p0 l] eqn:Ep; [contradiction|].
  replace ((rows C <=? 0) || (cols C <=? 0))%Z with false by (symmetry; apply orb_false_iff; rewrite !Z.leb_gt; lia).
  cbn [source]. rewrite Ep, fill_ub; [reflexivity| |intros; apply place_total].
  exists p. split; [assumption|]. apply place_nan; [assumption|]. unfold moved at 1 2 3. cbn [px py pz].
  destruct H as [-> |[-> |(-> & F)]]; [left; apply add_nan_l|right; left; apply add_nan_l|right; right; split; [apply add_nan_l|exact F]].
Qed.
Print Assumptions C53_nan_undefined.
Example C53_nan_case : filter small (set_input small (Some (mkCloud (mkTime 0 0) [spot 1 0; mkPoint S754_nan z0 z0 z0 z0])) new_image) no_cloud = UB.
Proof. apply (C53_nan_undefined small _ _ _ (mkPoint S754_nan z0 z0 z0 z0)); [reflexivity|reflexivity|exact small_quiet|right; left; reflexivity|left; reflexivity]. Qed.

(** C54: after Filter, DepthCluster of a new object ends, labels every occupied pixel, gives two pixels the
    same label exactly when they are connected, and reports exactly the components with at least 20 points. *)
Theorem C54_components : forall C c s0 ws old fuel, (0 < rows C)%Z -> (2 <= cols C)%Z -> points c <> [] -> quiet C ->
  floats C (points c) -> spots C (points c) ws -> clusters s0 = [] -> Z.to_nat (7 * rows C * cols C + 1) <= fuel ->
  exists s1 out s2 res, filter C (set_input C (Some c) s0) old = Ok (s1, out) /\
    depth_cluster C fuel s1 = Some (Ok (s2, res)) /\
    (forall p, occupied C (matrix s1) p <-> exists i, first_in ws i p) /\
    (forall p, occupied C (matrix s1) p <-> 0 < label_of s2 p) /\
    (forall p q, occupied C (matrix s1) p -> occupied C (matrix s1) q -> (label_of s2 p = label_of s2 q <-> connected C (matrix s1) p q)) /\
    (forall p, occupied C (matrix s1) p -> first_in ws (index_of s2 p) p) /\
    StronglySorted lt (map fst (clusters s2)) /\
    (forall k v, In (k, v) (clusters s2) -> 0 < k /\ 20 <= length v /\ enumerates C s2 k v) /\
    (forall p, occupied C (matrix s1) p -> exists v, enumerates C s2 (label_of s2 p) v /\ (20 <= length v -> In (label_of s2 p, v) (clusters s2))) /\
    reported (points c) (clusters s2) res.
Proof.
  intros C c s0 ws old fuel Hr Hc Hn Q F S Cl Hf.
  destruct (cluster_run C c s0 ws old fuel Hr Hc Hn Q F S Hf) as (s1 & out & s2 & next & E & Fi & Oc & Sw & La & A & T & _).
  destruct (T Cl) as (So & Ti).
  destruct (labelled_spec (points c) (clusters s2)) as (res & R & Rep).
  { intros k v i I Iv. destruct (Ti k v I) as (_ & _ & En). eapply enumerated_bound; eassumption. }
  exists s1, out, s2, res. split; [assumption|]. split.
  { unfold depth_cluster. rewrite (fi_source _ _ _ _ _ Fi), Sw. cbn [bind]. rewrite R. reflexivity. }
  split; [assumption|]. split.
  { intros p. split; [intros O; specialize (A p O); lia|]. intros L. apply (la_range _ _ _ _ La p). lia. }
  split; [exact (labelling_connected C s1 s2 next La A)|]. split.
  { intros p O. rewrite (la_index _ _ _ _ La). destruct (proj1 (Oc p) O) as (i & Hi).
    rewrite (filling_index _ _ _ _ _ _ _ Fi Hi). assumption. }
  split; [assumption|]. split; [intros k v I; destruct (Ti k v I) as (? & ? & ?); split; [lia|auto]|]. split; [|assumption].
  intros p O. apply (la_all _ _ _ _ La). pose proof (A p O). destruct (la_range _ _ _ _ La p); lia.
Qed.
Print Assumptions C54_components.
Example C54_case : exists s1 out s2 res, filter small (set_input small (Some ring) new_image) no_cloud = Ok (s1, out) /\
  depth_cluster small 337 s1 = Some (Ok (s2, res)) /\ clusters new_image = [] /\
  map fst (clusters s2) = [1] /\ length res = 21 /\ label_of s2 (1, 3)%Z = 2 /\ label_of s2 (0, 3)%Z = 1 /\ label_of s2 (1, 4)%Z = 0.
Proof. eexists _, _, _, _. split; [vm_compute; reflexivity|]. split; [vm_compute; reflexivity|]. repeat split. Qed.

(** Clustering before any input aborts. *)
Theorem C54_no_input_aborts : forall C fuel s, (s = new_image \/ exists s0, s = set_input C None s0) -> depth_cluster C fuel s = Some Abort.
Proof. intros C fuel s [->|(s0 & ->)]; reflexivity. Qed.
Print Assumptions C54_no_input_aborts.
(** With a single column DepthCluster reads outside the image as soon as there is a point in it. *)
Theorem C54_one_column_undefined : forall C c s0 ws old fuel, (0 < rows C)%Z -> cols C = 1%Z -> points c <> [] -> quiet C ->
  floats C (points c) -> spots C (points c) ws -> (exists i q, nth_error ws i = Some (Some q)) -> 0 < fuel ->
  exists s1 out, filter C (set_input C (Some c) s0) old = Ok (s1, out) /\ depth_cluster C fuel s1 = Some UB.
Proof.
  intros C c s0 ws old fuel Hr Hc Hn Q F S (i & q & Hi) Hf.
  destruct (filter_ok C c s0 ws old Hr ltac:(lia) Hn (floats_visible C _ Q F) S) as (s1 & out & E & Fi & _).
  exists s1, out. split; [assumption|]. unfold depth_cluster. rewrite (fi_source _ _ _ _ _ Fi).
  rewrite one_column; [reflexivity|assumption|eapply filling_filled; eassumption| |assumption].
  exists q. apply (filling_occupied C c _ ws s1 q Q F S Fi). destruct (first_at ws q) as [j|] eqn:Fa; [exists j; apply first_at_in; assumption|].
  exfalso. unfold first_at in Fa. assert (Hh : hit ws q i = false) by (apply (find_none _ _ Fa i), in_seq; split; [lia|apply nth_error_Some; congruence]).
  unfold hit in Hh. rewrite Hi, pix_eq_refl in Hh. discriminate.
Qed.
Print Assumptions C54_one_column_undefined.
Definition thin : config := mkConfig 2 1 z0 (dz 1) (fz 1) z0 z0 z0 angle (fun _ => 0%Z) (fun h _ _ => h).
Example C54_one_column_case : exists s1 out, filter thin (set_input thin (Some (mkCloud (mkTime 0 0) [spot 0 0])) new_image) no_cloud = Ok (s1, out) /\
  depth_cluster thin 15 s1 = Some UB /\ kept s1 = [0].
Proof. eexists _, _. split; [vm_compute; reflexivity|]. split; vm_compute; reflexivity. Qed.

(** C89: the clusters of an earlier cloud stay when the new cloud has no component of 20 points, and the
    labelled cloud is made from the old indices and the new points. *)
Theorem C89_stale_clusters : forall C c s0 ws old fuel, (0 < rows C)%Z -> (2 <= cols C)%Z -> points c <> [] -> quiet C ->
  floats C (points c) -> spots C (points c) ws -> length (points c) < 20 -> Z.to_nat (7 * rows C * cols C + 1) <= fuel ->
  (forall k v i, In (k, v) (clusters s0) -> In i v -> i < length (points c)) ->
  exists s1 out s2 res, filter C (set_input C (Some c) s0) old = Ok (s1, out) /\
    depth_cluster C fuel s1 = Some (Ok (s2, res)) /\ clusters s2 = clusters s0 /\ reported (points c) (clusters s0) res.
Proof.
  intros C c s0 ws old fuel Hr Hc Hn Q F S Few Hf B.
  destruct (cluster_run C c s0 ws old fuel Hr Hc Hn Q F S Hf) as (s1 & out & s2 & next & E & Fi & Oc & Sw & La & A & _ & Sm).
  assert (Cl : clusters s2 = clusters s0).
  { apply Sm. intros ps N H. pose proof (few_points C c _ ws s1 Fi S Oc ps N H). lia. }
  destruct (labelled_spec (points c) (clusters s0) B) as (res & R & Rep).
  exists s1, out, s2, res. split; [assumption|]. split; [|auto].
  unfold depth_cluster. rewrite (fi_source _ _ _ _ _ Fi), Sw. cbn [bind]. rewrite Cl, R. reflexivity.
Qed.
Print Assumptions C89_stale_clusters.

(** If an old index is outside the new cloud, DepthCluster reads outside the cloud. *)
Theorem C89_stale_index_undefined : forall C c s0 ws old fuel, (0 < rows C)%Z -> (2 <= cols C)%Z -> points c <> [] -> quiet C ->
  floats C (points c) -> spots C (points c) ws -> length (points c) < 20 -> Z.to_nat (7 * rows C * cols C + 1) <= fuel ->
  (exists k v i, In (k, v) (clusters s0) /\ In i v /\ length (points c) <= i) ->
  exists s1 out, filter C (set_input C (Some c) s0) old = Ok (s1, out) /\ depth_cluster C fuel s1 = Some UB.
Proof.
  intros C c s0 ws old fuel Hr Hc Hn Q F S Few Hf B.
  destruct (cluster_run C c s0 ws old fuel Hr Hc Hn Q F S Hf) as (s1 & out & s2 & next & E & Fi & Oc & Sw & La & A & _ & Sm).
  assert (Cl : clusters s2 = clusters s0).
  { apply Sm. intros ps N H. pose proof (few_points C c _ ws s1 Fi S Oc ps N H). lia. }
  exists s1, out. split; [assumption|].
  unfold depth_cluster. rewrite (fi_source _ _ _ _ _ Fi), Sw. cbn [bind]. rewrite Cl, labelled_ub by assumption. reflexivity.
Qed.
Print Assumptions C89_stale_index_undefined.
(** Two clouds in a row: the second has two points, the first a cluster of 21. *)
Example C89_case :
  match filter small (set_input small (Some ring) new_image) no_cloud with
  | Ok (s1, _) =>
      match depth_cluster small 337 s1 with
      | Some (Ok (s2, _)) =>
          match filter small (set_input small (Some (mkCloud (mkTime 8 0) [spot 1 0; spot 5 0])) s2) no_cloud with
          | Ok (s3, _) => kept s3 = [0; 1] /\ map fst (clusters s3) = [1] /\ depth_cluster small 337 s3 = Some UB
          | _ => False
          end
      | _ => False
      end
  | _ => False
  end.
Proof. vm_compute. auto. Qed.

(** C89: Filter called again without SetInputCloud drops every point. *)
Lemma refill : forall C l i s, (forall p, In p l -> exists w, place C p = Ok w /\ forall q, w = Some q -> vacant (matrix s q) = false) ->
  fill C l i s = Ok (mkImage (source s) (matrix s) (pixels s) (clusters s) (kept s) (dropped s ++ seq i (length l))).
Proof.
  intros C. induction l as [|p l IH]; intros i s H; cbn [fill length seq].
  - rewrite app_nil_r. destruct s; reflexivity.
  - destruct (H p (or_introl eq_refl)) as (w & E & V). rewrite E. cbn [bind].
    assert (K : fill C l (S i) (mkImage (source s) (matrix s) (pixels s) (clusters s) (kept s) (dropped s ++ [i])) =
      Ok (mkImage (source s) (matrix s) (pixels s) (clusters s) (kept s) (dropped s ++ i :: seq (S i) (length l)))).
    { rewrite IH by (intros; apply H; right; assumption). cbn [source matrix pixels clusters kept dropped]. rewrite <- app_assoc. reflexivity. }
    destruct w as [q|]; [|exact K]. rewrite (V q eq_refl). exact K.
Qed.
Theorem C89_filter_again_empties : forall C c s0 ws old old', (0 < rows C)%Z -> (0 < cols C)%Z -> points c <> [] ->
  quiet C -> floats C (points c) -> spots C (points c) ws ->
  exists s1 out s2 out', filter C (set_input C (Some c) s0) old = Ok (s1, out) /\ filter C s1 old' = Ok (s2, out') /\
    kept s2 = [] /\ dropped s2 = seq 0 (length (points c)) /\ points out' = [].
Proof.
  intros C c s0 ws old old' Hr Hc Hn Q F S.
  destruct (filter_ok C c s0 ws old Hr Hc Hn (floats_visible C _ Q F) S) as (s1 & out & E & Fi & _).
  exists s1, out. unfold filter at 2. rewrite (fi_source _ _ _ _ _ Fi), refill.
  - cbn [bind kept gather]. eexists _, _. split; [assumption|]. split; [reflexivity|]. cbn. auto.
  - intros p I. apply In_nth_error in I. destruct I as (i & Np).
    assert (exists w, nth_error ws i = Some w /\ place C p = Ok w) as (w & Ew & Pw).
    { clear - S Np. revert i Np. induction S; intros [|i] Np; cbn in *; try discriminate; eauto. injection Np as <-. eauto. }
    exists w. split; [assumption|]. intros q ->. cbn [matrix].
    apply (filling_occupied C c _ ws s1 q Q F S Fi). destruct (first_at ws q) as [j|] eqn:Fa; [exists j; apply first_at_in; assumption|].
    exfalso. unfold first_at in Fa. assert (Hh : hit ws q i = false) by (apply (find_none _ _ Fa i), in_seq; split; [lia|apply nth_error_Some; congruence]).
    unfold hit in Hh. rewrite Ew, pix_eq_refl in Hh. discriminate.
Qed.
Print Assumptions C89_filter_again_empties.
Example C89_again_case : exists s1 out s2 out', filter small (set_input small (Some ring) new_image) no_cloud = Ok (s1, out) /\
  length (points out) = 22 /\ filter small s1 no_cloud = Ok (s2, out') /\ points out' = [] /\ length (dropped s2) = 25.
Proof. eexists _, _, _, _. split; [vm_compute; reflexivity|]. split; [reflexivity|]. split; [vm_compute; reflexivity|]. split; reflexivity. Qed.

(** C90: a point less than one row below the lowest angle is put into row 0, because the conversion to int
    rounds towards zero. *)
Theorem C90_below_bottom_kept : forall C p v,
  let m := moved C p in
  value (SFdiv 53 1024 (SFsub 53 1024 (widen (atan2 C (pz m) (flat_dist m))) (bottom C)) (vres C)) = Some v ->
  (-1 < v)%Q -> (v < 0)%Q -> SFltb (flat_dist m) centi = false -> (0 < rows C)%Z -> (0 <= column C m < cols C)%Z ->
  place C p = Ok (Some (0%Z, column C m)).
Proof.
  intros C p v m V L U F Hr Hc. unfold place. cbv zeta. fold m. rewrite F.
  set (x := SFdiv _ _ _ _) in *.
  assert (T : double_to_int x = Ok 0%Z).
  { unfold double_to_int, to_int. destruct x as [s|s| |s n e]; try discriminate; [reflexivity|]. cbn [trunc_fl]. cbn [value] in V. injection V as <-.
    fold (dyadic (cond_Zopp s (Zpos n)) e) in L, U. destruct s; cbn [cond_Zopp] in L, U.
    - assert (E : (e < 0)%Z).
      { destruct (Z.lt_ge_cases e 0) as [|G]; [assumption|]. exfalso. replace e with (0 + e)%Z in L by lia. rewrite dyadic_shift in L by assumption.
        assert (One : (-1 == dyadic (-1) 0)%Q) by reflexivity. rewrite One in L. apply dyadic_lt in L.
        assert (0 < 2 ^ e)%Z by (apply Z.pow_pos_nonneg; lia). nia. }
      assert (B : (Zpos n < 2 ^ (- e))%Z).
      { assert (One : (-1 == dyadic (- 2 ^ (- e)) e)%Q).
        { replace (- 2 ^ (- e))%Z with (-1 * 2 ^ (- e))%Z by ring. rewrite <- dyadic_shift by lia. replace (e + - e)%Z with 0%Z by lia. reflexivity. }
        rewrite One in L. apply dyadic_lt in L. lia. }
      rewrite (proj2 (Z.leb_gt 0 e) E), Z.div_small by lia. reflexivity.
    - exfalso. assert (Zr : (0 == dyadic 0 e)%Q) by (unfold dyadic; ring). rewrite Zr in U. apply dyadic_lt in U. lia. }
  rewrite T. cbn [bind]. replace ((0 <? 0) || (rows C <=? 0))%Z with false by (symmetry; apply orb_false_iff; rewrite Z.leb_gt; split; [reflexivity|assumption]).
  replace ((column C m <? 0) || (cols C <=? column C m))%Z with false by (symmetry; apply orb_false_iff; rewrite Z.leb_gt, Z.ltb_ge; lia).
  reflexivity.
Qed.
Print Assumptions C90_below_bottom_kept.
Definition half : fl := S754_finite true 8388608 (-24).
Example C90_case : place small (mkPoint (fz 100) (fz 4) half z0 z0) = Ok (Some (0, 4)%Z).
Proof. vm_compute. reflexivity. Qed.
(** So the points in the image are not all above the lowest angle. *)
Theorem C90_bottom_refuted : ~ (forall C p q, quiet C -> floats C [p] -> place C p = Ok (Some q) ->
  SFleb (bottom C) (widen (atan2 C (pz (moved C p)) (flat_dist (moved C p)))) = true).
Proof.
  intros H. specialize (H small (mkPoint (fz 100) (fz 4) half z0 z0) (0, 4)%Z small_quiet).
  assert (F : floats small [mkPoint (fz 100) (fz 4) half z0 z0]) by (split; [repeat split|]; intros p [<-|[]]; vm_compute; auto).
  specialize (H F C90_case). vm_compute in H. discriminate.
Qed.
Print Assumptions C90_bottom_refuted.
