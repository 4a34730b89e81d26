(** Properties C25, C26, C71: normal estimation. *)
From Coq Require Import List Bool ZArith QArith Arith Lia Lqa Permutation Sorted.
From Verif Require Import Outcome NormalsModel NormalsSpec NormalsProofs.
Import ListNotations.
Local Open Scope nat_scope.

(** Normal estimation of any non-empty fresh cloud succeeds.  It partitions the point
    numbers into groups of at most seven (at least four when there are eight or more
    points) that are pairwise separated by axis-parallel planes; every group whose points
    are not degenerate contributes one output point, the mean of the original points of the
    group, and one normal, computed from the same points; the output is ordered by the first
    index of the groups.  The factors keep their old length. *)
Theorem C25_groups : forall degenerate normal_of nth_element, nth_element_ok nth_element ->
  forall pts c, from_points pts = Ok c ->
  exists c' gs ks,
    calculate_normals degenerate normal_of nth_element c = Ok c' /\
    Permutation (concat gs) (seq 0 (length pts)) /\
    Forall (fun g => 1 <= length g <= 7) gs /\
    (8 <= length pts -> Forall (fun g => 4 <= length g) gs) /\
    ForallOrdPairs (separated pts) gs /\
    Permutation ks (filter (fun g => negb (degenerate (select pts g))) gs) /\
    StronglySorted lt (heads ks) /\
    points c' = map (fun g => mean (select pts g)) ks /\
    normals c' = map (fun g => normal_of (select pts g)) ks /\
    length (factors c') = length pts.
Proof.
  intros dg nf ne Hne pts c Hc. destruct (fresh pts c Hc) as (F1 & F2 & F3 & F4 & F5).
  destruct (normals_spec dg nf ne Hne pts F5 c F1 F2 F3) as
    (c' & gs & ks & E & P & S1 & S8 & S7 & Sep & Pk & Sk & Ep & En & Ef & _).
  exists c', gs, ks. repeat (split; [assumption|]). rewrite Ef. exact F4.
Qed.
Print Assumptions C25_groups.

(** Points and normals correspond; with eight or more points at most a quarter remains. *)
Theorem C25_counts : forall degenerate normal_of nth_element, nth_element_ok nth_element ->
  forall pts c c', from_points pts = Ok c ->
  calculate_normals degenerate normal_of nth_element c = Ok c' ->
  length (normals c') = length (points c') /\
  (8 <= length pts -> 4 * length (points c') <= length pts) /\
  (length pts <= 7 -> length (points c') <= 1).
Proof.
  intros dg nf ne Hne pts c c' Hc Hn. destruct (fresh pts c Hc) as (F1 & F2 & F3 & F4 & F5).
  destruct (normals_spec dg nf ne Hne pts F5 c F1 F2 F3) as
    (c'' & gs & ks & E & P & S1 & S8 & S7 & Sep & Pk & Sk & Ep & En & Ef & _).
  rewrite E in Hn. injection Hn as <-. rewrite Ep, En, !map_length.
  assert (length ks <= length gs) as Hk.
  { rewrite (Permutation_length Pk). unfold kept. clear. induction gs as [|g gs IH]; cbn; [lia|].
    destruct (negb _); cbn; lia. }
  split; [reflexivity|]. split.
  - intros H8. specialize (S8 H8). apply Permutation_length in P. rewrite seq_length in P.
    assert (4 * length gs <= length (concat gs)) as H4.
    { clear -S8. induction S8 as [|g gs Hg _ IH]; cbn; [lia|]. rewrite app_length. lia. }
    rewrite P in H4. lia.
  - intros H7. specialize (S7 H7). lia.
Qed.
Print Assumptions C25_counts.

(** A group is cut across the longest side of its box: ArgMax of positive extents. *)
Theorem C25_longest_side : forall v i, (0 < coord i v)%Q -> i <= 2 ->
  arg_max v <= 2 /\ (coord i v <= coord (arg_max v) v)%Q /\
  (forall j, j < arg_max v -> (coord j v < coord (arg_max v) v)%Q).
Proof.
  intros [a b c] i Hi Li. unfold arg_max. cbn [fold_left fst snd coord x_ y_ z_].
  unfold qlt.
  destruct (Qle_bool a 0) eqn:E1; cbn [negb fst snd].
  - destruct (Qle_bool b 0) eqn:E2; cbn [negb fst snd].
    + destruct (Qle_bool c 0) eqn:E3; cbn [negb fst snd];
        rewrite ?Qle_bool_iff in *;
        destruct i as [|[|[|i]]]; cbn [coord x_ y_ z_] in *; try lia; try (exfalso; lra);
        (split; [lia|split; [lra|]]); intros j Hj; destruct j as [|[|j]]; cbn [coord x_ y_ z_]; try lia;
        apply Qnot_le_lt; intros H; rewrite <- Qle_bool_iff in H; try lra;
        rewrite Qle_bool_iff in H; lra.
    + destruct (Qle_bool c b) eqn:E3; cbn [negb fst snd];
        assert (0 < b)%Q by (apply Qnot_le_lt; intros H; rewrite <- Qle_bool_iff in H; congruence);
        (try (assert (b < c)%Q by (apply Qnot_le_lt; intros H'; rewrite <- Qle_bool_iff in H'; congruence)));
        rewrite ?Qle_bool_iff in *;
        destruct i as [|[|[|i]]]; cbn [coord x_ y_ z_] in *; try lia;
        (split; [lia|split; [lra|]]); intros j Hj; destruct j as [|[|j]]; cbn [coord x_ y_ z_]; try lia; lra.
  - assert (0 < a)%Q by (apply Qnot_le_lt; intros H; rewrite <- Qle_bool_iff in H; congruence).
    destruct (Qle_bool b a) eqn:E2; cbn [negb fst snd].
    + destruct (Qle_bool c a) eqn:E3; cbn [negb fst snd];
        (try (assert (a < c)%Q by (apply Qnot_le_lt; intros H'; rewrite <- Qle_bool_iff in H'; congruence)));
        rewrite ?Qle_bool_iff in *;
        destruct i as [|[|[|i]]]; cbn [coord x_ y_ z_] in *; try lia;
        (split; [lia|split; [lra|]]); intros j Hj; destruct j as [|[|j]]; cbn [coord x_ y_ z_]; try lia; lra.
    + assert (a < b)%Q by (apply Qnot_le_lt; intros H'; rewrite <- Qle_bool_iff in H'; congruence).
      destruct (Qle_bool c b) eqn:E3; cbn [negb fst snd];
        (try (assert (b < c)%Q by (apply Qnot_le_lt; intros H'; rewrite <- Qle_bool_iff in H'; congruence)));
        rewrite ?Qle_bool_iff in *;
        destruct i as [|[|[|i]]]; cbn [coord x_ y_ z_] in *; try lia;
        (split; [lia|split; [lra|]]); intros j Hj; destruct j as [|[|j]]; cbn [coord x_ y_ z_]; try lia; lra.
Qed.
Print Assumptions C25_longest_side.
Example C25_longest_ex : arg_max (mkVec 1 5 5) = 1.
Proof. reflexivity. Qed.

(** An empty cloud cannot be built, and estimating its normals would be undefined. *)
Theorem C25_empty : forall degenerate normal_of nth_element c, points c = [] ->
  from_points [] = Abort /\ calculate_normals degenerate normal_of nth_element c = UB.
Proof. intros dg nf ne c H. unfold calculate_normals. rewrite H. split; reflexivity. Qed.
Print Assumptions C25_empty.

(** Transforming a cloud: the points go to R p + t, but the normals too go to R n + t. *)
Theorem C26_transform : forall T c c', apply_transform T c = Ok c' ->
  length (points c') = length (points c) /\ length (normals c') = length (normals c) /\
  (forall i p, nth_error (points c) i = Some p ->
     nth_error (points c') i = Some (vadd (linear T p) (tr T))) /\
  (forall i n, nth_error (normals c) i = Some n ->
     exists n', nth_error (normals c') i = Some n' /\
       (veq n' (linear T n) <-> veq (tr T) vzero) /\
       (isometry T -> unit n -> (unit n' <-> dot (tr T) (tr T) + 2 * dot (linear T n) (tr T) == 0)%Q)).
Proof.
  intros T c c' H. unfold apply_transform in H.
  destruct (check (0 <? length (points c))) eqn:E0; cbn [bind] in H; try discriminate.
  assert (exists nn, c' = mkE (map (homogeneous T) (points c)) nn (indices c) (keep c) (factors c) /\
            nn = map (homogeneous T) (normals c)) as (nn & -> & ->).
  { destruct (Nat.ltb_spec 0 (length (normals c))) as [Hn|Hn].
    - destruct (Nat.eqb (length (normals c)) (length (points c))); cbn in H; [|discriminate].
      inversion H; subst. eauto.
    - inversion H; subst. destruct (normals c); [eexists; split; reflexivity|cbn in Hn; lia]. }
  cbn. rewrite !map_length. split; [reflexivity|]. split; [reflexivity|]. split.
  - intros i p Hp. rewrite nth_error_map, Hp. reflexivity.
  - intros i n Hn. rewrite nth_error_map, Hn. eexists. split; [reflexivity|].
    unfold homogeneous, veq, unit, vadd, vzero. cbn [x_ y_ z_]. split.
    + split.
      * intros (H1 & H2 & H3).
        assert (forall a b : Q, a + b == a -> b == 0)%Q as Hc.
        { intros u v Hab. setoid_replace v with ((u + v) - u)%Q by ring. rewrite Hab. ring. }
        repeat split; eapply Hc; eassumption.
      * intros (H1 & H2 & H3). rewrite H1, H2, H3. repeat split; ring.
    + intros Hi Hu. specialize (Hi n n). rewrite Hu in Hi.
      set (m := linear T n) in *. unfold dot in *. cbn [x_ y_ z_].
      set (t := tr T).
      setoid_replace ((x_ m + x_ t) * (x_ m + x_ t) + (y_ m + y_ t) * (y_ m + y_ t) + (z_ m + z_ t) * (z_ m + z_ t))%Q
        with ((x_ m * x_ m + y_ m * y_ m + z_ m * z_ m) +
              (x_ t * x_ t + y_ t * y_ t + z_ t * z_ t + 2 * (x_ m * x_ t + y_ m * y_ t + z_ m * z_ t)))%Q by ring.
      rewrite Hi. set (w := (x_ t * x_ t + y_ t * y_ t + z_ t * z_ t + 2 * (x_ m * x_ t + y_ m * y_ t + z_ m * z_ t))%Q).
      split; intros Hw.
      * setoid_replace w with ((1 + w) - 1)%Q by ring. rewrite Hw. ring.
      * rewrite Hw. ring.
Qed.
Print Assumptions C26_transform.

(** When it aborts. *)
Theorem C26_transform_aborts : forall T c,
  apply_transform T c = Abort <->
  points c = [] \/ (normals c <> [] /\ length (normals c) <> length (points c)).
Proof.
  intros T c. unfold apply_transform.
  destruct (points c) as [|p ps] eqn:Ep; [cbn; split; auto|].
  cbn [length Nat.ltb Nat.leb check bind].
  destruct (normals c) as [|n ns] eqn:En; cbn [length Nat.ltb Nat.leb].
  - cbn. split; [discriminate|]. intros [H|[H _]]; [discriminate|congruence].
  - destruct (Nat.eqb_spec (S (length ns)) (S (length ps))); cbn.
    + split; [discriminate|]. intros [H|[_ H]]; [discriminate|congruence].
    + split; [|reflexivity]. intros _. right. split; [discriminate|exact n0].
Qed.
Print Assumptions C26_transform_aborts.

Definition shift_x (d : Q) : affine := mkAffine (mkVec 1 0 0) (mkVec 0 1 0) (mkVec 0 0 1) (mkVec d 0 0).
Theorem C26_normals_stay_unit_refuted : exists T c c' n',
  isometry T /\ Forall unit (normals c) /\ apply_transform T c = Ok c' /\ In n' (normals c') /\ ~ unit n'.
Proof.
  exists (shift_x 3), (mkE [mkVec 1 1 1] [mkVec 0 0 1] [0] [] [0%Q]).
  eexists; exists (vadd (linear (shift_x 3) (mkVec 0 0 1)) (mkVec 3 0 0)).
  split; [intros u v; unfold dot, linear; cbn; unfold dot; cbn; ring|].
  split; [repeat constructor|]. split; [reflexivity|].
  split; [left; reflexivity|]. unfold unit. cbv. discriminate.
Qed.
Print Assumptions C26_normals_stay_unit_refuted.

(** After normal estimation of two or more points the factors do not match the points any
    more, and motion compensation aborts. *)
Theorem C71_compensation_after_normals_aborts : forall degenerate normal_of nth_element,
  nth_element_ok nth_element -> forall pts c c', 2 <= length pts -> from_points pts = Ok c ->
  calculate_normals degenerate normal_of nth_element c = Ok c' ->
  motion_compensation c' = Abort.
Proof.
  intros dg nf ne Hne pts c c' H2 Hc Hn.
  destruct (C25_counts dg nf ne Hne pts c c' Hc Hn) as (_ & H8 & H7).
  destruct (C25_groups dg nf ne Hne pts c Hc) as (c'' & gs & ks & E & _ & _ & _ & _ & _ & _ & _ & _ & Hf).
  rewrite E in Hn. injection Hn as <-. unfold motion_compensation. rewrite Hf.
  destruct (Nat.eqb_spec (length (points c'')) (length pts)); [|reflexivity].
  exfalso. destruct (Nat.le_gt_cases 8 (length pts)); [specialize (H8 ltac:(lia)); lia|specialize (H7 ltac:(lia)); lia].
Qed.
Print Assumptions C71_compensation_after_normals_aborts.

(** On the fresh cloud itself it is undefined.  The factors it would use are i / n. *)
Theorem C71_compensation_undefined : forall pts c, from_points pts = Ok c ->
  motion_compensation c = UB /\ length (factors c) = length pts /\
  forall i f, nth_error (factors c) i = Some f ->
    (f * inject_Z (Z.of_nat (length pts)) == inject_Z (Z.of_nat i))%Q.
Proof.
  intros pts c H. unfold from_points in H. destruct pts as [|p ps]; [discriminate|].
  cbn [length Nat.eqb negb check bind] in H.
  assert (c = mkE (p :: ps) [] (seq 0 (S (length ps))) []
    (map (fun i => inject_Z (Z.of_nat i) / inject_Z (Z.of_nat (S (length ps)))) (seq 0 (S (length ps))))%Q) as -> by congruence.
  cbn [factors].
  split; [|split].
  - unfold motion_compensation. cbn [points factors]. rewrite map_length, seq_length.
    cbn [length]. rewrite Nat.eqb_refl. reflexivity.
  - rewrite map_length, seq_length. reflexivity.
  - intros i f Hf. rewrite nth_error_map in Hf. cbn [length] in *.
    destruct (nth_error (seq 0 (S (length ps))) i) eqn:E; [|discriminate].
    assert (n = i) as ->.
    { pose proof (nth_error_nth _ _ 0 E) as N. rewrite seq_nth in N; [lia|].
      assert (i < length (seq 0 (S (length ps)))) by (apply nth_error_Some; congruence).
      rewrite seq_length in *. assumption. }
    cbn [option_map] in Hf. assert (f = (inject_Z (Z.of_nat i) / inject_Z (Z.of_nat (S (length ps))))%Q) as -> by congruence.
    field. unfold Qeq. cbn. lia.
Qed.
Print Assumptions C71_compensation_undefined.

(** Estimating normals twice reads outside the point matrix: the index array keeps the
    permutation of the first estimation. *)
Theorem C71_second_estimation_refuted : exists pts c c',
  from_points pts = Ok c /\
  calculate_normals collinear (fun _ => mkVec 0 0 1) isort c = Ok c' /\
  nth_element_ok isort /\
  calculate_normals collinear (fun _ => mkVec 0 0 1) isort c' = UB.
Proof.
  destruct (from_points pts8) as [c| | |] eqn:Ec; try discriminate.
  destruct (calculate_normals collinear (fun _ => mkVec 0 0 1) isort c) as [c'| | |] eqn:En;
    try (vm_compute in Ec; injection Ec as <-; vm_compute in En; discriminate).
  exists pts8, c, c'. split; [exact Ec|]. split; [exact En|]. split; [exact isort_ok|].
  vm_compute in Ec; injection Ec as <-. vm_compute in En. injection En as <-. vm_compute. reflexivity.
Qed.
Print Assumptions C71_second_estimation_refuted.

(** The cloud above: two groups of four points, two output points. *)
Example normals_ex :
  bind (from_points pts8) (fun c => bind (calculate_normals collinear (fun _ => mkVec 0 0 1) isort c)
    (fun c' => Ok (keep c', length (points c'), indices c', length (factors c')))) =
  Ok ([0; 4], 2, [4; 5; 6; 7; 0; 1; 2; 3], 8).
Proof. vm_compute. reflexivity. Qed.
Example transform_ex : isometry (shift_x 3) /\
  bind (from_points pts8) (fun c => bind (calculate_normals collinear (fun _ => mkVec 0 0 1) isort c)
    (fun c' => bind (apply_transform (shift_x 3) c') (fun c2 => Ok (map (fun v => Qred (x_ v)) (normals c2))))) =
  Ok [3%Q; 3%Q].
Proof. split; [intros u v; unfold dot, linear; cbn; unfold dot; cbn; ring|vm_compute; reflexivity]. Qed.
