(** C119: the M2DP signature.  C120: the score of two descriptors. *)
From Coq Require Import Reals ZArith List Bool Lia Lra.
From Verif Require Import Outcome RigidModel RigidSpec RigidProofs M2dpModel M2dpSpec M2dpProofs.
Import ListNotations.
Local Open Scope outcome_scope.
Local Open Scope R_scope.

(** ** C119 *)
(** A frame with points always gets a descriptor, made from a matrix of 64 rows with 512 entries.  Every
    row counts every projected point within 100 m of the mean once: entry 16 i + j those in ring i and sector j. *)
Theorem C119_descriptor : forall pca svd cloud d, cloud <> [] ->
  exists a, calculate_descriptor pca svd cloud d = Ok (svd a) /\ length a = 64%nat /\
    let near := filter (fun p => if Rle_dec (sqrt (dot p p)) 100 then true else false) (pca cloud) in
    forall v row, In (v, row) (combine (views defaults) a) ->
      length row = 512%nat /\ list_sum row = length near /\
      forall i j, (0 <= i < 32)%Z -> (0 <= j < 16)%Z ->
        nth (Z.to_nat (i * 16 + j)) row 0%nat =
        length (filter (fun p => let m := view_normal (fst v) (snd v) in
                                 in_bin (1 / 10) 32 16 (Rabs (dot p (x_axis m))) (Rabs (dot p (y_axis m))) i j) near).
Proof.
  intros pca svd cloud d N. unfold calculate_descriptor, set_input_cloud.
  destruct cloud as [|c0 cloud]; [contradiction|]. set (cl := c0 :: cloud). unfold pre_process, defaults. cbn [par_r par_max par_t kept fresh app].
  destruct (Rlt_dec (1 / 10) (1 / 1000000)) as [H|_]; [lra|].
  destruct (Rlt_dec (100 / (1 / 10)) 0) as [H|_]; [lra|]. cbn [bind l_ kept descriptor].
  assert (C : ceil (sqrt (100 / (1 / 10))) = 32%Z).
  { unfold ceil. assert (F : floor (- sqrt (100 / (1 / 10))) = (-32)%Z).
    { apply floor_iff. replace (100 / (1 / 10)) with 1000 by field.
      assert (S1 : sqrt 1000 <= 32) by (replace 32 with (sqrt (32 * 32)) by (apply sqrt_square; lra); apply sqrt_le_1_alt; lra).
      assert (S2 : 31 < sqrt 1000) by (replace 31 with (sqrt (31 * 31)) by (apply sqrt_square; lra); apply sqrt_lt_1_alt; lra).
      lra. }
    unfold floor in F. rewrite F. reflexivity. }
  rewrite C. set (near := filter (fun p => if Rle_dec (get_length p) 100 then true else false) (pca cl)).
  destruct (rows_spec defaults 32 near (views defaults)) as (a & E & F); [cbn; lia|cbn; lra|lia|].
  change (mkPar (1 / 10) 100 16 4 16) with defaults. rewrite E. cbn [bind fst snd]. exists a. split; [reflexivity|].
  split; [transitivity (length (views defaults)); [|reflexivity]; clear - F; induction F; cbn; [reflexivity|f_equal; assumption]|].
  intros v row I.
  assert (S : single_view defaults 32 near (fst v) (snd v) = Ok row).
  { revert I. clear - F. induction F as [|x y l1 l2 H F IH]; [intros []|]. intros [E|I]; [injection E as <- <-; exact H|apply IH; exact I]. }
  destruct (single_view_spec defaults 32 near (fst v) (snd v)) as (row' & S' & L & Su & B); [cbn; lia|cbn; lra|lia|].
  rewrite S in S'. injection S' as <-. split; [exact L|]. split; [exact Su|exact B].
Qed.

(** Only a quarter of the sectors is ever used: the distances from the axes have no sign. *)
Theorem C119_three_quarters_empty : forall par l cloud th ph, (1 <= par_t par)%Z -> 0 < par_r par -> (1 <= l)%Z ->
  exists row, single_view par l cloud th ph = Ok row /\
    forall i j, (0 <= i < l)%Z -> (0 <= j < par_t par)%Z -> (par_t par < 4 * j)%Z -> nth (Z.to_nat (i * par_t par + j)) row 0%nat = 0%nat.
Proof.
  intros par l cloud th ph T R L. destruct (single_view_spec par l cloud th ph T R L) as (row & E & _ & _ & B).
  exists row. split; [exact E|]. intros i j I J Q. rewrite (B i j I J).
  replace (filter _ cloud) with (@nil vec); [reflexivity|]. symmetry.
  clear B E. induction cloud as [|p cloud IH]; [reflexivity|]. cbn [filter]. cbv zeta. rewrite quarter_empty by assumption. exact IH.
Qed.

(** "A place and its mirror image have different descriptors": false for every place. *)
Theorem C119_mirror_image : forall pca svd cloud d cloud', cloud <> [] -> cloud' <> [] ->
  pca cloud' = map negated (pca cloud) ->
  calculate_descriptor pca svd cloud' d = calculate_descriptor pca svd cloud d.
Proof.
  intros pca svd cloud d cloud' N N' M. unfold calculate_descriptor, set_input_cloud.
  destruct cloud as [|c cl]; [contradiction|]. destruct cloud' as [|c' cl']; [contradiction|]. unfold pre_process. cbn [kept fresh app]. rewrite M.
  assert (G : forall p, get_length (negated p) = get_length p) by (intro p; unfold get_length, negated; cbn; f_equal; ring).
  set (ok := fun p => if Rle_dec (get_length p) (par_max defaults) then true else false).
  assert (F : filter ok (map negated (pca (c :: cl))) = map negated (filter ok (pca (c :: cl)))).
  { assert (Ok' : forall p, ok (negated p) = ok p) by (intro p; unfold ok; rewrite G; reflexivity).
    generalize (pca (c :: cl)). induction l as [|p l IH]; [reflexivity|]. cbn [map filter]. rewrite IH, Ok'. destruct (ok p); reflexivity. }
  rewrite F. destruct (Rlt_dec _ _); [reflexivity|]. destruct (Rlt_dec _ _); [reflexivity|]. cbn [bind l_ kept]. rewrite rows_neg.
  destruct (rows defaults _ _ _) as [a| | |]; reflexivity.
Qed.
Theorem C119_sides_refuted : exists th ph p p', p <> p' /\ p' = negated p /\ 0 < dot p p /\
  forall l, (1 <= l)%Z -> single_view defaults l [p] th ph = single_view defaults l [p'] th ph.
Proof.
  exists 0, 0, (mkV 0 1 0), (mkV (- 0) (- (1)) (- 0)). split; [intro E; injection E; lra|]. split; [reflexivity|]. split; [unfold dot; cbn; lra|].
  intros l L. change (mkV (- 0) (- (1)) (- 0)) with (negated (mkV 0 1 0)). unfold single_view. cbv zeta. cbn [map]. f_equal. f_equal.
  unfold index. rewrite project_neg. reflexivity.
Qed.

(** The second axis always lies in the plane of the view, the first one just if the normal does not point
    against x.  So a quarter of the views, those with theta = 3/4 pi, are not orthogonal projections. *)
Theorem C119_plane_of_view : forall th ph, let m := view_normal th ph in
  dot m m = 1 /\ dot (y_axis m) m = 0 /\ (dot (x_axis m) m = 0 <-> 0 <= cos th * cos ph).
Proof.
  intros th ph m. destruct (axes th ph) as (A & B & C). split; [exact A|]. split; [exact B|]. fold m in C. rewrite C. split.
  - intro E. assert (P := Rabs_pos (cos th * cos ph)). lra.
  - intro H. rewrite Rabs_right by lra. ring.
Qed.
Theorem C119_orthogonal_refuted : forall q, (q < 16)%nat ->
  In (INR 3 * (PI / INR 4), INR q * (PI / 2 / INR 16)) (views defaults) /\
  let m := view_normal (INR 3 * (PI / INR 4)) (INR q * (PI / 2 / INR 16)) in dot (x_axis m) m < 0.
Proof.
  intros q Q. split.
  - unfold views. apply in_flat_map. exists 3%nat. split; [apply in_seq; cbn; lia|]. cbn [par_p par_q defaults].
    apply (in_map (fun q => (INR 3 * (PI / INR 4), INR q * (PI / 2 / INR 16)))). apply in_seq. lia.
  - destruct (axes (INR 3 * (PI / INR 4)) (INR q * (PI / 2 / INR 16))) as (_ & _ & C). cbv zeta in *. rewrite C.
    assert (P := PI_RGT_0). assert (I3 : INR 3 = 3) by (cbn; ring). assert (I4 : INR 4 = 4) by (cbn; ring). assert (I16 : INR 16 = 16) by (cbn; ring).
    assert (C1 : cos (INR 3 * (PI / INR 4)) < 0) by (rewrite I3, I4; apply cos_lt_0; lra).
    assert (C2 : 0 < cos (INR q * (PI / 2 / INR 16))).
    { assert (B0 := pos_INR q). assert (B1 : INR q <= 15) by (change 15 with (IZR (Z.of_nat 15)); rewrite <- INR_IZR_INZ; apply le_INR; lia).
      rewrite I16. apply cos_gt_0.
      - apply Rlt_le_trans with 0; [lra|]. apply Rmult_le_pos; lra.
      - apply Rle_lt_trans with (15 * (PI / 2 / 16)); [apply Rmult_le_compat_r; lra|lra]. }
    assert (M : cos (INR 3 * (PI / INR 4)) * cos (INR q * (PI / 2 / INR 16)) < 0) by (rewrite Rmult_comm; rewrite <- (Rmult_0_r (cos (INR q * (PI / 2 / INR 16)))); apply Rmult_lt_compat_l; assumption).
    rewrite Rabs_left by exact M. lra.
Qed.

(** An object that is used again: the points of all clouds count.  An empty cloud changes nothing; too small
    a radius is undefined behaviour for a new object. *)
Theorem C119_reuse : forall pca svd par s c1 c2 s1 s2, set_input_cloud pca svd par s c1 = Ok (s1, true) -> set_input_cloud pca svd par s1 c2 = Ok (s2, true) ->
  kept s2 = kept s ++ filter (fun p => if Rle_dec (get_length p) (par_max par) then true else false) (pca c1 ++ pca c2).
Proof.
  assert (K : forall pca svd par s c s', set_input_cloud pca svd par s c = Ok (s', true) ->
    kept s' = kept s ++ filter (fun p => if Rle_dec (get_length p) (par_max par) then true else false) (pca c)).
  { intros pca svd par s c s' H. unfold set_input_cloud in H. destruct c as [|p c]; [discriminate|]. unfold pre_process in H.
    destruct (Rlt_dec _ _); [|destruct (Rlt_dec _ _); [discriminate|]]; cbn [bind l_ kept] in H.
    - destruct (l_ s) as [l|]; [|discriminate]. destruct (rows _ _ _ _) as [a| | |]; try discriminate. cbn [bind] in H. injection H as <-. reflexivity.
    - destruct (rows _ _ _ _) as [a| | |]; try discriminate. cbn [bind] in H. injection H as <-. reflexivity. }
  intros pca svd par s c1 c2 s1 s2 H1 H2. rewrite (K _ _ _ _ _ _ H2), (K _ _ _ _ _ _ H1), filter_app, app_assoc. reflexivity.
Qed.
Theorem C119_failures : forall pca svd par s c,
  set_input_cloud pca svd par s [] = Ok (s, false) /\
  (c <> [] -> par_r par < 1 / 1000000 -> set_input_cloud pca svd par fresh c = UB).
Proof.
  intros pca svd par s c. split; [reflexivity|]. intros N R. destruct c as [|p c]; [contradiction|]. cbn [set_input_cloud]. unfold pre_process.
  destruct (Rlt_dec _ _); [reflexivity|contradiction].
Qed.

(** A cloud with all points farther than 100 m gets the descriptor of the zero matrix. *)
Example C119_far : forall svd d, exists a, calculate_descriptor (fun c => c) svd [mkV 200 0 0] d = Ok (svd a) /\
  forall v row, In (v, row) (combine (views defaults) a) -> list_sum row = 0%nat.
Proof.
  intros svd d. destruct (C119_descriptor (fun c => c) svd [mkV 200 0 0] d) as (a & E & _ & B); [discriminate|].
  exists a. split; [exact E|]. intros v row I. destruct (B v row I) as (_ & S & _). rewrite S. cbn [filter].
  replace (dot (mkV 200 0 0) (mkV 200 0 0)) with (200 * 200) by (unfold dot; cbn; ring). rewrite sqrt_square by lra.
  destruct (Rle_dec 200 100); [lra|reflexivity].
Qed.

(** ** C120 *)
(** The score is -1 for descriptors that cannot be compared, otherwise between 0 and 1; it does not depend on
    the order. *)
Theorem C120_range : forall P Q s, match_score P Q = Some s ->
  if (Nat.eqb (length P) (length Q) && Nat.leb 10 (length P))%bool then 0 <= s <= 1 else s = -1.
Proof.
  intros P Q s H. destruct (Nat.eqb_spec (length P) (length Q)) as [L|L]; cbn [andb].
  - destruct (Nat.leb_spec 10 (length P)) as [N|N].
    + assert (D : ~ constant P /\ ~ constant Q).
      { rewrite score_unfold in H by assumption. destruct (Req_EM_T _ 0) as [E|E]; [discriminate|]. rewrite var_product in E. tauto. }
      destruct (score_value P Q L N (proj1 D) (proj2 D)) as (A & B & S & V). rewrite V in H. injection H as <-.
      destruct (corr P Q L A) as (C & _). split.
      * apply Rmult_le_pos; [apply Rabs_pos|]. left. apply Rinv_0_lt_compat. exact S.
      * apply Rmult_le_reg_r with (sqrt (var P * var Q)); [exact S|]. replace (Rabs (cov P Q) / sqrt (var P * var Q) * sqrt (var P * var Q)) with (Rabs (cov P Q)) by (field; lra).
        rewrite Rmult_1_l. apply Rabs_sq; [lra|]. rewrite sqrt_sqrt; [exact C|]. apply Rmult_le_pos; lra.
    + unfold match_score in H. destruct (Nat.ltb_spec (length P) 10); [|lia]. rewrite orb_true_r in H. injection H as <-. reflexivity.
  - unfold match_score in H. destruct (Nat.eqb_spec (length P) (length Q)); [contradiction|]. cbn [negb orb] in H. injection H as <-. reflexivity.
Qed.
Theorem C120_symmetric : forall P Q, match_score P Q = match_score Q P.
Proof.
  intros P Q. destruct (Nat.eq_dec (length P) (length Q)) as [L|L].
  - destruct (le_lt_dec 10 (length P)) as [N|N].
    + rewrite !score_unfold by lia. rewrite (Rmult_comm (var Q)), (cov_comm Q P) by auto. reflexivity.
    + unfold match_score. rewrite L. destruct (Nat.ltb_spec (length Q) 10); [|lia]. rewrite !orb_true_r. reflexivity.
  - unfold match_score. destruct (Nat.eqb_spec (length P) (length Q)); [contradiction|]. destruct (Nat.eqb_spec (length Q) (length P)); [lia|]. reflexivity.
Qed.
(** It is not a number just for descriptors one of which is constant. *)
Theorem C120_not_a_number : forall P Q,
  match_score P Q = None <-> length P = length Q /\ (10 <= length P)%nat /\ (constant P \/ constant Q).
Proof.
  intros P Q. destruct (Nat.eq_dec (length P) (length Q)) as [L|L].
  - destruct (le_lt_dec 10 (length P)) as [N|N].
    + rewrite score_unfold by assumption. rewrite <- var_product. destruct (Req_EM_T _ 0) as [E|E]; split; try tauto; try discriminate.
    + unfold match_score. destruct (Nat.ltb_spec (length P) 10); [|lia]. rewrite orb_true_r. split; [discriminate|lia].
  - unfold match_score. destruct (Nat.eqb_spec (length P) (length Q)); [contradiction|]. cbn [negb orb]. split; [discriminate|tauto].
Qed.
(** It is 1 just for descriptors that lie on a line, rising or falling. *)
Theorem C120_one : forall P Q, length P = length Q -> (10 <= length P)%nat -> ~ constant P -> ~ constant Q ->
  (match_score P Q = Some 1 <-> on_a_line P Q).
Proof.
  intros P Q L N CP CQ. destruct (score_value P Q L N CP CQ) as (A & B & S & V). rewrite V.
  destruct (corr P Q L A) as (C & Ln). split.
  - intro E. injection E as E.
    assert (E1 : Rabs (cov P Q) = sqrt (var P * var Q)).
    { apply Rmult_eq_reg_r with (/ sqrt (var P * var Q)); [|apply Rinv_neq_0_compat; lra]. unfold Rdiv in E. rewrite E. field. lra. }
    assert (E2 : cov P Q * cov P Q = var P * var Q).
    { rewrite <- (sqrt_sqrt (var P * var Q)) by (apply Rmult_le_pos; lra). rewrite <- E1. change (cov P Q * cov P Q) with (Rsqr (cov P Q)). rewrite Rsqr_abs. reflexivity. }
    destruct (Ln E2) as (b & Q1). exists (cov P Q / var P), b. split; [|exact Q1].
    assert (Z : cov P Q <> 0) by (intro Z; rewrite Z, Rabs_R0 in E1; lra). unfold Rdiv. apply Rmult_integral_contrapositive. split; [exact Z|]. apply Rinv_neq_0_compat. lra.
  - intros (a & b & Na & ->). f_equal. rewrite cov_comm by (rewrite map_length; reflexivity). rewrite cov_map by reflexivity. rewrite var_map.
    replace (var P * (a * a * var P)) with ((a * var P) * (a * var P)) by ring. change (cov P P) with (var P).
    change ((a * var P) * (a * var P)) with (Rsqr (a * var P)). rewrite sqrt_Rsqr_abs. field.
    apply Rabs_no_R0. apply Rmult_integral_contrapositive. split; [exact Na|lra].
Qed.
(** The sign that the decomposition leaves open has no effect. *)
Theorem C120_sign : forall P Q, match_score (map (fun x => - x) P) Q = match_score P Q.
Proof.
  intros P Q. replace (map (fun x => - x) P) with (map (fun x => -1 * x + 0) P) by (apply map_ext; intro; ring).
  destruct (Nat.eq_dec (length P) (length Q)) as [L|L].
  - destruct (le_lt_dec 10 (length P)) as [N|N].
    + rewrite !score_unfold by (rewrite ?map_length; assumption). rewrite var_map, cov_map by exact L.
      replace (-1 * -1 * var P * var Q) with (var P * var Q) by ring. replace (-1 * cov P Q / sqrt (var P * var Q)) with (- (cov P Q / sqrt (var P * var Q))) by (unfold Rdiv; ring).
      rewrite Rabs_Ropp. reflexivity.
    + unfold match_score. rewrite map_length. destruct (Nat.ltb_spec (length P) 10); [|lia]. rewrite !orb_true_r. reflexivity.
  - unfold match_score. rewrite map_length. destruct (Nat.eqb_spec (length P) (length Q)); [contradiction|]. reflexivity.
Qed.
(** In the loop detector: submaps with the same descriptor are alike for a limit below 1, nothing is for a
    limit of 1 or more, and a submap without descriptor is like no other for a limit of -1 or more. *)
Theorem C120_loop_test : forall limit P Q,
  ((10 <= length P)%nat -> ~ constant P -> limit < 1 -> alike limit P P = true) /\
  (1 <= limit -> alike limit P Q = false) /\
  (-1 <= limit -> alike limit [] Q = false /\ alike limit Q [] = false).
Proof.
  intros limit P Q. split; [|split].
  - intros N C H. unfold alike. replace (match_score P P) with (Some 1); [destruct (Rlt_dec limit 1); [reflexivity|lra]|].
    symmetry. apply C120_one; try assumption; try reflexivity. exists 1, 0. split; [lra|]. rewrite <- (map_id P) at 1. apply map_ext. intro; ring.
  - intro H. unfold alike. destruct (match_score P Q) as [s|] eqn:E; [|reflexivity]. apply C120_range in E.
    destruct (Rlt_dec limit s) as [F|F]; [|reflexivity]. exfalso. destruct (_ && _)%bool; lra.
  - intro H. assert (E : match_score [] Q = Some (-1)) by (unfold match_score; cbn [length Nat.ltb Nat.leb]; rewrite orb_true_r; reflexivity).
    unfold alike. rewrite (C120_symmetric Q []), E. destruct (Rlt_dec limit (-1)); [lra|]. split; reflexivity.
Qed.
(** Ten numbers and their negatives. *)
Example C120_demo : let P := map INR (seq 0 10) in match_score P P = Some 1 /\ match_score P (map (fun x => - x) P) = Some 1.
Proof.
  cbv zeta. set (P := map INR (seq 0 10)).
  assert (C : ~ constant P).
  { intros (c & H). assert (A := H (INR 0) ltac:(left; reflexivity)). assert (B := H (INR 1) ltac:(right; left; reflexivity)). cbn in A, B. lra. }
  assert (E : match_score P P = Some 1).
  { apply C120_one; try assumption; try reflexivity. exists 1, 0. split; [lra|]. rewrite <- (map_id P) at 1. apply map_ext. intro; ring. }
  split; [exact E|]. rewrite C120_symmetric, C120_sign. exact E.
Qed.

Print Assumptions C119_descriptor.
Print Assumptions C119_three_quarters_empty.
Print Assumptions C119_mirror_image.
Print Assumptions C119_sides_refuted.
Print Assumptions C119_plane_of_view.
Print Assumptions C119_orthogonal_refuted.
Print Assumptions C119_reuse.
Print Assumptions C119_failures.
Print Assumptions C120_range.
Print Assumptions C120_symmetric.
Print Assumptions C120_not_a_number.
Print Assumptions C120_one.
Print Assumptions C120_sign.
Print Assumptions C120_loop_test.
(** A frame without points keeps the descriptor it has. *)
Theorem C119_empty_kept : forall pca svd d, calculate_descriptor pca svd [] d = Ok d.
Proof. reflexivity. Qed.
Print Assumptions C119_empty_kept.
