(** C132: the grid of normal distributions of the NDT registration. *)
From Coq Require Import ZArith QArith Qpower Qround List Bool Reals SpecFloat Lia Lqa Lra.
From Verif Require Import Outcome TimeModel RigidModel RigidSpec RigidProofs FilterModel FilterSpec FloatOrder FloatRound FloatOps FloatMono VoxelCovModel VoxelCovSpec VoxelCovProofs.
Import ListNotations.
Local Open Scope Z_scope.

Section C132.
  Variable F : Type.
  Variable le : F -> F -> bool.
  Variable finite : F -> bool.
  Variables cell_mul cell_div : F -> Z.
  Variable span : F -> F -> Z.
  Variables St P : Type.
  Variable st0 : St.
  Variable add : St -> pt F -> St.
  Variable few : Z -> St -> St.
  Variable enough : Z -> St -> Z * St.
  Variable center : Z -> St -> P.
  Variable min_points : Z.
  Variable near : list P -> pt F -> list nat.
  Notation build := (filter_grid le finite cell_mul span st0 add few enough center min_points).
  Notation leaf_of := (leaf_of cell_mul st0 add enough).
  Notation found := (found cell_mul st0 add enough min_points).
  Notation count := (count cell_mul).
  Notation sums := (sums cell_mul st0 add).

  (** Whatever the grid held before: the search by relative cells finds in each cell asked for exactly the leaf made
      of the usable points of the new cloud in this cell (if enough), and nothing from other cells. *)
  Theorem C132_cells : forall g searchable dense pts g' rel p r,
    ordered le finite cell_mul -> 1 <= min_points ->
    build g searchable (Some (dense, pts)) = Ok g' -> fits le finite span pts ->
    neighborhood cell_div min_points g' rel p = Ok r ->
    r = flat_map (fun d => found (shift (cell_of cell_div p) d) (usable finite pts)) rel.
  Proof.
    intros g s dense pts g' rel p r Ord M H Fi N.
    destruct (filter_built _ _ _ _ _ _ _ _ _ _ _ _ _ Ord _ _ _ _ _ H Fi) as (n & mx & m & B & _).
    unfold neighborhood in N.
    do 3 (let a := fresh "a" in let Ea := fresh "Ea" in apply bind_ok in N; destruct N as (a & Ea & N); apply i32_ok in Ea; destruct Ea as [-> _]).
    eapply neighbors_found in N; [exact N|exact B|assumption].
  Qed.

  (** The output has one point for each cell with enough points, and the search by radius gives, for the points that
      the tree finds, the leaves of their cells. *)
  Theorem C132_radius : forall g dense pts g',
    ordered le finite cell_mul -> 1 <= min_points ->
    build g true (Some (dense, pts)) = Ok g' -> fits le finite span pts ->
    exists cells, NoDup cells /\ (forall c, In c cells <-> min_points <= count c (usable finite pts)) /\
      g_centroids g' = map (fun c => center (count c (usable finite pts)) (sums c (usable finite pts))) cells /\
      forall p, cells <> [] -> (forall i, In i (near (g_centroids g') p) -> (i < length cells)%nat) ->
        radius_search near g' p = Ok (map (fun i => leaf_of (nth i cells (0, 0, 0)) (usable finite pts)) (near (g_centroids g') p)).
  Proof.
    intros g dense pts g' Ord M H Fi.
    destruct (filter_built _ _ _ _ _ _ _ _ _ _ _ _ _ Ord _ _ _ _ _ H Fi) as (n & mx & m & B & _ & Gs & Gi & Gt).
    edestruct full_cells as (cs & C & N & I); [exact B|exact M|].
    exists cs. split; [assumption|]. split; [assumption|].
    assert (Gc : g_centroids g' = map (fun c => center (count c (usable finite pts)) (sums c (usable finite pts))) cs).
    { destruct B as (_ & _ & _ & _ & _ & _ & ->). eapply centroids_cells. exact C. }
    split; [exact Gc|]. intros p Ne Nr. unfold radius_search. rewrite Gs, Gt.
    assert (E : negb match g_centroids g' with [] => true | _ => false end = true).
    { rewrite Gc. destruct cs; [congruence|reflexivity]. }
    rewrite E. cbn [andb]. eapply leaves_found; try eassumption. intros c Ic. apply I. exact Ic.
  Qed.

  (** Nothing overflows if the cells of the cloud lie in a box of less than 2^31 cells near the origin; this is so
      in exact arithmetic, in which the extents are off by at most one cell. *)
  Theorem C132_runs : forall g searchable dense pts lo hi,
    ordered le finite cell_mul -> 1 <= min_points ->
    (forall a b, finite a = true -> finite b = true -> cell_mul a - cell_mul b - 1 <= span a b <= cell_mul a - cell_mul b) ->
    (dense = true -> usable finite pts = pts) -> usable finite pts <> [] ->
    (forall q, In q (usable finite pts) -> in_box lo hi (cell_of cell_mul q)) -> inside (2 ^ 30) lo hi ->
    (fst (fst hi) - fst (fst lo) + 1) * (snd (fst hi) - snd (fst lo) + 1) * (snd hi - snd lo + 1) <= 2 ^ 31 - 1 ->
    exists g', build g searchable (Some (dense, pts)) = Ok g' /\ fits le finite span pts /\
      forall rel p, inside (2 ^ 30) (cell_of cell_div p) (cell_of cell_div p) ->
        exists r, neighborhood cell_div min_points g' rel p = Ok r.
  Proof.
    intros g s dense pts lo hi Ord M Sp D Ne B Is V.
    destruct (filter_runs _ le finite cell_mul span _ _ st0 add few enough center min_points Ord g s dense pts lo hi Sp) as (g' & H & Fi); try assumption.
    { intros Dn. specialize (D Dn). apply forallb_forall. intros q Q. rewrite <- D in Q. apply filter_In in Q. apply Q. }
    exists g'. split; [assumption|]. split; [assumption|]. intros rel p Ip.
    destruct (filter_built _ _ _ _ _ _ _ _ _ _ _ _ _ Ord _ _ _ _ _ H Fi) as (n & mx & m & Bu & (_ & Tight) & _).
    destruct (Tight _ _ B) as [Bn Bm].
    assert (Self : in_box n mx n /\ in_box n mx mx).
    { destruct (usable finite pts) as [|q l] eqn:U; [congruence|]. destruct Bu as (Bx & _).
      specialize (Bx q (or_introl eq_refl)). unfold in_box in *. lia. }
    destruct Self as [Self1 Self2].
    unfold neighborhood.
    destruct p as [[x y] z]. unfold fst3, snd3, thd3, cell_of, inside in *. cbn [fst snd] in *.
    rewrite (i32_in (cell_div x)) by lia. cbn [bind]. rewrite (i32_in (cell_div y)) by lia. cbn [bind].
    rewrite (i32_in (cell_div z)) by lia. cbn [bind].
    eapply neighbors_ok; try eassumption.
    - unfold inside, in_box in *. lia.
    - eapply Z.le_trans; [apply (volume_mono n mx lo hi); assumption|exact V].
  Qed.
End C132.
Print Assumptions C132_cells.
Print Assumptions C132_radius.
Print Assumptions C132_runs.

(** Exact arithmetic with any leaf size. *)
Definition qcell (leaf : Q) (x : Q) : Z := Qfloor (x * (1 / leaf)).
Definition qdiv (leaf : Q) (x : Q) : Z := Qfloor (x / leaf).
Definition qspan (leaf : Q) (a b : Q) : Z := Qfloor ((a - b) * (1 / leaf)).
Definition all_finite (x : Q) : bool := true.
Lemma floor_diff : forall x y : Q, Qfloor x - Qfloor y - 1 <= Qfloor (x - y) <= Qfloor x - Qfloor y.
Proof.
  intros x y. pose proof (Qfloor_le x) as A. pose proof (Qlt_floor x) as B. pose proof (Qfloor_le y) as C. pose proof (Qlt_floor y) as D.
  pose proof (Qfloor_le (x - y)) as G. pose proof (Qlt_floor (x - y)) as H.
  rewrite inject_Z_plus in B, D, H. change (inject_Z 1) with 1%Q in *. split.
  - assert (inject_Z (Qfloor x - Qfloor y) < inject_Z (Qfloor (x - y) + 1 + 1))%Q.
    { unfold Z.sub. rewrite !inject_Z_plus, inject_Z_opp. change (inject_Z 1) with 1%Q. Lqa.lra. }
    rewrite <- Zlt_Qlt in H0. lia.
  - assert (inject_Z (Qfloor (x - y)) < inject_Z (Qfloor x - Qfloor y + 1))%Q.
    { unfold Z.sub. rewrite !inject_Z_plus, inject_Z_opp. change (inject_Z 1) with 1%Q. Lqa.lra. }
    rewrite <- Zlt_Qlt in H0. lia.
Qed.
Lemma exact_ordered : forall leaf, (0 < leaf)%Q ->
  ordered Qle_bool all_finite (qcell leaf) /\
  forall a b, all_finite a = true -> all_finite b = true ->
    qcell leaf a - qcell leaf b - 1 <= qspan leaf a b <= qcell leaf a - qcell leaf b.
Proof.
  intros leaf L.
  assert (I : (0 <= 1 / leaf)%Q) by (apply Qle_shift_div_l; Lqa.lra).
  repeat split.
  - intros a b _ _. rewrite !Qle_bool_iff. destruct (Qlt_le_dec a b); [left; Lqa.lra|right; assumption].
  - intros a b _ _ H. rewrite Qle_bool_iff in H. unfold qcell. apply Qfloor_resp_le. apply Qmult_le_compat_r; assumption.
  - unfold qcell, qspan. replace (Qfloor ((a - b) * (1 / leaf))) with (Qfloor (a * (1 / leaf) - b * (1 / leaf)))
      by (apply Qfloor_comp; ring). apply floor_diff.
  - unfold qcell, qspan. replace (Qfloor ((a - b) * (1 / leaf))) with (Qfloor (a * (1 / leaf) - b * (1 / leaf)))
      by (apply Qfloor_comp; ring). apply floor_diff.
Qed.

(** The leaf of these examples keeps its points; cells with two points are enough. *)
Definition qkeep (s : list (pt Q)) (p : pt Q) : list (pt Q) := s ++ [p].
Definition qenough (n : Z) (s : list (pt Q)) : Z * list (pt Q) := (n, s).
Definition qbuild (g : grid (list (pt Q)) (list (pt Q))) (pts : list (pt Q)) :=
  filter_grid Qle_bool all_finite (qcell 1) (qspan 1) [] qkeep (fun _ s => s) qenough (fun _ s => s) 2 g true (Some (true, pts)).
Definition every (t : list (list (pt Q))) (_ : pt Q) : list nat := seq 0 (length t).
Definition fine_cloud : list (pt Q) :=
  [((1#2), (1#2), (1#2)); ((-1#2), (1#2), (1#2)); ((1#4), (1#2), (1#2)); ((-1#4), (1#2), (3#4)); ((7#2), 0, 0)]%Q.
Example C132_ex_cells :
  exists g, qbuild (new_grid _ _) fine_cloud = Ok g /\ fits Qle_bool all_finite (qspan 1) fine_cloud /\
    (* the cells (0,0,0) and (-1,0,0) with two points each, not the cell (3,0,0) with one *)
    neighborhood (qdiv 1) 2 g rel7 ((3#4), (1#4), (1#4))%Q =
      Ok [mkLeaf 2 [((1#2), (1#2), (1#2)); ((1#4), (1#2), (1#2))]; mkLeaf 2 [((-1#2), (1#2), (1#2)); ((-1#4), (1#2), (3#4))]]%Q /\
    neighborhood (qdiv 1) 2 g rel1 ((13#4), (1#4), (1#4))%Q = Ok [] /\
    radius_search every g (0, 0, 0)%Q =
      Ok [mkLeaf 2 [((-1#2), (1#2), (1#2)); ((-1#4), (1#2), (3#4))]; mkLeaf 2 [((1#2), (1#2), (1#2)); ((1#4), (1#2), (1#2))]]%Q.
Proof.
  eexists. split; [vm_compute; reflexivity|]. split; [vm_compute; discriminate|]. split; [vm_compute; reflexivity|].
  split; vm_compute; reflexivity.
Qed.

(** Refuted: that the search over the 26 neighbours (DIRECT26) sees the cell of the point itself, as the others do. *)
Theorem C132_own_cell_refuted :
  exists pts g p, qbuild (new_grid _ _) pts = Ok g /\ In p pts /\
    neighborhood (qdiv 1) 2 g rel1 p <> Ok [] /\ neighborhood (qdiv 1) 2 g rel7 p <> Ok [] /\
    neighborhood (qdiv 1) 2 g rel26 p = Ok [].
Proof.
  exists [((1#2), (1#2), (1#2)); ((1#4), (1#2), (1#2))]%Q. eexists. exists ((1#2), (1#2), (1#2))%Q.
  split; [vm_compute; reflexivity|]. split; [left; reflexivity|]. split; [vm_compute; discriminate|].
  split; [vm_compute; discriminate|]. vm_compute. reflexivity.
Qed.
Print Assumptions C132_own_cell_refuted.

(** Refuted: that the test of the size prevents overflows.  Two points, 46340 x 46340 cells in the plane, half a
    metre above and below the floor: the test counts one layer, the cells are two. *)
Theorem C132_overflow_refuted :
  exists pts, fits Qle_bool all_finite (qspan 1) pts /\ qbuild (new_grid _ _) pts = UB.
Proof.
  exists [((-1#2), (-1#2), (-1#2)); ((92677#2), (92677#2), (1#4))]%Q. split; [vm_compute; discriminate|]. vm_compute. reflexivity.
Qed.
Print Assumptions C132_overflow_refuted.

(** Refuted: that the searches see only the cloud given last.  If the cloud is too large (here by one far point) the
    old leaves stay: the search by cells finds points that are not in the cloud, and the search by radius reads
    behind the end of an empty vector. *)
Theorem C132_stale_refuted :
  exists pts pts' g g' p, qbuild (new_grid _ _) pts = Ok g /\ qbuild g pts' = Ok g' /\
    ~ fits Qle_bool all_finite (qspan 1) pts' /\
    (exists l q, neighborhood (qdiv 1) 2 g' rel1 p = Ok [l] /\ In q (stats l) /\ ~ In q pts') /\
    radius_search every g' p = UB.
Proof.
  exists [((1#2), (1#2), (1#2)); ((1#4), (1#2), (1#2))]%Q, [((9#2), (1#2), (1#2)); ((1300#1), (1300#1), (1300#1))]%Q.
  eexists. eexists. exists ((1#2), (1#2), (1#2))%Q.
  split; [vm_compute; reflexivity|]. split; [vm_compute; reflexivity|].
  split; [intros H; vm_compute in H; congruence|]. split; [|vm_compute; reflexivity].
  eexists. exists ((1#2), (1#2), (1#2))%Q. split; [vm_compute; reflexivity|]. cbn. split; [left; reflexivity|].
  intros [H|[H|[]]]; discriminate.
Qed.
Print Assumptions C132_stale_refuted.

(** Refuted: that the search by cells finds the cell of a point of the cloud, if there are enough points in it.  The
    cloud is put into cells by the product with the inverse leaf size, the query by a quotient.  Floats with
    rounding; leaf size 3; the coordinate is the float below 15. *)
Definition floor_float (x : spec_float) : Z :=
  match x with
  | S754_finite s m e =>
      let v := if s then Zneg m else Zpos m in
      if 0 <=? e then v * 2 ^ e else v / 2 ^ (- e)
  | _ => 0
  end.
Definition three : spec_float := S754_finite false 12582912 (-22).
Definition one : spec_float := S754_finite false 8388608 (-23).
Definition float_mul (x : spec_float) : Z := floor_float (fmul x (fdiv one three)).
Definition float_div (x : spec_float) : Z := floor_float (fdiv x three).
Definition float_span (a b : spec_float) : Z := floor_float (fmul (fsub a b) (fdiv one three)).
Theorem C132_division_refuted :
  exists x g, let p := (x, S754_zero false, S754_zero false) in
    filter_grid SFleb (fun _ => true) float_mul float_span [] (fun s p => s ++ [p]) (fun _ s => s) (fun n s => (n, s)) (fun _ s => s) 6
      (new_grid _ _) true (Some (true, [p; p; p; p; p; p])) = Ok g /\
    neighborhood float_div 6 g rel1 p = Ok [] /\
    (* although the product finds the cell *)
    neighborhood float_mul 6 g rel1 p = Ok [mkLeaf 6 [p; p; p; p; p; p]].
Proof.
  exists (S754_finite false 15728639 (-20)). eexists. cbv zeta. split; [vm_compute; reflexivity|]. split; vm_compute; reflexivity.
Qed.
Print Assumptions C132_division_refuted.

(** The normal distribution of a leaf, over the reals. *)
Section Normal.
  Local Open Scope R_scope.
  Variable eigen : mat -> vec * mat.
  Variable mult : R.
  Notation normal_of l := (enough_points eigen mult (Z.of_nat (length l)) (fold_left add_point l normal0)).

  (** With two points or more, and an eigensolver that is right for the matrix it gets: the leaf is never rejected,
      its mean is the mean of its points; its covariance is symmetric with a symmetric inverse; along every
      direction it is at least [raw_variance]; its values have at least the ratio [mult]; if those of [raw_variance]
      have this ratio already it is [raw_variance]; and it is nowhere above the largest [raw_variance]. *)
  Theorem C132_normal : forall l, (2 <= length l)%nat -> mult <= 1 ->
    (forall m, mtrans m = m -> (forall u, along m u = raw_variance l u) -> decomposes (eigen m) m) ->
    let s := snd (normal_of l) in
    fst (normal_of l) = Z.of_nat (length l) /\
    n_mean s = average l /\
    mtrans (n_cov s) = n_cov s /\ mmul (n_icov s) (n_cov s) = ident /\ mtrans (n_icov s) = n_icov s /\
    (forall u, raw_variance l u <= along (n_cov s) u) /\
    (forall u v, unit_vec u -> unit_vec v -> mult * along (n_cov s) v <= along (n_cov s) u) /\
    ((forall u v, unit_vec u -> unit_vec v -> mult * raw_variance l v <= raw_variance l u) ->
     forall u, along (n_cov s) u = raw_variance l u) /\
    (forall u, unit_vec u -> exists v, unit_vec v /\ along (n_cov s) u <= raw_variance l v).
  Proof.
    intros l L Mu Dec.
    assert (D : decomposes (eigen (raw_cov l)) (raw_cov l)).
    { apply Dec; [apply raw_sym|]. intros u. apply raw_along. destruct l; [cbn in L; lia|discriminate]. }
    destruct (enough_spec eigen mult l _ eq_refl L D Mu) as (cov & v & d & E & Orth & Ec & W & X & Y & Z & P1 & P2 & P3 & R1 & R2 & Same).
    cbv zeta. rewrite E. cbn [fst snd n_mean n_cov n_icov].
    assert (Sym : mtrans cov = cov) by (rewrite Ec; apply basis_sym).
    assert (Dt : det cov <> 0).
    { rewrite Ec, basis_det by assumption. pose proof (Rmult_lt_0_compat _ _ P1 P2). pose proof (Rmult_lt_0_compat _ _ H P3). lra. }
    assert (Val : forall u, along cov u = weighted d (mvec (mtrans v) u)) by (intros u; rewrite Ec; apply along_basis).
    set (val := fst (eigen (raw_cov l))) in *.
    assert (Up : forall u, unit_vec u -> along cov u <= vz d).
    { intros u U. rewrite Val. rewrite <- (Rmult_1_r (vz d)), <- U, <- (basis_norm v u Orth), <- weighted_const.
      apply weighted_mono; cbn [vx vy vz]; lra. }
    assert (Dn : forall u, unit_vec u -> mult * vz d <= along cov u).
    { intros u U. rewrite Val. rewrite <- (Rmult_1_r (mult * vz d)), <- U, <- (basis_norm v u Orth), <- weighted_const.
      assert (mult * vz d <= vz d) by (rewrite <- (Rmult_1_l (vz d)) at 2; apply Rmult_le_compat_r; lra).
      apply weighted_mono; cbn [vx vy vz]; lra. }
    assert (Ax : forall w, dot w w = 1 -> unit_vec (mvec v w) /\ raw_variance l (mvec v w) = weighted val w).
    { intros w Hw. split.
      - unfold unit_vec. rewrite <- (basis_norm v (mvec v w) Orth), basis_back by assumption. assumption.
      - rewrite <- W, basis_back by assumption. reflexivity. }
    assert (D1 : dot e1 e1 = 1) by (unfold dot, e1; cbn; ring). assert (D3 : dot e3 e3 = 1) by (unfold dot, e3; cbn; ring).
    destruct (weighted_axes val) as (A1 & _ & A3).
    split; [reflexivity|]. split; [reflexivity|]. split; [assumption|]. split; [apply minv_left; assumption|].
    assert (Ab : forall u, raw_variance l u <= along cov u).
    { intros u. rewrite <- W, Val. apply weighted_mono; lra. }
    split; [apply minv_sym; assumption|]. split; [exact Ab|]. split.
    { intros u w U Uw. destruct (Rle_dec 0 mult) as [Mp|Mn].
      - eapply Rle_trans; [apply Rmult_le_compat_l; [assumption|apply Up; assumption]|apply Dn; assumption].
      - assert (forall u, unit_vec u -> 0 < along cov u).
        { intros u0 U0. eapply Rlt_le_trans; [|apply Ab]. eapply Rlt_le_trans; [|apply raw_above; assumption]. rewrite U0, Rmult_1_r.
          apply le_INR in L. cbn [INR] in L. apply Rmult_lt_0_compat; [lra|]. apply Rinv_0_lt_compat. apply Rmult_lt_0_compat; lra. }
        pose proof (H u U). pose proof (H w Uw). assert (mult * along cov w <= 0 * along cov w) by (apply Rmult_le_compat_r; lra). lra. }
    split.
    { intros Ratio u. rewrite Val, Same; [apply W|].
      destruct (Ax e1 D1) as [U1 V1]. destruct (Ax e3 D3) as [U3 V3]. specialize (Ratio _ _ U1 U3). rewrite V1, V3, A1, A3 in Ratio. exact Ratio. }
    intros u U. destruct (Ax e3 D3) as [U3 V3]. exists (mvec v e3). split; [assumption|]. rewrite V3, A3. rewrite Z. apply Up. assumption.
  Qed.

  (** A perfect plane, or a line, or a single place is still thick: (n-1)/n^2 in square metres, whatever the leaf
      size: a standard deviation of 37 cm with 6 points, of 10 cm with 100. *)
  Theorem C132_thick : forall l u, (2 <= length l)%nat -> mult <= 1 ->
    (forall m, mtrans m = m -> (forall u, along m u = raw_variance l u) -> decomposes (eigen m) m) ->
    unit_vec u ->
    (INR (length l) - 1) / (INR (length l) * INR (length l)) <= along (n_cov (snd (normal_of l))) u.
  Proof.
    intros l u L Mu Dec U. destruct (C132_normal l L Mu Dec) as (_ & _ & _ & _ & _ & A & _).
    eapply Rle_trans; [|apply A]. eapply Rle_trans; [|apply raw_above; assumption]. unfold unit_vec in U. rewrite U. lra.
  Qed.
End Normal.
Print Assumptions C132_normal.
Print Assumptions C132_thick.

(** Six points in the plane z = 0. *)
Definition flat_points : list vec :=
  [mkV 1 0 0; mkV (-1) 0 0; mkV 0 1 0; mkV 0 (-1) 0; mkV 0 0 0; mkV 0 0 0]%R.
Definition flat_eigen (_ : mat) : vec * mat :=
  (mkV (5 / 36) (5 / 12) (5 / 12), mkM 0 1 0 0 0 1 1 0 0)%R.
Lemma flat_average : average flat_points = mkV 0 0 0.
Proof. unfold average, psum, flat_points, vscale, vadd, zero_vec. cbn. f_equal; ring. Qed.
Lemma flat_variance : forall u, variance flat_points u = ((vx u * vx u + vy u * vy u) / 3)%R.
Proof.
  intros u. unfold variance. rewrite flat_average. unfold flat_points, dot, vsub. cbn [square_sum length vx vy vz INR]. field.
Qed.
Lemma flat_raw : forall u, raw_variance flat_points u = (5 / 12 * (vx u * vx u) + 5 / 12 * (vy u * vy u) + 5 / 36 * (vz u * vz u))%R.
Proof. intros u. unfold raw_variance. rewrite flat_variance. unfold dot. cbn [flat_points length INR]. field. Qed.
Example C132_ex_flat :
  (* the eigensolver is right for this matrix *)
  (forall m, mtrans m = m -> (forall u, along m u = raw_variance flat_points u) -> decomposes (flat_eigen m) m) /\
  (* the plane is thick *)
  forall mult, (mult <= 1)%R ->
    (5 / 36 <= along (n_cov (snd (enough_points flat_eigen mult (Z.of_nat (length flat_points)) (fold_left add_point flat_points normal0)))) (mkV 0 0 1))%R.
Proof.
  assert (D : forall m, mtrans m = m -> (forall u, along m u = raw_variance flat_points u) -> decomposes (flat_eigen m) m).
  { intros m S A. assert (E : m = mkM (5 / 12) 0 0 0 (5 / 12) 0 0 0 (5 / 36)).
    { assert (T : m10 m = m01 m /\ m20 m = m02 m /\ m21 m = m12 m) by (destruct m; unfold mtrans in S; cbn in *; injection S; auto).
      pose proof (A (mkV 1 0 0)) as A1. pose proof (A (mkV 0 1 0)) as A2. pose proof (A (mkV 0 0 1)) as A3.
      pose proof (A (mkV 1 1 0)) as A4. pose proof (A (mkV 1 0 1)) as A5. pose proof (A (mkV 0 1 1)) as A6.
      rewrite flat_raw in A1, A2, A3, A4, A5, A6. unfold along, dot, mvec in *. cbn [vx vy vz] in *.
      destruct m; cbn in *. f_equal; lra. }
    subst m. unfold decomposes, flat_eigen. cbn [fst snd vx vy vz]. split; [lra|].
    split; unfold mmul, mtrans, diag, ident; cbn; f_equal; lra. }
  split; [exact D|]. intros mult M.
  pose proof (C132_thick flat_eigen mult flat_points (mkV 0 0 1)) as T.
  replace (5 / 36)%R with ((INR (length flat_points) - 1) / (INR (length flat_points) * INR (length flat_points)))%R by (cbn; field).
  apply T; [cbn; lia|assumption|exact D|]. unfold unit_vec, dot. cbn. ring.
Qed.

(** Refuted: that the covariance is the one of the points (divided by n - 1 or by n), with the values raised to the
    ratio [mult] of the largest at most: the six points have no variance along z and at most 2/5 along the others,
    the leaf has 5/36 along z; and the largest value is not that of the points either. *)
Theorem C132_covariance_refuted :
  exists l u, unit_vec u /\
    variance l u = 0%R /\ (forall v, unit_vec v -> INR (length l) / (INR (length l) - 1) * variance l v <= 2 / 5)%R /\
    forall eigen, (forall m, mtrans m = m -> (forall v, along m v = raw_variance l v) -> decomposes (eigen m) m) ->
      let cov := n_cov (snd (enough_points eigen (1 / 100) (Z.of_nat (length l)) (fold_left add_point l normal0))) in
      (1 / 100 * (2 / 5) < along cov u)%R /\
      (exists v, unit_vec v /\ along cov v <> variance l v /\ along cov v <> INR (length l) / (INR (length l) - 1) * variance l v)%R.
Proof.
  exists flat_points, (mkV 0 0 1). split; [unfold unit_vec, dot; cbn; ring|]. split; [rewrite flat_variance; cbn; field|]. split.
  { intros v U. rewrite flat_variance. unfold unit_vec, dot in U. pose proof (Rle_0_sqr (vz v)) as Z. unfold Rsqr in Z.
    cbn [flat_points length INR]. lra. }
  intros eigen D. cbv zeta.
  assert (L : (2 <= length flat_points)%nat) by (cbn; lia). assert (M : (1 / 100 <= 1)%R) by lra.
  split.
  - pose proof (C132_thick eigen (1 / 100)%R flat_points (mkV 0 0 1) L M D) as T.
    eapply Rlt_le_trans; [|apply T; unfold unit_vec, dot; cbn; ring]. cbn [flat_points length INR]. lra.
  - exists (mkV 1 0 0). split; [unfold unit_vec, dot; cbn; ring|].
    destruct (C132_normal eigen (1 / 100)%R flat_points L M D) as (_ & _ & _ & _ & _ & _ & _ & Eq & _). rewrite Eq.
    + rewrite flat_raw, flat_variance. cbn [flat_points length INR vx vy vz]. split; lra.
    + intros u v U V. rewrite !flat_raw. unfold unit_vec, dot in U, V.
      pose proof (Rle_0_sqr (vx u)). pose proof (Rle_0_sqr (vy u)). pose proof (Rle_0_sqr (vz u)).
      pose proof (Rle_0_sqr (vx v)). pose proof (Rle_0_sqr (vy v)). pose proof (Rle_0_sqr (vz v)). unfold Rsqr in *. lra.
Qed.
Print Assumptions C132_covariance_refuted.

(** The floats of the code satisfy what is asked of them: binary32 with rounding, any positive finite inverse leaf
    size; a product that overflows is given a cell outside of int, where the conversion is undefined. *)
Definition valid32 (x : spec_float) : bool := valid_binary 24 128 x && match x with S754_zero _ | S754_finite _ _ _ => true | _ => false end.
Definition floor32 (x : spec_float) : Z :=
  match x with S754_infinity s => if s then - 2 ^ 200 else 2 ^ 200 | _ => floor_float x end.
Definition cell32 (inverse x : spec_float) : Z := floor32 (fmul x inverse).
Lemma floor_value : forall x v, value x = Some v -> floor_float x = Qfloor v.
Proof.
  intros x v H. destruct x as [s|s| |s m e]; try discriminate; cbn in H; injection H as <-; [reflexivity|].
  unfold floor_float. replace (if s then Zneg m else Zpos m) with (cond_Zopp s (Zpos m)) by (destruct s; reflexivity).
  destruct (Z.leb_spec 0 e) as [L|L].
  - rewrite <- (Qfloor_Z (cond_Zopp s (Zpos m) * 2 ^ e)). apply Qfloor_comp. rewrite inject_Z_mult.
    apply Qmult_comp; [reflexivity|]. rewrite Zpower_Qpower by assumption. reflexivity.
  - assert (P : 0 < 2 ^ (- e)) by (apply Z.pow_pos_nonneg; lia).
    rewrite <- (Qfloor_comp (inject_Z (cond_Zopp s (Zpos m)) / inject_Z (2 ^ (- e)))).
    + destruct (2 ^ (- e)) as [|p|p] eqn:E; try lia. rewrite <- Qmake_Qdiv. reflexivity.
    + unfold Qdiv. apply Qmult_comp; [reflexivity|]. rewrite Zpower_Qpower by lia. rewrite <- Qpower_opp, Z.opp_involutive. reflexivity.
Qed.
Lemma finite_small : forall m e, bounded 24 128 m e = true -> (0 < dyadic (Zpos m) e < inject_Z (2 ^ 128))%Q.
Proof.
  intros m e B. split; [apply dyadic_pos|]. eapply Qlt_le_trans; [apply (bounded_small 24 128); [reflexivity|exact B]|].
  unfold dyadic. rewrite Zpower_Qpower by lia. change (inject_Z 1) with 1%Q. rewrite Qmult_1_l. apply Qle_refl.
Qed.
Lemma bounded_floor : forall x, valid_binary 24 128 x = true -> match x with S754_nan | S754_infinity _ => False | _ => True end ->
  - 2 ^ 200 <= floor_float x <= 2 ^ 200.
Proof.
  intros x V N. destruct x as [s|s| |s m e]; try contradiction; [cbv; split; discriminate|].
  rewrite (floor_value (S754_finite s m e) _ eq_refl). destruct (finite_small m e V) as [A B]. unfold dyadic in A, B.
  assert (Lo : (inject_Z (- 2 ^ 200) <= inject_Z (cond_Zopp s (Zpos m)) * 2 ^ e)%Q /\ (inject_Z (cond_Zopp s (Zpos m)) * 2 ^ e <= inject_Z (2 ^ 200))%Q).
  { assert (L1 : (inject_Z (- 2 ^ 200) <= - inject_Z (2 ^ 128))%Q) by (rewrite <- inject_Z_opp, <- Zle_Qle; cbv; discriminate).
    assert (L2 : (inject_Z (2 ^ 128) <= inject_Z (2 ^ 200))%Q) by (rewrite <- Zle_Qle; cbv; discriminate).
    assert (L3 : (0 <= inject_Z (2 ^ 128))%Q) by (change 0%Q with (inject_Z 0); rewrite <- Zle_Qle; cbv; discriminate).
    revert A B L1 L2 L3. generalize (inject_Z (2 ^ 128)), (inject_Z (2 ^ 200)), (inject_Z (- 2 ^ 200)). intros k1 k2 k3 A B L1 L2 L3.
    assert (O : (inject_Z (cond_Zopp s (Zpos m)) * 2 ^ e == (if s then - (inject_Z (Zpos m) * 2 ^ e) else inject_Z (Zpos m) * 2 ^ e))%Q).
    { destruct s; cbn [cond_Zopp]; [rewrite inject_Z_opp; ring|reflexivity]. }
    rewrite O. clear O. revert A B. generalize (inject_Z (Zpos m) * 2 ^ e)%Q. intros q A B. destruct s; split; Lqa.lra. }
  destruct Lo as [Lo Hi]. apply Qfloor_resp_le in Lo. apply Qfloor_resp_le in Hi. rewrite Qfloor_Z in Lo, Hi. split; assumption.
Qed.
Lemma floor32_mono : forall x y, valid_binary 24 128 x = true -> valid_binary 24 128 y = true -> SFleb x y = true -> floor32 x <= floor32 y.
Proof.
  intros x y Vx Vy L.
  assert (K : forall z, valid_binary 24 128 z = true -> z <> S754_nan -> - 2 ^ 200 <= floor32 z <= 2 ^ 200).
  { intros z Vz Nz. destruct z as [s|s| |s m e]; [|destruct s; cbv; split; discriminate|congruence|]; apply (bounded_floor _ Vz I). }
  assert (Nx : x <> S754_nan) by (intros ->; discriminate). assert (Ny : y <> S754_nan) by (intros ->; destruct x as [| [|] | |]; discriminate).
  pose proof (K x Vx Nx) as Bx. pose proof (K y Vy Ny) as By.
  destruct (value x) as [u|] eqn:Ex.
  - destruct (value y) as [v|] eqn:Ey.
    + pose proof (proj1 (leb_value 24 128 eq_refl eq_refl x y u v Vx Vy Ex Ey) L) as Q. apply Qfloor_resp_le in Q.
      rewrite <- (floor_value _ _ Ex), <- (floor_value _ _ Ey) in Q. destruct x, y; try discriminate; exact Q.
    + destruct y as [|t| |]; try discriminate; try congruence. destruct t; [destruct x as [ | | | [|] ]; discriminate|]. apply Bx.
  - destruct x as [|s| |]; try discriminate. destruct s; [apply By|]. destruct y as [ | [|] | | [|] ]; discriminate.
Qed.
Theorem C132_binary32 : forall inverse, valid32 inverse = true -> SFltb (S754_zero false) inverse = true ->
  ordered SFleb valid32 (cell32 inverse).
Proof.
  intros inv Vi Pi. unfold valid32 in Vi. apply andb_true_iff in Vi. destruct Vi as [Vi Fi].
  assert (Hi : exists w, value inv = Some w /\ (0 < w)%Q).
  { destruct inv as [s|s| |s m e]; try discriminate; destruct s; try discriminate. eexists. split; [reflexivity|]. apply (dyadic_pos m e). }
  destruct Hi as (w & Ew & Pw).
  assert (Num : forall x, valid32 x = true -> valid_binary 24 128 x = true /\ exists v, value x = Some v).
  { intros x H. apply andb_true_iff in H. destruct H as [H1 H2]. split; [assumption|]. destruct x; try discriminate; eexists; reflexivity. }
  split; intros a b Fa Fb; destruct (Num a Fa) as (Va & u & Ea), (Num b Fb) as (Vb & v & Eb).
  - destruct (Qlt_le_dec u v) as [L|L]; [left|right]; [apply (leb_value 24 128 eq_refl eq_refl a b u v)|apply (leb_value 24 128 eq_refl eq_refl b a v u)]; auto using Qlt_le_weak.
  - intros L. apply (leb_value 24 128 eq_refl eq_refl a b u v) in L; auto.
    pose proof (mul_rnd 24 128 eq_refl eq_refl a inv u w Va Vi Ea Ew) as Ra. pose proof (mul_rnd 24 128 eq_refl eq_refl b inv v w Vb Vi Eb Ew) as Rb.
    assert (M : SFleb (fmul a inv) (fmul b inv) = true).
    { apply (rnd_mono 24 128 eq_refl eq_refl _ _ _ _ Ra Rb). apply Qmult_le_compat_r; [assumption|]. apply Qlt_le_weak. assumption. }
    apply floor32_mono; [exact (proj2 (is_rnd_num 24 128 eq_refl eq_refl _ _ Ra))|exact (proj2 (is_rnd_num 24 128 eq_refl eq_refl _ _ Rb))|exact M].
Qed.
Print Assumptions C132_binary32.
Example C132_ex_binary32 : ordered SFleb valid32 (cell32 (fdiv one three)).
Proof. apply C132_binary32; vm_compute; reflexivity. Qed.

(** Leaves with too few points, and the points of the output, have the mean of their points. *)
Theorem C132_means : forall l, l <> [] ->
  n_mean (few_points (Z.of_nat (length l)) (fold_left add_point l normal0)) = average l /\
  center_of (Z.of_nat (length l)) (fold_left add_point l normal0) = average l.
Proof.
  intros l N. rewrite fold_points. unfold few_points, center_of, normal0. cbn [n_mean].
  assert (P0 : vadd zero_vec (psum l) = psum l) by (destruct (psum l); unfold vadd, zero_vec; cbn; f_equal; ring).
  rewrite P0. assert (Zn : IZR (Z.of_nat (length l)) = INR (length l)) by (rewrite <- INR_IZR_INZ; reflexivity). rewrite Zn. split; reflexivity.
Qed.
Print Assumptions C132_means.

(** The cells of the three kinds of search: the cell itself; with those that share a face with it; those that touch it, without itself. *)
Theorem C132_neighbours : forall x y z,
  (In (x, y, z) rel1 <-> x = 0 /\ y = 0 /\ z = 0)%Z /\
  (In (x, y, z) rel7 <-> Z.abs x + Z.abs y + Z.abs z <= 1)%Z /\
  (In (x, y, z) rel26 <-> Z.abs x <= 1 /\ Z.abs y <= 1 /\ Z.abs z <= 1 /\ (x, y, z) <> (0, 0, 0))%Z.
Proof.
  assert (B : forall a b c x y z : Z, (a, b, c) = (x, y, z) <-> (a = x /\ b = y /\ c = z)%Z) by (intros; split; [intros H; injection H; auto|intros (-> & -> & ->); reflexivity]).
  assert (D : forall x, (Z.abs x <= 1 -> x = -1 \/ x = 0 \/ x = 1)%Z) by lia.
  intros x y z. split; [|split].
  - unfold rel1. cbn [In]. rewrite B. intuition lia.
  - unfold rel7. cbn [In]. rewrite !B. split; [intuition lia|]. intros H. lia.
  - change rel26 with [(-1, -1, -1); (-1, -1, 0); (-1, -1, 1); (-1, 0, -1); (-1, 0, 0); (-1, 0, 1); (-1, 1, -1); (-1, 1, 0); (-1, 1, 1);
                       (0, -1, -1); (0, -1, 0); (0, -1, 1); (0, 0, -1); (0, 0, 1); (0, 1, -1); (0, 1, 0); (0, 1, 1);
                       (1, -1, -1); (1, -1, 0); (1, -1, 1); (1, 0, -1); (1, 0, 0); (1, 0, 1); (1, 1, -1); (1, 1, 0); (1, 1, 1)]%Z.
    split.
    + intros H. cbn [In] in H. repeat (destruct H as [H|H]; [injection H as <- <- <-; repeat split; try lia; discriminate|]). contradiction.
    + intros (X & Y & Z0 & N). apply D in X, Y, Z0. cbn [In].
      destruct X as [->|[->| ->]], Y as [->|[->| ->]], Z0 as [->|[->| ->]]; try tauto; congruence.
Qed.
Print Assumptions C132_neighbours.
