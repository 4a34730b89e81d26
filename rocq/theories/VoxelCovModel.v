(** Model of the grid of normal distributions of the NDT registration,
    registrators/pclomp/voxel_grid_covariance_omp.h (.h) and voxel_grid_covariance_omp_impl.hpp (.hpp), as
    registrators/pclomp/ndt_omp.h:268-278 (init) uses it: one leaf size for all axes, no filter field, points
    without colour (downsample_all_data_ is false), save_leaf_layout_ is false.  getDisplayCloud,
    nearestKSearch and getLeaf, which nothing calls, are not modelled. *)
From Coq Require Import ZArith List Bool Reals.
From Verif Require Import Outcome TimeModel RigidModel RigidSpec.
Import ListNotations.
Local Open Scope Z_scope.
Local Open Scope outcome_scope.
Set Implicit Arguments.

Definition idx3 := (Z * Z * Z)%type.

Section Grid.
  (** [F]: the finite or non finite float coordinates.  [le]: the order of the finite ones; [finite]: std::isfinite;
      [cell_mul x]: floor (x * inverse_leaf_size_) (.hpp:87-92, 218-220); [cell_div x]: floor (x / leaf_size_)
      (.hpp:379-381); [span a b]: the integer part of (a - b) * inverse_leaf_size_ (.hpp:75-77).  The three are
      mathematical integers: conversions to int that do not fit are UB. *)
  Variable F : Type.
  Variable le : F -> F -> bool.
  Variable finite : F -> bool.
  Variables cell_mul cell_div : F -> Z.
  Variable span : F -> F -> Z.
  Definition pt := (F * F * F)%type.
  (** What a leaf knows about its points (mean_, cov_, icov_, evecs_, evals_, centroid), from .h:97-106:
      [st0] (the constructor), [add] (.hpp:234-243), [few] (.hpp:288-293, a leaf with too few points) and
      [enough] (.hpp:288-366: the new nr_points and the new values). [center]: the point put into the output. *)
  Variables St P : Type.
  Variable st0 : St.
  Variable add : St -> pt -> St.
  Variable few : Z -> St -> St.
  Variable enough : Z -> St -> Z * St.
  Variable center : Z -> St -> P.
  (** min_points_per_voxel_, 6 by the constructor (.h:204). *)
  Variable min_points : Z.
  (** pcl::KdTreeFLANN::radiusSearch for the points of the tree and a query: indices of the points. *)
  Variable near : list P -> pt -> list nat.

  (** struct Leaf, .h:92-187. *)
  Record leaf := mkLeaf { nr_points : Z; stats : St }.
  (** std::map<size_t, Leaf>, .h:195: sorted by key.  The keys are ints here: their conversion to size_t is
      injective, and the negative ones, which would come last, do not occur (C132_cells). *)
  Definition leaves := list (Z * leaf).
  Fixpoint find_leaf (k : Z) (m : leaves) : option leaf :=
    match m with [] => None | (k', l) :: m => if k =? k' then Some l else find_leaf k m end.
  (** leaves_[k] with the change [f] of the leaf found or made. *)
  Fixpoint touch (k : Z) (f : leaf -> leaf) (m : leaves) : leaves :=
    match m with
    | [] => [(k, f (mkLeaf 0 st0))]
    | (k', l) :: m' =>
        if k <? k' then (k, f (mkLeaf 0 st0)) :: m
        else if k =? k' then (k', f l) :: m'
        else (k', l) :: touch k f m'
    end.

  (** The members: leaves_, min_b_, max_b_, divb_mul_, voxel_centroids_, voxel_centroids_leaf_indices_, kdtree_
      (the points it was built from) and searchable_. *)
  Record grid := mkGrid {
    g_leaves : leaves;
    g_min : idx3;
    g_max : idx3;
    g_mul : idx3;
    g_centroids : list P;
    g_indices : list Z;
    g_tree : option (list P);
    g_searchable : bool }.
  (** The constructor, .h:202-217 (divb_mul_ is left by pcl::VoxelGrid's constructor as zero). *)
  Definition new_grid : grid := mkGrid [] (0, 0, 0) (0, 0, 0) (0, 0, 0) [] [] None true.

  Definition fst3 (a : pt) : F := fst (fst a).
  Definition snd3 (a : pt) : F := snd (fst a).
  Definition thd3 (a : pt) : F := snd a.
  Definition finite_pt (p : pt) : bool := finite (fst3 p) && finite (snd3 p) && finite (thd3 p).

  (** pcl::getMinMax3D on one coordinate. *)
  Definition min2 (a b : F) : F := if le a b then a else b.
  Definition max2 (a b : F) : F := if le a b then b else a.
  Definition min_of (x : F) (l : list F) : F := fold_left min2 l x.
  Definition max_of (x : F) (l : list F) : F := fold_left max2 l x.

  (** .hpp:218-223: the indices are exact here (the float subtraction of min_b_ is exact below 2^24). *)
  Definition leaf_index (mn mul : idx3) (p : pt) : outcome Z :=
    let '(n0, n1, n2) := mn in let '(d0, d1, d2) := mul in
    let* i := i32 (cell_mul (fst3 p) - n0) in
    let* j := i32 (cell_mul (snd3 p) - n1) in
    let* k := i32 (cell_mul (thd3 p) - n2) in
    let* a := i32 (i * d0) in
    let* b := i32 (j * d1) in
    let* c := i32 (k * d2) in
    let* ab := i32 (a + b) in
    i32 (ab + c).

  (** .hpp:218-262: one point. *)
  Definition insert (mn mul : idx3) (m : leaves) (p : pt) : outcome leaves :=
    let* k := leaf_index mn mul p in
    Ok (touch k (fun l => mkLeaf (nr_points l + 1) (add (stats l) p)) m).

  (** .hpp:284-366: one leaf in the second pass. *)
  Definition second (l : leaf) : leaf :=
    if min_points <=? nr_points l
    then mkLeaf (fst (enough (nr_points l) (stats l))) (snd (enough (nr_points l) (stats l)))
    else mkLeaf (nr_points l) (few (nr_points l) (stats l)).

  (** applyFilter, .hpp:48-370.  [input]: input_ with its flag is_dense.  If no usable point exists the extremes
      are -inf and inf, and their conversion at .hpp:75 is UB; so is the conversion of the cell of a point of a
      dense cloud that is not finite (.hpp:218), whatever the extremes are then. *)
  Definition apply_filter (g : grid) (input : option (bool * list pt)) : outcome grid :=
    match input with
    | None => Ok (mkGrid (g_leaves g) (g_min g) (g_max g) (g_mul g) [] [] (g_tree g) (g_searchable g))
    | Some (dense, pts) =>
        if dense && negb (forallb finite_pt pts) then UB
        else
          match filter finite_pt pts with
          | [] => UB
          | p :: ps =>
              let x0 := min_of (fst3 p) (map fst3 ps) in let x1 := max_of (fst3 p) (map fst3 ps) in
              let y0 := min_of (snd3 p) (map snd3 ps) in let y1 := max_of (snd3 p) (map snd3 ps) in
              let z0 := min_of (thd3 p) (map thd3 ps) in let z1 := max_of (thd3 p) (map thd3 ps) in
              (* .hpp:75-84 *)
              let* dx := i64 (span x1 x0) in let* dx := i64 (dx + 1) in
              let* dy := i64 (span y1 y0) in let* dy := i64 (dy + 1) in
              let* dz := i64 (span z1 z0) in let* dz := i64 (dz + 1) in
              let* dxy := i64 (dx * dy) in
              let* dxyz := i64 (dxy * dz) in
              if 2 ^ 31 - 1 <? dxyz
              then Ok (mkGrid (g_leaves g) (g_min g) (g_max g) (g_mul g) [] [] (g_tree g) (g_searchable g))
              else
                (* .hpp:87-103 *)
                let* n0 := i32 (cell_mul x0) in let* m0 := i32 (cell_mul x1) in
                let* n1 := i32 (cell_mul y0) in let* m1 := i32 (cell_mul y1) in
                let* n2 := i32 (cell_mul z0) in let* m2 := i32 (cell_mul z1) in
                let* e0 := i32 (m0 - n0) in let* e0 := i32 (e0 + 1) in
                let* e1 := i32 (m1 - n1) in let* e1 := i32 (e1 + 1) in
                let* e2 := i32 (m2 - n2) in let* e2 := i32 (e2 + 1) in
                let* e01 := i32 (e0 * e1) in
                (* .hpp:208-263 *)
                let* m := run (insert (n0, n1, n2) (1, e0, e01)) [] (p :: ps) in
                (* .hpp:266-369 *)
                let full := filter (fun kl => min_points <=? nr_points (snd kl)) m in
                Ok (mkGrid (map (fun kl => (fst kl, second (snd kl))) m) (n0, n1, n2) (m0, m1, m2) (1, e0, e01)
                      (map (fun kl => center (nr_points (snd kl)) (stats (snd kl))) full)
                      (if g_searchable g then map fst full else [])
                      (g_tree g) (g_searchable g))
          end
    end.

  (** filter(searchable), .h:285-297; init calls it with true (ndt_omp.h:277). *)
  Definition filter_grid (g : grid) (searchable : bool) (input : option (bool * list pt)) : outcome grid :=
    let g := mkGrid (g_leaves g) (g_min g) (g_max g) (g_mul g) (g_centroids g) (g_indices g) (g_tree g) searchable in
    let* g := apply_filter g input in
    Ok (mkGrid (g_leaves g) (g_min g) (g_max g) (g_mul g) (g_centroids g) (g_indices g)
          (if searchable && negb (match g_centroids g with [] => true | _ => false end)
           then Some (g_centroids g) else g_tree g) searchable).

  (** getNeighborhoodAtPoint with relative coordinates, .hpp:373-403.  Eigen's int arithmetic overflows as UB. *)
  Definition in_grid (d0 d1 d2 e0 e1 e2 : Z) (d : idx3) : bool :=
    let '(a, b, c) := d in
    (d0 <=? a) && (d1 <=? b) && (d2 <=? c) && (a <=? e0) && (b <=? e1) && (c <=? e2).
  Fixpoint neighbors (g : grid) (ijk : idx3) (rel : list idx3) : outcome (list leaf) :=
    match rel with
    | [] => Ok []
    | d :: rel =>
        let '(i, j, k) := ijk in
        let '(n0, n1, n2) := g_min g in let '(m0, m1, m2) := g_max g in let '(u0, u1, u2) := g_mul g in
        let* a0 := i32 (n0 - i) in let* a1 := i32 (n1 - j) in let* a2 := i32 (n2 - k) in
        let* b0 := i32 (m0 - i) in let* b1 := i32 (m1 - j) in let* b2 := i32 (m2 - k) in
        if in_grid a0 a1 a2 b0 b1 b2 d
        then
          let '(x, y, z) := d in
          let* key := i32 ((i + x - n0) * u0 + (j + y - n1) * u1 + (k + z - n2) * u2) in
          let* rest := neighbors g ijk rel in
          match find_leaf key (g_leaves g) with
          | Some l => Ok (if min_points <=? nr_points l then l :: rest else rest)
          | None => Ok rest
          end
        else neighbors g ijk rel
    end.
  Definition neighborhood (g : grid) (rel : list idx3) (p : pt) : outcome (list leaf) :=
    let* i := i32 (cell_div (fst3 p)) in
    let* j := i32 (cell_div (snd3 p)) in
    let* k := i32 (cell_div (thd3 p)) in
    neighbors g (i, j, k) rel.

  (** radiusSearch, .h:470-501.  Searching a tree that was never built is UB (its index is null). *)
  Fixpoint leaves_of (g : grid) (l : list nat) : outcome (list leaf) :=
    match l with
    | [] => Ok []
    | n :: l =>
        match nth_error (g_indices g) n with
        | None => UB
        | Some k =>
            match find_leaf k (g_leaves g) with
            | None => UB
            | Some lf => let* rest := leaves_of g l in Ok (lf :: rest)
            end
        end
    end.
  Definition radius_search (g : grid) (p : pt) : outcome (list leaf) :=
    if g_searchable g then
      match g_tree g with
      | None => UB
      | Some t => leaves_of g (near t p)
      end
    else Ok [].
End Grid.

(** Relative coordinates: getNeighborhoodAtPoint7, .hpp:418-433; getNeighborhoodAtPoint1, .hpp:437-442; and
    pcl::getAllNeighborCellIndices (.hpp:413), the 26 neighbours (their order is not modelled). *)
Definition rel7 : list idx3 := [(0, 0, 0); (1, 0, 0); (-1, 0, 0); (0, 1, 0); (0, -1, 0); (0, 0, 1); (0, 0, -1)].
Definition rel1 : list idx3 := [(0, 0, 0)].
Definition rel26 : list idx3 :=
  filter (fun d => match d with (0, 0, 0) => false | _ => true end)
         (flat_map (fun i => flat_map (fun j => map (fun k => (i, j, k)) [-1; 0; 1]) [-1; 0; 1]) [-1; 0; 1]).

(** The values of a leaf over the real numbers. *)
Section Normal.
  Local Open Scope R_scope.
  (** Eigen::SelfAdjointEigenSolver: eigenvalues and eigenvectors (columns). *)
  Variable eigen : mat -> vec * mat.
  (** min_covar_eigvalue_mult_, 0.01 by the constructor (.h:205). *)
  Variable mult : R.

  Record normal := mkN { n_mean : vec; n_cov : mat; n_icov : mat; n_evecs : mat; n_evals : vec }.
  Definition madd (a b : mat) : mat :=
    mkM (m00 a + m00 b) (m01 a + m01 b) (m02 a + m02 b) (m10 a + m10 b) (m11 a + m11 b) (m12 a + m12 b)
        (m20 a + m20 b) (m21 a + m21 b) (m22 a + m22 b).
  Definition mscale (k : R) (a : mat) : mat :=
    mkM (k * m00 a) (k * m01 a) (k * m02 a) (k * m10 a) (k * m11 a) (k * m12 a) (k * m20 a) (k * m21 a) (k * m22 a).
  Definition outer (a b : vec) : mat :=
    mkM (vx a * vx b) (vx a * vy b) (vx a * vz b) (vy a * vx b) (vy a * vy b) (vy a * vz b)
        (vz a * vx b) (vz a * vy b) (vz a * vz b).
  Definition diag (v : vec) : mat := mkM (vx v) 0 0 0 (vy v) 0 0 0 (vz v).
  Definition zero_mat : mat := mkM 0 0 0 0 0 0 0 0 0.
  (** Eigen's inverse of a 3x3 matrix: the cofactors divided by the determinant. *)
  Definition minv (m : mat) : mat :=
    mscale (/ det m)
      (mkM (m11 m * m22 m - m12 m * m21 m) (m02 m * m21 m - m01 m * m22 m) (m01 m * m12 m - m02 m * m11 m)
           (m12 m * m20 m - m10 m * m22 m) (m00 m * m22 m - m02 m * m20 m) (m02 m * m10 m - m00 m * m12 m)
           (m10 m * m21 m - m11 m * m20 m) (m01 m * m20 m - m00 m * m21 m) (m00 m * m11 m - m01 m * m10 m)).

  (** Leaf(), .h:97-106: the covariance starts as the identity. *)
  Definition normal0 : normal := mkN zero_vec ident zero_mat ident zero_vec.
  (** .hpp:233-237. *)
  Definition add_point (s : normal) (p : vec) : normal :=
    mkN (vadd (n_mean s) p) (madd (n_cov s) (outer p p)) (n_icov s) (n_evecs s) (n_evals s).
  (** .hpp:293. *)
  Definition few_points (n : Z) (s : normal) : normal :=
    mkN (vscale (/ IZR n) (n_mean s)) (n_cov s) (n_icov s) (n_evecs s) (n_evals s).
  (** .hpp:288-366.  maxCoeff and minCoeff of the inverse are never infinite here (.hpp:360-364). *)
  Definition enough_points (n : Z) (s : normal) : Z * normal :=
    let pt_sum := n_mean s in
    let mean := vscale (/ IZR n) pt_sum in
    let cov := madd (mscale (/ IZR n) (madd (n_cov s) (mscale (-2) (outer pt_sum mean)))) (outer mean mean) in
    let cov := mscale ((IZR n - 1) / IZR n) cov in
    let '(val, vecs) := eigen cov in
    if Rlt_dec (vx val) 0 then ((-1)%Z, mkN mean cov (n_icov s) vecs (n_evals s))
    else if Rlt_dec (vy val) 0 then ((-1)%Z, mkN mean cov (n_icov s) vecs (n_evals s))
    else if Rle_dec (vz val) 0 then ((-1)%Z, mkN mean cov (n_icov s) vecs (n_evals s))
    else
      let least := mult * vz val in
      if Rlt_dec (vx val) least then
        let val := mkV least (if Rlt_dec (vy val) least then least else vy val) (vz val) in
        let cov := mmul (mmul vecs (diag val)) (minv vecs) in
        (n, mkN mean cov (minv cov) vecs val)
      else (n, mkN mean cov (minv cov) vecs val).
  (** The point of the output, .hpp:302-309: the mean (it is summed up in floats there). *)
  Definition center_of (n : Z) (s : normal) : vec := vscale (/ IZR n) (n_mean s).
End Normal.
