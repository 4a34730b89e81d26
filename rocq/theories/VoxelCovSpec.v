(** What the grid of normal distributions should hold, independent of keys, maps and order of the code. *)
From Coq Require Import ZArith List Bool Reals.
From Verif Require Import Outcome RigidModel RigidSpec VoxelCovModel.
Import ListNotations.
Local Open Scope Z_scope.
Set Implicit Arguments.

Section Grid.
  Variable F : Type.
  Variable le : F -> F -> bool.
  Variable finite : F -> bool.
  Variables cell : F -> Z.
  Variable span : F -> F -> Z.
  Variables St P : Type.
  Variable st0 : St.
  Variable add : St -> pt F -> St.
  Variable enough : Z -> St -> Z * St.
  Variable center : Z -> St -> P.
  Variable min_points : Z.

  (** What is asked of the floats: the finite ones are ordered, and cells do not go back along the axes. *)
  Definition ordered : Prop :=
    (forall a b, finite a = true -> finite b = true -> le a b = true \/ le b a = true) /\
    (forall a b, finite a = true -> finite b = true -> le a b = true -> cell a <= cell b).

  Definition cell_of (p : pt F) : idx3 := (cell (fst (fst p)), cell (snd (fst p)), cell (snd p)).
  Definition idx_eqb (a b : idx3) : bool :=
    (fst (fst a) =? fst (fst b)) && (snd (fst a) =? snd (fst b)) && (snd a =? snd b).
  (** The usable points of the cloud, and those in the cell [c], in the order of the cloud. *)
  Definition usable (pts : list (pt F)) : list (pt F) :=
    filter (fun p => finite (fst (fst p)) && finite (snd (fst p)) && finite (snd p)) pts.
  Definition points_in (c : idx3) (pts : list (pt F)) : list (pt F) := filter (fun p => idx_eqb (cell_of p) c) pts.
  Definition count (c : idx3) (pts : list (pt F)) : Z := Z.of_nat (length (points_in c pts)).
  Definition sums (c : idx3) (pts : list (pt F)) : St := fold_left add (points_in c pts) st0.
  (** The leaf of a cell with enough points. *)
  Definition leaf_of (c : idx3) (pts : list (pt F)) : leaf St :=
    mkLeaf (fst (enough (count c pts) (sums c pts))) (snd (enough (count c pts) (sums c pts))).
  (** What the search by cells should find in the cell [c]. *)
  Definition found (c : idx3) (pts : list (pt F)) : list (leaf St) :=
    if (min_points <=? count c pts) && (min_points <=? fst (enough (count c pts) (sums c pts)))
    then [leaf_of c pts] else [].
  Definition shift (c d : idx3) : idx3 := (fst (fst c) + fst (fst d), snd (fst c) + snd (fst d), snd c + snd d).

  (** The test of the code that the cloud is not too large for the leaf size. *)
  Definition extent (f : pt F -> F) (p : pt F) (ps : list (pt F)) : Z :=
    span (max_of le (f p) (map f ps)) (min_of le (f p) (map f ps)) + 1.
  Definition fits (pts : list (pt F)) : Prop :=
    match usable pts with
    | [] => False
    | p :: ps => extent (fst3 (F := F)) p ps * extent (snd3 (F := F)) p ps * extent (thd3 (F := F)) p ps <= 2 ^ 31 - 1
    end.
End Grid.

Section Normal.
  Local Open Scope R_scope.
  Definition psum (l : list vec) : vec := fold_right vadd zero_vec l.
  Definition average (l : list vec) : vec := vscale (/ INR (length l)) (psum l).
  (** The variance of the points along the direction [u] (divided by their number). *)
  Fixpoint square_sum (f : vec -> R) (l : list vec) : R :=
    match l with [] => 0 | p :: l => f p * f p + square_sum f l end.
  Definition variance (l : list vec) (u : vec) : R :=
    square_sum (fun p => dot u (vsub p (average l))) l / INR (length l).
  (** A decomposition of a symmetric matrix: ascending values, an orthonormal basis (columns). *)
  Definition decomposes (d : vec * mat) (m : mat) : Prop :=
    vx (fst d) <= vy (fst d) <= vz (fst d) /\
    mmul (snd d) (mtrans (snd d)) = ident /\
    mmul (mmul (snd d) (diag (fst d))) (mtrans (snd d)) = m.
  (** The value of a covariance along [u]. *)
  Definition along (m : mat) (u : vec) : R := dot u (mvec m u).
  (** What the code gives for the points [l] along [u] before it limits the ratio of the values: not the
      variance, but smaller by (n-1)/n and then larger by (n-1)/n^2. *)
  Definition raw_variance (l : list vec) (u : vec) : R :=
    (INR (length l) - 1) / INR (length l) * (variance l u + dot u u / INR (length l)).
  Definition unit_vec (u : vec) : Prop := dot u u = 1.
End Normal.
