(** Model of EigenPointCloud, builder/data/cloud_types.cc:43-144 and 288-368: normal
    estimation with its k-d style grouping, rigid transforms, motion compensation.

    Coordinates are exact rationals (rounding is not modelled).  The rank test of the
    covariance matrix (cc:88-92) and the normal itself (cc:94, 102) are arbitrary functions
    of the points of the group; std::nth_element is an arbitrary function with the contract
    of the C++ standard (NormalsSpec.v). *)
From Coq Require Import List Bool ZArith QArith Arith.
From Verif Require Import Outcome.
Import ListNotations.
Local Open Scope nat_scope.
Local Open Scope outcome_scope.

Record vec := mkVec { x_ : Q; y_ : Q; z_ : Q }.
Definition vzero : vec := mkVec 0 0 0.
Definition vadd (a b : vec) : vec := mkVec (x_ a + x_ b) (y_ a + y_ b) (z_ a + z_ b).
Definition vsub (a b : vec) : vec := mkVec (x_ a - x_ b) (y_ a - y_ b) (z_ a - z_ b).
Definition vdivn (a : vec) (n : nat) : vec :=
  let q := inject_Z (Z.of_nat n) in mkVec (x_ a / q) (y_ a / q) (z_ a / q).
Definition coord (dim : nat) (v : vec) : Q :=
  match dim with 0 => x_ v | 1 => y_ v | _ => z_ v end.
Definition set_coord (dim : nat) (c : Q) (v : vec) : vec :=
  match dim with 0 => mkVec c (y_ v) (z_ v) | 1 => mkVec (x_ v) c (z_ v) | _ => mkVec (x_ v) (y_ v) c end.
Definition qlt (a b : Q) : bool := negb (Qle_bool b a).

(** cc:84-85: rowwise sum divided by the number of columns. *)
Definition mean (l : list vec) : vec := vdivn (fold_left vadd l vzero) (length l).

(** ArgMax, cc:41-56. *)
Definition arg_max (v : vec) : nat :=
  snd (fold_left (fun acc i => if qlt (fst acc) (coord i v) then (coord i v, i) else acc)
         [0; 1; 2] (0%Q, 0)).

(** EigenPointCloud, cloud_types.h:84-120: the members used here. *)
Record ecloud := mkE {
  points : list vec;
  normals : list vec;
  indices : list nat;
  keep : list nat;              (* indices_to_keep *)
  factors : list Q }.

(** Element access; out of range is undefined in a release build. *)
Definition get {A} (l : list A) (i : nat) : outcome A :=
  match nth_error l i with Some a => Ok a | None => UB end.
Fixpoint gets {A} (l : list A) (is : list nat) : outcome (list A) :=
  match is with
  | [] => Ok []
  | i :: r => let* a := get l i in let* t := gets l r in Ok (a :: t)
  end.
Definition set {A} (l : list A) (i : nat) (a : A) : outcome (list A) :=
  if Nat.ltb i (length l) then Ok (firstn i l ++ a :: skipn (S i) l) else UB.
Definition slice {A} (l : list A) (first last : nat) : list A := firstn (last - first) (skipn first l).

Section Normals.
(** rank + 1 < 3. *)
Variable degenerate : list vec -> bool.
Variable normal_of : list vec -> vec.
(** nth_element less l n: the range [l] rearranged around position [n]. *)
Variable nth_element : (nat -> nat -> bool) -> list nat -> nat -> list nat.

(** CalculateNormals(data, first, last), cc:73-103. *)
Definition calculate_group (c : ecloud) (first last : nat) : outcome ecloud :=
  let* is := gets (indices c) (seq first (last - first)) in
  let* d := gets (points c) is in
  if degenerate d then Ok c else
  let* k := get (indices c) first in
  let* p := set (points c) k (mean d) in
  let* n := set (normals c) k (normal_of d) in
  Ok (mkE p n (indices c) (keep c ++ [k]) (factors c)).

(** CompareDim, cc:58-66: reads the columns through the current point matrix. *)
Definition compare_dim (pts : list vec) (dim i j : nat) : bool :=
  qlt (coord dim (nth i pts vzero)) (coord dim (nth j pts vzero)).

(** BuildNormals, cc:105-144; the fuel bounds the recursion depth. *)
Fixpoint build_normals (fuel : nat) (c : ecloud) (first last : nat) (lo hi : vec) : outcome ecloud :=
  match fuel with
  | 0 => UB
  | S fuel' =>
      let count := last - first in
      if Nat.leb count 7 then calculate_group c first last else
      let cut := arg_max (vsub hi lo) in
      let right_count := count / 2 in
      let left_count := count - right_count in
      (* the range must lie inside indices, and its elements inside points *)
      let* is := gets (indices c) (seq first count) in
      let* _ := gets (points c) is in
      let is' := nth_element (compare_dim (points c) cut) is left_count in
      let idx := firstn first (indices c) ++ is' ++ skipn last (indices c) in
      let c1 := mkE (points c) (normals c) idx (keep c) (factors c) in
      let* ci := get idx (first + left_count) in
      let* cp := get (points c) ci in
      let cv := coord cut cp in
      let* c2 := build_normals fuel' c1 first (first + left_count) lo (set_coord cut cv hi) in
      build_normals fuel' c2 (first + left_count) last (set_coord cut cv lo) hi
  end.

(** std::sort on int (cc:355). *)
Fixpoint insert_sorted (a : nat) (l : list nat) : list nat :=
  match l with [] => [a] | b :: r => if Nat.leb a b then a :: l else b :: insert_sorted a r end.
Definition sort (l : list nat) : list nat := fold_right insert_sorted [] l.

(** cc:357-362: for i, k = keep[i]: CHECK(i <= k); column k moves to column i. *)
Fixpoint compact (i : nat) (ks : list nat) (p n : list vec) : outcome (list vec * list vec) :=
  match ks with
  | [] => Ok (p, n)
  | k :: r =>
      let* _ := check (Nat.leb i k) in
      let* a := get p k in let* p' := set p i a in
      let* b := get n k in let* n' := set n i b in
      compact (S i) r p' n'
  end.

(** points.rowwise().minCoeff() / maxCoeff(); undefined for an empty matrix. *)
Definition qmin (a b : Q) : Q := if qlt b a then b else a.
Definition qmax (a b : Q) : Q := if qlt a b then b else a.
Definition low (l : list vec) : vec :=
  match l with [] => vzero | p :: r =>
    fold_left (fun a b => mkVec (qmin (x_ a) (x_ b)) (qmin (y_ a) (y_ b)) (qmin (z_ a) (z_ b))) r p end.
Definition high (l : list vec) : vec :=
  match l with [] => vzero | p :: r =>
    fold_left (fun a b => mkVec (qmax (x_ a) (x_ b)) (qmax (y_ a) (y_ b)) (qmax (z_ a) (z_ b))) r p end.

(** EigenPointCloud::CalculateNormals, cc:347-368.  normals.resize leaves the columns
    uninitialised (here: zero; every column that is kept was written before).
    conservativeResize to [keep.size()] columns. *)
Definition calculate_normals (c : ecloud) : outcome ecloud :=
  let n := length (points c) in
  if Nat.eqb n 0 then UB else
  let c0 := mkE (points c) (repeat vzero n) (indices c) (keep c) (factors c) in
  let* c1 := build_normals (S n) c0 0 n (low (points c)) (high (points c)) in
  let ks := sort (keep c1) in
  let m := length ks in
  let* r := compact 0 ks (points c1) (normals c1) in
  (* growing would expose uninitialised columns *)
  if Nat.ltb (length (points c1)) m then UB else
  Ok (mkE (firstn m (fst r)) (firstn m (snd r)) (indices c1) ks (factors c1)).

End Normals.

(** FromPointCloud, cc:328-345. *)
Definition from_points (l : list vec) : outcome ecloud :=
  let n := length l in
  let* _ := check (negb (Nat.eqb n 0)) in
  Ok (mkE l [] (seq 0 n) [] (map (fun i => inject_Z (Z.of_nat i) / inject_Z (Z.of_nat n)) (seq 0 n))%Q).

(** The sizes test of ApplyMotionCompensation, cc:306-309; the rest is modelled as [UB] for
    a non-empty cloud because the loop variable [transform] is initialised from itself
    (cc:312-313). *)
Definition motion_compensation (c : ecloud) : outcome ecloud :=
  let* _ := check (Nat.eqb (length (points c)) (length (factors c))) in
  if Nat.eqb (length (points c)) 0 then Ok c else UB.

(** A 4x4 matrix with last row (0 0 0 1): three rows of the linear part and the translation. *)
Record affine := mkAffine { r1 : vec; r2 : vec; r3 : vec; tr : vec }.
Definition dot (a b : vec) : Q := x_ a * x_ b + y_ a * y_ b + z_ a * z_ b.
Definition linear (T : affine) (v : vec) : vec := mkVec (dot (r1 T) v) (dot (r2 T) v) (dot (r3 T) v).

(** EigenPointCloud::ApplyTransform, cc:288-302: points and normals are both extended by a
    homogeneous 1 (setConstant(1.)). *)
Definition homogeneous (T : affine) (v : vec) : vec := vadd (linear T v) (tr T).
Definition apply_transform (T : affine) (c : ecloud) : outcome ecloud :=
  let* _ := check (Nat.ltb 0 (length (points c))) in
  let p := map (homogeneous T) (points c) in
  if Nat.ltb 0 (length (normals c)) then
    let* _ := check (Nat.eqb (length (normals c)) (length (points c))) in
    Ok (mkE p (map (homogeneous T) (normals c)) (indices c) (keep c) (factors c))
  else Ok (mkE p (normals c) (indices c) (keep c) (factors c)).
