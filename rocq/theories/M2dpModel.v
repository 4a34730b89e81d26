(** Model of descriptor/m2dp.{h,cc} and of FrameBase::CalculateDescriptor, builder/frame_base.cc:107-114.

    Exact real arithmetic; indices are unbounded integers.  Oracles: pcl::PCA (the projected points) and
    Eigen::JacobiSVD (the first singular vectors, one after the other). *)
From Coq Require Import Reals ZArith List Bool.
From Verif Require Import Outcome RigidModel.
Import ListNotations.
Local Open Scope outcome_scope.
Local Open Scope R_scope.

(** The arguments of the constructor, m2dp.cc:37-43; defaults in m2dp.h:49-50. *)
Record params := mkPar { par_r : R; par_max : R; par_t : Z; par_p : nat; par_q : nat }.
Definition defaults : params := mkPar (1 / 10) 100 16 4 16.
(** inner_cloud_, l_ (None: not initialised) and descriptor_. *)
Record m2dp := mkM2 { kept : list vec; l_ : option Z; descriptor : list R }.
Definition fresh : m2dp := mkM2 [] None [].

Definition floor (x : R) : Z := Int_part x.
Definition ceil (x : R) : Z := (- Int_part (- x))%Z.
(** getLength, m2dp.cc:32-35. *)
Definition get_length (a : vec) : R := sqrt (vx a * vx a + vy a * vy a + vz a * vz a).
(** preProcess, m2dp.cc:45-71.  The member cloud is not cleared.  The square root of a negative number is NaN,
    its conversion to int undefined. *)
Definition pre_process (pca : list vec -> list vec) (par : params) (s : m2dp) (source : list vec) : outcome m2dp :=
  let k := kept s ++ filter (fun p => if Rle_dec (get_length p) (par_max par) then true else false) (pca source) in
  if Rlt_dec (par_r par) (1 / 1000000) then Ok (mkM2 k (l_ s) (descriptor s))
  else if Rlt_dec (par_max par / par_r par) 0 then UB
  else Ok (mkM2 k (Some (ceil (sqrt (par_max par / par_r par)))) (descriptor s)).

(** The normal and the two axes of a view, m2dp.cc:74-83.  norm() of a 1x1 matrix is the absolute value. *)
Definition view_normal (theta phi : R) : vec := mkV (cos theta * cos phi) (cos theta * sin phi) (sin theta).
Definition x_axis (m : vec) : vec := vsub (mkV 1 0 0) (vscale (Rabs (dot (mkV 1 0 0) m)) m).
Definition y_axis (m : vec) : vec := cross m (x_axis m).
(** calulate_polar, m2dp.cc:86-93. *)
Definition polar (p : R * R) : R * R :=
  let a := atan2 (snd p) (fst p) in
  (sqrt (fst p * fst p + snd p * snd p), if Rlt_dec a 0 then a + PI * 2 else a).
(** The index of a point, m2dp.cc:99-115. *)
Definition project (m p : vec) : R * R := (Rabs (dot p (x_axis m)), Rabs (dot p (y_axis m))).
Definition clip (i n : Z) : Z := if (i >? n - 1)%Z then (n - 1)%Z else i.
Definition index (par : params) (l : Z) (m p : vec) : Z :=
  let c := polar (project m p) in
  let step := PI * 2 / IZR (par_t par) in
  let l_index := clip (floor (sqrt (fst c / par_r par))) l in
  let t_index := clip (floor (snd c / step)) (par_t par) in
  (l_index * par_t par + t_index)%Z.
(** row[index]++, m2dp.cc:118: undefined outside of the row. *)
Fixpoint bump (row : list nat) (i : nat) : list nat :=
  match row, i with
  | [], _ => []
  | x :: r, O => S x :: r
  | x :: r, S j => x :: bump r j
  end.
Definition add_point (row : list nat) (i : Z) : outcome (list nat) :=
  if ((0 <=? i) && (i <? Z.of_nat (length row)))%Z%bool then Ok (bump row (Z.to_nat i)) else UB.
Fixpoint fill (row : list nat) (is : list Z) : outcome (list nat) :=
  match is with
  | [] => Ok row
  | i :: r => let* row' := add_point row i in fill row' r
  end.
(** singleViewProcess, m2dp.cc:73-122. *)
Definition single_view (par : params) (l : Z) (cloud : list vec) (theta phi : R) : outcome (list nat) :=
  let m := view_normal theta phi in
  fill (repeat 0%nat (Z.to_nat (l * par_t par))) (map (index par l m) cloud).
(** The rows of A, m2dp.cc:134-141. *)
Definition views (par : params) : list (R * R) :=
  flat_map (fun p => map (fun q => (INR p * (PI / INR (par_p par)), INR q * (PI / 2 / INR (par_q par)))) (seq 0 (par_q par)))
           (seq 0 (par_p par)).
Fixpoint rows (par : params) (l : Z) (cloud : list vec) (vs : list (R * R)) : outcome (list (list nat)) :=
  match vs with
  | [] => Ok []
  | (th, ph) :: r => let* x := single_view par l cloud th ph in let* xs := rows par l cloud r in Ok (x :: xs)
  end.
(** setInputCloud, m2dp.cc:124-154.  Reading l_ before it was written is undefined. *)
Definition set_input_cloud (pca : list vec -> list vec) (svd : list (list nat) -> list R) (par : params) (s : m2dp) (source : list vec)
  : outcome (m2dp * bool) :=
  match source with
  | [] => Ok (s, false)
  | _ =>
      let* s1 := pre_process pca par s source in
      match l_ s1 with
      | None => UB
      | Some l =>
          let* a := rows par l (kept s1) (views par) in
          Ok (mkM2 (kept s1) (l_ s1) (svd a), true)
      end
  end.
(** CalculateDescriptor, frame_base.cc:107-114: [d] is the descriptor the frame has already. *)
Definition calculate_descriptor (pca : list vec -> list vec) (svd : list (list nat) -> list R) (cloud : list vec) (d : list R) : outcome (list R) :=
  let* r := set_input_cloud pca svd defaults fresh cloud in
  Ok (if snd r then descriptor (fst r) else d).

(** matchTwoM2dpDescriptors, m2dp.cc:156-178.  With a zero divisor the program computes NaN, here [None]. *)
Definition rsum (l : list R) : R := fold_right Rplus 0 l.
Fixpoint rdot (a b : list R) : R :=
  match a, b with x :: a', y :: b' => x * y + rdot a' b' | _, _ => 0 end.
Definition match_score (P Q : list R) : option R :=
  if (negb (Nat.eqb (length P) (length Q)) || Nat.ltb (length P) 10)%bool then Some (-1)
  else
    let n := INR (length P) in
    let d := sqrt ((n * rdot P P - rsum P * rsum P) * (n * rdot Q Q - rsum Q * rsum Q)) in
    if Req_EM_T d 0 then None else Some (Rabs ((n * rdot P Q - rsum P * rsum Q) / d)).
(** The test of the loop detector, back_end/loop_detector.cc:112-119: NaN is not greater than anything. *)
Definition alike (limit : R) (P Q : list R) : bool :=
  match match_score P Q with Some s => if Rlt_dec limit s then true else false | None => false end.
