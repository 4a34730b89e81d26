(** Model of IsamOptimizer::AnalyseAllFramePoseForMaxRotation, back_end/isam_optimizer.cc:175-195, and of
    the test that uses it, 266-268: the GPS frame is first estimated when a pose is turned far enough from
    the first one.  IsamModel.v has the rest of AddFrame; the test is its parameter [turned].

    The function is given once, for any kind of numbers: with real numbers (exact arithmetic) and with
    IEEE binary64 (doubles). *)
From Coq Require Import List Bool ZArith Reals SpecFloat Permutation.
From Verif Require Import Outcome RigidModel.
Import ListNotations.

Section Turn.
Variables N M : Type.
(** v0.dot(v_f) with v = GlobalRotation() * (1, 0, 0) of two frames, 183-188. *)
Variable heading_dot : M -> M -> N.
Variables acos_ fabs_ : N -> N.
Variable lt : N -> N -> Prop.
Variable zero : N.

(** delta_rotations, 185-189. *)
Definition rotations (fs : list M) : list N :=
  match fs with [] => [] | m0 :: _ => map (fun m => fabs_ (acos_ (heading_dot m0 m))) fs end.
(** What std::sort demands of operator< on the elements ([alg.sorting]): a strict weak ordering. *)
Definition strict_weak (l : list N) : Prop :=
  (forall a, In a l -> ~ lt a a) /\
  (forall a b c, In a l -> In b l -> In c l -> lt a b -> lt b c -> lt a c) /\
  (forall a b c, In a l -> In b l -> In c l -> ~ lt a b -> ~ lt b a -> ~ lt b c -> ~ lt c b -> ~ lt a c).
Definition sorted (l : list N) : Prop :=
  forall i j a b, i < j -> nth_error l i = Some a -> nth_error l j = Some b -> ~ lt b a.
(** The possible results of the function.  Of elements that are equivalent std::sort may put any last. *)
Inductive analyse (fs : list M) : outcome N -> Prop :=
| few : length fs <= 1 -> analyse fs (Ok zero)
| last_one l a : 1 < length fs -> strict_weak (rotations fs) -> Permutation (rotations fs) (l ++ [a]) -> sorted (l ++ [a]) ->
    analyse fs (Ok a)
| not_ordered : 1 < length fs -> ~ strict_weak (rotations fs) -> analyse fs UB.
(** 266-268: the GPS frame is not estimated as long as this is below gps_factor_init_angle_rad. *)
Definition waits (r angle : N) : Prop := lt r angle.
End Turn.

(** Exact arithmetic. *)
Definition x_axis : vec := mkV 1 0 0.
Definition r_dot (a b : mat) : R := dot (mvec a x_axis) (mvec b x_axis).
Definition r_analyse : list mat -> outcome R -> Prop := analyse R mat r_dot acos Rabs Rlt 0%R.

(** Doubles.  A frame is given by the first column of its rotation, which is what the product with
    (1, 0, 0) gives for finite entries; the sum of the three products is associated as Eigen unrolls it
    (without contraction to fused multiply-add). *)
Definition d64 := spec_float.
Record col := mkCol { c0 : d64; c1 : d64; c2 : d64 }.
Definition dmul := SFmul 53 1024.
Definition dadd := SFadd 53 1024.
Definition dsub := SFsub 53 1024.
Definition d_dot (a b : col) : d64 := dadd (dmul (c0 a) (c0 b)) (dadd (dmul (c1 a) (c1 b)) (dmul (c2 a) (c2 b))).
Definition d_lt (a b : d64) : Prop := SFltb a b = true.
Definition d_analyse (dacos : d64 -> d64) : list col -> outcome d64 -> Prop :=
  analyse d64 col d_dot dacos SFabs d_lt (S754_zero false).
(** The first column of Eigen's toRotationMatrix for the quaternion w, x, y, z, cf. to_matrix in RigidModel.v. *)
Definition d_one : d64 := S754_finite false 4503599627370496 (-52).
Definition d_two : d64 := S754_finite false 4503599627370496 (-51).
Definition d_column (w x y z : d64) : col :=
  let ty := dmul d_two y in let tz := dmul d_two z in
  mkCol (dsub d_one (dadd (dmul ty y) (dmul tz z))) (dadd (dmul ty x) (dmul tz w)) (dsub (dmul tz x) (dmul ty w)).
