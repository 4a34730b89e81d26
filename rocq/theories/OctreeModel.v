(** Model of common/bounding_box.{h,cc} (CubeBoundingBox) and common/octree.{h,cc}.

    The code computes in double.  The model is written once over an arithmetic [arith]
    and used with two instances: exact rationals [QA] (no rounding; this is the instance
    of most theorems) and IEEE binary64 [FA] (Coq.Floats.SpecFloat), in which rounding is
    modelled bit for bit. *)
From Coq Require Import List Bool ZArith QArith Qabs Floats.SpecFloat Lia.
From Verif Require Import Outcome.
Import ListNotations.
Local Open Scope outcome_scope.

(** The operations on double that the two files use. *)
Record arith := mkArith {
  num : Type;
  zero : num;
  add : num -> num -> num;
  sub : num -> num -> num;
  half : num -> num;              (* 0.5 * x, x * 0.5 *)
  absn : num -> num;
  leb : num -> num -> bool;
  ltb : num -> num -> bool;
  (* glog CHECK_DOUBLE_EQ(a, b): a <= b + 1e-15L and a >= b - 1e-15L *)
  double_eq : num -> num -> bool }.

(** 10^-15. *)
Definition glog_margin : Q := 1 # 1000000000000000.

(** Exact arithmetic. *)
Definition Qleb (a b : Q) : bool := Qle_bool a b.
Definition Qltb_ (a b : Q) : bool := negb (Qle_bool b a).
Definition QA : arith := mkArith Q 0 Qplus Qminus (fun x => (1 # 2) * x) Qabs Qleb Qltb_
  (fun a b => Qleb a (b + glog_margin) && Qleb (b - glog_margin) a).

(** IEEE binary64.  The long double sum b + 1e-15L is taken as exact. *)
Definition f64_half : spec_float := S754_finite false 4503599627370496 (-53).
Definition f64_to_Q (x : spec_float) : option Q :=
  match x with
  | S754_zero _ => Some 0%Q
  | S754_finite s m e =>
      let v := match e with
               | Zneg p => Zpos m # (2 ^ p)
               | _ => inject_Z (Zpos m * 2 ^ e)
               end in
      Some (if s then Qopp v else v)
  | _ => None
  end.
Definition FA : arith := mkArith spec_float (S754_zero false)
  (SFadd 53 1024) (SFsub 53 1024) (SFmul 53 1024 f64_half) SFabs
  SFleb SFltb
  (fun a b => match f64_to_Q a, f64_to_Q b with
              | Some x, Some y => Qleb x (y + glog_margin) && Qleb (y - glog_margin) x
              | _, _ => false
              end).

Section Octree.
Variable A : arith.
Notation T := (num A).

Record v3 := V { vx : T; vy : T; vz : T }.
Definition vadd (a b : v3) := V (add A (vx a) (vx b)) (add A (vy a) (vy b)) (add A (vz a) (vz b)).
Definition vsub (a b : v3) := V (sub A (vx a) (vx b)) (sub A (vy a) (vy b)) (sub A (vz a) (vz b)).
Definition vhalf (a : v3) := V (half A (vx a)) (half A (vy a)) (half A (vz a)).
Definition vabs (a : v3) := V (absn A (vx a)) (absn A (vy a)) (absn A (vz a)).
Definition vconst (c : T) := V c c c.

(** The data members of CubeBoundingBox, bounding_box.h:50-56. *)
Record cube := mkCube { c_center : v3; c_min : v3; c_max : v3; c_size : T; c_half : T }.

(** CubeBoundingBox(center, size), bounding_box.cc:30-35. *)
Definition cube_of_center (center : v3) (size : T) : cube :=
  mkCube center (vsub center (vconst (half A size))) (vadd center (vconst (half A size)))
         size (half A size).

(** CubeBoundingBox(min, max), bounding_box.cc:37-46. *)
Definition cube_of_corners (mn mx : v3) : outcome cube :=
  let size := sub A (vx mx) (vx mn) in
  let* _ := check (double_eq A (sub A (vy mx) (vy mn)) size) in
  let* _ := check (double_eq A (sub A (vz mx) (vz mn)) size) in
  Ok (mkCube (vhalf (vadd mn mx)) mn mx size (half A size)).

(** GenerateSubBoxes, bounding_box.cc:48-72. *)
Definition sub_offsets (h : T) : list v3 :=
  let o := zero A in
  [V o o o; V h o o; V h h o; V o h o; V o o h; V h o h; V h h h; V o h h].
Fixpoint mapM {X Y} (f : X -> outcome Y) (l : list X) : outcome (list Y) :=
  match l with
  | [] => Ok []
  | x :: r => let* y := f x in let* ys := mapM f r in Ok (y :: ys)
  end.
(** The first entry is CubeBoundingBox(center_, max_); x - 0 = x in IEEE and exact
    arithmetic, so subtracting the zero offset changes nothing. *)
Definition generate_sub_boxes (b : cube) : outcome (list cube) :=
  mapM (fun off => cube_of_corners (vsub (c_center b) off) (vsub (c_max b) off))
       (sub_offsets (c_half b)).

(** CubeBoundingBox::ContainsPoint, bounding_box.cc:103-107. *)
Definition contains_point (b : cube) (p : v3) : bool :=
  let o := vabs (vsub p (c_center b)) in
  leb A (vx o) (c_half b) && leb A (vy o) (c_half b) && leb A (vz o) (c_half b).

(** GetSubBoxIndexForPoint, bounding_box.cc:74-101. *)
Definition sub_box_index (b : cube) (p : v3) : Z :=
  if negb (contains_point b p) then (-1)%Z else
  let o := vsub p (c_center b) in
  let index :=
    if leb A (zero A) (vx o) then (if leb A (zero A) (vy o) then 0 else 3)%Z
    else (if leb A (zero A) (vy o) then 1 else 2)%Z in
  if ltb A (vz o) (zero A) then (index + 4)%Z else index.

(** OctreeNode, octree.h:45-60: a leaf with its points or a node with children. *)
Inductive tree :=
| Leaf (depth : Z) (box : cube) (points : list v3)
| Node (depth : Z) (box : cube) (children : list tree).

(** OctreeConfig, octree.h:38-43. *)
Record config := mkConfig {
  cf_center : v3; cf_max_size : T; cf_max_depth : Z; cf_max_points : Z }.

(** points.size() <= max_num_points_in_voxel (octree.cc:47): the int32 is converted to
    size_t, so a negative limit becomes huge. *)
Definition few_points (cfg : config) (points : list v3) : bool :=
  (Z.of_nat (length points) <=? cf_max_points cfg mod 2 ^ 64)%Z.

(** octree.cc:55-63: distributing the points over the eight sub-boxes (CHECK_LT cannot
    fail because the index is at most 7). *)
Definition points_of_box (b : cube) (points : list v3) (i : Z) : list v3 :=
  filter (fun p => (sub_box_index b p =? i)%Z) points.

(** BuildTree, octree.cc:39-72.  The member max_depth_ is threaded through.  The recursion
    is on explicit fuel; [None] is out of fuel (the C++ recursion goes on). *)
Fixpoint build_list (rec : cube -> list v3 -> Z -> option (outcome (tree * Z)))
  (b : cube) (points : list v3) (boxes : list cube) (i : Z) (md : Z)
  : option (outcome (list tree * Z)) :=
  match boxes with
  | [] => Some (Ok ([], md))
  | bx :: r =>
      match rec bx (points_of_box b points i) md with
      | Some (Ok (t, md1)) =>
          match build_list rec b points r (i + 1)%Z md1 with
          | Some (Ok (ts, md2)) => Some (Ok (t :: ts, md2))
          | o => o
          end
      | Some Abort => Some Abort
      | Some UB => Some UB
      | Some Throw => Some Throw
      | None => None
      end
  end.

Fixpoint build_tree (fuel : nat) (cfg : config) (depth : Z) (b : cube)
  (points : list v3) (md : Z) : option (outcome (tree * Z)) :=
  match fuel with
  | O => None
  | S fuel' =>
      if (depth =? cf_max_depth cfg)%Z || few_points cfg points then
        Some (Ok (Leaf depth b points, Z.max md depth))
      else
        match generate_sub_boxes b with
        | Ok boxes =>
            match build_list (build_tree fuel' cfg (depth + 1)%Z) b points boxes 0 md with
            | Some (Ok (ts, md')) => Some (Ok (Node depth b ts, md'))
            | Some Abort => Some Abort
            | Some UB => Some UB
            | Some Throw => Some Throw
            | None => None
            end
        | Abort => Some Abort
        | UB => Some UB
        | Throw => Some Throw
        end
  end.

(** Octree: root_ and max_depth_ (octree.h:80-83, initially null and 0).
    InitWithPointCloud, octree.cc:74-84, with the columns of the matrix (cut to three
    rows) as a list of points; fuel as above. *)
Record octree := mkOctree { root : option tree; max_depth_seen : Z }.
Definition octree_new : octree := mkOctree None 0.
Definition init_with_cloud (fuel : nat) (cfg : config) (o : octree) (points : list v3)
  : option (outcome octree) :=
  match build_tree fuel cfg 0 (cube_of_center (cf_center cfg) (cf_max_size cfg)) points
          (max_depth_seen o) with
  | Some (Ok (t, md)) => Some (Ok (mkOctree (Some t) md))
  | Some Abort => Some Abort
  | Some UB => Some UB
  | Some Throw => Some Throw
  | None => None
  end.

(** RecursiveOutput, octree.cc:86-104: breadth first, printing (point, depth). *)
Fixpoint output_queue (fuel : nat) (queue : list tree) : option (list (v3 * Z)) :=
  match fuel with
  | O => None
  | S fuel' =>
      match queue with
      | [] => Some []
      | Leaf d _ pts :: q =>
          option_map (app (map (fun p => (p, d)) pts)) (output_queue fuel' q)
      | Node _ _ ch :: q => output_queue fuel' (q ++ ch)
      end
  end.
End Octree.
Arguments V {A}. Arguments vx {A}. Arguments vy {A}. Arguments vz {A}.
Arguments mkCube {A}. Arguments c_center {A}. Arguments c_min {A}. Arguments c_max {A}.
Arguments c_size {A}. Arguments c_half {A}.
Arguments cube_of_center {A}. Arguments cube_of_corners {A}. Arguments generate_sub_boxes {A}.
Arguments contains_point {A}. Arguments sub_box_index {A}.
Arguments Leaf {A}. Arguments Node {A}. Arguments mkConfig {A}. Arguments cf_center {A}.
Arguments cf_max_size {A}. Arguments cf_max_depth {A}. Arguments cf_max_points {A}.
Arguments few_points {A}. Arguments points_of_box {A}. Arguments build_list {A}.
Arguments build_tree {A}. Arguments mkOctree {A}. Arguments root {A}.
Arguments max_depth_seen {A}. Arguments octree_new {A}. Arguments init_with_cloud {A}.
Arguments output_queue {A}.
Arguments vadd {A}. Arguments vsub {A}. Arguments vhalf {A}. Arguments vabs {A}. Arguments vconst {A}.
Arguments sub_offsets {A}.

Definition f64 (m : Z) (e : Z) : spec_float := binary_normalize 53 1024 m e false.
