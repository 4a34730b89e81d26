(** Model of the numbers in the text files: path.csv of Trajectory::OutputPathToPointcloud
    (builder/trajectory.cc:117-126, 138-141), kitti_pose.txt of MapBuilder::OutputPath
    (builder/map_builder.cc:627-641) and path.csv of the tool path_statistic
    (tools/path_statistic.cc:28-60).

    std::to_string of a float or double is the C format "%f", and operator<< after
    std::setprecision(8) is "%.8g"; both print the exact value, rounded to the nearest decimal and
    to an even last digit between two, as the GNU C library does in the default rounding mode and
    the C locale.  The sign of a NaN is not modelled. *)
From Coq Require Import ZArith List Bool String Ascii SpecFloat.
From Verif Require Import IdsModel.
Import ListNotations.
Local Open Scope string_scope.
Local Open Scope Z_scope.

(** [a / b] rounded to the nearest number, the even one if there are two. *)
Definition div_even (a b : Z) : Z :=
  let q := a / b in
  match 2 * (a mod b) ?= b with
  | Lt => q
  | Gt => q + 1
  | Eq => if Z.even q then q else q + 1
  end.
Definition sign (s : bool) : string := if s then "-" else "".
Definition digit_char (d : Z) : ascii := ascii_of_nat (48 + Z.to_nat d).
(** The last [k] decimal digits of [n]. *)
Fixpoint last_digits (k : nat) (n : Z) : string :=
  match k with
  | O => ""
  | S j => String (digit_char (n / 10 ^ Z.of_nat j mod 10)) (last_digits j n)
  end.
(** [n / 10^k] with [k] decimals. *)
Definition fixed (k : nat) (n : Z) : string :=
  to_string (n / 10 ^ Z.of_nat k) ++ match k with O => "" | _ => "." ++ last_digits k n end.

(** "%f": six decimals. *)
Definition micro (m : positive) (e : Z) : Z :=
  if 0 <=? e then Zpos m * 2 ^ e * 10 ^ 6 else div_even (Zpos m * 10 ^ 6) (2 ^ (- e)).
Definition print_f (x : spec_float) : string :=
  match x with
  | S754_zero s => sign s ++ fixed 6 0
  | S754_finite s m e => sign s ++ fixed 6 (micro m e)
  | S754_infinity s => sign s ++ "inf"
  | S754_nan => "nan"
  end.

(** "%.8g".  [V / 10^D] is the exact value, [width] its number of digits without the point. *)
Definition exact (m : positive) (e : Z) : Z * Z :=
  if 0 <=? e then (Zpos m * 2 ^ e, 0) else (Zpos m * 5 ^ (- e), - e).
Fixpoint width_from (fuel : nat) (v : Z) : Z :=
  match fuel with
  | O => 1
  | S f => if v <? 10 then 1 else 1 + width_from f (v / 10)
  end.
Definition width (v : Z) : Z := width_from (Z.to_nat (Z.log2 v)) v.
(** The eight digits and the decimal exponent of the first one. *)
Definition digits8 (m : positive) (e : Z) : Z * Z :=
  let (V, D) := exact m e in
  let w := width V in
  let n := if w <=? 8 then V * 10 ^ (8 - w) else div_even V (10 ^ (w - 8)) in
  if n =? 10 ^ 8 then (10 ^ 7, w - D) else (n, w - 1 - D).
(** Zeros at the end of the decimals are dropped. *)
Fixpoint strip (k : nat) (n : Z) : nat * Z :=
  match k with
  | O => (O, n)
  | S j => if n mod 10 =? 0 then strip j (n / 10) else (k, n)
  end.
(** The exponent has at least two digits. *)
Definition exponent (X : Z) : string :=
  (if X <? 0 then "-" else "+") ++ (if Z.abs X <? 10 then "0" else "") ++ to_string (Z.abs X).
Definition general (m : positive) (e : Z) : string :=
  let (n, X) := digits8 m e in
  if (-4 <=? X) && (X <? 8)
  then let (k, n') := strip (Z.to_nat (7 - X)) n in fixed k n'
  else let (k, n') := strip 7 n in fixed k n' ++ "e" ++ exponent X.
Definition print_g (x : spec_float) : string :=
  match x with
  | S754_zero s => sign s ++ "0"
  | S754_finite s m e => sign s ++ general m e
  | S754_infinity s => sign s ++ "inf"
  | S754_nan => "nan"
  end.

Definition newline : string := String (ascii_of_nat 10) "".
Definition sum_text {A} (f : A -> string) (l : list A) : string := fold_right (fun a s => f a ++ s) "" l.

(** path.csv of the trajectory, trajectory.cc:117-126: index, x, y, z, roll, pitch, yaw. *)
Record pose6 := mkPose { p0 : spec_float; p1 : spec_float; p2 : spec_float; p3 : spec_float; p4 : spec_float; p5 : spec_float }.
Definition path_row (r : Z * pose6) : string :=
  let (i, p) := r in
  to_string i ++ ", " ++ print_f (p0 p) ++ ", " ++ print_f (p1 p) ++ ", " ++ print_f (p2 p) ++ ", " ++
  print_f (p3 p) ++ ", " ++ print_f (p4 p) ++ ", " ++ print_f (p5 p) ++ " " ++ newline.
Definition path_text (rows : list (Z * pose6)) : string := sum_text path_row rows.

(** kitti_pose.txt, map_builder.cc:631-638: the first three rows of the matrix of each submap. *)
Fixpoint spaced (l : list spec_float) : string :=
  match l with
  | [] => newline
  | [x] => print_g x ++ newline
  | x :: r => print_g x ++ " " ++ spaced r
  end.
Definition matrix : Type := nat -> nat -> spec_float.
Definition kitti_row (a : matrix) : string :=
  spaced [a 0%nat 0%nat; a 0%nat 1%nat; a 0%nat 2%nat; a 0%nat 3%nat;
          a 1%nat 0%nat; a 1%nat 1%nat; a 1%nat 2%nat; a 1%nat 3%nat;
          a 2%nat 0%nat; a 2%nat 1%nat; a 2%nat 2%nat; a 2%nat 3%nat].
Definition kitti_text (l : list matrix) : string := sum_text kitti_row l.

(** The tool path_statistic.  pcl::PointXYZI; a float is printed as a double of the same value. *)
Record pointI := mkI { ix : spec_float; iy : spec_float; iz : spec_float; intensity : spec_float }.
(** path_statistic.cc:47-51. *)
Definition csv_row (p : pointI) : string :=
  print_f (ix p) ++ "," ++ print_f (iy p) ++ "," ++ print_f (iz p) ++ "," ++ print_f (intensity p) ++ newline.
(** main, path_statistic.cc:28-60.  [name]: the argument of -pc; [load]: the points of the file, None if
    it cannot be read; [opens]: path.csv can be written.  The exit code, and the text written to
    path.csv if it was. *)
Record exit := mkExit { code : Z; written : option string }.
Definition path_statistic (name : string) (load : option (list pointI)) (opens : bool) : exit :=
  if String.eqb name "" then mkExit (-1) None
  else match load with
       | None => mkExit (-1) None
       | Some l => mkExit 0 (if opens then Some (sum_text csv_row l) else None)
       end.
