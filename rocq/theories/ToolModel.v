(** Model of two programs in tools/: pcd_to_las.cc (a map cloud as LAS file) and pcd_sampler.cc
    (a random part of a map cloud).  Argument parsing is pcl::console::parse_argument: the value after
    an option, or the default.  PCL's reader and liblas' writer are parameters: what the programs hand
    to them and take from them is modelled. *)
From Coq Require Import ZArith String List Bool SpecFloat.
From Verif Require Import Outcome TimeModel FilterModel CloudFileModel.
Import ListNotations.
Local Open Scope outcome_scope.
Local Open Scope Z_scope.

(** The number an IEEE-754 bit pattern stands for: [mw] bits of mantissa and [ew] of exponent
    (23 and 8 for float, 52 and 11 for double).  memcpy into a float or a double,
    pcd_to_las.cc:73-80. *)
Definition decode (mw ew : Z) (b : Z) : spec_float :=
  let s := Z.testbit b (mw + ew) in
  let e := (b / 2 ^ mw) mod 2 ^ ew in
  let m := b mod 2 ^ mw in
  let emin := 3 - 2 ^ (ew - 1) - (mw + 1) in
  if e =? 0 then match m with Zpos p => S754_finite s p emin | _ => S754_zero s end
  else if e =? 2 ^ ew - 1 then if m =? 0 then S754_infinity s else S754_nan
  else match m + 2 ^ mw with Zpos p => S754_finite s p (e - 1 + emin) | _ => S754_zero s end.

(** pcl::PCLPointField (name, offset, datatype; the count is not looked at) and pcl::PCLPointCloud2
    (height, width, fields, point_step, data), as read by pcd_to_las.cc:47, 72, 88-93, 104. *)
Record field := mkField { f_name : string; f_offset : nat; f_type : Z }.
Record pcl2 := mkPcl2 { height : Z; width : Z; fields : list field; step : nat; bytes : list Z }.
Definition float32 : Z := 7.
Definition float64 : Z := 8.
(** An object just constructed. *)
Definition no_pcl2 : pcl2 := mkPcl2 0 0 [] 0 [].

(** memcpy(&value, point_data_start + field.offset, n): reading behind the end of cloud.data is
    undefined. *)
Definition fetch (data : list Z) (at_ n : nat) : outcome Z :=
  if Nat.leb (at_ + n) (length data) then Ok (unle (chunk at_ n data)) else UB.

(** get_field_value_f, pcd_to_las.cc:69-86. *)
Definition field_value (data : list Z) (at_ : nat) (f : field) : outcome spec_float :=
  if f_type f =? float32 then let* b := fetch data (at_ + f_offset f) 4 in Ok (widen (decode 23 8 b))
  else if f_type f =? float64 then let* b := fetch data (at_ + f_offset f) 8 in Ok (decode 52 11 b)
  else Ok (S754_zero false).

(** The coordinates handed to SetX, SetY and SetZ; those of a new liblas::Point are 0. *)
Record las := mkLas { l_x : spec_float; l_y : spec_float; l_z : spec_float }.
Definition new_las : las := mkLas (S754_zero false) (S754_zero false) (S754_zero false).

(** The loop over the fields, pcd_to_las.cc:92-102. *)
Definition set_field (data : list Z) (at_ : nat) (p : las) (f : field) : outcome las :=
  let* p1 := if String.eqb (f_name f) "x" then let* v := field_value data at_ f in Ok (mkLas v (l_y p) (l_z p)) else Ok p in
  let* p2 := if String.eqb (f_name f) "y" then let* v := field_value data at_ f in Ok (mkLas (l_x p1) v (l_z p1)) else Ok p1 in
  if String.eqb (f_name f) "z" then let* v := field_value data at_ f in Ok (mkLas (l_x p2) (l_y p2) v) else Ok p2.
Fixpoint set_fields (data : list Z) (at_ : nat) (p : las) (fs : list field) : outcome las :=
  match fs with [] => Ok p | f :: r => let* q := set_field data at_ p f in set_fields data at_ q r end.

(** The loop over the points, pcd_to_las.cc:90-105, from the byte [at_].  (Moving the pointer itself
    behind the end of the data is not counted as a failure, only reading there.) *)
Fixpoint las_points (n : nat) (c : pcl2) (at_ : nat) : outcome (list las) :=
  match n with
  | O => Ok []
  | S m =>
      let* p := set_fields (bytes c) at_ new_las (fields c) in
      let* ps := las_points m c (at_ + step c) in Ok (p :: ps)
  end.
(** const int32_t point_size = cloud.height * cloud.width, pcd_to_las.cc:88: a product of two
    uint32_t, modulo 2^32, converted to int32_t. *)
Definition point_size (c : pcl2) : Z := (height c * width c + 2 ^ 31) mod 2 ^ 32 - 2 ^ 31.
Definition convert (c : pcl2) : outcome (list las) := las_points (Z.to_nat (point_size c)) c 0.

(** main, pcd_to_las.cc:31-108: [load] is loadPCDFile, which returns a code and the cloud it left;
    [opens] tells whether a file can be opened for writing.  The result is the exit code and the file
    written. *)
Definition pcd_to_las (load : string -> Z * pcl2) (opens : string -> bool) (input output : string) : outcome (Z * option (string * list las)) :=
  if String.eqb input "" then Ok (-1, None)
  else
    let output := if String.eqb output "" then (input ++ ".las")%string else output in
    let cloud := snd (load input) in
    if negb (opens output) then Ok (-1, None)
    else let* ps := convert cloud in Ok (0, Some (output, ps)).

(** cloud->size() * ratio: the size as float, pcd_sampler.cc:50. *)
Definition of_size (n : Z) : fl := binary_normalize 24 128 n 0 false.
(** static_cast<int>(cloud->size() * ratio), pcd_sampler.cc:50. *)
Definition sample_count (n : Z) (ratio : fl) : outcome Z := to_int (fmul (of_size n) ratio).
(** float ratio = 0.05, pcd_sampler.cc:37. *)
Definition default_ratio : fl := S754_finite false 13421773 (-28).
(** main, pcd_sampler.cc:29-59: setSample takes an unsigned int; pcl::RandomSample returns all points
    if the sample is not smaller than the cloud and otherwise [pick]s as many as asked for.
    savePCDFileBinaryCompressed throws for an empty cloud in some versions of PCL ([strict]). *)
Definition pcd_sampler {P : Type} (strict : bool) (load : string -> option (list P)) (pick : nat -> list P -> list P)
    (input : string) (ratio : option fl) : outcome (Z * option (list P)) :=
  if String.eqb input "" then Ok (-1, None)
  else
    match load input with
    | None => Ok (-1, None)
    | Some c =>
        let r := match ratio with Some r => r | None => default_ratio end in
        let* k := sample_count (Z.of_nat (length c)) r in
        let sample := k mod 2 ^ 32 in
        let out := if Z.of_nat (length c) <=? sample then c else pick (Z.to_nat sample) c in
        if strict && Nat.eqb (length out) 0 then Throw else Ok (0, Some out)
    end.
