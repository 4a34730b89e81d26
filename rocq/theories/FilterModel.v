(** Model of the filters in pre_processors/: processor_interface.h, filter_interface.cc,
    filter_range.cc, filter_axis_range.cc, filter_bounding_box.cc, filter_random_sample.cc,
    filter_statistic_removal.cc, filter_voxel_grid.cc, filter_ground_removal.cc and
    filter_factory.cc, and of the use of the chain in builder/data/data_collector.cc.

    Floats are IEEE-754 binary32 values (SpecFloat), every operation rounded to binary32. *)
From Coq Require Import ZArith List Bool SpecFloat.
From Verif Require Import Outcome TimeModel.
Import ListNotations.
Local Open Scope outcome_scope.

Definition fl : Type := spec_float.
Definition fmul := SFmul 24 128.
Definition fadd := SFadd 24 128.
Definition fsub := SFsub 24 128.
Definition fdiv := SFdiv 24 128.
Definition fsqrt := SFsqrt 24 128.
(** std::numeric_limits<float>::max(). *)
Definition flt_max : fl := S754_finite false 16777215 104.
Definition flt_lowest : fl := S754_finite true 16777215 104.

(** InnerPointType and InnerCloudType, builder/data/cloud_types.h:46-62. *)
Record point := mkPoint { px : fl; py : fl; pz : fl; pi : fl; pf : fl }.
Record cloud := mkCloud { stamp : time; points : list point }.
(** A default constructed InnerCloudType. *)
Definition no_cloud : cloud := mkCloud time_zero [].

(** shared_ptr<InnerCloudType>: None is null, otherwise an address in the heap. *)
Definition heap : Type := nat -> cloud.
Definition upd (h : heap) (a : nat) (c : cloud) : heap := fun b => if Nat.eqb b a then c else h b.

(** Conversion of a float to int: undefined for NaN, infinities and values out of range. *)
Definition trunc_fl (x : fl) : option Z :=
  match x with
  | S754_zero _ => Some 0%Z
  | S754_finite s m e =>
      let a := if (0 <=? e)%Z then (Zpos m * 2 ^ e)%Z else (Zpos m / 2 ^ (- e))%Z in
      Some (if s then (- a)%Z else a)
  | _ => None
  end.
Definition to_int (x : fl) : outcome Z :=
  match trunc_fl x with
  | Some z => if ((- 2 ^ 31 <=? z) && (z <? 2 ^ 31))%Z then Ok z else UB
  | None => UB
  end.

Definition cell : Type := (Z * Z * Z)%type.
Definition cell_lt (a b : cell) : bool :=
  let '(x, y, z) := a in let '(u, v, w) := b in
  ((x <? u) || (x =? u) && ((y <? v) || (y =? v) && (z <? w)))%Z.
Definition cell_eq (a b : cell) : bool :=
  let '(x, y, z) := a in let '(u, v, w) := b in ((x =? u) && (y =? v) && (z =? w))%Z.

(** Float to double and back, and int to double. *)
Definition widen (x : fl) : spec_float :=
  match x with S754_finite s m e => binary_normalize 53 1024 (cond_Zopp s (Zpos m)) e s | _ => x end.
Definition narrow (x : spec_float) : fl :=
  match x with S754_finite s m e => binary_normalize 24 128 (cond_Zopp s (Zpos m)) e s | _ => x end.
Definition of_int (z : Z) : spec_float := binary_normalize 53 1024 z 0 false.

(** std::lround: halfway cases away from zero.  Its value is unspecified for NaN, infinities and
    values that do not fit a long: [odd].  The result is converted to int, modulo 2^32. *)
Definition round_fl (x : fl) : option Z :=
  match x with
  | S754_zero _ => Some 0%Z
  | S754_finite s m e =>
      let a := if (0 <=? e)%Z then (Zpos m * 2 ^ e)%Z else ((2 * Zpos m + 2 ^ (- e)) / (2 * 2 ^ (- e)))%Z in
      Some (if s then (- a)%Z else a)
  | _ => None
  end.
Definition to_int32 (z : Z) : Z := ((z + 2 ^ 31) mod 2 ^ 32 - 2 ^ 31)%Z.
Definition lround (odd : fl -> Z) (x : fl) : Z :=
  to_int32 (match round_fl x with
            | Some z => if ((- 2 ^ 63 <=? z) && (z <? 2 ^ 63))%Z then z else odd x
            | None => odd x
            end).

(** The filters with their parameters.  [Sample]: the draws of distr(eng), one per point, and the
    rate converted to double, as it is compared.  [Voxel]: the results of lround that the standard
    leaves open, and the iteration order of the unordered_map. *)
Inductive kind :=
| Range (min max : fl)
| Axis (min max : fl) (axis : Z)
| Box (x0 y0 z0 x1 y1 z1 : fl)
| Sample (all : bool) (rate : spec_float) (draw : nat -> spec_float)   (* all: sampling_rate_ > 0.999 *)
| Statistic
| Voxel (size : fl) (odd : fl -> Z) (order : list (cell * list point) -> list (cell * list point))
| Ground (leaf height : fl) (least : Z).

(** Members of a filter object.  [voxels] is voxels_ of GroundRemoval, a std::map ordered by
    VectorCompare. *)
Record obj := mkObj { inner : option nat; inliers : list nat; outliers : list nat; voxels : list (cell * list nat) }.
Definition new_obj : obj := mkObj None [] [] [].

(** voxels_[index].push_back(i). *)
Fixpoint put {A} (m : list (cell * list A)) (k : cell) (i : A) : list (cell * list A) :=
  match m with
  | [] => [(k, [i])]
  | (j, l) :: m' => if cell_eq k j then (j, l ++ [i]) :: m'
                    else if cell_lt k j then (k, [i]) :: m
                    else (j, l) :: put m' k i
  end.
Definition ground_cell (leaf : fl) (p : point) : outcome cell :=
  let* x := to_int (fdiv (px p) leaf) in
  let* y := to_int (fdiv (py p) leaf) in
  let* z := to_int (fdiv (pz p) leaf) in
  Ok (x, y, z).
Fixpoint ground_voxels (leaf : fl) (l : list point) (i : nat) (m : list (cell * list nat)) : outcome (list (cell * list nat)) :=
  match l with
  | [] => Ok m
  | p :: l' => let* k := ground_cell leaf p in ground_voxels leaf l' (S i) (put m k i)
  end.

(** SetInputCloud: processor_interface.h:46-55; GroundRemoval overrides it,
    filter_ground_removal.cc:47-65. *)
Definition set_input (k : kind) (h : heap) (a : option nat) (o : obj) : outcome obj :=
  match a with
  | None => Ok (mkObj None [] [] (voxels o))
  | Some b => match points (h b) with
              | [] => Ok (mkObj None [] [] (voxels o))
              | l => match k with
                     | Ground leaf _ _ => let* m := ground_voxels leaf l 0 [] in Ok (mkObj (Some b) [] [] m)
                     | _ => Ok (mkObj (Some b) [] [] (voxels o))
                     end
              end
  end.

(** What the predicate filters keep: filter_range.cc:58-67, filter_axis_range.cc:66-91,
    filter_bounding_box.cc:69-73 with BoundingBox::ContainsPoint (comparing in double the same
    values), filter_random_sample.cc:64. *)
Definition range_of (p : point) : fl := fsqrt (fadd (fadd (fmul (px p) (px p)) (fmul (py p) (py p))) (fmul (pz p) (pz p))).
Definition beyond (c min max : fl) : bool := SFltb c min || SFltb max c.
Definition keeps (k : kind) (i : nat) (p : point) : bool :=
  match k with
  | Range min max => SFleb min (range_of p) && SFleb (range_of p) max
  | Axis min max axis =>
      negb (if (axis =? 0)%Z then beyond (px p) min max
            else if (axis =? 1)%Z then beyond (py p) min max
            else if (axis =? 2)%Z then beyond (pz p) min max
            else false)
  | Box x0 y0 z0 x1 y1 z1 =>
      negb ((SFleb x0 (px p) && SFleb (px p) x1) && (SFleb y0 (py p) && SFleb (py p) y1) && (SFleb z0 (pz p) && SFleb (pz p) z1))
  | Sample _ rate draw => SFleb (draw i) rate
  | _ => true
  end.
(** The loops that fill inliers_, outliers_ and the output. *)
Fixpoint select (keep : nat -> point -> bool) (l : list point) (i : nat) : list nat * list nat * list point :=
  match l with
  | [] => ([], [], [])
  | p :: l' => let '(a, b, c) := select keep l' (S i) in
               if keep i p then (i :: a, b, p :: c) else (a, i :: b, c)
  end.

(** Filters that copy the input: AxisRange with both limits at their defaults
    (filter_axis_range.cc:50-58) and RandomSampler with a rate above 0.999
    (filter_random_sample.cc:44-51). *)
Definition passes (k : kind) : bool :=
  match k with
  | Axis min max _ => SFeqb min flt_lowest && SFeqb max flt_max
  | Sample all _ _ => all
  | _ => false
  end.

(** GroundRemoval::Filter, filter_ground_removal.cc:74-107: one voxel.  Some true: ground, Some
    false: kept, None: fewer points than [least]. *)
Definition billion : fl := S754_finite false 15625000 6.
Definition minus_billion : fl := S754_finite true 15625000 6.
Definition spread (l : list point) : fl :=
  let hi := fold_left (fun m p => if SFltb m (pz p) then pz p else m) l minus_billion in
  let lo := fold_left (fun m p => if SFltb (pz p) m then pz p else m) l billion in
  fsub hi lo.
Definition is_ground (c : cell) (l : list point) (height : fl) : bool :=
  let '(_, _, z) := c in
  (z <=? 0)%Z && (SFleb (S754_zero false) (spread l) && SFleb (spread l) height).
Fixpoint gather (pts : list point) (l : list nat) : outcome (list point) :=
  match l with
  | [] => Ok []
  | i :: l' => match nth_error pts i with
               | Some p => let* r := gather pts l' in Ok (p :: r)
               | None => UB
               end
  end.
Fixpoint ground_loop (pts : list point) (height : fl) (least : Z) (m : list (cell * list nat)) : outcome (list nat * list nat * list point) :=
  match m with
  | [] => Ok ([], [], [])
  | (c, l) :: m' =>
      if (Z.of_nat (length l) <? least)%Z then ground_loop pts height least m'
      else let* ps := gather pts l in
           let* r := ground_loop pts height least m' in
           let '(a, b, q) := r in
           Ok (if is_ground c ps height then (a, l ++ b, q) else (l ++ a, b, ps ++ q))
  end.
(** std::sort on ints. *)
Fixpoint insert (i : nat) (l : list nat) : list nat :=
  match l with [] => [i] | j :: l' => if Nat.leb i j then i :: l else j :: insert i l' end.
Fixpoint isort (l : list nat) : list nat := match l with [] => [] | i :: l' => insert i (isort l') end.

(** VoxelGrid::Filter, filter_voxel_grid.cc:45-77: the voxel of a point, the map of voxels and the
    average of the points of one voxel, summed in double. *)
Definition voxel_of (size : fl) (odd : fl -> Z) (p : point) : cell :=
  (lround odd (fdiv (px p) size), lround odd (fdiv (py p) size), lround odd (fdiv (pz p) size)).
Definition voxel_map (size : fl) (odd : fl -> Z) (l : list point) : list (cell * list point) :=
  fold_left (fun m p => put m (voxel_of size odd p) p) l [].
Definition mean_with {A B C} (f : point -> A) (wide : A -> B) (zero : B) (add div : B -> B -> B) (count : nat -> B)
  (back : B -> C) (l : list point) : C :=
  back (div (fold_left (fun s p => add s (wide (f p))) l zero) (count (length l))).
Definition mean (f : point -> fl) : list point -> fl :=
  mean_with f widen (S754_zero false) (SFadd 53 1024) (SFdiv 53 1024) (fun n => of_int (Z.of_nat n)) narrow.
Definition average (l : list point) : point :=
  mkPoint (mean px l) (mean py l) (mean pz l) (mean pi l) (S754_zero false).

(** The part of Filter after FilterPrepare: new inliers, outliers and output points.  The
    BoundingBox constructor checks its limits, common/bounding_box.cc:110-113. *)
Definition body (k : kind) (o : obj) (pts : list point) : outcome (list nat * list nat * list point) :=
  match k with
  | Voxel size odd order => Ok ([], [], map (fun g => average (snd g)) (order (voxel_map size odd pts)))
  | Ground _ height least =>
      let* r := ground_loop pts height least (voxels o) in
      let '(a, b, q) := r in Ok (isort a, isort b, q)
  | Box x0 y0 z0 x1 y1 z1 =>
      let* _ := check (SFltb x0 x1 && SFltb y0 y1 && SFltb z0 z1) in
      Ok (select (keeps k) pts 0)
  | _ => Ok (select (keeps k) pts 0)
  end.

(** Filter(cloud): FilterPrepare, filter_interface.cc:72-78, writes the output cloud before the input
    is read. *)
Definition filter (k : kind) (h : heap) (out : option nat) (o : obj) : outcome (heap * obj) :=
  match out, inner o with
  | Some d, Some i =>
      match k with
      | Statistic => Ok (h, o)     (* filter_statistic_removal.cc:44-59: the body is commented out *)
      | _ =>
          if passes k then
            Ok (upd h d (h i), mkObj (inner o) (inliers o ++ seq 0 (length (points (h i)))) [] (voxels o))
          else
            let h1 := upd h d (mkCloud (stamp (h i)) []) in
            let* r := body k o (points (h1 i)) in
            let '(a, b, q) := r in
            Ok (upd h1 d (mkCloud (stamp (h1 d)) q), mkObj (inner o) a b (voxels o))
      end
  | _, _ => Ok (h, o)
  end.

(** Factory::Filter, filter_factory.cc:83-106.  The two middle clouds are new objects, here the
    addresses 0 and 1 of their own heap; [prev] is the state left in each filter object by earlier
    calls. *)
Definition chain_step (k : kind) (prev : obj) (m1 m2 : cloud) : outcome cloud :=
  let h : heap := fun a => if Nat.eqb a 0 then m1 else m2 in
  let* o := set_input k h (Some 0) prev in
  let* r := filter k h (Some 1) o in
  Ok (fst r 1).
Fixpoint chain (fs : list (kind * obj)) (m1 m2 : cloud) : outcome cloud :=
  match fs with
  | [] => Ok m2
  | (k, prev) :: fs' => let* m2' := chain_step k prev m1 m2 in chain fs' m2' m2'
  end.
(** SetInputCloud and Filter of the factory on an output cloud that holds [old]. *)
Definition factory (fs : list (kind * obj)) (input : cloud) (old : cloud) : outcome cloud :=
  match points input with
  | [] => Ok old
  | _ => match fs with
         | [] => Ok input
         | _ => chain fs input no_cloud
         end
  end.

(** The loop body of CloudPreProcessing, data_collector.cc:138-141. *)
Definition preprocess (fs : list (kind * obj)) (data : cloud) : outcome cloud :=
  let* filtered := factory fs data no_cloud in
  let* same := t_eq (stamp data) (stamp filtered) in
  let* _ := check same in
  Ok filtered.
