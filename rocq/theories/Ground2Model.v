(** Model of pre_processors/filter_ground_removal2.{h,cc}: GroundRemoval2, the ground filter of the
    shipped configurations, as built with OpenMP.

    Arithmetic is a parameter, so that the theorems hold for floats with any rounding, with the laws of
    the order they need stated; the examples use binary32.  The least squares solution of FitLocalLine
    (Eigen, 33-48), std::sqrt, std::atan2 and the conversion of a quotient to int are parameters.  The
    cloud that Filter writes is not the input cloud. *)
From Coq Require Import ZArith List Bool.
From Verif Require Import Outcome.
Import ListNotations.
Local Open Scope outcome_scope.

(** float, with [near z m]: z <= m + 0.5 (computed in double, line 204). *)
Record arith := Arith {
  num : Type;
  ltb : num -> num -> bool;
  leb : num -> num -> bool;
  add : num -> num -> num;
  sub : num -> num -> num;
  mul : num -> num -> num;
  div : num -> num -> num;
  absv : num -> num;
  zero : num;
  minus_one : num;
  margin : num;
  flt_max : num;
  near : num -> num -> bool }.

(** The members, filter_ground_removal2.h:58-84, with what the libraries compute: [range] is line 165,
    [sector] 171-175 (rad / delta_alpha as int), [ring] 176 ((range - r_min_) / delta_bin as int; both are
    undefined if the quotient does not fit), [fit] is FitLocalLine.  [steps] is search_max_step, 341.
    bin_num_ and segment_num_ are positive. *)
Record setup (A : arith) (P : Type) := Setup {
  range : P -> num A;
  height : P -> num A;
  sector : P -> outcome Z;
  ring : num A -> outcome Z;
  fit : list (num A * num A) -> num A * num A;
  r_min : num A;
  r_max : num A;
  bins : Z;
  segs : Z;
  start_height : num A;
  long_line : num A;
  long_height : num A;
  max_start : num A;
  max_error : num A;
  max_slope : num A;
  max_dist : num A;
  steps : Z;
  threads : Z }.
Arguments range {A P}. Arguments height {A P}. Arguments sector {A P}. Arguments ring {A P}. Arguments fit {A P}.
Arguments r_min {A P}. Arguments r_max {A P}. Arguments bins {A P}. Arguments segs {A P}. Arguments start_height {A P}.
Arguments long_line {A P}. Arguments long_height {A P}. Arguments max_start {A P}. Arguments max_error {A P}.
Arguments max_slope {A P}. Arguments max_dist {A P}. Arguments steps {A P}. Arguments threads {A P}.

Section Filter.
Context {A : arith} {P : Type} (S : setup A P).
Notation num := (num A).

(** Point: distance and height. *)
Definition pt : Type := (num * num)%type.
Record grid := mkGrid { g_min : option pt; g_pts : list (nat * pt) }.
(** The default minimum (1e6, 1e6) is never read before it is set (line 200). *)
Definition no_grid : grid := mkGrid None [].

(** SetInputCloud, 161-193: the place of a point in the grids; None: out of range. *)
Definition clamp (n z : Z) : Z := if (n <=? z)%Z then (n - 1)%Z else if (z <? 0)%Z then 0%Z else z.
Definition place (p : P) : outcome (option (Z * Z)) :=
  let r := range S p in
  if ltb A r (r_min S) && ltb A (r_max S) r then Ok None
  else let* s := sector S p in
       let* b := ring S r in
       Ok (Some (clamp (segs S) s, clamp (bins S) b)).

Definition grids : Type := Z -> Z -> grid.
Definition set_grid (g : grids) (s b : Z) (x : grid) : grids :=
  fun s' b' => if ((s' =? s) && (b' =? b))%Z then x else g s' b'.

(** 195-209. *)
Definition insert (g : grids) (i : nat) (p : P) (at_ : option (Z * Z)) : grids :=
  match at_ with
  | None => g
  | Some (s, b) =>
      let x := g s b in
      let q := (range S p, height S p) in
      let m := match g_min x with
               | Some m => if match g_pts x with [] => true | _ => false end || ltb A (snd q) (snd m) then q else m
               | None => q
               end in
      set_grid g s b (mkGrid (Some m) (if near A (snd q) (snd m) then g_pts x ++ [(i, q)] else g_pts x))
  end.
Fixpoint places (l : list P) : outcome (list (P * option (Z * Z))) :=
  match l with
  | [] => Ok []
  | p :: r => let* a := place p in let* r' := places r in Ok ((p, a) :: r')
  end.
Fixpoint insert_all (g : grids) (i : nat) (l : list (P * option (Z * Z))) : grids :=
  match l with [] => g | (p, a) :: r => insert_all (insert g i p a) (Datatypes.S i) r end.
Definition set_input (l : list P) : outcome grids :=
  let* ps := places l in Ok (insert_all (fun _ _ => no_grid) 0 ps).

(** Line: start and end. *)
Record line := mkLine { l_start : pt; l_end : pt }.
Definition on_line (m : num * num) (d : num) : num := add A (mul A (fst m) d) (snd m).

(** GetMaxError, 50-60. *)
Definition error_of (m : num * num) (q : pt) : num := absv A (sub A (on_line m (fst q)) (snd q)).
Definition get_max_error (l : list pt) (m : num * num) : num :=
  fold_left (fun e q => if ltb A e (error_of m q) then error_of m q else e) l (zero A).

(** LocalLineToLine, 62-74. *)
Definition to_line (m : num * num) (first last : pt) : line :=
  mkLine (fst first, on_line m (fst first)) (fst last, on_line m (fst last)).

(** The loop of FitLines, 261-311: current_line_points is [rev prev ++ [back]]. *)
Record state := mkState { back : pt; prev : list pt; cur : num * num; is_long : bool; ground : num; found : list line }.
Definition all_pts (st : state) : list pt := rev (prev st) ++ [back st].
Definition first_pt (st : state) : pt := last (prev st) (back st).

(** One pass of the loop over a grid that has points, with minimum [q]; the flag: whether i moves on (--i undoes ++i). *)
Definition examine (st : state) (q : pt) : bool * state :=
  let long := if leb A (long_line S) (sub A (fst q) (fst (back st))) then true else is_long st in
  let size := Datatypes.S (length (prev st)) in
  let expected := if long && (2 <? size)%nat then on_line (cur st) (fst q) else flt_max A in
  if (2 <=? size)%nat then
    let m := fit S (all_pts st ++ [q]) in
    if ltb A (max_error S) (get_max_error (all_pts st ++ [q]) m) || ltb A (max_slope S) (absv A (fst m)) ||
       (long && ltb A (long_height S) (absv A (sub A expected (snd q))))
    then
      if (3 <=? size)%nat then
        let n := fit S (all_pts st) in
        (false, mkState (back st) [] m false (on_line n (fst (back st))) (found st ++ [to_line n (first_pt st) (back st)]))
      else (false, mkState (back st) [] m false (ground st) (found st))
    else (true, mkState q (back st :: prev st) m long (ground st) (found st))
  else if negb long && ltb A (absv A (sub A (snd (back st)) (ground st))) (max_start S)
  then (true, mkState q (back st :: prev st) (cur st) long (ground st) (found st))
  else (true, mkState q [] (cur st) long (ground st) (found st)).

(** The for loop; it ends at bin_num_.  [fuel] bounds the passes (see the theorem on termination). *)
Fixpoint loop (fuel : nat) (g : grids) (s i : Z) (st : state) : option state :=
  match fuel with
  | O => None
  | Datatypes.S f =>
      if (bins S <=? i)%Z then Some st
      else match g_pts (g s i), g_min (g s i) with
           | _ :: _, Some q =>
               let '(on, st') := examine st q in
               loop f g s (if on then i + 1 else i)%Z st'
           | _, _ => loop f g s (i + 1)%Z st
           end
  end.

(** 244-249: the first grid with points. *)
Fixpoint first_bin (n : nat) (g : grids) (s i : Z) : Z :=
  match n with
  | O => i
  | Datatypes.S n => match g_pts (g s i) with [] => first_bin n g s (i + 1) | _ => i end
  end.

(** FitLines, 240-316.  UB stands for a loop that does not end. *)
Definition fit_lines (g : grids) (s : Z) : outcome (list line) :=
  let i := first_bin (Z.to_nat (bins S)) g s 0 in
  if (bins S - 1 <=? i)%Z then Ok []
  else match g_min (g s i) with
       | None => UB
       | Some q =>
           match loop (2 * Z.to_nat (bins S) + 2) g s (i + 1) (mkState q [] (zero A, zero A) false (start_height S) []) with
           | None => UB
           | Some st =>
               Ok (if (2 <? Datatypes.S (length (prev st)))%nat
                   then found st ++ [to_line (fit S (all_pts st)) (first_pt st) (back st)] else found st)
           end
       end.
Fixpoint fit_segments (n : nat) (g : grids) : outcome (list (list line)) :=
  match n with
  | O => Ok []
  | Datatypes.S n => let* r := fit_segments n g in let* l := fit_lines g (Z.of_nat n) in Ok (r ++ [l])
  end.

(** VerticalDistanceToSegment, 398-416. *)
Definition covers (l : line) (q : pt) : bool :=
  ltb A (sub A (fst (l_start l)) (margin A)) (fst q) && ltb A (fst q) (add A (fst (l_end l)) (margin A)).
Definition gap (l : line) (q : pt) : num :=
  absv A (sub A (snd q)
    (add A (mul A (div A (sub A (fst q) (fst (l_start l))) (sub A (fst (l_end l)) (fst (l_start l))))
                  (sub A (snd (l_end l)) (snd (l_start l)))) (snd (l_start l)))).
Fixpoint vertical (q : pt) (ls : list line) (d : num) : outcome num :=
  match ls with
  | [] => Ok d
  | l :: r => if ltb A (fst (l_start l)) (fst (l_end l)) then vertical q r (if covers l q then gap l q else d) else Abort
  end.

(** ClusterGround, 337-396: the segments tried if the own one has no line there, the farthest first. *)
Fixpoint candidates (n : nat) : list Z :=
  match n with O => [] | Datatypes.S m => Z.of_nat n :: (- Z.of_nat n)%Z :: candidates m end.
Definition wrap (z : Z) : Z := if (z <? 0)%Z then (z + segs S)%Z else if (segs S <=? z)%Z then (z - segs S)%Z else z.
(** segments.at(): an exception ends the task, see [task]. *)
Definition segment_at (ss : list (list line)) (z : Z) : outcome (list line) :=
  if (z <? 0)%Z then Throw else match nth_error ss (Z.to_nat z) with Some l => Ok l | None => Throw end.
Fixpoint search (ss : list (list line)) (s : Z) (q : pt) (cs : list Z) (d : num) : outcome num :=
  match cs with
  | [] => Ok d
  | i :: r => let* l := segment_at ss (wrap (s + i)) in
              let* d := vertical q l (minus_one A) in
              if ltb A (zero A) d then Ok d else search ss s q r d
  end.
Definition decide (ss : list (list line)) (s : Z) (q : pt) : outcome num :=
  let* l := segment_at ss s in
  let* d := vertical q l (minus_one A) in
  if ltb A d (zero A) then search ss s q (candidates (Z.to_nat (steps S))) d else Ok d.
(** The task of one segment: the points it marks.  An exception is kept by the packaged_task of the pool: the
    rest of the task is skipped. *)
Fixpoint task (ss : list (list line)) (s : Z) (l : list (nat * pt)) (marked : list nat) : outcome (list nat) :=
  match l with
  | [] => Ok marked
  | (i, q) :: r =>
      match decide ss s q with
      | Ok d => task ss s r (if ltb A (zero A) d && leb A d (max_dist S) then marked ++ [i] else marked)
      | Throw => Ok marked
      | Abort => Abort
      | UB => UB
      end
  end.
Definition segment_points (g : grids) (s : Z) : list (nat * pt) :=
  flat_map (fun b => g_pts (g s (Z.of_nat b))) (seq 0 (Z.to_nat (bins S))).
(** The tasks write different elements of is_outlier, so their order does not matter; without threads none
    runs, with a negative number the pool cannot be created. *)
Fixpoint run_tasks (n : nat) (ss : list (list line)) (g : grids) : outcome (list nat) :=
  match n with
  | O => Ok []
  | Datatypes.S n =>
      let* r := run_tasks n ss g in
      let* m := task ss (Z.of_nat n) (segment_points g (Z.of_nat n)) [] in
      Ok (r ++ m)
  end.
Definition cluster (ss : list (list line)) (g : grids) : outcome (list nat) :=
  if (threads S <? 0)%Z then Abort
  else if (threads S =? 0)%Z then Ok []
  else run_tasks (Z.to_nat (segs S)) ss g.

(** SetInputCloud and Filter, 212-238, for a cloud with points: the points written, inliers and outliers. *)
Definition marked_in (m : list nat) (i : nat) : bool := existsb (Nat.eqb i) m.
Fixpoint pick (m : list nat) (i : nat) (l : list P) : list P :=
  match l with [] => [] | p :: r => if marked_in m i then pick m (Datatypes.S i) r else p :: pick m (Datatypes.S i) r end.
Definition ground_removal (l : list P) : outcome (list P * list nat * list nat) :=
  let* g := set_input l in
  let* ss := fit_segments (Z.to_nat (segs S)) g in
  let* m := cluster ss g in
  Ok (pick m 0 l, filter (fun i => negb (marked_in m i)) (seq 0 (length l)), filter (marked_in m) (seq 0 (length l))).
End Filter.
