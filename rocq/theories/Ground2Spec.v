(** What ground lines are, and the laws of the order that the theorems use. *)
From Coq Require Import ZArith List Bool Lia.
From Verif Require Import Outcome Ground2Model.
Import ListNotations.

(** The order of floats: a value that compares with nothing is NaN. *)
Definition comparable (A : arith) (c : num A) : Prop := (exists d, ltb A c d = true) \/ (exists d, ltb A d c = true).
Record ordered (A : arith) : Prop := {
  lt_trans : forall a b c, ltb A a b = true -> ltb A b c = true -> ltb A a c = true;
  lt_irrefl : forall a, ltb A a a = false;
  lt_keep : forall a b c, comparable A c -> ltb A a b = true -> ltb A c b = false -> ltb A a c = true;
  lt_minus : ltb A (minus_one A) (zero A) = true;
  near_self : forall z, comparable A z -> near A z z = true;
  abs_pos : forall x, ltb A (absv A x) (zero A) = false }.

Section Spec.
Context {A : arith} {P : Type} (S : setup A P).
Notation pt := (@pt A).

(** The points of the cloud whose place is the cell. *)
Definition in_cell (l : list P) (s b : Z) (i : nat) (p : P) : Prop :=
  nth_error l i = Some p /\ place S p = Ok (Some (s, b)).

(** The first of the lowest points of a cell among the first [n] of the cloud. *)
Definition first_lowest (l : list P) (s b : Z) (n i : nat) (p : P) : Prop :=
  (i < n)%nat /\ in_cell l s b i p /\
  (forall j r, (j < n)%nat -> in_cell l s b j r -> ltb A (height S r) (height S p) = false) /\
  (forall j r, (j < i)%nat -> in_cell l s b j r -> ltb A (height S p) (height S r) = true).
(** Distance and height of the lowest point of cell [b] of segment [s]. *)
Definition low (l : list P) (s b : Z) (q : pt) : Prop :=
  exists i p, first_lowest l s b (length l) i p /\ q = (range S p, height S p).
(** A point counts for its cell if no point of the cell up to it is lower by more than 0.5. *)
Definition stored (l : list P) (s b : Z) (i : nat) (p : P) : Prop :=
  in_cell l s b i p /\ exists j r, first_lowest l s b (Datatypes.S i) j r /\ near A (height S p) (height S r) = true.

(** A ground line of a segment with the lowest points [low]: the lowest points of at least three cells that follow each other (cells
    without points aside), fitted by a line that is not too steep and nowhere too far. *)
Definition desc : Type := list (Z * pt).
Definition lowest (low : Z -> pt -> Prop) (x : Z * pt) : Prop := (0 <= fst x < bins S)%Z /\ low (fst x) (snd x).
Fixpoint increasing (l : desc) : Prop :=
  match l with
  | [] => True
  | x :: r => match r with [] => True | y :: _ => (fst x < fst y)%Z end /\ increasing r
  end.
(** The first and the last element of a list that is not empty. *)
Definition nothing : Z * pt := (0%Z, (zero A, zero A)).
Definition first_of (d : desc) : Z * pt := hd nothing d.
Definition last_of (d : desc) : Z * pt := last d nothing.
Definition complete (low : Z -> pt -> Prop) (d : desc) : Prop :=
  forall b q, (fst (first_of d) <= b <= fst (last_of d))%Z -> low b q -> In b (map fst d).
Definition accepted (d : desc) : Prop :=
  let m := fit S (map snd d) in
  Forall (fun x => ltb A (max_error S) (absv A (sub A (add A (mul A (fst m) (fst (snd x))) (snd m)) (snd (snd x)))) = false) d /\
  ltb A (max_slope S) (absv A (fst m)) = false.
(** Two cells of the line are long_line_threshold or more apart. *)
Definition spans_gap (d : desc) : Prop :=
  exists l1 x y l2, d = l1 ++ x :: y :: l2 /\ leb A (long_line S) (sub A (fst (snd y)) (fst (snd x))) = true.
(** From a gap on, each point is at most max_long_line_height off the line fitted to the points before it; if these are two only, off
    FLT_MAX. *)
Definition steady (d : desc) : Prop :=
  forall pre z post, d = pre ++ z :: post -> spans_gap (pre ++ [z]) ->
    (2 <= length pre)%nat /\
    let m := fit S (map snd pre) in
    let expected := if (2 <? length pre)%nat then add A (mul A (fst m) (fst (snd z))) (snd m) else flt_max A in
    ltb A (long_height S) (absv A (sub A expected (snd (snd z)))) = false.
Definition is_line (low : Z -> pt -> Prop) (d : desc) (L : line (A:=A)) : Prop :=
  (3 <= length d)%nat /\ Forall (lowest low) d /\ increasing d /\ complete low d /\ accepted d /\ steady d /\
  let m := fit S (map snd d) in
    let at_ := fun x => add A (mul A (fst m) x) (snd m) in
    l_start L = (fst (snd (first_of d)), at_ (fst (snd (first_of d)))) /\
    l_end L = (fst (snd (last_of d)), at_ (fst (snd (last_of d)))).

(** Each line starts near the ground height: the configured one for the first, the end of the line before
    for the others. *)
Fixpoint chained (h : num A) (ds : list desc) : Prop :=
  match ds with
  | [] => True
  | d :: r =>
      ltb A (absv A (sub A (snd (snd (first_of d))) h)) (max_start S) = true /\
      let m := fit S (map snd d) in chained (add A (mul A (fst m) (fst (snd (last_of d)))) (snd m)) r
  end.

(** A gap: two cells of a segment with points, none between, at least long_line_threshold apart. *)
Definition gapped (low : Z -> pt -> Prop) (b b' : Z) : Prop :=
  exists q q', lowest low (b, q) /\ lowest low (b', q') /\ (b < b')%Z /\ (forall c r, (b < c < b')%Z -> ~ low c r) /\
  leb A (long_line S) (sub A (fst q') (fst q)) = true.
Definition bridges (b b' : Z) (d : desc) : Prop := (fst (first_of d) < b)%Z /\ In b (map fst d) /\ In b' (map fst d).
(** A floor: it starts near the ground height, has no gap, and the lowest points of the cells from the first
    one on are always accepted as a line. *)
Record floor_ (low : Z -> pt -> Prop) : Prop := {
  f_start : forall x, lowest low x -> (forall b q, (0 <= b < fst x)%Z -> ~ low b q) ->
            ltb A (absv A (sub A (snd (snd x)) (start_height S))) (max_start S) = true;
  f_close : forall b b', ~ gapped low b b';
  f_fit : forall d, (3 <= length d)%nat -> Forall (lowest low) d -> increasing d ->
          (forall b q, (0 <= b <= fst (last_of d))%Z -> low b q -> In b (map fst d)) -> accepted d;
  f_error : ltb A (max_error S) (zero A) = false }.
(** The lines of a segment. *)
Definition lines (low : Z -> pt -> Prop) (ls : list (line (A:=A))) : Prop :=
  (exists ds, Forall2 (is_line low) ds ls /\ chained (start_height S) ds /\
    (forall b b' d, gapped low b b' -> In d ds -> (b <= fst (first_of d))%Z -> Exists (bridges b b') ds)) /\
  (floor_ low -> (exists x y z, lowest low x /\ lowest low y /\ lowest low z /\ (fst x < fst y < fst z)%Z) ->
     exists d L, ls = [L] /\ is_line low d L /\ forall b q, (0 <= b < bins S)%Z -> low b q -> In b (map fst d)).

(** The segment [t] is [s] moved around the circle by [k]. *)
Definition around (s k t : Z) : Prop := (0 <= t < segs S)%Z /\ exists n, t = (s + k + n * segs S)%Z.
(** Where a line is compared with a point: over its span and 0.1 to both sides. *)
Definition over (L : line (A:=A)) (q : pt) : Prop :=
  ltb A (sub A (fst (l_start L)) (margin A)) (fst q) = true /\ ltb A (fst q) (add A (fst (l_end L)) (margin A)) = true.
(** The vertical distance of a point to the line through start and end. *)
Definition distance (L : line (A:=A)) (q : pt) : num A :=
  absv A (sub A (snd q)
    (add A (mul A (div A (sub A (fst q) (fst (l_start L))) (sub A (fst (l_end L)) (fst (l_start L))))
                  (sub A (snd (l_end L)) (snd (l_start L)))) (snd (l_start L)))).
(** The line of a segment that counts for a point: the last one over it. *)
Definition counts (ls : list (line (A:=A))) (q : pt) (L : line) : Prop :=
  exists l1 l2, ls = l1 ++ L :: l2 /\ over L q /\ forall L', In L' l2 -> ~ over L' q.
Definition uncovered (ls : list (line (A:=A))) (q : pt) : Prop := forall L, In L ls -> ~ over L q.
(** The order in which the neighbours are tried: the farthest first, at the same distance the one with the
    larger angle first. *)
Definition tried_before (j k : Z) : Prop := (Z.abs k < Z.abs j <= steps S \/ j = - k /\ 0 < j)%Z.
(** The line that decides about point [q] of segment [s]. *)
Definition deciding (ss : list (list (line (A:=A)))) (s : Z) (q : pt) (L : line) : Prop :=
  exists own, nth_error ss (Z.to_nat s) = Some own /\
  (counts own q L \/
   uncovered own q /\ exists k t ls, (0 < Z.abs k <= steps S)%Z /\ around s k t /\ nth_error ss (Z.to_nat t) = Some ls /\
     counts ls q L /\ ltb A (zero A) (distance L q) = true /\
     forall j t' ls' L', (0 < Z.abs j)%Z -> tried_before j k -> around s j t' -> nth_error ss (Z.to_nat t') = Some ls' -> counts ls' q L' ->
       ltb A (zero A) (distance L' q) = false).
End Spec.
