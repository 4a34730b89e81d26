(** Model of back_end/deprecated/map_gps_matcher.{h,cc}, MapGpsMatcher<2>: GPS positions are matched with a path in the
    plane.  The file is not part of the build.

    Numbers are reals without rounding.  Not modelled: the three dimensional case after its first estimate (Ceres),
    the output files.  [lsq] is A.colPivHouseholderQr().solve(b). *)
From Coq Require Import List Reals.
From Verif Require Import Outcome RigidModel CostModel.
Import ListNotations.
Local Open Scope outcome_scope.
Local Open Scope R_scope.

(** A 2 x 2 matrix by rows, its product with a vector and with a matrix, and Eigen's inverse(). *)
Definition mat2 : Type := (R * R * (R * R))%type.
Definition times (m : mat2) (v : vec2) : vec2 :=
  let '((a, b), (c, d)) := m in (a * fst v + b * snd v, c * fst v + d * snd v).
Definition mult (m n : mat2) : mat2 :=
  let '((a, b), (c, d)) := m in let '((e, f), (g, h)) := n in ((a * e + b * g, a * f + b * h), (c * e + d * g, c * f + d * h)).
Definition inverse2 (m : mat2) : mat2 :=
  let '((a, b), (c, d)) := m in let k := / (a * d - c * b) in ((d * k, - b * k), (- c * k, a * k)).
Definition id2 : mat2 := ((1, 0), (0, 1)).
Definition turn2 (y : R) : mat2 := ((cos y, - sin y), (sin y, cos y)).
Definition plus2 (a b : vec2) : vec2 := (fst a + fst b, snd a + snd b).
Definition minus2 (a b : vec2) : vec2 := (fst a - fst b, snd a - snd b).
Definition div2 (a : vec2) (k : R) : vec2 := (fst a / k, snd a / k).
Definition norm2 (a : vec2) : R := sqrt (fst a * fst a + snd a * snd a).

(** Entry i of enu_positions_, map_positions_ and map_directions_; InsertPositionData, cc:39-48, appends one. *)
Record entry := mkE { e_enu : vec2; e_map : vec2; e_dir : vec2 }.
(** The pairs (i, i + half), cc:58-69 and 104-109. *)
Definition halves (l : list entry) : list (entry * entry) :=
  let half := Nat.div2 (length l) in combine (firstn half l) (skipn half l).
(** The difference of the directions, cc:77-82. *)
Definition difference (m e : vec2) : R :=
  let d := atan2 (snd m) (fst m) - atan2 (snd e) (fst e) in
  if Rlt_dec d 0 then d + PI * 2 else d.
(** The loop over the pairs, cc:61-85, with num and average_yaw; pairs closer than 5 are left out. *)
Definition yaw_step (acc : nat * R) (p : entry * entry) : outcome (nat * R) :=
  let vm := minus2 (e_map (snd p)) (e_map (fst p)) in
  let ve := minus2 (e_enu (snd p)) (e_enu (fst p)) in
  if Rlt_dec (norm2 vm) 5 then Ok acc
  else
    let d := difference vm ve in
    if Rle_dec 0 d then if Rle_dec d (PI * 2) then Ok (S (fst acc), snd acc + d) else Abort else Abort.
(** The average translation, cc:103-112. *)
Definition shift_of (r : mat2) (p : entry * entry) : vec2 :=
  minus2 (div2 (plus2 (e_map (snd p)) (e_map (fst p))) 2) (div2 (times r (plus2 (e_enu (snd p)) (e_enu (fst p)))) 2).
Definition average_shift (r : mat2) (ps : list (entry * entry)) : vec2 :=
  div2 (fold_left (fun t p => plus2 t (shift_of r p)) ps (0, 0)) (INR (length ps)).
(** The first estimate, cc:57-112; [None]: there is none. *)
Definition estimate (l : list entry) : outcome (option (mat2 * vec2)) :=
  let* a := run yaw_step (O, 0) (halves l) in
  match fst a with
  | O => Ok None
  | _ => let r := turn2 (snd a / INR (fst a)) in Ok (Some (r, average_shift r (halves l)))
  end.

Section Match.
Variable lsq : list (R * R * R) -> list R -> R * R * R.
(** A row of the linear problem, cc:161-172; the direction is turned by a quarter and normalised. *)
Definition row (r : mat2) (t : vec2) (e : entry) : (R * R * R) * R :=
  let n := unit2 (- snd (e_dir e), fst (e_dir e)) in
  let o := plus2 (times r (e_enu e)) t in
  ((fst o * snd n - snd o * fst n, fst n, snd n), fst n * (fst (e_map e) - fst o) + snd n * (snd (e_map e) - snd o)).
(** The iterations, cc:156-195. *)
Fixpoint refine (n : nat) (l : list entry) (r : mat2) (t : vec2) : mat2 * vec2 :=
  match n with
  | O => (r, t)
  | S n =>
      let rows := map (row r t) l in
      let '(a, x, y) := lsq (map fst rows) (map snd rows) in
      let dr := turn2 a in
      let r := mult dr r in
      let t := plus2 (times dr t) (x, y) in
      let '((p, q), (u, v)) := dr in
      let da := sqrt ((p - 1) * (p - 1) + q * q + u * u + (v - 1) * (v - 1)) in
      if Rlt_dec (norm2 (x, y)) (1 / 10000000000) then if Rlt_dec da (1 / 10000000000) then (r, t) else refine n l r t else refine n l r t
  end.
(** RunMatch, cc:50-251: the upper left 2 x 2 entries and the first two of the last column; the others are those of the
    identity. *)
Definition run_match (l : list entry) : outcome (mat2 * vec2) :=
  match l with
  | [] => Ok (id2, (0, 0))
  | _ =>
      let* e := estimate l in
      match e with
      | None => Ok (id2, (0, 0))
      | Some (r, t) =>
          let '(r, t) := refine 100 l r t in
          let i := inverse2 r in Ok (i, minus2 (0, 0) (times i t))
      end
  end.
End Match.
(** OutputError, cc:263-268: where a position is in the map. *)
Definition placed (result : mat2 * vec2) (e : entry) : vec2 := times (inverse2 (fst result)) (minus2 (e_enu e) (snd result)).
