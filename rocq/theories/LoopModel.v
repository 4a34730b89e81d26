(** Model of LoopDetector, back_end/loop_detector.{h,cc}.

    What a call of AddFrame observes of the submaps is universally quantified ([obs]): the
    distances to the older frames (all positions are re-read at every call, 54-57), whether
    the descriptors match, the result of CloseLoop (282-318) for every target and the order in
    which the matching tasks finish.  Frame indices are nat; the number of frames fits an int.
    Failures inside CloseLoop and the debug output (222-262) are not modelled. *)
From Coq Require Import List Bool ZArith SpecFloat Permutation.
From Verif Require Import Outcome Pose MathModel.
Import ListNotations.
Local Open Scope outcome_scope.
Local Open Scope Z_scope.

Section Loop.
Variable G : group.
(** 333-337: norms of the translation part and of the Euler angles. *)
Variables tn rn : G -> spec_float.

(** LoopDetectorSettings, back_end/loop_detector_options.h:29-40 *)
Record settings := mkSet {
  use_descriptor : bool;
  ignore : Z;            (* loop_ignore_threshold, int *)
  tries : Z;             (* trying_detect_loop_count, int *)
  nearest : Z;           (* nearest_history_pos_num, int *)
  maxd : spec_float;     (* max_close_loop_distance, as double *)
  maxz : spec_float }.   (* max_close_loop_z_distance, as double *)

Inductive status := NoLoop | Trying | Entering | Continuous | Leaving.
Record det := mkDet { frames : nat; stat : status; acc : Z; wstart : Z; wend : Z }.
(** loop_detector.h:102-112: no search window; the counter is uninitialised, any value. *)
Definition det0 (junk : Z) : det := mkDet 0 NoLoop junk (-1) (-1).

(** an edge: target index and GlobalPose(target) * transform *)
Definition edge : Type := nat * G.
Record obs := mkObs {
  xy : nat -> spec_float; zd : nat -> spec_float; dmatch : nat -> bool;
  close : nat -> option G;
  finish : list edge -> list edge }.

Record result := mkRes {
  r_status : status; r_index : nat; r_succeed : bool; r_edges : list edge;
  (* not part of DetectResult: *)
  r_ran : bool;            (* the detection was carried out *)
  r_cand : list nat;       (* targets in maybe_close_pair *)
  r_tried : bool }.        (* CloseLoop was called for them *)

(** 75-101 *)
Definition dbl_max : spec_float := S754_finite false 9007199254740991 971.
Definition four_tenths : spec_float := S754_finite false 7205759403792794 (-54).
Definition look (S : settings) (o : obs) (a : list nat * (option nat * spec_float)) (i : nat) :=
  if SFleb (xy o i) (maxd S) && SFleb (zd o i) (maxz S)
  then (fst a ++ [i], if SFltb (xy o i) (snd (snd a)) then (Some i, xy o i) else snd a)
  else a.
Definition scan (S : settings) (o : obs) (from to : Z) : list nat * (option nat * spec_float) :=
  fold_left (look S o) (seq (Z.to_nat from) (Z.to_nat to - Z.to_nat from)%nat) ([], (None, dbl_max)).
(** 102-104 *)
Definition closest (S : settings) (c : option nat * spec_float) : option nat :=
  if SFleb (SFmul 53 1024 (maxd S) four_tenths) (snd c) then None else fst c.

(** 106-127 *)
Fixpoint well (S : settings) (o : obs) (cur : nat) (l : list nat) : outcome (list nat) :=
  match l with
  | [] => Ok []
  | i :: r => if use_descriptor S
              then let* _ := check (negb (Nat.eqb i cur)) in
                   let* q := well S o cur r in Ok (if dmatch o i then i :: q else q)
              else let* q := well S o cur r in Ok (i :: q)
  end.

Definition at_ (l : list nat) (i : Z) : outcome nat :=
  match nth_error l (Z.to_nat i) with Some x => if i <? 0 then UB else Ok x | None => UB end.
Fixpoint pick (l : list nat) (stepv : Z) (i : Z) (k : nat) : outcome (list nat) :=
  match k with
  | O => Ok []
  | S k' => let* x := at_ l (i * stepv) in let* q := pick l stepv (i + 1) k' in Ok (x :: q)
  end.
(** 129-163.  The comparisons with size() are unsigned.  The indices were pushed in increasing
    order, so the sort at 136 changes nothing. *)
Definition candidates (S : settings) (l : list nat) (cl : option nat) : outcome (list nat) :=
  if nearest S =? 2 ^ 31 - 1 then UB
  else if nearest S + 1 <? 0 then Throw                                    (* reserve, 132 *)
  else match l with
  | [] => Ok []
  | _ =>
    let n := Z.of_nat (length l) in
    if (2 ^ 30 <=? nearest S) then UB                                      (* int overflow, 137 *)
    else
    let* base :=
      if (nearest S * 2) mod 2 ^ 64 <=? n
      then if nearest S =? 0 then UB
           else pick l (Z.quot n (nearest S)) 0 (Z.to_nat (nearest S))     (* 138-143 *)
      else pick l 1 0 (Z.to_nat (if nearest S mod 2 ^ 64 <? n then nearest S else n))  (* 145-152 *)
    in
    Ok (match cl with
        | Some c => if existsb (Nat.eqb c) base then base else base ++ [c] (* 154-160 *)
        | None => base
        end)
  end.

(** 165-211 *)
Definition advance (S : settings) (s : status) (a : Z) (d : bool) : status * Z :=
  match s with
  | NoLoop => if d then (if tries S <=? 1 then Entering else Trying, 1) else (NoLoop, 0)
  | Trying => if d then (if tries S <=? a + 1 then Entering else Trying, a + 1) else (NoLoop, a)
  | Entering => (if d then Continuous else Trying, a)
  | Continuous => if d then (Continuous, a) else (Leaving, 0)
  | Leaving => (if d then Trying else NoLoop, a)
  end.

(** CheckResult, 320-345; 0.25 and 0.02 as doubles *)
Definition quarter : spec_float := S754_finite false 4503599627370496 (-54).
Definition fiftieth : spec_float := S754_finite false 5764607523034235 (-58).
Definition check_result (l : list edge) : bool :=
  match l with
  | [] | [_] => false
  | e :: r => forallb (fun f => let d := gmul (ginv (snd e)) (snd f) in
                 negb (SFltb quarter (tn d) || SFltb fiftieth (rn d))) r
  end.

(** AddFrame, 48-271 *)
Definition add_frame (S : settings) (s : det) (o : obs) (do_detect : bool) : outcome (det * result) :=
  let cur := frames s in
  let n := Z.of_nat (frames s) + 1 in
  let s1 := mkDet (Datatypes.S (frames s)) (stat s) (acc s) (wstart s) (wend s) in
  if negb do_detect || (n <=? ignore S mod 2 ^ 64)
  then Ok (s1, mkRes (stat s) cur false [] false [] false)                 (* 64-67 *)
  else
    let maxi := n - 1 in
    let win := (0 <=? wend s) && (0 <=? wstart s) in
    let from := if win then iclamp (wstart s) 0 maxi else 0 in
    let to := if win then iclamp (wend s) 0 maxi else maxi - ignore S in
    let sc := scan S o from to in
    let* w := well S o cur (fst sc) in
    let* c := candidates S w (closest S (snd sc)) in
    let d := match w with [] => false | _ => true end in
    let (st', a') := advance S (stat s) (acc s) d in
    let s2 := mkDet (Datatypes.S (frames s)) st' a' (wstart s) (wend s) in
    match st' with
    | Continuous =>
        let* _ := check (match c with [] => false | _ => true end) in
        let good := flat_map (fun i => match close o i with Some p => [(i, p)] | None => [] end) c in
        let e := finish o good in
        Ok (s2, mkRes (stat s) cur (check_result e) e true c true)
    | _ => Ok (s2, mkRes (stat s) cur false [] true c false)
    end.

(** SetSearchWindow, 273-280 *)
Definition set_window (s : det) (a b : Z) : outcome det :=
  let* _ := check (0 <=? a) in let* _ := check (0 <=? b) in let* _ := check (a <=? b) in
  Ok (mkDet (frames s) (stat s) (acc s) a b).

Inductive ev := Add (o : obs) (do_detect : bool) | Window (a b : Z).
(** A history of calls, with the results of the AddFrame calls. *)
Fixpoint hist (S : settings) (s : det) (l : list ev) : outcome (det * list result) :=
  match l with
  | [] => Ok (s, [])
  | Add o d :: r => let* x := add_frame S s o d in
                    let* y := hist S (fst x) r in Ok (fst y, snd x :: snd y)
  | Window a b :: r => let* s' := set_window s a b in hist S s' r
  end.
End Loop.
Arguments mkObs {G}. Arguments xy {G}. Arguments zd {G}. Arguments dmatch {G}. Arguments close {G}. Arguments finish {G}.
Arguments mkRes {G}. Arguments r_status {G}. Arguments r_index {G}. Arguments r_succeed {G}. Arguments r_edges {G}.
Arguments r_ran {G}. Arguments r_cand {G}. Arguments r_tried {G}. Arguments Add {G}. Arguments Window {G}.
