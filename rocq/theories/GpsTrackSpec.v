(** What the tracker of IMU and GPS should be given to solve. *)
From Coq Require Import List Bool ZArith Reals.
From Verif Require Import Outcome TimeModel TimeSpec GpsTrackModel.
Import ListNotations.

Section Spec.
Variables A W P V B X : Type.
Variable period : R.
Variable p0 : P.
Variable v0 : V.
Variable b0 : B.
Variable predict : pim A W B -> P * V -> B -> P * V.
Notation ev := (GpsTrackModel.ev A W X).

(** The IMU messages and the positions of a history, and how many IMU messages came before each position. *)
Definition imus (h : list ev) : list (time * A * W) := flat_map (fun e => match e with EImu _ _ _ t a w => [(t, a, w)] | _ => [] end) h.
Definition positions (h : list ev) : list X := flat_map (fun e => match e with EGps _ _ _ x => [x] | _ => [] end) h.
Fixpoint cuts (n : nat) (h : list ev) : list nat :=
  match h with
  | [] => []
  | EImu _ _ _ _ _ _ :: r => cuts (S n) r
  | EGps _ _ _ _ :: r => n :: cuts n r
  | EOdom _ _ _ :: r => cuts n r
  end.
(** Every message lasts from the one before; the first one for a period. *)
Definition duration (u t : time) : R := (IZR (elapsed t - elapsed u) / 1000000000)%R.
Fixpoint measures (before : option time) (l : list (time * A * W)) : list (meas A W) :=
  match l with
  | [] => []
  | (t, a, w) :: r => (a, w, match before with None => period | Some u => duration u t end) :: measures (Some t) r
  end.
(** The stamp of the last message. *)
Definition newest (l : list (time * A * W)) (d : option time) : option time := fold_left (fun _ x => Some (fst (fst x))) l d.
(** The measurements between position number [k] (from 0; the start) and the next. *)
Definition cut (h : list ev) (k : nat) : nat := nth k (0%nat :: cuts 0 h) 0%nat.
Definition segment (h : list ev) (k : nat) : list (meas A W) :=
  skipn (cut h k) (firstn (cut h (S k)) (measures None (imus h))).
(** The stamps: normal, beyond the nanosecond that counts as no time, increasing. *)
Fixpoint increasing (before : Z) (l : list (time * A * W)) : Prop :=
  match l with [] => True | (t, _, _) :: r => normal t /\ (before < elapsed t)%Z /\ increasing (elapsed t) r end.
Definition regular (h : list ev) : Prop := increasing 1 (imus h) /\ ~ In (EOdom A W X) h.

(** The graph and the initial values of [n] positions, for the states [sol] found for the earlier ones. *)
Definition graph_of (h : list ev) (sol : nat -> P * V * B) (n : nat) : list (factor A W P V B X) :=
  [PriorP _ _ _ _ _ _ 0 p0; PriorV _ _ _ _ _ _ 0 v0; PriorB _ _ _ _ _ _ 0 b0] ++
  flat_map (fun k => match nth_error (positions h) k with
    | Some x => [Imu _ _ _ _ _ _ k k (S k) (S k) k (snd (sol k), segment h k); BiasBetween _ _ _ _ _ _ k (S k) b0; Gps _ _ _ _ _ _ (S k) x]
    | None => [] end) (seq 0 n).
Definition values_of (h : list ev) (sol : nat -> P * V * B) (n : nat) : list (value P V B) :=
  [ValP _ _ _ 0 p0; ValV _ _ _ 0 v0; ValB _ _ _ 0 b0] ++
  flat_map (fun k => let q := predict (snd (sol k), segment h k) (fst (sol k)) (snd (sol k)) in
    [ValP _ _ _ (S k) (fst q); ValV _ _ _ (S k) (snd q); ValB _ _ _ (S k) (snd (sol k))]) (seq 0 n).
Definition total (l : list (meas A W)) : R := fold_right Rplus 0%R (map snd l).
End Spec.
