(** Model of builder/sensor_fusions/imu_gps_tracker.{h,cc} (not part of the build: builder/CMakeLists.txt:3-4).

    Of GTSAM the factors and initial values it is given are modelled; [optimize] (the result of the optimizer, for
    every number of a state) and [predict] (of the preintegrated measurements) are arbitrary.  Durations are
    real numbers without rounding; overflow of gps_count_, the warning for missing messages (74-78), the noise models
    and the printed position are not modelled.  The prior velocity of the constructor is never initialised (49):
    [v0], arbitrary. *)
From Coq Require Import List Bool ZArith Reals.
From Verif Require Import Outcome TimeModel.
Import ListNotations.
Local Open Scope outcome_scope.

Section Tracker.
(** Accelerations, angular velocities, poses, velocities, biases, positions. *)
Variables A W P V B X : Type.
Definition meas : Type := (A * W * R)%type.
(** PreintegratedImuMeasurements: the bias and what was integrated since the last reset. *)
Definition pim : Type := (B * list meas)%type.
(** The state numbered n has the variables P(n), V(n) and B(n). *)
Inductive factor :=
  | PriorP (n : nat) (p : P) | PriorV (n : nat) (v : V) | PriorB (n : nat) (b : B)
  | Imu (p1 v1 p2 v2 b1 : nat) (m : pim)
  | BiasBetween (b1 b2 : nat) (b : B)
  | Gps (p : nat) (x : X).
Inductive value := ValP (n : nat) (p : P) | ValV (n : nat) (v : V) | ValB (n : nat) (b : B).
Variable period : R.
Variable p0 : P.
Variables v0 v_zero : V.
Variable b0 : B.
Variable predict : pim -> P * V -> B -> P * V.
Variable optimize : list factor -> list value -> nat -> P * V * B.

(** The members, h:68-85. *)
Record st := mkSt {
  last : time;
  pre : pim;
  graph : list factor;
  vals : list value;
  prev : P * V;
  prev_b : B;
  count : nat }.

(** The constructor, 36-67: prev_state_ is the default NavState, prev_bias_ the default bias. *)
Definition fresh : st :=
  mkSt time_zero (b0, []) [PriorP 0 p0; PriorV 0 v0; PriorB 0 b0] [ValP 0 p0; ValV 0 v0; ValB 0 b0] (p0, v_zero) b0 0.

(** ToSec of a difference. *)
Definition to_sec (d : time) : R := (IZR (to_nano d) / 1000000000)%R.
(** AddImuData, 69-85. *)
Definition add_imu (t : time) (a : A) (w : W) (s : st) : outcome st :=
  let* d := t_sub t (last s) in
  let* ne := t_ne (last s) time_zero in
  let* dt := (if ne then let* _ := check (t_gt t (last s)) in Ok (to_sec d) else Ok period) in
  Ok (mkSt t (fst (pre s), snd (pre s) ++ [(a, w, dt)]) (graph s) (vals s) (prev s) (prev_b s) (count s)).

(** Values::insert throws for a variable that is there already. *)
Definition same (v w : value) : bool :=
  match v, w with
  | ValP n _, ValP m _ => n =? m
  | ValV n _, ValV m _ => n =? m
  | ValB n _, ValB m _ => n =? m
  | _, _ => false
  end%nat.
Definition insert (l : list value) (v : value) : outcome (list value) := if existsb (same v) l then Throw else Ok (l ++ [v]).

(** AddGpsData, 87-124.  The stamp of the message is not used. *)
Definition add_gps (x : X) (s : st) : outcome st :=
  let n := S (count s) in
  let g := graph s ++ [Imu (n - 1) (n - 1) n n (n - 1) (pre s)] ++ [BiasBetween (n - 1) n b0] ++ [Gps n x] in
  let q := predict (pre s) (prev s) (prev_b s) in
  let* v := insert (vals s) (ValP n (fst q)) in
  let* v := insert v (ValV n (snd q)) in
  let* v := insert v (ValB n (prev_b s)) in
  let r := optimize g v n in
  Ok (mkSt (last s) (snd r, []) g v (fst r) (snd r) n).

(** AddOdomData, h:62-64: LOG(FATAL). *)
Inductive ev := EImu (t : time) (a : A) (w : W) | EGps (x : X) | EOdom.
Definition step (s : st) (e : ev) : outcome st :=
  match e with
  | EImu t a w => add_imu t a w s
  | EGps x => add_gps x s
  | EOdom => Abort
  end.
Definition after (h : list ev) : outcome st := run step fresh h.
End Tracker.
