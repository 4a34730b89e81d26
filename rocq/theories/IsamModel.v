(** Model of back_end/isam_optimizer.{h,cc} and of the part of MapBuilder::ConnectAllSubmap and
    CalculateCoordTransformToGps (builder/map_builder.cc:483-492, 748-763) that uses it.

    Poses are elements of a group.  GTSAM is an oracle: [est n k] is the estimate of variable [k]
    after [n] calls of ISAM2::update (isam_optimizer.cc:97-100), [solved l] the result of the
    separate optimisation of the GPS frame (309-334), [turned l] the test that the largest rotation
    relative to the first pose is not below gps_factor_init_angle_rad (177-197, 269-270).  Of GTSAM's
    own behaviour only its exceptions are modelled: inserting a variable twice and using a variable
    that was never inserted throw.  The loop detector is LoopModel.v, the view graph ViewModel.v.
    Noise models, console output and AddImuData (declared only) are not modelled. *)
From Coq Require Import List Bool ZArith QArith SpecFloat.
From Verif Require Import Outcome Pose MathModel LoopModel ViewModel.
Import ListNotations.
Local Open Scope outcome_scope.
Local Open Scope nat_scope.

(** The symbols p0, p1, ...; c0; g0; c2 (isam_optimizer.cc:53-64). *)
Inductive key := KPose (i : nat) | KOdom | KGps | KCalib.
Definition key_eqb (a b : key) : bool :=
  match a, b with
  | KPose i, KPose j => Nat.eqb i j
  | KOdom, KOdom | KGps, KGps | KCalib, KCalib => true
  | _, _ => false
  end.

Section Isam.
Variable G : group.
Variable enu : Type.
Variables tn rn : G -> spec_float.
Variables vx vy : G -> coord.
Variable junk : G.
Variable est : nat -> key -> G.
Variable solved : list (nat * enu) -> G.
Variable turned : list G -> bool.

Inductive factor :=
| FPrior (i : nat) (p : G)            (* 147-148 *)
| FMove (i j : nat) (t : G)           (* 162-164 *)
| FLoop (i j : nat) (t : G)           (* 129-131 *)
| FOdomPrior (t : G)                  (* 155-156 *)
| FOdom (i : nat) (p : G)             (* 226-227 *)
| FGpsPrior (t : G)                   (* 341-344 *)
| FCalibPrior                         (* 347-349 *)
| FEnu (i : nat) (e : enu) (calib : bool).  (* 254-267 *)
(** The variables a factor uses. *)
Definition keys (f : factor) : list key :=
  match f with
  | FPrior i _ => [KPose i]
  | FMove i j _ | FLoop i j _ => [KPose i; KPose j]
  | FOdomPrior _ => [KOdom]
  | FOdom i _ => [KOdom; KPose i]
  | FGpsPrior _ => [KGps]
  | FCalibPrior => [KCalib]
  | FEnu i _ calib => [KGps; KPose i] ++ (if calib then [KCalib] else [])
  end.

(** IsamOptimizerOptions, isam_optimizer.h:59-67. *)
Record options := mkOpt {
  use_odom : bool; use_gps : bool; extrinsic : bool;
  init_num : Z; sample_step : Z }.    (* ints *)

(** What the optimizer reads and writes of a submap. *)
Record sub := mkSub { pose : G; from_last : G; odom : option G; gps : option enu }.
Definition set_pose (p : G) (s : sub) : sub := mkSub p (from_last s) (odom s) (gps s).

(** Members; [subs]: the frames of the loop detector; [links]: the calls frames[a]->
    AddConnectedSubmap(id of b) and view_graph_.AddEdge(a, b, t); [ifacs], [ivars], [count]: the
    factors and variables (with their initial values) given to ISAM2 and the number of update calls. *)
Record opt := mkSt {
  loop : det; subs : list sub; links : list (nat * nat * G); view : state G;
  pfacs : list factor; pvars : list (key * G);
  ifacs : list factor; ivars : list (key * G); count : nat;
  cached : list (nat * enu); gps_known : bool; gps_tf : G;
  calib_inserted : bool; tf_odom : G }.
Definition init (counter : Z) (tf : G) : opt :=
  mkSt (det0 counter) [] [] (init G) [] [] [] [] 0 [] false gone false tf.

Definition has (l : list (key * G)) (k : key) : bool := existsb (fun v => key_eqb k (fst v)) l.
(** IsamUpdate, 97-105, with update_time 1: two calls of ISAM2::update. *)
Definition isam_update (s : opt) : outcome opt :=
  if existsb (fun v => has (ivars s) (fst v)) (pvars s) then Throw
  else
    let vars := ivars s ++ pvars s in
    if forallb (fun f => forallb (has vars) (keys f)) (pfacs s)
    then Ok (mkSt (loop s) (subs s) (links s) (view s) [] [] (ifacs s ++ pfacs s) vars (count s + 2)
                  (cached s) (gps_known s) (gps_tf s) (calib_inserted s) (tf_odom s))
    else Throw.
(** gtsam::Values::insert *)
Definition insert (k : key) (p : G) (s : opt) : outcome opt :=
  if has (pvars s) k then Throw
  else Ok (mkSt (loop s) (subs s) (links s) (view s) (pfacs s) (pvars s ++ [(k, p)]) (ifacs s) (ivars s) (count s)
                (cached s) (gps_known s) (gps_tf s) (calib_inserted s) (tf_odom s)).
Definition add_factor (f : factor) (s : opt) : opt :=
  mkSt (loop s) (subs s) (links s) (view s) (pfacs s ++ [f]) (pvars s) (ifacs s) (ivars s) (count s)
       (cached s) (gps_known s) (gps_tf s) (calib_inserted s) (tf_odom s).
Definition set_view (v : state G) (s : opt) : opt :=
  mkSt (loop s) (subs s) (links s) v (pfacs s) (pvars s) (ifacs s) (ivars s) (count s)
       (cached s) (gps_known s) (gps_tf s) (calib_inserted s) (tf_odom s).
Definition set_subs (l : list sub) (s : opt) : opt :=
  mkSt (loop s) l (links s) (view s) (pfacs s) (pvars s) (ifacs s) (ivars s) (count s)
       (cached s) (gps_known s) (gps_tf s) (calib_inserted s) (tf_odom s).
Definition set_gps (c : list (nat * enu)) (b : bool) (t : G) (s : opt) : opt :=
  mkSt (loop s) (subs s) (links s) (view s) (pfacs s) (pvars s) (ifacs s) (ivars s) (count s)
       c b t (calib_inserted s) (tf_odom s).
(** frames[a]->AddConnectedSubmap(frames[b]->GetId()) and view_graph_.AddEdge(a, b, t); an index
    outside the vector is undefined. *)
Definition connect (a b : nat) (t : G) (s : opt) : outcome opt :=
  match nth_error (subs s) a, nth_error (subs s) b with
  | Some _, Some _ =>
      Ok (mkSt (loop s) (subs s) (links s ++ [(a, b, t)]) (add_edge G junk (view s) (Z.of_nat a) (Z.of_nat b) t)
               (pfacs s) (pvars s) (ifacs s) (ivars s) (count s)
               (cached s) (gps_known s) (gps_tf s) (calib_inserted s) (tf_odom s))
  | _, _ => UB
  end.
Definition view_pose (p : G) : ViewModel.pose G := mkPose G (vx p) (vy p) p.

(** AddVertex, 138-175 *)
Definition add_vertex (O : options) (i : nat) (p t : G) (s : opt) : outcome opt :=
  let* s := insert (KPose i) p s in
  let s := set_view (ViewModel.add_vertex G junk (view s) (Z.of_nat i) (view_pose p)) s in
  let* s :=
    match i with
    | 0 =>
        let s := add_factor (FPrior i p) s in
        if use_odom O then
          let* s := insert KOdom (ginv (tf_odom s)) s in
          let s := add_factor (FOdomPrior (ginv (tf_odom s))) s in
          Ok (mkSt (loop s) (subs s) (links s) (view s) (pfacs s) (pvars s) (ifacs s) (ivars s) (count s)
                   (cached s) (gps_known s) (gps_tf s) true (tf_odom s))
        else Ok s
    | S j => connect j i t (add_factor (FMove j i t) s)
    end in
  isam_update s.

(** The loop over the edges, 232-238; an edge of LoopModel holds GlobalPose(target) * transform. *)
Fixpoint add_loops (cur : nat) (l : list (nat * G)) (s : opt) : outcome opt :=
  match l with
  | [] => Ok s
  | (a, p) :: l' =>
      match nth_error (subs s) a with
      | None => UB
      | Some x =>
          let t := gmul (ginv (pose x)) p in
          let* s := connect a cur t (add_factor (FLoop a cur t) s) in
          let* s := isam_update s in
          add_loops cur l' s
      end
  end.

(** UpdateAllPose, 107-126.  [at] throws if the variable does not exist. *)
Definition estimate (s : opt) (k : key) : outcome G := if has (ivars s) k then Ok (est (count s) k) else Throw.
Fixpoint update_poses (i : nat) (l : list sub) (s : opt) : outcome (list sub * state G) :=
  match l with
  | [] => Ok ([], view s)
  | x :: l' =>
      let* p := estimate s (KPose i) in
      let* r := update_poses (S i) l' (set_view (ViewModel.add_vertex G junk (view s) (Z.of_nat i) (view_pose p)) s) in
      Ok (set_pose p x :: fst r, snd r)
  end.
Definition update_all (s : opt) : outcome opt :=
  let* r := update_poses 0 (subs s) s in Ok (set_view (snd r) (set_subs (fst r) s)).

(** SolveGpsCorrdAlone, 303-350: the poses of the cached indices are read. *)
Fixpoint read_all (l : list (nat * enu)) (s : opt) : outcome unit :=
  match l with [] => Ok tt | (i, _) :: l' => let* _ := estimate s (KPose i) in read_all l' s end.
Definition solve_gps (s : opt) : outcome opt :=
  let* s := isam_update s in
  let* _ := read_all (cached s) s in
  let t := solved (cached s) in
  let s := set_gps (cached s) (gps_known s) t s in
  let* s := insert KGps t s in
  let s := add_factor (FGpsPrior t) s in
  let* s := insert KCalib gone s in
  Ok (add_factor FCalibPrior s).

(** cached_enu_[i] = e, a std::map *)
Fixpoint cache (l : list (nat * enu)) (i : nat) (e : enu) : list (nat * enu) :=
  match l with
  | [] => [(i, e)]
  | (j, x) :: l' => if Nat.eqb i j then (i, e) :: l' else if Nat.ltb i j then (i, e) :: l else (j, x) :: cache l' i e
  end.
(** 269-296; the comparison of size() with an int is unsigned. *)
Definition gps_part (O : options) (i : nat) (g : option enu) (s : opt) : outcome opt :=
  match g with
  | Some e =>
      if use_gps O then
        if gps_known s then
          if ((sample_step O <=? 1) || (Z.rem (Z.of_nat i) (sample_step O) =? 0))%Z
          then isam_update (add_factor (FEnu i e (extrinsic O)) s)
          else Ok s
        else if ((Z.of_nat (length (cached s)) <? init_num O mod 2 ^ 64)%Z || negb (turned (map pose (subs s))))%bool
        then Ok (set_gps (cache (cached s) i e) (gps_known s) (gps_tf s) s)
        else
          let* s := solve_gps s in
          let s := fold_left (fun s x => add_factor (FEnu (fst x) (snd x) (extrinsic O)) s) (cached s) s in
          let* s := isam_update s in
          Ok (set_gps (cached s) true (gps_tf s) s)
      else Ok s
  | None => Ok s
  end.

(** AddFrame, 199-301 *)
Definition add_frame (O : options) (S : settings) (x : sub) (o : obs G) (s : opt) : outcome opt :=
  let* r := LoopModel.add_frame G tn rn S (loop s) o true in
  let s := mkSt (fst r) (subs s ++ [x]) (links s) (view s) (pfacs s) (pvars s) (ifacs s) (ivars s) (count s)
                (cached s) (gps_known s) (gps_tf s) (calib_inserted s) (tf_odom s) in
  let i := length (subs s) - 1 in
  let* _ := check (Nat.eqb i (r_index (snd r))) in
  let* s := add_vertex O i (pose x) (from_last x) s in
  let s := match odom x with
           | Some p => if use_odom O then add_factor (FOdom i p) s else s
           | None => s
           end in
  let* s := (if r_succeed (snd r) then add_loops i (r_edges (snd r)) s else Ok s) in
  let* s := gps_part O i (gps x) s in
  let* s := isam_update s in
  let* _ := check (has (ivars s) (KPose i)) in
  update_all s.

(** RunFinalOptimazation, 352-370, without the picture. *)
Definition run_final (O : options) (s : opt) : outcome opt :=
  let* s := isam_update s in
  let* s := update_all s in
  if use_odom O && calib_inserted s then
    let* t := estimate s KOdom in
    Ok (mkSt (loop s) (subs s) (links s) (view s) (pfacs s) (pvars s) (ifacs s) (ivars s) (count s)
             (cached s) (gps_known s) (gps_tf s) (calib_inserted s) (ginv t))
  else Ok s.
(** GetGpsCoordTransform, 372-386 *)
Definition gps_transform (O : options) (s : opt) : G :=
  if use_gps O && has (ivars s) KGps then est (count s) KGps else gone.

(** One submap of a trajectory: the transform to it from the previous one (found by
    SubmapPairMatch), its odometry and GPS readings, and what the loop detector observes. *)
Record input := mkIn { to_me : G; i_odom : option G; i_gps : option enu; i_obs : obs G }.
(** The connection loop, map_builder.cc:483-492, for the submaps after the first. *)
Fixpoint connect_rest (O : options) (S : settings) (l : list input) (s : opt) : outcome opt :=
  match l with
  | [] => Ok s
  | x :: l' =>
      match nth_error (subs s) (length (subs s) - 1) with
      | None => UB
      | Some prev =>
          let* s := add_frame O S (mkSub (gmul (pose prev) (to_me x)) (to_me x) (i_odom x) (i_gps x)) (i_obs x) s in
          connect_rest O S l' s
      end
  end.
(** The whole of it, 448-571: a trajectory with a single submap is never added (456-462).  The
    first submap has the pose [p0] and an uninitialised, never used TransformFromLast. *)
Definition connect_all (O : options) (S : settings) (counter : Z) (tf p0 : G) (l : list input) : outcome opt :=
  match l with
  | [] | [_] => run_final O (init counter tf)
  | x :: l' =>
      let* s := add_frame O S (mkSub p0 junk (i_odom x) (i_gps x)) (i_obs x) (init counter tf) in
      let* s := connect_rest O S l' s in
      run_final O s
  end.
(** CalculateCoordTransformToGps, map_builder.cc:748-763: the final submap poses. *)
Definition to_gps (O : options) (s : opt) : list G :=
  map (fun x => gmul (gps_transform O s) (pose x)) (subs s).
End Isam.
Arguments mkOpt : clear implicits.
Arguments FPrior {G enu}. Arguments FMove {G enu}. Arguments FLoop {G enu}. Arguments FOdomPrior {G enu}. Arguments FOdom {G enu}.
Arguments FGpsPrior {G enu}. Arguments FCalibPrior {G enu}. Arguments FEnu {G enu}. Arguments keys {G enu}.
Arguments mkSub {G enu}. Arguments pose {G enu}. Arguments from_last {G enu}. Arguments odom {G enu}. Arguments gps {G enu}. Arguments set_pose {G enu}.
Arguments mkSt {G enu}. Arguments loop {G enu}. Arguments subs {G enu}. Arguments links {G enu}. Arguments view {G enu}. Arguments pfacs {G enu}.
Arguments pvars {G enu}. Arguments ifacs {G enu}. Arguments ivars {G enu}. Arguments count {G enu}. Arguments cached {G enu}. Arguments gps_known {G enu}.
Arguments gps_tf {G enu}. Arguments calib_inserted {G enu}. Arguments tf_odom {G enu}. Arguments init {G enu}. Arguments has {G}.
Arguments isam_update {G enu}. Arguments insert {G enu}. Arguments add_factor {G enu}. Arguments set_view {G enu}. Arguments set_subs {G enu}.
Arguments set_gps {G enu}. Arguments connect {G enu}. Arguments view_pose {G}. Arguments add_vertex {G enu}. Arguments add_loops {G enu}.
Arguments estimate {G enu}. Arguments update_poses {G enu}. Arguments update_all {G enu}. Arguments read_all {G enu}. Arguments solve_gps {G enu}.
Arguments cache {enu}. Arguments gps_part {G enu}. Arguments add_frame {G enu}. Arguments run_final {G enu}. Arguments gps_transform {G enu}.
Arguments mkIn {G enu}. Arguments to_me {G enu}. Arguments i_odom {G enu}. Arguments i_gps {G enu}. Arguments i_obs {G enu}.
Arguments connect_rest {G enu}. Arguments connect_all {G enu}. Arguments to_gps {G enu}.
