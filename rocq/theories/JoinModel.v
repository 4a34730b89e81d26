(** Model of builder/multi_trajectory/multi_trajectory_map_builder.{h,cc} (LoadBaseMap, LoadIncrementalMap) and of
    back_end/multi_trajectory/multi_trajectory_optimizer.{h,cc}, the joining of maps.  Neither is part of the build.

    A file is what LoadTrajectoryFromFile reads of it (C104 and C105): for every trajectory its
    submaps, with the index, pose and connections of each; [None] is a file that cannot be read.  Submaps are shared
    between the builder, the optimizer and the loop detector: they are numbered in the order of their creation.

    Parameters: [rel] (target_pose.inverse() * source_pose), [detect] (the pairs and transforms of a successful
    LoopDetector::AddFrame, of which the second frame is always the added one; LoopModel.v) and [solve] (the result
    of the solver for a key).  Of the solver itself only what it is given is modelled, and that it throws for a key
    given twice or not at all.  Overflow of the indices, the view graph and the output are not modelled. *)
From Coq Require Import List Bool ZArith.
From Verif Require Import Outcome.
Import ListNotations.
Local Open Scope outcome_scope.
Local Open Scope Z_scope.

(** SubmapIdToUint64, multi_trajectory_optimizer.cc:40-42. *)
Definition key (id : Z * Z) : Z := ((fst id mod 2 ^ 64) * 2 ^ 32 + snd id mod 2 ^ 64) mod 2 ^ 64.
(** gtsam::Symbol('s', index) as a key, :33-34: an index has 56 bits. *)
Definition sym (k : Z) : outcome Z := if k <? 2 ^ 56 then Ok k else Throw.
(** operator== of SubmapId, used at multi_trajectory_optimizer.cc:123. *)
Definition id_eqb (a b : Z * Z) : bool := (fst a =? fst b) && (snd a =? snd b).
(** Element [i] of a vector. *)
Definition at_ {X} (l : list X) (i : Z) : option X := if i <? 0 then None else nth_error l (Z.to_nat i).
Definition get {X} (l : list X) (a : nat) : outcome X := match nth_error l a with Some x => Ok x | None => UB end.
Fixpoint update {X} (l : list X) (a : nat) (f : X -> X) : list X :=
  match l, a with
  | [], _ => []
  | x :: r, O => f x :: r
  | x :: r, S b => x :: update r b f
  end.

Section Join.
Variable P : Type.
Variable rel : P -> P -> P.
Record sub := mkSub { s_id : Z * Z; s_pose : P; s_conn : list (Z * Z) }.
Definition raw : Type := (Z * P * list (Z * Z))%type.
Definition package : Type := list (list raw).
Inductive factor := Prior (k : Z) (p : P) | Between (a b : Z) (t : P) (loop : bool).
Variable detect : list sub -> list nat -> option (Z * Z) -> nat -> list (nat * P).
Variable solve : list factor -> list (Z * P) -> Z -> P.

(** The builder (multi_trajectory_map_builder.h:78-85) with its optimizer (multi_trajectory_optimizer.h:69-83): the submaps, base_trajectories_ and
    incremental_trajectories_ with their ids, trajectories_, the frames and the search window of the detector, the
    factors given to the solver so far, isam_factor_graph_, and the initial values given. *)
Record st := mkSt {
  mem : list sub;
  base : list (Z * list nat);
  inc : list (Z * list nat);
  opt : Z -> list nat;
  frames : list nat;
  win : option (Z * Z);
  given : list factor;
  pend : list factor;
  vals : list (Z * P) }.
Definition fresh : st := mkSt [] [] [] (fun _ => []) [] None [] [] [].
Definition set_mem (s : st) (m : list sub) : st := mkSt m (base s) (inc s) (opt s) (frames s) (win s) (given s) (pend s) (vals s).
Definition set_id (x : sub) (i : Z * Z) : sub := mkSub i (s_pose x) (s_conn x).
Definition set_pose (p : P) (x : sub) : sub := mkSub (s_id x) p (s_conn x).
Definition set_conn (c : list (Z * Z)) (x : sub) : sub := mkSub (s_id x) (s_pose x) c.

(** AddVertex, multi_trajectory_optimizer.cc:149-166: the factors in isam_factor_graph_ stay in it. *)
Definition add_vertex (k : Z) (p : P) (s : st) : outcome st :=
  let* k := sym k in
  let pend' := if k mod 2 ^ 32 =? 0 then pend s ++ [Prior k p] else pend s in
  if existsb (Z.eqb k) (map fst (vals s)) then Throw
  else Ok (mkSt (mem s) (base s) (inc s) (opt s) (frames s) (win s) (given s ++ pend') pend' (vals s ++ [(k, p)])).
(** AddSubmapConnection, multi_trajectory_optimizer.cc:114-147. *)
Definition add_conn (target source : Z * Z) (t : P) (loop : bool) (s : st) : outcome st :=
  let* s := (if loop then
      match at_ (opt s (fst target)) (snd target) with
      | None => Throw
      | Some a =>
          let* x := get (mem s) a in
          let* _ := check (id_eqb (s_id x) target) in
          Ok (set_mem s (update (mem s) a (fun x => set_conn (s_conn x ++ [source]) x)))
      end
    else Ok s) in
  let* a := sym (key target) in
  let* b := sym (key source) in
  if existsb (Z.eqb a) (map fst (vals s)) && existsb (Z.eqb b) (map fst (vals s))
  then Ok (mkSt (mem s) (base s) (inc s) (opt s) (frames s) (win s) (given s ++ pend s ++ [Between a b t loop]) [] (vals s))
  else Throw.
(** One closed loop of AddSubmap, multi_trajectory_optimizer.cc:102-109: the found frame is the target, the added submap the source. *)
Definition close (x : sub) (s : st) (e : nat * P) : outcome st :=
  let* f := get (frames s) (fst e) in
  let* y := get (mem s) f in
  let* _ := check (negb (fst (s_id y) =? fst (s_id x))) in
  add_conn (s_id y) (s_id x) (snd e) true s.
(** AddSubmap, multi_trajectory_optimizer.cc:87-112. *)
Definition add_submap (detecting : bool) (s : st) (a : nat) : outcome st :=
  let* x := get (mem s) a in
  let t := fst (s_id x) in
  let o := fun u => if u =? t then opt s t ++ [a] else opt s u in
  let es := if detecting then detect (mem s) (frames s) (win s) a else [] in
  let* s := add_vertex (key (s_id x)) (s_pose x) (mkSt (mem s) (base s) (inc s) o (frames s ++ [a]) (win s) (given s) (pend s) (vals s)) in
  run (close x) s es.
(** UseCurrentStateAsBaseMap, multi_trajectory_optimizer.cc:168-177. *)
Definition use_as_base (s : st) : st :=
  match frames s with
  | [] => s
  | _ => mkSt (mem s) (base s) (inc s) (opt s) (frames s) (Some (0, Z.of_nat (length (frames s)) - 1)) (given s) (pend s) (vals s)
  end.
(** RunFinalOptimizing, multi_trajectory_optimizer.cc:179-194.  Its loop goes over trajectories_, which holds the same submaps as the frames. *)
Definition final_pose (g : list factor) (v : list (Z * P)) (s : st) (a : nat) : outcome st :=
  let* x := get (mem s) a in
  let* k := sym (key (s_id x)) in
  if existsb (Z.eqb k) (map fst v) then Ok (set_mem s (update (mem s) a (set_pose (solve g v k)))) else Throw.
Definition final (s : st) : outcome st := run (final_pose (given s) (vals s)) s (frames s).

(** LoadTrajectoryFromFile, multi_trajectory_map_builder.cc:140-212: the trajectories get the next indices. *)
Definition read_sub (t : Z) (r : raw) : sub := mkSub (t, fst (fst r)) (snd (fst r)) (snd r).
Fixpoint load (t : Z) (pk : package) (m : list sub) : list sub * list (Z * list nat) :=
  match pk with
  | [] => (m, [])
  | tr :: r =>
      let '(m', ts) := load (t + 1) r (m ++ map (read_sub t) tr) in
      (m', (t, seq (length m) (length tr)) :: ts)
  end.
(** The submap of an id: operator[] of the vector of trajectories, at() of the trajectory, multi_trajectory_map_builder.cc:71-73, 118-120. *)
Definition find (ts : list (Z * list nat)) (c : Z * Z) : outcome nat :=
  match at_ ts (fst c) with
  | None => UB
  | Some (_, l) => match at_ l (snd c) with None => Throw | Some b => Ok b end
  end.
(** The connections of one submap of the base map, multi_trajectory_map_builder.cc:67-78. *)
Definition connect_base (s : st) (a : nat) : outcome st :=
  let* x := get (mem s) a in
  run (fun s c =>
    let* b := find (base s) c in
    let* y := get (mem s) b in
    add_conn (s_id x) (s_id y) (rel (s_pose x) (s_pose y)) false s) s (s_conn x).
(** LoadBaseMap, multi_trajectory_map_builder.cc:50-83. *)
Definition load_base (file : option package) (s : st) : outcome st :=
  match file with
  | None => Abort
  | Some pk =>
      let '(m, ts) := load (Z.of_nat (length (base s))) pk (mem s) in
      let s := mkSt m (base s ++ ts) (inc s) (opt s) (frames s) (win s) (given s) (pend s) (vals s) in
      let* s := run (add_submap false) s (concat (map snd (base s))) in
      let* s := run connect_base s (concat (map snd (base s))) in
      Ok (use_as_base s)
  end.
(** SetId and AddSubmap, multi_trajectory_map_builder.cc:102-105. *)
Definition insert_inc (off : Z) (s : st) (a : nat) : outcome st :=
  add_submap true (set_mem s (update (mem s) a (fun x => set_id x (fst (s_id x) + off, snd (s_id x))))) a.
(** Connection number [j] of submap [a], which is replaced, multi_trajectory_map_builder.cc:114-126. *)
Definition connect_inc_one (a : nat) (s : st) (j : nat) : outcome st :=
  let* x := get (mem s) a in
  let* c := get (s_conn x) j in
  let* b := find (inc s) c in
  let* y := get (mem s) b in
  let s := set_mem s (update (mem s) a (fun x => set_conn (update (s_conn x) j (fun _ => s_id y)) x)) in
  add_conn (s_id x) (s_id y) (rel (s_pose x) (s_pose y)) false s.
Definition connect_inc (s : st) (a : nat) : outcome st :=
  let* x := get (mem s) a in
  run (connect_inc_one a) s (seq 0 (length (s_conn x))).
(** LoadIncrementalMap, multi_trajectory_map_builder.cc:85-138. *)
Definition load_inc (file : option package) (s : st) : outcome st :=
  match file with
  | None => Abort
  | Some pk =>
      let off := Z.of_nat (length (base s)) in
      let '(m, ts) := load (Z.of_nat (length (inc s))) pk (mem s) in
      let all := inc s ++ ts in
      let s := mkSt m (base s) all (opt s) (frames s) (win s) (given s) (pend s) (vals s) in
      let* s := run (insert_inc off) s (concat (map snd all)) in
      let* s := run connect_inc s (concat (map snd all)) in
      let* s := final s in
      Ok (mkSt (mem s) (base s ++ map (fun t => (fst t + off, snd t)) all) [] (opt s) (frames s) (win s) (given s) (pend s) (vals s))
  end.

(** A session, join_maps_node.cpp:56-57, with any number of incremental maps. *)
Definition session (b : option package) (is : list (option package)) : outcome st :=
  let* s := load_base b fresh in
  run (fun s f => load_inc f s) s is.
(** SaveWholeMap, multi_trajectory_map_builder.cc:214-229, with Trajectory::ToXmlNode, trajectory.cc:32-58, without the
    offset, the names and the text (C104).  C148_again shows that no submap is missing. *)
Definition raw_of (x : sub) : raw := (snd (s_id x), s_pose x, s_conn x).
Definition pack (s : st) : package :=
  map (fun t => flat_map (fun a => match nth_error (mem s) a with Some x => [raw_of x] | None => [] end) (snd t)) (base s).
Definition save_whole (s : st) : outcome package :=
  let* _ := check (match inc s with [] => true | _ => false end) in
  Ok (pack s).
End Join.
