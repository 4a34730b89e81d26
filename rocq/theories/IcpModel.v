(** Model of registrators/icp_fast.{h,cc}: rejection of matches, the convergence test and Align.

    Distances are IEEE-754 binary64 values (SpecFloat).  Oracles: std::nth_element, libnabo (the matches
    of the moved source cloud), ComputePointToPlane, and the distances between two transforms.  Not
    modelled: the score (final_score_), NaN in the transforms; ComputePointToPoint is in KabschModel.v. *)
From Coq Require Import QArith ZArith List Bool SpecFloat.
From Verif Require Import Outcome Pose FilterModel.
Import ListNotations.
Local Open Scope outcome_scope.
Local Open Scope nat_scope.

Notation dbl := spec_float.
Definition infinity : dbl := S754_infinity false.
Definition one : dbl := S754_finite false 4503599627370496 (-52).
Definition is_nan (x : dbl) : bool := match x with S754_nan => true | _ => false end.

(** std::max_element: the first of the largest values. *)
Fixpoint max_element (best : dbl) (l : list dbl) : dbl :=
  match l with
  | [] => best
  | x :: l' => max_element (if SFltb best x then x else best) l'
  end.
(** Matches::GetDistsQuantile, icp_fast.cc:65-89, for one row of distances.  [nth] is std::nth_element; it
    and std::max_element need an ordered range, which NaN does not allow. *)
Definition quantile (nth : list dbl -> nat -> list dbl) (dists : list dbl) (q : dbl) : outcome dbl :=
  let* _ := check (SFleb (S754_zero false) q && SFleb q one) in
  let values := List.filter (fun d => negb (SFeqb d infinity)) dists in
  match values with
  | [] => Abort
  | v :: vs =>
      if existsb is_nan values then UB
      else if SFeqb q one then Ok (max_element v vs)
      else
        let* k := to_int (SFmul 53 1024 (of_int (Z.of_nat (length values))) q) in
        match nth_error (nth values (Z.to_nat k)) (Z.to_nat k) with
        | Some x => if (k <? 0)%Z then UB else Ok x
        | None => UB
        end
  end.

(** ErrorElements, icp_fast.cc:100-165, for the weights (dists <= limit) of Align, icp_fast.cc:499-500.
    [size]: number of points of the target.  Result: source and target index of each kept match. *)
Fixpoint keep (i : nat) (l : list (dbl * (nat * bool))) : list (nat * nat) :=
  match l with
  | [] => []
  | (d, (id, w)) :: l' => if SFeqb d infinity then keep (S i) l' else if w then (i, id) :: keep (S i) l' else keep (S i) l'
  end.
Definition error_elements (sources size : nat) (dists : list dbl) (ids : list nat) (weights : list bool) : outcome (list (nat * nat)) :=
  let* _ := check (Nat.ltb 0 (length ids)) in
  let* _ := check (Nat.eqb (length ids) sources) in
  let count := length (List.filter (fun w => w) weights) in
  let* _ := check (Nat.ltb 0 count) in
  let kept := keep 0 (combine dists (combine ids weights)) in
  let* _ := check (Nat.eqb (length kept) count) in
  if forallb (fun x => Nat.ltb (snd x) size) kept then Ok kept else UB.
(** Steps 2 and 3 of the loop of Align, icp_fast.cc:497-506. *)
Definition reject (nth : list dbl -> nat -> list dbl) (q : dbl) (sources size : nat) (dists : list dbl) (ids : list nat)
  : outcome (list (nat * nat)) :=
  let* limit := quantile nth dists q in
  let weights := map (fun d => SFleb d limit) dists in
  let* _ := check (Nat.eqb (length weights) sources) in
  error_elements sources size dists ids weights.

(** CheckConvergence, icp_fast.cc:377-405.  The index is a size_t: it wraps below zero.  [drot] and [dtra]
    are the distances of two consecutive transforms, exact.  None: out of fuel. *)
Definition size_dec (i : Z) : Z := ((i - 1) mod 2 ^ 64)%Z.
Fixpoint conv_loop {A} (drot dtra : A -> A -> Q) (fuel : nat) (hist : list A) (i low : Z) (r t : Q) : option (outcome (Q * Q)) :=
  if (low <=? i)%Z then
    match fuel with
    | O => None
    | S n =>
        match nth_error hist (Z.to_nat i), nth_error hist (Z.to_nat (size_dec i)) with
        | Some a, Some b => conv_loop drot dtra n hist (size_dec i) low (r + drot a b)%Q (t + dtra a b)%Q
        | _, _ => Some UB
        end
    end
  else Some (Ok (r, t)).
Definition converged {A} (drot dtra : A -> A -> Q) (fuel : nat) (hist : list A) : option (outcome bool) :=
  let size := Z.of_nat (length hist) in
  if (4 <? size)%Z then
    match conv_loop drot dtra fuel hist (size - 1) (size - 4) 0 0 with
    | None => None
    | Some r => Some (let* x := r in
                      Ok (match Qlt_le_dec (fst x / 4) (1 # 1000), Qlt_le_dec (snd x / 4) (1 # 100) with
                          | left _, left _ => true
                          | _, _ => false
                          end))
    end
  else Some (Ok false).

(** Align, icp_fast.cc:455-529.  [matches]: FindClosests for the source cloud moved by a transform (with
    the guess applied before); [solve]: ComputePointToPlane for the kept matches and the transform.
    EigenPointCloud::ApplyTransform (builder/data/cloud_types.cc:288-302) aborts on an empty cloud,
    ApplyMotionCompensation (306-321) reads its own uninitialised local variable. *)
Record setup := mkSetup { sources : nat; targets : nat; ratio : dbl; max_iter : Z; compensate : bool }.
Section Align.
  Context {G : group}.
  Variables (nth : list dbl -> nat -> list dbl) (matches : G -> list dbl * list nat) (solve : list (nat * nat) -> G -> G)
            (drot dtra : G -> G -> Q).

  Definition icp_step (cfg : setup) (T : G) : outcome G :=
    let* _ := (if compensate cfg then UB else check (Nat.ltb 0 (sources cfg))) in
    let '(dists, ids) := matches T in
    let* kept := reject nth (ratio cfg) (sources cfg) (targets cfg) dists ids in
    Ok (gmul (solve kept T) T).
  (** The while loop.  [count]: iterator; [hist]: the transforms so far. *)
  Fixpoint icp_loop (fuel : nat) (cfg : setup) (T : G) (count : Z) (hist : list G) : option (outcome (G * Z)) :=
    match fuel with
    | O => None
    | Datatypes.S n =>
        match icp_step cfg T with
        | Ok T' =>
            let hist' := hist ++ [T'] in
            match converged drot dtra 4 hist' with
            | None => None
            | Some (Ok c) => if (c || (max_iter cfg <=? count + 1)%Z)%bool then Some (Ok (T', (count + 1)%Z)) else icp_loop n cfg T' (count + 1) hist'
            | Some Abort => Some Abort | Some Throw => Some Throw | Some UB => Some UB
            end
        | Abort => Some Abort | Throw => Some Throw | UB => Some UB
        end
    end.
  (** [mean]: translation by the mean of the target.  Result: the transform and the number of iterations. *)
  Definition align (fuel : nat) (o : option setup) (mean guess : G) : option (outcome (G * Z)) :=
    match o with
    | None => Some UB                                   (* null source_cloud_ or target_cloud_ *)
    | Some cfg =>
        if Nat.ltb 0 (sources cfg) then
          match icp_loop fuel cfg gone 0 [gone] with
          | None => None
          | Some r => Some (let* x := r in Ok (gmul (gmul mean (fst x)) (gmul (ginv mean) guess), snd x))
          end
        else Some Abort                                 (* CHECK_GT(points_count, 0) in ApplyTransform *)
    end.
End Align.
