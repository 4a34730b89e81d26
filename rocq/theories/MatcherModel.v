(** Model of the registrators as their callers see them: registrators/interface.{h,cc}, ndt.cc, ndt_gicp.cc,
    icp_pointmatcher.cc, the inputs of icp_fast.cc, and the two places that judge a match by its score:
    MapBuilder::SubmapPairMatch (builder/map_builder.cc:399-446) and LoopDetector::CloseLoop
    (back_end/loop_detector.cc:282-318).

    Oracles: the registration libraries (results and errors for two clouds and a guess, arbitrary), the voxel
    filter, NormalizeRotation.  A transform is an arbitrary type: casts to float belong to the oracles.  A
    score is a real number or NaN ([None]).  Clouds are in memory (eviction: C97). *)
From Coq Require Import Reals List Bool.
From Verif Require Import Outcome.
Import ListNotations.
Local Open Scope outcome_scope.
Local Open Scope R_scope.

(** A float result; [None]: NaN.  Comparisons with NaN are false. *)
Definition num := option R.
Definition ge (x : num) (y : R) : bool := match x with Some r => if Rle_dec y r then true else false | None => false end.
Definition gt (x : num) (y : R) : bool := match x with Some r => if Rlt_dec y r then true else false | None => false end.
Definition le (x : num) (y : R) : bool := match x with Some r => if Rle_dec r y then true else false | None => false end.
Definition lt (x : num) (y : R) : bool := match x with Some r => if Rlt_dec r y then true else false | None => false end.
(** std::exp(-x) and -std::log(x); log of a number that is not positive is not used below. *)
Definition decay (x : num) : num := option_map (fun r => exp (- r)) x.
Definition unlog (x : num) : num := option_map (fun r => - ln r) x.
(** The mean of distances; 0 / 0 is NaN. *)
Definition mean (l : list R) : num :=
  match l with [] => None | _ => Some (fold_right Rplus 0 l / INR (length l)) end.

Section Matcher.
  Context {P T : Type}.
  (** Points with a NaN coordinate. *)
  Variable broken : P -> bool.
  (** InnerPointCloudData: its points and whether EigenPointCloud::HasNormals. *)
  Record cloud := mkCloud { pts : list P; normals : bool }.
  Definition empty (c : cloud) : bool := match pts c with [] => true | _ => false end.
  (** The types that CreateMatcher accepts, interface.cc:139-168. *)
  Inductive kind := IcpPm | NdtGicp | Ndt | FastIcp.
  (** Interface, interface.h:103-110.  For IcpPm the clouds are reading_cloud_ and reference_cloud_ of
      icp_pointmatcher.cc:33-41, empty ([None]) at first.  [score]: final_score_, [None] as long as it is not
      initialised. *)
  Record matcher := mkMatcher { type : kind; source : option cloud; target : option cloud; score : option num }.
  Definition create (k : kind) : matcher := mkMatcher k None None None.

  Definition with_source (m : matcher) (c : option cloud) : matcher := mkMatcher (type m) c (target m) (score m).
  Definition with_target (m : matcher) (c : option cloud) : matcher := mkMatcher (type m) (source m) c (score m).
  (** Interface::SetInputSource, interface.cc:37-47 (Ndt and NdtGicp); IcpUsingPointMatcher::SetInputSource,
      icp_pointmatcher.cc:85-93, with the check that no point was dropped for a NaN (52-66);
      IcpFast::SetInputSource, icp_fast.cc:420-424. *)
  Definition set_source (m : matcher) (c : option cloud) : outcome matcher :=
    match type m, c with
    | (Ndt | NdtGicp), None => Ok (with_source m None)
    | (Ndt | NdtGicp), Some x => Ok (if empty x then m else with_source m c)
    | IcpPm, None => Ok m
    | IcpPm, Some x => if empty x then Ok m else let* _ := check (negb (existsb broken (pts x))) in Ok (with_source m c)
    | FastIcp, None => Abort
    | FastIcp, Some x => Ok (with_source m c)
    end.
  (** SetInputTarget: interface.cc:49-59, icp_pointmatcher.cc:95-103, icp_fast.cc:426-431. *)
  Definition set_target (m : matcher) (c : option cloud) : outcome matcher :=
    match type m, c with
    | (Ndt | NdtGicp), None => Ok (with_target m None)
    | (Ndt | NdtGicp), Some x => Ok (if empty x then m else with_target m c)
    | IcpPm, None => Ok m
    | IcpPm, Some x => if empty x then Ok m else let* _ := check (negb (existsb broken (pts x))) in Ok (with_target m c)
    | FastIcp, None => Abort
    | FastIcp, Some x => let* _ := check (normals x) in Ok (with_target m c)
    end.

  (** The libraries.  [pm]: the result of PM::ICP::compute (with an empty cloud for [None]) and the distances of
      the matches of the moved reading cloud that are not outliers.  [ndt], [gicp], [plain]: the final
      transformation and the fitness score of pclomp::NormalDistributionsTransform (ndt.cc), of
      pcl::NormalDistributionsTransform and of pcl::GeneralizedIterativeClosestPoint (ndt_gicp.cc).
      [fast]: the transform and the average distance of IcpFast::Align (IcpModel, PlaneIcpModel). *)
  Variables (pm : option cloud -> option cloud -> T -> outcome (T * list R)) (plain ndt gicp : cloud -> cloud -> T -> T * num)
            (fast : cloud -> cloud -> T -> outcome (T * num)) (voxel : cloud -> cloud) (use_ndt use_voxel : bool).

  Definition scored (m : matcher) (s : num) : matcher := mkMatcher (type m) (source m) (target m) (Some s).
  (** Align.  [old]: what the caller's result variable held; the result is the returned flag, the result variable
      and the matcher.
      IcpPm: icp_pointmatcher.cc:105-149.  Ndt: ndt.cc:40-64.  NdtGicp: ndt_gicp.cc:58-111, a missing cloud is a
      null pointer that is used.  FastIcp: icp_fast.cc:455-529. *)
  Definition align (m : matcher) (guess old : T) : outcome (bool * T * matcher) :=
    match type m with
    | IcpPm =>
        let* r := pm (source m) (target m) guess in
        let s := decay (mean (snd r)) in
        Ok (negb (lt s (6 / 10)), fst r, scored m s)
    | Ndt =>
        match source m, target m with
        | Some a, Some b => let r := plain a b guess in Ok (true, fst r, scored m (snd r))
        | _, _ => Ok (false, old, m)
        end
    | NdtGicp =>
        match source m, target m with
        | Some a, Some b =>
            let a := if use_voxel then voxel a else a in
            let b := if use_voxel then voxel b else b in
            let first := if use_ndt then ndt a b guess else (guess, Some (9 / 10)) in
            if le (snd first) 1 then
              let r := gicp a b (fst first) in Ok (true, fst r, scored m (decay (snd r)))
            else Ok (false, guess, scored m (decay (Some 10)))
        | _, _ => UB
        end
    | FastIcp =>
        match source m, target m with
        | Some a, Some b => let* r := fast a b guess in Ok (true, fst r, scored m (decay (snd r)))
        | _, _ => UB
        end
    end.
  (** GetFitnessScore, interface.h:100; the value of a double that was never set is undefined. *)
  Definition fitness (m : matcher) : outcome num := match score m with Some s => Ok s | None => UB end.

  (** Calls on one matcher. *)
  Inductive call := Source (c : option cloud) | Target (c : option cloud) | Align (guess old : T).
  Definition step (m : matcher) (c : call) : outcome matcher :=
    match c with
    | Source c => set_source m c
    | Target c => set_target m c
    | Align g o => let* r := align m g o in Ok (snd r)
    end.

  Variables (normalize flatten : T -> T) (one : T).
  (** SubmapPairMatch, map_builder.cc:399-446, from the clouds of the two submaps and the guess from their first
      frames; [k], [limit]: submap_matcher_options.  Result: the transform given to SetMatchedTransformedToNext
      and match_score_to_previous_submap_. *)
  Definition pair_match (k : kind) (limit : R) (from to : option cloud) (guess : T) : outcome (T * num) :=
    let* m := set_source (create k) from in
    let* m := set_target m to in
    let* r := align m guess one in
    let* s := fitness (snd r) in
    Ok (if ge s limit then normalize (snd (fst r)) else guess, s).
  (** LoopDetector::CloseLoop, loop_detector.cc:282-318.  [relative]: the pose of the source frame
      in the target frame; [flatten] sets its height to 0.  Result: the edge, if there is one: transform and
      score. *)
  Definition loop_match (limit : R) (from to : option cloud) (relative old : T) : outcome (option (T * num)) :=
    let* m := set_source (create IcpPm) from in
    let* m := set_target m to in
    let* r := align m (flatten relative) old in
    let* s := fitness (snd r) in
    Ok (if gt s limit then Some (snd (fst r), unlog s) else None).
  (** One match of the front end without motion compensation, map_builder.cc:314-333. *)
  Definition front_match (m : matcher) (from to : option cloud) (guess : T) : outcome (T * matcher) :=
    let* m := set_target m to in
    let* m := set_source m from in
    let* r := align m guess one in
    Ok (snd (fst r), snd r).
End Matcher.
Arguments cloud : clear implicits. Arguments matcher : clear implicits. Arguments call : clear implicits.
