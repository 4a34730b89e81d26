(** Model of pre_processors/plane_detector.h (PlaneDetector) and pre_processors/random_sample_with_plane_detect.h
    (RandomSamplerWithPlaneDetect), which submap.cc includes (its use there is commented out).

    Heights, leaf size and thresholds are rationals: the rounding of float differences is not modelled.  The
    index of the voxel of a point (three quotients converted to int, plane_detector.h:79-81) is a parameter, undefined
    if a quotient does not fit an int (in particular for NaN).  The RANSAC segmentation of PCL and the tests on quotients of two counts are
    parameters.  The members min_z_ and max_z_ are written but never read and left out. *)
From Coq Require Import ZArith QArith List Bool.
From Verif Require Import Outcome.
Import ListNotations.
Local Open Scope outcome_scope.

Definition idx3 : Type := (Z * Z * Z)%type.
Definition zi (k : idx3) : Z := snd k.
(** VectorCompare (160-165). *)
Definition idx_cmp (a b : idx3) : comparison :=
  match Z.compare (fst (fst a)) (fst (fst b)) with
  | Eq => match Z.compare (snd (fst a)) (snd (fst b)) with Eq => Z.compare (snd a) (snd b) | c => c end
  | c => c
  end.
(** voxels_, in the order of std::map. *)
Definition voxels : Type := list (idx3 * list nat).
(** voxels_[index].push_back(i). *)
Fixpoint put (k : idx3) (i : nat) (m : voxels) : voxels :=
  match m with
  | [] => [(k, [i])]
  | (k', l) :: r =>
      match idx_cmp k k' with
      | Lt => (k, [i]) :: m
      | Eq => (k', l ++ [i]) :: r
      | Gt => (k', l) :: put k i r
      end
  end.

Section Plane.
  Variable P : Type.
  Variable height : P -> Q.
  Variable cell : Q -> P -> outcome idx3.
  (** SACSegmentation (131-143): positions of the inliers in the cloud given. *)
  Variable segment : list P -> list nat.
  (** inliers_rate > 0.85 (144-146). *)
  Variable dense : nat -> nat -> bool.
  (** other_sapmled_sum / other_sum < rate_, a comparison of floats (random_sample_with_plane_detect.h:99-101). *)
  Variable below : Q -> nat -> nat -> bool.

  (** A cloud pointer: None is null. *)
  Record detector := mkDet { d_input : option (list P); d_voxels : voxels; d_min : nat; d_leaf : Q }.
  (** 49-53. *)
  Definition new_detector : detector := mkDet None [] 10 (1 # 2).
  (** SetMinPointNumInVoxel, 56-65. *)
  Definition set_min (d : detector) (n : nat) : detector :=
    mkDet (d_input d) (d_voxels d) (if (n <? 5)%nat then 5%nat else n) (d_leaf d).
  (** SetLeafSize, 67. *)
  Definition set_leaf (d : detector) (x : Q) : detector := mkDet (d_input d) (d_voxels d) (d_min d) x.
  Fixpoint put_all (leaf : Q) (i : nat) (l : list P) (m : voxels) : outcome voxels :=
    match l with
    | [] => Ok m
    | p :: r => let* k := cell leaf p in put_all leaf (S i) r (put k i m)
    end.
  (** SetInputCloud, 69-90.  The voxels are not cleared. *)
  Definition set_input (d : detector) (c : option (list P)) : outcome detector :=
    match c with
    | None | Some [] => Ok (mkDet None (d_voxels d) (d_min d) (d_leaf d))
    | Some l => let* m := put_all (d_leaf d) 0 l (d_voxels d) in Ok (mkDet (Some l) m (d_min d) (d_leaf d))
    end.
  (** input_cloud_->points[i] for all indices: out of the vector is undefined. *)
  Fixpoint fetch {A : Type} (l : list A) (is : list nat) : outcome (list A) :=
    match is with
    | [] => Ok []
    | i :: r => match nth_error l i with Some p => let* ps := fetch l r in Ok (p :: ps) | None => UB end
    end.
  Definition above (m z : Q) : Q := if Qle_bool z m then m else z.
  Definition under (m z : Q) : Q := if Qle_bool m z then m else z.
  (** The body of the loop in Detect, 103-152. *)
  Definition detect_voxel (least : nat) (l : list P) (thr : Q) (v : idx3 * list nat) (ground : list nat) : outcome (list nat) :=
    let (k, is) := v in
    if (length is <? least)%nat then Ok ground
    else if (zi k <=? 0)%Z then
      let* ps := fetch l is in
      let zs := map height ps in
      let delta := (fold_left above zs (- (1000000000 # 1)) - fold_left under zs (1000000000 # 1))%Q in
      Ok (if Qle_bool 0 delta && Qle_bool delta thr then ground ++ is else ground)
    else if (length is <? 2 * least)%nat then Ok ground
    else let* ps := fetch l is in
         let inl := segment ps in
         if dense (length inl) (length is) then let* js := fetch is inl in Ok (ground ++ js) else Ok ground.
  Fixpoint detect_all (least : nat) (l : list P) (thr : Q) (m : voxels) (ground : list nat) : outcome (list nat) :=
    match m with
    | [] => Ok ground
    | v :: r => let* g := detect_voxel least l thr v ground in detect_all least l thr r g
    end.
  (** Detect, 92-153. *)
  Definition detect (d : detector) (ground : list nat) (thr : Q) : outcome (list nat) :=
    match d_input d with
    | None => Ok ground
    | Some l =>
        match d_voxels d with
        | [] => Ok ground
        | m => if Qle_bool (d_leaf d) thr then Ok ground else detect_all (d_min d) l thr m ground
        end
    end.

  (** random_sample_with_plane_detect.h *)
  Record sampler := mkSampler { s_rate : Q; s_thr : Q; s_det : detector; s_input : option (list P) }.
  (** 43-46. *)
  Definition new_sampler : sampler := mkSampler 1 (2 # 10) (set_leaf (set_min new_detector 10) (8 # 10)) None.
  (** SetSamplingRate, 50-59 (NaN would be kept). *)
  Definition set_rate (s : sampler) (r : Q) : sampler :=
    let r' := if Qle_bool r 1 then (if Qle_bool (1 # 1000000) r then r else (1 # 1000000)) else 1 in
    mkSampler r' (s_thr s) (s_det s) (s_input s).
  (** SetInputCloud, 67-74. *)
  Definition set_source (s : sampler) (c : option (list P)) : sampler :=
    mkSampler (s_rate s) (s_thr s) (s_det s) (match c with None | Some [] => None | _ => c end).
  (** std::sort. *)
  Fixpoint insert (i : nat) (l : list nat) : list nat :=
    match l with [] => [i] | j :: r => if (i <=? j)%nat then i :: l else j :: insert i r end.
  Definition sort (l : list nat) : list nat := fold_right insert [] l.
  (** The loop, 91-106; front() of an empty vector is undefined. *)
  Fixpoint sample (rate : Q) (i : nat) (l : list P) (planes : list nat) (others taken : nat) : outcome (list P) :=
    match l with
    | [] => Ok []
    | p :: r =>
        match planes with
        | [] => UB
        | f :: ps =>
            if (i =? f)%nat then let* out := sample rate (S i) r ps others taken in Ok (p :: out)
            else if below rate taken (S others) then let* out := sample rate (S i) r planes (S others) (S taken) in Ok (p :: out)
            else sample rate (S i) r planes (S others) taken
        end
    end.
  (** Filter, 76-107: the sampler after the call and what is written to the output cloud (None: it is left as it is).
      [same]: the output is the input cloud. *)
  Definition filter_cloud (s : sampler) (same : bool) : outcome (sampler * option (list P)) :=
    match s_input s with
    | None | Some [] => Ok (s, None)
    | Some l =>
        if Qle_bool (s_rate s) (999999 # 1000000) then
          let l' := if same then [] else l in
          let* d := set_input (s_det s) (Some l') in
          let* planes := detect d [] (s_thr s) in
          let* out := sample (s_rate s) 0 l' (sort planes) 0 0 in
          Ok (mkSampler (s_rate s) (s_thr s) d (Some (if same then out else l)), Some out)
        else Ok (s, Some l)
    end.
End Plane.
Arguments d_input {P}. Arguments d_voxels {P}. Arguments d_min {P}. Arguments d_leaf {P}. Arguments mkDet {P}.
Arguments s_rate {P}. Arguments s_thr {P}. Arguments s_det {P}. Arguments s_input {P}. Arguments mkSampler {P}.
