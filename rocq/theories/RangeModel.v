(** Model of pre_processors/filter_range_image.{h,cc}: RangeImage::SetInputCloud, Filter, DepthCluster and
    LabelOneComponent.

    Not modelled: ToPng (writes a file only), max_label_ (never read), and filtering in place (see C87). *)
From Coq Require Import ZArith List Bool SpecFloat.
From Verif Require Import Outcome TimeModel FilterModel.
Import ListNotations.
Local Open Scope outcome_scope.

(** Index: row and column. *)
Definition pix : Type := (Z * Z)%type.
Definition pix_eq (a b : pix) : bool := ((fst a =? fst b) && (snd a =? snd b))%Z.

(** Parameters (filter_range_image.h:80-89) and the values computed from them at the start of Filter
    (filter_range_image.cc:89-93): rows = vertical_line_num_, cols = horizontal_line_num_, bottom =
    btm_angle_ / 180.f * M_PI and vres = image_vertical_res as doubles, hres = image_horizontal_res.
    std::atan2 and std::lround are library functions.  [wide] is the test beta >
    segmentation_rad_threshold_ of LabelOneComponent (filter_range_image.cc:296-298) as a function of
    "the step is horizontal", the larger and the smaller range. *)
Record config := mkConfig {
  rows : Z; cols : Z; bottom : spec_float; vres : spec_float; hres : fl;
  off_x : fl; off_y : fl; off_z : fl;
  atan2 : fl -> fl -> fl; odd : fl -> Z;
  wide : bool -> fl -> fl -> bool
}.

(** Members: inner_cloud_, matrix_image_, map_image_ (point index and label of a pixel), clusters_ and
    the two index lists. *)
Record image := mkImage {
  source : option cloud;
  matrix : pix -> fl;
  pixels : pix -> option (nat * nat);
  clusters : list (nat * list nat);
  kept : list nat; dropped : list nat
}.
Definition no_pixels : pix -> option (nat * nat) := fun _ => None.
Definition new_image : image := mkImage None (fun _ => S754_zero false) no_pixels [] [] [].
Definition set_pix {A} (f : pix -> A) (p : pix) (a : A) : pix -> A := fun q => if pix_eq q p then a else f q.

(** 0.01f as float; 1.e-6 as double, compared with a float converted to double; 2 * M_PI as double. *)
Definition centi : fl := S754_finite false 10737418 (-30).
Definition micro : spec_float := S754_finite false 4722366482869645 (-72).
Definition two_pi : spec_float := S754_finite false 7074237752028440 (-50).
Definition vacant (x : fl) : bool := SFltb (widen x) micro.

(** SetInputCloud, filter_range_image.cc:66-80.  It does not touch clusters_, inliers_ or outliers_. *)
Definition set_input (C : config) (c : option cloud) (s : image) : image :=
  match c with
  | None => mkImage None (matrix s) (pixels s) (clusters s) (kept s) (dropped s)
  | Some c0 =>
      match points c0 with
      | [] => mkImage None (matrix s) (pixels s) (clusters s) (kept s) (dropped s)
      | _ => if ((rows C <=? 0) || (cols C <=? 0))%Z then s
             else mkImage (Some c0) (fun _ => S754_zero false) no_pixels (clusters s) (kept s) (dropped s)
      end
  end.

(** Conversion of a double to int. *)
Definition double_to_int (x : spec_float) : outcome Z := to_int x.

(** Where a point falls, filter_range_image.cc:103-125: None when it is dropped. *)
Definition moved (C : config) (p : point) : point :=
  mkPoint (fadd (px p) (off_x C)) (fadd (py p) (off_y C)) (fadd (pz p) (off_z C)) (pi p) (pf p).
Definition flat_dist (p : point) : fl := fsqrt (fadd (fmul (px p) (px p)) (fmul (py p) (py p))).
Definition column (C : config) (p : point) : Z :=
  let h := atan2 C (py p) (px p) in
  let h := if SFltb h (S754_zero false) then narrow (SFadd 53 1024 (widen h) two_pi) else h in
  let c := lround (odd C) (fdiv h (hres C)) in
  if (cols C <=? c)%Z then (c - cols C)%Z else c.
Definition place (C : config) (p0 : point) : outcome (option pix) :=
  let p := moved C p0 in
  if SFltb (flat_dist p) centi then Ok None
  else
    let* r := double_to_int (SFdiv 53 1024 (SFsub 53 1024 (widen (atan2 C (pz p) (flat_dist p))) (bottom C)) (vres C)) in
    if ((r <? 0) || (rows C <=? r))%Z then Ok None
    else
      let c := column C p in
      if ((c <? 0) || (cols C <=? c))%Z then Ok None else Ok (Some (r, c)).

(** The loop of Filter, filter_range_image.cc:101-138. *)
Fixpoint fill (C : config) (l : list point) (i : nat) (s : image) : outcome image :=
  match l with
  | [] => Ok s
  | p :: l' =>
      let* w := place C p in
      match w with
      | Some q =>
          if vacant (matrix s q) then
            fill C l' (S i) (mkImage (source s) (set_pix (matrix s) q (range_of (moved C p)))
                                     (set_pix (pixels s) q (Some (i, 0))) (clusters s) (kept s ++ [i]) (dropped s))
          else fill C l' (S i) (mkImage (source s) (matrix s) (pixels s) (clusters s) (kept s) (dropped s ++ [i]))
      | None => fill C l' (S i) (mkImage (source s) (matrix s) (pixels s) (clusters s) (kept s) (dropped s ++ [i]))
      end
  end.
(** Filter, filter_range_image.cc:82-141: the new object and the output cloud ([old] if untouched). *)
Definition filter (C : config) (s : image) (old : cloud) : outcome (image * cloud) :=
  match source s with
  | None => Ok (s, old)
  | Some c =>
      let* s' := fill C (points c) 0 (mkImage (source s) (matrix s) (pixels s) (clusters s) [] []) in
      let* q := gather (points c) (kept s') in
      Ok (s', mkCloud (stamp c) q)
  end.

(** LabelOneComponent, filter_range_image.cc:245-309.  neighbors_: lines 39-44. *)
Definition steps : list pix := [(0, 1); (0, -1); (0, 2); (0, -2); (1, 0); (-1, 0)]%Z.
(** Reading matrix_image_ outside its bounds is undefined. *)
Definition in_image (C : config) (q : pix) : bool :=
  ((0 <=? fst q) && (fst q <? rows C) && (0 <=? snd q) && (snd q <? cols C))%Z.
Definition read (C : config) (s : image) (q : pix) : outcome fl := if in_image C q then Ok (matrix s q) else UB.
(** map_image_.at throws for an absent key. *)
Definition at_pix (s : image) (q : pix) : outcome (nat * nat) := match pixels s q with Some v => Ok v | None => Throw end.

Definition neighbour (C : config) (p step : pix) : option pix :=
  let r := (fst p + fst step)%Z in let c := (snd p + snd step)%Z in
  if ((r <? 0) || (rows C <=? r))%Z then None
  else Some (r, if (c <? 0)%Z then (c + cols C)%Z else if (cols C <=? c)%Z then (c - cols C)%Z else c).
(** The loop over neighbors_: the pixels pushed to the queue. *)
Fixpoint visit (C : config) (s : image) (p : pix) (l : list pix) : outcome (list pix) :=
  match l with
  | [] => Ok []
  | st :: l' =>
      match neighbour C p st with
      | None => visit C s p l'
      | Some q =>
          let* m := read C s q in
          if vacant m then visit C s p l'
          else
            let* v := at_pix s q in
            if Nat.ltb 0 (snd v) then visit C s p l'
            else
              let* a := read C s p in
              let d1 := if SFltb a m then m else a in       (* std::max(a, m) *)
              let d2 := if SFltb m a then m else a in       (* std::min(a, m) *)
              let* r := visit C s p l' in
              if wide C (Z.eqb (fst st) 0) d1 d2 then Ok (q :: r) else Ok r
      end
  end.
(** The while loop.  [None]: the fuel did not suffice. *)
Fixpoint spread (C : config) (fuel : nat) (label : nat) (queue : list pix) (found : list nat) (s : image)
  : option (outcome (image * list nat)) :=
  match queue with
  | [] => Some (Ok (s, found))
  | p :: queue' =>
      match fuel with
      | O => None
      | S n =>
          match (let* m := read C s p in if vacant m then Ok None else let* v := at_pix s p in Ok (Some v)) with
          | Ok None => spread C n label queue' found s
          | Ok (Some v) =>
              if Nat.ltb 0 (snd v) then spread C n label queue' found s
              else
                let s1 := mkImage (source s) (matrix s) (set_pix (pixels s) p (Some (fst v, label))) (clusters s) (kept s) (dropped s) in
                match visit C s1 p steps with
                | Ok new => spread C n label (queue' ++ new) (found ++ [fst v]) s1
                | Abort => Some Abort | Throw => Some Throw | UB => Some UB
                end
          | Abort => Some Abort | Throw => Some Throw | UB => Some UB
          end
      end
  end.
(** clusters_[label] = indices, in a std::map ordered by label. *)
Fixpoint set_cluster (m : list (nat * list nat)) (k : nat) (v : list nat) : list (nat * list nat) :=
  match m with
  | [] => [(k, v)]
  | (j, w) :: m' => if Nat.eqb k j then (k, v) :: m' else if Nat.ltb k j then (k, v) :: m else (j, w) :: set_cluster m' k v
  end.
Definition label_one (C : config) (fuel : nat) (label : nat) (p : pix) (s : image) : option (outcome image) :=
  match spread C fuel label [p] [] s with
  | None => None
  | Some r => Some (let* x := r in
                    let '(s1, found) := x in
                    Ok (if Nat.leb 20 (length found) then
                          mkImage (source s1) (matrix s1) (pixels s1) (set_cluster (clusters s1) label found) (kept s1) (dropped s1)
                        else s1))
  end.

(** DepthCluster, filter_range_image.cc:143-173: the loops over rows and columns, then the labelled cloud
    as pairs of label and point. *)
Definition grid (C : config) : list pix :=
  flat_map (fun r => map (fun c => (Z.of_nat r, Z.of_nat c)) (seq 0 (Z.to_nat (cols C)))) (seq 0 (Z.to_nat (rows C))).
Fixpoint sweep (C : config) (fuel : nat) (l : list pix) (label : nat) (s : image) : option (outcome image) :=
  match l with
  | [] => Some (Ok s)
  | p :: l' =>
      if vacant (matrix s p) then sweep C fuel l' label s
      else match at_pix s p with
           | Ok v => if Nat.ltb 0 (snd v) then sweep C fuel l' label s
                     else match label_one C fuel label p s with
                          | Some (Ok s') => sweep C fuel l' (S label) s'
                          | r => r
                          end
           | Abort => Some Abort | Throw => Some Throw | UB => Some UB
           end
  end.
Fixpoint labelled (pts : list point) (m : list (nat * list nat)) : outcome (list (nat * point)) :=
  match m with
  | [] => Ok []
  | (k, l) :: m' => let* q := gather pts l in
                    let* r := labelled pts m' in
                    Ok (map (fun p => (k, p)) q ++ r)
  end.
Definition depth_cluster (C : config) (fuel : nat) (s : image) : option (outcome (image * list (nat * point))) :=
  match source s with
  | None => Some Abort
  | Some c => match sweep C fuel (grid C) 1 s with
              | None => None
              | Some r => Some (let* s' := r in
                                let* out := labelled (points c) (clusters s') in
                                Ok (s', out))
              end
  end.
