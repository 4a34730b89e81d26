(** Model of the export of the voxel map, builder/multi_resolution_voxel_map.cc:125-242, with
    the averages, the colours, the shape of the cloud and the file that MrvmModel.v leaves out,
    and of the unprotected update of the largest intensity, lines 95-98.

    Coordinates and intensities of points are rationals; the sums and the quotient of the
    average are exact here.  The colour is computed in binary64 as in the code. *)
From Coq Require Import List Bool ZArith QArith SpecFloat.
From Verif Require Import Outcome RayModel MrvmModel.
From Verif Require FilterModel.
Import ListNotations.
Local Open Scope Z_scope.
Local Open Scope outcome_scope.

(** ** pcl::PointCloud: the points and the shape the cloud claims to have. *)
Record cloud (A : Type) := mkCloud { pts : list A; width : Z; height : Z }.
Arguments mkCloud {A}. Arguments pts {A}. Arguments width {A}. Arguments height {A}.
(** PointCloud::clear (called in lines 130 and 175) *)
Definition cleared {A} : cloud A := mkCloud [] 0 0.
(** PointCloud::push_back (lines 151 and 200): the cloud becomes one row. *)
Definition push_back {A} (c : cloud A) (a : A) : cloud A :=
  mkCloud (pts c ++ [a]) (Z.of_nat (length (pts c ++ [a]))) 1.
(** points.push_back (lines 161 and 209): only the vector grows. *)
Definition points_push_back {A} (c : cloud A) (a : A) : cloud A :=
  mkCloud (pts c ++ [a]) (width c) (height c).

(** pcl::PointXYZI and pcl::PointXYZRGB (r = g = b in all of the code); a new point has
    coordinates, intensity and colour 0. *)
Record pointI := mkI { ix : Q; iy : Q; iz : Q; intensity : Q }.
Record pointC := mkC { rx : Q; ry : Q; rz : Q; grey : Z }.

(** 1.4 as binary64 *)
Definition d14 : spec_float := S754_finite false 6305039478318694 (-52).
(** The colour, lines 182-187: uint32_t intensity = max_intensity; intensity *= 1.4; at most
    255.  The conversion of the double back to uint32_t is undefined if it does not fit. *)
Definition rgb_of (max : Z) : outcome Z :=
  let i := max mod 2 ^ 32 in
  match FilterModel.trunc_fl (SFmul 53 1024 (FilterModel.of_int i) d14) with
  | Some z => if (0 <=? z) && (z <? 2 ^ 32) then Ok (if 255 <? z then 255 else z) else UB
  | None => UB
  end.

Section Export.
Variable P : Type.
Variables qx qy qz qi : P -> Q.

(** The sum of a coordinate over the points of a voxel, lines 138-142 and 190-194 *)
Definition total (f : P -> Q) (l : list P) : Q := fold_left (fun s p => s + f p)%Q l 0%Q.
(** float size, lines 143-146 and 195-198 *)
Definition mean (f : P -> Q) (l : list P) : Q := (total f l / inject_Z (Z.of_nat (length l)))%Q.

(** Lines 136-163: what a voxel adds to the cloud.  The intensity of an average stays 0 unless
    the largest one is used. *)
Definition add_i (average use_max : bool) (out : cloud pointI) (c : cell P) : outcome (cloud pointI) :=
  let max := inject_Z (max_intensity c) in
  if average then
    Ok (push_back out (mkI (mean qx (points c)) (mean qy (points c)) (mean qz (points c))
                           (if use_max then max else 0%Q)))
  else
    Ok (fold_left (fun o p => points_push_back o (mkI (qx p) (qy p) (qz p) (if use_max then max else qi p)))
                  (points c) out).
(** Lines 181-211 *)
Definition add_c (average : bool) (out : cloud pointC) (c : cell P) : outcome (cloud pointC) :=
  let* g := rgb_of (max_intensity c) in
  if average then
    Ok (push_back out (mkC (mean qx (points c)) (mean qy (points c)) (mean qz (points c)) g))
  else
    Ok (fold_left (fun o p => points_push_back o (mkC (qx p) (qy p) (qz p) g)) (points c) out).

(** The loop over the voxels, lines 133-165 and 178-213 *)
Fixpoint voxels {A} (add : cloud A -> cell P -> outcome (cloud A)) (t : Z) (m : vmap P) (out : cloud A) : outcome (cloud A) :=
  match m with
  | [] => Ok out
  | (_, c) :: m' =>
      if t <=? cprob c then
        let* _ := check (match points c with [] => false | _ => true end) in
        let* o := add out c in
        voxels add t m' o
      else voxels add t m' out
  end.
(** OutputToPointCloud, lines 125-167 and 169-215, with the pointer it is given: a null pointer
    is reported and then used. *)
Definition export {A} (add : cloud A -> cell P -> outcome (cloud A)) (threshold : Q) (m : vmap P) (out : option (cloud A)) : outcome (cloud A) :=
  match out with
  | None => UB
  | Some _ =>
      let* t := to_u8 (threshold * 256)%Q in
      voxels add t m cleared
  end.

(** OUTPUT_TO_FILE and the third OutputToPointCloud, lines 217-242: the file that is written, if
    any, and whether it is compressed. *)
Inductive file := FileI (compressed : bool) (c : cloud pointI) | FileC (compressed : bool) (c : cloud pointC).
Definition save {A} (f : cloud A -> file) (c : cloud A) : option file :=
  match pts c with [] => None | _ => Some (f c) end.
Definition to_file (rgb average use_max compress : bool) (threshold : Q) (m : vmap P) : outcome (option file) :=
  if rgb then
    let* c := export (add_c average) threshold m (Some cleared) in Ok (save (FileC compress) c)
  else
    let* c := export (add_i average use_max) threshold m (Some cleared) in Ok (save (FileI compress) c).
End Export.
Arguments total {P}. Arguments mean {P}. Arguments voxels {P A}. Arguments export {P A}.

(** ** The largest intensity in the parallel loop (lines 75-78, OpenMP)

    Threads with points that end in the same voxel, seen through their intensities, cut to int.
    Per point a thread loads max_intensity, compares, and, if its own is larger, stores it
    (lines 95-98; AtomicWrapper, common/atomic_wrapper.h:78-93: each load and store is atomic,
    the pair is not). *)
Record worker := mkW { todo : list Z; storing : option Z }.
Inductive wstep : Z * worker -> Z * worker -> Prop :=
| WKeep : forall v x l, x <= v -> wstep (v, mkW (x :: l) None) (v, mkW l None)
| WLess : forall v x l, v < x -> wstep (v, mkW (x :: l) None) (v, mkW l (Some x))
| WStore : forall v x l, wstep (v, mkW l (Some x)) (x, mkW l None).
Inductive wsteps : Z * list worker -> Z * list worker -> Prop :=
| WNil : forall s, wsteps s s
| WCons : forall v w v' w' a b s, wstep (v, w) (v', w') -> wsteps (v', a ++ w' :: b) s -> wsteps (v, a ++ w :: b) s.
Definition starting (works : list (list Z)) : list worker := map (fun l => mkW l None) works.
Definition finished (ws : list worker) : Prop := Forall (fun w => todo w = [] /\ storing w = None) ws.
