(** Model of builder/multi_resolution_voxel_map.{h,cc}.

    Keys are integer voxels; a point [p] is seen through its voxel [vox p]
    (lround(floor(coordinate / high_resolution)), math.cc:42-51), its intensity cut to int
    [inten p] (assumed to fit) and whether FATAL_CHECK_POINT accepts it ([fine p]).  The
    ray of a point is the voxel path of VoxelCastingBresenham (RayModel.v) from the voxel of
    the (offset) origin.  The hash map is an association list in creation order.

    Arithmetic: the float expression OddToProbability(odds_table_[n] + log_odd) of
    multi_resolution_voxel_map.cc:66-70 is a parameter [raw n hit : Q], "the number the
    machine computes"; how close it is to the exact value is a hypothesis of the theorems
    that need it (MrvmSpec.v: accurate).  Clamp and the multiplication by 256 are exact.
    NaN settings are not modelled.

    The loop over the points is sequential here (no _OPENMP); the parallel loop is the
    second part of this file. *)
From Coq Require Import List Bool ZArith QArith Qround.
From Verif Require Import Outcome RayModel.
Import ListNotations.
Local Open Scope Z_scope.
Local Open Scope outcome_scope.

(** multi_resolution_voxel_map.cc:30-33, as the binary32 numbers nearest to .501, .499, .9, .1 *)
Definition kMinHitProb : Q := 8405385 # 16777216.
Definition kMaxMissProb : Q := 16743662 # 33554432.
Definition kMaxProb : Q := 15099494 # 16777216.
Definition kMinProb : Q := 13421773 # 134217728.

(** common/math.h:67-76 *)
Definition clampQ (v lo hi : Q) : Q :=
  if negb (Qle_bool v hi) then hi else if negb (Qle_bool lo v) then lo else v.

(** Conversion of a float to Probability (uint8_t): truncation, undefined when the truncated
    value does not fit. *)
Definition qtrunc (q : Q) : Z := if Qle_bool 0 q then Qfloor q else - Qfloor (- q).
Definition to_u8 (q : Q) : outcome Z :=
  let z := qtrunc q in if (0 <=? z) && (z <? 256) then Ok z else UB.

Definition kUnknown : Z := 128.

(** MrvmSettings, multi_resolution_voxel_map.h:53-64 (the fields the model uses). *)
Record settings := mkSet { hit_prob : Q; miss_prob : Q; max_points : Z }.
(** Initialise, multi_resolution_voxel_map.cc:42-48 *)
Definition initialise (s : settings) : outcome settings :=
  let* _ := check (0 <? max_points s) in
  Ok (mkSet (clampQ (hit_prob s) kMinHitProb kMaxProb)
            (clampQ (miss_prob s) kMinProb kMaxMissProb) (max_points s)).

(** One update of a voxel's probability: lines 66-70 and 100 / 114. *)
Definition update_prob (raw : Z -> bool -> Q) (n : Z) (hit : bool) : outcome Z :=
  to_u8 (clampQ (raw n hit) kMinProb kMaxProb * 256)%Q.

Definition voxel_eqb (a b : voxel) : bool :=
  (px a =? px b) && (py a =? py b) && (pz a =? pz b).

Section Map.
Variable P : Type.
Variable vox : P -> voxel.
Variable inten : P -> Z.
Variable fine : P -> bool.
Variable raw : Z -> bool -> Q.
Variable maxn : Z.

(** HighResolutionVoxel, multi_resolution_voxel_map.h:117-124 *)
Record cell := mkCell { cprob : Z; need_update : bool; max_intensity : Z; points : list P }.
Definition new_cell : cell := mkCell kUnknown true 0 [].
Definition vmap := list (voxel * cell).

Fixpoint lookup (k : voxel) (m : vmap) : option cell :=
  match m with
  | [] => None
  | (k', c) :: m' => if voxel_eqb k k' then Some c else lookup k m'
  end.
(** operator[]: the voxel is created when it is not there. *)
Definition get (k : voxel) (m : vmap) : cell :=
  match lookup k m with Some c => c | None => new_cell end.
Fixpoint put (k : voxel) (c : cell) (m : vmap) : vmap :=
  match m with
  | [] => [(k, c)]
  | (k', c') :: m' => if voxel_eqb k k' then (k', c) :: m' else (k', c') :: put k c m'
  end.

(** Lines 83-105: the end voxel. *)
Definition end_update (m : vmap) (e : voxel) (p : P) : outcome vmap :=
  let c := get e m in
  let mi := if max_intensity c <? inten p then inten p else max_intensity c in
  let* pr := update_prob raw (cprob c) true in
  if Z.of_nat (length (points c)) <? maxn then
    let* _ := check (fine p) in
    Ok (put e (mkCell pr false mi (points c ++ [p])) m)
  else Ok (put e (mkCell pr false mi (points c)) m).

(** Lines 107-117: the voxels on the line. *)
Fixpoint line_update (m : vmap) (ks : list voxel) : outcome vmap :=
  match ks with
  | [] => Ok m
  | k :: ks' =>
      match lookup k m with
      | Some c =>
          if need_update c then
            let* pr := update_prob raw (cprob c) false in
            line_update (put k (mkCell pr (need_update c) (max_intensity c) (points c)) m) ks'
          else line_update m ks'
      | None => line_update m ks'
      end
  end.

(** One pass of the loop body, lines 75-119 (a Bresenham path is never empty). *)
Definition insert_point (o : voxel) (m : vmap) (p : P) : outcome vmap :=
  let* path := bresenham o (vox p) in
  match path with
  | [] => Ok m
  | k0 :: _ =>
      let* m1 := end_update m (last path k0) p in
      line_update m1 (removelast path)
  end.

(** Lines 121-123: end_voxels holds the end voxels of all points of the cloud. *)
Definition release (m : vmap) (k : voxel) : vmap :=
  let c := get k m in put k (mkCell (cprob c) true (max_intensity c) (points c)) m.

(** InsertPointCloud, lines 54-124; [o] is the voxel of the offset origin. *)
Definition insert_cloud (m : vmap) (scan : voxel * list P) : outcome vmap :=
  let '(o, pts) := scan in
  let* m1 := run (insert_point o) m pts in
  Ok (fold_left release (map vox pts) m1).

(** OutputToPointCloud, lines 126-167 (output_average off); the points are listed voxel by
    voxel, each with the intensity it is written with. *)
Definition written (use_max : bool) (c : cell) : list (P * Z) :=
  map (fun p => (p, if use_max then max_intensity c else inten p)) (points c).
Fixpoint output_loop (use_max : bool) (t : Z) (m : vmap) : outcome (list (P * Z)) :=
  match m with
  | [] => Ok []
  | (_, c) :: m' =>
      if t <=? cprob c then
        let* _ := check (match points c with [] => false | _ => true end) in
        let* r := output_loop use_max t m' in
        Ok (written use_max c ++ r)
      else output_loop use_max t m'
  end.
Definition output (use_max : bool) (threshold : Q) (m : vmap) : outcome (list (P * Z)) :=
  let* t := to_u8 (threshold * 256)%Q in
  output_loop use_max t m.
End Map.
Arguments cprob {P}. Arguments need_update {P}. Arguments max_intensity {P}. Arguments points {P}.
Arguments mkCell {P}. Arguments lookup {P}. Arguments put {P}. Arguments release {P}. Arguments get {P}.

(** ** The parallel loop (lines 78-80, OpenMP) on one voxel

    [T] threads, each with a number of points that all end in the same voxel.  Per point a
    thread reads the probability, writes the updated one (line 100), reads the size of the
    point vector (line 101) and, if that was below the limit, appends (line 103;
    tbb::concurrent_vector::push_back is atomic).  (The unsynchronised accesses to the
    probability are a data race; the model shows the interleavings of plain machine
    accesses.) *)
Inductive phase := Idle | HaveProb (n : Z) | Sized | MayPush.
Record thread := mkThread { left_ : nat; ph : phase }.
Record shared := mkShared { sh_prob : Z; sh_size : Z }.
Section Par.
Variable raw : Z -> bool -> Q.
Variable maxn : Z.
Inductive tstep : shared * thread -> shared * thread -> Prop :=
| TRead : forall s n, tstep (s, mkThread (S n) Idle) (s, mkThread n (HaveProb (sh_prob s)))
| TWrite : forall s n p q, update_prob raw p true = Ok q ->
    tstep (s, mkThread n (HaveProb p)) (mkShared q (sh_size s), mkThread n Sized)
| TBelow : forall s n, sh_size s < maxn -> tstep (s, mkThread n Sized) (s, mkThread n MayPush)
| TFull : forall s n, maxn <= sh_size s -> tstep (s, mkThread n Sized) (s, mkThread n Idle)
| TPush : forall s n,
    tstep (s, mkThread n MayPush) (mkShared (sh_prob s) (sh_size s + 1), mkThread n Idle).
Inductive pstep : shared * list thread -> shared * list thread -> Prop :=
| PStep : forall s t s' t' a b, tstep (s, t) (s', t') -> pstep (s, a ++ t :: b) (s', a ++ t' :: b).
Inductive psteps : shared * list thread -> shared * list thread -> Prop :=
| PNil : forall x, psteps x x
| PCons : forall x y z, pstep x y -> psteps y z -> psteps x z.
End Par.
