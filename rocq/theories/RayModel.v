(** Model of the two voxel-casting functions of common/math.cc.

    Both first convert the ray's end points to integer voxels by
    lround(floor(coordinate / step_size)) (math.cc:42-44, 49-51, 107-121); the model
    starts from these integers (the isnan tests on int values are never true).  [int] is
    32 bits wide and an overflow is [UB]. *)
From Coq Require Import List Bool ZArith.
From Verif Require Import Outcome.
Import ListNotations.
Local Open Scope Z_scope.
Local Open Scope outcome_scope.

Definition int32 (z : Z) : outcome Z :=
  if (- 2 ^ 31 <=? z) && (z <? 2 ^ 31) then Ok z else UB.

Record voxel := Vox { px : Z; py : Z; pz : Z }.

(** ** VoxelCastingBresenham, math.cc:35-95 *)

(** One coordinate of the loop body, math.cc:72-76 (77-81, 82-86): the error variable
    (named x1 there) and the coordinate x0. *)
Definition bres_axis (d s dm : Z) (ec : Z * Z) : outcome (Z * Z) :=
  let '(e, c) := ec in
  let* e1 := int32 (e - d) in
  if e1 <? 0 then
    let* e2 := int32 (e1 + dm) in
    let* c2 := int32 (c + s) in
    Ok (e2, c2)
  else Ok (e1, c).

Record bres := Bres { bx : Z * Z; by_ : Z * Z; bz : Z * Z }.
Definition bres_voxel (b : bres) : voxel := Vox (snd (bx b)) (snd (by_ b)) (snd (bz b)).

(** The loop, math.cc:67-87; [i] counts down from dm. *)
Fixpoint bres_loop (i : nat) (dx dy dz sx sy sz dm : Z) (b : bres) (acc : list voxel)
  : outcome (bres * list voxel) :=
  let acc := acc ++ [bres_voxel b] in
  match i with
  | O => Ok (b, acc)
  | S i' =>
      let* x := bres_axis dx sx dm (bx b) in
      let* y := bres_axis dy sy dm (by_ b) in
      let* z := bres_axis dz sz dm (bz b) in
      bres_loop i' dx dy dz sx sy sz dm (Bres x y z) acc
  end.

Definition bresenham (s e : voxel) : outcome (list voxel) :=
  let* ex := int32 (px e - px s) in
  let* dx := int32 (Z.abs ex) in
  let* ey := int32 (py e - py s) in
  let* dy := int32 (Z.abs ey) in
  let* ez := int32 (pz e - pz s) in
  let* dz := int32 (Z.abs ez) in
  let sx := if px s <? px e then 1 else -1 in
  let sy := if py s <? py e then 1 else -1 in
  let sz := if pz s <? pz e then 1 else -1 in
  let dm := Z.max dx (Z.max dy dz) in
  let h := Z.shiftr dm 1 in
  let* r := bres_loop (Z.to_nat dm) dx dy dz sx sy sz dm
              (Bres (h, px s) (h, py s) (h, pz s)) [] in
  let '(b, vs) := r in
  let* _ := check (snd (bx b) =? px e) in
  let* _ := check (snd (by_ b) =? py e) in
  let* _ := check (snd (bz b) =? pz e) in
  Ok vs.

(** ** VoxelCastingDDA, math.cc:99-174 *)

(** error << 1.  [strict] follows the C++14 standard the project is built with
    (CMakeLists.txt:8): shifting a negative value is undefined; gcc defines it as the
    multiplication by two. *)
Definition shl1 (strict : bool) (z : Z) : outcome Z :=
  if strict && (z <? 0) then UB else int32 (2 * z).

(** One coordinate of the loop body, math.cc:144-146 and 150-153. *)
Definition dda_axis (strict : bool) (d s dm : Z) (ec : Z * Z) : outcome (Z * Z) :=
  let '(e, c) := ec in
  let* e1 := int32 (e + d) in
  let* t := shl1 strict e1 in
  if dm <=? t then
    let* c2 := int32 (c + s) in
    let* e2 := int32 (e1 - dm) in
    Ok (e2, c2)
  else Ok (e1, c).

(** The loop, math.cc:140-164.  (In the code the three error updates precede the three
    comparisons; the coordinates do not interact.) *)
Fixpoint dda_loop (strict : bool) (i : nat) (dx dy dz sx sy sz dm : Z) (b : bres)
  (acc : list voxel) : outcome (bres * list voxel) :=
  match i with
  | O => Ok (b, acc)
  | S i' =>
      let acc := acc ++ [bres_voxel b] in
      let* x := dda_axis strict dx sx dm (bx b) in
      let* y := dda_axis strict dy sy dm (by_ b) in
      let* z := dda_axis strict dz sz dm (bz b) in
      dda_loop strict i' dx dy dz sx sy sz dm (Bres x y z) acc
  end.

Definition dda (strict : bool) (s e : voxel) : outcome (list voxel) :=
  let* ex := int32 (px e - px s) in
  let* ey := int32 (py e - py s) in
  let* ez := int32 (pz e - pz s) in
  let sx := if 0 <=? ex then 1 else -1 in
  let sy := if 0 <=? ey then 1 else -1 in
  let sz := if 0 <=? ez then 1 else -1 in
  let* dx := (if ex <? 0 then int32 (- ex) else Ok ex) in
  let* dy := (if ey <? 0 then int32 (- ey) else Ok ey) in
  let* dz := (if ez <? 0 then int32 (- ez) else Ok ez) in
  let dm := if dx >? dy then dx else dy in
  let dm := if dm >? dz then dm else dz in
  let* r := dda_loop strict (Z.to_nat dm) dx dy dz sx sy sz dm
              (Bres (0, px s) (0, py s) (0, pz s)) [] in
  let '(b, vs) := r in
  let vs := vs ++ [bres_voxel b] in
  let* _ := check ((px (bres_voxel b) =? px e) && (py (bres_voxel b) =? py e)
                   && (pz (bres_voxel b) =? pz e)) in
  Ok vs.
