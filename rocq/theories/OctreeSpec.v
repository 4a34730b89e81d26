(** Specification vocabulary for cubes and octrees (exact arithmetic). *)
From Coq Require Import List ZArith QArith.
From Verif Require Import OctreeModel.
Import ListNotations.

Definition point := v3 QA.
Definition qcube := cube QA.
Definition qtree := tree QA.

(** The point lies in the axis-parallel box spanned by the cube's two corners,
    boundary included / excluded. *)
Definition inside (b : qcube) (p : point) : Prop :=
  (vx (c_min b) <= vx p <= vx (c_max b) /\
   vy (c_min b) <= vy p <= vy (c_max b) /\
   vz (c_min b) <= vz p <= vz (c_max b))%Q.
Definition strictly_inside (b : qcube) (p : point) : Prop :=
  (vx (c_min b) < vx p < vx (c_max b) /\
   vy (c_min b) < vy p < vy (c_max b) /\
   vz (c_min b) < vz p < vz (c_max b))%Q.

(** The stored centre, corners and sizes describe one cube of edge length [c_size]. *)
Definition is_cube (b : qcube) : Prop :=
  (c_half b == (1 # 2) * c_size b /\
   vx (c_min b) == vx (c_center b) - c_half b /\ vx (c_max b) == vx (c_center b) + c_half b /\
   vy (c_min b) == vy (c_center b) - c_half b /\ vy (c_max b) == vy (c_center b) + c_half b /\
   vz (c_min b) == vz (c_center b) - c_half b /\ vz (c_max b) == vz (c_center b) + c_half b)%Q.

(** Leaves of a tree, as (depth, box, points). *)
Fixpoint leaves {A} (t : tree A) : list (Z * cube A * list (v3 A)) :=
  match t with
  | Leaf d b pts => [(d, b, pts)]
  | Node _ _ ch => flat_map leaves ch
  end.
Definition leaf_depth {A} (l : Z * cube A * list (v3 A)) : Z := fst (fst l).
Definition leaf_box {A} (l : Z * cube A * list (v3 A)) : cube A := snd (fst l).
Definition leaf_points {A} (l : Z * cube A * list (v3 A)) : list (v3 A) := snd l.
Definition all_points {A} (t : tree A) : list (v3 A) := flat_map leaf_points (leaves t).
