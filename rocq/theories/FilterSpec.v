(** Vocabulary for the filter properties: stated on clouds and index lists, not on the loops. *)
From Coq Require Import QArith ZArith List Bool Sorted Permutation SpecFloat.
From Verif Require Import Outcome TimeModel FilterModel LoopSpec.
Import ListNotations.
Local Open Scope outcome_scope.
Local Open Scope nat_scope.

(** The indices below [n] are divided between two strictly increasing lists. *)
Definition divided (n : nat) (a b : list nat) : Prop :=
  StronglySorted lt a /\ StronglySorted lt b /\
  forall i, (i < n -> (In i a /\ ~ In i b) \/ (In i b /\ ~ In i a)) /\ (In i a \/ In i b -> i < n).
(** [out] are the points of [pts] with the indices [ix], in this order. *)
Definition picked (pts : list point) (ix : list nat) (out : list point) : Prop :=
  Forall2 (fun i p => nth_error pts i = Some p) ix out.

(** The documented meaning of the predicate filters. *)
Definition within (x lo hi : fl) : Prop := fle lo x /\ fle x hi.
Definition coord (axis : Z) (p : point) (x : fl) : Prop :=
  (axis = 0%Z /\ x = px p) \/ (axis = 1%Z /\ x = py p) \/ (axis = 2%Z /\ x = pz p).
Definition wanted (k : kind) (i : nat) (p : point) : Prop :=
  match k with
  | Range lo hi => within (range_of p) lo hi
  | Axis lo hi axis =>
      (SFcompare lo flt_lowest = Some Eq /\ SFcompare hi flt_max = Some Eq) \/
      forall x, coord axis p x -> ~ fgt lo x /\ ~ fgt x hi
  | Box x0 y0 z0 x1 y1 z1 => ~ (within (px p) x0 x1 /\ within (py p) y0 y1 /\ within (pz p) z0 z1)
  | Sample all rate draw => all = true \/ fle (draw i) rate
  | _ => False
  end.
Definition predicate (k : kind) : Prop :=
  match k with Range _ _ | Axis _ _ _ | Box _ _ _ _ _ _ | Sample _ _ _ => True | _ => False end.
(** The limits of a bounding box filter are in order. *)
Definition box_ordered (k : kind) : Prop :=
  match k with
  | Box x0 y0 z0 x1 y1 z1 => fgt x1 x0 /\ fgt y1 y0 /\ fgt z1 z0
  | _ => True
  end.

(** SetInputCloud(a) followed by Filter(d). *)
Definition apply (k : kind) (h : heap) (a d : nat) (prev : obj) : outcome (heap * obj) :=
  let* o := set_input k h (Some a) prev in filter k h (Some d) o.

(** Points of a cloud by voxel. *)
Definition members (cells : list cell) (c : cell) : list nat :=
  List.filter (fun i => match nth_error cells i with Some d => cell_eq d c | None => false end) (seq 0 (length cells)).
(** Ground voxel: index not above 0 and heights between [height] and none. *)
Definition flat (l : list point) (height : fl) : Prop :=
  exists p q, In p l /\ In q l /\ (forall r, In r l -> fle (pz r) (pz p) /\ fle (pz q) (pz r)) /\
    fle (S754_zero false) (fsub (pz p) (pz q)) /\ fle (fsub (pz p) (pz q)) height.

(** One filter applied to a cloud, with a new object and a new output cloud. *)
Definition once (k : kind) (c : cloud) : outcome cloud :=
  let* r := apply k (fun a => if Nat.eqb a 0 then c else no_cloud) 0 1 new_obj in Ok (fst r 1).
(** The filters applied one after the other, until no point is left. *)
Fixpoint in_order (ks : list kind) (c : cloud) : outcome cloud :=
  match ks with
  | [] => Ok c
  | k :: ks' => match points c with
                | [] => Ok c
                | _ => let* c' := once k c in in_order ks' c'
                end
  end.
Definition statistic (k : kind) : bool := match k with Statistic => true | _ => false end.

(** The rational number a float stands for. *)
Definition value (x : spec_float) : option Q :=
  match x with
  | S754_zero _ => Some 0%Q
  | S754_finite s m e => Some (inject_Z (cond_Zopp s (Zpos m)) * 2 ^ e)%Q
  | _ => None
  end.
Definition total (f : point -> Q) (l : list point) : Q := fold_right (fun p s => f p + s)%Q 0%Q l.
Definition point_dec : forall p q : point, {p = q} + {p <> q}.
Proof.
  assert (D : forall x y : fl, {x = y} + {x <> y}) by (repeat decide equality).
  intros [] []. decide equality.
Defined.
