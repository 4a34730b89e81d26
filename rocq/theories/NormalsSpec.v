(** Specification vocabulary for normal estimation. *)
From Coq Require Import List Bool ZArith QArith Permutation Sorted.
From Verif Require Import Outcome NormalsModel.
Import ListNotations.
Local Open Scope nat_scope.

(** [alg.nth.element]: for a strict weak order and n < size the result is a permutation in
    which no element after position n is less than one before or at it... *)
Definition nth_element_ok (f : (nat -> nat -> bool) -> list nat -> nat -> list nat) : Prop :=
  forall less l n,
    Permutation (f less l n) l /\
    ((forall a, less a a = false) ->
     (forall a b c, less a b = true -> less b c = true -> less a c = true) ->
     (forall a b c, less a b = false -> less b c = false -> less a c = false) ->
     n < length l ->
     forall i j a b, i <= n -> n <= j -> nth_error (f less l n) i = Some a ->
       nth_error (f less l n) j = Some b -> less b a = false).

(** The points with the given indices. *)
Definition select (pts : list vec) (g : list nat) : list vec := map (fun i => nth i pts vzero) g.

(** Two groups separated by a plane orthogonal to an axis. *)
Definition separated (pts : list vec) (g1 g2 : list nat) : Prop :=
  exists dim v, (dim < 3)%nat /\
    (forall i, In i g1 -> (coord dim (nth i pts vzero) <= v)%Q) /\
    (forall j, In j g2 -> (v <= coord dim (nth j pts vzero))%Q).

Definition heads (gs : list (list nat)) : list nat := map (fun g => hd 0 g) gs.

Definition unit (v : vec) : Prop := (dot v v == 1)%Q.
(** The linear part is a rotation or reflection. *)
Definition isometry (T : affine) : Prop := forall u v, (dot (linear T u) (linear T v) == dot u v)%Q.
Definition veq (a b : vec) : Prop := (x_ a == x_ b /\ y_ a == y_ b /\ z_ a == z_ b)%Q.
