(** Derivatives of functions of six parameters, and the rigid motion the parameters stand for. *)
From Coq Require Import Reals List.
From Verif Require Import RigidModel RigidSpec NdtDerivModel.
Local Open Scope R_scope.

(** [p] with parameter [k] set to [u]. *)
Definition put (p : params) (k : nat) (u : R) : params := fun i => if Nat.eqb i k then u else p i.
(** [l] is the partial derivative of [f] in parameter [k] at [p]. *)
Definition partial (f : params -> R) (k : nat) (p : params) (l : R) : Prop :=
  derivable_pt_lim (fun u => f (put p k u)) (p k) l.
(** [l] is the derivative in parameter [j] of the derivative in parameter [i]. *)
Definition second_partial (f : params -> R) (i j : nat) (p : params) (l : R) : Prop :=
  exists f', (forall q, partial f i q (f' q)) /\ partial f' j p l.

(** The motion: rotation about z by p 5, then about y by p 4, then about x by p 3, then the translation. *)
Definition position (p : params) (x : vec) : vec :=
  vadd (mvec (about_x (p 3%nat)) (mvec (about_y (p 4%nat)) (mvec (about_z (p 5%nat)) x))) (mkV (p 0%nat) (p 1%nat) (p 2%nat)).

(** Angles that the code treats as zero, set to zero. *)
Definition snapped (p : params) : params :=
  fun k => if Nat.leb 3 k then (if Rlt_dec (Rabs (p k)) (10 / 100000) then 0 else p k) else p k.

(** The score of one point: the cells' bell functions at its image, scaled by -d1; and of all points, the cells of
    each being given. *)
Definition bell (d2 : R) (c : cell) (y : vec) : R :=
  exp (- d2 * (dot (vsub y (mean c)) (mvec (c_inv c) (vsub y (mean c))) / 2)).
Definition total_score (d1 d2 : R) (near : list (vec * list cell)) (p : params) : R :=
  rsum (map (fun xc => rsum (map (fun c => - d1 * bell d2 c (position p (fst xc))) (snd xc))) near).
Definition symmetric (m : mat) : Prop := mtrans m = m.
Definition semidefinite (m : mat) : Prop := forall v, 0 <= dot v (mvec m v).
(** The cells near the images of the points. *)
Definition nearby (cells : vec -> list cell) (p : params) (input : list vec) : list (vec * list cell) :=
  map (fun x => (x, cells (position p x))) input.
