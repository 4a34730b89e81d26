(** Rigid transforms (Eigen::Matrix4d poses) are modelled as elements of an arbitrary
    group: the code only multiplies and inverts them, and compares nothing.  Rounding of
    the matrix product and of inverse() is therefore not modelled. *)
Record group := mkGroup {
  elt :> Type;
  gmul : elt -> elt -> elt;
  ginv : elt -> elt;
  gone : elt;
  gmul_assoc : forall a b c, gmul a (gmul b c) = gmul (gmul a b) c;
  gmul_1_l : forall a, gmul gone a = a;
  gmul_1_r : forall a, gmul a gone = a;
  ginv_l : forall a, gmul (ginv a) a = gone;
  ginv_r : forall a, gmul a (ginv a) = gone }.

Arguments gmul {g}.
Arguments ginv {g}.
Arguments gone {g}.

Declare Scope pose_scope.
Delimit Scope pose_scope with pose.
Infix "*" := gmul : pose_scope.
Notation "/ a" := (ginv a) : pose_scope.
Notation "1" := gone : pose_scope.

Lemma gcancel_l : forall (G : group) (a b : G), gmul (ginv a) (gmul a b) = b.
Proof. intros. rewrite gmul_assoc, ginv_l. apply gmul_1_l. Qed.

Lemma gcancel_l' : forall (G : group) (a b : G), gmul a (gmul (ginv a) b) = b.
Proof. intros. rewrite gmul_assoc, ginv_r. apply gmul_1_l. Qed.

Lemma gcancel_r : forall (G : group) (a b : G), gmul (gmul b a) (ginv a) = b.
Proof. intros. rewrite <- gmul_assoc, ginv_r. apply gmul_1_r. Qed.

Lemma gcancel_r' : forall (G : group) (a b : G), gmul (gmul b (ginv a)) a = b.
Proof. intros. rewrite <- gmul_assoc, ginv_l. apply gmul_1_r. Qed.

Lemma ginv_unique : forall (G : group) (a b : G), gmul a b = gone -> b = ginv a.
Proof. intros G a b H. rewrite <- (gcancel_l G a b), H. apply gmul_1_r. Qed.

Lemma ginv_inv : forall (G : group) (a : G), ginv (ginv a) = a.
Proof. intros. symmetry. apply ginv_unique, ginv_l. Qed.

Lemma ginv_mul : forall (G : group) (a b : G), ginv (gmul a b) = gmul (ginv b) (ginv a).
Proof.
  intros. symmetry. apply ginv_unique.
  rewrite gmul_assoc, <- (gmul_assoc _ a), ginv_r, gmul_1_r. apply ginv_r.
Qed.

Lemma ginv_1 : forall G : group, ginv (gone : G) = gone.
Proof. intros. symmetry. apply ginv_unique, gmul_1_l. Qed.

(** A concrete instance used by examples: translations along a line. *)
From Coq Require Import ZArith.
Definition Zgroup : group.
Proof.
  refine (mkGroup Z Z.add Z.opp 0%Z _ _ _ _ _); intros; ring.
Defined.
