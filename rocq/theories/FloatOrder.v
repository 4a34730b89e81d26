(** Order facts about SpecFloat.SFcompare: on values that are not NaN it is a total order. *)
From Coq Require Import ZArith Bool Lia SpecFloat.
Local Open Scope Z_scope.

Definition fkey (x : spec_float) : option (Z * Z * Z) :=
  match x with
  | S754_nan => None
  | S754_infinity true => Some (-2, 0, 0)
  | S754_infinity false => Some (2, 0, 0)
  | S754_zero _ => Some (0, 0, 0)
  | S754_finite true m e => Some (-1, - e, Zneg m)
  | S754_finite false m e => Some (1, e, Zpos m)
  end.
Definition klt (a b : Z * Z * Z) : Prop :=
  let '(x, y, z) := a in let '(u, v, w) := b in x < u \/ x = u /\ (y < v \/ y = v /\ z < w).

Definition kcmp (a b : Z * Z * Z) : comparison :=
  let '(x, y, z) := a in let '(u, v, w) := b in
  match x ?= u with Eq => match y ?= v with Eq => z ?= w | c => c end | c => c end.

Lemma SFcompare_key : forall x y,
  SFcompare x y = match fkey x, fkey y with Some a, Some b => Some (kcmp a b) | _, _ => None end.
Proof.
  intros [[]|[]| |[] m e] [[]|[]| |[] m' e']; cbn -[Z.compare Pos.compare_cont]; try reflexivity.
  - rewrite Z.compare_opp. rewrite (Z.compare_antisym e e').
    destruct (e ?= e') eqn:E; cbn -[Pos.compare_cont]; reflexivity.
Qed.

Lemma kcmp_lt : forall a b, kcmp a b = Lt <-> klt a b.
Proof.
  intros [[x y] z] [[u v] w]. cbn.
  destruct (Z.compare_spec x u), (Z.compare_spec y v), (Z.compare_spec z w);
  split; intro; try discriminate; try reflexivity; try lia.
Qed.
Lemma kcmp_eq : forall a b, kcmp a b = Eq <-> a = b.
Proof.
  intros [[x y] z] [[u v] w]. cbn.
  destruct (Z.compare_spec x u), (Z.compare_spec y v), (Z.compare_spec z w);
  split; intro E; try discriminate; try reflexivity; try congruence; try (injection E; lia).
Qed.
Lemma kcmp_gt : forall a b, kcmp a b = Gt <-> klt b a.
Proof.
  intros [[x y] z] [[u v] w]. cbn.
  destruct (Z.compare_spec x u), (Z.compare_spec y v), (Z.compare_spec z w);
  split; intro; try discriminate; try reflexivity; try lia.
Qed.

Lemma SFltb_key : forall x y, SFltb x y = true <-> exists a b, fkey x = Some a /\ fkey y = Some b /\ klt a b.
Proof.
  intros x y. unfold SFltb. rewrite SFcompare_key.
  destruct (fkey x) as [a|], (fkey y) as [b|];
    try (split; [discriminate | intros (? & ? & ? & ? & _); discriminate]).
  split.
  - destruct (kcmp a b) eqn:E; try discriminate. intros _. exists a, b. rewrite <- kcmp_lt. auto.
  - intros (? & ? & E1 & E2 & E). injection E1 as <-. injection E2 as <-.
    apply kcmp_lt in E. rewrite E. reflexivity.
Qed.
Lemma SFleb_key : forall x y, SFleb x y = true <-> exists a b, fkey x = Some a /\ fkey y = Some b /\ ~ klt b a.
Proof.
  intros x y. unfold SFleb. rewrite SFcompare_key.
  destruct (fkey x) as [a|], (fkey y) as [b|];
    try (split; [discriminate | intros (? & ? & ? & ? & _); discriminate]).
  split.
  - destruct (kcmp a b) eqn:E; try discriminate; intros _; exists a, b; rewrite <- kcmp_gt, E;
      repeat split; discriminate.
  - intros (? & ? & E1 & E2 & E). injection E1 as <-. injection E2 as <-.
    rewrite <- kcmp_gt in E. destruct (kcmp a b); auto.
Qed.

Lemma klt_trans : forall a b c, klt a b -> klt b c -> klt a c.
Proof. intros [[x y] z] [[u v] w] [[p q] r]. cbn. lia. Qed.
Lemma klt_total : forall a b, klt a b \/ a = b \/ klt b a.
Proof.
  intros [[x y] z] [[u v] w]. cbn.
  destruct (Z.lt_trichotomy x u) as [|[->|]]; [lia| |lia].
  destruct (Z.lt_trichotomy y v) as [|[->|]]; [lia| |lia].
  destruct (Z.lt_trichotomy z w) as [|[->|]]; [lia|right; left; reflexivity|lia].
Qed.
Lemma klt_irrefl : forall a, ~ klt a a.
Proof. intros [[x y] z]. cbn. lia. Qed.

(** Facts in terms of the comparisons. *)
Definition num (x : spec_float) : Prop := fkey x <> None.
Lemma num_key : forall x, num x -> exists a, fkey x = Some a.
Proof. intros x H. unfold num in H. destruct (fkey x); [eauto|congruence]. Qed.
Lemma num_nan : forall x, num x <-> x <> S754_nan.
Proof. intros [|[]| |[]]; unfold num; cbn; split; congruence. Qed.

Lemma SFleb_num : forall x y, SFleb x y = true -> num x /\ num y.
Proof. intros x y H. apply SFleb_key in H. destruct H as (a & b & E & E' & _). unfold num. rewrite E, E'. split; discriminate. Qed.
Lemma SFltb_num : forall x y, SFltb x y = true -> num x /\ num y.
Proof. intros x y H. apply SFltb_key in H. destruct H as (a & b & E & E' & _). unfold num. rewrite E, E'. split; discriminate. Qed.
Lemma SFleb_refl : forall x, num x -> SFleb x x = true.
Proof. intros x H. apply num_key in H. destruct H as (a & E). apply SFleb_key. exists a, a. repeat split; auto. apply klt_irrefl. Qed.
Lemma SFleb_trans : forall x y z, SFleb x y = true -> SFleb y z = true -> SFleb x z = true.
Proof.
  intros x y z H K. apply SFleb_key in H, K. destruct H as (a & b & E1 & E2 & H), K as (b' & c & E3 & E4 & K).
  rewrite E2 in E3. injection E3 as <-. apply SFleb_key. exists a, c. repeat split; auto.
  intro F. destruct (klt_total a b) as [L|[<-|L]]; [|tauto|tauto].
  apply K. apply (klt_trans _ a); assumption.
Qed.
Lemma SFltb_leb : forall x y, SFltb x y = true -> SFleb x y = true.
Proof.
  intros x y H. apply SFltb_key in H. destruct H as (a & b & E1 & E2 & H). apply SFleb_key.
  exists a, b. repeat split; auto. intro F. apply (klt_irrefl a). apply (klt_trans _ b); assumption.
Qed.
Lemma SFltb_false : forall x y, num x -> num y -> SFltb x y = false -> SFleb y x = true.
Proof.
  intros x y Hx Hy H. apply num_key in Hx, Hy. destruct Hx as (a & Ea), Hy as (b & Eb).
  apply SFleb_key. exists b, a. repeat split; auto. intro F.
  rewrite <- not_true_iff_false in H. apply H, SFltb_key. eauto.
Qed.
Lemma SFleb_false : forall x y, num x -> num y -> SFleb x y = false -> SFltb y x = true.
Proof.
  intros x y Hx Hy H. apply num_key in Hx, Hy. destruct Hx as (a & Ea), Hy as (b & Eb).
  apply SFltb_key. exists b, a. repeat split; auto.
  rewrite <- not_true_iff_false in H.
  destruct (klt_total b a) as [L|[->|L]]; auto.
  - exfalso; apply H, SFleb_key. exists a, a. repeat split; auto. apply klt_irrefl.
  - exfalso; apply H, SFleb_key. exists a, b. repeat split; auto. intro K. apply (klt_irrefl a).
    apply (klt_trans _ b); assumption.
Qed.
Lemma SFltb_leb_trans : forall x y z, SFltb x y = true -> SFleb y z = true -> SFltb x z = true.
Proof.
  intros x y z H K. apply SFltb_key in H. apply SFleb_key in K. destruct H as (a & b & E1 & E2 & H), K as (b' & c & E3 & E4 & K).
  rewrite E2 in E3. injection E3 as <-. apply SFltb_key. exists a, c. repeat split; auto.
  destruct (klt_total b c) as [L|[<-|L]]; [|assumption|tauto]. apply (klt_trans _ b); assumption.
Qed.
Lemma SFleb_ltb_trans : forall x y z, SFleb x y = true -> SFltb y z = true -> SFltb x z = true.
Proof.
  intros x y z H K. apply SFleb_key in H. apply SFltb_key in K. destruct H as (a & b & E1 & E2 & H), K as (b' & c & E3 & E4 & K).
  rewrite E2 in E3. injection E3 as <-. apply SFltb_key. exists a, c. repeat split; auto.
  destruct (klt_total a b) as [L|[<-|L]]; [|assumption|tauto]. apply (klt_trans _ b); assumption.
Qed.
