(** C136: which points the check of points lets through, and what it does when a submap is built. *)
From Coq Require Import QArith Qpower Qabs Lqa ZArith List Bool Lia SpecFloat.
From Verif Require Import Outcome FilterModel FilterSpec FloatRound FloatTrunc PointModel PointProofs.
Import ListNotations.
Local Open Scope Z_scope.

(** A float of the format binary32. *)
Definition is_float (x : fl) : Prop := valid_binary 24 128 x = true.
Definition is_point (p : point) : Prop := is_float (px p) /\ is_float (py p) /\ is_float (pz p).
(** The point with the coordinates [x], [y], [z]. *)
Definition at_ (p : point) (x y z : Q) : Prop := value (px p) = Some x /\ value (py p) = Some y /\ value (pz p) = Some z.

(** The function and the macro agree: one of them says no just when the other aborts. *)
Theorem C136_agree : forall p, is_point p ->
  check_point p = true /\ fatal_point p = Ok tt \/ check_point p = false /\ fatal_point p = Abort.
Proof.
  intros p V. destruct (fatal_cases p V) as (A & B).
  assert (D : (coords_finite p /\ small p) \/ ~ (coords_finite p /\ small p)).
  { destruct (small_dec p) as [S|S]; [|right; tauto]. unfold coords_finite.
    destruct (is_finite (px p)), (is_finite (py p)), (is_finite (pz p)); (left; repeat split; assumption) || (right; intros ((X & Y & Z) & _); discriminate). }
  destruct D as [D|D]; [left; destruct (A D)|right; destruct (B D)]; auto.
Qed.

(** Points with a coordinate that is infinite or not a number are refused. *)
Theorem C136_not_finite : forall p, is_point p -> check_point p = true -> exists x y z, at_ p x y z.
Proof.
  intros p V H. destruct (fatal_cases p V) as (_ & B).
  assert (F : coords_finite p).
  { unfold coords_finite. destruct (is_finite (px p)) eqn:X, (is_finite (py p)) eqn:Y, (is_finite (pz p)) eqn:Z;
      try (repeat split; reflexivity); (destruct B as (_ & B); [intros ((X' & Y' & Z') & _); congruence|congruence]). }
  destruct F as (Fx & Fy & Fz). apply finite_value in Fx, Fy, Fz. destruct Fx as (x & X), Fy as (y & Y), Fz as (z & Z). exists x, y, z. repeat split; assumption.
Qed.

Lemma passes_small : forall p x y z, is_point p -> at_ p x y z -> (check_point p = true <-> small p).
Proof.
  intros p x y z V (X & Y & Z). destruct (fatal_cases p V) as (A & B).
  assert (F : coords_finite p) by (repeat split; apply finite_value; eauto).
  destruct (small_dec p) as [S|S].
  - destruct (A (conj F S)). tauto.
  - destruct (B ltac:(tauto)) as (_ & C). rewrite C. split; [discriminate|tauto].
Qed.
(** Points up to 9 metres below the limit pass, points from 9 metres above it are refused. *)
Theorem C136_margin : forall p x y z, is_point p -> at_ p x y z ->
  ((x * x + y * y + z * z <= 99999991 * 99999991)%Q -> check_point p = true) /\
  ((100000009 * 100000009 <= x * x + y * y + z * z)%Q -> check_point p = false).
Proof.
  intros p x y z V A. pose proof (passes_small p x y z V A) as C. destruct A as (X & Y & Z).
  destruct (squares_margin p x y z V X Y Z) as (L & G). split.
  - intros H. apply C, L, H.
  - intros H. destruct (check_point p) eqn:E; [|reflexivity]. exfalso. apply (G H), C. reflexivity.
Qed.

(** A point nearer to the origin in every coordinate than one that passes does pass. *)
Theorem C136_nearer : forall p p' x y z x' y' z', is_point p -> is_point p' -> at_ p x y z -> at_ p' x' y' z' ->
  (Qabs x <= Qabs x')%Q -> (Qabs y <= Qabs y')%Q -> (Qabs z <= Qabs z')%Q -> check_point p' = true -> check_point p = true.
Proof.
  assert (S : forall a b : Q, (Qabs a <= Qabs b)%Q -> (a * a <= b * b)%Q).
  { intros a b H. pose proof (Qabs_nonneg a) as N.
    assert (E : forall c : Q, (c * c == Qabs c * Qabs c)%Q).
    { intros c. destruct (Qlt_le_dec c 0) as [L|L]; [rewrite (Qabs_neg c ltac:(lra)); ring|rewrite (Qabs_pos c L); reflexivity]. }
    rewrite (E a), (E b). set (u := Qabs a) in *. set (v := Qabs b) in *. clearbody u v. nra. }
  intros p p' x y z x' y' z' V V' A A' Lx Ly Lz H.
  apply (passes_small p x y z V A). apply (passes_small p' x' y' z' V' A') in H.
  destruct A as (X & Y & Z), A' as (X' & Y' & Z').
  exact (squares_mono p p' x y z x' y' z' V V' X Y Z X' Y' Z' (S _ _ Lx) (S _ _ Ly) (S _ _ Lz) H).
Qed.

(** A single coordinate of 1e8 or more is enough to be refused. *)
Theorem C136_coordinate : forall p x y z, is_point p -> at_ p x y z ->
  (100000000 <= Qabs x \/ 100000000 <= Qabs y \/ 100000000 <= Qabs z)%Q -> check_point p = false.
Proof.
  set (zero := S754_zero false). set (big := S754_finite false 12500000 3).
  assert (Vb : value big = Some (inject_Z 12500000 * 2 ^ 3)%Q) by reflexivity.
  assert (Eb : (Qabs (inject_Z 12500000 * 2 ^ 3) == 100000000)%Q) by (vm_compute; reflexivity).
  intros p x y z V A H. destruct (check_point p) eqn:E; [|reflexivity]. exfalso.
  assert (N : forall q, (Qabs 0 <= Qabs q)%Q) by (intros q; change (Qabs 0) with 0%Q; apply Qabs_nonneg).
  destruct H as [H|[H|H]].
  - assert (F : check_point (mkPoint big zero zero zero zero) = true); [|vm_compute in F; discriminate].
    refine (C136_nearer (mkPoint big zero zero zero zero) p _ _ _ x y z _ V _ A _ (N y) (N z) E);
      [repeat split; reflexivity|repeat split; reflexivity|rewrite Eb; exact H].
  - assert (F : check_point (mkPoint zero big zero zero zero) = true); [|vm_compute in F; discriminate].
    refine (C136_nearer (mkPoint zero big zero zero zero) p _ _ _ x y z _ V _ A (N x) _ (N z) E);
      [repeat split; reflexivity|repeat split; reflexivity|rewrite Eb; exact H].
  - assert (F : check_point (mkPoint zero zero big zero zero) = true); [|vm_compute in F; discriminate].
    refine (C136_nearer (mkPoint zero zero big zero zero) p _ _ _ x y z _ V _ A (N x) (N y) _ E);
      [repeat split; reflexivity|repeat split; reflexivity|rewrite Eb; exact H].
Qed.

(** The limit is not exact: a point 2.4 metres beyond it passes, one 5.2 metres before it is refused. *)
Definition flt (z : Z) : fl := binary_normalize 24 128 z 0 false.
Definition pt (x y z : Z) : point := mkPoint (flt x) (flt y) (flt z) (flt 0) (flt 0).
Theorem C136_exact_refuted : exists p q,
  is_point p /\ is_point q /\
  (exists x y z, at_ p x y z /\ (100000002 * 100000002 < x * x + y * y + z * z)%Q) /\ check_point p = true /\
  (exists x y z, at_ q x y z /\ (x * x + y * y + z * z < 99999995 * 99999995)%Q) /\ check_point q = false.
Proof.
  exists (pt 95104024 3925932 30656356), (pt 69982984 11204416 70546736).
  split; [repeat split; reflexivity|]. split; [repeat split; reflexivity|].
  split; [do 3 eexists; split; [repeat split; reflexivity|vm_compute; reflexivity]|]. split; [vm_compute; reflexivity|].
  split; [do 3 eexists; split; [repeat split; reflexivity|vm_compute; reflexivity]|]. vm_compute. reflexivity.
Qed.
(** The length is not zero at the origin only: it is zero for some points off it. *)
Theorem C136_length_refuted : exists p x y z, is_point p /\ at_ p x y z /\ ~ (x == 0)%Q /\ value (length_of p) = Some 0%Q.
Proof.
  exists (mkPoint (S754_finite false 8388608 (-98)) (flt 0) (flt 0) (flt 0) (flt 0)). do 3 eexists.
  split; [repeat split; reflexivity|]. split; [repeat split; reflexivity|]. split; [vm_compute; discriminate|]. vm_compute. reflexivity.
Qed.

(** A cloud passes if all its points do; one that does not ends the process. *)
Theorem C136_cloud : forall l, Forall is_point l ->
  (Forall (fun p => check_point p = true) l -> fatal_cloud l = Ok (length l)) /\
  (Exists (fun p => check_point p = false) l -> fatal_cloud l = Abort).
Proof.
  intros l V. assert (I : forall p, In p l -> (check_point p = true <-> fatal_point p = Ok tt)).
  { intros p Hp. rewrite Forall_forall in V. destruct (C136_agree p (V p Hp)) as [[A B]|[A B]]; rewrite A, B; split; congruence. }
  split; intros H.
  - apply fatal_cloud_ok. rewrite Forall_forall in *. intros p Hp. apply (I p Hp), H, Hp.
  - apply fatal_cloud_bad. intros F. rewrite Forall_forall in F. apply Exists_exists in H. destruct H as (p & Hp & E).
    apply F in Hp as G. apply (I p Hp) in G. congruence.
Qed.

Section Submap.
  Variables (M : Type) (insert : M -> list point -> outcome M) (new : M).
  (** Without the option the clouds are joined as they are. *)
  Theorem C136_unchecked : forall l, build_cloud insert new false false l = Ok (concat l, 0%nat).
  Proof. intros l. unfold build_cloud. rewrite add_off. reflexivity. Qed.

  (** With it a cloud comes out just if every point of every frame is good, and it is the same cloud; the points of the
      first of [n] frames have then been looked at [n] times. *)
  Theorem C136_checked : forall l, Forall is_point (concat l) ->
    (Forall (fun p => check_point p = true) (concat l) -> build_cloud insert new false true l = Ok (concat l, looks l)) /\
    (Exists (fun p => check_point p = false) (concat l) -> build_cloud insert new false true l = Abort).
  Proof.
    intros l V. destruct (C136_cloud (concat l) V) as (G & B). unfold build_cloud. split; intros H.
    - assert (F : Forall (fun p => fatal_point p = Ok tt) ([] ++ concat l)).
      { cbn [app]. rewrite Forall_forall in *. intros p Hp. destruct (C136_agree p (V p Hp)) as [[A C]|[A C]]; [exact C|]. rewrite (H p Hp) in A. discriminate. }
      destruct (add_on l [] F) as (n & E & C). rewrite E. cbn [app] in *. cbn [bind fst snd maybe_check]. rewrite (G H). cbn [bind].
      do 2 f_equal. cbn [length] in C. rewrite Nat.mul_0_r in C. exact C.
    - assert (F : ~ Forall (fun p => fatal_point p = Ok tt) ([] ++ concat l)).
      { cbn [app]. intros F. apply fatal_cloud_ok in F. rewrite (B H) in F. discriminate. }
      destruct (add_bad l [] F) as [E|(n & E)]; rewrite E; cbn [bind app fst maybe_check]; [reflexivity|]. rewrite (B H). reflexivity.
  Qed.

  (** With the voxel map the cloud is empty whatever the points are; only the checks remain of them. *)
  Theorem C136_mrvm : forall l checked c n, build_cloud insert new true checked l = Ok (c, n) ->
    c = [] /\ n = (if checked then length (concat l) else 0%nat) /\ (checked = true -> Forall is_point (concat l) -> Forall (fun p => check_point p = true) (concat l)).
  Proof.
    intros l checked c n H. unfold build_cloud in H.
    assert (K : forall l m n, voxel_clouds insert checked m l = Ok n ->
      n = (if checked then length (concat l) else 0%nat) /\ (checked = true -> Forall (fun p => fatal_point p = Ok tt) (concat l))).
    { clear. induction l as [|c l IH]; intros m n H; cbn [voxel_clouds concat] in H |- *.
      - injection H as <-. split; [destruct checked; reflexivity|constructor].
      - destruct checked; cbn [maybe_check] in H.
        + destruct (all_dec c) as [F|F]; [|rewrite (fatal_cloud_bad _ F) in H; discriminate]. rewrite (fatal_cloud_ok _ F) in H. cbn [bind] in H.
          destruct (insert m c) as [m'| | |]; try discriminate. cbn [bind] in H. destruct (voxel_clouds insert true m' l) as [k| | |] eqn:E; try discriminate.
          cbn [bind] in H. injection H as <-. destruct (IH _ _ E) as (-> & G). rewrite app_length. split; [reflexivity|]. intros _. apply Forall_app. split; [exact F|apply G; reflexivity].
        + cbn [bind] in H. destruct (insert m c) as [m'| | |]; try discriminate. cbn [bind] in H. destruct (voxel_clouds insert false m' l) as [k| | |] eqn:E; try discriminate.
          cbn [bind] in H. injection H as <-. destruct (IH _ _ E) as (-> & G). split; [reflexivity|discriminate]. }
    destruct (voxel_clouds insert checked new l) as [k| | |] eqn:E; try discriminate. cbn [bind fst snd] in H. destruct (K _ _ _ E) as (-> & G).
    assert (H' : Ok (([] : list point), ((if checked then length (concat l) else 0) + 0)%nat) = Ok (c, n)) by (destruct checked; exact H).
    injection H' as <- <-. split; [reflexivity|]. split; [lia|]. intros C V. specialize (G C). rewrite Forall_forall in *. intros p Hp.
    destruct (C136_agree p (V p Hp)) as [[A B]|[A B]]; [exact A|]. rewrite (G p Hp) in B. discriminate.
  Qed.
End Submap.

(** Examples *)
Example C136_ex_pass : check_point (pt 50000000 (-50000000) 50000000) = true /\ is_point (pt 50000000 (-50000000) 50000000).
Proof. split; [vm_compute; reflexivity|repeat split; reflexivity]. Qed.
Example C136_ex_refused : map check_point [pt 100000000 0 0; pt 0 (-100000000) 0; mkPoint S754_nan (flt 1) (flt 1) (flt 0) (flt 0); mkPoint (flt 1) (S754_infinity true) (flt 1) (flt 0) (flt 0); pt (10 ^ 30) 0 0]
  = [false; false; false; false; false].
Proof. vm_compute. reflexivity. Qed.
Example C136_ex_build :
  build_cloud (fun _ : unit => fun _ => Ok tt) tt false true [[pt 1 2 3; pt 4 5 6]; [pt 7 8 9]; []] = Ok ([pt 1 2 3; pt 4 5 6; pt 7 8 9], 8%nat) /\
  build_cloud (fun _ : unit => fun _ => Ok tt) tt false true [[pt 1 2 3]; [pt 100000000 8 9]] = Abort /\
  build_cloud (fun _ : unit => fun _ => Ok tt) tt false false [[pt 1 2 3]; [pt 100000000 8 9]] = Ok ([pt 1 2 3; pt 100000000 8 9], 0%nat) /\
  build_cloud (fun _ : unit => fun _ => Ok tt) tt true true [[pt 1 2 3]; [pt 7 8 9]] = Ok ([], 2%nat).
Proof. vm_compute. repeat split. Qed.

Print Assumptions C136_agree.
Print Assumptions C136_not_finite.
Print Assumptions C136_margin.
Print Assumptions C136_nearer.
Print Assumptions C136_coordinate.
Print Assumptions C136_exact_refuted.
Print Assumptions C136_length_refuted.
Print Assumptions C136_cloud.
Print Assumptions C136_unchecked.
Print Assumptions C136_checked.
Print Assumptions C136_mrvm.
