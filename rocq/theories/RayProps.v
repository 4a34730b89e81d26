(** Property theorems C18, C19, C20, C69: voxel casting. *)
From Coq Require Import List Bool ZArith Lia ZifyBool.
From Verif Require Import Outcome RayModel RaySpec RayProofs.
Import ListNotations.
Local Open Scope Z_scope.

(** C18. *)
Theorem C18_bresenham_path : forall s e, int_ray (2 ^ 31) s e ->
  exists path, bresenham s e = Ok path /\
    Z.of_nat (length path) = max_delta s e + 1 /\
    nth_error path 0 = Some s /\
    nth_error path (Z.to_nat (max_delta s e)) = Some e /\
    (forall i u v, nth_error path i = Some u -> nth_error path (S i) = Some v ->
       neighbours u v).
Proof.
  intros s e H. destruct (bresenham_good s e H) as (p & E & G1 & G2 & G3 & G4 & _). eauto 7.
Qed.
Print Assumptions C18_bresenham_path.

(** C19. *)
Theorem C19_bresenham_half_voxel : forall s e path i v, int_ray (2 ^ 31) s e ->
  bresenham s e = Ok path -> nth_error path i = Some v ->
  half_voxel (max_delta s e) (Z.of_nat i) (px s) (px e) (px v) /\
  half_voxel (max_delta s e) (Z.of_nat i) (py s) (py e) (py v) /\
  half_voxel (max_delta s e) (Z.of_nat i) (pz s) (pz e) (pz v).
Proof.
  intros s e path i v H E Hi. destruct (bresenham_good s e H) as (p & E' & _ & _ & _ & _ & G).
  rewrite E in E'. inversion E'; subst p. apply G. assumption.
Qed.
Print Assumptions C19_bresenham_half_voxel.

(** C20 (with the compiler's definition of shifting a negative number). *)
Theorem C20_dda_path : forall s e, int_ray (2 ^ 29) s e ->
  exists path, dda false s e = Ok path /\
    Z.of_nat (length path) = max_delta s e + 1 /\
    nth_error path 0 = Some s /\
    nth_error path (Z.to_nat (max_delta s e)) = Some e /\
    (forall i u v, nth_error path i = Some u -> nth_error path (S i) = Some v ->
       neighbours u v) /\
    (forall i v, nth_error path i = Some v ->
       half_voxel (max_delta s e) (Z.of_nat i) (px s) (px e) (px v) /\
       half_voxel (max_delta s e) (Z.of_nat i) (py s) (py e) (py v) /\
       half_voxel (max_delta s e) (Z.of_nat i) (pz s) (pz e) (pz v)).
Proof. exact dda_good. Qed.
Print Assumptions C20_dda_path.

(** C69.  The limits of both functions.  Bresenham: a coordinate difference outside the
    int range is undefined. *)
Theorem C69_bresenham_overflow : forall s e,
  2 ^ 31 <= max_delta s e -> bresenham s e = UB.
Proof.
  intros s e H. unfold bresenham, int32.
  unfold max_delta in H.
  destruct ((- 2 ^ 31 <=? px e - px s) && (px e - px s <? 2 ^ 31)) eqn:E1; [|reflexivity]. cbn [bind].
  destruct ((- 2 ^ 31 <=? Z.abs (px e - px s)) && (Z.abs (px e - px s) <? 2 ^ 31)) eqn:E2;
    [|reflexivity]. cbn [bind].
  destruct ((- 2 ^ 31 <=? py e - py s) && (py e - py s <? 2 ^ 31)) eqn:E3; [|reflexivity]. cbn [bind].
  destruct ((- 2 ^ 31 <=? Z.abs (py e - py s)) && (Z.abs (py e - py s) <? 2 ^ 31)) eqn:E4;
    [|reflexivity]. cbn [bind].
  destruct ((- 2 ^ 31 <=? pz e - pz s) && (pz e - pz s <? 2 ^ 31)) eqn:E5; [|reflexivity]. cbn [bind].
  destruct ((- 2 ^ 31 <=? Z.abs (pz e - pz s)) && (Z.abs (pz e - pz s) <? 2 ^ 31)) eqn:E6;
    [|reflexivity].
  exfalso. lia.
Qed.
Print Assumptions C69_bresenham_overflow.

(** DDA: under the C++14 standard even a short ray is undefined, because a negative error
    is shifted left. *)
Theorem C69_dda_cxx14_defined_refuted : exists s e,
  int_ray 6 s e /\ dda true s e = UB /\ exists path, dda false s e = Ok path.
Proof.
  exists (Vox 0 0 0), (Vox 5 1 0). split; [unfold int_ray, max_delta; cbn; lia|].
  split; [vm_compute; reflexivity|]. eexists. vm_compute. reflexivity.
Qed.
Print Assumptions C69_dda_cxx14_defined_refuted.

(** A ray that meets the hypotheses, and both paths. *)
Example ray_ex : int_ray (2 ^ 29) (Vox 1 (-2) 0) (Vox (-3) 0 5) /\
  bresenham (Vox 1 (-2) 0) (Vox (-3) 0 5) =
    Ok [Vox 1 (-2) 0; Vox 0 (-2) 1; Vox (-1) (-1) 2; Vox (-1) (-1) 3; Vox (-2) 0 4; Vox (-3) 0 5] /\
  dda false (Vox 1 (-2) 0) (Vox (-3) 0 5) =
    Ok [Vox 1 (-2) 0; Vox 0 (-2) 1; Vox (-1) (-1) 2; Vox (-1) (-1) 3; Vox (-2) 0 4; Vox (-3) 0 5].
Proof.
  split; [unfold int_ray, max_delta; cbn; lia|]. split; vm_compute; reflexivity.
Qed.
