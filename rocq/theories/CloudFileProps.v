(** Properties C21, C22: cloud files. *)
From Coq Require Import List ZArith Lia.
From Verif Require Import Outcome CloudFileModel CloudFileSpec CloudFileProofs.
Import ListNotations.
Local Open Scope Z_scope.

(** Loading the bytes of any cloud (whatever follows them in the file, whatever the object
    held before) reports success and gives back the stamp and all points in order. *)
Theorem C21_round_trip : forall limit c c0 extra, cloud_ok limit c ->
  deserialize limit c0 (serialize c ++ extra) = Ok (0, c).
Proof. exact (fun limit c c0 extra H => round_trip limit c0 c extra H). Qed.
Print Assumptions C21_round_trip.

(** The size of the file, hence two different clouds never share a file image. *)
Theorem C21_injective : forall limit c1 c2, cloud_ok limit c1 -> cloud_ok limit c2 ->
  serialize c1 = serialize c2 -> c1 = c2.
Proof.
  intros limit c1 c2 H1 H2 E.
  pose proof (round_trip limit c1 c1 [] H1) as R1.
  pose proof (round_trip limit c1 c2 [] H2) as R2.
  rewrite E, R2 in R1. congruence.
Qed.
Print Assumptions C21_injective.

(** A file cut inside the 20 header bytes is reported as an error. *)
Theorem C22_header_cut_reported : forall limit c0 c k, cloud_ok limit c -> (k < 20)%nat ->
  exists st, deserialize limit c0 (firstn k (serialize c)) = Ok (-1, mkCloud st (c_points c0)).
Proof. exact (fun limit c0 c k H => header_cut limit c0 c k H). Qed.
Print Assumptions C22_header_cut_reported.

(** A file cut anywhere later is reported as a success; the cloud has the full number of
    points; the points that are completely in the file are right, the ones after the cut
    are all zero. *)
Theorem C22_body_cut_accepted : forall limit c0 c k, cloud_ok limit c -> (20 <= k)%nat ->
  exists ps, deserialize limit c0 (firstn k (serialize c)) = Ok (0, mkCloud (c_stamp c) ps) /\
    length ps = length (c_points c) /\
    forall i p, nth_error (c_points c) i = Some p ->
      ((40 + 20 * i <= k)%nat -> nth_error ps i = Some p) /\
      ((k <= 20 + 20 * i)%nat -> nth_error ps i = Some (mkPoint 0 0 0 0 0)).
Proof.
  intros limit c0 c k Hok Hk.
  destruct (truncated limit c0 c k Hok Hk) as (ps & E & L & N).
  exists ps. split; [exact E|]. split; [exact L|]. intros i p Hi.
  assert (point_ok p) as Hp.
  { destruct Hok as (_ & F & _). rewrite Forall_forall in F. apply F. eapply nth_error_In; eassumption. }
  split; intros Hc; rewrite (N i p Hi).
  - replace (Nat.min 20 (k - 20 - 20 * i)) with 20%nat by lia. f_equal. apply cut_whole; assumption.
  - replace (Nat.min 20 (k - 20 - 20 * i)) with 0%nat by lia. f_equal.
Qed.
Print Assumptions C22_body_cut_accepted.

(** So truncation is not detected: a cut file loads "successfully" as another cloud. *)
Theorem C22_truncation_detected_refuted : exists limit c0 c k c',
  cloud_ok limit c /\ (k < length (serialize c))%nat /\
  deserialize limit c0 (firstn k (serialize c)) = Ok (0, c') /\ c' <> c.
Proof.
  exists 1000, (mkCloud (mkStamp 0 0 0) []),
    (mkCloud (mkStamp 1 2 3) [mkPoint 1 2 3 4 5; mkPoint 7 8 9 10 11]), 45%nat,
    (mkCloud (mkStamp 1 2 3) [mkPoint 1 2 3 4 5; mkPoint 7 8 0 0 0]).
  split; [|split; [cbn; lia|split; [vm_compute; reflexivity|discriminate]]].
  unfold cloud_ok, stamp_ok, point_ok, word. cbn.
  repeat match goal with |- _ /\ _ => split | |- Forall _ _ => constructor end; cbn; lia.
Qed.
Print Assumptions C22_truncation_detected_refuted.

(** Any file at all: shorter than the header it is an error that leaves the points alone; otherwise the
    bytes 12 to 19 announce the number of points, a number beyond the memory throws, and any other is
    believed: the load succeeds with that many points however few the file holds. *)
Definition announced (bytes : list Z) : Z :=
  match skipn 12 bytes with
  | b0 :: b1 :: b2 :: b3 :: b4 :: b5 :: b6 :: b7 :: _ =>
      b0 + b1 * 2 ^ 8 + b2 * 2 ^ 16 + b3 * 2 ^ 24 + b4 * 2 ^ 32 + b5 * 2 ^ 40 + b6 * 2 ^ 48 + b7 * 2 ^ 56
  | _ => 0
  end.
Theorem C22_any_file : forall limit c0 bytes, Forall (fun b => 0 <= b < 256) bytes ->
  ((length bytes < 20)%nat ->
     exists st, deserialize limit c0 bytes = Ok (-1, mkCloud st (c_points c0))) /\
  ((20 <= length bytes)%nat -> limit < announced bytes -> deserialize limit c0 bytes = Throw) /\
  ((20 <= length bytes)%nat -> announced bytes <= limit ->
     exists c, deserialize limit c0 bytes = Ok (0, c) /\
       Z.of_nat (length (c_points c)) = announced bytes).
Proof.
  intros limit c0 bytes HB. destruct (deserialize_any limit c0 bytes) as (A & B & C).
  assert (E : (20 <= length bytes)%nat ->
    announced bytes = unle (firstn 8 (skipn 12 bytes)) /\ 0 <= announced bytes).
  { intros L. unfold announced.
    assert (F : Forall (fun b => 0 <= b < 256) (skipn 12 bytes)).
    { rewrite <- (firstn_skipn 12 bytes) in HB. apply Forall_app in HB. apply HB. }
    assert (L' : (8 <= length (skipn 12 bytes))%nat) by (rewrite skipn_length; lia).
    revert L' F. generalize (skipn 12 bytes) as r. intros r.
    destruct r as [|b0 [|b1 [|b2 [|b3 [|b4 [|b5 [|b6 [|b7 r]]]]]]]]; cbn [length]; try lia.
    intros _ F. cbn [firstn unle].
    repeat match goal with H : Forall _ (_ :: _) |- _ => inversion H; subst; clear H end.
    split; lia. }
  split; [exact A|]. split; intros L; destruct (E L) as [E1 E2]; rewrite E1 in *.
  - apply B; assumption.
  - intros Lm. destruct (C L Lm) as (c & R & N). exists c. split; [exact R|]. lia.
Qed.
Print Assumptions C22_any_file.
Example C22_any_ex :
  let b := repeat 0 12 ++ [3; 0; 0; 0; 0; 0; 0; 0] in
  let c0 := mkCloud (mkStamp 0 0 0) [] in
  deserialize 1000 c0 b = Ok (0, mkCloud (mkStamp 0 0 0) (repeat (mkPoint 0 0 0 0 0) 3)) /\
  deserialize 2 c0 b = Throw /\ announced b = 3.
Proof. vm_compute. auto. Qed.

(** NaN bit patterns and a non-trivial stamp survive. *)
Example file_ex :
  let c := mkCloud (mkStamp 1500000000 999999999 1000000000)
                   [mkPoint 2143289344 4290772993 0 2147483648 1065353216] in
  cloud_ok 1000 c /\ length (serialize c) = 40%nat /\
  deserialize 1000 (mkCloud (mkStamp 9 9 9) [mkPoint 1 1 1 1 1]) (serialize c ++ [1; 2]) = Ok (0, c).
Proof.
  cbn zeta. split; [|split; vm_compute; reflexivity].
  unfold cloud_ok, stamp_ok, point_ok, word. cbn.
  repeat match goal with |- _ /\ _ => split | |- Forall _ _ => constructor end; cbn; lia.
Qed.
