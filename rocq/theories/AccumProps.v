(** Property theorem C11: accumulation of clouds. *)
From Coq Require Import ZArith QArith List Bool Lia.
From Verif Require Import TimeModel AccumModel AccumSpec AccumProofs.
Import ListNotations.
Local Open Scope Z_scope.

(** C11.  After the inputs [l], exactly floor(|l|/n) clouds have been queued, cloud [j]
    being the merge of the [j]-th group of [n] inputs, and the remaining inputs are held
    back, again without losing a point. *)
Theorem C11_accumulate : forall PclPoint Payload (to_payload : PclPoint -> Payload) n l,
  (1 <= n)%nat -> Z.of_nat n < 2 ^ 31 ->
  let s := insert_clouds to_payload (Z.of_nat n) l in
  let q := (length l / n)%nat in
  let r := (length l mod n)%nat in
  as_count s = Z.of_nat r /\
  length (as_queue s) = q /\
  (forall j out, nth_error (as_queue s) j = Some out ->
     merged to_payload (group_of n j l) out) /\
  ((0 < r)%nat ->
     map ip_payload (ic_points (as_cloud s)) = map to_payload (all_points (skipn (q * n) l)) /\
     exists first tl, skipn (q * n) l = first :: tl /\
                      as_first s = to_local_time (pc_stamp first)).
Proof. exact accumulate. Qed.
Print Assumptions C11_accumulate.

(** A count of one or less (also a negative one) passes every cloud on by itself. *)
Theorem C11_nonpositive : forall PclPoint Payload (to_payload : PclPoint -> Payload) n l,
  n <= 1 -> insert_clouds to_payload n l = insert_clouds to_payload 1 l.
Proof. exact accumulate_nonpositive. Qed.
Print Assumptions C11_nonpositive.

Example C11_ex :
  as_queue (insert_clouds (fun p : Z => p) 2
    [mkPcl 5 [1; 2]; mkPcl 6 [3]; mkPcl 7 []; mkPcl 8 [4]; mkPcl 9 [5]])
  = [mkIC (mkTime 0 5000) [mkIP 1 (0 / 3)%Q; mkIP 2 (1 / 3)%Q; mkIP 3 (2 / 3)%Q];
     mkIC (mkTime 0 7000) [mkIP 4 (0 / 1)%Q]].
Proof. reflexivity. Qed.
