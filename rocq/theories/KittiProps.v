(** C121: playback of KITTI files. *)
From Coq Require Import ZArith String List Bool Lia Permutation Sorted.
From Verif Require Import Outcome KittiModel KittiProofs.
Import ListNotations.
Local Open Scope outcome_scope.
Local Open Scope nat_scope.

(** The clouds before the first empty one. *)
Definition before_empty {A} (cs l : list (list A)) : Prop :=
  Forall (fun c => c <> []) l /\ exists rest, cs = l ++ rest /\ (rest = [] \/ exists r, rest = [] :: r).

Section Claims.
  Context {F M : Type}.
  Variables (scale : F -> F) (put : M -> list (point F) -> outcome M).

  (** The points of a file: one for every four of the first million floats, in order. *)
  Theorem C121_points : forall w name data, content w name = Some data ->
    exists c, read_from_file scale w name = Ok c /\ length c = Nat.min (Z.to_nat 1000000) (length data) / 4 /\
      forall k p, nth_error c k = Some p ->
        exists x y z r, nth_error data (4 * k) = Some x /\ nth_error data (4 * k + 1) = Some y /\ nth_error data (4 * k + 2) = Some z /\
          nth_error data (4 * k + 3) = Some r /\ p = mkPoint x y z (scale r).
  Proof.
    intros w name data H. unfold read_from_file. rewrite H. eexists. split; [reflexivity|].
    change limit with 1000000%Z. generalize (Z.to_nat 1000000). intros n.
    split; [rewrite points_length; [rewrite firstn_length; reflexivity|apply Nat.le_refl]|].
    intros k p N. destruct (points_nth scale _ _ _ _ N) as (_ & x & y & z & r & X & Y & Z & R & ->). exists x, y, z, r.
    assert (G : forall i v, nth_error (firstn n data) i = Some v -> nth_error data i = Some v).
    { clear. revert data. induction n as [|n IH]; intros data i v E; [destruct i; discriminate|].
      destruct data as [|d data]; [destruct i; discriminate|]. destruct i as [|i]; [exact E|]. exact (IH data i v E). }
    repeat split; auto.
  Qed.

  (** Playback delivers the files of the directory in the order of their names, each once, up to the first without
      a complete point; every file that was read costs 4000000 bytes that are never freed. *)
  Theorem C121_playback : forall (g : M -> list (point F) -> M) (ok : nat -> bool) w path s0 s m fuel,
    (forall m c, put m c = Ok (g m c)) -> (forall k, ok k = true) ->
    set_path w s0 path = Ok s -> is_directory w path = true ->
    (forall f, In f (entries w path) -> content w f <> None) -> length (entries w path) < fuel ->
    exists names clouds delivered s', play scale put ok fuel w s m 0 = Some (Ok (fold_left g delivered m, s')) /\
      Permutation names (entries w path) /\ Sorted (fun a b => String.leb a b = true) names /\
      Forall2 (fun f c => read_from_file scale w f = Ok c) names clouds /\ before_empty clouds delivered /\
      (heap s' = heap s0 + 4000000 * Z.of_nat (Nat.min (length names) (S (length delivered))))%Z.
  Proof.
    intros g ok w path s0 s m fuel Hp Hok Hs Hd Hc Hf. unfold set_path, list_files in Hs. rewrite Hd in Hs.
    destruct (present w path); [|discriminate]. cbn in Hs. injection Hs as <-.
    assert (Pm := sort_perm (entries w path)).
    destruct (play_spec scale put ok g Hp Hok w (sort (entries w path)) (mkReader (sort (entries w path)) 0 (heap s0)) m 0 fuel) as (s' & P & _ & _ & H & C).
    - intros f I. apply Hc. apply (Permutation_in f (Permutation_sym Pm)). exact I.
    - reflexivity.
    - cbn. lia.
    - rewrite <- (Permutation_length Pm). exact Hf.
    - exists (sort (entries w path)), (map (cloud_of scale w) (sort (entries w path))), (usable (map (cloud_of scale w) (sort (entries w path)))), s'.
      split; [exact P|]. split; [apply Permutation_sym; exact Pm|]. split; [apply sort_sorted|]. split; [|split].
      + assert (Q : forall f, In f (sort (entries w path)) -> content w f <> None) by (intros f I; apply Hc, (Permutation_in f (Permutation_sym Pm)), I).
        clear - Q. induction (sort (entries w path)) as [|f l IH]; [constructor|]. cbn [map]. constructor; [apply read_cloud, Q; left; reflexivity|apply IH; intros x I; apply Q; right; exact I].
      + clear. induction (map (cloud_of scale w) (sort (entries w path))) as [|c l IH]; [split; [constructor|exists []; auto]|].
        destruct c as [|p c]; cbn [usable]; [split; [constructor|exists ([] :: l); split; [reflexivity|right; eauto]]|].
        destruct IH as (A & rest & B & D). split; [constructor; [discriminate|exact A]|]. exists rest. split; [cbn; f_equal; exact B|exact D].
      + cbn [heap current_index files] in H, C. rewrite H, C, Z.sub_0_r. change limit with 1000000%Z. rewrite Nat.add_0_l. lia.
  Qed.

  (** A path that is not there aborts, a path that is no directory plays nothing, a file that cannot be opened is
      undefined behaviour, and once ROS is down nothing is read. *)
  Theorem C121_no_path : forall (w : world F) path s, present w path = false -> set_path w s path = Abort.
  Proof. intros w path s H. unfold set_path. rewrite H. reflexivity. Qed.
  Theorem C121_no_directory : forall (ok : nat -> bool) (w : world F) path s0 s m fuel, set_path w s0 path = Ok s -> is_directory w path = false ->
    play scale put ok (S fuel) w s m 0 = Some (Ok (m, s)) /\ heap s = heap s0.
  Proof.
    intros ok w path s0 s m fuel H D. unfold set_path, list_files in H. rewrite D in H. destruct (present w path); [|discriminate].
    cbn in H. injection H as <-. split; [|reflexivity]. cbn. destruct (ok 0); reflexivity.
  Qed.
  Theorem C121_unreadable : forall (ok : nat -> bool) (w : world F) s m fuel f, ok 0 = true -> nth_error (files s) (current_index s) = Some f -> content w f = None ->
    play scale put ok (S fuel) w s m 0 = Some UB.
  Proof. intros ok w s m fuel f O N C. cbn. unfold read_next, read_from_file. rewrite O, N, C. reflexivity. Qed.
  Theorem C121_shutdown : forall (ok : nat -> bool) (w : world F) s m fuel i, ok i = false -> play scale put ok (S fuel) w s m i = Some (Ok (m, s)).
  Proof. intros ok w s m fuel i O. cbn. rewrite O. reflexivity. Qed.
End Claims.
Print Assumptions C121_points.
Print Assumptions C121_playback.
Print Assumptions C121_no_path.
Print Assumptions C121_no_directory.
Print Assumptions C121_unreadable.
Print Assumptions C121_shutdown.

(** A directory of three files, two points, none and one. *)
Local Open Scope string_scope.
Definition demo_content (f : string) : option (list Z) :=
  if String.eqb f "9.bin" then Some [1; 2; 3; 4; 5; 6; 7; 8; 9]%Z else if String.eqb f "10.bin" then Some [1; 1; 1; 1]%Z
  else if String.eqb f "95.bin" then Some [7; 7]%Z else if String.eqb f "96.bin" then Some [2; 2; 2; 2]%Z else None.
Definition demo (names : list string) : world Z := mkWorld Z (fun _ => true) (fun _ => true) (fun _ => names) demo_content.
Definition collect (m : list (list (point Z))) (c : list (point Z)) : outcome (list (list (point Z))) := Ok (m ++ [c])%list.
Definition session (names : list string) : option (outcome (list (list (point Z)) * reader)) :=
  match set_path (demo names) (mkReader [] 0 0) "data" with
  | Ok s => play (Z.mul 255) collect (fun _ => true) 10 (demo names) s [] 0
  | _ => None
  end.
Example C121_ex : session ["9.bin"; "10.bin"] =
  Some (Ok ([[mkPoint 1 1 1 255]; [mkPoint 1 2 3 1020; mkPoint 5 6 7 2040]]%Z, mkReader ["10.bin"; "9.bin"] 2 8000000)).
Proof. vm_compute. reflexivity. Qed.
(** The hypotheses of C121_playback hold for it. *)
Example C121_ex_hypotheses : exists s, set_path (demo ["9.bin"; "95.bin"; "96.bin"]) (mkReader [] 0 0) "data" = Ok s /\
  forall f, In f (entries (demo ["9.bin"; "95.bin"; "96.bin"]) "data") -> content (demo ["9.bin"; "95.bin"; "96.bin"]) f <> None.
Proof. eexists. split; [reflexivity|]. intros f [<-|[<-|[<-|[]]]]; vm_compute; discriminate. Qed.

(** "Every file with points is delivered": no, a file without points ends the playback. *)
Theorem C121_all_files_refuted :
  ~ (forall names m s, session names = Some (Ok (m, s)) -> forall f d, In f names -> demo_content f = Some d -> 4 <= length d ->
       exists c, In c m /\ read_from_file (Z.mul 255) (demo names) f = Ok c).
Proof.
  intros H. assert (S : exists m s, session ["9.bin"; "95.bin"; "96.bin"] = Some (Ok (m, s)) /\ m = [[mkPoint 1 2 3 1020; mkPoint 5 6 7 2040]]%Z).
  { eexists _, _. split; vm_compute; reflexivity. }
  destruct S as (m & s & E & Em). destruct (H _ m s E "96.bin" [2; 2; 2; 2]%Z) as (c & I & R).
  - right. right. left. reflexivity.
  - reflexivity.
  - cbn. lia.
  - rewrite Em in I. destruct I as [<-|[]]. vm_compute in R. discriminate.
Qed.
Print Assumptions C121_all_files_refuted.
(** "The frames come in the order of their numbers": no, in the order of the names. *)
Theorem C121_numbers_refuted :
  ~ (forall names m s, session names = Some (Ok (m, s)) -> names = ["9.bin"; "10.bin"] ->
       exists c d r, m = c :: d :: r /\ read_from_file (Z.mul 255) (demo names) "9.bin" = Ok c).
Proof. intros H. destruct (H _ _ _ C121_ex eq_refl) as (c & d & r & E & R). injection E as <- _ _. vm_compute in R. discriminate. Qed.
Print Assumptions C121_numbers_refuted.
(** "All points of a file are read": no, at most 250000. *)
Theorem C121_all_points_refuted :
  ~ (forall (w : world Z) f d c, content w f = Some d -> read_from_file (Z.mul 255) w f = Ok c -> length c = length d / 4).
Proof.
  intros H. set (d := repeat 0%Z (4 * Z.to_nat 250001)).
  set (w := mkWorld Z (fun _ => true) (fun _ => true) (fun _ => []) (fun _ => Some d)). assert (C : content w "a" = Some d) by reflexivity.
  destruct (C121_points (Z.mul 255) w "a" d C) as (c & R & L & _). assert (X := H w "a" d c C R). clear R C w. rewrite L in X. unfold d in X. rewrite repeat_length in X.
  apply (f_equal Z.of_nat) in X. rewrite !Nat2Z.inj_div, Nat2Z.inj_min, Nat2Z.inj_mul, !Z2Nat.id in X by lia. cbn in X. discriminate.
Qed.
Print Assumptions C121_all_points_refuted.
