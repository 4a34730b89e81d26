(** Model of the front end: MapBuilder::ScanMatchProcessing, builder/map_builder.cc:260-397,
    as a sequential function of the clouds it receives, and the admission check of
    InsertPointcloudMsg, builder/map_builder.cc:156-169.

    - Poses are elements of a group (Pose.v); NormalizeRotation is the identity.
    - Registration (Align, 330-333, with the motion compensation and averaging around it,
      316-352) is an arbitrary function [mt target source]; a cloud is a source once, so this
      covers any dependence on the guess and on the matcher's state.
    - Of the extrapolator only the time of the last pose is modelled; its own failures are the
      subject of ExtrapModel.v.
    - Of the clouds only the time and the success of CalculateNormals matter. *)
From Coq Require Import List Bool ZArith SpecFloat.
From Verif Require Import Outcome Pose.
Import ListNotations.
Local Open Scope outcome_scope.

Section Front.
Variable G : group.
Variable cloud : Type.
Variable time : cloud -> Z.
(** CalculateNormals leaves at least one normal (EigenPointCloud::HasNormals,
    builder/data/cloud_types.cc:304). *)
Variable calc_ok : cloud -> bool.
Variable mt : cloud -> cloud -> G.
(** 370-376: accu_translation and accu_angles of a relative motion, as floats. *)
Variables tnorm tang : G -> spec_float.
(** motion_filter options, builder/map_builder.h:79-82, floats. *)
Variables translation_range angle_range : spec_float.
(** scan_matcher_->GetType() == kFastIcp; extrapolator_ != nullptr. *)
Variables fast ext : bool.

(** 378-382.  [angle_range > 1e-3] compares a float with the double 1e-3; the smallest float
    above it is 0x3a83126f = 8589935 * 2^-33. *)
Definition milli : spec_float := S754_finite false 8589935 (-33).
Definition key_motion (a : G) : bool :=
  SFleb translation_range (tnorm a) ||
  (SFleb milli angle_range && SFleb angle_range (tang a)).

(** Local variables of ScanMatchProcessing; [target]: the cloud and whether it has normals,
    None before the first cloud (got_first_point_cloud_ false); [lp]: GetLastPoseTime. *)
Record fe := mkFe { target : option (cloud * bool); base : G; lp : option Z; kfs : list (cloud * G) }.
Definition fe0 (t : option Z) : fe := mkFe None gone t [].
Definition before (t : Z) (l : option Z) : bool := match l with Some x => Z.ltb t x | None => false end.

Definition process (s : fe) (c : cloud) : outcome fe :=
  match target s with
  | None =>                                                                        (* 282-295 *)
      Ok (mkFe (Some (c, fast && calc_ok c)) (base s) (if ext then Some (time c) else lp s) [(c, gone)])
  | Some (t, nrm) =>
      if ext && before (time c) (lp s)
      then Ok (mkFe (Some (c, false)) (base s) (lp s) (kfs s))                     (* 298-302 *)
      else
        let* _ := check (negb fast || nrm) in                    (* 319; icp_fast.cc:430 *)
        let p := gmul (base s) (mt t c) in                                         (* 354 *)
        let lp' := if ext then Some (time c) else lp s in                          (* 357 *)
        if key_motion (mt t c)
        then Ok (mkFe (Some (c, fast && calc_ok c)) p lp' (kfs s ++ [(c, p)]))     (* 383-391 *)
        else Ok (mkFe (Some (t, nrm)) (base s) lp' (kfs s))
  end.
Fixpoint process_all (s : fe) (l : list cloud) : outcome fe :=
  match l with [] => Ok s | c :: r => let* s' := process s c in process_all s' r end.

(** InsertPointcloudMsg and the preprocessing pipeline as a queue: a call may find the front
    end behind. *)
Record fq := mkFq { queue : list cloud; front : fe }.
Inductive ev := Insert (c : cloud) | Process.
Definition fstep (s : fq) (e : ev) : outcome fq :=
  match e with
  | Insert c => Ok (if ext && before (time c) (lp (front s)) then s               (* 160-164 *)
                    else mkFq (queue s ++ [c]) (front s))
  | Process => match queue s with
               | [] => Ok s
               | c :: q => let* f := process (front s) c in Ok (mkFq q f)
               end
  end.
Fixpoint frun (s : fq) (l : list ev) : outcome fq :=
  match l with [] => Ok s | e :: r => let* s' := fstep s e in frun s' r end.
End Front.
Arguments mkFe {G cloud}. Arguments target {G cloud}. Arguments base {G cloud}. Arguments lp {G cloud}. Arguments kfs {G cloud}.
Arguments queue {G cloud}. Arguments front {G cloud}. Arguments mkFq {G cloud}. Arguments Insert {cloud}. Arguments Process {cloud}.
