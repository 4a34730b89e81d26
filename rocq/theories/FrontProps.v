(** Properties C41, C80: key frames. *)
From Coq Require Import List Bool ZArith SpecFloat Lia.
From Verif Require Import Outcome Pose FrontModel FrontSpec FrontProofs.
Import ListNotations.

Section Props.
Variable G : group.
Variable cloud : Type.
Variable time : cloud -> Z.
Variable calc_ok : cloud -> bool.
Variable mt : cloud -> cloud -> G.
Variables tnorm tang : G -> spec_float.
Variables tr ar : spec_float.
Variables fast ext : bool.
Variable t0 : option Z.
Notation process := (process G cloud time calc_ok mt tnorm tang tr ar fast ext).
Notation process_all := (process_all G cloud time calc_ok mt tnorm tang tr ar fast ext).
Notation significant := (significant G tnorm tang tr ar).
Notation well_cut := (well_cut G cloud mt tnorm tang tr ar).
Notation fe0 := (fe0 G cloud t0).

(** The key frames of clouds that arrive in order: the first cloud with the identity pose;
    then in each segment the first cloud whose motion relative to the last key frame is
    significant, with the pose of the last key frame composed with that motion. *)
Theorem C41_key_frames : forall c l s, process_all fe0 (c :: l) = Ok s -> (ext = true -> in_order cloud time (c :: l)) ->
  exists segs rest, l = joined cloud segs rest /\ well_cut c segs rest /\
    map fst (kfs s) = c :: map snd segs /\ hd_error (map snd (kfs s)) = Some gone /\ chained G cloud mt (kfs s).
Proof.
  intros c l s H Ho. cbn [FrontModel.process_all] in H. unfold FrontModel.process in H at 1. cbn [target FrontModel.fe0 bind] in H.
  apply run_from in H.
  - destruct H as (segs & rest & ps & A1 & A2 & A3 & A4 & A5). exists segs, rest. split; [exact A1|]. split; [exact A2|].
    rewrite A3. cbn [app map fst snd hd_error]. split; [|split; [reflexivity|exact A5]]. f_equal.
    clear - A4. revert ps A4. induction segs as [|x segs IH]; intros [|p ps] E; try discriminate; [reflexivity|].
    cbn. f_equal. apply IH. cbn in E. lia.
  - intros E. specialize (Ho E). rewrite E. split.
    + intros i j x y L A B. apply (Ho (S i) (S j) x y); [lia|exact A|exact B].
    + intros x Hx. cbn. apply Z.ltb_ge. apply In_nth_error in Hx. destruct Hx as [j Hj].
      apply (Ho 0 (S j) c x); [lia|reflexivity|exact Hj].
Qed.

(** The cut is unique, so C41_key_frames determines the key frames. *)
Theorem C41_cut_unique : forall k l s1 r1 s2 r2, l = joined cloud s1 r1 -> l = joined cloud s2 r2 ->
  well_cut k s1 r1 -> well_cut k s2 r2 -> s1 = s2 /\ r1 = r2.
Proof.
  intros k l s1. revert k l. induction s1 as [|[g k1] s1 IH]; intros k l r1 s2 r2 E1 E2 W1 W2.
  - destruct s2 as [|[g2 k2] s2]; [split; [reflexivity|]; cbn in *; congruence|]. exfalso.
    cbn in *. subst r1. destruct W2 as (_ & W2 & _). apply (W1 k2); [|exact W2]. rewrite E2, !in_app_iff. cbn. tauto.
  - destruct s2 as [|[g2 k2] s2].
    + exfalso. cbn in *. subst r2. destruct W1 as (_ & W1 & _). apply (W2 k1); [|exact W1]. rewrite E1, !in_app_iff. cbn. tauto.
    + cbn in *. destruct W1 as (A1 & B1 & W1), W2 as (A2 & B2 & W2). rewrite E1 in E2. rewrite <- !app_assoc in E2. cbn in E2.
      change (flat_map (fun s => fst s ++ [snd s]) s1 ++ r1) with (joined cloud s1 r1) in E2.
      change (flat_map (fun s => fst s ++ [snd s]) s2 ++ r2) with (joined cloud s2 r2) in E2.
      assert (g = g2 /\ k1 = k2 /\ joined cloud s1 r1 = joined cloud s2 r2) as (-> & -> & Ej).
      { clear - A1 A2 B1 B2 E2. revert g2 A2 E2. induction g as [|x g IH]; intros [|y g2] A2 E2; cbn in E2.
        - injection E2 as -> E2. auto.
        - injection E2 as <- E2. exfalso. apply (A2 k1); [left; reflexivity|exact B1].
        - injection E2 as -> E2. exfalso. apply (A1 k2); [left; reflexivity|exact B2].
        - injection E2 as -> E2. destruct (IH (fun c H => A1 c (or_intror H)) g2 (fun c H => A2 c (or_intror H)) E2) as (-> & -> & E).
          auto. }
      destruct (IH k2 _ r1 s2 r2 eq_refl Ej W1 W2) as [-> ->]. auto.
Qed.

(** Clouds in order never stop the front end, provided normals can be computed. *)
Theorem C41_total : forall c l, (fast = true -> forall x, In x (c :: l) -> calc_ok x = true) ->
  (ext = true -> in_order cloud time (c :: l)) -> exists s, process_all fe0 (c :: l) = Ok s.
Proof.
  intros c l Hf Ho. cbn [FrontModel.process_all]. unfold FrontModel.process at 1. cbn [target FrontModel.fe0 bind].
  apply run_ok.
  - intros E. split; [rewrite E; cbn; apply Hf; [exact E|left; reflexivity]|intros; apply Hf; [exact E|right; assumption]].
  - intros E. specialize (Ho E). rewrite E. split.
    + intros i j x y L A B. apply (Ho (S i) (S j) x y); [lia|exact A|exact B].
    + intros x Hx. cbn. apply Z.ltb_ge. apply In_nth_error in Hx. destruct Hx as [j Hj].
      apply (Ho 0 (S j) c x); [lia|reflexivity|exact Hj].
Qed.

(** A motion that is not a number never makes a key frame. *)
Theorem C41_nan : forall a, tnorm a = S754_nan -> tang a = S754_nan -> ~ significant a.
Proof. intros a H1 H2. unfold FrontSpec.significant, at_least. rewrite H1, H2. cbn. tauto. Qed.

(** A cloud older than the last pose becomes the target although the reference pose stays
    that of the last key frame: with fast ICP the next match aborts ... *)
Theorem C80_late_cloud_aborts : forall s b x c, ext = true -> fast = true -> target s = Some x -> lp s = Some b ->
  (time c < b)%Z -> exists s', process s c = Ok s' /\ kfs s' = kfs s /\
  forall d, (b <= time d)%Z -> process s' d = Abort.
Proof.
  intros s b [t nrm] c E F T L Hc. unfold FrontModel.process. rewrite T, L, E. cbn [andb before].
  replace (time c <? b)%Z with true by (symmetry; apply Z.ltb_lt; exact Hc). eexists. split; [reflexivity|]. split; [reflexivity|].
  intros d Hd. cbn [target lp before]. replace (time d <? b)%Z with false by (symmetry; apply Z.ltb_ge; exact Hd). rewrite F. reflexivity.
Qed.
(** ... and with another matcher the next significant cloud is placed as if the late cloud
    had been at the pose of the last key frame. *)
Theorem C80_late_cloud_wrong_base : forall s b x c d, ext = true -> fast = false -> target s = Some x -> lp s = Some b ->
  (time c < b <= time d)%Z -> significant (mt c d) -> exists s' s'', process s c = Ok s' /\ process s' d = Ok s'' /\
  kfs s'' = kfs s ++ [(d, gmul (base s) (mt c d))].
Proof.
  intros s b [t nrm] c d E F T L Hc Sg. unfold FrontModel.process. rewrite T, L, E. cbn [andb before].
  replace (time c <? b)%Z with true by (symmetry; apply Z.ltb_lt; lia). eexists. eexists. split; [reflexivity|].
  cbn [target lp before]. replace (time d <? b)%Z with false by (symmetry; apply Z.ltb_ge; lia). rewrite F. cbn [negb orb check bind].
  apply key_sig in Sg. rewrite Sg. split; reflexivity.
Qed.
(** InsertPointcloudMsg drops exactly the clouds stamped before the last pose of the
    extrapolator at that moment, and queues the others behind the waiting ones. *)
Theorem C80_admission : forall s c, exists s', fstep G cloud time calc_ok mt tnorm tang tr ar fast ext s (Insert c) = Ok s' /\
  front s' = front s /\
  (queue s' = queue s ++ [c] <-> ~ (ext = true /\ exists b, lp (front s) = Some b /\ (time c < b)%Z)) /\
  (queue s' = queue s \/ queue s' = queue s ++ [c]).
Proof.
  intros s c. cbn [FrontModel.fstep]. eexists. split; [reflexivity|].
  assert (queue s <> queue s ++ [c]) as Hne.
  { intros E. apply (f_equal (@length _)) in E. rewrite app_length in E. cbn in E. lia. }
  destruct ext; cbn [andb]; [|cbn; split; [reflexivity|]; split; [|auto]; split; [intros _ (X & _); discriminate|reflexivity]].
  destruct (lp (front s)) as [b|]; cbn [before].
  - destruct (Z.ltb_spec (time c) b) as [L|L]; cbn; (split; [reflexivity|]); (split; [|auto]).
    + split; [congruence|]. intros X. destruct X. split; [reflexivity|]. exists b. auto.
    + split; [|reflexivity]. intros _ (_ & b' & E & L'). injection E as <-. lia.
  - cbn. split; [reflexivity|]. split; [|auto]. split; [|reflexivity]. intros _ (_ & b' & E & _). discriminate.
Qed.
End Props.

(** ** Concrete cases: positions on a line, distance as a float *)
Definition fl (z : Z) : spec_float := binary_normalize 24 128 z 0 false.
Definition ex_norm (a : Zgroup) : spec_float := fl (Z.abs a).
Definition ex_ang (a : Zgroup) : spec_float := S754_zero false.
(** clouds: (position, time) *)
Definition ex_mt (a b : Z * Z) : Zgroup := (fst b - fst a)%Z.
Definition ex_all := process_all Zgroup (Z * Z) snd (fun _ => true) ex_mt ex_norm ex_ang (fl 3) (fl 1) true true (fe0 Zgroup (Z * Z) None).
Example C41_example : exists s, ex_all [(0, 0); (1, 1); (2, 2); (3, 3); (4, 4); (7, 5); (8, 6)]%Z = Ok s /\
  kfs s = [((0, 0), 0); ((3, 3), 3); ((7, 5), 7)]%Z.
Proof. eexists. split; vm_compute; reflexivity. Qed.
(** The cloud stamped 5 passes the admission check because the one stamped 10 is still
    queued; the front end then aborts at the next cloud. *)
Example C80_late_cloud_admitted : frun Zgroup (Z * Z) snd (fun _ => true) ex_mt ex_norm ex_ang (fl 3) (fl 1) true true
  (mkFq [] (fe0 Zgroup (Z * Z) None))
  [Insert (0, 0); Process; Insert (1, 10); Insert (2, 5); Process; Process; Insert (3, 11); Process]%Z = Abort.
Proof. vm_compute. reflexivity. Qed.
Example C80_wrong_base_example : exists s, process_all Zgroup (Z * Z) snd (fun _ => true) ex_mt ex_norm ex_ang (fl 3) (fl 1) false true
  (fe0 Zgroup (Z * Z) None) [(0, 0); (2, 10); (1, 5); (5, 11)]%Z = Ok s /\ kfs s = [((0, 0), 0); ((5, 11), 4)]%Z.
Proof. eexists. split; vm_compute; reflexivity. Qed.

Print Assumptions C41_key_frames.
Print Assumptions C41_cut_unique.
Print Assumptions C41_total.
Print Assumptions C41_nan.
Print Assumptions C80_late_cloud_aborts.
Print Assumptions C80_admission.
Print Assumptions C80_late_cloud_wrong_base.
