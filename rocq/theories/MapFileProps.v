(** C104 and C105: what the map file keeps. *)
From Coq Require Import ZArith List Bool String Ascii SpecFloat Lia.
From Verif Require Import Outcome IdsModel FilesModel ConfigModel MapFileModel MapFileProofs.
Import ListNotations.
Local Open Scope string_scope.
Local Open Scope list_scope.

(** The connections of a submap are read back as written. *)
Theorem C104_connections : forall l,
  Forall (fun i => (- 2 ^ 31 <= s_traj i < 2 ^ 31)%Z /\ (- 2 ^ 31 <= s_index i < 2 ^ 31)%Z) l ->
  read_connections (write_connections l) = Ok l.
Proof. exact connections_round_trip. Qed.
Print Assumptions C104_connections.
Example C104_connections_case :
  write_connections [mkSid 0 63; mkSid 12 (-4)] = "[0,63][12,-4]" /\
  read_connections "[0,63][12,-4]" = Ok [mkSid 0 63; mkSid 12 (-4)] /\
  read_connections "" = Ok [].
Proof. repeat split. Qed.

(** Every submap is read back with its index, pose, connections and file name, in the trajectory at the same
    place; a file that is missing aborts.  The numbers must survive as text, and tx, ty must not be -0. *)
Theorem C104_map_round_trip : forall show read_double int_of exists_ disk update file ts,
  (forall t s, In t ts -> In s (t_submaps t) ->
     (forall x, In x [tx (u_pose s); ty (u_pose s); tz (u_pose s); rx (u_pose s); ry (u_pose s); rz (u_pose s)] ->
        read_double (show x) = x) /\
     tx (u_pose s) <> S754_zero true /\ ty (u_pose s) <> S754_zero true /\
     int_of (to_string (s_index (u_id s))) = s_index (u_id s) /\
     forall i, In i (u_connected s) ->
       (- 2 ^ 31 <= s_traj i < 2 ^ 31)%Z /\ (- 2 ^ 31 <= s_index i < 2 ^ 31)%Z) ->
  let present := forall t s, In t ts -> In s (t_submaps t) ->
    exists_ (file_path file ++ (if u_disk s then u_name s else ""))%string = true /\ exists_ (file_path file) = true in
  let result := load_map read_double int_of exists_ disk update file [] (zero, zero) (Some (write_map show ts)) in
  (present ->
   exists ts', result = Ok (Some (ts', (zero, zero))) /\ List.length ts' = List.length ts /\
     forall k t, nth_error ts k = Some t ->
     exists t', nth_error ts' k = Some t' /\ t_id t' = Z.of_nat k /\
       Forall2 (fun s s' => u_id s' = mkSid (Z.of_nat k) (s_index (u_id s)) /\ u_pose s' = u_pose s /\
                            u_connected s' = u_connected s /\ u_name s' = (if u_disk s then u_name s else ""))
               (t_submaps t) (t_submaps t')) /\
  (~ present -> result = Abort).
Proof.
  intros show read_double int_of exists_ disk update file ts H present result.
  assert (Forall (fun t => Forall (sub_ok show read_double int_of) (t_submaps t)) ts) as K.
  { apply Forall_forall. intros t T. apply Forall_forall. intros s S.
    destruct (H t s T S) as [A [B [C [D E]]]]. split; [|split]; auto.
    - split; [|split]; auto. apply Forall_forall. exact A.
    - apply Forall_forall. exact E. }
  unfold result. rewrite load_map_spec by exact K.
  assert (forallb (fun t => files_ok exists_ (file_path file) (t_submaps t)) ts = true <-> present) as P.
  { rewrite forallb_forall. unfold files_ok, saved_name. split.
    - intros F t s T S. specialize (F t T). rewrite forallb_forall in F. apply andb_prop. auto.
    - intros F t T. apply forallb_forall. intros s S. apply andb_true_intro. apply F with t; auto. }
  split.
  - intros A. apply P in A. rewrite A. eexists. split; [reflexivity|]. cbn [app List.length].
    split; [apply loaded_all_length|]. intros k t N. rewrite (loaded_all_nth disk ts 0 k t N). cbn [Nat.add].
    eexists. split; [reflexivity|]. split; [reflexivity|]. cbn [t_submaps].
    induction (t_submaps t); cbn [map]; constructor; cbn; auto.
  - intros A. destruct (forallb _ ts); auto. exfalso. apply A, P. auto.
Qed.
Print Assumptions C104_map_round_trip.

(** With the numbers 0 and 1 as the only ones. *)
Definition one : double := S754_finite false 4503599627370496 (-52).
Definition show01 (x : double) : string := match x with S754_finite _ _ _ => "1" | _ => "0" end.
Definition read01 (s : string) : double := if String.eqb s "1" then one else zero.
Definition sub0 : sub := mkSubmap (mkSid 5 0) true "a.bin" (mkPose one zero zero zero zero one) [mkSid 0 1].
Definition sub1 : sub := mkSubmap (mkSid 5 1) true "b.bin" (mkPose one one zero zero zero one) [mkSid 0 0; mkSid 1 7].
Definition map_a : list traj := [mkTraj 5 zero zero [sub0; sub1]].
Example C104_case :
  (forall t s, In t map_a -> In s (t_submaps t) ->
     (forall x, In x [tx (u_pose s); ty (u_pose s); tz (u_pose s); rx (u_pose s); ry (u_pose s); rz (u_pose s)] ->
        read01 (show01 x) = x) /\
     tx (u_pose s) <> S754_zero true /\ ty (u_pose s) <> S754_zero true /\
     number (to_string (s_index (u_id s))) = s_index (u_id s) /\
     forall i, In i (u_connected s) ->
       (- 2 ^ 31 <= s_traj i < 2 ^ 31)%Z /\ (- 2 ^ 31 <= s_index i < 2 ^ 31)%Z) /\
  load_map read01 number (fun s => existsb (String.eqb s) ["pkg/a.bin"; "pkg/b.bin"; "pkg/"]) true true "pkg/map.xml" []
    (zero, zero) (Some (write_map show01 map_a))
  = Ok (Some ([mkTraj 0 zero zero
                 [mkSubmap (mkSid 0 0) true "a.bin" (mkPose one zero zero zero zero one) [mkSid 0 1];
                  mkSubmap (mkSid 0 1) true "b.bin" (mkPose one one zero zero zero one) [mkSid 0 0; mkSid 1 7]]],
              (zero, zero))) /\
  load_map read01 number (fun s => existsb (String.eqb s) ["pkg/a.bin"; "pkg/"]) true true "pkg/map.xml" []
    (zero, zero) (Some (write_map show01 map_a)) = Abort.
Proof.
  split; [|split; reflexivity].
  intros t s [<-|[]] [<-|[<-|[]]]; cbn -[Z.pow]; (split; [intuition (subst; auto)|]);
    (split; [discriminate|]); (split; [discriminate|]); (split; [reflexivity|]); intros i [<-|H];
    try (destruct H as [<-|[]]); try contradiction; cbn; lia.
Qed.

(** The index of the trajectory is not the one written. *)
Theorem C104_trajectory_id_refuted : exists show read_double int_of exists_ ts ts' base,
  load_map read_double int_of exists_ true true "pkg/map.xml" [] (zero, zero) (Some (write_map show ts)) = Ok (Some (ts', base)) /\
  map t_id ts = [5%Z] /\ map t_id ts' = [0%Z].
Proof.
  exists show01, read01, number, (fun _ => true), map_a. do 2 eexists.
  split; [reflexivity|]. split; reflexivity.
Qed.
Print Assumptions C104_trajectory_id_refuted.

(** The offset of a trajectory is written as enu_x, enu_y and read as utm_x, utm_y: whatever it was, the map
    is read as if it were 0. *)
Theorem C105_offset_lost : forall show read_double int_of exists_ disk update file ts x y,
  let moved := map (fun t => mkTraj (t_id t) (x t) (y t) (t_submaps t)) ts in
  forall old base,
  load_map read_double int_of exists_ disk update file old base (Some (write_map show moved)) =
  load_map read_double int_of exists_ disk update file old base (Some (write_map show ts)).
Proof.
  intros show read_double int_of exists_ disk update file ts x y moved old base.
  unfold load_map, write_map. cbn [List.filter n_name]. rewrite String.eqb_refl. cbn [hd_error].
  rewrite !children_map by reflexivity. unfold moved. clear moved. f_equal.
  revert old base. induction ts as [|t ts IH]; intros old base; auto. cbn [map read_trajs].
  change (children (traj_node show (mkTraj (t_id t) (x t) (y t) (t_submaps t))) "Submap")
    with (children (traj_node show t) "Submap").
  change (attr_double read_double (traj_node show (mkTraj (t_id t) (x t) (y t) (t_submaps t))) "utm_x")
    with (attr_double read_double (traj_node show t) "utm_x").
  change (attr_double read_double (traj_node show (mkTraj (t_id t) (x t) (y t) (t_submaps t))) "utm_y")
    with (attr_double read_double (traj_node show t) "utm_y").
  destruct (read_submaps _ _ _ _ _ _ _ _ _); cbn [bind]; auto.
Qed.
Print Assumptions C105_offset_lost.
(** Two maps whose submaps lie 1 m apart are read on top of each other. *)
Theorem C105_offset_kept_refuted : exists show read_double int_of exists_ t1 t2 ts' base,
  add (t_x t1) (tx (u_pose sub0)) <> add (t_x t2) (tx (u_pose sub0)) /\
  t_submaps t1 = [sub0] /\ t_submaps t2 = [sub0] /\
  (forall x, In x [zero; one] -> read_double (show x) = x) /\
  load_map read_double int_of exists_ true true "pkg/map.xml" [] (zero, zero) (Some (write_map show [t1; t2])) =
    Ok (Some (ts', base)) /\
  map (fun t => map u_pose (t_submaps t)) ts' = [[u_pose sub0]; [u_pose sub0]].
Proof.
  exists show01, read01, number, (fun _ => true), (mkTraj 0 zero zero [sub0]), (mkTraj 1 one zero [sub0]).
  do 2 eexists. split; [discriminate|]. split; [reflexivity|]. split; [reflexivity|].
  split; [intros x [<-|[<-|[]]]; reflexivity|]. split; reflexivity.
Qed.
Print Assumptions C105_offset_kept_refuted.

(** In a file that has utm_x and utm_y, the submaps are placed relative to the first trajectory. *)
Theorem C105_utm_offset : forall show read_double int_of exists_ disk file t0 ts base,
  let doc := [Node "Map" [] ""
    (map (fun t => Node "Trajectory" [("id", to_string (t_id t)); ("utm_x", show (t_x t)); ("utm_y", show (t_y t))] ""
                     (map (submap_node show) (t_submaps t))) (t0 :: ts))] in
  (forall f, exists_ f = true) ->
  (forall t, In t (t0 :: ts) -> read_double (show (t_x t)) = t_x t /\ read_double (show (t_y t)) = t_y t /\
   forall s, In s (t_submaps t) ->
     (forall x, In x [tx (u_pose s); ty (u_pose s); tz (u_pose s); rx (u_pose s); ry (u_pose s); rz (u_pose s)] ->
        read_double (show x) = x) /\
     int_of (to_string (s_index (u_id s))) = s_index (u_id s) /\
     forall i, In i (u_connected s) ->
       (- 2 ^ 31 <= s_traj i < 2 ^ 31)%Z /\ (- 2 ^ 31 <= s_index i < 2 ^ 31)%Z) ->
  exists ts', load_map read_double int_of exists_ disk true file [] base (Some doc) = Ok (Some (ts', (t_x t0, t_y t0))) /\
  forall k t, nth_error (t0 :: ts) k = Some t ->
  exists t', nth_error ts' k = Some t' /\
    map u_pose (t_submaps t') =
    map (fun s => let p := u_pose s in
                  mkPose (SFadd 53 1024 (tx p) (SFsub 53 1024 (t_x t) (t_x t0)))
                         (SFadd 53 1024 (ty p) (SFsub 53 1024 (t_y t) (t_y t0))) (tz p) (rx p) (ry p) (rz p))
        (t_submaps t).
Proof.
  intros show read_double int_of exists_ disk file t0 ts base doc E H.
  exists (loaded_utm disk 0 (t_x t0) (t_y t0) (t0 :: ts)). split.
  - unfold load_map, doc. cbn [List.filter n_name]. rewrite String.eqb_refl. cbn [hd_error].
    rewrite children_map by reflexivity. fold (utm_node show).
    change (map _ (t0 :: ts)) with (map (utm_node show) (t0 :: ts)).
    rewrite read_utm_first; [reflexivity|]. apply Forall_forall. intros t T. destruct (H t T) as [X [Y C]].
    split; [|split]; auto.
    apply Forall_forall. intros s S. destruct (C s S) as [P [I K]]. split; [|auto]. split; [|split]; auto.
    + apply Forall_forall. exact P.
    + apply Forall_forall. exact K.
  - intros k t N. rewrite (loaded_utm_nth _ _ _ _ 0 k t N). eexists. split; [reflexivity|].
    cbn [t_submaps]. rewrite map_map. reflexivity.
Qed.
Print Assumptions C105_utm_offset.
Example C105_utm_offset_case :
  let t0 := mkTraj 0 one zero [sub0] in let t1 := mkTraj 1 zero zero [sub1] in
  (forall t, In t [t0; t1] -> read01 (show01 (t_x t)) = t_x t /\ read01 (show01 (t_y t)) = t_y t /\
   forall s, In s (t_submaps t) ->
     (forall x, In x [tx (u_pose s); ty (u_pose s); tz (u_pose s); rx (u_pose s); ry (u_pose s); rz (u_pose s)] ->
        read01 (show01 x) = x) /\
     number (to_string (s_index (u_id s))) = s_index (u_id s) /\
     forall i, In i (u_connected s) ->
       (- 2 ^ 31 <= s_traj i < 2 ^ 31)%Z /\ (- 2 ^ 31 <= s_index i < 2 ^ 31)%Z) /\
  mkPose (SFadd 53 1024 (tx (u_pose sub1)) (SFsub 53 1024 (t_x t1) (t_x t0)))
         (SFadd 53 1024 (ty (u_pose sub1)) (SFsub 53 1024 (t_y t1) (t_y t0))) zero zero zero one =
  mkPose zero one zero zero zero one.
Proof.
  split; [|reflexivity]. intros t [<-|[<-|[]]]; (split; [reflexivity|]); (split; [reflexivity|]);
    intros s [<-|[]]; (split; [cbn; intuition (subst; auto)|]); (split; [reflexivity|]); intros i H;
    repeat (destruct H as [<-|H]; [cbn; lia|]); destruct H.
Qed.

(** A token is rejected only if a comma stands before its first bracket. *)
Theorem C105_rejected_tokens : forall s,
  read_token s = Abort <-> exists a b r, s = (a ++ "," ++ b ++ "[" ++ r)%string /\
                                         (forall u v, a ++ "," ++ b <> u ++ "[" ++ v)%string.
Proof.
  intros s. rewrite read_token_abort.
  assert (W : forall c (a : string), without c a <-> (forall u v, a <> u ++ String c v)%string).
  { intros c. induction a as [|d a IH]; cbn; split; intros H; auto.
    - intros [|e u] v; discriminate.
    - destruct H as [H1 H2]. intros [|e u] v K; cbn in K; inversion K; subst; [congruence|].
      exact (proj1 IH H2 u v eq_refl).
    - split; [intros ->; exact (H "" a eq_refl)|]. apply IH. intros u v ->. exact (H (String d u) v eq_refl). }
  assert (Sp : forall a b r t : string, (a ++ r = b ++ t)%string -> String.length a <= String.length b ->
             exists m, b = (a ++ m)%string /\ r = (m ++ t)%string).
  { induction a as [|c a IH]; intros b r t K L; [exists b; auto|].
    destruct b as [|d b]; cbn in L; [lia|]. cbn in K. inversion K as [[E K']]; subst.
    destruct (IH b r t K') as [m [-> ->]]; [lia|]. exists m. auto. }
  split.
  - intros [i [c [F [C L]]]]. apply find_some in F. apply find_some in C.
    destruct F as [a [r [E1 [W1 L1]]]], C as [a' [r' [E2 [W2 L2]]]].
    assert (E : (a' ++ String "," r' = a ++ String "[" r)%string) by congruence.
    destruct (Sp a' a _ _ E) as [m [-> M]]; [lia|].
    destruct m as [|d m]; cbn in M; inversion M; subst.
    exists a', m, r. split; [rewrite E2; reflexivity|]. apply W. exact W1.
  - intros [a [b [r [-> N]]]].
    assert (F : find_char "[" (a ++ "," ++ b ++ "[" ++ r)%string = Some (String.length (a ++ "," ++ b)%string)).
    { apply find_some. exists (a ++ "," ++ b)%string, r. split; [rewrite !app_assoc_str; reflexivity|].
      split; auto. apply W. exact N. }
    destruct (find_char "," (a ++ "," ++ b ++ "[" ++ r)%string) as [c|] eqn:C.
    + exists (String.length (a ++ "," ++ b)%string), c. repeat split; auto.
      apply find_some in C. destruct C as [a' [r' [E [W' <-]]]].
      destruct (Nat.le_gt_cases (String.length a') (String.length a)).
      * clear - H. revert a' H. induction a; intros [|d a'] H; cbn in *; try lia. specialize (IHa a'). lia.
      * exfalso. symmetry in E. destruct (Sp a a' ("," ++ b ++ "[" ++ r)%string (String "," r')) as [m [-> M]]; [congruence|lia|].
        destruct m as [|d m]; [rewrite app_nil_s in H; lia|]. cbn in M. inversion M; subst.
        exact (proj1 (W ","%char _) W' a m eq_refl).
    + exfalso. apply find_none in C. apply C. exists a, (b ++ "[" ++ r)%string. auto.
Qed.
Print Assumptions C105_rejected_tokens.
Example C105_rejected_tokens_case :
  read_connections "[0,1]4,[5]" = Abort /\ read_token "4,[5" = Abort /\ read_token "[4,5" = Ok (mkSid 4 5).
Proof. repeat split. Qed.

(** Tokens without a comma are not rejected: "[t]" is read as (t, 0) and "t" as (t, t). *)
Theorem C105_malformed_accepted : forall t, (- 2 ^ 31 <= t < 2 ^ 31)%Z ->
  read_connections ("[" ++ to_string t ++ "]") = Ok [mkSid t 0] /\
  read_connections (to_string t ++ "]") = Ok [mkSid t t].
Proof.
  intros t T. unfold read_connections, split_at.
  assert (N : forall c, (c = "[" \/ c = ",")%char -> find_char c (to_string t) = None).
  { intros c C. pose proof (plain_to_string t) as P. induction (to_string t) as [|d s IH]; auto.
    destruct P as [[_ [P1 P2]] P]. cbn [find_char].
    destruct (Ascii.eqb_spec d c) as [->|]; [destruct C; congruence|]. rewrite IH; auto. }
  split.
  - pose proof (split_from_spec (String "[" (to_string t)) "" "") as K. cbn [append] in K |- *.
    rewrite K by (cbn; split; [discriminate|apply plain_open, plain_to_string]).
    cbn [split_from read_tokens]. unfold read_token. cbn [find_char]. rewrite Ascii.eqb_refl.
    change (Ascii.eqb "[" ",") with false. cbv iota. rewrite N by auto. cbn [option_map check bind].
    rewrite drop_1, atoi_to_string by exact T. reflexivity.
  - pose proof (split_from_spec (to_string t) "" "") as K. cbn [append] in K.
    rewrite K by (apply plain_open, plain_to_string).
    cbn [split_from read_tokens]. unfold read_token. rewrite !N by auto. cbn [check bind].
    replace (drop 0 (to_string t)) with (to_string t) by (destruct (to_string t); auto).
    rewrite atoi_to_string by exact T. reflexivity.
Qed.
Print Assumptions C105_malformed_accepted.
Example C105_malformed_accepted_case : read_connections "[12][0,3]" = Ok [mkSid 12 0; mkSid 0 3].
Proof. reflexivity. Qed.
