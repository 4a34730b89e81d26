(** C137: the conversion of a map to a LAS file and the sampler of clouds. *)
From Coq Require Import ZArith String List Bool SpecFloat Lia QArith Qabs Lqa.
From Verif Require Import Outcome FilterModel FilterSpec CloudFileModel ToolModel ToolProofs.
Import ListNotations.
Local Open Scope Z_scope.

(** ** pcd_to_las *)
(** Every point of the cloud is converted, in order: its coordinates are the numbers stored in the last
    field of that name, and 0 where there is no such field or its type is neither float nor double.
    Nothing else can happen unless a field of some point reaches behind the end of the data; then the
    behaviour is undefined. *)
Theorem C137_points : forall c, 0 <= height c * width c < 2 ^ 31 ->
  let n := Z.to_nat (height c * width c) in
  ((forall i f, (i < n)%nat -> In f (fields c) -> coordinate f -> fits (bytes c) (i * step c) f) ->
   exists ps, convert c = Ok ps /\ length ps = n /\
     forall i p, nth_error ps i = Some p ->
       l_x p = coord "x" (bytes c) (i * step c) (fields c) (S754_zero false) /\
       l_y p = coord "y" (bytes c) (i * step c) (fields c) (S754_zero false) /\
       l_z p = coord "z" (bytes c) (i * step c) (fields c) (S754_zero false)) /\
  ((exists i f, (i < n)%nat /\ In f (fields c) /\ coordinate f /\ ~ fits (bytes c) (i * step c) f) -> convert c = UB).
Proof.
  intros c H n. assert (E : point_size c = height c * width c).
  { unfold point_size. rewrite Z.mod_small; lia. }
  unfold convert. rewrite E. fold n. split.
  - intros F. rewrite las_points_ok by (intros; apply F; assumption). eexists. split; [reflexivity|]. split; [now rewrite map_length, seq_length|].
    intros i p Hp. rewrite nth_error_map in Hp. destruct (nth_error (seq 0 n) i) as [j|] eqn:Ej; [|discriminate]. cbn in Hp. injection Hp as <-.
    assert (L : (i < length (seq 0 n))%nat) by (apply nth_error_Some; congruence). rewrite seq_length in L.
    apply (nth_error_nth _ _ 0%nat) in Ej. rewrite seq_nth in Ej by assumption. subst j. cbn [row l_x l_y l_z]. rewrite !Nat.add_0_l. auto.
  - intros (i & f & F). apply las_points_ub. exists i, f. exact F.
Qed.
Print Assumptions C137_points.

(** A coordinate stored as float or double arrives unchanged, whatever number it is: reading the bytes
    of [x] gives [x], and making a double of a float keeps its value. *)
Theorem C137_exact : forall data off f x, length off = f_offset f ->
  (f_type f = 7 -> valid_binary 24 128 x = true ->
     exists y, (forall rest, stored (data ++ off ++ le 4 (encode 23 8 x) ++ rest) (length data) f = y) /\
       match value x, value y with Some v, Some w => (v == w)%Q | None, None => y = x | _, _ => False end) /\
  (f_type f = 8 -> valid_binary 53 1024 x = true ->
     forall rest, stored (data ++ off ++ le 8 (encode 52 11 x) ++ rest) (length data) f = x).
Proof.
  assert (Le : forall n z, length (le n z) = n) by (induction n; intros; cbn; auto).
  assert (Un : forall n z, 0 <= z < 256 ^ Z.of_nat n -> unle (le n z) = z).
  { induction n as [|n IH]; intros z Hz; [cbn in *; lia|]. cbn [le unle]. rewrite Nat2Z.inj_succ, Z.pow_succ_r in Hz by lia.
    rewrite IH by (split; [apply Z.div_pos; lia|apply Z.div_lt_upper_bound; lia]). pose proof (Z.div_mod z 256). lia. }
  intros data off f x Ho. split; intros T V.
  - exists (widen x). split; [|apply widen_value; assumption].
    intros rest. unfold stored. rewrite T. cbn [Z.eqb float32 Pos.eqb].
    rewrite app_assoc, <- Ho, <- app_length, skipn_app, skipn_all, Nat.sub_diag, skipn_O. cbn [app].
    rewrite firstn_app, Le, Nat.sub_diag, firstn_O, app_nil_r. rewrite firstn_all2 by (rewrite Le; lia).
    pose proof (encode_range 23 8 ltac:(lia) ltac:(lia) ltac:(cbn; lia) x V) as R. change (2 ^ (23 + 8 + 1)) with (256 ^ Z.of_nat 4) in R. rewrite Un by exact R.
    rewrite decode_encode; try lia; try assumption. reflexivity.
  - intros rest. unfold stored. rewrite T. cbn [Z.eqb float32 float64 Pos.eqb].
    rewrite app_assoc, <- Ho, <- app_length, skipn_app, skipn_all, Nat.sub_diag, skipn_O. cbn [app].
    rewrite firstn_app, Le, Nat.sub_diag, firstn_O, app_nil_r. rewrite firstn_all2 by (rewrite Le; lia).
    pose proof (encode_range 52 11 ltac:(lia) ltac:(lia) ltac:(cbn; lia) x V) as R. change (2 ^ (52 + 11 + 1)) with (256 ^ Z.of_nat 8) in R. rewrite Un by exact R.
    rewrite decode_encode; try lia; try assumption. reflexivity.
Qed.
Print Assumptions C137_exact.

(** The number of points is taken modulo 2^32 and as a signed number: a cloud of 2^31 to 2^32 - 1
    points gives an empty file, and "every point is converted" is false for larger clouds. *)
Theorem C137_too_many : forall c, 2 ^ 31 <= height c * width c < 2 ^ 32 -> convert c = Ok [].
Proof.
  intros c H. unfold convert, point_size. replace (height c * width c + 2 ^ 31) with (height c * width c - 2 ^ 31 + 1 * 2 ^ 32) by lia.
  rewrite Z.mod_add, Z.mod_small by lia. replace (Z.to_nat (height c * width c - 2 ^ 31 - 2 ^ 31)) with 0%nat by lia. reflexivity.
Qed.
Print Assumptions C137_too_many.
Theorem C137_all_points_refuted : ~ (forall c ps, 0 <= height c < 2 ^ 32 -> 0 <= width c < 2 ^ 32 -> convert c = Ok ps -> Z.of_nat (length ps) = height c * width c).
Proof.
  intros H. specialize (H (mkPcl2 65536 65536 [] 0 []) [] ltac:(cbn; lia) ltac:(cbn; lia) eq_refl). cbn in H. lia.
Qed.
Print Assumptions C137_all_points_refuted.

(** The program: the name of the file written, and the exit codes.  Whether the cloud could be read is not
    asked: a file that cannot be read leaves an empty cloud, and an empty file is written with
    exit code 0, in place of what the output file held before. *)
Theorem C137_program : forall load opens input output,
  let out := if String.eqb output "" then (input ++ ".las")%string else output in
  (input = ""%string -> pcd_to_las load opens input output = Ok (-1, None)) /\
  (input <> ""%string -> opens out = false -> pcd_to_las load opens input output = Ok (-1, None)) /\
  (forall ps, input <> ""%string -> opens out = true -> convert (snd (load input)) = Ok ps ->
     pcd_to_las load opens input output = Ok (0, Some (out, ps))) /\
  (forall code, input <> ""%string -> opens out = true -> load input = (code, no_pcl2) ->
     pcd_to_las load opens input output = Ok (0, Some (out, []))).
Proof.
  intros load opens input output out. unfold pcd_to_las. fold out.
  split; [intros ->; reflexivity|]. destruct (String.eqb_spec input "") as [E|E].
  - split; [contradiction|]. split; intros; contradiction.
  - split; [intros _ O; rewrite O; reflexivity|]. split.
    + intros ps _ O C. rewrite O, C. reflexivity.
    + intros code _ O L. rewrite O, L. reflexivity.
Qed.
Print Assumptions C137_program.

(** Two points x, y, z, intensity in floats of 16 bytes; y comes first, the intensity is not looked at. *)
Definition two_points : pcl2 :=
  mkPcl2 1 2 [mkField "y" 4 7; mkField "x" 0 7; mkField "z" 8 7; mkField "intensity" 12 7] 16
    (le 4 1065353216 ++ le 4 3221225472 ++ le 4 1056964608 ++ le 4 1 ++ le 4 0 ++ le 4 2143289344 ++ le 4 2139095040 ++ le 4 1).
Example C137_ex_points : convert two_points = Ok [
  mkLas (S754_finite false 4503599627370496 (-52)) (S754_finite true 4503599627370496 (-51)) (S754_finite false 4503599627370496 (-53));
  mkLas (S754_zero false) S754_nan (S754_infinity false)].
Proof. vm_compute. reflexivity. Qed.
Example C137_ex_points_hyps : 0 <= height two_points * width two_points < 2 ^ 31 /\
  forall i f, (i < 2)%nat -> In f (fields two_points) -> coordinate f -> fits (bytes two_points) (i * step two_points) f.
Proof.
  split; [cbn; lia|]. intros i f Hi I _. assert (L : length (bytes two_points) = 32%nat) by reflexivity. unfold fits. rewrite L.
  cbn [fields two_points] in I. right. destruct I as [<-|[<-|[<-|[<-|[]]]]]; cbn [size f_type f_offset float32 Z.eqb Pos.eqb step two_points]; lia.
Qed.
(** With bytes missing the last coordinate is read behind the end; an integer coordinate is 0. *)
Example C137_ex_short : convert (mkPcl2 1 2 (fields two_points) 16 (firstn 27 (bytes two_points))) = UB /\
  convert (mkPcl2 1 2 (fields two_points) 16 (firstn 28 (bytes two_points))) = convert two_points /\
  convert (mkPcl2 1 1 [mkField "x" 0 5; mkField "z" 8 7] 16 (bytes two_points)) = Ok [mkLas (S754_zero false) (S754_zero false) (S754_finite false 4503599627370496 (-53))].
Proof. split; [|split]; vm_compute; reflexivity. Qed.
Example C137_ex_encode : encode 23 8 (S754_finite false 8388608 (-24)) = 1056964608 /\ decode 23 8 3221225472 = S754_finite true 8388608 (-22).
Proof. split; vm_compute; reflexivity. Qed.
Example C137_ex_program : pcd_to_las (fun _ => (-1, no_pcl2)) (fun _ => true) "map.pcd" "" = Ok (0, Some ("map.pcd.las"%string, [])).
Proof. reflexivity. Qed.

(** ** pcd_sampler *)
Section Sampler.
  Context {P : Type}.
  Variable load : string -> option (list P).
  Variable pick : nat -> list P -> list P.
  (** pcl::RandomSample gives as many points as it is asked for. *)
  Hypothesis pick_length : forall k c, (k <= length c)%nat -> length (pick k c) = k.

  (** With a ratio between 0 and 1 the program writes about that part of the points: the number lies
      within one point and a relative 2^-22 of the ratio. *)
  Lemma sampler_count : forall input c r v, input <> ""%string -> load input = Some c ->
    valid_binary 24 128 r = true -> value r = Some v -> (0 <= v <= 1)%Q -> Z.of_nat (length c) <= 2 ^ 31 - 128 ->
    exists out, pcd_sampler false load pick input (Some r) = Ok (0, Some out) /\ (length out <= length c)%nat /\
      let n := inject_Z (Z.of_nat (length c)) in let m := inject_Z (Z.of_nat (length out)) in
      (n * v * (4194303 # 4194304) - (1 # 1000000000000) - 1 < m /\ m <= n * v * (4194305 # 4194304) + (1 # 1000000000000))%Q.
  Proof.
    intros input c r v Ni Lo V Ev Hv Hn. destruct (count_total (Z.of_nat (length c)) r v V Ev Hv ltac:(lia)) as (k & Ek & K0).
    destruct (count_near (Z.of_nat (length c)) r k v V Ev ltac:(lra) ltac:(lia) Ek) as (_ & A & B).
    assert (K1 : k < 2 ^ 31) by (apply to_int_ok in Ek; lia).
    unfold pcd_sampler. destruct (String.eqb_spec input ""); [contradiction|]. rewrite Lo, Ek. cbn [bind andb].
    rewrite Z.mod_small by lia. eexists. split; [reflexivity|]. destruct (Z.leb_spec (Z.of_nat (length c)) k) as [L|L].
    - split; [lia|]. cbv zeta. split; [|clear A].
      + eapply Qlt_le_trans; [|]. 2: apply Qle_refl.
        assert (N : (0 <= inject_Z (Z.of_nat (length c)))%Q) by (change 0%Q with (inject_Z 0); rewrite <- Zle_Qle; lia).
        assert (NV : (inject_Z (Z.of_nat (length c)) * v <= inject_Z (Z.of_nat (length c)))%Q).
        { rewrite <- (Qmult_1_r (inject_Z (Z.of_nat (length c)))) at 2. rewrite !(Qmult_comm (inject_Z _)). apply Qmult_le_compat_r; lra. }
        assert (NV0 : (0 <= inject_Z (Z.of_nat (length c)) * v)%Q) by (apply Qmult_le_0_compat; lra). lra.
      + assert (Lk : (inject_Z (Z.of_nat (length c)) <= inject_Z k)%Q) by (rewrite <- Zle_Qle; lia). lra.
    - rewrite pick_length by lia. split; [lia|]. cbv zeta. rewrite Z2Nat.id by lia. split; assumption.
  Qed.

  (** A ratio of 1 or more keeps all points of a cloud of at most 2^24 points, and so does a negative one. *)
  Lemma sampler_all : forall strict input c r v k, input <> ""%string -> load input = Some c -> c <> [] ->
    valid_binary 24 128 r = true -> value r = Some v -> Z.of_nat (length c) <= 2 ^ 24 ->
    (1 <= v \/ inject_Z (Z.of_nat (length c)) * v <= -1)%Q -> sample_count (Z.of_nat (length c)) r = Ok k ->
    pcd_sampler strict load pick input (Some r) = Ok (0, Some c).
  Proof.
    intros strict input c r v k Ni Lo Nc V Ev Hn Hv Ek. unfold pcd_sampler. destruct (String.eqb_spec input ""); [contradiction|]. rewrite Lo, Ek. cbn [bind].
    assert (K : - 2 ^ 31 <= k < 2 ^ 31) by (apply to_int_ok in Ek; lia).
    assert (L : Z.of_nat (length c) <= k mod 2 ^ 32).
    { destruct Hv as [Hv|Hv].
      - pose proof (count_whole (Z.of_nat (length c)) r k v V Ev Hv ltac:(lia) Ek). rewrite Z.mod_small by lia. lia.
      - pose proof (count_negative (Z.of_nat (length c)) r k v V Ev ltac:(lia) Hv Ek). replace k with (k + 2 ^ 32 + (-1) * 2 ^ 32) by lia. rewrite Z.mod_add, Z.mod_small by lia. lia. }
    destruct (Z.leb_spec (Z.of_nat (length c)) (k mod 2 ^ 32)); [|lia]. destruct c; [contradiction|]. rewrite andb_false_r. reflexivity.
  Qed.

  (** Not a number or infinite: undefined behaviour.  A PCL that does not write empty clouds ends the program for a
      cloud of fewer than 20 points and the default ratio. *)
  Lemma sampler_fails : forall strict input c, input <> ""%string -> load input = Some c ->
    (forall r, value r = None -> pcd_sampler strict load pick input (Some r) = UB) /\
    ((length c < 20)%nat -> pcd_sampler true load pick input None = Throw).
  Proof.
    intros strict input c Ni Lo. unfold pcd_sampler. destruct (String.eqb_spec input ""); [contradiction|]. rewrite Lo. split.
    - intros r Hr. rewrite count_ub by assumption. reflexivity.
    - intros Hc. assert (Z0 : sample_count (Z.of_nat (length c)) default_ratio = Ok 0).
      { do 20 (destruct c as [|? c]; [vm_compute; reflexivity|]). cbn in Hc. lia. }
      rewrite Z0. cbn [bind]. change (0 mod 2 ^ 32) with 0. destruct (Z.leb_spec (Z.of_nat (length c)) 0) as [L|L].
      + destruct c; [reflexivity|cbn in L; lia].
      + change (Z.to_nat 0) with 0%nat. rewrite pick_length by lia. reflexivity.
  Qed.
End Sampler.
Theorem C137_sample : forall (P : Type) (load : string -> option (list P)) (pick : nat -> list P -> list P),
  (forall k c, (k <= length c)%nat -> length (pick k c) = k) ->
  forall input c r v, input <> ""%string -> load input = Some c ->
  valid_binary 24 128 r = true -> value r = Some v -> (0 <= v <= 1)%Q -> Z.of_nat (length c) <= 2 ^ 31 - 128 ->
  exists out, pcd_sampler false load pick input (Some r) = Ok (0, Some out) /\ (length out <= length c)%nat /\
    let n := inject_Z (Z.of_nat (length c)) in let m := inject_Z (Z.of_nat (length out)) in
    (n * v * (4194303 # 4194304) - (1 # 1000000000000) - 1 < m /\ m <= n * v * (4194305 # 4194304) + (1 # 1000000000000))%Q.
Proof. intros. eapply sampler_count; eauto. Qed.
Print Assumptions C137_sample.
Theorem C137_sample_all : forall (P : Type) (load : string -> option (list P)) (pick : nat -> list P -> list P) strict input c r v k,
  input <> ""%string -> load input = Some c -> c <> [] ->
  valid_binary 24 128 r = true -> value r = Some v -> Z.of_nat (length c) <= 2 ^ 24 ->
  (1 <= v \/ inject_Z (Z.of_nat (length c)) * v <= -1)%Q -> sample_count (Z.of_nat (length c)) r = Ok k ->
  pcd_sampler strict load pick input (Some r) = Ok (0, Some c).
Proof. intros. eapply sampler_all; eauto. Qed.
Print Assumptions C137_sample_all.
Theorem C137_sample_fails : forall (P : Type) (load : string -> option (list P)) (pick : nat -> list P -> list P),
  (forall k c, (k <= length c)%nat -> length (pick k c) = k) ->
  forall strict input c, input <> ""%string -> load input = Some c ->
  (forall r, value r = None -> pcd_sampler strict load pick input (Some r) = UB) /\
  ((length c < 20)%nat -> pcd_sampler true load pick input None = Throw).
Proof. intros. apply sampler_fails; assumption. Qed.
Print Assumptions C137_sample_fails.

(** "A ratio of 1 keeps every point" is false: the size is made a float first, and 2^24 + 1 is none. *)
Theorem C137_ratio_one_refuted : ~ (forall (c : list unit) load pick, (forall k d, (k <= length d)%nat -> length (pick k d) = k) -> load "map.pcd"%string = Some c ->
  exists out, pcd_sampler false load pick "map.pcd" (Some (S754_finite false 8388608 (-23))) = Ok (0, Some out) /\ length out = length c).
Proof.
  intros H. destruct (Z_of_nat_complete (2 ^ 24 + 1) ltac:(lia)) as (n & Hn). symmetry in Hn.
  destruct (H (repeat tt n) (fun _ => Some (repeat tt n)) (fun k d => firstn k d)) as (out & E & L).
  - intros k d Hk. rewrite firstn_length. lia.
  - reflexivity.
  - rewrite repeat_length in L. unfold pcd_sampler in E. cbn [String.eqb] in E. rewrite repeat_length, Hn in E.
    assert (S : sample_count (2 ^ 24 + 1) (S754_finite false 8388608 (-23)) = Ok (2 ^ 24)) by (vm_compute; reflexivity).
    assert (P : 0 <= 2 ^ 24) by lia. rewrite S in E. cbn [bind andb] in E. rewrite (Z.mod_small (2 ^ 24) (2 ^ 32)) in E by lia.
    destruct (Z.leb_spec (2 ^ 24 + 1) (2 ^ 24)) as [B|B]; [lia|]. generalize dependent (2 ^ 24)%Z. intros z Hn E _ P B.
    assert (O : out = firstn (Z.to_nat z) (repeat tt n)) by congruence. rewrite O in L.
    assert (M : (length (firstn (Z.to_nat z) (repeat tt n)) <= Z.to_nat z)%nat) by apply firstn_le_length. lia.
Qed.
Print Assumptions C137_ratio_one_refuted.

Example C137_ex_counts : map (fun n => sample_count n default_ratio) [0; 19; 20; 100; 1000; 12345678] = map (@Ok Z) [0; 0; 1; 5; 50; 617283] /\
  sample_count 40 (S754_finite true 1 (-1)) = Ok (-20) /\ sample_count (2 ^ 31 - 1) (S754_finite false 1 0) = UB.
Proof. split; [|split]; vm_compute; reflexivity. Qed.
Example C137_ex_sampler : pcd_sampler false (fun _ => Some [1; 2; 3; 4; 5; 6]) (fun k c => firstn k c) "map.pcd" (Some (S754_finite false 1 (-1))) = Ok (0, Some [1; 2; 3]) /\
  pcd_sampler false (fun _ => Some [1; 2; 3; 4; 5; 6]) (fun k c => firstn k c) "map.pcd" (Some (S754_finite true 1 (-1))) = Ok (0, Some [1; 2; 3; 4; 5; 6]) /\
  pcd_sampler true (fun _ => Some [1; 2; 3]) (fun k c => firstn k c) "map.pcd" None = Throw.
Proof. split; [|split]; vm_compute; reflexivity. Qed.
