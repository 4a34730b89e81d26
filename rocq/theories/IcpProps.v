(** Properties of the ICP registration: C55, C56, C91. *)
From Coq Require Import QArith Lqa ZArith List Bool Lia Sorted Permutation SpecFloat.
From Verif Require Import Outcome Pose FilterModel FilterSpec FloatRound IcpModel IcpSpec IcpProofs IcpAlign.
Import ListNotations.
Local Open Scope outcome_scope.
Local Open Scope nat_scope.

(** ** C55 *)
Theorem C55_rejection : forall nth r v dists ids size, selects nth -> plus 24 128 r -> value r = Some v -> (v <= 1)%Q ->
  length ids = length dists -> (Z.of_nat (length dists) < 2 ^ 31)%Z -> (forall d, In d dists -> distance d) ->
  (forall i d id, nth_error dists i = Some d -> nth_error ids i = Some id -> finite d -> id < size) ->
  (exists d, In d dists /\ finite d) ->
  exists kept, reject nth (widen r) (length dists) size dists ids = Ok kept /\ kept <> [] /\
    StronglySorted lt (map fst kept) /\
    (forall i id, In (i, id) kept -> nth_error ids i = Some id /\ id < size /\ exists d, nth_error dists i = Some d /\ finite d) /\
    (forall i j d d', In i (map fst kept) -> ~ In j (map fst kept) -> nth_error dists i = Some d -> nth_error dists j = Some d' -> SFleb d d' = true) /\
    (v * inject_Z (Z.of_nat (finite_count dists)) <= inject_Z (Z.of_nat (length kept)))%Q.
Proof. exact reject_spec. Qed.
Print Assumptions C55_rejection.

(** The only other outcomes: no finite distance, or a ratio that is not in [0, 1]. *)
Theorem C55_no_finite_aborts : forall nth q sources size dists ids, (forall d, In d dists -> d = infinity) ->
  reject nth q sources size dists ids = Abort.
Proof.
  intros nth q sources size dists ids H. unfold reject, quantile. destruct (_ && _); [|reflexivity]. cbn [check bind].
  replace (List.filter _ dists) with (@nil dbl); [reflexivity|]. induction dists as [|d dists IH]; [reflexivity|].
  rewrite (H d) by (left; reflexivity). cbn. apply IH. intros; apply H; right; assumption.
Qed.
Print Assumptions C55_no_finite_aborts.
Theorem C55_bad_ratio_aborts : forall nth q sources size dists ids, SFleb (S754_zero false) q = false \/ SFleb q one = false ->
  reject nth q sources size dists ids = Abort.
Proof. intros nth q sources size dists ids [H|H]; unfold reject, quantile; rewrite H, ?andb_false_r; reflexivity. Qed.
Print Assumptions C55_bad_ratio_aborts.

(** Case: ratio 0.5, distances 4, infinity, 1, 2, 1 of five points. *)
Definition insert (x : dbl) : list dbl -> list dbl :=
  fix ins l := match l with [] => [x] | y :: l' => if SFltb y x then y :: ins l' else x :: l end.
Definition sort_nth (l : list dbl) (k : nat) : list dbl := fold_right insert [] l.
Definition dist4 : list dbl := [of_int 4; infinity; of_int 1; of_int 2; of_int 1].
Definition half32 : spec_float := S754_finite false 8388608 (-24).
Example C55_case :
  plus 24 128 half32 /\ value half32 = Some (8388608 * 2 ^ (-24))%Q /\ (8388608 * 2 ^ (-24) <= 1)%Q /\
  Forall distance dist4 /\ finite_count dist4 = 4 /\
  reject sort_nth (widen half32) 5 9 dist4 [3; 0; 8; 1; 8] = Ok [(2, 8); (3, 1); (4, 8)].
Proof.
  repeat split; try (vm_compute; reflexivity); [vm_compute; discriminate|]. repeat constructor.
Qed.
(** ratio 1 keeps every finite distance; the sorting function meets [selects] on this list. *)
Example C55_case_one : reject sort_nth one 5 9 dist4 [3; 0; 8; 1; 8] = Ok [(0, 3); (2, 8); (3, 1); (4, 8)].
Proof. reflexivity. Qed.
(** [selects] can be met: an insertion sort of comparable values. *)
Example C55_selects_possible : selects sort_nth.
Proof.
  assert (P : forall l, Permutation l (fold_right insert [] l)).
  { assert (I : forall x l, Permutation (x :: l) (insert x l)).
    { intros x. induction l as [|y l IH]; cbn; [reflexivity|]. destruct (SFltb y x); [|reflexivity].
      rewrite perm_swap. constructor. exact IH. }
    induction l as [|x l IH]; cbn; [constructor|]. rewrite <- I. constructor. exact IH. }
  assert (S : forall l, (forall x, In x l -> x <> S754_nan) -> StronglySorted (fun a b => SFltb b a = false) (fold_right insert [] l)).
  { induction l as [|x l IH]; intros N; cbn; [constructor|].
    assert (Sl : StronglySorted (fun a b => SFltb b a = false) (fold_right insert [] l)) by (apply IH; intros; apply N; right; assumption).
    assert (Nx : FloatOrder.num x) by (apply FloatOrder.num_nan, N; left; reflexivity).
    assert (Nl : forall y, In y (fold_right insert [] l) -> FloatOrder.num y).
    { intros y Iy. apply FloatOrder.num_nan, N. right. eapply Permutation_in; [apply Permutation_sym, P|exact Iy]. }
    assert (Perm := P (x :: l)). clear IH N. cbn in Perm. revert Sl Nl. generalize (fold_right insert [] l) as m. clear Perm.
    induction m as [|y m IHm]; intros Sl Nl; cbn; [repeat constructor|].
    inversion Sl as [|? ? S1 F1]; subst. assert (Ny : FloatOrder.num y) by (apply Nl; left; reflexivity).
    assert (Tr : forall a b c, FloatOrder.num a -> FloatOrder.num b -> FloatOrder.num c -> SFltb b a = false -> SFltb c b = false -> SFltb c a = false).
    { intros a b c Na Nb Nc H1 H2. destruct (SFltb c a) eqn:E; [|reflexivity]. exfalso.
      assert (L : SFleb b c = true) by (apply FloatOrder.SFltb_false; assumption).
      assert (SFltb b a = true) by (eapply FloatOrder.SFleb_ltb_trans; eassumption). congruence. }
    destruct (SFltb y x) eqn:E.
    - constructor; [apply IHm; [assumption|intros; apply Nl; right; assumption]|].
      apply Forall_forall. intros z Iz.
      assert (Iz' : In z (x :: m)).
      { assert (I : forall w k, In w (insert x k) -> In w (x :: k)).
        { intros w. induction k as [|u k IHk]; cbn; [tauto|]. destruct (SFltb u x); cbn; [|tauto]. intros [<-|H]; [tauto|]. apply IHk in H. cbn in H. tauto. }
        apply I. exact Iz. }
      destruct Iz' as [<-|Iz']; [|rewrite Forall_forall in F1; apply F1; exact Iz'].
      destruct (SFltb x y) eqn:E'; [|reflexivity]. exfalso.
      pose proof (FloatOrder.SFltb_leb_trans _ _ _ E (FloatOrder.SFltb_leb _ _ E')) as H.
      apply FloatOrder.SFltb_key in H. destruct H as (a & b & Ea & Eb & L). assert (a = b) by congruence. subst b. eapply FloatOrder.klt_irrefl. exact L.
    - constructor; [assumption|]. constructor; [exact E|]. apply Forall_forall. intros z Iz. rewrite Forall_forall in F1.
      eapply Tr; [exact Nx|exact Ny| |exact E|apply F1; exact Iz]. apply Nl. right. exact Iz. }
  intros l k Hk N. unfold sort_nth. split; [apply P|].
  assert (Sl := S l N). assert (Ll := Permutation_length (P l)). revert Sl Ll. generalize (fold_right insert [] l) as m. intros m Sl Ll.
  assert (Get : forall (m : list dbl), StronglySorted (fun a b => SFltb b a = false) m -> forall i j a b, i < j -> nth_error m i = Some a -> nth_error m j = Some b -> SFltb b a = false).
  { clear. intros m Sm. induction Sm as [|x m Sm IH F]; intros i j a b L Ei Ej; [destruct i; discriminate|].
    destruct j as [|j]; [lia|]. destruct i as [|i]; cbn in Ei, Ej.
    - assert (x = a) by congruence. subst x. rewrite Forall_forall in F. apply F. eapply nth_error_In. exact Ej.
    - eapply (IH i j); [lia|exact Ei|exact Ej]. }
  destruct (nth_error m k) as [x|] eqn:Ex; [|apply nth_error_None in Ex; lia]. exists x. split; [reflexivity|].
  intros i y Ey. split; intros L; eapply Get; eauto.
Qed.

(** ** C56 *)
(** The convergence test reads only its history, and decides on the mean of the last four steps. *)
Theorem C56_convergence_test : forall A (drot dtra : A -> A -> Q) (d : A) hist fuel, 4 <= fuel -> hist <> [] -> (Z.of_nat (length hist) < 2 ^ 64)%Z ->
  exists b, converged drot dtra fuel hist = Some (Ok b) /\ (b = true <-> settled drot dtra (fun i => List.nth i hist d) (length hist - 1)).
Proof.
  intros A drot dtra d hist fuel Hf Hne Hl.
  assert (E : history (fun i => List.nth i hist d) (length hist - 1) = hist).
  { destruct hist as [|x hist]; [contradiction|]. unfold history. replace (S (length (x :: hist) - 1)) with (length (x :: hist)) by (cbn; lia).
    generalize (x :: hist). clear. intros l. apply nth_ext with d d; [rewrite map_length, seq_length; reflexivity|].
    intros n Hn. rewrite map_length, seq_length in Hn. rewrite (nth_indep _ d (List.nth 0 l d)) by (rewrite map_length, seq_length; exact Hn).
    rewrite (map_nth (fun i => List.nth i l d) (seq 0 (length l)) 0 n). rewrite seq_nth by exact Hn. reflexivity. }
  destruct (converged_spec A drot dtra (fun i => List.nth i hist d) (length hist - 1) fuel Hf) as (b & B1 & B2); [destruct hist; [contradiction|]; cbn [length] in *; lia|].
  rewrite E in B1. exists b. auto.
Qed.
Print Assumptions C56_convergence_test.

Section Align.
  Context {G : group}.
  Variables (nth : list dbl -> nat -> list dbl) (matches : G -> list dbl * list nat) (solve : list (nat * nat) -> G -> G)
            (drot dtra : G -> G -> Q).
  Notation align := (align nth matches solve drot dtra).

  (** Align ends, whatever its steps do, and needs at most max(1, max_iteration) of them.  If it succeeds it
      stopped at the first iteration that had settled or reached the limit, and the result moves the guess
      by the last transform in the frame of the mean. *)
  Theorem C56_terminates : forall cfg mean guess fuel, (max_iter cfg < 2 ^ 31)%Z -> (Z.max 1 (max_iter cfg) <= Z.of_nat fuel)%Z ->
    exists r, align fuel (Some cfg) mean guess = Some r /\
      forall R n, r = Ok (R, n) -> (1 <= n <= Z.max 1 (max_iter cfg))%Z /\
        exists ts : nat -> G, ts 0 = gone /\ R = gmul (gmul mean (ts (Z.to_nat n))) (gmul (ginv mean) guess) /\
          (forall i, i < Z.to_nat n -> exists kept,
             reject nth (ratio cfg) (sources cfg) (targets cfg) (fst (matches (ts i))) (snd (matches (ts i))) = Ok kept /\ ts (S i) = gmul (solve kept (ts i)) (ts i)) /\
          (settled drot dtra ts (Z.to_nat n) \/ (max_iter cfg <= n)%Z) /\
          (forall i, 0 < i -> i < Z.to_nat n -> ~ settled drot dtra ts i).
  Proof.
    intros cfg mean guess fuel M F. destruct (Nat.ltb_spec 0 (sources cfg)) as [L|L].
    2:{ exists Abort. split; [|discriminate]. cbn [IcpModel.align]. rewrite (proj2 (Nat.ltb_ge _ _) L). reflexivity. }
    rewrite align_unfold by assumption.
    destruct (loop_spec nth matches solve drot dtra fuel cfg 0 (fun _ => gone) M ltac:(lia) ltac:(lia)) as (r & E & R).
    cbn [Z.of_nat history map seq] in E. unfold history in E. cbn [map seq] in E. rewrite E. eexists. split; [reflexivity|].
    intros T n En. destruct r as [[T' c]| | |]; try discriminate. cbn [bind fst snd] in En.
    assert (n = c) by congruence. assert (T = gmul (gmul mean T') (gmul (ginv mean) guess)) by congruence. subst n T. clear En.
    destruct R as (ts & k & R1 & R2 & -> & -> & R5 & R6 & R7). rewrite Nat2Z.id. split.
    - split; [lia|]. destruct (Nat.eq_dec k 1) as [->|]; [lia|]. destruct (R7 (k - 1)) as (_ & H); lia.
    - exists ts. split; [apply (R1 0); lia|]. split; [reflexivity|]. split; [|split; [assumption|intros i H1 H2; apply R7; lia]].
      intros i Hi. specialize (R5 i ltac:(lia) Hi). unfold icp_step in R5. destruct (compensate cfg); [discriminate|].
      rewrite (proj2 (Nat.ltb_lt _ _) L) in R5. cbn [check bind] in R5. destruct (matches (ts i)) as [dists ids]. cbn [fst snd].
      destruct (reject _ _ _ _ _ _) as [kept| | |]; try discriminate. exists kept. split; [reflexivity|]. cbn [bind] in R5. congruence.
  Qed.

  (** With usable matches for every transform it succeeds. *)
  Theorem C56_succeeds : forall cfg r v mean guess fuel, selects nth -> compensate cfg = false -> 0 < sources cfg -> (Z.of_nat (sources cfg) < 2 ^ 31)%Z ->
    ratio cfg = widen r -> plus 24 128 r -> value r = Some v -> (v <= 1)%Q -> (max_iter cfg < 2 ^ 31)%Z -> (Z.max 1 (max_iter cfg) <= Z.of_nat fuel)%Z ->
    (forall T, length (fst (matches T)) = sources cfg /\ length (snd (matches T)) = sources cfg /\
       (forall d, In d (fst (matches T)) -> distance d) /\ (exists d, In d (fst (matches T)) /\ finite d) /\
       (forall i d id, nth_error (fst (matches T)) i = Some d -> nth_error (snd (matches T)) i = Some id -> finite d -> id < targets cfg)) ->
    exists R n, align fuel (Some cfg) mean guess = Some (Ok (R, n)).
  Proof.
    intros cfg r v mean guess fuel Sel Nc Ls Lb Er Pr Vr V1 M F Ms. rewrite align_unfold by assumption.
    assert (St : forall T, exists T', icp_step nth matches solve cfg T = Ok T').
    { intros T. destruct (Ms T) as (A & B & C & D & E). unfold icp_step. rewrite Nc, (proj2 (Nat.ltb_lt _ _) Ls), Er. cbn [check bind].
      destruct (matches T) as [dists ids]. cbn [fst snd] in *.
      destruct (reject_spec nth r v dists ids (targets cfg) Sel Pr Vr V1) as (kept & K & _); [congruence|rewrite A; assumption|assumption|assumption|assumption|].
      rewrite <- A, K. cbn [bind]. eauto. }
    destruct (loop_spec nth matches solve drot dtra fuel cfg 0 (fun _ => gone) M ltac:(lia) ltac:(lia)) as (r' & E & R).
    unfold history in E. cbn [map seq Z.of_nat] in E. rewrite E.
    destruct r' as [[T' c]| | |]; [cbn [bind]; eauto| | |]; exfalso; destruct R as (ts & k & _ & _ & _ & N & _); destruct (St (ts k)) as (T' & E'); eapply N; exact E'.
  Qed.

  (** If the solver finds nothing to correct, the guess is the result, after four iterations at most. *)
  Theorem C56_guess_kept : forall cfg mean guess fuel R n, (max_iter cfg < 2 ^ 31)%Z -> (Z.max 1 (max_iter cfg) <= Z.of_nat fuel)%Z ->
    (forall kept T, solve kept T = gone) -> (forall T, drot T T == 0)%Q -> (forall T, dtra T T == 0)%Q ->
    align fuel (Some cfg) mean guess = Some (Ok (R, n)) -> R = guess /\ n = Z.max 1 (Z.min 4 (max_iter cfg)).
  Proof.
    intros cfg mean guess fuel R n M F So Dr Dt E. destruct (C56_terminates cfg mean guess fuel M F) as (r & E' & H).
    assert (r = Ok (R, n)) by congruence. destruct (H R n H0) as (Hn & ts & T0 & ER & Ts & Stop & Before).
    assert (All : forall i, i <= Z.to_nat n -> ts i = gone).
    { induction i as [|i IH]; intros Hi; [exact T0|]. destruct (Ts i ltac:(lia)) as (kept & _ & ->). rewrite So, IH by lia. apply gmul_1_l. }
    assert (Settle : forall i, i <= Z.to_nat n -> 4 <= i -> settled drot dtra ts i).
    { intros i Hi H4. split; [assumption|]. unfold mean_step. rewrite !All by lia. rewrite Dr, Dt. split; reflexivity. }
    split.
    - rewrite ER, All, gmul_1_r by lia. apply gcancel_l'.
    - assert (U : (n <= 4)%Z). { destruct (Z_le_gt_dec n 4) as [|B]; [assumption|]. exfalso. apply (Before 4); [lia|lia|]. apply Settle; lia. }
      destruct Stop as [(S4 & _)|S4]; lia.
  Qed.

  (** ** C91 *)
  Theorem C91_compensation_undefined : forall cfg mean guess fuel, compensate cfg = true -> 0 < sources cfg -> 0 < fuel ->
    align fuel (Some cfg) mean guess = Some UB.
  Proof. intros cfg mean guess [|fuel] C L F; [lia|]. rewrite align_unfold by assumption. cbn [icp_loop]. unfold icp_step. rewrite C. reflexivity. Qed.
  Theorem C91_clouds_not_set_undefined : forall mean guess fuel, align fuel None mean guess = Some UB.
  Proof. reflexivity. Qed.
  Theorem C91_empty_source_aborts : forall cfg mean guess fuel, sources cfg = 0 -> align fuel (Some cfg) mean guess = Some Abort.
  Proof. intros. cbn [IcpModel.align]. rewrite H. reflexivity. Qed.
  (** No point has a match in the first iteration (e.g. all source points are NaN or too far). *)
  Theorem C91_no_match_aborts : forall cfg mean guess fuel, compensate cfg = false -> 0 < fuel ->
    (forall d, In d (fst (matches gone)) -> d = infinity) -> align fuel (Some cfg) mean guess = Some Abort.
  Proof.
    intros cfg mean guess [|fuel] C F H; [lia|]. destruct (Nat.ltb_spec 0 (sources cfg)) as [L|L].
    - rewrite align_unfold by assumption. cbn [icp_loop]. unfold icp_step. rewrite C, (proj2 (Nat.ltb_lt _ _) L). cbn [check bind].
      destruct (matches gone) as [dists ids]. rewrite C55_no_finite_aborts by exact H. reflexivity.
    - apply C91_empty_source_aborts. lia.
  Qed.
End Align.
Print Assumptions C56_terminates.
Print Assumptions C56_succeeds.
Print Assumptions C56_guess_kept.
Print Assumptions C91_compensation_undefined.
Print Assumptions C91_clouds_not_set_undefined.
Print Assumptions C91_empty_source_aborts.
Print Assumptions C91_no_match_aborts.

(** Case: transforms on a line; the solver halves the distance to 64 (in 1/1024), so the loop settles. *)
Definition cfg (n : Z) (c : bool) : setup := mkSetup 5 9 (widen half32) n c.
Definition toward (kept : list (nat * nat)) (T : Z) : Z := ((64 - T) / 2)%Z.
Definition gap (a b : Z) : Q := (Z.abs (a - b) # 1024)%Q.
Example C56_case :
  align (G := Zgroup) sort_nth (fun _ => (dist4, [3; 0; 8; 1; 8])) toward (fun _ _ => 0%Q) gap 100 (Some (cfg 100 false)) 7%Z 5%Z = Some (Ok (67, 5)%Z) /\
  align (G := Zgroup) sort_nth (fun _ => (dist4, [3; 0; 8; 1; 8])) toward (fun _ _ => 0%Q) gap 100 (Some (cfg 3 false)) 7%Z 5%Z = Some (Ok (61, 3)%Z) /\
  align (G := Zgroup) sort_nth (fun _ => (dist4, [3; 0; 8; 1; 8])) toward (fun _ _ => 0%Q) gap 100 (Some (cfg (-2) false)) 7%Z 5%Z = Some (Ok (37, 1)%Z).
Proof. vm_compute. repeat split; reflexivity. Qed.
Example C91_case :
  align (G := Zgroup) sort_nth (fun _ => (dist4, [3; 0; 8; 1; 8])) toward (fun _ _ => 0%Q) gap 100 (Some (cfg 100 true)) 7%Z 5%Z = Some UB /\
  align (G := Zgroup) sort_nth (fun _ => (repeat infinity 5, [3; 0; 8; 1; 8])) toward (fun _ _ => 0%Q) gap 100 (Some (cfg 100 false)) 7%Z 5%Z = Some Abort.
Proof. vm_compute. repeat split; reflexivity. Qed.
