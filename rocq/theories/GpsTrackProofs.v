(** Proofs about the tracker of IMU and GPS. *)
From Coq Require Import List Bool ZArith Reals Lia Lra.
From Verif Require Import Outcome TimeModel TimeSpec TimeProofs GpsTrackModel GpsTrackSpec.
Import ListNotations.
Local Open Scope outcome_scope.

Section Proofs.
Variables A W P V B X : Type.
Variable period : R.
Variable p0 : P.
Variables v0 v_zero : V.
Variable b0 : B.
Variable predict : pim A W B -> P * V -> B -> P * V.
Variable optimize : list (factor A W P V B X) -> list (value P V B) -> nat -> P * V * B.
Notation ev := (GpsTrackModel.ev A W X).
Notation EImu := (GpsTrackModel.EImu A W X).
Notation EGps := (GpsTrackModel.EGps A W X).
Notation imus := (GpsTrackSpec.imus A W X).
Notation positions := (GpsTrackSpec.positions A W X).
Notation cuts := (GpsTrackSpec.cuts A W X).
Notation cut := (GpsTrackSpec.cut A W X).
Notation measures := (GpsTrackSpec.measures A W period).
Notation segment := (GpsTrackSpec.segment A W X period).
Notation increasing := (GpsTrackSpec.increasing A W).
Notation newest := (GpsTrackSpec.newest A W).
Notation graph_of := (GpsTrackSpec.graph_of A W P V B X period p0 v0 b0).
Notation values_of := (GpsTrackSpec.values_of A W P V B X period p0 v0 b0 predict).
Notation st := (GpsTrackModel.st A W P V B X).
Notation step := (GpsTrackModel.step A W P V B X period b0 predict optimize).
Notation after := (GpsTrackModel.after A W P V B X period p0 v0 v_zero b0 predict optimize).

(** ** Histories that grow at the end *)
Lemma imus_app : forall h k, imus (h ++ k) = imus h ++ imus k.
Proof. intros. apply flat_map_app. Qed.
Lemma positions_app : forall h k, positions (h ++ k) = positions h ++ positions k.
Proof. intros. apply flat_map_app. Qed.
Lemma cuts_app : forall h m k, cuts m (h ++ k) = cuts m h ++ cuts (m + length (imus h)) k.
Proof.
  induction h as [|[t a w|x|] h IH]; intros m k; cbn [app GpsTrackSpec.cuts GpsTrackSpec.imus flat_map length].
  - rewrite Nat.add_0_r. reflexivity.
  - fold (imus h). rewrite IH, Nat.add_succ_comm. reflexivity.
  - fold (imus h). rewrite IH. reflexivity.
  - fold (imus h). apply IH.
Qed.
Lemma cuts_length : forall h m, length (cuts m h) = length (positions h).
Proof.
  induction h as [|[t a w|x|] h IH]; intros m; cbn [GpsTrackSpec.cuts GpsTrackSpec.positions flat_map length app]; auto.
Qed.
Lemma cuts_le : forall h m c, In c (cuts m h) -> (m <= c <= m + length (imus h))%nat.
Proof.
  induction h as [|[t a w|x|] h IH]; intros m c H; cbn [GpsTrackSpec.cuts GpsTrackSpec.imus flat_map length app] in *.
  - destruct H.
  - fold (imus h). apply IH in H. lia.
  - fold (imus h). destruct H as [<-|H]; [lia|]. apply IH in H. lia.
  - fold (imus h). apply IH in H. lia.
Qed.
Lemma cut_le : forall h k, (cut h k <= length (imus h))%nat.
Proof.
  intros h [|k]; [apply Nat.le_0_l|]. unfold GpsTrackSpec.cut. cbn [nth]. destruct (nth_in_or_default k (cuts 0 h) 0%nat) as [H|H]; [|rewrite H; lia].
  apply cuts_le in H. lia.
Qed.
Lemma cut_app : forall h e k, (k <= length (positions h))%nat -> cut (h ++ [e]) k = cut h k.
Proof.
  intros h e [|k] H; [reflexivity|]. unfold GpsTrackSpec.cut. cbn [nth]. rewrite cuts_app, app_nth1; [reflexivity|]. rewrite cuts_length. lia.
Qed.
Lemma cut_new : forall h x, cut (h ++ [EGps x]) (S (length (positions h))) = length (imus h).
Proof.
  intros h x. unfold GpsTrackSpec.cut. cbn [nth]. rewrite cuts_app, app_nth2; rewrite cuts_length; [|lia]. rewrite Nat.sub_diag. reflexivity.
Qed.
Lemma cut_mono : forall h k, (S k <= length (positions h))%nat -> (cut h k <= cut h (S k))%nat.
Proof.
  assert (G : forall h m k, (k < length (cuts m h))%nat -> (nth k (m :: cuts m h) 0 <= nth (S k) (m :: cuts m h) 0)%nat).
  { induction h as [|[t a w|x|] h IH]; intros m k H; cbn [GpsTrackSpec.cuts] in *.
    - cbn in H. lia.
    - specialize (IH (S m) k H). destruct k as [|k]; cbn [nth] in *; [lia|exact IH].
    - destruct k as [|k]; [cbn; lia|]. cbn [length] in H. specialize (IH m k ltac:(lia)). exact IH.
    - apply IH, H. }
  intros h k H. apply G. rewrite cuts_length. lia.
Qed.
Lemma measures_app : forall l k o, measures o (l ++ k) = measures o l ++ measures (newest l o) k.
Proof. induction l as [|[[t a] w] l IH]; intros k o; [reflexivity|]. cbn [app GpsTrackSpec.measures GpsTrackSpec.newest fold_left]. rewrite IH. reflexivity. Qed.
Lemma measures_length : forall l o, length (measures o l) = length l.
Proof. induction l as [|[[t a] w] l IH]; intros o; [reflexivity|]. cbn. rewrite IH. reflexivity. Qed.
Lemma segment_app : forall h e k, (k < length (positions h))%nat -> segment (h ++ [e]) k = segment h k.
Proof.
  intros h e k H. unfold GpsTrackSpec.segment. rewrite !cut_app by lia. rewrite imus_app, measures_app, firstn_app, measures_length.
  pose proof (cut_le h (S k)). replace (cut h (S k) - length (imus h))%nat with 0%nat by lia. cbn [firstn]. rewrite app_nil_r. reflexivity.
Qed.
Lemma flat_map_eq : forall Y Z (f g : Y -> list Z) l, (forall y, In y l -> f y = g y) -> flat_map f l = flat_map g l.
Proof. induction l as [|y l IH]; intros H; [reflexivity|]. cbn. rewrite H, IH by (cbn; auto; intros; apply H; cbn; auto). reflexivity. Qed.
Lemma graph_ext : forall h h' sol sol' n, (forall k, (k < n)%nat -> nth_error (positions h) k = nth_error (positions h') k /\ segment h k = segment h' k /\ sol k = sol' k) ->
  graph_of h sol n = graph_of h' sol' n /\ values_of h sol n = values_of h' sol' n.
Proof.
  intros h h' sol sol' n H. unfold GpsTrackSpec.graph_of, GpsTrackSpec.values_of. split; f_equal; apply flat_map_eq; intros k K; apply in_seq in K;
    destruct (H k ltac:(lia)) as (E1 & E2 & E3); rewrite ?E1, E2, E3; reflexivity.
Qed.

(** ** The object after a history *)
Notation mk := (mkSt A W P V B X).
Record inv (h : list ev) (s : st) (sol : nat -> P * V * B) : Prop := mkInv {
  I_0 : sol 0%nat = (p0, v_zero, b0);
  I_sol : forall k, (k < length (positions h))%nat -> sol (S k) = optimize (graph_of h sol (S k)) (values_of h sol (S k)) (S k);
  I_st : s = mk (match newest (imus h) None with Some t => t | None => time_zero end)
    (snd (sol (length (positions h))), skipn (cut h (length (positions h))) (measures None (imus h)))
    (graph_of h sol (length (positions h))) (values_of h sol (length (positions h)))
    (fst (sol (length (positions h)))) (snd (sol (length (positions h)))) (length (positions h)) }.
Lemma newest_app : forall l k o, newest (l ++ k) o = newest k (newest l o).
Proof. intros. apply fold_left_app. Qed.
Lemma newest_normal : forall l b o t, increasing b l -> newest l o = Some t -> (l = [] /\ o = Some t) \/ (normal t /\ (b < elapsed t)%Z).
Proof.
  induction l as [|[[u a] w] l IH]; intros b o t I N; [left; auto|]. right. destruct I as (R & L & I). cbn [GpsTrackSpec.newest fold_left] in N. fold (newest l (Some u)) in N.
  cbn [fst] in N. destruct (IH _ _ _ I N) as [[_ E]|[E1 E2]]; [injection E as <-; auto|]. split; [auto|lia].
Qed.
Lemma increasing_app : forall l b k, increasing b (l ++ k) -> increasing b l /\ increasing (match newest l None with Some t => elapsed t | None => b end) k.
Proof.
  induction l as [|[[t a] w] l IH]; intros b k I; [split; [exact Logic.I|exact I]|]. cbn [app GpsTrackSpec.increasing] in I. destruct I as (R & L & I). destruct (IH _ _ I) as [I1 I2]. split; [cbn; auto|].
  cbn [GpsTrackSpec.newest fold_left fst]. fold (newest l (Some t)).
  replace (match newest l (Some t) with Some t0 => elapsed t0 | None => b end) with (match newest l None with Some t0 => elapsed t0 | None => elapsed t end); [exact I2|].
  clear. destruct l as [|x l]; [reflexivity|]. cbn [GpsTrackSpec.newest fold_left]. fold (newest l (Some (fst (fst x)))).
  destruct (newest l (Some (fst (fst x)))) eqn:E; [reflexivity|]. exfalso. revert E. generalize (fst (fst x)). induction l as [|y l IH]; intros u; cbn; [discriminate|apply IH].
Qed.
Lemma zero_rep : rep time_zero.
Proof. unfold rep. cbn. lia. Qed.
Lemma imu_ok : forall h s sol t a w, inv h s sol -> increasing 1 (imus (h ++ [EImu t a w])) ->
  exists s', step s (EImu t a w) = Ok s' /\ inv (h ++ [EImu t a w]) s' sol.
Proof.
  intros h s sol t a w H I. rewrite imus_app in I. apply increasing_app in I as [I1 (R & L & _)]. pose proof (I_st _ _ _ H) as E.
  set (n := length (positions h)) in *. assert (En : length (positions (h ++ [EImu t a w])) = n) by (rewrite positions_app, app_length; cbn; lia).
  assert (D : exists dt, step s (EImu t a w) = Ok (mk t (fst (pre _ _ _ _ _ _ s), snd (pre _ _ _ _ _ _ s) ++ [(a, w, dt)]) (graph _ _ _ _ _ _ s) (vals _ _ _ _ _ _ s) (prev _ _ _ _ _ _ s) (prev_b _ _ _ _ _ _ s) (count _ _ _ _ _ _ s)) /\
     dt = match newest (imus h) None with None => period | Some u => duration u t end).
  { cbn [GpsTrackModel.step]. unfold add_imu. rewrite E. cbn [last]. destruct (newest (imus h) None) as [u|] eqn:N.
    - destruct (newest_normal _ _ _ _ I1 N) as [[_ XX]|[Nu Lu]]; [discriminate XX|].
      destruct (t_sub_spec t u (normal_rep _ R) (normal_rep _ Nu)) as (d & Ed & Nd & Dd). rewrite Ed. cbn [bind].
      rewrite t_ne_spec by (auto using normal_rep, zero_rep). change (elapsed time_zero) with 0%Z. destruct (Z.leb_spec (Z.abs (elapsed u - 0)) 1); [lia|]. cbn [negb bind].
      pose proof (order_spec t u (normal_rep _ R) (normal_rep _ Nu)) as (_ & _ & G & _). assert (t_gt t u = true) as -> by (apply G; lia). cbn [check bind].
      eexists. split; [reflexivity|]. unfold to_sec, duration. rewrite to_nano_elapsed by (auto using normal_rep). rewrite Dd. do 2 f_equal.
      pose proof (normal_elapsed t R). pose proof (normal_elapsed u Nu). rewrite Z.max_r, Z.mod_small by lia. reflexivity.
    - destruct (t_sub_spec t time_zero (normal_rep _ R) zero_rep) as (d & Ed & _). rewrite Ed. cbn [bind]. rewrite t_ne_spec by (auto using zero_rep). cbn. eexists. split; reflexivity. }
  destruct D as (dt & D1 & D2). rewrite D1. eexists. split; [reflexivity|].
  assert (Ex : forall m, (m <= n)%nat -> graph_of (h ++ [EImu t a w]) sol m = graph_of h sol m /\ values_of (h ++ [EImu t a w]) sol m = values_of h sol m).
  { intros m Hm. apply graph_ext. intros k K. split; [|split; [|reflexivity]].
    - rewrite positions_app. cbn. rewrite app_nil_r. reflexivity.
    - apply segment_app. fold n. lia. }
  constructor.
  - apply H.
  - rewrite En. intros k K. destruct (Ex (S k) ltac:(lia)) as [-> ->]. apply (I_sol _ _ _ H), K.
  - rewrite En. destruct (Ex n (le_n _)) as [-> ->]. rewrite E. cbn [pre graph vals prev prev_b count fst snd].
    rewrite imus_app, newest_app, measures_app, cut_app by (fold n; lia). cbn [GpsTrackSpec.imus flat_map app GpsTrackSpec.newest fold_left fst GpsTrackSpec.measures].
    rewrite skipn_app, measures_length. pose proof (cut_le h n). replace (cut h n - length (imus h))%nat with 0%nat by lia. rewrite <- D2. reflexivity.
Qed.
Lemma insert_ok : forall (l : list (value P V B)) v, (forall x, In x l -> same P V B v x = false) -> insert P V B l v = Ok (l ++ [v]).
Proof.
  intros l v H. unfold insert. assert (existsb (same P V B v) l = false) as ->; [|reflexivity].
  destruct (existsb (same P V B v) l) eqn:E; [|reflexivity]. apply existsb_exists in E as (x & I & S). rewrite H in S by exact I. discriminate S.
Qed.
Lemma gps_ok : forall h s sol x, inv h s sol -> exists s' sol', step s (EGps x) = Ok s' /\ inv (h ++ [EGps x]) s' sol' /\ forall k, (k <= length (positions h))%nat -> sol' k = sol k.
Proof.
  intros h s sol x H. pose proof (I_st _ _ _ H) as E. set (n := length (positions h)) in *.
  assert (En : length (positions (h ++ [EGps x])) = S n) by (rewrite positions_app, app_length; cbn; lia).
  set (h' := h ++ [EGps x]) in *.
  assert (Seg : segment h' n = skipn (cut h n) (measures None (imus h))).
  { unfold GpsTrackSpec.segment, h'. rewrite cut_app by (fold n; lia). unfold n at 2. rewrite cut_new, imus_app. cbn [GpsTrackSpec.imus flat_map]. rewrite app_nil_r.
    rewrite firstn_all2; [reflexivity|]. rewrite measures_length. lia. }
  assert (Pos : nth_error (positions h') n = Some x) by (unfold h'; rewrite positions_app, nth_error_app2 by (fold n; lia); fold n; rewrite Nat.sub_diag; reflexivity).
  assert (Im : imus h' = imus h) by (unfold h'; rewrite imus_app; cbn; apply app_nil_r).
  assert (Ex : forall sol' m, (m <= n)%nat -> (forall k, (k <= n)%nat -> sol' k = sol k) -> graph_of h' sol' m = graph_of h sol m /\ values_of h' sol' m = values_of h sol m).
  { intros sol' m Hm Hs. apply graph_ext. intros k K. split; [|split; [|apply Hs; lia]].
    - unfold h'. rewrite positions_app, nth_error_app1 by (fold n; lia). reflexivity.
    - apply segment_app. fold n. lia. }
  set (r := optimize (graph_of h' sol (S n)) (values_of h' sol (S n)) (S n)).
  set (sol' := fun k => if (k =? S n)%nat then r else sol k).
  assert (Es : forall k, (k <= n)%nat -> sol' k = sol k) by (intros k K; unfold sol'; destruct (Nat.eqb_spec k (S n)); [lia|reflexivity]).
  assert (Er : sol' (S n) = r) by (unfold sol'; rewrite Nat.eqb_refl; reflexivity).
  assert (Ex' : graph_of h' sol' (S n) = graph_of h' sol (S n) /\ values_of h' sol' (S n) = values_of h' sol (S n)).
  { apply graph_ext. intros k K. repeat split; auto. apply Es. lia. }
  assert (Gn : graph_of h' sol (S n) = graph_of h sol n ++ [Imu _ _ _ _ _ _ n n (S n) (S n) n (snd (sol n), skipn (cut h n) (measures None (imus h))); BiasBetween _ _ _ _ _ _ n (S n) b0; Gps _ _ _ _ _ _ (S n) x]).
  { destruct (Ex sol n (le_n _) (fun _ _ => eq_refl)) as [<- _]. unfold GpsTrackSpec.graph_of. rewrite seq_S, flat_map_app. cbn [flat_map Nat.add]. rewrite Pos, Seg, app_nil_r, app_assoc. reflexivity. }
  set (q := predict (snd (sol n), skipn (cut h n) (measures None (imus h))) (fst (sol n)) (snd (sol n))).
  assert (Vn : values_of h' sol (S n) = ((values_of h sol n ++ [ValP _ _ _ (S n) (fst q)]) ++ [ValV _ _ _ (S n) (snd q)]) ++ [ValB _ _ _ (S n) (snd (sol n))]).
  { destruct (Ex sol n (le_n _) (fun _ _ => eq_refl)) as [_ <-]. unfold GpsTrackSpec.values_of. rewrite seq_S, flat_map_app. cbn [flat_map Nat.add]. rewrite Seg. fold q. rewrite app_nil_r, <- !app_assoc. reflexivity. }
  assert (Old : forall v y, In y (values_of h sol n) -> (match v with ValP _ _ _ m _ | ValV _ _ _ m _ | ValB _ _ _ m _ => m = S n end) -> same P V B v y = false).
  { intros v y I Hv. assert (O : match y with ValP _ _ _ m _ | ValV _ _ _ m _ | ValB _ _ _ m _ => (m <= n)%nat end).
    { unfold GpsTrackSpec.values_of in I. apply in_app_or in I as [I|I].
      - cbn in I. intuition (subst; lia).
      - apply in_flat_map in I as (k & K & I). apply in_seq in K. cbn in I. intuition (subst; lia). }
    destruct v, y; cbn in *; try reflexivity; subst; apply Nat.eqb_neq; lia. }
  exists (mk (last _ _ _ _ _ _ s) (snd r, []) (graph_of h' sol (S n)) (values_of h' sol (S n)) (fst r) (snd r) (S n)), sol'. split; [|split; [|exact Es]].
  - cbn [GpsTrackModel.step]. unfold add_gps. rewrite E. cbn [last pre graph vals prev prev_b count]. fold q.
    rewrite insert_ok by (intros y I; apply Old; auto). cbn [bind].
    rewrite insert_ok; [cbn [bind]|intros y I; apply in_app_or in I as [I|[<-|[]]]; [apply Old; auto|reflexivity]].
    rewrite insert_ok; [cbn [bind]|intros y I; apply in_app_or in I as [I|[<-|[]]]; [apply in_app_or in I as [I|[<-|[]]]; [apply Old; auto|reflexivity]|reflexivity]].
    replace (S n - 1)%nat with n by lia. cbn [app]. rewrite <- Gn, <- Vn. reflexivity.
  - constructor.
    + rewrite Es by lia. apply H.
    + rewrite En. intros k K. destruct (Nat.eq_dec k n) as [->|].
      * rewrite Er. destruct Ex' as [-> ->]. reflexivity.
      * rewrite Es by lia. destruct (Ex sol' (S k) ltac:(lia) Es) as [-> ->]. apply (I_sol _ _ _ H). fold n. lia.
    + rewrite En, Er. destruct Ex' as [-> ->]. rewrite Im, E. cbn [last]. f_equal. f_equal. unfold h', n. rewrite cut_new. symmetry. apply skipn_all2. rewrite measures_length. apply le_n.
Qed.
Lemma start_ok : inv [] (fresh A W P V B X p0 v0 v_zero b0) (fun _ => (p0, v_zero, b0)).
Proof. constructor; [reflexivity| |reflexivity]. cbn. lia. Qed.
Lemma regular_app : forall h e, regular A W X (h ++ [e]) -> regular A W X h.
Proof.
  intros h e [I N]. split; [|intros H; apply N, in_or_app; auto]. rewrite imus_app in I. apply increasing_app in I. apply I.
Qed.
Lemma after_app : forall h e, after (h ++ [e]) = let* s := after h in step s e.
Proof.
  intros h e. unfold GpsTrackModel.after. generalize (fresh A W P V B X p0 v0 v_zero b0). induction h as [|x h IH]; intros s; cbn [app run bind].
  - destruct (step s e); reflexivity.
  - destruct (step s x); cbn [bind]; auto.
Qed.
Theorem after_ok : forall h, regular A W X h -> exists s sol, after h = Ok s /\ inv h s sol.
Proof.
  induction h as [|e h IH] using rev_ind; intros R.
  - eexists _, _. split; [reflexivity|apply start_ok].
  - destruct (IH (regular_app _ _ R)) as (s & sol & A1 & A2). rewrite after_app, A1. cbn [bind]. destruct e as [t a w|x|].
    + destruct (imu_ok h s sol t a w A2 (proj1 R)) as (s' & S1 & S2). eauto.
    + destruct (gps_ok h s sol x A2) as (s' & sol' & S1 & S2 & _). eauto.
    + exfalso. apply (proj2 R), in_or_app. cbn. auto.
Qed.
End Proofs.
