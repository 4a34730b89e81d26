(** Proofs about the rejection step of ICP. *)
From Coq Require Import QArith Qpower Lqa ZArith List Bool Lia Sorted Permutation SpecFloat.
From Verif Require Import Outcome Pose FilterModel FilterSpec FloatOrder FloatRound FloatOps FloatTrunc IcpModel IcpSpec.
Import ListNotations.
Local Open Scope outcome_scope.
Local Open Scope nat_scope.

Lemma distance_num : forall d, distance d -> num d.
Proof. intros d H. apply SFleb_num in H. apply H. Qed.
Lemma eqb_infinity : forall d, SFeqb d infinity = match d with S754_infinity false => true | _ => false end.
Proof. intros [[]|[]| |[] m e]; reflexivity. Qed.
Definition good (d : dbl) : bool := negb (SFeqb d infinity).
Lemma good_finite : forall d, good d = true <-> finite d.
Proof. intros d. unfold good, finite. rewrite eqb_infinity. destruct d as [[]|[]| |[] m e]; cbn; split; intros; try reflexivity; try discriminate; congruence. Qed.
Lemma finite_count_good : forall l, finite_count l = length (List.filter good l).
Proof.
  intros l. unfold finite_count. apply (f_equal (@length dbl)). apply filter_ext. intros d. unfold good. rewrite eqb_infinity. destruct d as [[]|[]| |[] m e]; reflexivity.
Qed.

Lemma eqb_finite : forall m e n f, SFeqb (S754_finite false m e) (S754_finite false n f) = true -> m = n /\ e = f.
Proof.
  intros m e n f. unfold SFeqb, SFcompare. destruct (Z.compare_spec e f) as [->|?|?]; try discriminate.
  change (Pcompare m n Eq) with (m ?= n)%positive. destruct (Pos.compare_spec m n) as [->|?|?]; try discriminate. auto.
Qed.

(** ** The largest value *)
Lemma max_spec : forall l b, num b -> (forall x, In x l -> num x) ->
  In (max_element b l) (b :: l) /\ forall x, In x (b :: l) -> SFleb x (max_element b l) = true.
Proof.
  induction l as [|y l IH]; intros b Nb Nl; cbn [max_element].
  - split; [left; reflexivity|]. intros x [<-|[]]. apply SFleb_refl. assumption.
  - assert (Ny : num y) by (apply Nl; left; reflexivity).
    assert (Nl' : forall x, In x l -> num x) by (intros; apply Nl; right; assumption).
    destruct (SFltb b y) eqn:E.
    + destruct (IH y Ny Nl') as (I & M). split; [right; exact I|]. intros x [<-|I']; [|apply M; exact I'].
      eapply SFleb_trans; [apply SFltb_leb; exact E|apply M; left; reflexivity].
    + destruct (IH b Nb Nl') as (I & M). split; [destruct I as [I|I]; [left; exact I|right; right; exact I]|].
      intros x [<-|[<-|I']]; [apply M; left; reflexivity| |apply M; right; exact I'].
      apply SFleb_trans with b; [apply SFltb_false; assumption|apply M; left; reflexivity].
Qed.

(** ** The quantile *)
Lemma perm_count : forall (f : dbl -> bool) l l', Permutation l l' -> length (List.filter f l) = length (List.filter f l').
Proof.
  intros f l l' P. induction P; cbn; try reflexivity; try congruence.
  - destruct (f x); cbn; congruence.
  - destruct (f x), (f y); reflexivity.
Qed.
Lemma prefix_count : forall (f : dbl -> bool) l k, k < length l -> (forall i y, i <= k -> nth_error l i = Some y -> f y = true) -> k + 1 <= length (List.filter f l).
Proof.
  intros f. induction l as [|x l IH]; intros k Hk H; cbn in *; [lia|].
  rewrite (H 0 x) by (try reflexivity; lia). cbn. destruct k as [|k]; [lia|].
  specialize (IH k ltac:(lia)). assert (k + 1 <= length (List.filter f l)); [|lia]. apply IH. intros i y Hi E. apply (H (S i) y); [lia|exact E].
Qed.

Lemma quantile_spec : forall nth r v dists, selects nth -> plus 24 128 r -> value r = Some v -> (v <= 1)%Q ->
  (Z.of_nat (length dists) < 2 ^ 31)%Z -> (forall d, In d dists -> distance d) -> (exists d, In d dists /\ finite d) ->
  exists limit, quantile nth dists (widen r) = Ok limit /\ In limit dists /\ finite limit /\
    (v * inject_Z (Z.of_nat (finite_count dists)) <= inject_Z (Z.of_nat (length (List.filter (fun d => SFleb d limit) (List.filter good dists)))))%Q.
Proof.
  intros nth r v dists Sel Pr Vr V1 Len Ds (d0 & I0 & F0). unfold quantile. change (@List.filter spec_float (fun d => negb (SFeqb d infinity)) dists) with (List.filter good dists).
  assert (R0 : SFleb (S754_zero false) (widen r) = true /\ SFleb (widen r) one = true /\ (SFeqb (widen r) one = true -> v == 1)%Q /\
    (SFeqb (widen r) one = false -> forall n, (0 < n < 2 ^ 31)%Z -> exists k, to_int (SFmul 53 1024 (of_int n) (widen r)) = Ok k /\ (0 <= k < n)%Z /\ (inject_Z n * v < inject_Z (k + 1))%Q)).
  { assert (D0 : forall z, (dyadic z 0 == inject_Z z)%Q) by (intros; unfold dyadic; change (2 ^ 0)%Q with 1%Q; ring).
    destruct r as [[]|[]| |[] m e]; try contradiction; try discriminate.
    - cbn in Vr. injection Vr as <-. repeat split; try reflexivity; [discriminate|]. intros _ n Hn. exists 0%Z. split; [|split; [lia|]].
      + destruct (of_int_spec n) as (a & b & -> & _ & _); [assert (2 ^ 31 < 2 ^ 53)%Z by reflexivity; lia|]. reflexivity.
      + rewrite Qmult_0_r. reflexivity.
    - destruct (widen_spec m e Pr) as (n & f & Ew & Bn & Vn). cbn [value] in Vr. injection Vr as Vr. fold (dyadic (Zpos m) e) in Vr. cbn [cond_Zopp] in Vr.
      fold (dyadic (Zpos m) e) in Vr. rewrite <- Vr in *. clear Vr v.
      assert (B1 : bounded 53 1024 4503599627370496 (-52) = true) by reflexivity.
      assert (O1 : (1 == dyadic 4503599627370496 (-52))%Q) by reflexivity.
      assert (L1 : SFleb (widen (S754_finite false m e)) one = true).
      { rewrite Ew. apply (finite_order 53 1024); [lia|exact Bn|exact B1|]. rewrite Vn, <- O1. exact V1. }
      split; [rewrite Ew; reflexivity|]. split; [exact L1|]. split.
      + rewrite Ew. intros E. unfold one in E. apply eqb_finite in E. destruct E as (-> & ->). rewrite <- Vn, <- O1. reflexivity.
      + intros E n' Hn. assert (Lt : (dyadic (Zpos m) e < 1)%Q).
        { destruct (Qlt_le_dec (dyadic (Zpos m) e) 1) as [|G]; [assumption|]. exfalso.
          assert (SFleb one (widen (S754_finite false m e)) = true) by (rewrite Ew; apply (finite_order 53 1024); [lia|exact B1|exact Bn|]; rewrite Vn, <- O1; exact G).
          rewrite Ew in *. destruct (leb_antisym _ _ _ _ L1 H) as (-> & ->). discriminate. }
        destruct (quantile_index n' m e Hn Pr Lt) as (k & K1 & K2 & K3). exists k. split; [exact K1|]. split; [exact K2|]. rewrite !D0 in K3. exact K3. }
  destruct R0 as (R0 & R1 & R2 & R3). rewrite R0, R1. cbn [andb check bind].
  assert (Iv : forall x, In x (List.filter good dists) <-> In x dists /\ finite x) by (intros; rewrite filter_In, good_finite; tauto).
  assert (Nv : forall x, In x (List.filter good dists) -> num x) by (intros x I; apply Iv in I; apply distance_num, Ds; tauto).
  rewrite finite_count_good. set (values := List.filter good dists) in *.
  assert (Lv : length values <= length dists) by (unfold values; clear; induction dists; cbn; [lia|]; destruct (good a); cbn; lia).
  assert (NN : existsb is_nan values = false).
  { destruct (existsb is_nan values) eqn:E; [|reflexivity]. apply existsb_exists in E. destruct E as (x & I & N). apply Nv in I. destruct x; try discriminate. exfalso. apply I. reflexivity. }
  assert (Ex : In d0 values) by (apply Iv; auto).
  clearbody values. destruct values as [|w ws]; [contradiction|]. rewrite NN. set (values := w :: ws) in *.
  destruct (SFeqb (widen r) one) eqn:Eq.
  - destruct (max_spec ws w) as (I & M); [apply Nv; left; reflexivity|intros; apply Nv; right; assumption|].
    fold values in I, M. exists (max_element w ws). split; [reflexivity|]. apply Iv in I. destruct I as (I1 & I2). split; [assumption|]. split; [assumption|].
    rewrite (R2 eq_refl), Qmult_1_l, <- Zle_Qle. apply Nat2Z.inj_le.
    assert (A : forall l, (forall x, In x l -> SFleb x (max_element w ws) = true) -> length l <= length (List.filter (fun d => SFleb d (max_element w ws)) l)).
    { clear. induction l as [|a l IH]; intros M; cbn [List.filter length]; [lia|]. rewrite (M a) by (left; reflexivity). cbn [length].
      apply le_n_S, IH. intros x Ix. apply M. right. exact Ix. }
    apply A. exact M.
  - assert (Pos : (0 < Z.of_nat (length values) < 2 ^ 31)%Z) by (unfold values in *; cbn [length] in *; lia).
    destruct (R3 eq_refl _ Pos) as (k & Ek & Hk & Lk).
    match goal with |- context [to_int ?t] => change (to_int t) with (to_int (SFmul 53 1024 (of_int (Z.of_nat (length values))) (widen r))) end.
    rewrite Ek. cbn [bind].
    destruct (Sel values (Z.to_nat k)) as (P & x & Nx & O); [lia|intros y Iy E; subst y; apply (Nv _ Iy); reflexivity|].
    rewrite Nx. destruct (Z.ltb_spec k 0); [lia|]. exists x. split; [reflexivity|].
    assert (Ix : In x values) by (eapply Permutation_in; [apply Permutation_sym; exact P|eapply nth_error_In; exact Nx]).
    apply Iv in Ix as Ix'. destruct Ix' as (I1 & I2). split; [assumption|]. split; [assumption|].
    assert (C : Z.to_nat k + 1 <= length (List.filter (fun d => SFleb d x) values)).
    { rewrite (perm_count _ _ _ P). apply prefix_count.
      - rewrite <- (Permutation_length P). lia.
      - intros i y Hi E. assert (Ny : num y) by (apply Nv; eapply Permutation_in; [apply Permutation_sym; exact P|eapply nth_error_In; exact E]).
        destruct (Nat.eq_dec i (Z.to_nat k)) as [->|N]; [assert (y = x) by congruence; subst y; apply SFleb_refl; assumption|].
        apply SFltb_false; [apply Nv; assumption|assumption|]. apply (O i y E). lia. }
    apply Qlt_le_weak. eapply Qlt_le_trans; [rewrite Qmult_comm; exact Lk|]. rewrite <- Zle_Qle. lia.
Qed.

(** ** The kept matches *)
Lemma keep_spec : forall limit dists ids i, length ids = length dists -> finite limit -> num limit -> (forall d, In d dists -> num d) ->
  let kept := keep i (combine dists (combine ids (map (fun d => SFleb d limit) dists))) in
  length kept = length (List.filter (fun d => SFleb d limit) dists) /\
  StronglySorted lt (map fst kept) /\ (forall j, In j (map fst kept) -> i <= j) /\
  (forall j id, In (j, id) kept <-> exists n d, j = i + n /\ nth_error dists n = Some d /\ nth_error ids n = Some id /\ SFleb d limit = true).
Proof.
  intros limit dists. induction dists as [|d dists IH]; intros [|id ids] i L Fl Nl N; try discriminate; cbn [map combine keep List.filter].
  - cbn. repeat split; try constructor; try contradiction. intros (n & x & _ & E & _). destruct n; discriminate.
  - cbn [length] in L. injection L as L. destruct (IH ids (S i) L Fl Nl ltac:(intros; apply N; right; assumption)) as (A & B & C & D). clear IH.
    set (kept := keep (S i) _) in *. cbv zeta in *.
    assert (Shift : forall j id', In (j, id') kept <-> exists n d', j = i + S n /\ nth_error dists n = Some d' /\ nth_error ids n = Some id' /\ SFleb d' limit = true).
    { intros j id'. rewrite D. split; intros (n & x & E & R); exists n, x; (split; [lia|exact R]). }
    assert (Inf : SFeqb d infinity = true -> SFleb d limit = false).
    { rewrite eqb_infinity. destruct d as [[]|[]| |[] m e]; try discriminate. intros _. destruct limit as [[]|[]| |[] m e]; try reflexivity. exfalso. apply Fl. reflexivity. }
    assert (Skip : SFleb d limit = false -> length kept = length (if SFleb d limit then d :: List.filter (fun d0 => SFleb d0 limit) dists else List.filter (fun d0 => SFleb d0 limit) dists) /\
      StronglySorted lt (map fst kept) /\ (forall j, In j (map fst kept) -> i <= j) /\
      (forall j id', In (j, id') kept <-> exists n d', j = i + n /\ nth_error (d :: dists) n = Some d' /\ nth_error (id :: ids) n = Some id' /\ SFleb d' limit = true)).
    { intros E. rewrite E. split; [assumption|]. split; [assumption|]. split; [intros j Ij; apply C in Ij; lia|].
      intros j id'. rewrite Shift. split.
      - intros (n & x & En & R). exists (S n), x. split; [exact En|exact R].
      - intros ([|n] & x & En & E1 & E2 & E3); cbn in E1, E2; [congruence|]. exists n, x. auto. }
    destruct (SFeqb d infinity) eqn:Ei; [apply Skip, Inf; reflexivity|]. destruct (SFleb d limit) eqn:El; [|apply Skip; reflexivity].
    cbn [length map fst]. split; [congruence|]. split; [constructor; [assumption|apply Forall_forall; intros j Ij; apply C in Ij; lia]|].
    split; [intros j [<-|Ij]; [lia|apply C in Ij; lia]|]. intros j id'. split.
    + intros [E|I]; [injection E as <- <-; exists 0, d; split; [lia|auto]|]. apply Shift in I. destruct I as (n & x & En & R). exists (S n), x. split; [exact En|exact R].
    + intros ([|n] & x & En & E1 & E2 & E3); cbn in E1, E2; [left; f_equal; [lia|congruence]|]. right. apply Shift. exists n, x. auto.
Qed.

Lemma filter_true_count : forall (f : dbl -> bool) l, length (List.filter (fun w => w) (map f l)) = length (List.filter f l).
Proof. intros f. induction l as [|x l IH]; cbn; [reflexivity|]. destruct (f x); cbn; congruence. Qed.
Lemma filter_good_below : forall limit l, finite limit -> List.filter (fun d => SFleb d limit) (List.filter good l) = List.filter (fun d => SFleb d limit) l.
Proof.
  intros limit l F. induction l as [|x l IH]; cbn; [reflexivity|]. destruct (good x) eqn:G; cbn; [rewrite IH; reflexivity|].
  rewrite IH. destruct (SFleb x limit) eqn:E; [|reflexivity]. exfalso. unfold good in G. rewrite eqb_infinity in G.
  destruct x as [[]|[]| |[] m e]; try discriminate. destruct limit as [[]|[]| |[] m e]; try discriminate. apply F. reflexivity.
Qed.

Lemma reject_spec : forall nth r v dists ids size, selects nth -> plus 24 128 r -> value r = Some v -> (v <= 1)%Q ->
  length ids = length dists -> (Z.of_nat (length dists) < 2 ^ 31)%Z -> (forall d, In d dists -> distance d) ->
  (forall i d id, nth_error dists i = Some d -> nth_error ids i = Some id -> finite d -> id < size) ->
  (exists d, In d dists /\ finite d) ->
  exists kept, reject nth (widen r) (length dists) size dists ids = Ok kept /\ kept <> [] /\
    StronglySorted lt (map fst kept) /\
    (forall i id, In (i, id) kept -> nth_error ids i = Some id /\ id < size /\ exists d, nth_error dists i = Some d /\ finite d) /\
    (forall i j d d', In i (map fst kept) -> ~ In j (map fst kept) -> nth_error dists i = Some d -> nth_error dists j = Some d' -> SFleb d d' = true) /\
    (v * inject_Z (Z.of_nat (finite_count dists)) <= inject_Z (Z.of_nat (length kept)))%Q.
Proof.
  intros nth r v dists ids size Sel Pr Vr V1 Li Len Ds Ids Ex.
  destruct (quantile_spec nth r v dists Sel Pr Vr V1 Len Ds Ex) as (limit & Q & Il & Fl & Cnt).
  assert (Nl : num limit) by (apply distance_num, Ds; assumption).
  assert (Nd : forall d, In d dists -> num d) by (intros; apply distance_num, Ds; assumption).
  destruct (keep_spec limit dists ids 0 Li Fl Nl Nd) as (K1 & K2 & _ & K4). cbv zeta in K1, K2, K4.
  unfold reject. rewrite Q. cbn [bind]. rewrite map_length, Nat.eqb_refl. cbn [check bind]. unfold error_elements.
  set (kept := keep 0 _) in *. rewrite filter_true_count, <- K1, Li, Nat.eqb_refl.
  assert (Pos : 0 < length kept).
  { rewrite K1. assert (In limit (List.filter (fun d => SFleb d limit) dists)) by (apply filter_In; split; [assumption|apply SFleb_refl; assumption]).
    destruct (List.filter (fun d => SFleb d limit) dists); [contradiction|cbn; lia]. }
  assert (Pd : 0 < length dists) by (destruct dists; [destruct Il|cbn; lia]).
  rewrite (proj2 (Nat.ltb_lt _ _) Pd). cbn [check bind]. rewrite (proj2 (Nat.ltb_lt _ _) Pos), Nat.eqb_refl. cbn [check bind].
  assert (Info : forall i id, In (i, id) kept -> nth_error ids i = Some id /\ id < size /\ exists d, nth_error dists i = Some d /\ finite d /\ SFleb d limit = true).
  { intros i id I. apply K4 in I. destruct I as (n & d & -> & E1 & E2 & E3). cbn [Nat.add].
    assert (F : finite d). { intros ->. destruct limit as [[]|[]| |[] m e]; try discriminate. apply Fl. reflexivity. }
    split; [assumption|]. split; [eapply Ids; eassumption|]. exists d. auto. }
  assert (Fa : forallb (fun x => Nat.ltb (snd x) size) kept = true).
  { apply forallb_forall. intros [i id] I. apply Nat.ltb_lt. apply (Info i id I). }
  rewrite Fa. exists kept. split; [reflexivity|]. split; [destruct kept; [cbn in Pos; lia|discriminate]|]. split; [assumption|].
  split; [intros i id I; destruct (Info i id I) as (A & B & d & C & D & _); split; [assumption|]; split; [assumption|]; eauto|]. split.
  - intros i j d d' Ii Ij Ei Ej. apply in_map_iff in Ii. destruct Ii as ((i' & id) & <- & Ii). cbn [fst] in Ei.
    destruct (Info _ _ Ii) as (_ & _ & d1 & E1 & _ & L1). assert (d1 = d) by congruence. subst d1.
    assert (L2 : SFleb d' limit = false).
    { destruct (SFleb d' limit) eqn:E; [|reflexivity]. exfalso. apply Ij.
      destruct (nth_error ids j) as [idj|] eqn:Eidj; [|apply nth_error_None in Eidj; assert (j < length dists) by (apply nth_error_Some; congruence); lia].
      apply in_map_iff. exists (j, idj). split; [reflexivity|]. apply K4. exists j, d'. auto. }
    eapply SFleb_trans; [exact L1|]. apply SFltb_leb, SFleb_false; [|assumption|assumption]. apply Nd. eapply nth_error_In; eassumption.
  - rewrite K1, <- (filter_good_below limit dists Fl). exact Cnt.
Qed.
