(** C147 and C148: the graph and the map of a join. *)
From Coq Require Import List Bool ZArith Lia.
From Verif Require Import Outcome JoinModel JoinSpec JoinProofs.
Import ListNotations.
Local Open Scope outcome_scope.
Local Open Scope Z_scope.

(** Submaps with indices below 2^32 have different keys; the solver accepts them for trajectories below 2^24. *)
Theorem C147_keys : forall t i u j, 0 <= t < 2 ^ 32 -> 0 <= i < 2 ^ 32 -> 0 <= u < 2 ^ 32 -> 0 <= j < 2 ^ 32 ->
  (key (t, i) = key (u, j) -> t = u /\ i = j) /\ sym (key (t, i)) = (if t <? 2 ^ 24 then Ok (t * 2 ^ 32 + i) else Throw).
Proof.
  intros t i u j T I U J.
  assert (K : forall a b, 0 <= a < 2 ^ 32 -> 0 <= b < 2 ^ 32 -> key (a, b) = a * 2 ^ 32 + b).
  { intros a b A B. unfold key. cbn [fst snd]. rewrite (Z.mod_small a), (Z.mod_small b) by lia. apply Z.mod_small. lia. }
  rewrite !K by auto. split; [lia|]. unfold sym. destruct (Z.ltb_spec t (2 ^ 24)), (Z.ltb_spec (t * 2 ^ 32 + i) (2 ^ 56)); try reflexivity; lia.
Qed.
Print Assumptions C147_keys.

Section Props.
Variable P : Type.
Variable rel : P -> P -> P.
Notation package := (JoinModel.package P).
Notation factor := (JoinModel.factor P).
Notation sub := (JoinModel.sub P).
Notation st := (JoinModel.st P).
Variable detect : list sub -> list nat -> option (Z * Z) -> nat -> list (nat * P).
Variable solve : list factor -> list (Z * P) -> Z -> P.
Notation mem := (JoinModel.mem P).
Notation base := (JoinModel.base P).
Notation s_id := (JoinModel.s_id P).
Notation s_conn := (JoinModel.s_conn P).
Notation given := (JoinModel.given P).
Notation vals := (JoinModel.vals P).
Notation session := (JoinModel.session P rel detect solve).
Notation over := (JoinSpec.over P).
Notation ids := (JoinSpec.ids P).
Notation flat := (JoinSpec.flat P).
Notation sub_at := (JoinSpec.sub_at P).

(** Proper files are joined without a failure; the solver is given every submap once, with its pose as read, and
    every connection once, between the submaps it was made for. *)
Theorem C147_graph : forall b is, in_window P detect -> Forall (proper P) (b :: is) -> fits P (b :: is) -> flat 0 b <> [] ->
  exists s, session (Some b) (map Some is) = Ok s /\ vals s = combine (map key (over ids 0 (b :: is))) (over (poses P) 0 (b :: is)) /\
    NoDup (map fst (vals s)) /\ filter (is_edge P) (given s) = over (edges P rel) 0 (b :: is).
Proof.
  intros b is W H F N. destruct (session_ok P rel detect solve is b W H F N) as (s & R & S). exists s. split; [exact R|]. split; [apply S|]. split; [|apply S].
  rewrite (J_vals _ _ _ _ (SI_J _ _ _ _ _ S)), firstn_all. pose proof (over_good P (b :: is) H F) as (O & D & _). revert O D.
  generalize (over ids 0 (b :: is)). induction l as [|p l IH]; intros O D; [constructor|]. inversion_clear D. cbn [map]. constructor.
  - intros X. apply in_map_iff in X as (q & E & X). apply key_inj in E; [subst; contradiction|apply O; cbn; auto|apply O; cbn; auto].
  - apply IH; auto. intros q Q. apply O. cbn. auto.
Qed.
(** A closed loop leads from a submap of the base map, not its last one, to a submap of an incremental map, however
    many of these there are: incremental maps are never connected with each other by loops. *)
Theorem C147_loops : forall b is s f, in_window P detect -> Forall (proper P) (b :: is) -> fits P (b :: is) -> flat 0 b <> [] ->
  session (Some b) (map Some is) = Ok s -> In f (given s) -> is_loop P f = true ->
  exists p q t, f = Between P (key p) (key q) t true /\ In p (removelast (ids 0 b)) /\ In q (over ids (Z.of_nat (length b)) is).
Proof.
  intros b is s f W H F N R I L. destruct (session_ok P rel detect solve is b W H F N) as (s' & R' & S). assert (s' = s) by congruence. subst s'.
  pose proof (SI_loops _ _ _ _ _ S) as X. rewrite Forall_forall in X. destruct (X f I L) as (p & q & t & E & A & B). exists p, q, t. split; [exact E|].
  cbn [JoinSpec.over] in A, B. rewrite Z.add_0_l in *. assert (Le : length (ids 0 b) = length (flat 0 b)) by apply map_length. rewrite <- Le in A, B.
  rewrite skipn_app, skipn_all, Nat.sub_diag in B. split; [|exact B].
  rewrite removelast_firstn_len. rewrite firstn_app in A. replace (length (ids 0 b) - 1 - length (ids 0 b))%nat with 0%nat in A by lia.
  cbn [firstn] in A. rewrite app_nil_r in A. rewrite <- Nat.sub_1_r. exact A.
Qed.

Lemma filter_flat : forall X Y (f : Y -> bool) (g : X -> list Y) l, filter f (flat_map g l) = flat_map (fun x => filter f (g x)) l.
Proof. induction l as [|x l IH]; [reflexivity|]. cbn. rewrite filter_app, IH. reflexivity. Qed.
Lemma length_flat : forall X Y (g : X -> list Y) l, length (flat_map g l) = fold_right (fun x n => (length (g x) + n)%nat) 0%nat l.
Proof. induction l as [|x l IH]; [reflexivity|]. cbn. rewrite app_length, IH. reflexivity. Qed.
Lemma edges_no_prior : forall k off p, filter (is_prior_of P k) (edges P rel off p) = [].
Proof.
  intros k off p. pose proof (edges_all P rel off p) as H. induction H as [|f l [A B] H IH]; [reflexivity|]. cbn [filter].
  destruct f as [|a c t []]; try discriminate; auto.
Qed.
(** The prior of one submap among those of a list with different keys. *)
Lemma priors_of : forall (L : list sub) k x, NoDup (map key (map s_id L)) -> (forall y, In y L -> ok_id (s_id y)) -> nth_error L k = Some x -> snd (s_id x) = 0 ->
  length (filter (is_prior_of P (key (s_id x))) (priors P L)) = 1%nat /\
  forall m, length (filter (is_prior_of P (key (s_id x))) (priors P (firstn m L))) = if (k <? m)%nat then 1%nat else 0%nat.
Proof.
  intros L k x D O E Z.
  assert (A : forall m, length (filter (is_prior_of P (key (s_id x))) (priors P (firstn m L))) = if (k <? m)%nat then 1%nat else 0%nat).
  { revert k E D O. induction L as [|y L IH]; intros [|k] E D O m; try discriminate E.
    - injection E as ->. destruct m as [|m]; [reflexivity|]. cbn [firstn priors flat_map]. fold (priors P (firstn m L)). unfold prior at 1. rewrite Z. cbn [Z.eqb app filter is_prior_of].
      rewrite Z.eqb_refl. cbn [length Nat.ltb Nat.leb]. f_equal. cbn [map] in D. inversion_clear D.
      assert (X : forall l, (forall y, In y l -> In y L) -> filter (is_prior_of P (key (s_id x))) (priors P l) = []).
      { induction l as [|y l IHl]; intros S; [reflexivity|]. cbn [priors flat_map]. rewrite filter_app. fold (priors P l). rewrite IHl by (intros; apply S; cbn; auto). rewrite app_nil_r.
        unfold prior. destruct (snd (s_id y) =? 0); [|reflexivity]. cbn [filter is_prior_of]. destruct (Z.eqb_spec (key (s_id y)) (key (s_id x))) as [Y|]; [|reflexivity].
        exfalso. apply H. rewrite <- Y. apply in_map, in_map, S. cbn. auto. }
      rewrite X; [reflexivity|]. intros y Y. apply firstn_in in Y. exact Y.
    - destruct m as [|m]; [reflexivity|]. cbn [nth_error] in E. cbn [map] in D. inversion_clear D. cbn [firstn priors flat_map]. fold (priors P (firstn m L)).
      rewrite filter_app, app_length, (IH k E H0) by (intros; apply O; cbn; auto).
      change (S k <? S m)%nat with (k <? m)%nat. unfold prior. destruct (snd (s_id y) =? 0); [|reflexivity]. cbn [filter is_prior_of].
      destruct (Z.eqb_spec (key (s_id y)) (key (s_id x))) as [Y|]; [|reflexivity]. exfalso. apply H. rewrite Y. apply in_map, in_map. apply nth_error_In in E. exact E. }
  split; [|exact A]. specialize (A (length L)). rewrite firstn_all in A. rewrite A. apply nth_len in E. destruct (Nat.ltb_spec k (length L)); [reflexivity|lia].
Qed.
Lemma sum_ones : forall k n s, fold_right (fun m z => ((if (k <? m)%nat then 1 else 0) + z)%nat) 0%nat (seq s n) = (n - (S k - s))%nat.
Proof. intros k n. induction n as [|n IH]; intros s; [reflexivity|]. cbn [seq fold_right]. rewrite IH. destruct (Nat.ltb_spec k s); lia. Qed.
(** The prior of the first submap of a trajectory of the base map is given once for every submap from it on, and once
    more with the first connection. *)
Theorem C147_priors : forall b s k x, proper P b -> fits P [b] -> session (Some b) [] = Ok s -> nth_error (flat 0 b) k = Some x -> fst (fst (snd x)) = 0 ->
  length (filter (is_prior_of P (key (fst x, 0))) (given s)) = (length (flat 0 b) - k + (match edges P rel 0 b with [] => 0 | _ => 1 end))%nat.
Proof.
  intros b s k x H F R E Z. assert (N : flat 0 b <> []) by (intros X; rewrite X in E; destruct k; discriminate E).
  assert (G : good (ids 0 b)) by (rewrite <- over_one; apply over_good; auto).
  destruct (load_base_ok P rel detect b H G N) as (s' & L & _ & Gv). unfold JoinModel.session in R. rewrite L in R. cbn [bind run map] in R. injection R as ->. rewrite Gv.
  set (L0 := map (rdo P 0) (flat 0 b)) in *.
  assert (Ex : nth_error L0 k = Some (rdo P 0 x)) by (unfold L0; rewrite nth_error_map, E; reflexivity).
  assert (Ix : s_id (rdo P 0 x) = (fst x, 0)) by (unfold rdo; cbn [JoinModel.s_id]; rewrite Z, Z.add_0_r; reflexivity).
  assert (Im : map s_id L0 = ids 0 b) by (unfold L0; rewrite map_map; reflexivity).
  destruct G as (O & D & _).
  destruct (priors_of L0 k (rdo P 0 x)) as [P1 P2]; auto.
  - rewrite Im. clear - O D. induction (ids 0 b) as [|p l IH]; [constructor|]. inversion_clear D. cbn [map]. constructor.
    + intros X. apply in_map_iff in X as (q & Y & X). apply key_inj in Y; [subst; contradiction|apply O; cbn; auto|apply O; cbn; auto].
    + apply IH; auto. intros q Q. apply O. cbn. auto.
  - intros y Y. apply O. rewrite <- Im. apply in_map, Y.
  - rewrite Ix in P1, P2. rewrite !filter_app, !app_length, edges_no_prior. unfold base_given. fold L0. rewrite filter_flat, length_flat.
    assert (fold_right (fun m n => (length (filter (is_prior_of P (key (fst x, 0%Z))) (priors P (firstn m L0))) + n)%nat) 0%nat (seq 1 (length (flat 0 b))) = (length (flat 0 b) - k)%nat) as ->.
    { transitivity (fold_right (fun m z => ((if (k <? m)%nat then 1 else 0) + z)%nat) 0%nat (seq 1 (length (flat 0 b)))); [|rewrite sum_ones; lia].
      induction (seq 1 (length (flat 0 b))) as [|m l IH]; [reflexivity|]. cbn [fold_right]. rewrite IH, P2. reflexivity. }
    destruct (edges P rel 0 b); cbn [length filter]; [lia|]. rewrite P1. lia.
Qed.
(** A file that cannot be read aborts, and so does a second base map: its submaps, or those of the first, are given twice. *)
Theorem C147_failures : forall b b' s is, proper P b -> fits P [b] -> flat 0 b <> [] -> load_base P rel detect (Some b) (fresh P) = Ok s ->
  load_base P rel detect None s = Abort /\ load_inc P rel detect solve None s = Abort /\ session None is = Abort /\
  load_base P rel detect (Some b') s = Throw.
Proof.
  intros b b' s is H F N L. repeat (split; [reflexivity|]).
  assert (G : good (ids 0 b)) by (rewrite <- over_one; apply over_good; auto).
  destruct (load_base_ok P rel detect b H G N) as (s' & L' & S & _). assert (s' = s) by congruence. subst s'. clear L'.
  pose proof (SI_base _ _ _ _ _ S) as B. pose proof (SI_ids _ _ _ _ _ S) as M. pose proof (SI_J _ _ _ _ _ S) as Hj.
  cbn [concat JoinSpec.over] in B, M, Hj. rewrite app_nil_r in *. unfold load_base.
  destruct (load P (Z.of_nat (length (base s))) b' (mem s)) as [m ts] eqn:E.
  pose proof (load_mem P b' (Z.of_nat (length (base s))) (mem s)) as Lm. rewrite E in Lm. cbn [fst] in Lm.
  cbn [JoinModel.base]. rewrite map_app, concat_app, B, layout_concat.
  destruct (ids 0 b) as [|q I] eqn:Ei; [unfold JoinSpec.ids in Ei; apply map_eq_nil in Ei; contradiction|].
  destruct (flat 0 b) as [|x0 fl] eqn:Ef; [congruence|]. cbn [length seq app run].
  destruct (mem s) as [|x ms] eqn:Em; [discriminate M|]. injection M as Mx _.
  unfold add_submap at 1. cbn [JoinModel.mem]. rewrite Lm. cbn [app get nth_error bind]. rewrite Mx.
  assert (K : ok_id q) by (apply G; cbn; auto).
  unfold add_vertex. rewrite (sym_ok q K). cbn [bind JoinModel.vals].
  rewrite existsb_in; [reflexivity|]. rewrite (J_vals _ _ _ _ Hj), firstn_all. cbn. auto.
Qed.

(** ** The joined map *)
Lemma layout_pos : forall pks k p t tr i r, nth_error pks k = Some p -> nth_error p t = Some tr -> nth_error tr i = Some r ->
  let off := length (concat (firstn k pks)) in
  exists z a, nth_error (layout P 0 0 (concat pks)) (off + t) = Some (Z.of_nat (off + t), z) /\ length z = length tr /\ nth_error z i = Some a /\
    nth_error (over (JoinSpec.conns P) 0 pks) a = Some (map (shift (Z.of_nat off)) (snd r)) /\
    nth_error (over ids 0 pks) a = Some (Z.of_nat (off + t), fst (fst r)) /\
    (k = 0%nat -> (a < length (flat 0 p))%nat) /\ (forall q, nth_error pks 0 = Some q -> (0 < k)%nat -> (length (flat 0 q) <= a)%nat).
Proof.
  intros pks k p t tr i r Ek Et Ei off. set (pre := firstn k pks) in *. set (N0 := length (flat 0 (concat pre))).
  assert (Ep : exists rest, pks = pre ++ p :: rest).
  { exists (skipn (S k) pks). unfold pre. clear - Ek. revert k Ek. induction pks as [|q pks IH]; intros [|k] E; try discriminate E; cbn in *; [congruence|]. f_equal. apply IH, E. }
  destruct Ep as (rest & Ep).
  destruct (layout_nth P p (Z.of_nat off) N0 t tr Et) as (b0 & B1 & B2 & B3). specialize (B3 i r Ei).
  exists (seq b0 (length tr)), (b0 + i)%nat.
  assert (Li : (i < length tr)%nat) by (apply (nth_len _ _ _ _ Ei)). assert (Lt : (t < length p)%nat) by (apply (nth_len _ _ _ _ Et)).
  assert (Lf : (b0 + i - N0 < length (flat (Z.of_nat off) p))%nat) by (apply (nth_len _ _ _ _ B3)).
  assert (Lc : forall X (f : Z -> package -> list X), (forall o q, length (f o q) = length (flat 0 q)) -> length (over f 0 pre) = N0).
  { intros X f Hf. unfold N0. clear - Hf. generalize 0 at 1. induction pre as [|q l IH]; intros z; [reflexivity|]. cbn [JoinSpec.over concat]. rewrite flat_app, !app_length, Hf, IH. f_equal. apply flat_length. }
  assert (Ov : forall X (f : Z -> package -> list X) w, (forall o q, length (f o q) = length (flat 0 q)) -> nth_error (f (Z.of_nat off) p) (b0 + i - N0) = Some w -> nth_error (over f 0 pks) (b0 + i) = Some w).
  { intros X f w Hf W. rewrite Ep, over_app. cbn [JoinSpec.over]. rewrite nth_error_app2; rewrite (Lc X f Hf); [|lia].
    rewrite nth_error_app1; [exact W|]. rewrite Hf, (flat_length P p 0 (Z.of_nat off)). exact Lf. }
  assert (B4 : nth_error (flat 0 p) (b0 + i - N0) = Some (Z.of_nat t, r)).
  { change (Z.of_nat off) with (0 + Z.of_nat off) in B3. rewrite flat_shift, nth_error_map in B3. destruct (nth_error (flat 0 p) (b0 + i - N0)) as [[u v]|]; [|discriminate B3].
    cbn [option_map fst snd] in B3. injection B3 as B3 ->. do 2 f_equal. lia. }
  split.
  { rewrite Ep, concat_app. cbn [concat]. rewrite !layout_app. rewrite nth_error_app2 by (rewrite layout_length; fold off; lia). rewrite layout_length. fold off. replace (off + t - off)%nat with t by lia.
    rewrite nth_error_app1 by (rewrite layout_length; exact Lt). cbn [Nat.add]. fold N0. rewrite Z.add_0_l, B1. do 2 f_equal. lia. }
  split; [apply seq_length|]. split; [rewrite (nth_error_nth' _ 0%nat) by (rewrite seq_length; lia); rewrite seq_nth by lia; reflexivity|].
  split; [|split; [|split]].
  - apply Ov; [intros; apply map_length|]. unfold JoinSpec.conns. rewrite nth_error_map.
    transitivity (option_map (fun x : Z * JoinModel.raw P => map (shift (Z.of_nat off)) (snd (snd x))) (nth_error (flat 0 p) (b0 + i - N0))); [reflexivity|rewrite B4; reflexivity].
  - apply Ov; [intros; apply map_length|]. unfold JoinSpec.ids. rewrite nth_error_map.
    transitivity (option_map (fun x : Z * JoinModel.raw P => (fst x + Z.of_nat off, fst (fst (snd x)))) (nth_error (flat 0 p) (b0 + i - N0))); [reflexivity|rewrite B4; cbn [option_map fst snd]; do 2 f_equal; lia].
  - intros ->. unfold N0, pre in Lf. cbn [firstn concat JoinSpec.flat length] in Lf. rewrite (flat_length P p 0 (Z.of_nat off)). lia.
  - intros q Q K. assert (length (flat 0 q) <= N0)%nat; [|lia]. unfold N0, pre. destruct pks as [|q' pks]; [discriminate Q|]. injection Q as ->. destruct k; [lia|].
    cbn [firstn concat]. rewrite flat_app, app_length. lia.
Qed.
(** Every submap of every file is in the joined map: trajectories one file after the other, with the id of its place and
    its connections moved along; only submaps of the base map get more, to submaps of incremental maps. *)
Theorem C148_submaps : forall b is s k p t tr i r, in_window P detect -> Forall (proper P) (b :: is) -> fits P (b :: is) -> flat 0 b <> [] ->
  session (Some b) (map Some is) = Ok s -> nth_error (b :: is) k = Some p -> nth_error p t = Some tr -> nth_error tr i = Some r ->
  let off := length (concat (firstn k (b :: is))) in
  exists x e, sub_at s (off + t) i = Some x /\ s_id x = (Z.of_nat (off + t), Z.of_nat i) /\ s_conn x = map (shift (Z.of_nat off)) (snd r) ++ e /\
    (k <> 0%nat -> e = []) /\ Forall (fun c => In c (over ids (Z.of_nat (length b)) is)) e.
Proof.
  intros b is s k p t tr i r W H F N R Ek Et Ei off. destruct (session_ok P rel detect solve is b W H F N) as (s' & R' & S). assert (s' = s) by congruence. subst s'. clear R'.
  destruct (layout_pos (b :: is) k p t tr i r Ek Et Ei) as (z & a & A1 & A2 & A3 & A4 & A5 & A6 & A7). fold off in A1, A4, A5.
  pose proof (SI_ids _ _ _ _ _ S) as M.
  assert (Hr : fst (fst r) = Z.of_nat i). { rewrite Forall_forall in H. apply (H p (nth_error_In _ _ Ek) t tr Et i r Ei). }
  rewrite Hr in A5. rewrite <- M, nth_error_map in A5. destruct (nth_error (mem s) a) as [x|] eqn:X; [|discriminate A5]. cbn in A5. injection A5 as A5.
  exists x. set (nb := length (flat 0 b)) in *.
  assert (Lc : length (JoinSpec.conns P 0 b) = nb) by apply map_length.
  assert (Q : exists e, s_conn x = map (shift (Z.of_nat off)) (snd r) ++ e /\ (k <> 0%nat -> e = []) /\ Forall (fun c => In c (over ids (Z.of_nat (length b)) is)) e).
  { cbn [JoinSpec.over] in A4. destruct k as [|k].
    - injection Ek as <-. specialize (A6 eq_refl). rewrite nth_error_app1 in A4 by (rewrite Lc; exact A6).
      pose proof (SI_grown _ _ _ _ _ S) as G. fold nb in G.
      assert (X' : nth_error (firstn nb (mem s)) a = Some x).
      { rewrite <- (firstn_skipn nb (mem s)) in X. rewrite nth_error_app1 in X; [exact X|]. rewrite firstn_length. apply nth_len in X. rewrite firstn_skipn in X. unfold nb. lia. }
      assert (Y : forall l l' a c x, Forall2 (fun c y => exists e, s_conn y = c ++ e /\ Forall (fun q => In q (skipn nb (over ids 0 (b :: is)))) e) l l' -> nth_error l a = Some c -> nth_error l' a = Some x ->
         exists e, s_conn x = c ++ e /\ Forall (fun q => In q (skipn nb (over ids 0 (b :: is)))) e).
      { clear. induction l as [|u l IH]; intros l' [|a] c x G E E'; inversion G; subst; try discriminate; cbn [nth_error] in *; [injection E as <-; injection E' as <-; assumption|eauto]. }
      destruct (Y _ _ _ _ _ G A4 X') as (e & E1 & E2). exists e. split; [exact E1|]. split; [congruence|].
      eapply Forall_impl; [|exact E2]. intros q Q. cbn [JoinSpec.over] in Q. rewrite skipn_app in Q.
      assert (Le : length (ids 0 b) = nb) by apply map_length. rewrite skipn_all2, Le, Nat.sub_diag in Q by lia. cbn [app skipn] in Q.
      rewrite Z.add_0_l in Q. exact Q.
    - exists []. rewrite app_nil_r. split; [|auto]. specialize (A7 b eq_refl ltac:(lia)). fold nb in A7. rewrite nth_error_app2 in A4 by (rewrite Lc; exact A7). rewrite Lc, Z.add_0_l in A4.
      pose proof (SI_conns _ _ _ _ _ S) as C. fold nb in C. rewrite <- C, nth_error_map in A4.
      assert (X' : nth_error (skipn nb (mem s)) (a - nb) = Some x).
      { rewrite <- (firstn_skipn nb (mem s)) in X. rewrite nth_error_app2 in X by (rewrite firstn_length; lia). rewrite firstn_length in X.
        assert (nb <= length (mem s))%nat by (apply nth_len in X; rewrite skipn_length in X; lia). rewrite Nat.min_l in X by lia. exact X. }
      rewrite X' in A4. cbn [option_map] in A4. injection A4 as A4. exact A4. }
  destruct Q as (e & E1 & E2 & E3). exists e. split; [|auto]. unfold JoinSpec.sub_at. rewrite (SI_base _ _ _ _ _ S).
  match goal with |- match ?n with _ => _ end = _ => replace n with (Some (Z.of_nat (off + t), z)) by (symmetry; exact A1) end. rewrite A3. exact X.
Qed.
Lemma concat_nth : forall X (pks : list (list X)) t tr, nth_error (concat pks) t = Some tr ->
  exists k p u, nth_error pks k = Some p /\ nth_error p u = Some tr /\ t = (length (concat (firstn k pks)) + u)%nat.
Proof.
  induction pks as [|p pks IH]; intros t tr E; [destruct t; discriminate E|]. cbn [concat] in E. destruct (Nat.ltb_spec t (length p)) as [L|L].
  - rewrite nth_error_app1 in E by exact L. exists 0%nat, p, t. auto.
  - rewrite nth_error_app2 in E by exact L. destruct (IH _ _ E) as (k & q & u & A & B & C). exists (S k), q, u. cbn [nth_error firstn concat]. rewrite app_length. repeat split; auto. lia.
Qed.
Lemma flat_pos : forall (pk : package) t x, In x (flat t pk) -> exists k tr i, nth_error pk k = Some tr /\ nth_error tr i = Some (snd x) /\ fst x = t + Z.of_nat k.
Proof.
  induction pk as [|tr pk IH]; intros t x H; [destruct H|]. cbn [JoinSpec.flat] in H. apply in_app_or in H as [H|H].
  - apply in_map_iff in H as (r & <- & H). apply In_nth_error in H as [i H]. exists 0%nat, tr, i. cbn [fst]. repeat split; auto. lia.
  - destruct (IH _ _ H) as (k & tr' & i & A & B & C). exists (S k), tr', i. repeat split; auto. lia.
Qed.
(** There are no others, and every connection leads to a submap of the joined map: it can be a base map again. *)
Theorem C148_consistent : forall b is s, in_window P detect -> Forall (proper P) (b :: is) -> fits P (b :: is) -> flat 0 b <> [] ->
  session (Some b) (map Some is) = Ok s ->
  map fst (base s) = map Z.of_nat (seq 0 (length (base s))) /\ map (fun t => length (snd t)) (base s) = map (@length _) (concat (b :: is)) /\
  forall t i x, sub_at s t i = Some x -> s_id x = (Z.of_nat t, Z.of_nat i) /\
    forall c, In c (s_conn x) -> exists t' i' y, c = (Z.of_nat t', Z.of_nat i') /\ sub_at s t' i' = Some y.
Proof.
  intros b is s W H F N R. destruct (session_ok P rel detect solve is b W H F N) as (s' & R' & S). assert (s' = s) by congruence. subst s'. clear R'.
  pose proof (SI_base _ _ _ _ _ S) as B. split; [|split].
  - rewrite B. assert (X : forall (pk : package) t n, 0 <= t -> map fst (layout P t n pk) = map Z.of_nat (seq (Z.to_nat t) (length (layout P t n pk)))).
    { induction pk as [|tr pk IH]; intros t n T; [reflexivity|]. cbn [layout map fst length seq]. rewrite IH by lia. f_equal; [lia|]. do 2 f_equal. lia. }
    apply X. lia.
  - rewrite B. assert (X : forall (pk : package) t n, map (fun t => length (snd t)) (layout P t n pk) = map (@length _) pk).
    { induction pk as [|tr pk IH]; intros t n; [reflexivity|]. cbn [layout map snd]. rewrite seq_length, IH. reflexivity. }
    apply X.
  - intros t i x X.
    assert (E : exists tr r, nth_error (concat (b :: is)) t = Some tr /\ nth_error tr i = Some r).
    { unfold JoinSpec.sub_at in X. rewrite B in X. destruct (nth_error (concat (b :: is)) t) as [tr|] eqn:Et.
      - destruct (layout_nth P _ 0 0%nat t tr Et) as (b0 & Y & _). rewrite Y in X. destruct (nth_error (seq b0 (length tr)) i) as [a|] eqn:Ea; [|discriminate X].
        apply nth_len in Ea. rewrite seq_length in Ea. destruct (nth_ex _ tr i Ea) as [r Er]. eauto.
      - apply nth_error_None in Et. rewrite <- (layout_length P _ 0 0%nat) in Et. apply nth_error_None in Et. rewrite Et in X. discriminate X. }
    destruct E as (tr & r & Et & Er). destruct (concat_nth _ _ _ _ Et) as (k & p & u & Ek & Eu & ->).
    destruct (C148_submaps b is s k p u tr i r W H F N R Ek Eu Er) as (x' & e & X' & Id & Cn & _ & Fe). pose proof (eq_trans (eq_sym X') X) as XX. injection XX as ->.
    split; [exact Id|]. intros c C. rewrite Cn in C. apply in_app_or in C as [C|C].
    + apply in_map_iff in C as (c0 & <- & C). assert (Ex : exists_in P p c0).
      { rewrite Forall_forall in H. apply (H p (nth_error_In _ _ Ek) u tr Eu i r Er), C. }
      destruct Ex as (t1 & i1 & tr1 & -> & E1 & L1). destruct (nth_ex _ tr1 i1 L1) as [r1 Er1].
      destruct (C148_submaps b is s k p t1 tr1 i1 r1 W H F N R Ek E1 Er1) as (y & _ & Y & _). exists (length (concat (firstn k (b :: is))) + t1)%nat, i1, y.
      split; [|exact Y]. unfold shift. cbn [fst snd]. f_equal. lia.
    + rewrite Forall_forall in Fe. specialize (Fe c C). rewrite over_ids in Fe. apply in_map_iff in Fe as (z & <- & Z).
      apply flat_pos in Z as (t1 & tr1 & i1 & E1 & E2 & E3). destruct (concat_nth _ _ _ _ E1) as (k1 & p1 & u1 & K1 & K2 & K3).
      destruct (C148_submaps b is s (Datatypes.S k1) p1 u1 tr1 i1 (snd z) W H F N R K1 K2 E2) as (y & _ & Y & _). cbn [firstn concat] in Y. rewrite app_length in Y.
      exists (length b + length (concat (firstn k1 is)) + u1)%nat, i1, y. split; [|exact Y]. unfold idt. rewrite E3.
      assert (Hr : fst (fst (snd z)) = Z.of_nat i1). { rewrite Forall_forall in H. apply (H p1 (or_intror (nth_error_In _ _ K1)) u1 tr1 K2 i1 _ E2). }
      rewrite Hr. rewrite K3. unfold JoinModel.package in *. f_equal. lia.
Qed.
Notation raw_of := (JoinModel.raw_of P).
Notation pack := (JoinModel.pack P).
Lemma gather_nth : forall (m : list sub) l, (forall i a, nth_error l i = Some a -> exists x, nth_error m a = Some x) ->
  let f := flat_map (fun a => match nth_error m a with Some x => [raw_of x] | None => [] end) l in
  length f = length l /\ forall i r, nth_error f i = Some r -> exists a x, nth_error l i = Some a /\ nth_error m a = Some x /\ r = raw_of x.
Proof.
  intros m l. induction l as [|a l IH]; intros H; cbn [flat_map]; [split; [reflexivity|]; intros [|i] r E; discriminate E|].
  destruct (H 0%nat a eq_refl) as [x X]. rewrite X. destruct (IH (fun i => H (S i))) as [L N]. cbn [app length]. split; [rewrite L; reflexivity|].
  intros [|i] r E; cbn [nth_error] in *; [injection E as <-; eauto|apply N, E].
Qed.
(** It is written with every submap at its place, as the program reads files, and can be the base map of further joins. *)
Theorem C148_again : forall b is s js, in_window P detect -> Forall (proper P) (b :: is) -> fits P (b :: is ++ js) -> flat 0 b <> [] -> Forall (proper P) js ->
  session (Some b) (map Some is) = Ok s ->
  exists pk, JoinModel.save_whole P s = Ok pk /\ proper P pk /\ map (@length _) pk = map (@length _) (concat (b :: is)) /\
    (forall t i x, sub_at s t i = Some x -> exists tr, nth_error pk t = Some tr /\ nth_error tr i = Some (Z.of_nat i, JoinModel.s_pose P x, s_conn x)) /\
    exists s', session (Some pk) (map Some js) = Ok s'.
Proof.
  intros b is s js W H F N Hj R.
  assert (F1 : fits P (b :: is)).
  { destruct F as [F1 F2]. change (b :: is ++ js) with ((b :: is) ++ js) in *. rewrite concat_app in *. split; [rewrite app_length in F1; lia|]. intros tr I. apply F2, in_or_app. auto. }
  destruct (C148_consistent b is s W H F1 N R) as (_ & C2 & C3).
  assert (V : forall t l, nth_error (base s) t = Some l -> forall i a, nth_error (snd l) i = Some a -> exists x, nth_error (mem s) a = Some x).
  { intros t [z l] E i a Ea. cbn [snd] in Ea.
    assert (E1 : nth_error (map (fun t => length (snd t)) (base s)) t = Some (length l)) by (rewrite nth_error_map, E; reflexivity).
    rewrite C2, nth_error_map in E1. destruct (nth_error (concat (b :: is)) t) as [tr|] eqn:Et; [|discriminate E1]. cbn in E1. injection E1 as E1.
    destruct (nth_ex _ tr i) as [r Er]; [rewrite E1; apply nth_len in Ea; exact Ea|]. destruct (concat_nth _ _ _ _ Et) as (k & p & u & Ek & Eu & ->).
    destruct (C148_submaps b is s k p u tr i r W H F1 N R Ek Eu Er) as (x & _ & X & _). unfold JoinSpec.sub_at in X. unfold JoinModel.package in *. match type of X with context[nth_error (base s) ?q] => replace (nth_error (base s) q) with (Some (z, l)) in X by (symmetry; exact E) end. rewrite Ea in X. eauto. }
  assert (L : map (@length _) (pack s) = map (@length _) (concat (b :: is))).
  { rewrite <- C2. unfold JoinModel.pack. rewrite map_map. apply map_ext_in. intros l I. apply In_nth_error in I as [t I]. apply gather_nth, (V t l I). }
  assert (Pp : proper P (pack s)).
  { intros t tr Et i r Ei. unfold JoinModel.pack in Et. rewrite nth_error_map in Et. destruct (nth_error (base s) t) as [[z l]|] eqn:Eb; [|discriminate Et]. cbn in Et. injection Et as <-.
    destruct (gather_nth (mem s) l) as [_ G]; [exact (V t _ Eb)|]. destruct (G i r Ei) as (a & x & A1 & A2 & ->).
    assert (X : sub_at s t i = Some x) by (unfold JoinSpec.sub_at; rewrite Eb, A1; exact A2). destruct (C3 t i x X) as [Id Cn]. unfold JoinModel.raw_of. cbn [fst snd]. rewrite Id. split; [reflexivity|].
    intros c Hc. destruct (Cn c Hc) as (t' & i' & y & -> & Y). unfold JoinSpec.sub_at in Y. destruct (nth_error (base s) t') as [[z' l']|] eqn:Eb'; [|discriminate Y].
    destruct (nth_error l' i') as [a'|] eqn:Ea'; [|discriminate Y]. exists t', i'. eexists. split; [reflexivity|]. split; [unfold JoinModel.pack; rewrite nth_error_map, Eb'; reflexivity|].
    cbn [snd]. destruct (gather_nth (mem s) l') as [G' _]; [exact (V t' _ Eb')|]. rewrite G'. apply nth_len in Ea'. exact Ea'. }
  exists (pack s). split.
  { destruct (session_ok P rel detect solve is b W H F1 N) as (s1 & R1 & S1). assert (s1 = s) by congruence. subst s1. unfold JoinModel.save_whole.
    rewrite (SI_inc _ _ _ _ _ S1). reflexivity. }
  split; [exact Pp|]. split; [exact L|]. split.
  { intros t i x X. destruct (C3 t i x X) as [Id _]. unfold JoinSpec.sub_at in X. destruct (nth_error (base s) t) as [[z l]|] eqn:Eb; [|discriminate X].
    destruct (nth_error l i) as [a|] eqn:Ea; [|discriminate X]. eexists. split; [unfold JoinModel.pack; rewrite nth_error_map, Eb; reflexivity|]. cbn [snd].
    destruct (gather_nth (mem s) l) as [G1 G2]; [exact (V t _ Eb)|]. pose proof (nth_len _ _ _ _ Ea) as La. rewrite <- G1 in La.
    destruct (nth_ex _ _ _ La) as [r Er]. rewrite Er. destruct (G2 i r Er) as (a' & x' & A1 & A2 & ->). assert (a' = a) by congruence. subst a'. assert (x' = x) by congruence. subst x'.
    unfold JoinModel.raw_of. rewrite Id. reflexivity. }
  assert (F' : fits P (pack s :: js)).
  { destruct F as [F2 F3]. change (b :: is ++ js) with ((b :: is) ++ js) in *. rewrite concat_app, app_length in F2. cbn [concat]. assert (Lp : length (pack s) = length (concat (b :: is))).
    { rewrite <- (map_length (@length _) (pack s)), L. apply map_length. }
    split; [cbn [concat]; rewrite app_length, Lp; exact F2|]. intros tr I. cbn [concat] in I. apply in_app_or in I as [I|I].
    - apply (in_map (@length _)) in I. rewrite L in I. apply in_map_iff in I as (tr' & <- & I). apply F3. rewrite concat_app. apply in_or_app. auto.
    - apply F3. rewrite concat_app. apply in_or_app. auto. }
  assert (N' : flat 0 (pack s) <> []).
  { assert (G : forall (p q : package) z z', map (@length _) p = map (@length _) q -> length (flat z p) = length (flat z' q)).
    { induction p as [|u p IH]; intros [|v q] z z' E; try discriminate E; [reflexivity|]. cbn [map] in E. injection E as E1 E2. cbn [JoinSpec.flat]. rewrite !app_length, !map_length, (IH q (z + 1) (z' + 1) E2), E1. reflexivity. }
    intros X. apply (f_equal (@length _)) in X. rewrite (G _ _ 0 0 L) in X. cbn [concat] in X. rewrite flat_app, app_length in X. destruct (flat 0 b); [contradiction|discriminate X]. }
  destruct (C147_graph (pack s) js W ltac:(constructor; auto) F' N') as (s' & S' & _). eauto.
Qed.
End Props.
Print Assumptions C147_graph.
Print Assumptions C147_loops.
Print Assumptions C147_priors.
Print Assumptions C147_failures.
Print Assumptions C148_submaps.
Print Assumptions C148_consistent.
Print Assumptions C148_again.

(** ** Concrete files *)
(** Poses on a line.  A base map of two submaps, the second connected to the first, and a map of two trajectories, the
    second connected to the first.  The detector finds the first frame for every submap of an incremental map. *)
Definition rel1 (a b : Z) : Z := b - a.
Definition detect1 (m : list (sub Z)) (fr : list nat) (w : option (Z * Z)) (a : nat) : list (nat * Z) :=
  match w with Some (0, b) => if 0 <? b then [(0%nat, 7)] else [] | _ => [] end.
Definition solve1 (g : list (factor Z)) (v : list (Z * Z)) (k : Z) : Z := 5.
Definition base1 : package Z := [[(0, 10, []); (1, 13, [(0, 0)])]].
Definition inc1 : package Z := [[(0, 20, [])]; [(0, 24, [(0, 0)])]].
Definition is_ok {X} (m : outcome X) : bool := match m with Ok _ => true | _ => false end.
Example C147_ex_files : in_window Z detect1 /\ Forall (proper Z) [base1; inc1; inc1] /\ fits Z [base1; inc1; inc1] /\ flat Z 0 base1 <> [].
Proof.
  split; [|split; [|split]].
  - intros m fr a b x e H. unfold detect1 in H. destruct a; try destruct H. destruct (Z.ltb_spec 0 b); [|destruct H]. destruct H as [<-|[]]. cbn. lia.
  - assert (E0 : forall l, exists_in Z ([(0, l, []); (1, 13, [(0, 0)])] :: []) (0, 0)).
    { intros l. exists 0%nat, 0%nat. eexists. split; [reflexivity|]. split; [reflexivity|]. cbn. lia. }
    constructor; [|constructor; [|constructor; [|constructor]]].
    + intros [|[|t]] tr E; try discriminate E. injection E as <-. intros [|[|[|i]]] r R; try discriminate R; injection R as <-; (split; [reflexivity|]); intros c C; cbn in C.
      * contradiction.
      * destruct C as [<-|[]]. apply E0.
    + intros [|[|[|t]]] tr E; try discriminate E; injection E as <-; intros [|[|i]] r R; try discriminate R; injection R as <-; (split; [reflexivity|]); intros c C; cbn in C.
      * contradiction.
      * destruct C as [<-|[]]. exists 0%nat, 0%nat. eexists. split; [reflexivity|]. split; [reflexivity|]. cbn. lia.
    + intros [|[|[|t]]] tr E; try discriminate E; injection E as <-; intros [|[|i]] r R; try discriminate R; injection R as <-; (split; [reflexivity|]); intros c C; cbn in C.
      * contradiction.
      * destruct C as [<-|[]]. exists 0%nat, 0%nat. eexists. split; [reflexivity|]. split; [reflexivity|]. cbn. lia.
  - split; [cbn; lia|]. intros tr X. cbn in X. intuition (subst; cbn; lia).
  - discriminate.
Qed.
(** The joined map of the three files: loops from the first submap to all four added ones. *)
Example C148_ex_joined : exists s, session Z rel1 detect1 solve1 (Some base1) [Some inc1; Some inc1] = Ok s /\
  map (s_conn Z) (mem Z s) = [[(1, 0); (2, 0); (3, 0); (4, 0)]; [(0, 0)]; []; [(1, 0)]; []; [(3, 0)]] /\
  map (s_id Z) (mem Z s) = [(0, 0); (0, 1); (1, 0); (2, 0); (3, 0); (4, 0)] /\ length (filter (is_loop Z) (given Z s)) = 4%nat.
Proof. eexists. split; [vm_compute; reflexivity|]. vm_compute. auto. Qed.
Example C148_ex_again : exists s pk, session Z rel1 detect1 solve1 (Some base1) [Some inc1] = Ok s /\ save_whole Z s = Ok pk /\
  map (map (fun r => (fst (fst r), snd r))) pk = [[(0, [(1, 0); (2, 0)]); (1, [(0, 0)])]; [(0, [])]; [(0, [(1, 0)])]] /\
  is_ok (session Z rel1 detect1 solve1 (Some pk) [Some inc1]) = true.
Proof. do 2 eexists. split; [vm_compute; reflexivity|]. split; [vm_compute; reflexivity|]. vm_compute. auto. Qed.
(** "The prior of a trajectory is given once": false, three times for two submaps and a connection. *)
Theorem C147_prior_once_refuted : exists b s, proper Z b /\ fits Z [b] /\ session Z rel1 detect1 solve1 (Some b) [] = Ok s /\
  length (filter (is_prior_of Z (key (0, 0))) (given Z s)) = 3%nat.
Proof.
  destruct C147_ex_files as (_ & H & _). exists base1. eexists. split; [exact (Forall_inv H)|]. split.
  - split; [cbn; lia|]. intros tr X. cbn in X. intuition (subst; cbn; lia).
  - split; [vm_compute; reflexivity|]. vm_compute. reflexivity.
Qed.
Print Assumptions C147_prior_once_refuted.
(** "Joining works for every base map": false.  Nothing is found in an empty one, the window is not set, and a detector that
    then finds a frame of the same trajectory fails the check. *)
Definition detect2 (m : list (sub Z)) (fr : list nat) (w : option (Z * Z)) (a : nat) : list (nat * Z) :=
  match w, fr with None, _ :: _ => [(0%nat, 7)] | _, _ => [] end.
Theorem C147_empty_base_refuted : exists b i, Forall (proper Z) [b; i] /\ fits Z [b; i] /\ in_window Z detect2 /\
  session Z rel1 detect2 solve1 (Some b) [Some i] = Abort.
Proof.
  exists [], base1. destruct C147_ex_files as (_ & H & _). split; [constructor; [|constructor; [exact (Forall_inv H)|constructor]]|].
  - intros [|t] tr E; discriminate E.
  - split; [split; [cbn; lia|intros tr X; cbn in X; intuition (subst; cbn; lia)]|]. split; [|vm_compute; reflexivity].
    intros m fr a b x e [].
Qed.
Print Assumptions C147_empty_base_refuted.
