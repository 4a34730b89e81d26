(** Facts about the export of the voxel map and the largest intensity. *)
From Coq Require Import List Bool ZArith QArith Qround Qabs Lia Lqa SpecFloat.
From Verif Require Import Outcome RayModel MrvmModel MrvmSpec MrvmProofs VoxelOutModel.
From Verif Require FilterModel FilterSpec FloatRound FloatMono FloatErr FloatDiv FloatTrunc.
Import ListNotations.
Local Open Scope Z_scope.

(** ** The colour *)
(** The intensities for which the product is rounded below a whole number. *)
Definition short : list Z := [45; 85; 90; 165; 170; 175; 180].
Definition is_short (n : Z) : bool := existsb (Z.eqb n) short.
Lemma rgb_small : forall n, 0 <= n < 183 -> rgb_of n = Ok (7 * n / 5 - if is_short n then 1 else 0).
Proof.
  assert (H : forallb (fun k => match rgb_of (Z.of_nat k) with Ok z => z =? 7 * Z.of_nat k / 5 - (if is_short (Z.of_nat k) then 1 else 0) | _ => false end) (seq 0 183) = true)
    by (vm_compute; reflexivity).
  intros n Hn. rewrite forallb_forall in H. specialize (H (Z.to_nat n) ltac:(apply in_seq; lia)). rewrite Z2Nat.id in H by lia.
  destruct (rgb_of n); try discriminate. apply Z.eqb_eq in H. congruence.
Qed.
Lemma rgb_large : forall n, 183 <= n < 2 ^ 31 -> rgb_of n = Ok 255.
Proof.
  intros n Hn. unfold rgb_of. rewrite Z.mod_small by (assert (2 ^ 31 < 2 ^ 32) by reflexivity; lia).
  destruct (FloatTrunc.of_int_spec n) as (m & e & En & B & V); [assert (2 ^ 31 < 2 ^ 53) by reflexivity; lia|]. rewrite En.
  assert (R : FloatMono.is_rnd 53 1024 (FloatRound.dyadic (Zpos m) e * FloatRound.dyadic 6305039478318694 (-52)) (SFmul 53 1024 (S754_finite false m e) d14)).
  { apply FloatMono.mul_rnd; try lia; try reflexivity. exact B. }
  set (x := SFmul 53 1024 (S754_finite false m e) d14) in *.
  set (v := (FloatRound.dyadic (Zpos m) e * FloatRound.dyadic 6305039478318694 (-52))%Q) in *.
  assert (Vn : (v == inject_Z n * (6305039478318694 # 4503599627370496))%Q).
  { unfold v. rewrite V. unfold FloatRound.dyadic. change (2 ^ 0)%Q with 1%Q. change (2 ^ (-52))%Q with (1 # 4503599627370496)%Q.
    change (6305039478318694 # 4503599627370496)%Q with (inject_Z 6305039478318694 * (1 # 4503599627370496))%Q. ring. }
  assert (N1 : (183 <= inject_Z n)%Q) by (change 183%Q with (inject_Z 183); rewrite <- Zle_Qle; lia).
  assert (N2 : (inject_Z n <= 2147483648)%Q) by (change 2147483648%Q with (inject_Z (2 ^ 31)); rewrite <- Zle_Qle; lia).
  assert (V1 : ((2562 # 10) - (1 # 100) <= v)%Q) by (rewrite Vn; lra).
  assert (V2 : (v <= 3100000000)%Q) by (rewrite Vn; lra).
  assert (Av : (Qabs v == v)%Q) by (apply Qabs_pos; lra).
  assert (T : (0 <= 2 ^ (emin 53 1024 - 1) <= 1 # 1000)%Q) by (split; unfold Qle; vm_compute; discriminate).
  assert (U : (0 <= 2 ^ (-53) <= 1 # 1000000000000)%Q) by (split; unfold Qle; vm_compute; discriminate).
  destruct (FilterSpec.value x) as [w|] eqn:Ew.
  - pose proof (FloatErr.rnd_error 53 1024 ltac:(lia) ltac:(lia) v x w R Ew) as Er. rewrite Av in Er. apply Qabs_Qle_condition in Er.
    change (- (53)) with (-53) in Er.
    set (tiny := (2 ^ (emin 53 1024 - 1))%Q) in *. set (ulp := (2 ^ (-53))%Q) in *. clearbody tiny ulp.
    assert (Pu : (0 <= v * ulp <= 1 # 100)%Q).
    { split; [apply Qmult_le_0_compat; lra|]. apply Qle_trans with (3100000000 * (1 # 1000000000000))%Q; [|unfold Qle; vm_compute; discriminate].
      apply Qle_trans with (v * (1 # 1000000000000))%Q; [rewrite !(Qmult_comm v)|]; apply Qmult_le_compat_r; lra. }
    assert (W1 : (256 <= w)%Q) by lra. assert (W2 : (w < 4294967296)%Q) by lra.
    destruct (FilterModel.trunc_fl x) as [z|] eqn:Ez.
    + pose proof (FloatDiv.trunc_floor x w z Ew Ez) as Ef. assert (L : Qle_bool 0 w = true) by (apply Qle_bool_iff; lra). rewrite L in Ef.
      assert (256 <= z) by (rewrite Ef; apply floor_ge; exact W1).
      assert (z < 2 ^ 32) by (rewrite Ef; apply floor_lt; exact W2).
      destruct (Z.leb_spec 0 z); [|lia]. destruct (Z.ltb_spec z (2 ^ 32)); [|lia]. cbn [andb]. destruct (Z.ltb_spec 255 z); [reflexivity|lia].
    + destruct x as [| | |[] a b]; try discriminate.
  - pose proof (FloatErr.rnd_infinite 53 1024 ltac:(lia) ltac:(lia) v x R Ew) as Er. rewrite Av in Er. exfalso.
    assert (Big : (10000000000 <= 2 ^ 1024)%Q) by (unfold Qle; vm_compute; discriminate).
    change (- (53)) with (-53) in Er. set (big := (2 ^ 1024)%Q) in *.
    set (tiny := (2 ^ (emin 53 1024 - 1))%Q) in *. set (ulp := (2 ^ (-53))%Q) in *. clearbody tiny ulp big.
    assert (Pu : (v * ulp <= 1 # 100)%Q).
    { apply Qle_trans with (3100000000 * (1 # 1000000000000))%Q; [|unfold Qle; vm_compute; discriminate].
      apply Qle_trans with (v * (1 # 1000000000000))%Q; [rewrite !(Qmult_comm v)|]; apply Qmult_le_compat_r; lra. }
    lra.
Qed.

(** ** Sums *)
Section Sum.
Variable P : Type.
Fixpoint sum (f : P -> Q) (l : list P) : Q := match l with [] => 0%Q | p :: r => (f p + sum f r)%Q end.
Lemma total_from : forall f l s, (fold_left (fun s p => s + f p)%Q l s == s + sum f l)%Q.
Proof. intros f l. induction l as [|p r IH]; intros s; cbn [fold_left sum]; [ring|]. rewrite IH. ring. Qed.
Lemma total_sum : forall f l, (total f l == sum f l)%Q.
Proof. intros. unfold total. rewrite total_from. ring. Qed.
Lemma sum_bounds : forall (f : P -> Q) l lo hi, Forall (fun p => lo <= f p < hi)%Q l -> l <> [] ->
  (lo * inject_Z (Z.of_nat (length l)) <= sum f l /\ sum f l < hi * inject_Z (Z.of_nat (length l)))%Q.
Proof.
  intros f l lo hi H N. destruct l as [|p r]; [congruence|]. clear N. revert p H. induction r as [|q r IH]; intros p H.
  - inversion H as [|? ? Hp _]; subst. cbn [length sum]. change (inject_Z (Z.of_nat 1)) with 1%Q. lra.
  - inversion H as [|? ? Hp Hr]; subst. specialize (IH q Hr). remember (q :: r) as t. cbn [length sum].
    rewrite Nat2Z.inj_succ. unfold Z.succ. rewrite inject_Z_plus. change (inject_Z 1) with 1%Q. lra.
Qed.
Lemma mean_sum : forall f l, l <> [] -> (mean f l * inject_Z (Z.of_nat (length l)) == sum f l)%Q.
Proof.
  intros f l N. unfold mean. rewrite total_sum. field. intros E. destruct l; [congruence|].
  assert (0 < inject_Z (Z.of_nat (length (p :: l))))%Q by (change 0%Q with (inject_Z 0); rewrite <- Zlt_Qlt; cbn [length]; lia). lra.
Qed.
Lemma mean_bounds : forall (f : P -> Q) l lo hi, Forall (fun p => lo <= f p < hi)%Q l -> l <> [] -> (lo <= mean f l /\ mean f l < hi)%Q.
Proof.
  intros f l lo hi H N. pose proof (mean_sum f l N) as E. destruct (sum_bounds f l lo hi H N) as [A B].
  assert (L : (0 < inject_Z (Z.of_nat (length l)))%Q) by (change 0%Q with (inject_Z 0); rewrite <- Zlt_Qlt; destruct l; [congruence|cbn [length]; lia]).
  set (n := inject_Z (Z.of_nat (length l))) in *. rewrite <- E in A, B. split.
  - apply Qmult_le_r in A; assumption.
  - apply Qmult_lt_r in B; assumption.
Qed.
End Sum.
Arguments sum {P}.

(** ** The loop over the voxels *)
Section Loop.
Variable P : Type.
Variable A : Type.
Lemma voxels_fold : forall (add : cloud A -> cell P -> outcome (cloud A)) (f : cloud A -> cell P -> cloud A) t m out,
  (forall o c, (exists k, In (k, c) m) -> add o c = Ok (f o c)) -> (forall k c, In (k, c) m -> points c <> []) ->
  voxels add t m out = Ok (fold_left f (map snd (filter (fun kc => t <=? cprob (snd kc)) m)) out).
Proof.
  intros add f t m. induction m as [|[k c] m IH]; intros out Hf Hp; [reflexivity|].
  cbn [voxels filter snd].
  assert (IH' : forall o, voxels add t m o = Ok (fold_left f (map snd (filter (fun kc => t <=? cprob (snd kc)) m)) o)).
  { intros o. apply IH; [intros o' c' [k' Hk]; apply Hf; exists k'; right; exact Hk|intros k' c' Hk; apply (Hp k'); right; exact Hk]. }
  destruct (t <=? cprob c).
  - specialize (Hp k c ltac:(left; reflexivity)). destruct (points c) eqn:E; [congruence|]. cbn [check bind].
    rewrite Hf by (exists k; left; reflexivity). cbn [bind map fold_left snd]. apply IH'.
  - apply IH'.
Qed.
Lemma push_fold : forall (g : cell P -> A) l out, 
  fold_left (fun o c => push_back o (g c)) l out =
  mkCloud (pts out ++ map g l) (match l with [] => width out | _ => Z.of_nat (length (pts out) + length l) end) (match l with [] => height out | _ => 1 end).
Proof.
  intros g l. induction l as [|c l IH]; intros out; cbn [fold_left map].
  - rewrite app_nil_r. destruct out; reflexivity.
  - rewrite IH. cbn [pts push_back width height]. rewrite <- app_assoc. cbn [app]. rewrite app_length. cbn [length]. destruct l; cbn [length]; f_equal; f_equal; lia.
Qed.
Lemma points_fold : forall X (g : X -> A) l out,
  fold_left (fun o p => points_push_back o (g p)) l out = mkCloud (pts out ++ map g l) (width out) (height out).
Proof.
  intros X g l. induction l as [|p l IH]; intros out; cbn [fold_left map].
  - rewrite app_nil_r. destruct out; reflexivity.
  - rewrite IH. cbn [pts points_push_back width height]. rewrite <- app_assoc. reflexivity.
Qed.
Lemma plain_fold : forall (g : cell P -> P -> A) l out,
  fold_left (fun o c => fold_left (fun o p => points_push_back o (g c p)) (points c) o) l out =
  mkCloud (pts out ++ flat_map (fun c => map (g c) (points c)) l) (width out) (height out).
Proof.
  intros g l. induction l as [|c l IH]; intros out; cbn [fold_left flat_map].
  - rewrite app_nil_r. destruct out; reflexivity.
  - rewrite points_fold, IH. cbn [pts width height]. rewrite <- app_assoc. reflexivity.
Qed.
End Loop.
Lemma threshold_ok : forall t, (0 <= t < 1)%Q -> to_u8 (t * 256)%Q = Ok (Qfloor (t * 256)).
Proof.
  intros t Ht. unfold to_u8. rewrite qtrunc_pos by lra.
  assert (0 <= Qfloor (t * 256) < 256) as Hf by (split; [apply floor_ge|apply floor_lt]; unfold inject_Z; lra).
  destruct (Z.leb_spec 0 (Qfloor (t * 256))); [|lia]. destruct (Z.ltb_spec (Qfloor (t * 256)) 256); [|lia]. reflexivity.
Qed.

(** ** The largest intensity *)
Lemma wsteps_inv : forall (I : Z * list worker -> Prop),
  (forall v w v' w' a b, I (v, a ++ w :: b) -> wstep (v, w) (v', w') -> I (v', a ++ w' :: b)) ->
  forall s s', wsteps s s' -> I s -> I s'.
Proof. intros I H s s' W. induction W; intros Hs; [exact Hs|]. apply IHW. eapply H; eauto. Qed.
(** Every value in play is one of the intensities or the first value, and not below the latter. *)
Lemma race_values : forall works v0 v ws, wsteps (v0, starting works) (v, ws) ->
  v0 <= v /\ (v = v0 \/ In v (concat works)).
Proof.
  intros works v0 v ws H.
  set (fine := fun x => v0 <= x /\ (x = v0 \/ In x (concat works))).
  set (I := fun s : Z * list worker => fine (fst s) /\
    Forall (fun w => incl (todo w) (concat works) /\ match storing w with Some x => v0 <= x /\ In x (concat works) | None => True end) (snd s)).
  assert (G : I (v, ws)).
  { eapply (wsteps_inv I); [|exact H|].
    - intros u w u' w' a b [Hv Hw] St. cbn [fst snd] in *. rewrite Forall_app, Forall_cons_iff in Hw. destruct Hw as (Ha & (Hi & Hs) & Hb).
      inversion St; subst; cbn [todo storing] in *; split; cbn [fst snd]; try exact Hv.
      + rewrite Forall_app, Forall_cons_iff. cbn [todo storing]. repeat split; auto. intros y Hy. apply Hi. right. exact Hy.
      + rewrite Forall_app, Forall_cons_iff. cbn [todo storing]. destruct Hv as [Hv _]. repeat split; auto; try lia.
        * intros y Hy. apply Hi. right. exact Hy.
        * apply Hi. left. reflexivity.
      + unfold fine. tauto.
      + rewrite Forall_app, Forall_cons_iff. cbn [todo storing]. auto.
    - split; cbn [fst snd]; [split; [lia|auto]|]. unfold starting. apply Forall_forall. intros w Hw. apply in_map_iff in Hw.
      destruct Hw as (l & <- & Hl). cbn [todo storing]. split; [|exact Logic.I]. intros y Hy. apply in_concat. eauto. }
  exact (proj1 G).
Qed.

(** Pairing every thread with the points it was given. *)
Inductive follows : list Z -> worker -> Prop :=
| FIdle : forall done l, follows (done ++ l) (mkW l None)
| FStore : forall done x l, follows (done ++ x :: l) (mkW l (Some x)).
Lemma race_last : forall works v0 v ws, works <> [] -> ~ In [] works ->
  wsteps (v0, starting works) (v, ws) -> finished ws -> exists l d, In l works /\ last l d <= v /\ l <> [].
Proof.
  intros works v0 v ws Hn He H F.
  set (I := fun s : Z * list worker => Forall2 follows works (snd s) /\
    exists l w, In (l, w) (combine works (snd s)) /\ (todo w = [] -> storing w = None -> l <> [] /\ last l 0 <= fst s)).
  assert (Comb : forall (a : list worker) (w : worker) (b : list worker) (ls : list (list Z)) (w' : worker), length ls = length (a ++ w :: b) ->
     (forall l x, In (l, x) (combine ls (a ++ w :: b)) -> In (l, x) (combine ls (a ++ w' :: b)) \/ (x = w /\ In (l, w') (combine ls (a ++ w' :: b)))) /\
     (exists l, In (l, w') (combine ls (a ++ w' :: b)) /\ In (l, w) (combine ls (a ++ w :: b)))).
  { intros a. induction a as [|y a IH]; intros w b ls w' L; (destruct ls as [|l0 ls]; [discriminate|]); cbn [app combine] in *.
    - split.
      + intros l x [E|Hx]; [injection E as <- <-; right; split; [reflexivity|left; reflexivity]|left; right; exact Hx].
      + exists l0. split; left; reflexivity.
    - cbn [length] in L. destruct (IH w b ls w' ltac:(lia)) as [A (l & B1 & B2)]. split.
      + intros l1 x [E|Hx]; [left; left; exact E|]. destruct (A l1 x Hx) as [K|[K1 K2]]; [left; right; exact K|right; split; [exact K1|right; exact K2]].
      + exists l. split; right; assumption. }
  assert (G : I (v, ws)).
  { eapply (wsteps_inv I); [|exact H|].
    - intros u w u' w' a b [Hf (l & x & Hin & Hx)] St. cbn [fst snd] in *.
      assert (Len : length works = length (a ++ w :: b)) by (clear - Hf; induction Hf; cbn [length]; congruence).
      destruct (Comb a w b works w' Len) as [C1 (lw & C2 & C3)].
      assert (Fw : follows lw w).
      { clear - Hf C3. revert C3. induction Hf as [|? ? ? ? K ? IH]; intros C; [destruct C|]. cbn [combine] in C. destruct C as [E|C]; [injection E as <- <-; exact K|auto]. }
      assert (Hf' : follows lw w -> (forall l1, follows l1 w -> follows l1 w') -> Forall2 follows works (a ++ w' :: b)).
      { intros _ Hl. clear - Hf Hl. apply Forall2_app_inv_r in Hf. destruct Hf as (l1 & l2 & F1 & F2 & ->). inversion F2; subst. apply Forall2_app; [assumption|]. constructor; auto. }
      assert (Nw : forall l1, follows l1 w -> follows l1 w').
      { intros l1 F1. inversion St as [v1 y t Hle|v1 y t Hlt|v1 y t]; subst; inversion F1 as [done r E1 E2|done z r E1 E2]; subst.
        - replace (done ++ y :: t) with ((done ++ [y]) ++ t) by (rewrite <- app_assoc; reflexivity). constructor.
        - constructor.
        - replace (done ++ u' :: t) with ((done ++ [u']) ++ t) by (rewrite <- app_assoc; reflexivity). constructor. }
      split; cbn [fst snd]; [apply Hf'; assumption|].
      assert (Lst : forall done (y : Z), last (done ++ [y]) 0 = y) by (intros; apply last_last).
      inversion St as [v1 y t Hle|v1 y t Hlt|v1 y t]; subst.
      + (* nothing stored *)
        destruct (C1 l x Hin) as [K|[-> K]]; [exists l, x; split; assumption|].
        exists l, (mkW t None). split; [exact K|]. cbn [todo storing]. intros -> _.
        assert (Fl : follows l (mkW [y] None)).
        { clear - Hf Hin. revert Hin. induction Hf as [|? ? ? ? K ? IH]; intros C; [destruct C|]. cbn [combine] in C. destruct C as [E|C]; [injection E as <- <-; exact K|auto]. }
        inversion Fl; subst. split; [destruct done; discriminate|]. rewrite Lst. assumption.
      + destruct (C1 l x Hin) as [K|[-> K]]; [exists l, x; split; assumption|].
        exists l, (mkW t (Some y)). split; [exact K|]. cbn [storing]. discriminate.
      + (* the thread that stores *)
        exists lw, (mkW t None). split; [exact C2|]. cbn [todo]. intros -> _. inversion Fw; subst.
        split; [destruct done; discriminate|]. rewrite Lst. lia.
    - split; cbn [fst snd].
      + clear. unfold starting. induction works as [|l r IH]; cbn [map]; constructor; [|exact IH]. exact (FIdle [] l).
      + destruct works as [|l r]; [congruence|]. exists l, (mkW l None). split; [left; reflexivity|]. cbn [todo storing]. intros -> _. exfalso. apply He. left. reflexivity. }
  destruct G as [_ (l & w & Hin & Hw)]. cbn [fst snd] in *.
  assert (Ww : In w ws) by (eapply in_combine_r; exact Hin). unfold finished in F. rewrite Forall_forall in F. destruct (F w Ww) as [F1 F2].
  destruct (Hw F1 F2) as [N L]. exists l, 0. split; [eapply in_combine_l; exact Hin|]. split; assumption.
Qed.

(** A single thread. *)
Lemma race_single : forall a b l v0 v ws, Forall (fun x => x = []) (a ++ b) ->
  wsteps (v0, starting (a ++ l :: b)) (v, ws) -> finished ws -> v = fold_right Z.max v0 l.
Proof.
  intros a b l v0 v ws He H F.
  set (idle := mkW [] None).
  set (left_over := fun w => match storing w with Some x => x :: todo w | None => todo w end).
  set (I := fun s : Z * list worker => exists w, snd s = repeat idle (length a) ++ w :: repeat idle (length b) /\
     fold_right Z.max (fst s) (left_over w) = fold_right Z.max v0 l /\ match storing w with Some x => fst s < x | None => True end).
  assert (Fm : forall y u (m : list Z), fold_right Z.max (Z.max u y) m = Z.max y (fold_right Z.max u m)).
  { intros y u m. induction m as [|z m IH]; cbn [fold_right]; lia. }
  assert (G : I (v, ws)).
  { eapply (wsteps_inv I); [|exact H|].
    - intros u w u' w' a' b' (x & E & Hx & Hs) St. cbn [fst snd] in *.
      assert (Idle : w <> idle) by (intros ->; inversion St).
      assert (Pl : a' = repeat idle (length a) /\ w = x /\ b' = repeat idle (length b)).
      { clear - E Idle. revert a' E. induction (length a) as [|n IH]; intros [|y a'] E; cbn [repeat app] in E.
        - injection E as -> ->. auto.
        - exfalso. injection E as -> E. assert (K : In w (repeat idle (length b))) by (rewrite <- E; apply in_app_iff; right; left; reflexivity).
          apply repeat_spec in K. congruence.
        - injection E as -> _. congruence.
        - injection E as -> E. destruct (IH a' E) as (-> & -> & ->). auto. }
      destruct Pl as (-> & -> & ->). exists w'. split; [reflexivity|]. cbn [fst].
      inversion St; subst; cbn [left_over todo storing] in *; unfold left_over in *; cbn [todo storing] in *.
      + split; [|exact Logic.I]. rewrite <- Hx. cbn [fold_right]. rewrite <- Fm. f_equal. lia.
      + split; [|assumption]. exact Hx.
      + split; [|exact Logic.I]. rewrite <- Hx. cbn [fold_right]. rewrite <- Fm. f_equal. lia.
    - exists (mkW l None). cbn [fst snd]. split; [|split; [reflexivity|exact Logic.I]]. unfold starting. rewrite map_app. cbn [map].
      apply Forall_app in He. destruct He as [Ha Hb].
      assert (R : forall c : list (list Z), Forall (fun x => x = []) c -> map (fun l0 => mkW l0 None) c = repeat idle (length c)).
      { intros c Hc. induction Hc as [|? ? -> ? IH]; [reflexivity|]. cbn [map length repeat]. rewrite IH. reflexivity. }
      rewrite !R by assumption. reflexivity. }
  destruct G as (w & E & Hw & _). cbn [fst snd] in *. unfold finished in F. rewrite Forall_forall in F.
  destruct (F w) as [F1 F2]; [rewrite E; apply in_app_iff; right; left; reflexivity|]. unfold left_over in Hw. rewrite F1, F2 in Hw. exact Hw.
Qed.
(** From every state the threads can finish. *)
Lemma race_ends : forall ws v, exists v' ws', wsteps (v, ws) (v', ws') /\ finished ws'.
Proof.
  assert (One : forall w v a b s, (forall v', wsteps (v', a ++ mkW [] None :: b) (s v')) -> exists v', wsteps (v, a ++ w :: b) (s v')).
  { intros [l p] v a b s Hs. revert p v. induction l as [|x l IH]; intros p v.
    - destruct p as [y|]; [|exists v; apply Hs]. exists y. eapply WCons; [apply WStore|]. apply Hs.
    - assert (Idle : forall u, exists v', wsteps (u, a ++ mkW (x :: l) None :: b) (s v')).
      { intros u. destruct (Z.le_gt_cases x u).
        - destruct (IH None u) as [v' Hv]. exists v'. eapply WCons; [apply WKeep; assumption|exact Hv].
        - destruct (IH (Some x) u) as [v' Hv]. exists v'. eapply WCons; [apply WLess; lia|exact Hv]. }
      destruct p as [y|]; [|apply Idle]. destruct (Idle y) as [v' Hv]. exists v'. eapply WCons; [apply WStore|exact Hv]. }
  assert (Tr : forall s1 s2 s3, wsteps s1 s2 -> wsteps s2 s3 -> wsteps s1 s3).
  { intros s1 s2 s3 A. induction A; intros B; [exact B|]. eapply WCons; eauto. }
  assert (All : forall b a v, finished a -> exists v' ws', wsteps (v, a ++ b) (v', ws') /\ finished ws').
  { induction b as [|w b IH]; intros a v Fa.
    - exists v, a. rewrite app_nil_r. split; [apply WNil|exact Fa].
    - destruct (One w v a b (fun v' => (v', a ++ mkW [] None :: b)) ltac:(intros; apply WNil)) as [v1 S1].
      destruct (IH (a ++ [mkW [] None]) v1) as (v2 & w2 & S2 & F2).
      { unfold finished in *. apply Forall_app. split; [exact Fa|]. repeat constructor. }
      rewrite <- app_assoc in S2. cbn [app] in S2. exists v2, w2. split; [eapply Tr; eassumption|exact F2]. }
  intros ws v. apply (All ws [] v). constructor.
Qed.
