(** C152: the alignment of several clouds. *)
From Coq Require Import List Bool Arith Lia.
From Verif Require Import LumModel.
Import ListNotations.

Section Props.
Variables C P M : Type.
Variable move : C -> P -> C.
Variable matches : C -> C -> M.
Variable count : M -> nat.
Variable p0 : P.
Variable solve : list (C * P) -> (nat -> nat -> option M) -> list P.
Variable place : C * P -> C.
Notation st := (LumModel.st C P M).
Notation frames := (LumModel.frames C P M).
Notation vertices := (LumModel.vertices C P M).
Notation edge := (LumModel.edge C P M).
Notation link := (LumModel.link C M matches count).
Notation enter := (LumModel.enter C P M move matches count p0).
Notation compute := (LumModel.compute C P M solve).
Notation iterate := (LumModel.iterate C P M move matches count p0 solve).
Notation align_all := (LumModel.align_all C P M move matches count p0 solve place).

(** The clouds of the frames where their poses put them. *)
Definition moved (fs : list (C * P)) : list C := map (fun f => move (fst f) (snd f)) fs.
(** The correspondences of two of them, when there are more than two. *)
Definition pair (ts : list C) (a b : nat) : option M :=
  match nth_error ts a, nth_error ts b with
  | Some s, Some t => if (a <? b)%nat && (2 <? count (matches s t))%nat then Some (matches s t) else None
  | _, _ => None
  end.
Definition over (x y : option M) : option M := match x with Some m => Some m | None => y end.
(** The solver gives a pose for every cloud. *)
Definition complete : Prop := forall v e, length (solve v e) = length v.

Lemma link_fold : forall ts clouds i k e, (forall a, (a <= i)%nat -> nth_error clouds a = nth_error ts a) -> (k <= i)%nat ->
  forall a b, fold_left (link clouds i) (seq 0 k) e a b = if (b =? i)%nat && (a <? k)%nat then over (pair ts a i) (e a b) else e a b.
Proof.
  intros ts clouds i k e H. induction k as [|k IH]; intros Hk a b.
  - cbn. rewrite andb_false_r. reflexivity.
  - rewrite seq_S, fold_left_app. cbn [fold_left Nat.add]. set (e1 := fold_left (link clouds i) (seq 0 k) e) in *.
    unfold LumModel.link. rewrite (H i), (H k) by lia. unfold pair.
    destruct (nth_error ts i) as [t|] eqn:Ti.
    + destruct (nth_error ts k) as [s|] eqn:Tk.
      * cbv zeta. assert (Lk : (k <? i)%nat = true) by (apply Nat.ltb_lt; lia).
        destruct (Nat.ltb_spec 2 (count (matches s t))) as [L|L].
        -- unfold set_edge. destruct (Nat.eqb_spec a k) as [->|Na]; cbn [andb].
           ++ destruct (Nat.eqb_spec b i) as [->|Nb]; cbn [andb].
              ** replace (k <? S k)%nat with true by (symmetry; apply Nat.ltb_lt; lia). rewrite Tk, Lk. apply Nat.ltb_lt in L. rewrite L. reflexivity.
              ** rewrite IH by lia. destruct (Nat.eqb_spec b i); [contradiction|]. reflexivity.
           ++ rewrite IH by lia. unfold pair. rewrite Ti. destruct (b =? i)%nat; cbn [andb]; [|reflexivity].
              replace (a <? S k)%nat with (a <? k)%nat; [reflexivity|]. destruct (Nat.ltb_spec a k), (Nat.ltb_spec a (S k)); try reflexivity; lia.
        -- rewrite IH by lia. unfold pair. rewrite Ti. destruct (b =? i)%nat eqn:B; cbn [andb]; [|reflexivity].
           destruct (Nat.eqb_spec a k) as [->|Na].
           ++ replace (k <? S k)%nat with true by (symmetry; apply Nat.ltb_lt; lia). rewrite Nat.ltb_irrefl, Tk, Lk.
              destruct (Nat.ltb_spec 2 (count (matches s t))); [lia|]. reflexivity.
           ++ replace (a <? S k)%nat with (a <? k)%nat; [reflexivity|]. destruct (Nat.ltb_spec a k), (Nat.ltb_spec a (S k)); try reflexivity; lia.
      * rewrite IH by lia. unfold pair. rewrite Ti. destruct (b =? i)%nat eqn:B; cbn [andb]; [|reflexivity].
        destruct (Nat.eqb_spec a k) as [->|Na].
        -- rewrite Tk, Nat.ltb_irrefl. destruct (k <? S k)%nat; reflexivity.
        -- replace (a <? S k)%nat with (a <? k)%nat; [reflexivity|]. destruct (Nat.ltb_spec a k), (Nat.ltb_spec a (S k)); try reflexivity; lia.
    + rewrite IH by lia. unfold pair. rewrite Ti. destruct (b =? i)%nat; cbn [andb]; [|reflexivity].
      destruct (nth_error ts a); cbn [over]; destruct (a <? k)%nat, (a <? S k)%nat; reflexivity.
Qed.

Lemma enter_spec : forall fs pre clouds s, (clouds = moved pre \/ exists x, clouds = moved (pre ++ fs) ++ x) ->
  exists clouds' s', enter fs (length pre) clouds s = (clouds', s') /\ frames s' = frames s /\
    vertices s' = vertices s ++ map (fun t => (t, p0)) (moved fs) /\
    (clouds' = moved (pre ++ fs) \/ exists x, clouds' = moved (pre ++ fs) ++ x) /\
    forall a b, edge s' a b = if (length pre <=? b)%nat then over (pair (moved (pre ++ fs)) a b) (edge s a b) else edge s a b.
Proof.
  induction fs as [|[c p] fs IH]; intros pre clouds s Hc.
  - cbn [LumModel.enter]. exists clouds, s. split; [reflexivity|]. split; [reflexivity|]. cbn. rewrite !app_nil_r. rewrite app_nil_r in Hc. split; [reflexivity|]. split; [exact Hc|].
    intros a b. destruct (Nat.leb_spec (length pre) b); [|reflexivity]. unfold pair. rewrite (proj2 (nth_error_None (moved pre) b)) by (unfold moved; rewrite map_length; lia).
    destruct (nth_error (moved pre) a); reflexivity.
  - cbn [LumModel.enter]. set (t := move c p). set (cl := clouds ++ [t]).
    assert (E : moved (pre ++ (c, p) :: fs) = moved ((pre ++ [(c, p)]) ++ fs)) by (rewrite <- app_assoc; reflexivity).
    assert (Hcl : cl = moved (pre ++ [(c, p)]) \/ exists x, cl = moved ((pre ++ [(c, p)]) ++ fs) ++ x).
    { unfold cl. destruct Hc as [->|[x ->]]; [left; unfold moved; rewrite map_app; reflexivity|]. right. exists (x ++ [t]). rewrite E, <- app_assoc. reflexivity. }
    assert (N : forall a, (a <= length pre)%nat -> nth_error cl a = nth_error (moved (pre ++ (c, p) :: fs)) a).
    { intros a La. rewrite E. assert (L : (a < length (moved (pre ++ [(c, p)])))%nat) by (unfold moved; rewrite map_length, app_length; cbn; lia).
      unfold moved in *. rewrite map_app, nth_error_app1 by exact L. destruct Hcl as [->|[x ->]]; [reflexivity|]. rewrite map_app, <- app_assoc, nth_error_app1 by exact L. reflexivity. }
    set (s1 := LumModel.mkSt C P M _ _ _). destruct (IH (pre ++ [(c, p)]) cl s1 Hcl) as (cl' & s' & E1 & E2 & E3 & E4 & E5).
    replace (length (pre ++ [(c, p)])) with (S (length pre)) in E1, E5 by (rewrite app_length; cbn; lia).
    exists cl', s'. split; [exact E1|]. split; [exact E2|]. split.
    { rewrite E3. unfold s1. cbn [LumModel.vertices moved map fst snd]. rewrite <- app_assoc. reflexivity. }
    rewrite E. split; [exact E4|]. intros a b. rewrite E5. unfold s1. cbn [LumModel.edge].
    rewrite (link_fold (moved (pre ++ (c, p) :: fs)) cl (length pre) (length pre) _ N (le_n _)), E.
    destruct (Nat.leb_spec (S (length pre)) b), (Nat.leb_spec (length pre) b), (Nat.eqb_spec b (length pre)); try lia; cbn [andb]; try reflexivity.
    subst b. destruct (Nat.ltb_spec a (length pre)); [reflexivity|].
    unfold pair. destruct (nth_error _ a); [|reflexivity]. destruct (nth_error _ (length pre)); [|reflexivity].
    replace (a <? length pre)%nat with false by (symmetry; apply Nat.ltb_ge; lia). reflexivity.
Qed.

Lemma iterate_spec : complete -> forall n clouds s, (clouds = [] \/ exists x, clouds = moved (frames s) ++ x) ->
  frames (iterate n clouds s) = frames s /\
  map fst (vertices (iterate n clouds s)) = map fst (vertices s) ++ concat (repeat (moved (frames s)) n) /\
  forall a b, edge (iterate n clouds s) a b = match n with O => edge s a b | S _ => over (pair (moved (frames s)) a b) (edge s a b) end.
Proof.
  intros K. induction n as [|n IH]; intros clouds s Hc; [cbn; rewrite app_nil_r; auto|].
  cbn [LumModel.iterate]. destruct (enter_spec (frames s) [] clouds s Hc) as (cl & s1 & E1 & E2 & E3 & E4 & E5). cbn [length app] in *. rewrite E1.
  assert (F : frames (compute s1) = frames s) by exact E2.
  destruct (IH cl (compute s1)) as (I1 & I2 & I3). { rewrite F. destruct E4 as [->|X]; [right; exists []; rewrite app_nil_r; reflexivity|right; exact X]. }
  rewrite F in I1, I2, I3. split; [exact I1|]. split.
  - rewrite I2. unfold LumModel.compute. cbn [LumModel.vertices repeat concat]. rewrite app_assoc. f_equal.
    assert (G : forall (X Y : Type) (l : list X) (r : list Y), length r = length l -> map fst (combine l r) = l).
    { intros X Y. induction l as [|x l IHl]; intros [|y r] L; try discriminate L; [reflexivity|]. cbn. f_equal. apply IHl. injection L. auto. }
    rewrite G by (rewrite K, map_length; reflexivity). rewrite E3, map_app, map_map. f_equal. apply map_id.
  - intros a b. rewrite I3. unfold LumModel.compute. cbn [LumModel.edge]. rewrite E5. cbn [Nat.leb]. destruct n; [reflexivity|].
    destruct (pair (moved (frames s)) a b); reflexivity.
Qed.

(** A first call gives one cloud per frame, in order, with a pose of the solver; the graph has an edge for the pairs of
    frames with more than two correspondences of the clouds as they were given, whatever the solver found.  It has the
    clouds five times; the copies have no edges. *)
Theorem C152_first : complete -> forall s, vertices s = [] -> (forall a b, edge s a b = None) ->
  exists ps, length ps = length (frames s) /\ fst (align_all s) = map place (combine (moved (frames s)) ps) /\
    let s' := snd (align_all s) in
    (frames s <> [] -> map fst (vertices s') = concat (repeat (moved (frames s)) 5)) /\
    forall a b m, edge s' a b = Some m <-> exists x y, (a < b)%nat /\ nth_error (moved (frames s)) a = Some x /\ nth_error (moved (frames s)) b = Some y /\
      (2 < count (matches x y))%nat /\ m = matches x y.
Proof.
  intros K s V0 E0. destruct (frames s) as [|f fs] eqn:Fs.
  - exists []. unfold LumModel.align_all. rewrite Fs. split; [reflexivity|]. split; [reflexivity|]. split; [contradiction|]. cbn [snd]. intros a b m. rewrite E0. split; [discriminate|].
    intros (x & y & _ & X & _). destruct a; discriminate X.
  - unfold LumModel.align_all. rewrite Fs. destruct (iterate_spec K 5 [] s (or_introl eq_refl)) as (I1 & I2 & I3). cbv zeta. rewrite V0, Fs in I2. cbn [map app] in I2. rewrite I1, Fs.
    remember (iterate 5 [] s) as s' eqn:Es. clear Es. rewrite Fs in I3. set (T := moved (f :: fs)) in *. set (n := length (f :: fs)).
    assert (LT : length T = n) by (unfold T, moved; apply map_length).
    assert (Lv : length (vertices s') = (5 * n)%nat). { rewrite <- (map_length fst), I2. cbn [repeat concat]. rewrite !app_length, LT. cbn. lia. }
    exists (map snd (firstn n (vertices s'))). split; [rewrite map_length, firstn_length; lia|]. cbn [fst snd]. split.
    + f_equal. assert (Ff : map fst (firstn n (vertices s')) = T).
      { rewrite <- firstn_map, I2. cbn [repeat concat]. rewrite <- LT, firstn_app, Nat.sub_diag, firstn_all, firstn_O. apply app_nil_r. }
      rewrite <- Ff at 1. clear. induction (firstn n (vertices s')) as [|[x y] l IH]; [reflexivity|]. cbn. f_equal. exact IH.
    + split; [intros _; exact I2|]. intros a b m. rewrite I3, E0. unfold pair.
      destruct (nth_error T a) as [x|]; [|split; [discriminate|intros (? & ? & _ & X & _); discriminate X]].
      destruct (nth_error T b) as [y|]; [|split; [discriminate|intros (? & ? & _ & _ & X & _); discriminate X]].
      destruct (Nat.ltb_spec a b), (Nat.ltb_spec 2 (count (matches x y))); cbn [andb over]; (split; [intros [= <-]; eauto 10|]);
        intros (x' & y' & L1 & [= <-] & [= <-] & L2 & ->); try reflexivity; lia.
Qed.
(** Every later call: the clouds are those entered first, ever. *)
Theorem C152_later : complete -> forall s, let n := length (frames s) in (n <= length (vertices s))%nat ->
  exists ps, length ps = n /\ fst (align_all s) = map place (combine (firstn n (map fst (vertices s))) ps).
Proof.
  intros K s n L. destruct (frames s) as [|f fs] eqn:Fs; [exists []; unfold LumModel.align_all; rewrite Fs; auto|].
  unfold LumModel.align_all. rewrite Fs. destruct (iterate_spec K 5 [] s (or_introl eq_refl)) as (I1 & I2 & _). cbv zeta. rewrite I1, Fs. fold n.
  remember (iterate 5 [] s) as s' eqn:Es. clear Es. exists (map snd (firstn n (vertices s'))).
  assert (Lv : (n <= length (vertices s'))%nat) by (rewrite <- (map_length fst), I2, app_length, map_length; lia).
  split; [rewrite map_length, firstn_length; lia|]. cbn [fst]. f_equal.
  assert (Ff : map fst (firstn n (vertices s')) = firstn n (map fst (vertices s))).
  { rewrite <- firstn_map, I2, firstn_app, map_length. replace (n - length (vertices s))%nat with 0%nat by lia. rewrite firstn_O. apply app_nil_r. }
  rewrite <- Ff. clear. induction (firstn n (vertices s')) as [|[x y] l IH]; [reflexivity|]. cbn. f_equal. exact IH.
Qed.
(** A null cloud is ignored, others are kept in order; none of this touches the graph. *)
Theorem C152_add : forall cs (s : st), let s' := fold_left (fun s c => add_cloud C P M (fst c) (snd c) s) cs s in
  frames s' = frames s ++ flat_map (fun c => match fst c with Some x => [(x, snd c)] | None => [] end) cs /\ vertices s' = vertices s /\ edge s' = edge s.
Proof.
  induction cs as [|[[c|] p] cs IH]; intros s; cbn [fold_left flat_map fst snd app]; [rewrite app_nil_r; auto| |apply IH].
  destruct (IH (add_cloud C P M (Some c) p s)) as (A & B & D). cbv zeta. rewrite A, B, D. cbn [add_cloud LumModel.frames LumModel.vertices LumModel.edge]. rewrite <- app_assoc. auto.
Qed.
End Props.
Print Assumptions C152_first.
Print Assumptions C152_later.
Print Assumptions C152_add.

(** ** Concrete clouds *)
(** Numbers for clouds and poses; all pairs have three correspondences, the solver finds the pose 1 for all. *)
Definition add1 (c p : nat) (s : st nat nat nat) : st nat nat nat := add_cloud nat nat nat (Some c) p s.
Definition all1 := align_all nat nat nat Nat.add (fun a b => a * 100 + b)%nat (fun _ => 3%nat) 0%nat (fun v _ => map (fun _ => 1%nat) v) (fun v => (fst v + snd v)%nat).
Example C152_ex_two : let r := all1 (add1 20 5 (add1 10 0 (fresh nat nat nat))) in
  fst r = [11; 26]%nat /\ map fst (vertices nat nat nat (snd r)) = [10; 25; 10; 25; 10; 25; 10; 25; 10; 25]%nat /\
  edge nat nat nat (snd r) 0%nat 1%nat = Some 1025%nat /\ edge nat nat nat (snd r) 2%nat 3%nat = None.
Proof. vm_compute. auto. Qed.
Example C152_ex_complete : complete nat nat nat (fun v _ => map (fun _ => 1%nat) v).
Proof. intros v e. apply map_length. Qed.
(** "A cloud added after a call is part of the next result": false, there the first cloud is twice. *)
Theorem C152_added_refuted : exists s, let r := all1 (add1 20 5 (snd (all1 s))) in
  complete nat nat nat (fun v _ => map (fun _ => 1%nat) v) /\ frames nat nat nat (snd r) = [(10, 0); (20, 5)]%nat /\ fst r = [11; 11]%nat.
Proof. exists (add1 10 0 (fresh nat nat nat)). split; [apply C152_ex_complete|]. vm_compute. auto. Qed.
Print Assumptions C152_added_refuted.
