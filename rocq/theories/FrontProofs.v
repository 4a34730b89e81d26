(** Key frame selection: proofs. *)
From Coq Require Import List Bool ZArith SpecFloat Lia.
From Verif Require Import Outcome Pose FrontModel FrontSpec.
Import ListNotations.

Lemma SFcompare_opp : forall x y, SFcompare y x = option_map CompOpp (SFcompare x y).
Proof.
  intros x y. destruct x as [a|a| |a m e], y as [b|b| |b n f]; cbn; try reflexivity;
    try (destruct a; reflexivity); try (destruct b; reflexivity); try (destruct a, b; reflexivity).
  rewrite (Z.compare_antisym e f). destruct a, b; cbn; try reflexivity;
    destruct (Z.compare e f); cbn; try reflexivity; change (Pos.compare_cont Eq n m) with (Pos.compare n m); change (Pos.compare_cont Eq m n) with (Pos.compare m n);
    rewrite (Pos.compare_antisym m n); destruct (Pos.compare m n); reflexivity.
Qed.
Lemma leb_at_least : forall x y, SFleb y x = true <-> at_least x y.
Proof.
  intros x y. unfold SFleb, at_least. rewrite (SFcompare_opp x y). destruct (SFcompare x y) as [[| |]|]; cbn; intuition congruence.
Qed.

Section Front.
Variable G : group.
Variable cloud : Type.
Variable time : cloud -> Z.
Variable calc_ok : cloud -> bool.
Variable mt : cloud -> cloud -> G.
Variables tnorm tang : G -> spec_float.
Variables tr ar : spec_float.
Variables fast ext : bool.
Notation process := (process G cloud time calc_ok mt tnorm tang tr ar fast ext).
Notation process_all := (process_all G cloud time calc_ok mt tnorm tang tr ar fast ext).
Notation significant := (significant G tnorm tang tr ar).
Notation well_cut := (well_cut G cloud mt tnorm tang tr ar).

Lemma key_sig : forall a, key_motion G tnorm tang tr ar a = true <-> significant a.
Proof.
  intros a. unfold key_motion, FrontSpec.significant. rewrite orb_true_iff, andb_true_iff, !leb_at_least. reflexivity.
Qed.

(** Processing in order from a state whose target is the last key frame. *)
Lemma run_from : forall l k nrm b t F s, process_all (mkFe (Some (k, nrm)) b t F) l = Ok s ->
  (ext = true -> in_order cloud time l /\ forall c, In c l -> before (time c) t = false) ->
  exists segs rest ps, l = joined cloud segs rest /\ well_cut k segs rest /\
    kfs s = F ++ combine (map snd segs) ps /\ length ps = length segs /\
    chained G cloud mt ((k, b) :: combine (map snd segs) ps).
Proof.
  induction l as [|c l IH]; intros k nrm b t F s H Ho.
  - injection H as <-. exists [], [], []. cbn. split; [reflexivity|]. split; [tauto|]. rewrite app_nil_r. split; [reflexivity|].
    split; [reflexivity|]. intros i k0 p k' p' _ H. destruct i; discriminate.
  - cbn [process_all] in H. unfold FrontModel.process in H. cbn [target base lp kfs] in H.
    assert (ext && before (time c) t = false) as Hl.
    { destruct ext eqn:E; [|reflexivity]. cbn. apply Ho; [reflexivity|]. left; reflexivity. }
    rewrite Hl in H. destruct (check (negb fast || nrm)) as [u| | |]; try discriminate. cbn [bind] in H.
    assert (ext = true -> in_order cloud time l /\ forall c0, In c0 l -> before (time c0) (if ext then Some (time c) else t) = false) as Ho'.
    { intros E. destruct (Ho E) as [Ho1 Ho2]. rewrite E. split.
      - intros i j x y L A B. apply (Ho1 (S i) (S j) x y); [lia|exact A|exact B].
      - intros x Hx. cbn. apply Z.ltb_ge. apply In_nth_error in Hx. destruct Hx as [j Hj].
        apply (Ho1 0 (S j) c x); [lia|reflexivity|exact Hj]. }
    destruct (key_motion G tnorm tang tr ar (mt k c)) eqn:Ek; cbn [bind] in H.
    + apply IH in H; [|exact Ho']. destruct H as (segs & rest & ps & A1 & A2 & A3 & A4 & A5).
      exists (([], c) :: segs), rest, (gmul b (mt k c) :: ps). split; [cbn; rewrite A1; reflexivity|].
      split; [cbn; split; [tauto|]; split; [apply key_sig; exact Ek|exact A2]|].
      split; [rewrite A3, <- app_assoc; reflexivity|]. split; [cbn; lia|].
      intros i x p x' p' E1 E2. destruct i as [|i]; [|exact (A5 i x p x' p' E1 E2)].
      cbn in E1, E2. injection E1 as <- <-. injection E2 as <- <-. reflexivity.
    + apply IH in H; [|exact Ho']. destruct H as (segs & rest & ps & A1 & A2 & A3 & A4 & A5).
      assert (~ significant (mt k c)) as Ns by (rewrite <- key_sig, Ek; discriminate).
      destruct segs as [|[g k'] segs].
      * exists [], (c :: rest), ps. cbn in *. split; [rewrite A1; reflexivity|]. split; [|auto].
        intros x [<-|Hx]; [exact Ns|auto].
      * exists ((c :: g, k') :: segs), rest, ps. cbn in *. split; [rewrite A1; reflexivity|]. split; [|auto].
        destruct A2 as (A2 & A2'). split; [|exact A2']. intros x [<-|Hx]; [exact Ns|auto].
Qed.

(** ... and it only fails for want of normals. *)
Lemma run_ok : forall l k nrm b t F,
  (fast = true -> nrm = true /\ forall c, In c l -> calc_ok c = true) ->
  (ext = true -> in_order cloud time l /\ forall c, In c l -> before (time c) t = false) ->
  exists s, process_all (mkFe (Some (k, nrm)) b t F) l = Ok s.
Proof.
  induction l as [|c l IH]; intros k nrm b t F Hf Ho; [eexists; reflexivity|].
  cbn [process_all]. unfold FrontModel.process. cbn [target base lp kfs].
  assert (ext && before (time c) t = false) as Hl.
  { destruct ext eqn:E; [|reflexivity]. cbn. apply Ho; [reflexivity|]. left; reflexivity. }
  rewrite Hl.
  assert (negb fast || nrm = true) as -> by (destruct fast; [cbn; apply Hf; reflexivity|reflexivity]).
  cbn [check bind].
  assert (ext = true -> in_order cloud time l /\ forall c0, In c0 l -> before (time c0) (if ext then Some (time c) else t) = false) as Ho'.
  { intros E. destruct (Ho E) as [Ho1 Ho2]. rewrite E. split.
    - intros i j x y L A B. apply (Ho1 (S i) (S j) x y); [lia|exact A|exact B].
    - intros x Hx. cbn. apply Z.ltb_ge. apply In_nth_error in Hx. destruct Hx as [j Hj].
      apply (Ho1 0 (S j) c x); [lia|reflexivity|exact Hj]. }
  destruct (key_motion G tnorm tang tr ar (mt k c)); cbn [bind]; apply IH; auto; intros E; destruct (Hf E) as [H1 H2].
  - split; [|intros; apply H2; right; assumption]. rewrite E. cbn. apply H2. left. reflexivity.
  - split; [exact H1|intros; apply H2; right; assumption].
Qed.
End Front.
