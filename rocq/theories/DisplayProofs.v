(** Invariants of the display functions. *)
From Coq Require Import List Bool Arith ZArith Reals Lra Lia.
From Verif Require Import Outcome BuilderModel BuilderSpec BuilderProofs BuilderProps RigidModel DisplayModel.
Import ListNotations.
Local Open Scope nat_scope.

Section Proofs.
Variables cloud frame smst : Type.
Variable sm_init : smst.
Variable sm_step : smst -> cloud -> smst * option frame.
Variable fc : Z.
Hypothesis fc_pos : (0 < fc < 2 ^ 31)%Z.
Notation st := (st cloud frame smst).
Notation bstep := (bstep cloud frame smst sm_step fc false).
Notation breach := (breach cloud frame smst sm_init sm_step fc false).

Lemma traj_form : forall s, breach (Next s) -> traj (su s) = map Some (built (traj (su s))) ++ half cloud frame smst s.
Proof.
  intros s R. pose proof (inv_reach _ _ _ _ _ _ _ fc_pos _ R) as (_ & _ & I3 & _).
  destruct (tlen_eq _ _ _ _ fc_pos s I3) as (T & E & _). rewrite E at 2. rewrite built_map; [exact E|].
  unfold half. destruct (mpc (su s)); auto.
Qed.
Lemma built_fill : forall {A} (l : list (option A)) x, built (fill (l ++ [None]) x) = built l ++ [x].
Proof. intros A l x. rewrite fill_app. unfold built. rewrite flat_map_app. reflexivity. Qed.
Lemma built_none : forall {A} (l : list (option A)), built (l ++ [None]) = built l.
Proof. intros A l. unfold built. rewrite flat_map_app. apply app_nil_r. Qed.

Lemma bstep_facts : forall s s', breach (Next s) -> bstep s (Next s') ->
  (exists r, built (traj (su s')) = built (traj (su s)) ++ r) /\
  length (traj (su s)) <= length (traj (su s')) /\
  (fin (cn s') = fin (cn s) \/
   exists k r, xpc (cn s) = XConn (k :: r) /\ xpc (cn s') = XConn r /\ fin (cn s') = S (fin (cn s)) /\ su s' = su s) /\
  (forall r, xpc (cn s) = XConn r -> fin (cn s') = fin (cn s) -> xpc (cn s') = xpc (cn s) \/ r = [] /\ xpc (cn s') = XSize) /\
  (xpc (cn s') = XConn [] -> xpc (cn s) = XConn [] \/ fin (cn s') = S (fin (cn s))).
Proof.
  intros s s' R H. pose proof (traj_form s R) as TF.
  assert (NIL : forall (l : list (list frame)), exists r, l = l ++ r) by (intros l; exists []; rewrite app_nil_r; reflexivity).
  inversion H; subst; clear H; cbn -[built fill] in *;
  try (repeat split; try apply NIL; try lia; try (left; reflexivity); try (intros; left; congruence); try (intros; congruence);
       try (intros ? E; rewrite E in *; discriminate); fail).
  - (* MBegin *) repeat split; [apply NIL|lia|left; reflexivity| |discriminate].
    intros r E. pose proof (inv_reach _ _ _ _ _ _ _ fc_pos _ R) as (_ & _ & _ & _ & _ & I6).
    destruct I6 as (_ & _ & _ & _ & I5 & _). destruct I5 as [_ I5]. rewrite (I5 (or_intror H1)) in E. discriminate.
  - (* MPush1 *) repeat split; try (left; reflexivity); auto.
    + rewrite built_none. apply NIL.
    + rewrite app_length. lia.
  - (* MPushed *) unfold half in TF. rewrite H1 in TF. repeat split; try (left; reflexivity); auto.
    + clear - TF. remember (built (traj (su s))) as B. rewrite TF, built_fill. exists [cur (su s)]. f_equal.
      rewrite <- (app_nil_r (map Some B)). apply built_map. auto.
    + clear - TF. remember (built (traj (su s))) as B. rewrite TF, fill_app, !app_length. cbn. lia.
  - (* XManyCol *) repeat split; [apply NIL|lia|left; reflexivity|intros r E; congruence|].
    intros E. injection E as E. destruct l as [|a [|b l]]; cbn in *; try lia. discriminate.
  - (* XConnect *) repeat split; [apply NIL|lia|right; eauto 10|intros r E E2; lia|auto].
  - (* XConnected *) repeat split; [apply NIL|lia|left; reflexivity| |discriminate].
    intros r E. right. split; congruence.
Qed.
(** Once the first submap is connected there is a second one, and ConnectAllSubmap does not stop before it
    is connected too. *)
Lemma connected_more : forall s, breach (Next s) -> (firsti (cn s) = true -> 2 <= length (traj (su s))) /\
  (firsti (cn s) = true -> fin (cn s) = 0 -> match xpc (cn s) with XSize | XFirst _ | XCol _ _ _ | XConn _ => True | _ => False end).
Proof.
  assert (forall r, breach r -> match r with Next s => (firsti (cn s) = true -> 2 <= length (traj (su s))) /\
    (firsti (cn s) = true -> fin (cn s) = 0 -> match xpc (cn s) with XSize | XFirst _ | XCol _ _ _ | XConn _ => True | _ => False end)
    | Crash _ => True end) as G.
  { intros r R. induction R as [|s r R IH H]; [split; discriminate|]. destruct r as [s'|o]; [|exact I]. destruct IH as [A B].
    pose proof (bstep_facts s s' R H) as (_ & Lt & _).
    pose proof (inv_reach _ _ _ _ _ _ _ fc_pos _ R) as (_ & _ & _ & _ & (_ & _ & I5) & _).
    inversion H; subst; clear H; cbn [cn su ap co sc endf set_cn set_su set_sc set_co set_ap set_xpc set_mpc set_spc xpc firsti fin traj] in *;
    try (split; [intros K; specialize (A K); lia|exact B]; fail);
    repeat match goal with E : xpc (cn s) = _ |- _ => rewrite E in * end; cbn in *;
    try (split; [intros K; specialize (A K); lia|auto; try tauto]; fail).
    - split; [exact A|]. intros K F. specialize (A K). lia.
    - split; [lia|auto]. }
  intros s R. exact (G _ R).
Qed.

Variables pose point : Type.
Variable translation : pose -> vec.
Variable move : pose -> point -> point.
Variable points : list frame -> list point.
Variable pose_at : nat -> nat -> pose.
Variables show_submap show_path show_map show_edge : bool.
Notation dstep := (dstep cloud frame smst sm_step fc pose point translation move points pose_at show_submap show_path show_map show_edge).
Notation dreach := (dreach cloud frame smst sm_init sm_step fc pose point translation move points pose_at show_submap show_path show_map show_edge).
Notation shown := (shown pose point).

(** Submap i of the trajectory. *)
Definition sub_at (s : st) (i : nat) : list frame := nth i (built (traj (su s))) [].
(** The points of submap i that belong to the local map around submap m. *)
Definition part (sub : nat -> list frame) (m i : nat) : list point :=
  if near (translation (pose_at m i)) (translation (pose_at m m)) then map (move (pose_at m i)) (points (sub i)) else [].
Definition path_of (m : nat) : list pose := map (pose_at m) (seq 0 (S m)).

Inductive proper (sub : nat -> list frame) : nat -> list shown -> Prop :=
| pr_nil : proper sub 0 []
| pr_conn m l : proper sub m l ->
    proper sub (S m) (l ++ if show_submap then [Submap (points (sub (S m))) (pose_at (S m) (S m))] else [])
| pr_path m l : 1 <= m -> show_path = true -> proper sub m l -> proper sub m (l ++ [Path (path_of m)])
| pr_map m l k : 1 <= m -> show_map = true -> proper sub m l -> chosen (flat_map (part sub m) (seq 0 (S m))) k -> proper sub m (l ++ [Map k])
| pr_edge m l : 1 <= m -> show_edge = true -> proper sub m l -> proper sub m (l ++ [Edges]).
Lemma proper_ext : forall sub sub' m l, (forall i, i <= m -> sub' i = sub i) -> proper sub m l -> proper sub' m l.
Proof.
  intros sub sub' m l E H. induction H as [|m l H IH|m l Hm Hp H IH|m l k Hm Hp H IH C|m l Hm Hp H IH].
  - constructor.
  - rewrite <- (E (S m)) by lia. apply pr_conn. apply IH. intros i Hi. apply E. lia.
  - apply pr_path; auto.
  - apply pr_map; auto. replace (flat_map (part sub' m) (seq 0 (S m))) with (flat_map (part sub m) (seq 0 (S m))); [exact C|].
    rewrite !flat_map_concat_map. f_equal. apply map_ext_in. intros i Hi. apply in_seq in Hi. unfold part. rewrite E by lia. reflexivity.
  - apply pr_edge; auto.
Qed.
Fixpoint last_path (l : list shown) (o : option (list pose)) : option (list pose) :=
  match l with [] => o | Path p :: r => last_path r (Some p) | _ :: r => last_path r o end.
Lemma last_path_app : forall l r o, last_path (l ++ r) o = last_path r (last_path l o).
Proof. induction l as [|[ps p|p|ps|] l IH]; intros r o; cbn; auto. Qed.

Definition before_path (d : dpc pose point) : Prop := match d with DReady | DPath _ _ _ => True | _ => False end.
Definition dinv (x : dst cloud frame smst pose point) : Prop :=
  let s := bst x in let m := fin (cn s) in
  breach (Next s) /\ proper (sub_at s) m (log x) /\ (xpc (cn s) = XConn [] -> 1 <= m) /\
  match dis x with
  | DReady => True
  | DPath e i ps => xpc (cn s) = XConn [] /\ m < e /\ e <= length (traj (su s)) /\ i <= e /\ show_path = true /\
      ps = map (pose_at m) (seq 0 (Nat.min i (S m)))
  | DMap0 | DEdge => xpc (cn s) = XConn []
  | DMap e i ps => xpc (cn s) = XConn [] /\ m < e /\ e <= length (traj (su s)) /\ i <= S m /\ show_map = true /\
      ps = flat_map (part (sub_at s) m) (seq 0 i)
  end /\
  (show_path = false \/ m = 0 \/ ((exists r, xpc (cn s) = XConn r) /\ before_path (dis x)) \/
   last_path (log x) None = Some (path_of m)).

Lemma fin_built : forall s, breach (Next s) -> fin (cn s) = 0 \/ fin (cn s) < length (built (traj (su s))).
Proof.
  intros s R. destruct (C78_connected_in_order cloud frame smst sm_init sm_step fc s fc_pos R) as [E|(k & _ & Hk & ->)]; [|auto].
  left. pose proof (inv_reach _ _ _ _ _ _ _ fc_pos _ R) as (_ & _ & _ & _ & (F1 & F2 & _) & _).
  destruct (firsti (cn s)); [|apply F1; reflexivity]. destruct (F2 eq_refl) as [_ K]. rewrite E in K. discriminate.
Qed.
Lemma built_nth : forall s i g, breach (Next s) -> built_at s i g -> i < length (built (traj (su s))) /\ sub_at s i = g.
Proof.
  intros s i g R H. unfold built_at in H. rewrite (traj_form s R) in H.
  destruct (Nat.lt_ge_cases i (length (built (traj (su s))))) as [L|L].
  - split; [exact L|]. rewrite nth_error_app1 in H by (rewrite map_length; exact L).
    apply nth_error_map_Some in H. destruct H as (f & E & H). injection E as <-. unfold sub_at. apply nth_error_nth. exact H.
  - rewrite nth_error_app2 in H by (rewrite map_length; exact L). unfold half in H.
    destruct (mpc (su s)); cbn in H; destruct (i - _) as [|[|j]]; discriminate.
Qed.
Lemma nth_built : forall s i, breach (Next s) -> i < length (built (traj (su s))) -> built_at s i (sub_at s i).
Proof.
  intros s i R L. unfold built_at. rewrite (traj_form s R). rewrite nth_error_app1 by (rewrite map_length; exact L).
  rewrite nth_error_map. rewrite (nth_error_nth' _ [] L). reflexivity.
Qed.
Lemma unbuilt_half : forall s i, breach (Next s) -> i < length (traj (su s)) -> unbuilt_at s i ->
  mpc (su s) = MPush2 /\ S i = length (traj (su s)).
Proof.
  intros s i R L U. destruct (Nat.lt_ge_cases i (length (built (traj (su s))))) as [K|K].
  - destruct (U _ (nth_built s i R K)).
  - rewrite (traj_form s R) in L |- *. rewrite app_length, map_length in *. unfold half in *. destruct (mpc (su s)); cbn [length] in *; try lia. split; [reflexivity|lia].
Qed.
Lemma sub_stable : forall s s' i, breach (Next s) -> bstep s (Next s') -> i < length (built (traj (su s))) -> sub_at s' i = sub_at s i.
Proof.
  intros s s' i R H L. destruct (bstep_facts s s' R H) as ((r & E) & _). unfold sub_at. rewrite E. apply app_nth1. exact L.
Qed.
Lemma proper_stable : forall s s' l, breach (Next s) -> bstep s (Next s') -> proper (sub_at s) (fin (cn s)) l ->
  proper (sub_at s') (fin (cn s)) l.
Proof.
  intros s s' l R H P. destruct (fin_built s R) as [E|E].
  - rewrite E in *. inversion P as [| | | |]; subst; try lia. constructor.
  - eapply proper_ext; [|exact P]. intros i Hi. apply sub_stable; [exact R|exact H|lia].
Qed.
Lemma fin_lt_traj : forall s, breach (Next s) -> 1 <= fin (cn s) -> fin (cn s) < length (built (traj (su s))) /\ length (built (traj (su s))) <= length (traj (su s)).
Proof.
  intros s R H. destruct (fin_built s R) as [E|E]; [lia|]. split; [exact E|].
  rewrite (traj_form s R) at 2. rewrite app_length, map_length. lia.
Qed.

Lemma dinv_step : forall x x', dinv x -> dstep x (DNext x') -> dinv x'.
Proof.
  intros x x' (R & P & X & D & LP) H.
  inversion H as [s d l s' B F XC E1 E2| |s d l s' k r g B XE F BA E1 E2| |s l XE S E1 E2|s l XE S E1 E2
    |s e i ps l g Hi BA E1 E2| |s e i ps l Hi E1 E2|s l S E1 E2|s l S E1 E2|s e i ps l g Hi BA Hf E1 E2| |s e i ps l k Hi C E1 E2|s l s' B XE XE' E1 E2];
    subst; cbn [bst dis log] in *; unfold dinv; cbn [bst dis log].
  - (* Other *) pose proof (bstep_facts s s' R B) as (_ & Lt & _ & XR & XN).
    split; [eapply breach_step; eassumption|]. rewrite F. split; [eapply proper_stable; eassumption|].
    split; [intros E; destruct (XN E) as [E'|E']; [auto|lia]|]. split.
    + destruct d as [|e i ps| |e i ps|]; auto.
      * destruct D as (D1 & D2 & D3 & D4 & D5 & D6). repeat split; auto. lia.
      * destruct D as (D1 & D2 & D3 & D4 & D5 & D6). repeat split; auto; [lia|]. rewrite D6.
        rewrite !flat_map_concat_map. f_equal. apply map_ext_in. intros j Hj. apply in_seq in Hj. unfold part.
        rewrite (sub_stable s s' j R B); [reflexivity|]. destruct (fin_lt_traj s R (X D1)). lia.
    + destruct LP as [LP|[LP|[[(r & LP) LP2]|LP]]]; auto. right. right. left. split; [|exact LP2].
      destruct (XR r LP F) as [E|[-> E]]; [rewrite E; eauto|]. rewrite (XC LP). eauto.
  - (* Connect *) pose proof (bstep_facts s s' R B) as (_ & Lt & [F'|(k' & r' & XE2 & XE3 & _ & Su)] & _); [lia|].
    assert (k = S (fin (cn s))) as ->.
    { pose proof (inv_reach _ _ _ _ _ _ _ fc_pos _ R) as (_ & _ & _ & _ & (_ & _ & I5) & _). rewrite XE in I5.
      destruct I5 as (_ & I5 & _). cbn in I5. congruence. }
    destruct (built_nth s _ g R BA) as [BL <-]. split; [eapply breach_step; eassumption|]. rewrite F. split; [|split; [|split]].
    + unfold cur_pose. rewrite F. replace (sub_at s (S (fin (cn s)))) with (sub_at s' (S (fin (cn s)))) by (unfold sub_at; rewrite Su; reflexivity).
      apply pr_conn. eapply proper_stable; eassumption.
    + lia.
    + destruct d; auto; first [congruence|destruct D as [D _]; congruence].
    + right. right. left. split; [rewrite XE3; eauto|]. destruct d; cbn; auto; first [congruence|destruct D as [D _]; congruence].
  - (* PathSkip *) split; [exact R|]. split; [exact P|]. split; [exact X|]. split; [exact XE|]. left. exact S.
  - (* PathStart *) split; [exact R|]. split; [exact P|]. split; [exact X|]. split.
    + destruct (fin_lt_traj s R (X XE)). repeat split; auto; lia.
    + right. right. left. split; [eauto|exact I].
  - (* PathStep *) split; [exact R|]. split; [exact P|]. split; [exact X|]. destruct D as (D1 & D2 & D3 & D4 & D5 & D6). split.
    + repeat split; auto. rewrite D6. destruct (Nat.leb_spec i (fin (cn s))) as [L|L].
      * rewrite !Nat.min_l by lia. rewrite seq_S, map_app. reflexivity.
      * rewrite !Nat.min_r by lia. reflexivity.
    + right. right. left. split; [eauto|exact I].
  - (* PathEnd *) destruct D as (D1 & D2 & D3 & D4 & D5 & D6). assert (ps = path_of (fin (cn s))) as ->.
    { rewrite D6, Nat.min_r by lia. reflexivity. }
    split; [exact R|]. split; [apply pr_path; auto|]. split; [exact X|]. split; [exact D1|].
    right. right. right. rewrite last_path_app. reflexivity.
  - (* MapSkip *) split; [exact R|]. split; [exact P|]. split; [exact X|]. split; [exact D|].
    destruct LP as [LP|[LP|[[_ []]|LP]]]; auto.
  - (* MapStart *) split; [exact R|]. split; [exact P|]. split; [exact X|]. split.
    + destruct (fin_lt_traj s R (X D)). repeat split; auto; lia.
    + destruct LP as [LP|[LP|[[_ []]|LP]]]; auto.
  - (* MapStep *) split; [exact R|]. split; [exact P|]. split; [exact X|]. destruct D as (D1 & D2 & D3 & D4 & D5 & D6). split.
    + repeat split; auto; [lia|]. rewrite D6, seq_S, flat_map_app. cbn [flat_map Nat.add]. rewrite app_nil_r.
      destruct (built_nth s i g R BA) as [_ <-]. unfold part at 4, cur_pose. destruct (near _ _); [reflexivity|]. rewrite app_nil_r. reflexivity.
    + destruct LP as [LP|[LP|[[_ []]|LP]]]; auto.
  - (* MapEnd *) destruct D as (D1 & D2 & D3 & D4 & D5 & D6). assert (i = S (fin (cn s))) as -> by (destruct Hi as [Hi|[Hi _]]; lia).
    split; [exact R|]. split; [apply pr_map; auto; rewrite <- D6; exact C|]. split; [exact X|]. split; [exact D1|].
    destruct LP as [LP|[LP|[[_ []]|LP]]]; auto. right. right. right. rewrite last_path_app. cbn. exact LP.
  - (* Back *) pose proof (bstep_facts s s' R B) as (_ & _ & [F|(k & r & XE2 & _)] & _); [|congruence].
    split; [eapply breach_step; eassumption|]. rewrite F. split; [|split; [congruence|split; [exact I|]]].
    + destruct show_edge eqn:SE; [apply pr_edge; auto; eapply proper_stable; eassumption|].
      rewrite app_nil_r. eapply proper_stable; eassumption.
    + destruct LP as [LP|[LP|[[_ []]|LP]]]; auto. right. right. right. rewrite last_path_app, LP. destruct show_edge; reflexivity.
Qed.
Lemma dinv_reach : forall x, dreach (DNext x) -> dinv x.
Proof.
  assert (forall r, dreach r -> match r with DNext x => dinv x | DCrash _ => True end) as G.
  { intros r H. induction H as [|x r H IH Hs].
    - split; [apply breach_init|]. split; [constructor|]. split; [discriminate|]. split; [exact I|]. right. left. reflexivity.
    - destruct r as [x'|o]; [|exact I]. eapply dinv_step; eassumption. }
  intros x H. exact (G _ H).
Qed.
End Proofs.
