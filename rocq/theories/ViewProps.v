(** Properties C46, C47, C84: the view graph. *)
From Coq Require Import ZArith QArith List Lia Lqa Sorted String.
From Verif Require Import IdsModel ViewModel ViewSpec ViewProofs.
Import ListNotations.
Local Open Scope Z_scope.

Section View.
Variable M : Type.
Variable garbage : M.
Notation run := (run M garbage).
Notation edges_of h := (graph_of M (run h)).

(** ** C46 *)
(** After any history the graph holds exactly the added vertices, in index order, each with the
    pose given last and with the edges that were accepted, in order; both ends of every edge
    exist. *)
Theorem C46_graph : forall h,
  StronglySorted Z.lt (map fst (edges_of h)) /\
  (forall i, In i (map fst (edges_of h)) <-> added M h i) /\
  (forall i x, In (i, x) (edges_of h) -> last_pose M h i (self_pose M x) /\ edges_from M i h (connections M x)) /\
  (forall i x j t, In (i, x) (edges_of h) -> In (j, t) (connections M x) -> added M h i /\ added M h j).
Proof.
  intros h. destruct (agrees_run M garbage h) as (S & V & L & C). split; [exact S|]. split; [|split].
  - intros i. rewrite <- V, in_map_iff. split.
    + intros ((j & x) & E & H). cbn in E. subst j. apply find_in in H; [congruence|exact S].
    + intros H. destruct (find M (edges_of h) i) as [x|] eqn:F; [|congruence]. exists (i, x). split; [reflexivity|]. apply find_in; assumption.
  - intros i x H. apply find_in in H; [|exact S]. apply L, H.
  - intros i x j t H Hj. apply find_in in H; [|exact S]. rewrite <- !V. split; [congruence|]. apply (C i x j t H Hj).
Qed.
(** Adding a vertex again replaces the pose and keeps the edges. *)
Theorem C46_update_keeps_edges : forall h i p x, In (i, x) (edges_of h) -> In (i, mkItem M p (connections M x)) (edges_of (h ++ [Vertex M i p])).
Proof.
  intros h i p x H. destruct (agrees_run M garbage h) as (S & _). rewrite run_snoc. cbn [step add_vertex graph_of].
  apply find_in; [apply update_sorted, S|]. rewrite find_update by exact S. rewrite Z.eqb_refl. apply find_in in H; [|exact S]. rewrite H. reflexivity.
Qed.
(** An edge with an unknown end changes nothing. *)
Theorem C46_edge_rejected : forall h a b t, ~ (added M h a /\ added M h b) -> run (h ++ [Edge M a b t]) = run h.
Proof.
  intros h a b t N. destruct (agrees_run M garbage h) as (S & V & _). rewrite run_snoc. cbn [step]. unfold add_edge, count.
  pose proof (V a) as Va. pose proof (V b) as Vb. destruct (find M (edges_of h) a); [|reflexivity]. destruct (find M (edges_of h) b); [|reflexivity].
  exfalso. apply N. split; [apply Va|apply Vb]; discriminate.
Qed.
(** The dump determines the vertices and the targets of their edges, in order. *)
Theorem C46_dump : forall h h', dump M (edges_of h) = dump M (edges_of h') ->
  map (fun ix => (fst ix, map fst (connections M (snd ix)))) (edges_of h) = map (fun ix => (fst ix, map fst (connections M (snd ix)))) (edges_of h').
Proof. intros h h' H. apply dump_inj, H. Qed.

(** ** C47 *)
Local Open Scope Q_scope.
(** Every coordinate ever given lies in the box, whether or not images were saved. *)
Theorem C47_contains : forall h i p, In (Vertex M i p) h ->
  (forall x, px M p = Some x -> xmin M (run h) <= x <= xmax M (run h)) /\ (forall y, py M p = Some y -> ymin M (run h) <= y <= ymax M (run h)).
Proof.
  induction h as [|o h IH] using rev_ind; intros i p H; [destruct H|]. rewrite run_snoc. apply in_app_iff in H. destruct H as [H|[H|[]]].
  - destruct (IH i p H) as [I1 I2]. destruct o as [j q|a b t|res]; cbn [step].
    + cbn [add_vertex xmin xmax ymin ymax].
      destruct (shrink_spec (px M q) (xmin M (run h))) as (X1 & _). destruct (shrink_spec (py M q) (ymin M (run h))) as (Y1 & _).
      destruct (grow_spec (px M q) (xmax M (run h))) as (X2 & _). destruct (grow_spec (py M q) (ymax M (run h))) as (Y2 & _).
      split; [intros x Ex; specialize (I1 x Ex)|intros y Ey; specialize (I2 y Ey)]; lra.
    + unfold add_edge. destruct ((_ =? 0)%nat || (_ =? 0)%nat)%bool; split; assumption.
    + unfold save_image. destruct (edges_of h); [split; assumption|]. destruct (draw_all _ _ _ _ _ _ _) as [g' ls]. cbn [fst xmin xmax ymin ymax].
      split; [intros x Ex; specialize (I1 x Ex)|intros y Ey; specialize (I2 y Ey)]; lra.
  - subst o. cbn [step add_vertex xmin xmax ymin ymax].
    destruct (shrink_spec (px M p) (xmin M (run h))) as (_ & X1 & _). destruct (shrink_spec (py M p) (ymin M (run h))) as (_ & Y1 & _).
    destruct (grow_spec (px M p) (xmax M (run h))) as (_ & X2 & _). destruct (grow_spec (py M p) (ymax M (run h))) as (_ & Y2 & _).
    split; [intros x Ex; specialize (X1 x Ex); specialize (X2 x Ex)|intros y Ey; specialize (Y1 y Ey); specialize (Y2 y Ey)]; auto.
Qed.
(** Before the first image the bounds are coordinates that were given, or the start values. *)
Theorem C47_tight : forall h, saves M h = 0%nat ->
  (xmin M (run h) = dbl_max \/ exists i p, In (Vertex M i p) h /\ px M p = Some (xmin M (run h))) /\
  (ymin M (run h) = dbl_max \/ exists i p, In (Vertex M i p) h /\ py M p = Some (ymin M (run h))) /\
  (xmax M (run h) = dbl_min \/ exists i p, In (Vertex M i p) h /\ px M p = Some (xmax M (run h))) /\
  (ymax M (run h) = dbl_min \/ exists i p, In (Vertex M i p) h /\ py M p = Some (ymax M (run h))).
Proof.
  induction h as [|o h IH] using rev_ind; intros H; [cbn; auto|]. unfold saves in H. rewrite filter_app, app_length in H.
  destruct (IH ltac:(unfold saves; lia)) as (A & B & C & D). rewrite run_snoc.
  assert (forall (P : pose M -> Prop), (exists i p, In (Vertex M i p) h /\ P p) -> exists i p, In (Vertex M i p) (h ++ [o]) /\ P p) as Mono.
  { intros P (i & p & H1 & H2). exists i, p. split; [apply in_app_iff; left; exact H1|exact H2]. }
  destruct o as [i p|a b t|res]; cbn [step].
  - cbn [add_vertex xmin xmax ymin ymax].
    assert (In (Vertex M i p) (h ++ [Vertex M i p])) as Last by (apply in_app_iff; right; left; reflexivity).
    do 3 (try split).
    + destruct (shrink_spec (px M p) (xmin M (run h))) as (_ & _ & [E|E]); [rewrite E; destruct A; [auto|right; apply (Mono (fun p => px M p = _)); assumption]|right; eauto].
    + destruct (shrink_spec (py M p) (ymin M (run h))) as (_ & _ & [E|E]); [rewrite E; destruct B; [auto|right; apply (Mono (fun p => py M p = _)); assumption]|right; eauto].
    + destruct (grow_spec (px M p) (xmax M (run h))) as (_ & _ & [E|E]); [rewrite E; destruct C; [auto|right; apply (Mono (fun p => px M p = _)); assumption]|right; eauto].
    + destruct (grow_spec (py M p) (ymax M (run h))) as (_ & _ & [E|E]); [rewrite E; destruct D; [auto|right; apply (Mono (fun p => py M p = _)); assumption]|right; eauto].
  - unfold add_edge. destruct ((_ =? 0)%nat || (_ =? 0)%nat)%bool; cbn [xmin xmax ymin ymax];
    (split; [|split; [|split]]; [destruct A|destruct B|destruct C|destruct D]; auto).
  - cbn in H. lia.
Qed.
(** If all x (or y) coordinates are negative the upper bound is the smallest positive normal double. *)
Theorem C47_negative : forall h, saves M h = 0%nat ->
  ((forall i p x, In (Vertex M i p) h -> px M p = Some x -> x < 0) -> xmax M (run h) = dbl_min) /\
  ((forall i p y, In (Vertex M i p) h -> py M p = Some y -> y < 0) -> ymax M (run h) = dbl_min).
Proof.
  assert (forall h, dbl_min <= xmax M (run h) /\ dbl_min <= ymax M (run h)) as Low.
  { induction h as [|o h IH] using rev_ind; [cbn; split; lra|]. rewrite run_snoc. destruct o as [i p|a b t|res]; cbn [step].
    - cbn [add_vertex xmax ymax]. destruct (grow_spec (px M p) (xmax M (run h))) as (G1 & _). destruct (grow_spec (py M p) (ymax M (run h))) as (G2 & _). lra.
    - unfold add_edge. destruct ((_ =? 0)%nat || (_ =? 0)%nat)%bool; exact IH.
    - unfold save_image. destruct (edges_of h); [exact IH|]. destruct (draw_all _ _ _ _ _ _ _). cbn [fst xmax ymax]. lra. }
  assert (0 < dbl_min) as Pos by reflexivity.
  intros h S. destruct (C47_tight h S) as (_ & _ & C & D). destruct (Low h) as [L1 L2]. split; intros N.
  - destruct C as [C|(i & p & Hi & E)]; [exact C|]. specialize (N i p _ Hi E). lra.
  - destruct D as [D|(i & p & Hi & E)]; [exact D|]. specialize (N i p _ Hi E). lra.
Qed.

(** ** C84 *)
Lemma trunc_floor : forall q, 0 <= q -> inject_Z (trunc q) <= q < inject_Z (trunc q) + 1 /\ (0 <= trunc q)%Z.
Proof.
  intros [n d] H. unfold Qle in H. cbn in H. assert (0 <= n)%Z as Hn by lia. unfold trunc. cbn [Qnum Qden].
  pose proof (Z.quot_rem' n (Zpos d)) as E. pose proof (Z.rem_bound_pos n (Zpos d) Hn ltac:(lia)) as R. pose proof (Z.quot_pos n (Zpos d) Hn ltac:(lia)) as P.
  split; [|exact P]. unfold Qle, Qlt, Qplus. cbn [Qnum Qden inject_Z]. split; cbn; rewrite ?Pos.mul_1_r; nia.
Qed.
Lemma trunc_gap : forall a b, 0 <= a -> a + 1 <= b -> (trunc a < trunc b)%Z.
Proof.
  intros a b Ha Hb. destruct (trunc_floor a Ha) as [[A1 A2] _]. destruct (trunc_floor b ltac:(lra)) as [[B1 B2] _].
  assert (inject_Z (trunc a) < inject_Z (trunc b)) as G by lra. rewrite <- Zlt_Qlt in G. exact G.
Qed.
Definition inside (w hgt : Z) (p : pixel) : Prop := match p with Some (u, v) => (0 <= u < w /\ 0 <= v < hgt)%Z | None => True end.
Lemma div_pos : forall a r, 0 <= a -> 0 < r -> 0 <= a / r.
Proof. intros a r Ha Hr. apply Qle_shift_div_l; [exact Hr|]. lra. Qed.
Lemma div_gap : forall a b r, 0 < r -> r <= 1 -> a + 1 <= b -> a / r + 1 <= b / r.
Proof.
  intros a b r Hr H1 H. setoid_replace (a / r + 1) with ((a + r) / r) by (field; lra).
  apply Qle_shift_div_l; [exact Hr|]. setoid_replace ((a + r) / r * r) with (a + r) by (field; lra). lra.
Qed.
Lemma to_image_inside : forall x0 y0 x1 y1 res p, 0 < res -> res <= 1 ->
  (forall x, px M p = Some x -> x0 + 1 <= x <= x1 - 1) -> (forall y, py M p = Some y -> y0 + 1 <= y <= y1 - 1) ->
  inside (trunc ((x1 - x0) / res)) (trunc ((y1 - y0) / res)) (to_image M x0 y1 res p).
Proof.
  intros x0 y0 x1 y1 res p R0 R1 Hx Hy. unfold to_image, inside. destruct (px M p) as [x|]; [|exact I]. destruct (py M p) as [y|]; [|exact I].
  specialize (Hx x eq_refl). specialize (Hy y eq_refl).
  assert (0 <= (x - x0) / res) as Px by (apply div_pos; [lra|exact R0]). assert (0 <= (y1 - y) / res) as Py by (apply div_pos; [lra|exact R0]).
  split; (split; [apply trunc_floor; assumption|apply trunc_gap; [assumption|apply div_gap; lra]]).
Qed.

(** Every edge is drawn as one line, in order; all end points are pixels of the image (for a
    resolution of at most one metre); the line is blue exactly if it leads to the next index. *)
Theorem C84_image : forall h res, (exists i, added M h i) -> 0 < res -> res <= 1 ->
  exists im, snd (save_image M garbage (run h) res) = Some im /\
  map (l_blue) (lines im) = flat_map (fun ix => map (fun c => (fst c - fst ix =? 1)%Z) (connections M (snd ix))) (edges_of h) /\
  (forall l, In l (lines im) -> inside (width im) (height im) (l_from l) /\ inside (width im) (height im) (l_to l)).
Proof.
  intros h res Ne R0 R1. destruct (agrees_run M garbage h) as (S & V & L & C). pose proof (agrees_closed M h (run h) (agrees_run M garbage h)) as Cl.
  assert (edges_of h <> []) as Ne'. { destruct Ne as [i Ne]. apply V in Ne. intros E. rewrite E in Ne. apply Ne. reflexivity. }
  unfold save_image. destruct (edges_of h) as [|a g] eqn:Eg; [congruence|]. rewrite <- Eg in *. clear Ne Ne'.
  set (x0 := xmin M (run h) - 1). set (y0 := ymin M (run h) - 1). set (x1 := xmax M (run h) + 1). set (y1 := ymax M (run h) + 1).
  assert (forall i x, In (i, x) (edges_of h) -> inside (trunc ((x1 - x0) / res)) (trunc ((y1 - y0) / res)) (to_image M x0 y1 res (self_pose M x))) as In1.
  { intros i x Hi. apply find_in in Hi; [|exact S]. destruct (L i x Hi) as [(u & v & E & _) _].
    assert (In (Vertex M i (self_pose M x)) h) as Hin by (rewrite E; apply in_app_iff; right; left; reflexivity).
    destruct (C47_contains h i (self_pose M x) Hin) as [Cx Cy].
    apply to_image_inside; [exact R0|exact R1| |].
    - intros q Eq. specialize (Cx q Eq). unfold x0, x1. lra.
    - intros q Eq. specialize (Cy q Eq). unfold y0, y1. lra. }
  assert (forall i from l, inside (trunc ((x1 - x0) / res)) (trunc ((y1 - y0) / res)) from -> (forall j t, In (j, t) l -> find M (edges_of h) j <> None) ->
    let ls := snd (draw M garbage x0 y1 res (edges_of h) i from l) in
    map l_blue ls = map (fun c => (fst c - i =? 1)%Z) l /\
    (forall k, In k ls -> inside (trunc ((x1 - x0) / res)) (trunc ((y1 - y0) / res)) (l_from k) /\ inside (trunc ((x1 - x0) / res)) (trunc ((y1 - y0) / res)) (l_to k))) as Dr.
  { intros i from l Hf. induction l as [|[j t] l IH]; intros Hl; cbn [draw]; [split; [reflexivity|intros k []]|].
    rewrite update_id; [|exact S|apply (Hl j t); left; reflexivity|reflexivity].
    assert (forall j t, In (j, t) l -> find M (edges_of h) j <> None) as Hl' by (intros j' t' Hj; apply (Hl j' t'); right; exact Hj).
    specialize (IH Hl'). destruct (draw M garbage x0 y1 res (edges_of h) i from l) as [g2 ls]. cbn [snd] in IH |- *. destruct IH as [I1 I2]. split.
    - cbn. rewrite I1. reflexivity.
    - intros k [K|K]; [|apply I2, K]. subst k. cbn [l_from l_to]. split; [exact Hf|].
      destruct (find M (edges_of h) j) as [x|] eqn:F; [|exact I]. apply (In1 j). apply find_in; assumption. }
  assert (forall items, (forall i x, In (i, x) items -> In (i, x) (edges_of h)) ->
    let ls := snd (draw_all M garbage x0 y1 res (edges_of h) items) in
    map l_blue ls = flat_map (fun ix => map (fun c => (fst c - fst ix =? 1)%Z) (connections M (snd ix))) items /\
    (forall k, In k ls -> inside (trunc ((x1 - x0) / res)) (trunc ((y1 - y0) / res)) (l_from k) /\ inside (trunc ((x1 - x0) / res)) (trunc ((y1 - y0) / res)) (l_to k))) as Da.
  { induction items as [|[i x] items IH]; intros Hi; cbn [draw_all]; [split; [reflexivity|intros k []]|].
    assert (In (i, x) (edges_of h)) as Hix by (apply Hi; left; reflexivity).
    assert (forall j t, In (j, t) (connections M x) -> find M (edges_of h) j <> None) as Hc by (intros j t; apply (Cl i x j t Hix)).
    pose proof (Dr i (to_image M x0 y1 res (self_pose M x)) (connections M x) (In1 i x Hix) Hc) as D1.
    pose proof (draw_same M garbage x0 y1 res (connections M x) (edges_of h) i (to_image M x0 y1 res (self_pose M x)) S Hc) as D2.
    destruct (draw M garbage x0 y1 res (edges_of h) i (to_image M x0 y1 res (self_pose M x)) (connections M x)) as [g1 ls]. cbn [fst snd] in D1, D2. subst g1.
    specialize (IH ltac:(intros i' x' H'; apply Hi; right; exact H')).
    destruct (draw_all M garbage x0 y1 res (edges_of h) items) as [g2 ls']. cbn [snd] in IH |- *. destruct D1 as [D1 D1'], IH as [I1 I2]. split.
    - rewrite map_app, D1, I1. cbn. reflexivity.
    - intros k K. apply in_app_iff in K. destruct K; auto. }
  specialize (Da (edges_of h) ltac:(auto)). destruct (draw_all M garbage x0 y1 res (edges_of h) (edges_of h)) as [g' ls]. cbn [snd] in Da.
  rewrite Eg. eexists. split; [reflexivity|]. cbn [lines width height]. rewrite <- Eg. exact Da.
Qed.
(** Without a vertex no image is written and nothing changes. *)
Theorem C84_empty : forall h res, (forall i, ~ added M h i) ->
  save_image M garbage (run h) res = (run h, None).
Proof.
  intros h res Ne. destruct (agrees_run M garbage h) as (_ & V & _). unfold save_image.
  destruct (edges_of h) as [|[i x] g] eqn:Eg; [reflexivity|]. exfalso. apply (Ne i). apply V.
  cbn. rewrite Z.eqb_refl. discriminate.
Qed.
(** Saving is not read-only: every call widens the stored box, so the same graph gives a larger
    image each time. *)
Theorem C84_save_grows : forall h r r', (exists i, added M h i) ->
  let s := run h in let s' := run (h ++ [Save M r]) in
  xmin M s' = xmin M s - 1 /\ ymin M s' = ymin M s - 1 /\ xmax M s' = xmax M s + 1 /\ ymax M s' = ymax M s + 1 /\ graph_of M s' = graph_of M s /\
  (0 < r' -> r' <= 1 -> (forall i p, In (Vertex M i p) h -> px M p <> None /\ py M p <> None) ->
   exists im im', snd (save_image M garbage s r') = Some im /\ snd (save_image M garbage s' r') = Some im' /\ (width im < width im')%Z /\ (height im < height im')%Z).
Proof.
  intros h r r' Ne0 s s'.
  assert (edges_of h <> []) as Ne. { destruct (agrees_run M garbage h) as (_ & V & _). destruct Ne0 as [i Ne]. apply V in Ne. intros E. rewrite E in Ne. apply Ne. reflexivity. }
  assert (graph_of M s' = graph_of M s) as G.
  { unfold s', s. rewrite run_snoc. cbn [step]. apply (save_graph M garbage h). apply agrees_run. }
  assert (xmin M s' = xmin M s - 1 /\ ymin M s' = ymin M s - 1 /\ xmax M s' = xmax M s + 1 /\ ymax M s' = ymax M s + 1) as B.
  { unfold s', s. rewrite run_snoc. cbn [step]. unfold save_image. destruct (edges_of h); [congruence|]. destruct (draw_all _ _ _ _ _ _ _). cbn. auto. }
  destruct B as (B1 & B2 & B3 & B4). do 5 (split; [assumption|]). intros R0 R1 NN.
  assert (exists x y, xmin M s <= x <= xmax M s /\ ymin M s <= y <= ymax M s) as (x & y & X & Y).
  { destruct (C46_graph h) as (_ & V & _). destruct (edges_of h) as [|[i it] g] eqn:E; [congruence|]. destruct (proj1 (V i)) as (p & Hp); [left; reflexivity|].
    destruct (C47_contains h i p Hp) as [Cx Cy]. destruct (NN i p Hp) as [Nx Ny]. destruct (px M p) as [x|]; [|congruence]. destruct (py M p) as [y|]; [|congruence].
    exists x, y. split; [apply Cx|apply Cy]; reflexivity. }
  unfold save_image. rewrite G, B1, B2, B3, B4. unfold s at 1. fold s. destruct (graph_of M s) as [|a g] eqn:E; [unfold s in E; congruence|].
  destruct (draw_all M garbage (xmin M s - 1) (ymax M s + 1) r' (a :: g) (a :: g)). destruct (draw_all M garbage (xmin M s - 1 - 1) (ymax M s + 1 + 1) r' (a :: g) (a :: g)).
  eexists _, _. split; [reflexivity|]. split; [reflexivity|]. cbn [width height].
  split; (apply trunc_gap; [apply div_pos; [lra|exact R0]|apply div_gap; lra]).
Qed.
End View.

(** Three vertices, one rejected edge, one updated pose, all coordinates negative. *)
Definition ex_pose (x y : Q) : pose unit := mkPose unit (Some x) (Some y) tt.
Definition ex_history : list (op unit) :=
  [Vertex unit 0 (ex_pose (-5) (-3)); Edge unit 0 1 tt; Vertex unit 1 (ex_pose (-4) 2); Edge unit 0 1 tt; Vertex unit 7 (ex_pose (-1) 1); Edge unit 7 0 tt; Vertex unit 0 (ex_pose (-6) (-3))].
Example C46_example : dump unit (graph_of unit (run unit tt ex_history)) = "0 > 1, 
1 > 
7 > 0, 
"%string.
Proof. vm_compute. reflexivity. Qed.
Example C47_example : xmax unit (run unit tt ex_history) = dbl_min /\ ymax unit (run unit tt ex_history) = 2%Q /\ xmin unit (run unit tt ex_history) = (-6)%Q.
Proof. split; [|split]; vm_compute; reflexivity. Qed.
Example C84_example : exists im, snd (save_image unit tt (run unit tt ex_history) (1 # 2)) = Some im /\ width im = 16 /\ height im = 14 /\ List.length (lines im) = 2%nat.
Proof. eexists. split; [vm_compute; reflexivity|]. vm_compute. auto. Qed.

Print Assumptions C46_graph.
Print Assumptions C46_update_keeps_edges.
Print Assumptions C46_edge_rejected.
Print Assumptions C46_dump.
Print Assumptions C47_contains.
Print Assumptions C47_tight.
Print Assumptions C47_negative.
Print Assumptions C84_image.
Print Assumptions C84_empty.
Print Assumptions C84_save_grows.
