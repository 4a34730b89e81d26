(** C124: the table of the profiler. *)
From Coq Require Import ZArith String List Bool Lia Permutation.
From Verif Require Import Outcome TimeModel ProfModel ProfSpec ProfProofs.
Import ListNotations.
Local Open Scope outcome_scope.
Local Open Scope Z_scope.

(** Under every schedule no timer uses a destroyed manager.  If the table is printed, the program has ended, no thread is in a
    block, and for every name and thread the times are those of the blocks that ran, in the order in which they ended. *)
Theorem C124_every_block_counted : forall n prog tr, execution n prog tr ->
  exists s, run step (start n) tr = Ok s /\
  (forall d, printed s = Some d -> In Exit tr /\
     forall t, (t < n)%nat -> exists done rest, prog t = done ++ rest /\ of_thread t tr = flat_map actions done /\
       forall m, d m t = match flat_map (times m) done with [] => None | l => Some l end) /\
  (complete n prog tr -> exists d, printed s = Some d /\
     (forall t m, (t < n)%nat -> d m t = match flat_map (times m) (prog t) with [] => None | l => Some l end) /\
     (forall t m, (n <= t)%nat -> d m t = None)).
Proof.
  intros n prog tr X. destruct (run_inv n prog tr X) as [s [E I]]. exists s. split; auto. destruct I.
  assert (Val : forall t done, (t < n)%nat -> of_thread t tr = flat_map actions done ->
    forall m, vecs s m t = match flat_map (times m) done with [] => None | l => Some l end).
  { intros t done Ht Eo m. destruct (nth_error (stacks s) t) as [k|] eqn:Ek; [|apply nth_error_None in Ek; lia].
    destruct (v_thread t k Ek) as [d [Ed G]]. rewrite Eo in Ed.
    destruct (blocks_ok t done [] (fun _ _ => None) I) as [d' [Ed' D']]. rewrite Ed' in Ed. inversion Ed; subst. rewrite <- (G m), D'.
    destruct (flat_map (times m) done); reflexivity. }
  split.
  - intros d Hd. rewrite v_printed in Hd. destruct (Nat.eqb_spec (refs s) 0) as [R|]; [|discriminate]. inversion Hd; subst d. clear Hd.
    rewrite v_refs in R. split; [apply exit_in; rewrite <- v_exit; destruct (exited s); [reflexivity|lia]|].
    intros t Ht. destruct (nth_error (stacks s) t) as [k|] eqn:Ek; [|apply nth_error_None in Ek; lia].
    destruct (v_thread t k Ek) as [d [Ed G]]. assert (k = []) as -> by (apply (open_zero (stacks s) t); [lia|auto]).
    apply act_all_depth in Ed. cbn [List.length] in Ed. destruct (x_prefix _ _ _ X t Ht) as [r Er].
    destruct (balanced_prefix (prog t) _ r Er) as [done [rest [E1 E2]]]; [lia|]. exists done, rest. auto.
  - intros [Cx Ct]. exists (vecs s). split.
    + rewrite v_printed. assert (refs s = 0%nat) as ->; [|reflexivity]. rewrite v_refs. apply exit_in in Cx. rewrite v_exit, Cx. rewrite open_empty; auto.
      intros t k Ek. change (@nth_error stack (stacks s) t = Some k) in Ek. destruct (v_thread t k Ek) as [d [Ed G]]. assert (Ht : (t < n)%nat) by (destruct (Nat.lt_ge_cases t n) as [K|K]; auto; rewrite <- v_len in K; apply nth_error_None in K; congruence).
      rewrite Ct in Ed by auto. destruct (blocks_ok t (prog t) [] (fun _ _ => None) I) as [d' [Ed' _]]. unfold program in Ed. rewrite Ed' in Ed. congruence.
    + split; [|exact v_none]. intros t m Ht. apply Val; auto. exact (Ct t Ht).
Qed.
Print Assumptions C124_every_block_counted.

(** The figures of a list of times that are not negative. *)
Theorem C124_statistics : forall l, l <> [] -> Forall (fun x => 0 <= x) l -> total l < 2 ^ 63 ->
  exists s, statistics l = Ok s /\ describes l s.
Proof. intros l N F L. destruct (statistics_ok l N F L) as [s [E [D _]]]. eauto. Qed.
Print Assumptions C124_statistics.
Theorem C124_statistics_empty : statistics [] = UB.
Proof. reflexivity. Qed.
Print Assumptions C124_statistics_empty.

(** The table: one row for each block name and thread, or with merging for each name.  [figures]: a row shows the figures of
    the times. *)
Definition figures (u : Z) (name : string) (l : list Z) (r : row) : Prop :=
  r_name r = name /\ exists s, describes l s /\ r_times r = Z.of_nat (List.length l) /\
  text u (d_average s) (r_avg r) /\ text u (total l) (r_sum r) /\ text u (d_min s) (r_min r) /\ text u (d_max s) (r_max r).
Lemma one_row_ok : forall u name l, 0 < u -> u * 2 ^ 31 < 2 ^ 63 -> l <> [] -> Forall (fun x => 0 <= x) l -> total l < u * 2 ^ 31 ->
  exists r, one_row u name l = Ok r /\ figures u name l r.
Proof.
  intros u name l U U' N F L. destruct (statistics_ok l N F) as [s [E [D [A [Mn Mx]]]]]; [lia|]. unfold one_row. rewrite E. cbn [bind].
  pose proof D as [D1 [D2 [D3 [D4 [D5 D6]]]]]. pose proof (D5 _ D3) as D7.
  destruct (text_ok u (d_average s)) as [a [Ea Ta]]; [lia|lia|]. rewrite Ea. cbn [bind].
  destruct (text_ok u (d_sum s)) as [b [Eb Tb]]; [lia|lia|]. rewrite Eb. cbn [bind].
  destruct (text_ok u (d_min s)) as [c [Ec Tc]]; [lia|lia|]. rewrite Ec. cbn [bind].
  destruct (text_ok u (d_max s)) as [d [Ed Td]]; [lia|lia|]. rewrite Ed. cbn [bind].
  eexists. split; [reflexivity|]. split; [reflexivity|]. exists s. cbn [r_times r_avg r_sum r_min r_max]. rewrite <- D2. auto 10.
Qed.
Lemma all_rows_ok : forall {A} (f : A -> outcome row) (Q : A -> row -> Prop) l, (forall x, In x l -> exists r, f x = Ok r /\ Q x r) ->
  exists rs, all_rows (map f l) = Ok rs /\ Forall2 Q l rs.
Proof.
  intros A f Q. induction l as [|x l IH]; intros H; cbn [map all_rows].
  - exists []. split; auto.
  - destruct (H x (or_introl eq_refl)) as [r [-> Hq]]. cbn [bind]. destruct IH as [rs [-> Hr]]; [intros y Hy; apply H; right; auto|]. cbn [bind]. eauto.
Qed.

(** With merging (static_mapping_node.cpp:97): one row for each name, with all times of all threads. *)
Theorem C124_merged_table : forall u names threads d, 0 < u -> u * 2 ^ 31 < 2 ^ 63 -> enumerates d names threads ->
  (forall m t, d m t <> Some []) ->
  (forall m, Forall (fun x => 0 <= x) (flat_map (vector d m) (threads m)) /\ total (flat_map (vector d m) (threads m)) < u * 2 ^ 31) ->
  exists rows, table u true names threads d = Ok rows /\
    Forall2 (fun m r => figures u m (flat_map (vector d m) (threads m)) r) names rows.
Proof.
  intros u names threads d U U' [Nn [En Et]] Ne Sm. unfold table.
  assert (E : forall l, flat_map (fun n => [one_row u n (flat_map (vector d n) (threads n))]) l = map (fun n => one_row u n (flat_map (vector d n) (threads n))) l).
  { induction l as [|x l IH]; cbn [flat_map map app]; congruence. }
  cbv iota. rewrite E. apply (all_rows_ok _ (fun m r => figures u m (flat_map (vector d m) (threads m)) r)).
  intros m Hm. apply one_row_ok; auto; try apply Sm. apply En in Hm. destruct Hm as [t Ht]. pose proof (proj2 (proj2 (Et m) t) Ht) as Hi.
  intros Z0. destruct (d m t) as [v|] eqn:Ev; [|contradiction]. assert (In_ : forall x, In x v -> False).
  { intros x Hx. assert (K : In x (flat_map (vector d m) (threads m))) by (apply in_flat_map; exists t; split; auto; unfold vector; rewrite Ev; auto). rewrite Z0 in K. contradiction. }
  destruct v as [|x v]; [exact (Ne m t Ev)|exact (In_ x (or_introl eq_refl))].
Qed.
Print Assumptions C124_merged_table.
(** Without: one row for each name and thread. *)
Theorem C124_thread_table : forall u names threads d, 0 < u -> u * 2 ^ 31 < 2 ^ 63 -> enumerates d names threads ->
  (forall m t, d m t <> Some []) ->
  (forall m t, Forall (fun x => 0 <= x) (vector d m t) /\ total (vector d m t) < u * 2 ^ 31) ->
  exists rows, table u false names threads d = Ok rows /\
    Forall2 (fun mt r => figures u (fst mt) (vector d (fst mt) (snd mt)) r) (flat_map (fun m => map (fun t => (m, t)) (threads m)) names) rows.
Proof.
  intros u names threads d U U' [Nn [En Et]] Ne Sm. unfold table. cbv iota.
  assert (E : forall l, flat_map (fun n => map (fun t => one_row u n (vector d n t)) (threads n)) l =
            map (fun mt => one_row u (fst mt) (vector d (fst mt) (snd mt))) (flat_map (fun m => map (fun t => (m, t)) (threads m)) l)).
  { induction l as [|x l IH]; cbn [flat_map map app]; auto. rewrite map_app, map_map, IH. reflexivity. }
  rewrite E. apply (all_rows_ok _ (fun mt r => figures u (fst mt) (vector d (fst mt) (snd mt)) r)).
  intros [m t] Hm. cbn [fst snd]. apply one_row_ok; auto; try apply Sm. apply in_flat_map in Hm. destruct Hm as [m' [_ Hm]]. apply in_map_iff in Hm.
  destruct Hm as [t' [Em Ht]]. inversion Em; subst. apply Et in Ht. unfold vector. destruct (d m t) as [[|x v]|] eqn:Ev; [destruct (Ne m t Ev)|discriminate|contradiction].
Qed.
Print Assumptions C124_thread_table.

(** A sum of 2^31 units or more is undefined behaviour; with the default unit this is 36 minutes. *)
Theorem C124_long_sum : forall u name l s, 0 < u -> statistics l = Ok s -> u * 2 ^ 31 <= d_sum s -> one_row u name l = UB.
Proof.
  intros u name l s U E L. unfold one_row. rewrite E. cbn [bind].
  assert (K : time_to_string u (d_sum s) = UB).
  { unfold time_to_string. rewrite Z.quot_div_nonneg by lia. assert (2 ^ 31 <= d_sum s / u) by (apply Z.div_le_lower_bound; lia).
    destruct (Z.ltb_spec (d_sum s / u) (2 ^ 31)); [lia|]. rewrite andb_false_r. reflexivity. }
  rewrite K. unfold time_to_string. destruct (_ && _); reflexivity.
Qed.
Print Assumptions C124_long_sum.

(** "The average is the average": not when the clock (the system clock) was set back and the sum is negative. *)
Theorem C124_average_refuted : ~ (forall l s, statistics l = Ok s -> d_size s * d_average s <= d_sum s).
Proof. intros H. specialize (H [-5; 2] _ eq_refl). vm_compute in H. exact (H eq_refl). Qed.
Print Assumptions C124_average_refuted.

(** Times whose sum does not fit 64 bits are added up with an overflow. *)
Lemma sum_over : forall l a, 0 <= a < 2 ^ 63 -> Forall (fun x => 0 <= x) l -> 2 ^ 63 <= a + total l -> sum_from a l = UB.
Proof.
  induction l as [|x l IH]; intros a A F T; [unfold total in T; cbn in T; lia|]. inversion F; subst. cbn [sum_from].
  assert (T' : 2 ^ 63 <= a + x + total l) by (unfold total in *; cbn [fold_right] in T; lia).
  unfold i64, TimeModel.i64. destruct (_ && _)%bool eqn:E; [|reflexivity]. cbn [bind]. apply andb_true_iff in E. apply IH; auto. lia.
Qed.
Theorem C124_sum_limit : forall l, Forall (fun x => 0 <= x) l -> 2 ^ 63 <= total l -> statistics l = UB.
Proof.
  intros l F T. unfold statistics. assert (Ps : Permutation (sort l) l) by (apply Permutation_sym, sort_perm).
  destruct (sort l) as [|x r] eqn:E; [reflexivity|]. rewrite sum_over; [reflexivity|lia| |].
  - eapply Permutation_Forall; [apply Permutation_sym; exact Ps|exact F].
  - assert (Q : total (x :: r) = total l); [|lia]. unfold total. clear - Ps. induction Ps; cbn; lia.
Qed.
Print Assumptions C124_sum_limit.
Example C124_ex_limit : statistics [2 ^ 62; 2 ^ 62] = UB /\ statistics [2 ^ 62; 2 ^ 62 - 1] <> UB.
Proof. split; [vm_compute; reflexivity|vm_compute; discriminate]. Qed.

(** *** Examples *)
Definition outer : block := Block "Align" [Block "Iteration" [] 30; Block "Iteration" [] 20] 60.
Definition progs (t : nat) : list block := match t with O => [outer] | S O => [Block "Iteration" [] 7] | _ => [] end.
(** The second thread is in its block when the program ends. *)
Definition trace : list event :=
  [Do 0 (Enter "Align"); Do 1 (Enter "Iteration"); Do 0 Register; Do 0 (Enter "Iteration"); Do 1 Register; Do 0 Register; Do 0 (Finish 30); Do 0 Leave;
   Do 0 (Enter "Iteration"); Do 0 Register; Do 0 (Finish 20); Do 0 Leave; Do 0 (Finish 60); Do 0 Leave; Exit; Do 1 (Finish 7); Do 1 Leave].
Example C124_ex_execution : execution 2 progs trace /\ complete 2 progs trace.
Proof.
  assert (P : forall t, (t < 2)%nat -> of_thread t trace = program progs t) by (intros [|[|t]] H; [reflexivity|reflexivity|lia]).
  split.
  - constructor.
    + intros t H. exists []. rewrite app_nil_r. auto.
    + intros t a H. unfold trace in H. cbn [In] in H. repeat (destruct H as [H|H]; [try discriminate; inversion H; subst; lia|]). contradiction.
    + intros l1 l2 E. unfold trace in E. do 15 (destruct l1 as [|? l1]; cbn [app] in E; [first [discriminate|injection E as <-]|injection E as _ E]).
      * split; [intros H|intros t m H]; cbn [In] in H; intuition discriminate.
      * do 3 (try (destruct l1 as [|? l1]; cbn [app] in E; [discriminate|first [discriminate|injection E as _ E]])).
  - split; [|exact P]. unfold trace. cbn [In]. auto 20.
Qed.
Example C124_ex_table : match run step (start 2) trace with
  | Ok s => match printed s with
            | Some d => table 1 true ["Align"; "Iteration"]%string (fun m => if String.eqb m "Align" then [0%nat] else [1%nat; 0%nat]) d
            | None => UB end
  | _ => UB end =
  Ok [Row "Align" 1 (Shown 60) (Shown 60) (Shown 60) (Shown 60); Row "Iteration" 3 (Shown 19) (Shown 57) (Shown 7) (Shown 30)].
Proof. vm_compute. reflexivity. Qed.
Example C124_ex_statistics : statistics [3; 1; 2; 2] = Ok (Details 4 2 3 1 8) /\ describes [3; 1; 2; 2] (Details 4 2 3 1 8).
Proof.
  split; [vm_compute; reflexivity|]. unfold describes, total. cbn [d_size d_sum d_min d_max d_average List.length fold_right In].
  repeat split; try lia; auto; intuition lia.
Qed.
