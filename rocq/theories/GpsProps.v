(** Property theorems C07-C10, C61-C63: sensor tracks of the data collector. *)
From Coq Require Import ZArith QArith Qabs List Bool Lia.
From Verif Require Import Outcome TimeModel TimeSpec TimeProofs GpsModel GpsSpec GpsProofs
  OdomProofs Pose.
Import ListNotations.
Local Open Scope Z_scope.
Local Open Scope outcome_scope.

(** Some concrete data for the examples: [L] is a number, forward is the difference. *)
Definition ex_forward (r p : Z) : vec3 := mkVec (inject_Z (p - r)) 0 (inject_Z p).
Definition ms_time (ms : Z) : time := mkTime (100 + ms / 1000) (ms mod 1000 * 1000000).

(** C07.  [pre] are the messages before the first fixed one; if there is a fixed message
    the stored track is one sample per message from there on, with that message as
    reference, provided the stamps increase strictly, and the process aborts otherwise. *)
Theorem C07_gps_admission : forall (L : Type) (forward : L -> L -> vec3) (ms : list (navsat L)),
  Forall (fun m => rep (n_stamp m)) ms ->
  exists pre rest, ms = pre ++ rest /\ Forall (fun m => n_status m <> 0) pre /\
    match rest with
    | [] => run (add_gps forward) gps_init ms = Ok gps_init
    | first :: _ => n_status first = 0 /\
      ((increasing (map n_stamp rest) /\
        run (add_gps forward) gps_init ms =
          Ok (mkGS (Some (n_lla first))
                (map (fun m => mkGps (n_stamp m) (n_status m =? 0)
                                     (forward (n_lla first) (n_lla m)) (n_lla m)) rest)
                (map (fun m => (forward (n_lla first) (n_lla m), n_status m)) rest))) \/
       (~ increasing (map n_stamp rest) /\
        run (add_gps forward) gps_init ms = Abort))
    end.
Proof. exact gps_admission. Qed.
Print Assumptions C07_gps_admission.

Example C07_ex :
  run (add_gps ex_forward) gps_init
    [mkNav (ms_time 0) (-1) 5; mkNav (ms_time 100) 0 7; mkNav (ms_time 200) 2 9]
  = Ok (mkGS (Some 7)
          [mkGps (ms_time 100) true (mkVec 0 0 7) 7; mkGps (ms_time 200) false (mkVec 2 0 9) 9]
          [(mkVec 0 0 7, 0); (mkVec 2 0 9, 2)]) /\
  run (add_gps ex_forward) gps_init
    [mkNav (ms_time 100) 0 7; mkNav (ms_time 100) 0 9] = Abort.
Proof. split; reflexivity. Qed.

(** C08.  An answer for a track of two or more samples is a linear interpolation. *)
Theorem C08_interpolate_sound : forall L (track track' : list (gps L)) t thr trim v,
  (thr <= 1 # 2)%Q -> (2 <= length track)%nat ->
  Forall (fun x => normal (g_time x)) track -> normal t ->
  increasing (map g_time track) ->
  interpolate_gps track t thr trim = Some (Ok (Some v, track')) ->
  exists i a b, bracket g_time track t i a b /\
    g_fixed a = true /\ g_fixed b = true /\
    1000 < elapsed (g_time b) - elapsed (g_time a) <= 200000000 /\
    on_segment (g_enu a) (g_enu b) v
      (elapsed (g_time a)) (elapsed (g_time b)) (elapsed t).
Proof. exact interpolate_sound. Qed.
Print Assumptions C08_interpolate_sound.

(** The complete behaviour between the first and the last sample. *)
Theorem C08_interpolate_inside : forall L (track : list (gps L)) t thr (trim : bool) i a b,
  (thr <= 1 # 2)%Q ->
  Forall (fun x => normal (g_time x)) track -> normal t ->
  increasing (map g_time track) ->
  bracket g_time track t i a b ->
  let track' := if trim then skipn i track else track in
  let gap := elapsed (g_time b) - elapsed (g_time a) in
  (gap <= 1000 -> interpolate_gps track t thr trim = Some Abort) /\
  (1000 < gap -> (200000000 < gap \/ g_fixed a = false \/ g_fixed b = false) ->
     interpolate_gps track t thr trim = Some (Ok (None, track'))) /\
  (1000 < gap <= 200000000 -> g_fixed a = true -> g_fixed b = true ->
     exists v, interpolate_gps track t thr trim = Some (Ok (Some v, track')) /\
       on_segment (g_enu a) (g_enu b) v
         (elapsed (g_time a)) (elapsed (g_time b)) (elapsed t)).
Proof. exact interpolate_inside. Qed.
Print Assumptions C08_interpolate_inside.

(** Between the first and the last sample such a bracket always exists. *)
Theorem C08_bracket_exists : forall L (track : list (gps L)) t f l,
  Forall (fun x => rep (g_time x)) track -> rep t -> increasing (map g_time track) ->
  (2 <= length track)%nat ->
  nth_error track 0 = Some f -> nth_error track (length track - 1) = Some l ->
  elapsed (g_time f) <= elapsed t <= elapsed (g_time l) ->
  exists i a b, bracket g_time track t i a b.
Proof. exact (fun L => bracket_exists (gps L) g_time). Qed.
Print Assumptions C08_bracket_exists.

Theorem C08_interpolate_outside : forall L (track : list (gps L)) t thr trim f l,
  (thr <= 1 # 2)%Q -> (2 <= length track)%nat ->
  Forall (fun x => rep (g_time x)) track -> rep t ->
  nth_error track 0 = Some f -> nth_error track (length track - 1) = Some l ->
  elapsed t < elapsed (g_time f) \/ elapsed (g_time l) < elapsed t ->
  interpolate_gps track t thr trim = Some (Ok (None, track)).
Proof. exact interpolate_outside. Qed.
Print Assumptions C08_interpolate_outside.

(** Tracks of fewer than two samples. *)
Theorem C08_interpolate_short : forall L t thr trim,
  (thr <= 1 # 2)%Q ->
  interpolate_gps (@nil (gps L)) t thr trim = Some (Ok (None, [])) /\
  (forall g : gps L, exists r,
     interpolate_gps [g] t thr trim = Some (Ok (r, [g])) /\
     (r = None \/ r = Some (g_enu g)) /\
     (r = Some (g_enu g) <-> g_fixed g = true /\
        (Z.abs (elapsed t - elapsed (g_time g)) # 1000000000 <= thr)%Q)).
Proof. exact interpolate_short. Qed.
Print Assumptions C08_interpolate_short.

Definition ex_track : list (gps Z) :=
  [mkGps (ms_time 0) true (mkVec 0 0 0) 0; mkGps (ms_time 100) true (mkVec 10 5 0) 1;
   mkGps (ms_time 200) true (mkVec 20 5 (-8)) 2; mkGps (ms_time 300) true (mkVec 30 5 0) 3].

Ltac track_increasing :=
  let i := fresh "i" in
  intros i ? ? ? ?; repeat (destruct i as [|i]; cbn in *; try discriminate);
  repeat match goal with H : Some _ = Some _ |- _ => injection H as <- end; vm_compute; reflexivity.

Example C08_ex : Forall (fun x => normal (g_time x)) ex_track /\
  increasing (map g_time ex_track) /\
  (exists a b, bracket g_time ex_track (ms_time 150) 1 a b) /\
  exists v tr, interpolate_gps ex_track (ms_time 150) (1 # 200) true = Some (Ok (Some v, tr)) /\
    (vx v == 15)%Q /\ (vy v == 5)%Q /\ (vz v == -4)%Q /\ length tr = 3%nat.
Proof.
  split; [repeat constructor; cbn; unfold NS; lia|]. split; [track_increasing|]. split.
  - do 2 eexists. split; [reflexivity|]. split; [reflexivity|]. vm_compute. intuition discriminate.
  - do 2 eexists. split; [vm_compute; reflexivity|]. repeat split; vm_compute; reflexivity.
Qed.

(** A threshold above half a second is rejected, whatever the track. *)
Theorem C08_threshold_aborts : forall L (track : list (gps L)) t thr trim,
  (1 # 2 < thr)%Q -> interpolate_gps track t thr trim = Some Abort.
Proof.
  intros L track t thr trim H. unfold interpolate_gps.
  destruct (Qle_bool thr (1 # 2)) eqn:E; [|reflexivity].
  apply Qle_bool_iff in E. exfalso. exact (Qlt_not_le _ _ H E).
Qed.
Print Assumptions C08_threshold_aborts.

(** C09. *)
Theorem C09_interpolate_safe : forall L (track : list (gps L)) t thr trim,
  (thr <= 1 # 2)%Q ->
  Forall (fun x => normal (g_time x)) track -> normal t ->
  (forall i a b, nth_error track i = Some a -> nth_error track (S i) = Some b ->
     1000 < elapsed (g_time b) - elapsed (g_time a)) ->
  exists r track', interpolate_gps track t thr trim = Some (Ok (r, track')).
Proof. exact interpolate_safe. Qed.
Print Assumptions C09_interpolate_safe.

Theorem C09_admitted_track_never_aborts_refuted :
  exists (ms : list (navsat Z)) s t,
    run (add_gps ex_forward) gps_init ms = Ok s /\ normal t /\
    Forall (fun m => normal (n_stamp m)) ms /\
    interpolate_gps (gs_track s) t (1 # 200) false = Some Abort.
Proof.
  exists [mkNav (mkTime 100 0) 0 1; mkNav (mkTime 100 900) 0 2]. eexists. exists (mkTime 100 300).
  split; [reflexivity|]. split; [unfold normal, NS; cbn; lia|].
  split; [repeat constructor; cbn; unfold NS; lia|]. reflexivity.
Qed.
Print Assumptions C09_admitted_track_never_aborts_refuted.

(** C10. *)
Theorem C10_trim : forall A (stamp : A -> time) t (l : list A),
  Forall (fun x => rep (stamp x)) l -> rep t ->
  exists dropped, l = dropped ++ trim_data stamp t l /\
    Forall (fun x => elapsed (stamp x) < elapsed t) dropped /\
    (length l <= 2 -> dropped = [])%nat /\
    (2 < length l -> 2 <= length (trim_data stamp t l))%nat /\
    (forall x, nth_error (trim_data stamp t l) 0 = Some x ->
       (2 < length (trim_data stamp t l))%nat -> elapsed t <= elapsed (stamp x)).
Proof. exact trim_spec. Qed.
Print Assumptions C10_trim.

Theorem C10_trim_keeps_answer_refuted : exists (track : list (gps Z)) t v,
  increasing (map g_time track) /\ Forall (fun x => normal (g_time x)) track /\ normal t /\
  interpolate_gps track t (1 # 200) false = Some (Ok (Some v, track)) /\
  interpolate_gps (trim_data g_time t track) t (1 # 200) false =
    Some (Ok (None, trim_data g_time t track)).
Proof.
  exists ex_track, (ms_time 150). eexists.
  split; [track_increasing|]. split; [repeat constructor; cbn; unfold NS; lia|].
  split; [unfold normal, NS; cbn; lia|]. split; vm_compute; reflexivity.
Qed.
Print Assumptions C10_trim_keeps_answer_refuted.

Example C10_ex : trim_data g_time (ms_time 150) ex_track = skipn 2 ex_track /\
  trim_data g_time (ms_time 999) ex_track = skipn 2 ex_track /\
  trim_data g_time (ms_time 100) ex_track = skipn 1 ex_track.
Proof. repeat split; reflexivity. Qed.

(** C61.  Trimming as part of an interpolation is harmless for later queries. *)
Theorem C61_interpolate_trim_later : forall L (track track' : list (gps L)) t t' thr thr' r,
  (thr <= 1 # 2)%Q -> (thr' <= 1 # 2)%Q -> (2 <= length track)%nat ->
  Forall (fun x => normal (g_time x)) track -> normal t -> normal t' ->
  increasing (map g_time track) -> elapsed t <= elapsed t' ->
  interpolate_gps track t thr true = Some (Ok (r, track')) ->
  (2 <= length track')%nat /\ increasing (map g_time track') /\
  (exists dropped, track = dropped ++ track' /\
     Forall (fun x => elapsed (g_time x) < elapsed t) dropped) /\
  option_map (fun o => let* p := o in Ok (fst p)) (interpolate_gps track' t' thr' false) =
  option_map (fun o => let* p := o in Ok (fst p)) (interpolate_gps track t' thr' false).
Proof. exact interpolate_trim_later. Qed.
Print Assumptions C61_interpolate_trim_later.

Example C61_ex :
  (exists v, interpolate_gps ex_track (ms_time 150) (1 # 200) true = Some (Ok (Some v, skipn 1 ex_track))) /\
  (exists v, interpolate_gps (skipn 1 ex_track) (ms_time 170) (1 # 200) false = Some (Ok (Some v, skipn 1 ex_track))).
Proof. split; eexists; vm_compute; reflexivity. Qed.

(** C62.  Stored odometry is relative to the first message. *)
Theorem C62_odom_relative : forall (G : group) (ms : list (odom G)) (first : odom G) tl,
  ms = first :: tl ->
  fold_left (add_odom gmul ginv) ms odom_init =
  mkOS (Some (o_pose first))
       (map (fun m => mkOdom (o_time m) (gmul (ginv (o_pose first)) (o_pose m))) ms).
Proof. exact odom_relative. Qed.
Print Assumptions C62_odom_relative.

Theorem C62_relative_motion_kept : forall (G : group) (p0 a b : G),
  gmul (ginv (gmul (ginv p0) a)) (gmul (ginv p0) b) = gmul (ginv a) b /\
  gmul (ginv p0) p0 = gone.
Proof.
  intros G p0 a b. split; [|apply ginv_l].
  rewrite ginv_mul, ginv_inv, <- gmul_assoc, gcancel_l'. reflexivity.
Qed.
Print Assumptions C62_relative_motion_kept.

Example C62_ex :
  map o_pose (os_track (fold_left (@add_odom Zgroup gmul ginv)
    [mkOdom (ms_time 0) 100; mkOdom (ms_time 10) 103; mkOdom (ms_time 20) 99] odom_init))
  = [0; 3; -1].
Proof. reflexivity. Qed.

(** C63.  Odometry interpolation on a strictly increasing track. *)
Theorem C63_odom_inside : forall P (interp : P -> P -> Q -> P) (track : list (odom P)) t thr (trim : bool) i a b,
  (thr <= 1 # 2)%Q ->
  Forall (fun x => normal (o_time x)) track -> normal t ->
  increasing (map o_time track) ->
  bracket o_time track t i a b ->
  let track' := if trim then skipn i track else track in
  let gap := elapsed (o_time b) - elapsed (o_time a) in
  (gap <= 1000 -> interpolate_odom interp track t thr trim = Some Abort) /\
  (1000000000 < gap ->
     interpolate_odom interp track t thr trim = Some (Ok (None, track'))) /\
  (1000 < gap <= 1000000000 ->
     exists f, (f * inject_Z gap == inject_Z (elapsed t - elapsed (o_time a)))%Q /\
       (0 <= f <= 1)%Q /\
       interpolate_odom interp track t thr trim =
         Some (Ok (Some (interp (o_pose a) (o_pose b) f), track'))).
Proof. exact odom_inside. Qed.
Print Assumptions C63_odom_inside.

Theorem C63_odom_outside : forall P (interp : P -> P -> Q -> P) (track : list (odom P)) t thr trim f l,
  (thr <= 1 # 2)%Q -> (2 <= length track)%nat ->
  Forall (fun x => rep (o_time x)) track -> rep t ->
  nth_error track 0 = Some f -> nth_error track (length track - 1) = Some l ->
  elapsed t < elapsed (o_time f) \/ elapsed (o_time l) < elapsed t ->
  interpolate_odom interp track t thr trim = Some (Ok (None, track)).
Proof. exact odom_outside. Qed.
Print Assumptions C63_odom_outside.

Theorem C63_odom_short : forall P (interp : P -> P -> Q -> P) t thr trim,
  (thr <= 1 # 2)%Q ->
  interpolate_odom interp (@nil (odom P)) t thr trim = Some (Ok (None, [])) /\
  (forall g : odom P, exists r,
     interpolate_odom interp [g] t thr trim = Some (Ok (r, [g])) /\
     (r = None \/ r = Some (o_pose g)) /\
     (r = Some (o_pose g) <->
        (Z.abs (elapsed t - elapsed (o_time g)) # 1000000000 <= thr)%Q)).
Proof. exact odom_short. Qed.
Print Assumptions C63_odom_short.

Theorem C63_threshold_aborts : forall P (interp : P -> P -> Q -> P) (track : list (odom P)) t thr trim,
  (1 # 2 < thr)%Q -> interpolate_odom interp track t thr trim = Some Abort.
Proof.
  intros P interp track t thr trim H. unfold interpolate_odom.
  destruct (Qle_bool thr (1 # 2)) eqn:E; [|reflexivity].
  apply Qle_bool_iff in E. exfalso. exact (Qlt_not_le _ _ H E).
Qed.
Print Assumptions C63_threshold_aborts.

(** Insertion of odometry does not check the order, so a query may abort. *)
Theorem C63_odom_never_aborts_refuted : exists (ms : list (odom Zgroup)) t,
  normal t /\ Forall (fun m => normal (o_time m)) ms /\
  interpolate_odom (fun a _ _ => a) (os_track (fold_left (@add_odom Zgroup gmul ginv) ms odom_init))
    t (1 # 200) false = Some Abort.
Proof.
  exists [mkOdom (ms_time 0) 1; mkOdom (ms_time 10) 2; mkOdom (ms_time 10) 3], (ms_time 10).
  split; [unfold normal, NS; cbn; lia|]. split; [repeat constructor; cbn; unfold NS; lia|].
  vm_compute. reflexivity.
Qed.

Example C63_ex : exists f, interpolate_odom (fun a b f => f) [mkOdom (ms_time 0) 0%Q; mkOdom (ms_time 500) 1%Q]
    (ms_time 125) (1 # 200) false = Some (Ok (Some f, [mkOdom (ms_time 0) 0%Q; mkOdom (ms_time 500) 1%Q])) /\ (f == 1 # 4)%Q.
Proof. eexists. split; [vm_compute; reflexivity|]. reflexivity. Qed.
