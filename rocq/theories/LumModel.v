(** Model of registrators/multiview_registrator_interface.h and multiview_registrator_lum_pcl.h, the alignment of several
    clouds.  builder/submap.cc names the class but does not use it.

    Clouds and poses are values of arbitrary types; [move] is pcl::transformPointCloud, [matches] the correspondences
    found within 0.25 and [count] their number.  Of pcl::registration::LUM the graph is modelled: clouds with a pose
    each, which addPointCloud appends with the pose [p0], and for every pair the correspondences set last.  [solve], its
    compute, gives new poses.  [place] is getTransformedCloud.  max_iteration_num_ is 5, lum_pcl.h:87. *)
From Coq Require Import List Bool Arith.
Import ListNotations.

Section Lum.
Variables C P M : Type.
Variable move : C -> P -> C.
Variable matches : C -> C -> M.
Variable count : M -> nat.
Variable p0 : P.
Variable solve : list (C * P) -> (nat -> nat -> option M) -> list P.
Variable place : C * P -> C.

(** inner_frames_ (a cloud with its pose) and lum_: its vertices and its edges. *)
Record st := mkSt { frames : list (C * P); vertices : list (C * P); edge : nat -> nat -> option M }.
Definition fresh : st := mkSt [] [] (fun _ _ => None).

(** AddNewCloud, multiview_registrator_interface.h:50-55; [None] is a null pointer. *)
Definition add_cloud (c : option C) (p : P) (s : st) : st :=
  match c with
  | Some c => mkSt (frames s ++ [(c, p)]) (vertices s) (edge s)
  | None => s
  end.
(** lum_.setCorrespondences(j, i, corr). *)
Definition set_edge (j i : nat) (m : M) (e : nat -> nat -> option M) : nat -> nat -> option M :=
  fun a b => if (a =? j)%nat && (b =? i)%nat then Some m else e a b.
(** The loop over [j], multiview_registrator_lum_pcl.h:64-72; [clouds] is transformed_clouds. *)
Definition link (clouds : list C) (i : nat) (e : nat -> nat -> option M) (j : nat) : nat -> nat -> option M :=
  match nth_error clouds i, nth_error clouds j with
  | Some t, Some s => let m := matches s t in if (2 <? count m)%nat then set_edge j i m e else e
  | _, _ => e
  end.
(** The loop over the frames, :57-73. *)
Fixpoint enter (fs : list (C * P)) (i : nat) (clouds : list C) (s : st) : list C * st :=
  match fs with
  | [] => (clouds, s)
  | (c, p) :: r =>
      let t := move c p in
      let clouds := clouds ++ [t] in
      let s := mkSt (frames s) (vertices s ++ [(t, p0)]) (fold_left (link clouds i) (seq 0 i) (edge s)) in
      enter r (S i) clouds s
  end.
(** lum_.compute(), :74: the poses of the vertices change. *)
Definition compute (s : st) : st :=
  mkSt (frames s) (combine (map fst (vertices s)) (solve (vertices s) (edge s))) (edge s).
(** The iterations, :55-75: transformed_clouds is not cleared in between. *)
Fixpoint iterate (n : nat) (clouds : list C) (s : st) : st :=
  match n with
  | O => s
  | S n => let '(clouds, s) := enter (frames s) 0 clouds s in iterate n clouds (compute s)
  end.
(** AlignAll, :46-83; the clouds that are appended to the output. *)
Definition align_all (s : st) : list C * st :=
  match frames s with
  | [] => ([], s)
  | _ =>
      let s := iterate 5 [] s in
      (map place (firstn (length (frames s)) (vertices s)), s)
  end.
End Lum.
