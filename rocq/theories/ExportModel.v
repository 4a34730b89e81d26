(** Model of MapBuilder::SaveMaps, builder/map_builder.cc:825-911.

    A submap is the list of the clouds of its frames, already moved to their global poses
    (844-846).  submap->GetId().submap_index is the position in the trajectory (it is assigned
    so by SubmapProcessing, 667-672).  The multi-resolution map is represented by the list of
    clouds inserted since its creation (MrvmModel.v models what it does with them); file
    contents are the clouds written.  Writing always succeeds.  The clearing of the clouds at
    893-894 is not modelled. *)
From Coq Require Import List Bool ZArith.
From Verif Require Import Outcome.
Import ListNotations.
Local Open Scope outcome_scope.
Local Open Scope Z_scope.

Section Export.
Variable point : Type.
Notation cloud := (list point).
(** whole_options, builder/map_builder.h:97-110: output_direct_combined_map, output_mrvm,
    separate_output, separate_step (int). *)
Record wopts := mkW { direct : bool; mrvm : bool; separate : bool; step : Z }.
Inductive file :=
| PartMap (k : Z) (c : cloud)             (* part_map_<k>.pcd, 871-874 *)
| StaticPart (k : Z) (inserted : list cloud)   (* static_part_map_<k>.pcd, 884-887 *)
| StaticMap (inserted : list cloud)       (* static_map.pcd, 899-901 *)
| WholeMap (c : cloud).                   (* whole_map.pcd, 906-908 *)

(** 860-863: the C++ division by separate_step. *)
Definition idiv (a b : Z) : outcome Z := if b =? 0 then UB else Ok (Z.quot a b).
Definition imod (a b : Z) : outcome Z := if b =? 0 then UB else Ok (Z.rem a b).

(** 858-892, [n] submaps in total, [i] the current one; accumulated direct map and inserted
    clouds; returns the files and the new accumulators. *)
Definition flush (o : wopts) (n i : Z) (whole : cloud) (vox : list cloud) : outcome (list file * (cloud * list cloud)) :=
  let* last := if i =? n - 1 then Ok true else let* m := imod (i + 1) (step o) in Ok (m =? 0) in
  if last then
    let* k := idiv i (step o) in
    let* _ := imod i (step o) in
    let d := if direct o then match whole with [] => [] | _ => [PartMap k whole] end else [] in
    let whole' := if direct o then [] else whole in   (* reset, or empty already *)
    if mrvm o then Ok (d ++ [StaticPart k vox], (whole', [])) else Ok (d, (whole', vox))
  else Ok ([], (whole, vox)).

(** 841-895 *)
Fixpoint submap_loop (o : wopts) (n i : Z) (whole : cloud) (vox : list cloud) (l : list (list cloud))
  : outcome (list file * (cloud * list cloud)) :=
  match l with
  | [] => Ok ([], (whole, vox))
  | s :: r =>
      let vox1 := if mrvm o then vox ++ s else vox in
      let whole1 := if direct o then whole ++ concat s else whole in
      let* x := if separate o then flush o n i whole1 vox1 else Ok ([], (whole1, vox1)) in
      let* y := submap_loop o n (i + 1) (fst (snd x)) (snd (snd x)) r in
      Ok (fst x ++ fst y, snd y)
  end.

Definition save_maps (o : wopts) (l : list (list cloud)) : outcome (list file) :=
  if negb (direct o) && negb (mrvm o) then Ok []                                   (* 826-830 *)
  else
    let* x := submap_loop o (Z.of_nat (length l)) 0 [] [] l in
    if separate o then Ok (fst x)
    else Ok (fst x ++ (if mrvm o then [StaticMap (snd (snd x))] else []) ++
             (if direct o then match fst (snd x) with [] => [] | w => [WholeMap w] end else [])).
End Export.
Arguments PartMap {point}. Arguments StaticPart {point}. Arguments StaticMap {point}. Arguments WholeMap {point}.
