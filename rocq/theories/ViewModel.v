(** Model of back_end/view_graph.h and back_end/view_graph.cc. *)
From Coq Require Import ZArith QArith List String Ascii.
From Verif Require Import IdsModel.
Import ListNotations.
Local Open Scope Z_scope.

Section View.
(** The transform of an edge and the part of a pose that is not its x, y translation. *)
Variable M : Type.
(** What Eigen::Matrix4d() holds before it is assigned (GraphItem has no constructor). *)
Variable garbage : M.

(** pose(0,3) and pose(1,3).  A finite double is an exact rational, None is NaN (every
    comparison with it is false); infinities are not modelled. *)
Definition coord : Type := option Q.
Record pose := mkPose { px : coord; py : coord; prest : M }.

(** GraphItem, view_graph.h:50-55. *)
Record item := mkItem { self_pose : pose; connections : list (Z * M) }.
(** std::map<int64_t, GraphItem>: association list with increasing keys. *)
Definition graph : Type := list (Z * item).
Definition no_item : item := mkItem (mkPose None None garbage) [].

Fixpoint find (g : graph) (i : Z) : option item :=
  match g with
  | [] => None
  | (j, x) :: g' => if i =? j then Some x else find g' i
  end.
(** Assigning a function of the (possibly freshly inserted) element: graph_map_[i] = f. *)
Fixpoint update (g : graph) (i : Z) (f : item -> item) : graph :=
  match g with
  | [] => [(i, f no_item)]
  | (j, x) :: g' => if i =? j then (j, f x) :: g'
                    else if i <? j then (i, f no_item) :: g
                    else (j, x) :: update g' i f
  end.
Definition count (g : graph) (i : Z) : nat := match find g i with Some _ => 1 | None => 0 end.

Record state := mkState { graph_of : graph; xmin : Q; ymin : Q; xmax : Q; ymax : Q }.

(** std::numeric_limits<double>::max() and ::min() (the smallest positive normal number). *)
Definition dbl_max : Q := inject_Z ((2 ^ 53 - 1) * 2 ^ 971).
Definition dbl_min : Q := Qmake 1 (2 ^ 1022).

(** Constructor, view_graph.cc:35-40. *)
Definition init : state := mkState [] dbl_max dbl_max dbl_min dbl_min.

Definition less (a : coord) (b : Q) : bool := match a with Some x => negb (Qle_bool b x) | None => false end.
Definition greater (a : coord) (b : Q) : bool := match a with Some x => negb (Qle_bool x b) | None => false end.
Definition shrink (a : coord) (b : Q) : Q := if less a b then match a with Some x => x | None => b end else b.
Definition grow (a : coord) (b : Q) : Q := if greater a b then match a with Some x => x | None => b end else b.

(** AddVertex, view_graph.cc:51-66. *)
Definition add_vertex (s : state) (i : Z) (p : pose) : state :=
  mkState (update (graph_of s) i (fun x => mkItem p (connections x)))
          (shrink (px p) (xmin s)) (shrink (py p) (ymin s)) (grow (px p) (xmax s)) (grow (py p) (ymax s)).

(** AddEdge, view_graph.cc:42-49. *)
Definition add_edge (s : state) (a b : Z) (t : M) : state :=
  if (count (graph_of s) a =? 0)%nat || (count (graph_of s) b =? 0)%nat then s
  else mkState (update (graph_of s) a (fun x => mkItem (self_pose x) (connections x ++ [(b, t)])))
               (xmin s) (ymin s) (xmax s) (ymax s).

(** SaveTextFile, view_graph.cc:68-88: the text written. *)
Local Open Scope string_scope.
Fixpoint targets (l : list (Z * M)) : string :=
  match l with [] => String (ascii_of_nat 10) "" | (j, _) :: l' => (to_string j ++ ", ") ++ targets l' end.
Fixpoint dump (g : graph) : string :=
  match g with [] => "" | (i, x) :: g' => (to_string i ++ " > ") ++ targets (connections x) ++ dump g' end.
Local Close Scope string_scope.

(** SaveImage, view_graph.cc:91-148, in exact arithmetic.  The pixels are the arguments of
    draw_line; None: the pixel of a NaN coordinate (the conversion to int is undefined). *)
Definition trunc (q : Q) : Z := Z.quot (Qnum q) (Zpos (Qden q)).
Definition pixel : Type := option (Z * Z).
Definition to_image (x0 y1 res : Q) (p : pose) : pixel :=
  match px p, py p with
  | Some x, Some y => Some (trunc ((x - x0) / res)%Q, trunc ((y1 - y) / res)%Q)
  | _, _ => None
  end.
Record line := mkLine { l_from : pixel; l_to : pixel; l_blue : bool }.
Record image := mkImage { width : Z; height : Z; lines : list line }.
(** The loop over the connections of one vertex, lines 126-138: graph_map_[to_index] would insert
    a missing vertex. *)
Fixpoint draw (x0 y1 res : Q) (g : graph) (i : Z) (from : pixel) (l : list (Z * M)) : graph * list line :=
  match l with
  | [] => (g, [])
  | (j, _) :: l' =>
      let g1 := update g j (fun x => x) in
      let q := match find g1 j with Some x => to_image x0 y1 res (self_pose x) | None => None end in
      let '(g2, ls) := draw x0 y1 res g1 i from l' in
      (g2, mkLine from q (j - i =? 1) :: ls)
  end.
Fixpoint draw_all (x0 y1 res : Q) (g : graph) (items : graph) : graph * list line :=
  match items with
  | [] => (g, [])
  | (i, x) :: items' =>
      let '(g1, ls) := draw x0 y1 res g i (to_image x0 y1 res (self_pose x)) (connections x) in
      let '(g2, ls') := draw_all x0 y1 res g1 items' in
      (g2, ls ++ ls')
  end.
Definition save_image (s : state) (res : Q) : state * option image :=
  match graph_of s with
  | [] => (s, None)
  | _ => let x0 := (xmin s - 1)%Q in let y0 := (ymin s - 1)%Q in
         let x1 := (xmax s + 1)%Q in let y1 := (ymax s + 1)%Q in
         let '(g, ls) := draw_all x0 y1 res (graph_of s) (graph_of s) in
         (mkState g x0 y0 x1 y1, Some (mkImage (trunc ((x1 - x0) / res)%Q) (trunc ((y1 - y0) / res)%Q) ls))
  end.

Inductive op := Vertex (i : Z) (p : pose) | Edge (a b : Z) (t : M) | Save (res : Q).
Definition step (s : state) (o : op) : state :=
  match o with Vertex i p => add_vertex s i p | Edge a b t => add_edge s a b t | Save res => fst (save_image s res) end.
Definition run (l : list op) : state := fold_left step l init.
End View.
