(** Model of FilterPoleDetector.
    Source: /repo/mp2p_icp_filters/src/FilterPoleDetector.cpp.
    Simplifications of FilterModel apply.  The unordered_map is an association list; the
    order in which its cells are visited is an arbitrary function [ord] (a permutation,
    see the theorems).  Cell::minZ and maxZ are written but never read: dropped. *)
From Coq Require Import String.
From Verif Require Import Base FilterModel CurvModel.
Open Scope string_scope.
Open Scope Q_scope.
Open Scope list_scope.

(** FilterPoleDetector.cpp 35-52: index2d_t *)
Definition Cell2 := (Z * Z)%type.
Definition cell_eqb (a b : Cell2) : bool := Z.eqb (fst a) (fst b) && Z.eqb (snd a) (snd b).

(** static_cast<int32_t>: truncation; undefined when the value does not fit, or when the
    division gave an infinity or NaN. *)
Definition to_int32 (res x : Q) : option Z :=
  if Qeq_bool res 0 then None
  else let q := x / res in
       let t := Z.quot (Qnum q) (Zpos (Qden q)) in
       if (-2147483648 <=? t)%Z && (t <=? 2147483647)%Z then Some t else None.

(** FilterPoleDetector.cpp 55-58, xy_to_index *)
Definition xy_to_index (res : Q) (p : Pt) : option Cell2 :=
  match to_int32 res (px p), to_int32 res (py p) with
  | Some a, Some b => Some (a, b)
  | _, _ => None
  end.

(** FilterPoleDetector.cpp 91-100: GridCellData: sumZ, point_indices *)
Record CellData := mkCell { cd_sum : Q; cd_idx : list nat }.
Definition Grid2 := list (Cell2 * CellData).

Fixpoint gfind (g : Grid2) (k : Cell2) : option CellData :=
  match g with
  | [] => None
  | (a, v) :: t => if cell_eqb a k then Some v else gfind t k
  end.

(** FilterPoleDetector.cpp 183-186: [auto& cell = grid[idxs]; cell.sumZ += z;
    cell.point_indices.push_back(i)] *)
Fixpoint gadd (g : Grid2) (k : Cell2) (z : Q) (i : nat) : Grid2 :=
  match g with
  | [] => [(k, mkCell (0 + z) [i])]
  | (a, v) :: t => if cell_eqb a k then (a, mkCell (cd_sum v + z) (cd_idx v ++ [i])) :: t
                   else (a, v) :: gadd t k z i
  end.

(** FilterPoleDetector.cpp 177-189: first pass.  [None]: undefined behaviour. *)
Fixpoint build_grid (res : Q) (l : list Pt) (i : nat) (g : Grid2) : option Grid2 :=
  match l with
  | [] => Some g
  | p :: t => match xy_to_index res p with
              | None => None
              | Some k => build_grid res t (S i) (gadd g k (pz p) i)
              end
  end.

(** FilterPoleDetector.cpp 99 *)
Definition cell_mean (v : CellData) : Q :=
  match cd_idx v with [] => 0 | _ => cd_sum v / inject_Z (Z.of_nat (List.length (cd_idx v))) end.

Definition offsets8 : list Cell2 :=
  [(-1, -1); (-1, 0); (-1, 1); (0, -1); (0, 1); (1, -1); (1, 0); (1, 1)]%Z.

(** FilterPoleDetector.h 49-69 *)
Record PoleCfg := mkPole { po_in : Name; po_poles : Name; po_nopoles : Name; po_grid : Q;
  po_minrel : Q; po_maxrel : Q; po_minpts : nat; po_minchecks : nat; po_realized : bool }.

(** FilterPoleDetector.cpp 201-212: how many of the 8 neighbour cells pass.  The sum of
    indices is int32 arithmetic: undefined at the edge of its range. *)
Fixpoint count_checks (c : PoleCfg) (g : Grid2) (k : Cell2) (mean : Q) (offs : list Cell2)
  : nat :=
  match offs with
  | [] => 0
  | o :: t =>
    (match gfind g (fst k + fst o, snd k + snd o)%Z with
     | None => 0
     | Some v => if Qltb (cell_mean v + po_minrel c) mean && Qltb mean (cell_mean v + po_maxrel c)
                 then 1 else 0
     end + count_checks c g k mean t)%nat
  end.

(** FilterPoleDetector.cpp 192-221: what one cell sends where *)
Definition cell_items (c : PoleCfg) (pts : list Pt) (g : Grid2) (kv : Cell2 * CellData)
  : list (Name * Pt) :=
  let '(k, v) := kv in
  if (List.length (cd_idx v) <? po_minpts c)%nat then []
  else let isPole := (po_minchecks c <=? count_checks c g k (cell_mean v) offsets8)%nat in
       map (fun i => (if isPole then po_poles c else po_nopoles c, pt_at pts i)) (cd_idx v).

(** FilterPoleDetector.cpp 194-197: int32 additions of the neighbour indices overflow *)
Definition at_edge (k : Cell2) : bool :=
  Z.eqb (fst k) (-2147483648) || Z.eqb (fst k) 2147483647
  || Z.eqb (snd k) (-2147483648) || Z.eqb (snd k) 2147483647.

(** FilterPoleDetector.cpp 141-224.  The additions are done for every cell, also for the
    ones skipped afterwards. *)
Definition filter_pole (ord : Grid2 -> Grid2) (c : PoleCfg) : M unit :=
  do _ <- massert (po_realized c);
  do pc <- input_layer (po_in c);
  do _ <- get_or_create (po_poles c) true (cl_cls pc);
  do _ <- get_or_create (po_nopoles c) true (cl_cls pc);
  match build_grid (po_grid c) (cl_pts pc) 0 [] with
  | None => ubm
  | Some g =>
    if existsb (fun kv => at_edge (fst kv)) g then ubm
    else emit (flat_map (cell_items c (cl_pts pc) g) (ord g))
  end.
