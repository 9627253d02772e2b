(** Models of GeneratorEdgesFromCurvature and GeneratorEdgesFromRangeImage.
    Sources: /repo/mp2p_icp_filters/src/GeneratorEdgesFromCurvature.cpp and
    GeneratorEdgesFromRangeImage.cpp.
    Simplifications of FilterModel apply.  Ranges and the fixed-point arithmetic are exact
    integers with int64_t overflow explicit; a left shift of a negative number is a
    multiplication (as compilers define it).  Lengths of vectors are compared squared. *)
From Coq Require Import String.
From Verif Require Import Base FilterModel FMergeModel.
Open Scope string_scope.
Open Scope Q_scope.
Open Scope list_scope.

(** mrpt CMatrixDynamic *)
Record Mat (T : Type) := mkMat { m_rows : nat; m_cols : nat; m_at : nat -> nat -> T }.
Arguments mkMat {T}. Arguments m_rows {T}. Arguments m_cols {T}. Arguments m_at {T}.

(** mrpt CObservationRotatingScan: rowCount, columnCount, rangeImage, organizedPoints *)
Record RScan := mkRScan { rs_rows : nat; rs_cols : nat; rs_range : Mat Z; rs_pts : Mat Q3 }.

Definition q3_sub (a b : Q3) : Q3 := mkQ3 (q1 a - q1 b) (q2 a - q2 b) (q3 a - q3 b).
Definition at_robot (robot : option QPose) (p : Q3) : Q3 :=
  match robot with Some T => qcompose T p | None => p end.

(** The assertions of both generators: GeneratorEdgesFromCurvature.cpp 123-132,
    GeneratorEdgesFromRangeImage.cpp 87-96 *)
Definition scan_ok (s : RScan) : bool :=
  negb (Nat.eqb (m_rows (rs_pts s)) 0 || Nat.eqb (m_cols (rs_pts s)) 0)
  && Nat.eqb (rs_rows s) (m_rows (rs_pts s)) && Nat.eqb (rs_cols s) (m_cols (rs_pts s))
  && Nat.eqb (rs_rows s) (m_rows (rs_range s)) && Nat.eqb (rs_cols s) (m_cols (rs_range s)).

(** ** GeneratorEdgesFromCurvature *)
Record CurvGen := mkCurvGen { cg_target : Name; cg_max_cosine : Q; cg_clearance : Q;
  cg_class_ok : string -> bool; cg_label_ok : string -> bool; cg_init : bool; cg_realized : bool;
  cg_no_ini : bool }.

(** GeneratorEdgesFromCurvature.cpp 155: norm smaller than the clearance *)
Definition shorter (v : Q3) (cl : Q) : bool := Qltb 0 cl && Qltb (dot3 v v) (cl * cl).
(** GeneratorEdgesFromCurvature.cpp 160-162 *)
Definition wide_angle (mc : Q) (v1 v2 : Q3) : bool :=
  Qltb 0 mc && Qltb (dot3 v1 v2 * dot3 v1 v2) (mc * mc * (dot3 v1 v1 * dot3 v2 v2)).

(** GeneratorEdgesFromCurvature.cpp 140-175 *)
Definition curv_pixel (g : CurvGen) (robot : option QPose) (s : RScan) (r i : nat) : list Q3 :=
  let rng := m_at (rs_range s) r in let pt := m_at (rs_pts s) r in
  if Z.eqb (rng (i - 1)%nat) 0 || Z.eqb (rng i) 0 || Z.eqb (rng (i + 1)%nat) 0 then []
  else let v1 := q3_sub (pt i) (pt (i - 1)%nat) in
       let v2 := q3_sub (pt (i + 1)%nat) (pt i) in
       if shorter v1 (cg_clearance g) || shorter v2 (cg_clearance g) then []
       else if wide_angle (cg_max_cosine g) v1 v2 then [at_robot robot (pt i)] else [].

(** GeneratorEdgesFromCurvature.cpp 117-181; columns 1 to nCols-2 *)
Definition curv_rotating (g : CurvGen) (robot : option QPose) (s : RScan) : M bool :=
  do _ <- massert (scan_ok s);
  fun m =>
    let pts := flat_map (fun r => flat_map (curv_pixel g robot s r) (seq 1 (rs_cols s - 2)))
                        (seq 0 (rs_rows s)) in
    (lset m (cg_target g) (LPts (mkCloud SimplePoints (map pt_of pts))), Val true).

(** An observation: its class and label, and the scan if it is a rotating scan. *)
Record GObs := mkGObs { go_class : string; go_label : string; go_scan : option RScan }.

(** GeneratorEdgesFromCurvature.cpp 48-115 *)
Definition curv_process (g : CurvGen) (o : GObs) (robot : option QPose) : M bool :=
  do _ <- massert (cg_init g);
  do _ <- massert (cg_realized g);
  do _ <- massert (cg_no_ini g);
  if negb (cg_class_ok g (go_class o)) || negb (cg_label_ok g (go_label o)) then ret false
  else match go_scan o with
       | Some s => curv_rotating g robot s
       | None => fun m =>
           match lfind m (cg_target g) with
           | Some (LPts _) => (m, Val false)
           | Some _ => (m, Exc)
           | None => (lset m (cg_target g) (LPts (mkCloud SimplePoints [])), Val false)
           end
       end.

(** ** GeneratorEdgesFromRangeImage *)
Record RiGen := mkRiGen { ri_target : Name; ri_planes : Name; ri_threshold : Z }.

Open Scope Z_scope.

(** A value of type int64_t; [None]: signed overflow. *)
Definition i64 (z : Z) : option Z := if (- 2 ^ 63 <=? z) && (z <? 2 ^ 63) then Some z else None.
(** Conversion from uint64_t to int64_t *)
Definition to_i64 (z : Z) : Z := if z <? 2 ^ 63 then z else z - 2 ^ 64.
Definition obind {A B} (o : option A) (f : A -> option B) : option B :=
  match o with Some a => f a | None => None end.

(** mrpt::math::absDiff, mrpt::square *)
Definition abs_diff (a b : Z) : option Z := if b <? a then i64 (a - b) else i64 (b - a).
Definition square_i64 (a : Z) : option Z := i64 (a * a).

Definition sum_i64 (l : list Z) : option Z :=
  fold_left (fun acc d => obind acc (fun a => i64 (a + d))) l (Some 0).
Definition var_i64 (mean : Z) (l : list Z) : option Z :=
  fold_left (fun acc d => obind acc (fun a => obind (abs_diff d mean) (fun e =>
    obind (square_i64 e) (fun q => i64 (a + q))))) l (Some 0).

(** GeneratorEdgesFromRangeImage.cpp 39-61 for more than one sample.  N-1 is unsigned, so
    the sum is converted to uint64_t before the division. *)
Definition calc_stats (data : list Z) : option (Z * Z) :=
  let n1 := Z.of_nat (List.length data) - 1 in
  obind (sum_i64 data) (fun s =>
  let mean := to_i64 ((s mod 2 ^ 64) / n1) in
  obind (var_i64 mean data) (fun v => Some (mean, to_i64 ((v mod 2 ^ 64) / n1)))).

Definition window_w : nat := 8%nat.

(** GeneratorEdgesFromRangeImage.cpp 106-114 *)
Definition row_diff (s : RScan) (r i : nat) : Z :=
  if Nat.eqb i 0 then 0 else (m_at (rs_range s) r i - m_at (rs_range s) r (i - 1)%nat) * 256.

(** GeneratorEdgesFromRangeImage.cpp 118-143: [None]: undefined *)
Definition ri_pixel (g : RiGen) (robot : option QPose) (s : RScan) (r i : nat) : option (list Q3) :=
  if (i + window_w <? rs_cols s)%nat then
    obind (calc_stats (map (row_diff s r) (seq (i - window_w) (1 + 2 * window_w)))) (fun mv =>
    let '(mean, var) := mv in
    if var =? 0 then Some []
    else obind (abs_diff (m_at (rs_range s) r i * 256) mean) (fun d =>
         obind (square_i64 d) (fun q =>
         if Z.shiftr (q / var) 16 >? ri_threshold g then Some [at_robot robot (m_at (rs_pts s) r i)]
         else Some [])))
  else None.

(** GeneratorEdgesFromRangeImage.cpp 116-144: [i < nCols - W], an unsigned int *)
Fixpoint ri_cols (fuel : nat) (g : RiGen) (robot : option QPose) (s : RScan) (r i : nat) : option (list Q3) :=
  if Z.of_nat i <? (Z.of_nat (rs_cols s) - Z.of_nat window_w) mod 2 ^ 32 then
    match fuel with
    | O => None
    | S k => obind (ri_pixel g robot s r i) (fun a => obind (ri_cols k g robot s r (S i)) (fun b => Some (a ++ b)%list))
    end
  else Some [].

Fixpoint ri_rows (g : RiGen) (robot : option QPose) (s : RScan) (n r : nat) : option (list Q3) :=
  match n with
  | O => Some []
  | S k => obind (ri_cols (rs_cols s) g robot s r (1 + window_w)%nat) (fun a =>
           obind (ri_rows g robot s k (S r)) (fun b => Some (a ++ b)%list))
  end.

(** GeneratorEdgesFromRangeImage.cpp 79-150 *)
Definition ri_rotating (g : RiGen) (robot : option QPose) (s : RScan) : M bool :=
  do _ <- massert (scan_ok s);
  fun m =>
    match ri_rows g robot s (rs_rows s) 0 with
    | None => (m, Undef)
    | Some pts => (lset m (ri_target g) (LPts (mkCloud SimplePoints (map pt_of pts))), Val true)
    end.

(** mrpt CObservation3DRangeScan: the range image (uint16_t) and the position, in the robot
    frame, of a pixel with a given range (look-up table, range units, sensor pose) *)
Record Rgbd := mkRgbd { rg_has_range : bool; rg_image : Mat Z; rg_unproject : nat -> nat -> Z -> Q3 }.

(** GeneratorEdgesFromRangeImage.cpp 204-219: the 8x8 block (rd, cd) *)
Definition block (o : Rgbd) (rd cd : nat) : list Z :=
  filter (fun v => negb (v =? 0))
    (flat_map (fun i => map (fun j => m_at (rg_image o) (rd * 8 + i)%nat (cd * 8 + j)%nat) (seq 0 8)) (seq 0 8)).
Definition decimated (o : Rgbd) (rd cd : nat) : Z :=
  let l := block o rd cd in
  if Nat.eqb (List.length l) 0 then 0 else fold_right Z.add 0 l / Z.of_nat (List.length l).

(** GeneratorEdgesFromRangeImage.cpp 266-284 *)
Definition diff1 (o : Rgbd) (rd cd : nat) : Z :=
  if Nat.eqb cd 0 then 0
  else if (decimated o rd cd =? 0) || (decimated o rd (cd - 1)%nat =? 0) then 0
  else (decimated o rd cd - decimated o rd (cd - 1)%nat) * 256.
Definition diff2 (o : Rgbd) (rd cd : nat) : Z :=
  if Nat.eqb cd 0 then 0 else diff1 o rd cd - diff1 o rd (cd - 1)%nat.

(** GeneratorEdgesFromRangeImage.cpp 244-261 *)
Definition unproject (o : Rgbd) (robot : option QPose) (rd cd : nat) : Q3 :=
  at_robot robot (rg_unproject o (rd * 8 + 4)%nat (cd * 8 + 4)%nat (decimated o rd cd)).

(** A point added to the edges ([true]) or to the planes ([false]). *)
Definition Ev3 := (bool * Q3)%type.

(** GeneratorEdgesFromRangeImage.cpp 291-324, from column [cd] on, [n] columns left;
    [start] is currentPlaneStart.  [he], [hp]: the two output pointers are not null. *)
Fixpoint scan_row (g : RiGen) (o : Rgbd) (robot : option QPose) (he hp : bool) (space : Z) (var : Z)
    (rd : nat) (n cd : nat) (start : option nat) (acc : list Ev3) : list Ev3 * outc unit :=
  match n with
  | O => (acc, Val tt)
  | S k =>
    if decimated o rd cd =? 0 then scan_row g o robot he hp space var rd k (S cd) None acc
    else
      match (if var =? 0 then Some 0 else obind (square_i64 (diff2 o rd cd)) (fun q => Some (q / var))) with
      | None => (acc, Undef)
      | Some score =>
        if score >? ri_threshold g then
          if he then scan_row g o robot he hp space var rd k (S cd) None (acc ++ [(true, unproject o robot rd cd)])%list
          else (acc, Undef)
        else
          let st := match start with Some x => x | None => cd end in
          if Z.of_nat cd - Z.of_nat st >? space then
            if hp then scan_row g o robot he hp space var rd k (S cd) None (acc ++ [(false, unproject o robot rd cd)])%list
            else (acc, Undef)
          else scan_row g o robot he hp space var rd k (S cd) (Some st) acc
      end
  end.

(** GeneratorEdgesFromRangeImage.cpp 264-325 *)
Fixpoint scan_rows (g : RiGen) (o : Rgbd) (robot : option QPose) (he hp : bool) (n rd : nat) (acc : list Ev3)
    : list Ev3 * outc unit :=
  match n with
  | O => (acc, Val tt)
  | S k =>
    let nc := (m_cols (rg_image o) / 8)%nat in
    if (nc <=? 1)%nat then (acc, Exc)
    else match calc_stats (map (diff2 o rd) (seq 0 nc)) with
         | None => (acc, Undef)
         | Some (_, var) =>
           match scan_row g o robot he hp (Z.of_nat nc / 16) var rd (nc - 1) 1 None acc with
           | (acc', Val _) => scan_rows g o robot he hp k (S rd) acc'
           | r => r
           end
         end
  end.

Definition cloud_at (m : Layers) (n : Name) : Cloud :=
  match lfind m n with Some (LPts c) => c | _ => mkCloud SimplePoints [] end.
Definition grown (c : Cloud) (l : list Q3) : Layer :=
  LPts (mkCloud (cl_cls c) (cl_pts c ++ map (fun p => conv (cl_cls c) (pt_of p)) l))%list.

(** GeneratorEdgesFromRangeImage.cpp 152-328.  Line 175 stores the edges object under the
    name of the planes layer: the object the plane points go to is no longer in the map
    (unless both names are the same).  The contents stored are those at the end. *)
Definition ri_scan3d (g : RiGen) (robot : option QPose) (o : Rgbd) : M bool :=
  do he <- get_or_create (ri_target g) true SimplePoints;
  do hp <- get_or_create (ri_planes g) true SimplePoints;
  fun m =>
    let '(evs, oc) :=
      (if negb (he || hp) then ([], Exc)
       else if negb (rg_has_range o) then ([], Exc)
       else scan_rows g o robot he hp (m_rows (rg_image o) / 8) 0 []) in
    let sel := if String.eqb (ri_target g) (ri_planes g) then map snd evs
               else map snd (filter fst evs) in
    let edges := grown (cloud_at m (ri_target g)) sel in
    let m1 := if he then lset m (ri_target g) edges else m in
    let m2 := if hp then lset m1 (ri_planes g) (if he then edges else LNull) else m1 in
    (m2, match oc with Val _ => Val true | Exc => Exc | Undef => Undef | Spin => Spin end).
