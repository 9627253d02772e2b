(** Models of QualityEvaluator_RangeImageSimilarity and QualityEvaluator_Voxels.
    Sources: /repo/mp2p_icp/src/QualityEvaluator_RangeImageSimilarity.cpp and
    QualityEvaluator_Voxels.cpp.
    Simplifications of FilterModel apply (exact numbers).  Ranges are kept squared, so that
    pixels hold rationals; scores and qualities are real numbers.  The debug windows and
    files are dropped. *)
From Coq Require Import String Reals Qreals.
From Verif Require Import Base FilterModel FMergeModel.
Open Scope string_scope.
Open Scope Q_scope.
Open Scope list_scope.

(** ** QualityEvaluator_RangeImageSimilarity *)

(** QualityEvaluator_RangeImageSimilarity.h 62-74 (mrpt::img::TCamera: size and intrinsics) *)
Record RiCam := mkRiCam { ca_ncols : nat; ca_nrows : nat; ca_cx : Q; ca_cy : Q; ca_fx : Q; ca_fy : Q }.
Record RiEval := mkRiEval { re_cam : RiCam; re_sigma : Q; re_penalty : Q }.

(** [static_cast<int>] of a double: truncation; [None]: undefined, out of the range of int *)
Definition to_int (q : Q) : option Z :=
  let z := Z.quot (Qnum q) (Zpos (Qden q)) in
  if (Z.leb (- 2 ^ 31) z && Z.ltb z (2 ^ 31))%bool then Some z else None.

(** QualityEvaluator_RangeImageSimilarity.cpp 110-134, 156-159; a point with x = 0 gives an
    infinity or NaN, whose conversion is undefined *)
Definition pixel_of (c : RiCam) (p : Q3) : option (Z * Z) :=
  if Qeq_bool (q1 p) 0 then None
  else match to_int (ca_cx c + ca_fx c * (- q2 p / q1 p)), to_int (ca_cy c + ca_fy c * (- q3 p / q1 p)) with
       | Some x, Some y => Some (x, y)
       | _, _ => None
       end.

(** A range image: row, column, squared range (0: nothing seen). *)
Definition Img := nat -> nat -> Q.
Definition img_set (I : Img) (r c : nat) (v : Q) : Img :=
  fun r' c' => if (Nat.eqb r r' && Nat.eqb c c')%bool then v else I r' c'.

Definition moved (rel : option QPose) (p : Q3) : Q3 := match rel with Some T => qcompose T p | None => p end.

(** QualityEvaluator_RangeImageSimilarity.cpp 150-172, one point *)
Definition draw (cam : RiCam) (rel : option QPose) (I : Img) (p0 : Pt) : option Img :=
  let p := moved rel (q3_of p0) in
  match pixel_of cam p with
  | None => None
  | Some (x, y) =>
    if (Z.ltb x 0 || Z.ltb y 0 || Z.leb (Z.of_nat (ca_ncols cam)) x || Z.leb (Z.of_nat (ca_nrows cam)) y)%bool
    then Some I
    else let r := Z.to_nat y in let c := Z.to_nat x in
         let d := dot3 p p in
         if (Qeq_bool (I r c) 0 || Qltb d (I r c))%bool then Some (img_set I r c d) else Some I
  end.

(** QualityEvaluator_RangeImageSimilarity.cpp 136-177 *)
Fixpoint draw_all (cam : RiCam) (rel : option QPose) (I : Img) (l : list Pt) : option Img :=
  match l with
  | [] => Some I
  | p :: t => match draw cam rel I p with Some J => draw_all cam rel J t | None => None end
  end.
Definition project_points (cam : RiCam) (rel : option QPose) (l : list Pt) : option Img :=
  draw_all cam rel (fun _ _ => 0) l.

Section Scores.
  (** [std::erf(x / std::sqrt(2))], line 179 *)
  Variable phi : R -> R.

  (** QualityEvaluator_RangeImageSimilarity.cpp 180-185 *)
  Definition mismatch (x : R) : R := (1 - phi x)%R.
  Definition mismatch_of (delta sigma : R) : R := mismatch (Rabs (delta / sigma)).

  (** QualityEvaluator_RangeImageSimilarity.cpp 197-220, one pixel *)
  Definition score_of (e : RiEval) (a b : Q) : list R :=
    if (Qeq_bool a 0 && Qeq_bool b 0)%bool then []
    else if (Qeq_bool a 0 || Qeq_bool b 0)%bool then [mismatch (Q2R (re_penalty e))]
    else [mismatch_of (sqrt (Q2R a) - sqrt (Q2R b)) (Q2R (re_sigma e))].

  (** QualityEvaluator_RangeImageSimilarity.cpp 187-223 *)
  Definition scores (e : RiEval) (A B : Img) : list R :=
    flat_map (fun r => flat_map (fun c => score_of e (A r c) (B r c)) (seq 0 (ca_ncols (re_cam e))))
             (seq 0 (ca_nrows (re_cam e))).

  Definition rsum (l : list R) : R := fold_right Rplus 0%R l.

  (** QualityEvaluator_RangeImageSimilarity.cpp 53-71 *)
  Definition image_quality (e : RiEval) (p1 p2 : list Pt) (T : QPose) : outc R :=
    match project_points (re_cam e) None p1, project_points (re_cam e) (Some T) p1,
          project_points (re_cam e) None p2, project_points (re_cam e) (Some (qinverse T)) p2 with
    | Some I11, Some I12, Some I22, Some I21 =>
        let s := scores e I11 I21 ++ scores e I12 I22 in
        Val (if Nat.eqb (List.length s) 0 then 0%R else (rsum s / INR (List.length s))%R)
    | _, _, _, _ => Undef
    end.

  (** QualityEvaluator_RangeImageSimilarity.cpp 41-51; a null layer is dereferenced *)
  Definition ri_evaluate (e : RiEval) (mg ml : Layers) (T : QPose) : outc R :=
    match snd (point_layer "raw" mg) with
    | Val None => Undef
    | Val (Some cg) =>
        match snd (point_layer "raw" ml) with
        | Val None => Undef
        | Val (Some cl) => image_quality e (cl_pts cg) (cl_pts cl) T
        | _ => Exc
        end
    | _ => Exc
    end.
End Scores.

(** ** QualityEvaluator_Voxels *)

Definition VCoord := (Z * Z * Z)%type.
Definition vcoord_eqb (a b : VCoord) : bool :=
  let '(x, y, z) := a in let '(u, v, w) := b in (Z.eqb x u && Z.eqb y v && Z.eqb z w)%bool.

(** mrpt::maps::CVoxelMap with its Bonxai grid: resolution, and the active cells with their
    occupancy (after l2p) *)
Record VGrid := mkVGrid { vg_res : Q; vg_cells : list (VCoord * Q) }.

(** Bonxai::CoordToPos (coordinates, resolution) and PosToCoord (position, resolution) *)
Record VGeom := mkVGeom { ge_pos : Q -> VCoord -> Q3; ge_cell : Q -> Q3 -> VCoord }.

Definition vg_find (g : VGrid) (c : VCoord) : option Q :=
  option_map snd (find (fun kv => vcoord_eqb (fst kv) c) (vg_cells g)).

(** QualityEvaluator_Voxels.cpp 42-58; x: local, y: global *)
Definition vx_loss (x y : Q) : Q := (3#2) + x + y - 12 * x * x + 22 * x * y - 12 * y * y.
(** QualityEvaluator_Voxels.cpp 122, 148: [abs(occ - 0.5) < 0.01] *)
Definition barely (x : Q) : bool := (Qltb (49#100) x && Qltb x (51#100))%bool.

Definition vx_term (x y : Q) : list Q := if (barely y || barely x)%bool then [] else [vx_loss x y].

(** QualityEvaluator_Voxels.cpp 106-127 *)
Definition per_local (ge : VGeom) (g l : VGrid) (T : QPose) (kv : VCoord * Q) : list Q :=
  match vg_find g (ge_cell ge (vg_res g) (qcompose T (ge_pos ge (vg_res l) (fst kv)))) with
  | None => []
  | Some y => vx_term (snd kv) y
  end.
(** QualityEvaluator_Voxels.cpp 132-153: the position of a global cell is computed with the
    resolution of the local map *)
Definition per_global (ge : VGeom) (g l : VGrid) (T : QPose) (kv : VCoord * Q) : list Q :=
  match vg_find l (ge_cell ge (vg_res l) (qcompose (qinverse T) (ge_pos ge (vg_res l) (fst kv)))) with
  | None => []
  | Some x => vx_term x (snd kv)
  end.

Definition vx_terms (ge : VGeom) (g l : VGrid) (T : QPose) : list Q :=
  flat_map (per_local ge g l T) (vg_cells l) ++ flat_map (per_global ge g l T) (vg_cells g).

Definition qsum (l : list Q) : Q := fold_left Qplus l 0.

(** QualityEvaluator_Voxels.cpp 102-170 *)
Definition vx_quality (ge : VGeom) (scale : Q) (g l : VGrid) (T : QPose) : R :=
  let ts := vx_terms ge g l T in
  match ts with
  | [] => 0%R
  | _ => let d := qsum ts / inject_Z (Z.of_nat (List.length ts)) in
         (1 / (1 + exp (- Q2R scale * Q2R d)))%R
  end.

(** A layer, as far as this evaluator can tell. *)
Inductive VLayer := VMissing | VNotVoxels | VVoxels (g : VGrid).

(** QualityEvaluator_Voxels.cpp 60-93; a null layer is not of type CVoxelMap *)
Definition vx_evaluate (ge : VGeom) (scale : Q) (lg ll : VLayer) (T : QPose) : outc R :=
  match lg, ll with
  | VMissing, _ | _, VMissing => Exc
  | VVoxels g, VVoxels l => Val (vx_quality ge scale g l T)
  | _, _ => Exc
  end.
