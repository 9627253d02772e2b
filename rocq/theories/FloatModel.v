(** The arithmetic of some functions in IEEE-754 numbers (Flocq BinarySingleNaN), as in the code: `float` is
    binary32, `double` is binary64, rounding to nearest even, infinities and NaN included.  The other models use exact
    numbers; here rounding, overflow and underflow count.
    Sources: /repo/mp2p_icp/src/ICP.cpp 608-634, QualityEvaluator_PairedRatio.cpp 62-67,
             /repo/mp2p_icp/include/mp2p_icp/robust_kernels.h 60-92, Matcher_Points_InlierRatio.cpp 113-122,
             /repo/mp2p_icp_filters/src/FilterNormalizeIntensity.cpp 73-131, FilterAdjustTimestamps.cpp 97-150,
             FilterByRange.cpp 97-113, FilterDecimateVoxels.cpp 294-305,
             /repo/mp2p_icp_filters/include/mp2p_icp_filters/PointCloudToVoxelGrid.h 118.
    Simplifications: one kind of NaN; every operation is rounded by itself (no fused multiply-add, no
    extended precision). *)
From Coq Require Import ZArith Reals Lia Bool.
From Flocq Require Import Core BinarySingleNaN.
From Verif Require Import Base FloatBase.

Global Instance p24 : Prec_gt_0 24. Proof. reflexivity. Qed.
Global Instance e128 : Prec_lt_emax 24 128. Proof. reflexivity. Qed.
Global Instance p53 : Prec_gt_0 53. Proof. reflexivity. Qed.
Global Instance e1024 : Prec_lt_emax 53 1024. Proof. reflexivity. Qed.
Definition f32 := binary_float 24 128.
Definition f64 := binary_float 53 1024.

Section Ops.
Context {prec emax : Z} {Hp : Prec_gt_0 prec} {Hm : Prec_lt_emax prec emax}.
Notation flt := (binary_float prec emax).
Definition f0 : flt := B754_zero false.
Definition f1 : flt := Bone.
(** an integer of a C++ type converted to a floating point type; also literals *)
Definition of_int (z : Z) : flt := binary_normalize prec emax Hp Hm mode_NE z 0 false.
(** the number m * 2^e *)
Definition lit (m e : Z) : flt := binary_normalize prec emax Hp Hm mode_NE m e false.
Definition fadd_ : flt -> flt -> flt := fadd prec emax.
Definition fsub_ : flt -> flt -> flt := fsub prec emax.
Definition fmul_ : flt -> flt -> flt := fmul prec emax.
Definition fdiv_ : flt -> flt -> flt := fdiv prec emax.
Definition sqr_ (x : flt) : flt := fmul_ x x.
(** std::clamp *)
Definition clamp (v lo hi : flt) : flt := if Bltb v lo then lo else if Bltb hi v then hi else v.
(** [if (!m || x < *m) m = x] and [if (!m || x > *m) m = x] over a list *)
Definition upd_min (m : option flt) (x : flt) : option flt :=
  match m with Some y => if Bltb x y then Some x else m | None => Some x end.
Definition upd_max (m : option flt) (x : flt) : option flt :=
  match m with Some y => if Bltb y x then Some x else m | None => Some x end.
Definition min_of (l : list flt) : option flt := fold_left upd_min l None.
Definition max_of (l : list flt) : option flt := fold_left upd_max l None.
End Ops.
Arguments f0 {prec emax}.

(** ** ICP.cpp 608-634, ICP::evaluate_quality *)
(** what an evaluator returns *)
Record QResult := mkQR { q_quality : f64; q_discard : bool }.
Fixpoint quality_loop (es : list (f64 * QResult)) (sumW sumEvals : f64) : res f64 :=
  match es with
  | [] => if Bltb f0 sumW then Ok (fdiv_ sumEvals sumW) else Throw
  | (w, r) :: rest =>
      if Bltb f0 w then
        if q_discard r then Ok f0
        else quality_loop rest (fadd_ sumW w) (fadd_ sumEvals (fmul_ w (q_quality r)))
      else Throw
  end.
Definition evaluate_quality (es : list (f64 * QResult)) : res f64 :=
  match es with [] => Throw | _ => quality_loop es f0 f0 end.

(** ** QualityEvaluator_PairedRatio.cpp 62-67 *)
Definition paired_ratio (pairs potential : Z) (absolute_minimum : f64) : QResult :=
  let q := if Z.eqb potential 0 then f0 else fdiv_ (of_int pairs) (of_int potential) in
  mkQR q (Bltb q absolute_minimum).

(** ** robust_kernels.h 60-92 *)
Definition geman_mcclure (c errSqr : f64) : f64 := fdiv_ (sqr_ c) (sqr_ (fadd_ errSqr c)).
Definition cauchy (c errSqr : f64) : f64 := fdiv_ (sqr_ c) (fadd_ errSqr (sqr_ c)).

(** ** Matcher_Points_InlierRatio.cpp 115-122: mrpt::round() rounds to the nearest integer, ties to even *)
Definition n_keep (nTotal : Z) (inliersRatio : f64) : Z := ZnearestE (B2R (fmul_ (of_int nTotal) inliersRatio)).

(** ** FilterNormalizeIntensity.cpp 73-131 *)
Record NormCfg := mkNorm { n_fixed_max : f32; n_fixed_min : f32; n_remember : bool }.
(** minI_, maxI_ *)
Definition Memory := (option f32 * option f32)%type.
(** lines 93-106: [if (!mem || *x < *mem) mem = x] *)
Definition mem_min (m x : option f32) : option f32 := match x with Some v => upd_min m v | None => m end.
Definition mem_max (m x : option f32) : option f32 := match x with Some v => upd_max m v | None => m end.
(** lines 71-107: the range, and the memory afterwards *)
Definition norm_range (c : NormCfg) (mem : Memory) (is : list f32) : option f32 * option f32 * Memory :=
  if Bltb f0 (n_fixed_max c) then (Some (n_fixed_min c), Some (n_fixed_max c), mem)
  else
    let lo := min_of is in let hi := max_of is in
    if n_remember c then
      let mem' := (mem_min (fst mem) lo, mem_max (snd mem) hi) in (fst mem', snd mem', mem')
    else (lo, hi, mem).
(** lines 110-124 *)
Definition norm_delta (lo hi : f32) : f32 := let d := fsub_ hi lo in if Beqb d f0 then f1 else d.
Definition norm_one (lo delta_inv x : f32) : f32 := clamp (fmul_ (fsub_ x lo) delta_inv) f0 f1.
(** lines 57-131; an empty channel is an exception *)
Definition normalize (c : NormCfg) (mem : Memory) (is : list f32) : res (list f32 * Memory) :=
  match is with
  | [] => Throw
  | _ =>
      match norm_range c mem is with
      | (Some lo, Some hi, mem') => Ok (map (norm_one lo (fdiv_ f1 (norm_delta lo hi))) is, mem')
      | _ => Throw
      end
  end.

(** ** FilterAdjustTimestamps.cpp 97-150 *)
Inductive TMethod := MiddleIsZero | EarliestIsZero | Normalize.
(** the new stamps, and dt, which is added to the reference time *)
Definition adjust (m : TMethod) (offset : f32) (ts : list f32) : res (list f32 * f32) :=
  match ts with
  | [] => Throw
  | _ =>
      match min_of ts, max_of ts with
      | Some lo, Some hi =>
          match m with
          | MiddleIsZero => let dt := fadd_ (fmul_ (lit 1 (-1)) (fadd_ hi lo)) offset in Ok (map (fun t => fsub_ t dt) ts, dt)
          | EarliestIsZero => let dt := fadd_ lo offset in Ok (map (fun t => fsub_ t dt) ts, dt)
          | Normalize =>
              let k := if negb (Beqb hi lo) then fdiv_ f1 (fsub_ hi lo) else f1 in
              Ok (map (fun t => fadd_ (fmul_ (fsub_ t lo) k) offset) ts, f0)
          end
      | _, _ => Throw
      end
  end.

(** ** PointCloudToVoxelGrid.h 118, PointCloudToVoxelGridSingle.h 110: coord2idx().  Undefined if the truncated value
    is not an int32_t. *)
Definition coord2idx (resolution x : f32) : res Z :=
  let q := fdiv_ x resolution in
  if is_finite q && Z.leb (- 2 ^ 31) (Btrunc q) && Z.ltb (Btrunc q) (2 ^ 31) then Ok (Btrunc q) else UB.

(** ** FilterByRange.cpp 97-113 *)
Definition F3 := (f32 * f32 * f32)%type.
Definition sqr_norm (p : F3) : f32 := let '(x, y, z) := p in fadd_ (fadd_ (sqr_ x) (sqr_ y)) (sqr_ z).
Definition minus3 (p q : F3) : F3 :=
  let '(x, y, z) := p in let '(a, b, c) := q in (fsub_ x a, fsub_ y b, fsub_ z c).
Definition range_inside (lo hi : f32) (center p : F3) : bool :=
  let n := sqr_norm (minus3 p center) in Bleb (sqr_ lo) n && Bleb n (sqr_ hi).

(** ** FilterDecimateVoxels.cpp 296-305, one coordinate of the mean of the points of a voxel *)
Definition voxel_mean (xs : list f32) : f32 :=
  fmul_ (fold_left fadd_ xs f0) (fdiv_ f1 (of_int (Z.of_nat (List.length xs)))).
