(** Model of the point-cloud filters of mp2p_icp_filters (FilterBoundingBox,
    FilterByRange, FilterByIntensity, FilterByRing, FilterRemoveByVoxelOccupancy,
    FilterDeleteLayer, FilterAdjustTimestamps, FilterNormalizeIntensity), of
    GetOrCreatePointLayer and of apply_filter_pipeline.

    Simplifications, valid for the whole file:
    - float/double values are rationals [Q] (no rounding, no NaN, no infinity);
    - a map is only its set of named layers (lines, planes, georeferencing are not
      touched by any of these filters);
    - two different layer names never share one C++ object (layers are
      [shared_ptr]s; no code in these filters creates such sharing);
    - [reserve], logging and profiling are dropped. *)
From Coq Require Import String.
From Verif Require Import Base.
Open Scope string_scope.
Open Scope Q_scope.
Open Scope list_scope.

(** ** Maps *)

Definition Name := string.

(** Runtime class of a point cloud, with the optional channels it carries
    (mrpt::maps::CPointsMap::getPointsBufferRef_intensity/_ring/_timestamp). *)
Record Cls := mkCls { cls_name : string; has_I : bool; has_R : bool; has_T : bool }.

(** A point with all of its fields; a field of an absent channel is 0. *)
Record Pt := mkPt { px : Q; py : Q; pz : Q; p_int : Q; p_ring : Z; p_time : Q }.

Record Cloud := mkCloud { cl_cls : Cls; cl_pts : list Pt }.

(** Any metric map that is not a CPointsMap: what mp2p_icp::MapToPointsMap and
    CVoxelMap::getPointOccupancy (mrpt) would report for it. *)
Record Other := mkOther {
  ot_id : nat;
  ot_points : option Cloud;
  ot_occ : option (Q -> Q -> Q -> option Q) }.

(** mp2p_icp_map/include/mp2p_icp/metricmap.h: a layer is a CMetricMap::Ptr, possibly null. *)
Inductive Layer := LPts (c : Cloud) | LOther (o : Other) | LNull.

(** metricmap.h: [std::map<layer_name_t, CMetricMap::Ptr> layers]. *)
Definition Layers := list (Name * Layer).

Fixpoint lfind (m : Layers) (n : Name) : option Layer :=
  match m with
  | [] => None
  | (k, v) :: t => if String.eqb k n then Some v else lfind t n
  end.

Fixpoint lset (m : Layers) (n : Name) (l : Layer) : Layers :=
  match m with
  | [] => [(n, l)]
  | (k, v) :: t => if String.eqb k n then (k, l) :: t else (k, v) :: lset t n l
  end.

Fixpoint ldel (m : Layers) (n : Name) : Layers :=
  match m with
  | [] => []
  | (k, v) :: t => if String.eqb k n then ldel t n else (k, v) :: ldel t n
  end.

(** ** Effects: a C++ call changes the map and returns, throws, does something
    undefined, or has not returned after the given number of loop steps. *)
Inductive outc (A : Type) := Val (a : A) | Exc | Undef | Spin.
Arguments Val {A} a. Arguments Exc {A}. Arguments Undef {A}. Arguments Spin {A}.

Definition M (A : Type) := Layers -> Layers * outc A.
Definition ret {A} (a : A) : M A := fun m => (m, Val a).
Definition throw {A} : M A := fun m => (m, Exc).
Definition ubm {A} : M A := fun m => (m, Undef).
Definition bnd {A B} (x : M A) (f : A -> M B) : M B := fun m =>
  match x m with
  | (m', Val a) => f a m'
  | (m', Exc) => (m', Exc)
  | (m', Undef) => (m', Undef)
  | (m', Spin) => (m', Spin)
  end.
Definition massert (b : bool) : M unit := if b then ret tt else throw.
Notation "'do' x <- e ; f" := (bnd e (fun x => f))
  (at level 200, x pattern, e at level 100, f at level 200, right associativity).

(** ** Access helpers *)

(** metricmap.cpp 725-748, metric_map_t::point_layer *)
Definition point_layer (n : Name) : M (option Cloud) := fun m =>
  match lfind m n with
  | None => (m, Exc)
  | Some LNull => (m, Val None)
  | Some (LOther _) => (m, Exc)
  | Some (LPts c) => (m, Val (Some c))
  end.

(** [const auto pcPtr = inOut.point_layer(name); ASSERTMSG_(pcPtr, ...)]
    (FilterBoundingBox.cpp 79-83 and the same lines of the other filters) *)
Definition input_layer (n : Name) : M Cloud :=
  do o <- point_layer n;
  match o with Some c => ret c | None => throw end.

(** GetOrCreatePointLayer.cpp 23-63.  Returns whether the pointer is non-null.
    The class factory always knows the class: callers pass the class name of an
    existing object or the default CSimplePointsMap. *)
Definition get_or_create (n : Name) (allowEmpty : bool) (c : Cls) : M bool := fun m =>
  if String.eqb n "" then (if allowEmpty then (m, Val false) else (m, Exc))
  else match lfind m n with
       | Some (LPts _) => (m, Val true)
       | Some _ => (m, Exc)
       | None => (lset m n (LPts (mkCloud c [])), Val true)
       end.

(** GetOrCreatePointLayer.h 33: default class for new layers *)
Definition SimplePoints : Cls := mkCls "mrpt::maps::CSimplePointsMap" false false false.

(** mrpt CPointsMap::insertPointFrom: copies the coordinates and the channels the
    destination has (not part of /repo). *)
Definition conv (c : Cls) (p : Pt) : Pt :=
  mkPt (px p) (py p) (pz p)
       (if has_I c then p_int p else 0)
       (if has_R c then p_ring p else 0%Z)
       (if has_T c then p_time p else 0).

Definition insert_from (n : Name) (p : Pt) : M unit := fun m =>
  match lfind m n with
  | Some (LPts d) => (lset m n (LPts (mkCloud (cl_cls d) (cl_pts d ++ [conv (cl_cls d) p]))), Val tt)
  | _ => (m, Undef)
  end.

(** ** Routing loops *)

(** Body of the loops below: read point [i] of the input layer (as it is now), choose
    the target, [if (target) target->insertPointFrom(pc, i)]. The empty name is the
    null pointer (see [get_or_create]). *)
Definition route_one (inp : Name) (dest : Pt -> Name) (i : nat) : M unit := fun m =>
  match lfind m inp with
  | Some (LPts c) =>
      match nth_error (cl_pts c) i with
      | Some p => if String.eqb (dest p) "" then (m, Val tt) else insert_from (dest p) p m
      | None => (m, Undef)
      end
  | _ => (m, Undef)
  end.

(** [for (size_t i = 0; i < xs.size(); i++)] with the bound read again at every step
    (FilterBoundingBox.cpp 105-112, FilterByRange.cpp 105-115). *)
Fixpoint route_live (fuel : nat) (inp : Name) (dest : Pt -> Name) (i : nat) : M unit := fun m =>
  match lfind m inp with
  | Some (LPts c) =>
      if (i <? List.length (cl_pts c))%nat
      then match fuel with
           | O => (m, Spin)
           | S k => (do _ <- route_one inp dest i; route_live k inp dest (S i)) m
           end
      else (m, Val tt)
  | _ => (m, Undef)
  end.

(** [const size_t N = xs.size(); for (size_t i = 0; i < N; i++)]
    (FilterByIntensity.cpp 115-142, FilterByRing.cpp 113-135). *)
Fixpoint route_n (n : nat) (inp : Name) (dest : Pt -> Name) (i : nat) : M unit :=
  match n with
  | O => ret tt
  | S k => do _ <- route_one inp dest i; route_n k inp dest (S i)
  end.

(** ** FilterBoundingBox *)
Record BBoxCfg := mkBB { bb_in : Name; bb_inside : Name; bb_outside : Name;
  bb_min : Q * Q * Q; bb_max : Q * Q * Q; bb_realized : bool }.

(** FilterBoundingBox.cpp 37-40, load_from_yaml *)
Definition bbox_accepts (c : BBoxCfg) : bool :=
  negb (String.eqb (bb_inside c) "") || negb (String.eqb (bb_outside c) "").

(** mrpt TBoundingBox_::containsPoint: closed box, all three axes. *)
Definition in_box (c : BBoxCfg) (p : Pt) : bool :=
  let '(x0, y0, z0) := bb_min c in
  let '(x1, y1, z1) := bb_max c in
  Qle_bool x0 (px p) && Qle_bool (px p) x1 &&
  Qle_bool y0 (py p) && Qle_bool (py p) y1 &&
  Qle_bool z0 (pz p) && Qle_bool (pz p) z1.

(** FilterBoundingBox.cpp 107-109 *)
Definition bbox_dest (c : BBoxCfg) (p : Pt) : Name :=
  if in_box c p then bb_inside c else bb_outside c.

(** FilterBoundingBox.cpp 74-116.  [bb_realized] is not looked at: the code does not
    call checkAllParametersAreRealized(). *)
Definition filter_bbox (fuel : nat) (c : BBoxCfg) : M unit :=
  do pc <- input_layer (bb_in c);
  do _ <- get_or_create (bb_inside c) true (cl_cls pc);
  do _ <- get_or_create (bb_outside c) true (cl_cls pc);
  route_live fuel (bb_in c) (bbox_dest c) 0.

(** ** FilterByRange *)
Record RangeCfg := mkRg { rg_in : Name; rg_between : Name; rg_outside : Name;
  rg_min : Q; rg_max : Q; rg_center : Q * Q * Q; rg_realized : bool }.

(** FilterByRange.cpp 39-42 *)
Definition range_accepts (c : RangeCfg) : bool :=
  negb (String.eqb (rg_between c) "") || negb (String.eqb (rg_outside c) "").

Definition sq (x : Q) : Q := x * x.

(** FilterByRange.cpp 107-108 *)
Definition sq_norm_from (o : Q * Q * Q) (p : Pt) : Q :=
  let '(a, b, d) := o in sq (px p - a) + sq (py p - b) + sq (pz p - d).

(** FilterByRange.cpp 110-112 *)
Definition range_dest (c : RangeCfg) (p : Pt) : Name :=
  if Qle_bool (sq (rg_min c)) (sq_norm_from (rg_center c) p)
     && Qle_bool (sq_norm_from (rg_center c) p) (sq (rg_max c))
  then rg_between c else rg_outside c.

(** FilterByRange.cpp 67-118 *)
Definition filter_range (fuel : nat) (c : RangeCfg) : M unit :=
  do _ <- massert (rg_realized c);
  do pc <- input_layer (rg_in c);
  do _ <- get_or_create (rg_between c) true (cl_cls pc);
  do _ <- get_or_create (rg_outside c) true (cl_cls pc);
  route_live fuel (rg_in c) (range_dest c) 0.

(** ** FilterByIntensity *)
Record IntCfg := mkIn { in_in : Name; in_low : Name; in_mid : Name; in_high : Name;
  in_lowT : Q; in_highT : Q }.

(** FilterByIntensity.cpp 37-42: the "low" name is tested twice, the "high" one never. *)
Definition intensity_accepts (c : IntCfg) : bool :=
  negb (String.eqb (in_low c) "") || negb (String.eqb (in_low c) "")
  || negb (String.eqb (in_mid c) "").

(** FilterByIntensity.cpp 121-139 *)
Definition intensity_dest (c : IntCfg) (p : Pt) : Name :=
  if Qltb (p_int p) (in_lowT c) then in_low c
  else if Qltb (in_highT c) (p_int p) then in_high c
  else in_mid c.

(** [ptr && !ptr->empty()] for a channel buffer *)
Definition channel_ok (has : bool) (pc : Cloud) : bool :=
  has && match cl_pts pc with [] => false | _ => true end.

(** FilterByIntensity.cpp 56-149.  The channel is read after the outputs exist. *)
Definition filter_intensity (c : IntCfg) : M unit :=
  do pc <- input_layer (in_in c);
  do a <- get_or_create (in_low c) true (cl_cls pc);
  do b <- get_or_create (in_high c) true (cl_cls pc);
  do d <- get_or_create (in_mid c) true (cl_cls pc);
  do _ <- massert (a || b || d);
  do _ <- massert (channel_ok (has_I (cl_cls pc)) pc);
  route_n (List.length (cl_pts pc)) (in_in c) (intensity_dest c) 0.

(** ** FilterByRing *)
Record RingCfg := mkRi { ri_in : Name; ri_sel : Name; ri_non : Name; ri_ids : list Z }.

(** FilterByRing.cpp 29-54: no check on the outputs, at least one ring id *)
Definition ring_accepts (c : RingCfg) : bool :=
  match ri_ids c with [] => false | _ => true end.

(** FilterByRing.cpp 119-132 *)
Definition ring_dest (c : RingCfg) (p : Pt) : Name :=
  if existsb (Z.eqb (p_ring p)) (ri_ids c) then ri_sel c else ri_non c.

(** FilterByRing.cpp 64-142 *)
Definition filter_ring (c : RingCfg) : M unit :=
  do pc <- input_layer (ri_in c);
  do a <- get_or_create (ri_sel c) true (cl_cls pc);
  do b <- get_or_create (ri_non c) true (cl_cls pc);
  do _ <- massert (a || b);
  do _ <- massert (channel_ok (has_R (cl_cls pc)) pc);
  route_n (List.length (cl_pts pc)) (ri_in c) (ring_dest c) 0.

(** ** FilterRemoveByVoxelOccupancy *)
Record OccCfg := mkOcc { oc_in : Name; oc_vox : Name; oc_static : Name; oc_dynamic : Name;
  oc_thres : Q; oc_realized : bool }.

(** metricmap.cpp 750-782, MapToPointsMap *)
Definition map_to_points (l : Layer) : option Cloud :=
  match l with LPts c => Some c | LOther o => ot_points o | LNull => None end.

(** FilterRemoveByVoxelOccupancy.cpp 121-123 *)
Definition occ_free (c : OccCfg) : Q :=
  if Qltb (1 # 2) (oc_thres c) then 1 - oc_thres c else oc_thres c.
Definition occ_occ (c : OccCfg) : Q := 1 - occ_free c.

(** FilterRemoveByVoxelOccupancy.cpp 135-152; a point outside the voxel map is skipped *)
Definition occ_dest (c : OccCfg) (occ : Q -> Q -> Q -> option Q) (p : Pt) : Name :=
  match occ (px p) (py p) (pz p) with
  | None => ""
  | Some v => if Qltb (occ_occ c) v then oc_static c
              else if Qltb v (occ_free c) then oc_dynamic c
              else ""
  end.

(** Loop over a fixed list of points (the input may be a converted map, so that the
    points are not those of a layer). *)
Fixpoint route_list (l : list Pt) (dest : Pt -> Name) : M unit :=
  match l with
  | [] => ret tt
  | p :: t => do _ <- (if String.eqb (dest p) "" then ret tt else insert_from (dest p) p);
              route_list t dest
  end.

(** FilterRemoveByVoxelOccupancy.cpp 57-161.  N is read before the loop and the points
    already there do not change, so the list of points is fixed (see [route_list]). *)
Definition filter_occupancy (c : OccCfg) : M unit := fun m =>
  (do _ <- massert (oc_realized c);
   do _ <- massert (Qle_bool (oc_thres c) 1 && Qle_bool 0 (oc_thres c));
   match lfind m (oc_in c) with
   | None | Some LNull => throw
   | Some l =>
     match map_to_points l with
     | None => throw
     | Some pc =>
       match lfind m (oc_vox c) with
       | Some (LOther o) =>
         match ot_occ o with
         | None => throw
         | Some occ =>
           do a <- get_or_create (oc_static c) true (cl_cls pc);
           do b <- get_or_create (oc_dynamic c) true (cl_cls pc);
           do _ <- massert (a || b);
           route_list (cl_pts pc) (occ_dest c occ)
         end
       | _ => throw
       end
     end
   end) m.

(** ** FilterDeleteLayer *)

(** FilterDeleteLayer.cpp 74-91 *)
Fixpoint filter_delete (names : list Name) (error_on_missing : bool) : M unit := fun m =>
  match names with
  | [] => (m, Val tt)
  | n :: t =>
      let found := match lfind m n with Some _ => true | None => false end in
      let m' := ldel m n in
      if error_on_missing && negb found then (m', Exc)
      else filter_delete t error_on_missing m'
  end.

(** ** FilterAdjustTimestamps *)
Inductive TMethod := MiddleIsZero | EarliestIsZero | Normalize.
Record TimeCfg := mkTm { tm_layer : Name; tm_method : TMethod; tm_offset : Q;
  tm_ignore : bool; tm_realized : bool }.

(** FilterAdjustTimestamps.cpp 100-114 (also FilterNormalizeIntensity.cpp 85-97) *)
Definition min_step (o : option Q) (t : Q) : option Q :=
  match o with None => Some t | Some v => if Qltb t v then Some t else Some v end.
Definition max_step (o : option Q) (t : Q) : option Q :=
  match o with None => Some t | Some v => if Qltb v t then Some t else Some v end.

Definition set_time (f : Q -> Q) (p : Pt) : Pt :=
  mkPt (px p) (py p) (pz p) (p_int p) (p_ring p) (f (p_time p)).

(** FilterAdjustTimestamps.cpp 120-153: new timestamp and [dt] *)
Definition time_map (c : TimeCfg) (mn mx : Q) : (Q -> Q) * Q :=
  match tm_method c with
  | MiddleIsZero => let dt := (1 # 2) * (mx + mn) + tm_offset c in ((fun t => t - dt), dt)
  | EarliestIsZero => let dt := mn + tm_offset c in ((fun t => t - dt), dt)
  | Normalize =>
      let k := if Qeq_bool mx mn then 1 else 1 / (mx - mn) in
      ((fun t => (t - mn) * k + tm_offset c), 0)
  end.

(** FilterAdjustTimestamps.cpp 55-162.  [zero] is the reference_zero_time of the
    velocity buffer of the attached source, if any (lines 117, 155-159). *)
Definition filter_time (c : TimeCfg) (zero : option Q) : M (option Q) :=
  do _ <- massert (tm_realized c);
  do pc <- input_layer (tm_layer c);
  match cl_pts pc with
  | [] => ret zero
  | _ =>
    if negb (has_T (cl_cls pc))
    then (if tm_ignore c then ret zero else throw)
    else
      let ts := map p_time (cl_pts pc) in
      match fold_left min_step ts None, fold_left max_step ts None with
      | Some mn, Some mx =>
          let '(f, dt) := time_map c mn mx in
          fun m => (lset m (tm_layer c) (LPts (mkCloud (cl_cls pc) (map (set_time f) (cl_pts pc)))),
                    Val (option_map (fun z => z + dt) zero))
      | _, _ => throw
      end
  end.

(** ** FilterNormalizeIntensity *)
Record NormCfg := mkNm { nm_layer : Name; nm_remember : bool; nm_fixmin : Q; nm_fixmax : Q }.

(** range memory: minI_, maxI_ (FilterNormalizeIntensity.h) *)
Definition Memory := (option Q * option Q)%type.

Definition clamp01 (x : Q) : Q := if Qltb x 0 then 0 else if Qltb 1 x then 1 else x.

Definition set_int (f : Q -> Q) (p : Pt) : Pt :=
  mkPt (px p) (py p) (pz p) (f (p_int p)) (p_ring p) (p_time p).

(** FilterNormalizeIntensity.cpp 78-115: range used, and the new memory *)
Definition norm_range (c : NormCfg) (mem : Memory) (is : list Q) : option (Q * Q) * Memory :=
  if Qltb 0 (nm_fixmax c) then (Some (nm_fixmin c, nm_fixmax c), mem)
  else match fold_left min_step is None, fold_left max_step is None with
       | Some mn, Some mx =>
           if nm_remember c then
             let mn' := match fst mem with None => mn | Some v => if Qltb mn v then mn else v end in
             let mx' := match snd mem with None => mx | Some v => if Qltb v mx then mx else v end in
             (Some (mn', mx'), (Some mn', Some mx'))
           else (Some (mn, mx), mem)
       | _, _ => (None, mem)
       end.

(** FilterNormalizeIntensity.cpp 117-129 *)
Definition norm_map (mn mx : Q) (i : Q) : Q :=
  let delta := if Qeq_bool (mx - mn) 0 then 1 else mx - mn in
  clamp01 ((i - mn) * (1 / delta)).

(** FilterNormalizeIntensity.cpp 52-134 *)
Definition filter_norm (c : NormCfg) (mem : Memory) : M Memory :=
  do pc <- input_layer (nm_layer c);
  do _ <- massert (channel_ok (has_I (cl_cls pc)) pc);
  match norm_range c mem (map p_int (cl_pts pc)) with
  | (Some (mn, mx), mem') =>
      fun m => (lset m (nm_layer c)
                  (LPts (mkCloud (cl_cls pc) (map (set_int (norm_map mn mx)) (cl_pts pc)))), Val mem')
  | (None, _) => throw
  end.

(** ** Pipelines *)

(** FilterBase.cpp 33-49, apply_filter_pipeline: null entries are an error *)
Fixpoint run_pipeline (fs : list (option (M unit))) : M unit :=
  match fs with
  | [] => ret tt
  | None :: _ => throw
  | Some f :: t => do _ <- f; run_pipeline t
  end.
