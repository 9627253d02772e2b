(** Model of the initialize() / load_from_yaml() of the filters.
    Sources, all in /repo/mp2p_icp_filters/src: FilterDecimateVoxels.cpp 36-105, FilterDeleteLayer.cpp 28-72, FilterByRing.cpp 29-62,
    FilterBoundingBox.cpp 30-72, FilterByRange.cpp 30-65, FilterMerge.cpp 32-59, FilterDeskew.cpp 41-67, FilterByIntensity.cpp 29-54,
    FilterAdjustTimestamps.cpp 30-53, FilterNormalizeIntensity.cpp 30-52, FilterCurvature.cpp 30-50, FilterVoxelSlice.cpp 30-54,
    FilterPoleDetector.cpp 108-139, FilterRemoveByVoxelOccupancy.cpp 32-56, FilterDecimateAdaptive.cpp 31-57,
    FilterDecimateVoxelsQuadratic.cpp 30-60, FilterEdgesPlanes.cpp 29-56.
    Simplifications: those of InitModel.  A formula is recorded, when it is declared, with the variable it is for
    ([cell]); its evaluation is modelled in ParamModel.  A std::set is a list without repetitions. *)
From Coq Require Import String.
From Verif Require Import Base ConfigModel FilterModel VoxelModel CurvModel QuadModel EdgesModel InitModel.
From Verif Require GenInitModel PoleModel FMergeModel DeskewModel.
Open Scope string_scope.
Open Scope list_scope.

(** an object with formulas: no text means the present value (see form_opt in InitModel) *)
Definition Forms := list (string * option string).
Record FO (S : Type) := mkFO { fo_st : S; fo_forms : Forms }.
Arguments mkFO {S}. Arguments fo_st {S}. Arguments fo_forms {S}.

Section FInit.
  Variables (as_bool : yml -> option bool) (as_str : yml -> option string) (as_num : yml -> option Q)
            (as_nat : yml -> option nat) (as_int : yml -> option Z) (as_dm : yml -> option DMethod) (as_tm : yml -> option TMethod).
  Notation Cfg := (list (string * yml)).

  (** *** Pieces *)
  (** a loader of the part that has no formulas *)
  Definition lst {S} (f : Load S) : Load (FO S) := lpart fo_st (fun s o => mkFO s (fo_forms o)) f.
  (** DECLARE_PARAMETER_IN_REQ, DECLARE_PARAMETER_IN_OPT *)
  Definition freq {S} (m : Cfg) (k : string) : Load (FO S) :=
    lreq as_str m k (fun t o => mkFO (fo_st o) (fo_forms o ++ [(k, Some t)])).
  Definition fopt {S} (m : Cfg) (k : string) : Load (FO S) := fun o =>
    match yfind m k with
    | None => (mkFO (fo_st o) (fo_forms o ++ [(k, None)]), true)
    | Some v => match as_str v with Some t => (mkFO (fo_st o) (fo_forms o ++ [(k, Some t)]), true) | None => (o, false) end
    end.
  (** parseAndDeclareParameter(y.as<std::string>(), cell), one after another *)
  Fixpoint fdecls {S} (l : list (string * yml)) : Load (FO S) :=
    match l with
    | [] => lskip
    | (c, y) :: r => (fun o => match as_str y with Some t => (mkFO (fo_st o) (fo_forms o ++ [(c, Some t)]), true) | None => (o, false) end) ;;; fdecls r
    end.
  (** the layers of an entry that is a scalar or a sequence, added to a vector: FilterDecimateVoxels.cpp 46-64, FilterDeleteLayer.cpp 38-53 *)
  Fixpoint names_loop (ys : list yml) (acc : list Name) : list Name * bool :=
    match ys with [] => (acc, true) | y :: r => match as_str y with Some n => names_loop r (acc ++ [n]) | None => (acc, false) end end.
  Definition names_of (y : yml) : list Name * bool :=
    if GenInitModel.is_scalar y then names_loop [y] []
    else match y with YSeq ys => names_loop ys [] | _ => ([], false) end.
  Definition lnames {S} (m : Cfg) (k : string) (get : S -> list Name) (set : list Name -> S -> S) : Load S :=
    (fun o => match yfind m k with None => (o, false) | Some y => let '(ns, ok) := names_of y in (set ns o, ok) end) ;;;
    lassert (fun o => match get o with [] => false | _ => true end).

  (** *** FilterDecimateVoxels.  [ds_grid]: which of the two grids exists, the single-point one ([true]) or the other. *)
  Record DecSt := mkDS { ds_ins : list Name; ds_err : bool; ds_out : Name; ds_method : DMethod; ds_min : nat; ds_robin : bool;
    ds_flatten : option Q; ds_grid : option bool }.
  (** FilterDecimateVoxels.h 80-117 *)
  Definition dec0 : FO DecSt := mkFO (mkDS ["raw"] true "" FirstPoint 0 true None None) [].
  (** FilterDecimateVoxels.cpp 36-78 *)
  Definition dec_params (m : Cfg) : Load (FO DecSt) :=
    lst (lnames m "input_pointcloud_layer" ds_ins (fun a o => mkDS a (ds_err o) (ds_out o) (ds_method o) (ds_min o) (ds_robin o) (ds_flatten o) (ds_grid o))) ;;;
    lst (lopt as_bool m "error_on_missing_input_layer" (fun a o => mkDS (ds_ins o) a (ds_out o) (ds_method o) (ds_min o) (ds_robin o) (ds_flatten o) (ds_grid o))) ;;;
    lst (lreq as_dm m "decimate_method" (fun a o => mkDS (ds_ins o) (ds_err o) (ds_out o) a (ds_min o) (ds_robin o) (ds_flatten o) (ds_grid o))) ;;;
    lst (lreq as_str m "output_pointcloud_layer" (fun a o => mkDS (ds_ins o) (ds_err o) a (ds_method o) (ds_min o) (ds_robin o) (ds_flatten o) (ds_grid o))) ;;;
    lst (lopt as_nat m "minimum_input_points_to_filter" (fun a o => mkDS (ds_ins o) (ds_err o) (ds_out o) (ds_method o) a (ds_robin o) (ds_flatten o) (ds_grid o))) ;;;
    freq m "voxel_filter_resolution" ;;;
    lst (lopt as_bool m "use_tsl_robin_map" (fun a o => mkDS (ds_ins o) (ds_err o) (ds_out o) (ds_method o) (ds_min o) a (ds_flatten o) (ds_grid o))) ;;;
    lst (lopt as_num m "flatten_to" (fun a o => mkDS (ds_ins o) (ds_err o) (ds_out o) (ds_method o) (ds_min o) (ds_robin o) (Some a) (ds_grid o))).
  (** FilterDecimateVoxels.h 129 *)
  Definition ds_single (o : DecSt) : bool := match ds_method o with FirstPoint => true | _ => false end.
  (** FilterDecimateVoxels.cpp 85-105 *)
  Definition dec_load (m : Cfg) : Load (FO DecSt) :=
    dec_params m ;;;
    lst (fun o => (mkDS (ds_ins o) (ds_err o) (ds_out o) (ds_method o) (ds_min o) (ds_robin o) (ds_flatten o) (Some (ds_single o)), true)).
  (** what VoxelModel calls the configuration, given the values of the formulas *)
  Definition dec_of (o : FO DecSt) (mem : string -> Q) (realized : bool) : DecCfg :=
    let s := fo_st o in mkDec (ds_ins s) (ds_err s) (ds_out s) (ds_method s) (ds_min s) (mem "voxel_filter_resolution") (ds_robin s) (ds_flatten s) realized.
  (** FilterDecimateVoxels.cpp 107-381, lines 197-203 and 261-266 included: the grid must exist *)
  Definition grid_there (o : DecSt) : bool := match ds_grid o with Some b => Bool.eqb b (ds_single o) | None => false end.
  Definition dec_filter (o : FO DecSt) (mem : string -> Q) (realized : bool) ords ordm rnd (sg : SGrid) (mg : Grid) : M unit :=
    let c := dec_of o mem realized in
    if grid_there (fo_st o) then filter_decimate c ords ordm rnd sg mg
    else
      do _ <- massert (de_realized c);
      do srcs <- collect (de_ins c) (de_error_missing c);
      match srcs with
      | [] => throw
      | s0 :: _ =>
        do _ <- massert (negb (String.eqb (de_out c) ""));
        do _ <- (fun m => get_or_create (de_out c) false (cl_cls (read_src m s0)) m);
        do _ <- (if (0 <? de_min_pts c)%nat then pass_small c srcs else ret srcs);
        throw
      end.

  (** *** FilterDeleteLayer *)
  Record DelSt := mkDel { dl_names : list Name; dl_err : bool }.
  Definition del_load (m : Cfg) : Load DelSt :=
    lnames m "pointcloud_layer_to_remove" dl_names (fun a o => mkDel a (dl_err o)) ;;;
    lopt as_bool m "error_on_missing_input_layer" (fun a o => mkDel (dl_names o) a).

  (** *** FilterByRing *)
  Definition set_insert (l : list Z) (z : Z) : list Z := if existsb (Z.eqb z) l then l else l ++ [z].
  Fixpoint rings_loop (ys : list yml) (acc : list Z) : list Z * bool :=
    match ys with [] => (acc, true) | y :: r => match as_int y with Some n => rings_loop r (set_insert acc n) | None => (acc, false) end end.
  Definition rings_of (y : yml) : list Z * bool :=
    if GenInitModel.is_scalar y then rings_loop [y] []
    else match y with YSeq ys => rings_loop ys [] | _ => ([], false) end.
  Definition ring_set (a : list Z) (o : RingCfg) : RingCfg := mkRi (ri_in o) (ri_sel o) (ri_non o) a.
  (** FilterByRing.cpp 29-54; the set is cleared before the entry is looked up *)
  Definition ring_load (m : Cfg) : Load RingCfg :=
    lreq as_str m "input_pointcloud_layer" (fun a o => mkRi a (ri_sel o) (ri_non o) (ri_ids o)) ;;;
    lopt as_str m "output_layer_selected" (fun a o => mkRi (ri_in o) a (ri_non o) (ri_ids o)) ;;;
    lopt as_str m "output_layer_non_selected" (fun a o => mkRi (ri_in o) (ri_sel o) a (ri_ids o)) ;;;
    (fun o => match yfind m "selected_ring_ids" with
              | None => (ring_set [] o, false)
              | Some y => let '(ns, ok) := rings_of y in (ring_set ns o, ok) end) ;;;
    lassert ring_accepts.

  (** *** FilterBoundingBox *)
  Record BoxSt := mkBox { bx_in : Name; bx_inside : Name; bx_outside : Name }.
  (** FilterBoundingBox.h 54-69 *)
  Definition box0 : FO BoxSt := mkFO (mkBox "raw" "" "") [].
  (** has(), isSequence(), size() == 3 *)
  Definition seq3 (m : Cfg) (k : string) : option (yml * yml * yml) :=
    match yfind m k with Some (YSeq [a; b; c]) => Some (a, b, c) | _ => None end.
  Definition one_output (a b : Name) : bool := negb (String.eqb a "") || negb (String.eqb b "").
  (** FilterBoundingBox.cpp 30-57 *)
  Definition box_load (m : Cfg) : Load (FO BoxSt) :=
    lst (lopt as_str m "input_pointcloud_layer" (fun a o => mkBox a (bx_inside o) (bx_outside o))) ;;;
    lst (lopt as_str m "inside_pointcloud_layer" (fun a o => mkBox (bx_in o) a (bx_outside o))) ;;;
    lst (lopt as_str m "outside_pointcloud_layer" (fun a o => mkBox (bx_in o) (bx_inside o) a)) ;;;
    lst (lassert (fun o => one_output (bx_inside o) (bx_outside o))) ;;;
    match seq3 m "bounding_box_min", seq3 m "bounding_box_max" with
    | Some (a, b, c), Some (x, y, z) => fdecls [("min[0]", a); ("max[0]", x); ("min[1]", b); ("max[1]", y); ("min[2]", c); ("max[2]", z)]
    | _, _ => lthrow
    end.
  Definition box_of (o : FO BoxSt) (mem : string -> Q) (realized : bool) : BBoxCfg :=
    let s := fo_st o in mkBB (bx_in s) (bx_inside s) (bx_outside s)
      (mem "min[0]", mem "min[1]", mem "min[2]") (mem "max[0]", mem "max[1]", mem "max[2]") realized.

  (** *** FilterByRange *)
  Record RngSt := mkRng { rn_in : Name; rn_between : Name; rn_outside : Name }.
  Definition rng0 : FO RngSt := mkFO (mkRng "raw" "" "") [].
  (** FilterByRange.cpp 30-53 *)
  Definition rng_load (m : Cfg) : Load (FO RngSt) :=
    lst (lreq as_str m "input_pointcloud_layer" (fun a o => mkRng a (rn_between o) (rn_outside o))) ;;;
    lst (lopt as_str m "output_layer_between" (fun a o => mkRng (rn_in o) a (rn_outside o))) ;;;
    lst (lopt as_str m "output_layer_outside" (fun a o => mkRng (rn_in o) (rn_between o) a)) ;;;
    freq m "range_min" ;;;
    freq m "range_max" ;;;
    lst (lassert (fun o => one_output (rn_between o) (rn_outside o))) ;;;
    match yfind m "center" with
    | None => lskip
    | Some (YSeq [a; b; c]) => fdecls [("center[0]", a); ("center[1]", b); ("center[2]", c)]
    | Some _ => lthrow
    end.
  Definition rng_of (o : FO RngSt) (mem : string -> Q) (realized : bool) : RangeCfg :=
    let s := fo_st o in mkRg (rn_in s) (rn_between s) (rn_outside s) (mem "range_min") (mem "range_max")
      (mem "center[0]", mem "center[1]", mem "center[2]") realized.

  (** *** FilterMerge.  mrpt TPose3D::operator[]: x, y, z, yaw, pitch, roll *)
  Record MrgSt := mkMrg { mg_in : Name; mg_target : Name; mg_local : bool }.
  Definition mrg0 : FO MrgSt := mkFO (mkMrg "" "" false) [].
  (** FilterMerge.cpp 32-47 *)
  Definition mrg_load (m : Cfg) : Load (FO MrgSt) :=
    lst (lreq as_str m "input_pointcloud_layer" (fun a o => mkMrg a (mg_target o) (mg_local o))) ;;;
    lst (lreq as_str m "target_layer" (fun a o => mkMrg (mg_in o) a (mg_local o))) ;;;
    lst (lopt as_bool m "input_layer_in_local_coordinates" (fun a o => mkMrg (mg_in o) (mg_target o) a)) ;;;
    match yfind m "robot_pose" with
    | None => lskip
    | Some (YSeq [x; y; z; w; p; r]) => fdecls [("x", x); ("y", y); ("z", z); ("yaw", w); ("pitch", p); ("roll", r)]
    | Some _ => lthrow
    end.
  (** [pose]: mrpt CPose3D(TPose3D), in radians (FilterMerge.cpp 62-111) *)
  Definition mrg_of (pose : Q -> Q -> Q -> Q -> Q -> Q -> FMergeModel.QPose) (o : FO MrgSt) (mem : string -> Q) (realized : bool) : FMergeModel.MergeCfg :=
    let s := fo_st o in FMergeModel.mkMerge (mg_in s) (mg_target s) (mg_local s)
      (pose (mem "x") (mem "y") (mem "z") (mem "yaw") (mem "pitch") (mem "roll")) realized.

  (** *** FilterDeskew.  mrpt TTwist3D::operator[]: vx, vy, vz, wx, wy, wz.  [dw_twist]: the optional has a value *)
  Record DskSt := mkDsk { dw_in : Name; dw_out : Name; dw_class : string; dw_silent : bool; dw_skip : bool; dw_precise : bool; dw_twist : bool }.
  (** FilterDeskew.h 79-109 *)
  Definition dsk0 : FO DskSt := mkFO (mkDsk "raw" "" "mrpt::maps::CPointsMapXYZI" false false false false) [].
  (** FilterDeskew.cpp 41-67; the twist is created before its entry is checked *)
  Definition dsk_load (m : Cfg) : Load (FO DskSt) :=
    lst (lreq as_str m "input_pointcloud_layer" (fun a o => mkDsk a (dw_out o) (dw_class o) (dw_silent o) (dw_skip o) (dw_precise o) (dw_twist o))) ;;;
    lst (lreq as_str m "output_pointcloud_layer" (fun a o => mkDsk (dw_in o) a (dw_class o) (dw_silent o) (dw_skip o) (dw_precise o) (dw_twist o))) ;;;
    lst (lopt as_bool m "silently_ignore_no_timestamps" (fun a o => mkDsk (dw_in o) (dw_out o) (dw_class o) a (dw_skip o) (dw_precise o) (dw_twist o))) ;;;
    lst (lopt as_str m "output_layer_class" (fun a o => mkDsk (dw_in o) (dw_out o) a (dw_silent o) (dw_skip o) (dw_precise o) (dw_twist o))) ;;;
    lst (lopt as_bool m "skip_deskew" (fun a o => mkDsk (dw_in o) (dw_out o) (dw_class o) (dw_silent o) a (dw_precise o) (dw_twist o))) ;;;
    lst (lopt as_bool m "use_precise_local_velocities" (fun a o => mkDsk (dw_in o) (dw_out o) (dw_class o) (dw_silent o) (dw_skip o) a (dw_twist o))) ;;;
    match yfind m "twist" with
    | None => lskip
    | Some y =>
        lst (fun o => (mkDsk (dw_in o) (dw_out o) (dw_class o) (dw_silent o) (dw_skip o) (dw_precise o) true, true)) ;;;
        match y with
        | YSeq [a; b; c; x; y; z] => fdecls [("vx", a); ("vy", b); ("vz", c); ("wx", x); ("wy", y); ("wz", z)]
        | _ => lthrow
        end
    end.
  (** [cls]: the class factory; [src]: the attached source *)
  Definition dsk_of (cls : string -> option Cls) src (o : FO DskSt) (mem : string -> Q) (realized : bool) : DeskewModel.DCfg :=
    let s := fo_st o in DeskewModel.mkDk (dw_in s) (dw_out s) (cls (dw_class s)) (dw_silent s) (dw_skip s) (dw_precise s)
      (if dw_twist s then Some ((mem "vx", mem "vy", mem "vz"), (mem "wx", mem "wy", mem "wz")) else None) src realized.

  (** *** FilterByIntensity.cpp 29-46 *)
  Definition int_load (m : Cfg) : Load IntCfg :=
    lreq as_str m "input_pointcloud_layer" (fun a o => mkIn a (in_low o) (in_mid o) (in_high o) (in_lowT o) (in_highT o)) ;;;
    lopt as_str m "output_layer_low_intensity" (fun a o => mkIn (in_in o) a (in_mid o) (in_high o) (in_lowT o) (in_highT o)) ;;;
    lopt as_str m "output_layer_high_intensity" (fun a o => mkIn (in_in o) (in_low o) (in_mid o) a (in_lowT o) (in_highT o)) ;;;
    lopt as_str m "output_layer_mid_intensity" (fun a o => mkIn (in_in o) (in_low o) a (in_high o) (in_lowT o) (in_highT o)) ;;;
    lassert intensity_accepts ;;;
    lreq as_num m "low_threshold" (fun a o => mkIn (in_in o) (in_low o) (in_mid o) (in_high o) a (in_highT o)) ;;;
    lreq as_num m "high_threshold" (fun a o => mkIn (in_in o) (in_low o) (in_mid o) (in_high o) (in_lowT o) a).

  (** *** FilterAdjustTimestamps.cpp 30-38 *)
  Record TimSt := mkTim { ti_layer : Name; ti_method : TMethod; ti_ignore : bool }.
  Definition tim_load (m : Cfg) : Load (FO TimSt) :=
    lst (lreq as_str m "pointcloud_layer" (fun a o => mkTim a (ti_method o) (ti_ignore o))) ;;;
    lst (lreq as_tm m "method" (fun a o => mkTim (ti_layer o) a (ti_ignore o))) ;;;
    lst (lreq as_bool m "silently_ignore_no_timestamps" (fun a o => mkTim (ti_layer o) (ti_method o) a)) ;;;
    fopt m "time_offset".
  Definition tim_of (o : FO TimSt) (mem : string -> Q) (realized : bool) : TimeCfg :=
    let s := fo_st o in mkTm (ti_layer s) (ti_method s) (mem "time_offset") (ti_ignore s) realized.

  (** *** FilterNormalizeIntensity.cpp 30-36 *)
  Definition nrm_load (m : Cfg) : Load NormCfg :=
    lreq as_str m "pointcloud_layer" (fun a o => mkNm a (nm_remember o) (nm_fixmin o) (nm_fixmax o)) ;;;
    lopt as_bool m "remember_intensity_range" (fun a o => mkNm (nm_layer o) a (nm_fixmin o) (nm_fixmax o)) ;;;
    lopt as_num m "fixed_minimum_intensity" (fun a o => mkNm (nm_layer o) (nm_remember o) a (nm_fixmax o)) ;;;
    lopt as_num m "fixed_maximum_intensity" (fun a o => mkNm (nm_layer o) (nm_remember o) (nm_fixmin o) a).

  (** *** FilterCurvature.cpp 30-41 *)
  Definition crv_load (m : Cfg) : Load CurvCfg :=
    lreq as_str m "input_pointcloud_layer" (fun a o => mkCv a (cv_large o) (cv_small o) (cv_other o) (cv_max_cosine o) (cv_min_clearance o) (cv_max_gap o)) ;;;
    lreq as_num m "max_cosine" (fun a o => mkCv (cv_in o) (cv_large o) (cv_small o) (cv_other o) a (cv_min_clearance o) (cv_max_gap o)) ;;;
    lreq as_num m "min_clearance" (fun a o => mkCv (cv_in o) (cv_large o) (cv_small o) (cv_other o) (cv_max_cosine o) a (cv_max_gap o)) ;;;
    lreq as_num m "max_gap" (fun a o => mkCv (cv_in o) (cv_large o) (cv_small o) (cv_other o) (cv_max_cosine o) (cv_min_clearance o) a) ;;;
    lopt as_str m "output_layer_larger_curvature" (fun a o => mkCv (cv_in o) a (cv_small o) (cv_other o) (cv_max_cosine o) (cv_min_clearance o) (cv_max_gap o)) ;;;
    lopt as_str m "output_layer_smaller_curvature" (fun a o => mkCv (cv_in o) (cv_large o) a (cv_other o) (cv_max_cosine o) (cv_min_clearance o) (cv_max_gap o)) ;;;
    lopt as_str m "output_layer_other" (fun a o => mkCv (cv_in o) (cv_large o) (cv_small o) a (cv_max_cosine o) (cv_min_clearance o) (cv_max_gap o)).

  (** *** FilterVoxelSlice.cpp 30-38 *)
  Definition slc_load (m : Cfg) : Load (FO (Name * Name)) :=
    lst (lreq as_str m "input_layer" (fun a o => (a, snd o))) ;;;
    lst (lreq as_str m "output_layer" (fun a o => (fst o, a))) ;;;
    freq m "slice_z_min" ;;;
    freq m "slice_z_max".
  Definition slc_of (o : FO (Name * Name)) (mem : string -> Q) (realized : bool) : FMergeModel.SliceCfg :=
    FMergeModel.mkSlice (fst (fo_st o)) (snd (fo_st o)) (mem "slice_z_min") (mem "slice_z_max") realized.

  (** *** FilterPoleDetector.cpp 108-124 *)
  Record PolSt := mkPol { pl_in : Name; pl_poles : Name; pl_nopoles : Name; pl_minpts : nat; pl_minchecks : nat }.
  Definition pol_load (m : Cfg) : Load (FO PolSt) :=
    lst (lreq as_str m "input_pointcloud_layer" (fun a o => mkPol a (pl_poles o) (pl_nopoles o) (pl_minpts o) (pl_minchecks o))) ;;;
    lst (lopt as_str m "output_layer_poles" (fun a o => mkPol (pl_in o) a (pl_nopoles o) (pl_minpts o) (pl_minchecks o))) ;;;
    lst (lopt as_str m "output_layer_no_poles" (fun a o => mkPol (pl_in o) (pl_poles o) a (pl_minpts o) (pl_minchecks o))) ;;;
    lst (lopt as_nat m "minimum_pole_points" (fun a o => mkPol (pl_in o) (pl_poles o) (pl_nopoles o) a (pl_minchecks o))) ;;;
    lst (lopt as_nat m "minimum_neighbors_checks_to_pass" (fun a o => mkPol (pl_in o) (pl_poles o) (pl_nopoles o) (pl_minpts o) a)) ;;;
    freq m "grid_size" ;;;
    freq m "minimum_relative_height" ;;;
    freq m "maximum_relative_height" ;;;
    lst (lassert (fun o => one_output (pl_poles o) (pl_nopoles o))).
  Definition pol_of (o : FO PolSt) (mem : string -> Q) (realized : bool) : PoleModel.PoleCfg :=
    let s := fo_st o in PoleModel.mkPole (pl_in s) (pl_poles s) (pl_nopoles s) (mem "grid_size") (mem "minimum_relative_height")
      (mem "maximum_relative_height") (pl_minpts s) (pl_minchecks s) realized.

  (** *** FilterRemoveByVoxelOccupancy.cpp 32-42 *)
  Record OccSt := mkOcs { os_in : Name; os_vox : Name; os_static : Name; os_dynamic : Name }.
  Definition occ_load (m : Cfg) : Load (FO OccSt) :=
    lst (lreq as_str m "input_pointcloud_layer" (fun a o => mkOcs a (os_vox o) (os_static o) (os_dynamic o))) ;;;
    lst (lreq as_str m "input_voxel_layer" (fun a o => mkOcs (os_in o) a (os_static o) (os_dynamic o))) ;;;
    lst (lopt as_str m "output_layer_static_objects" (fun a o => mkOcs (os_in o) (os_vox o) a (os_dynamic o))) ;;;
    lst (lopt as_str m "output_layer_dynamic_objects" (fun a o => mkOcs (os_in o) (os_vox o) (os_static o) a)) ;;;
    freq m "occupancy_threshold".
  Definition occ_of (o : FO OccSt) (mem : string -> Q) (realized : bool) : OccCfg :=
    let s := fo_st o in mkOcc (os_in s) (os_vox s) (os_static s) (os_dynamic s) (mem "occupancy_threshold") realized.

  (** *** FilterDecimateAdaptive.cpp 31-43 *)
  Record AdaSt := mkAda { da_enabled : bool; da_in : Name; da_out : Name; da_desired : nat; da_bbox : Q; da_maxvox : nat; da_minpts : nat }.
  Definition ada_load (m : Cfg) : Load AdaSt :=
    lopt as_bool m "enabled" (fun a o => mkAda a (da_in o) (da_out o) (da_desired o) (da_bbox o) (da_maxvox o) (da_minpts o)) ;;;
    lopt as_str m "input_pointcloud_layer" (fun a o => mkAda (da_enabled o) a (da_out o) (da_desired o) (da_bbox o) (da_maxvox o) (da_minpts o)) ;;;
    lreq as_str m "output_pointcloud_layer" (fun a o => mkAda (da_enabled o) (da_in o) a (da_desired o) (da_bbox o) (da_maxvox o) (da_minpts o)) ;;;
    lreq as_nat m "desired_output_point_count" (fun a o => mkAda (da_enabled o) (da_in o) (da_out o) a (da_bbox o) (da_maxvox o) (da_minpts o)) ;;;
    lopt as_num m "assumed_minimum_pointcloud_bbox" (fun a o => mkAda (da_enabled o) (da_in o) (da_out o) (da_desired o) a (da_maxvox o) (da_minpts o)) ;;;
    lopt as_nat m "maximum_voxel_count_per_dimension" (fun a o => mkAda (da_enabled o) (da_in o) (da_out o) (da_desired o) (da_bbox o) a (da_minpts o)) ;;;
    lopt as_nat m "minimum_input_points_per_voxel" (fun a o => mkAda (da_enabled o) (da_in o) (da_out o) (da_desired o) (da_bbox o) (da_maxvox o) a).
  Definition ada_of (o : AdaSt) : AdCfg := mkAd (da_enabled o) (da_in o) (da_out o) (da_desired o) (da_minpts o).

  (** *** FilterDecimateVoxelsQuadratic.cpp 30-60; [qi_res], [qi_inv]: the resolution of the grid and the inverse radius, set at the end *)
  Record QuaSt := mkQua { qi_cfg : QuadCfg; qi_res : Q; qi_inv : Q }.
  Definition lqd (f : Load QuadCfg) : Load QuaSt := lpart qi_cfg (fun c o => mkQua c (qi_res o) (qi_inv o)) f.
  Definition qua_load (m : Cfg) : Load QuaSt :=
    lqd (lopt as_str m "input_pointcloud_layer" (fun a o => mkQuad a (qd_error_missing o) (qd_out o) (qd_res o) (qd_radius o) (qd_average o) (qd_closest o) (qd_random o)) ;;;
         lopt as_bool m "error_on_missing_input_layer" (fun a o => mkQuad (qd_in o) a (qd_out o) (qd_res o) (qd_radius o) (qd_average o) (qd_closest o) (qd_random o)) ;;;
         lopt as_bool m "use_random_point_within_voxel" (fun a o => mkQuad (qd_in o) (qd_error_missing o) (qd_out o) (qd_res o) (qd_radius o) (qd_average o) (qd_closest o) a) ;;;
         lreq as_str m "output_pointcloud_layer" (fun a o => mkQuad (qd_in o) (qd_error_missing o) a (qd_res o) (qd_radius o) (qd_average o) (qd_closest o) (qd_random o)) ;;;
         lreq as_num m "voxel_filter_resolution" (fun a o => mkQuad (qd_in o) (qd_error_missing o) (qd_out o) a (qd_radius o) (qd_average o) (qd_closest o) (qd_random o)) ;;;
         lreq as_num m "quadratic_reference_radius" (fun a o => mkQuad (qd_in o) (qd_error_missing o) (qd_out o) (qd_res o) a (qd_average o) (qd_closest o) (qd_random o)) ;;;
         lreq as_bool m "use_voxel_average" (fun a o => mkQuad (qd_in o) (qd_error_missing o) (qd_out o) (qd_res o) (qd_radius o) a (qd_closest o) (qd_random o)) ;;;
         lreq as_bool m "use_closest_to_voxel_average" (fun a o => mkQuad (qd_in o) (qd_error_missing o) (qd_out o) (qd_res o) (qd_radius o) (qd_average o) a (qd_random o))) ;;;
    (fun o => (mkQua (qi_cfg o) (qd_res (qi_cfg o)) (1 / qd_radius (qi_cfg o))%Q, true)).

  (** *** FilterEdgesPlanes.cpp 29-56; [ei_res], [ei_robin]: the configuration of the grid *)
  Record EdgSt := mkEdg { ei_cfg : EdgesCfg; ei_res : Q; ei_robin : bool }.
  Definition leg (f : Load EdgesCfg) : Load EdgSt := lpart ei_cfg (fun c o => mkEdg c (ei_res o) (ei_robin o)) f.
  Definition edg_load (m : Cfg) : Load EdgSt :=
    leg (lopt as_str m "input_pointcloud_layer" (fun a o => mkEdges a (eg_full o) (eg_res o) (eg_robin o) (eg_dec o) (eg_max20 o) (eg_max10 o) (eg_min20 o) (eg_min10 o) (eg_min1 o)) ;;;
         lreq as_num m "voxel_filter_resolution" (fun a o => mkEdges (eg_in o) (eg_full o) a (eg_robin o) (eg_dec o) (eg_max20 o) (eg_max10 o) (eg_min20 o) (eg_min10 o) (eg_min1 o)) ;;;
         lreq as_nat m "voxel_filter_decimation" (fun a o => mkEdges (eg_in o) (eg_full o) (eg_res o) (eg_robin o) a (eg_max20 o) (eg_max10 o) (eg_min20 o) (eg_min10 o) (eg_min1 o)) ;;;
         lopt as_bool m "use_tsl_robin_map" (fun a o => mkEdges (eg_in o) (eg_full o) (eg_res o) a (eg_dec o) (eg_max20 o) (eg_max10 o) (eg_min20 o) (eg_min10 o) (eg_min1 o)) ;;;
         lreq as_nat m "full_pointcloud_decimation" (fun a o => mkEdges (eg_in o) a (eg_res o) (eg_robin o) (eg_dec o) (eg_max20 o) (eg_max10 o) (eg_min20 o) (eg_min10 o) (eg_min1 o)) ;;;
         lreq as_num m "voxel_filter_max_e2_e0" (fun a o => mkEdges (eg_in o) (eg_full o) (eg_res o) (eg_robin o) (eg_dec o) a (eg_max10 o) (eg_min20 o) (eg_min10 o) (eg_min1 o)) ;;;
         lreq as_num m "voxel_filter_max_e1_e0" (fun a o => mkEdges (eg_in o) (eg_full o) (eg_res o) (eg_robin o) (eg_dec o) (eg_max20 o) a (eg_min20 o) (eg_min10 o) (eg_min1 o)) ;;;
         lreq as_num m "voxel_filter_min_e2_e0" (fun a o => mkEdges (eg_in o) (eg_full o) (eg_res o) (eg_robin o) (eg_dec o) (eg_max20 o) (eg_max10 o) a (eg_min10 o) (eg_min1 o)) ;;;
         lreq as_num m "voxel_filter_min_e1_e0" (fun a o => mkEdges (eg_in o) (eg_full o) (eg_res o) (eg_robin o) (eg_dec o) (eg_max20 o) (eg_max10 o) (eg_min20 o) a (eg_min1 o)) ;;;
         lopt as_num m "voxel_filter_min_e1" (fun a o => mkEdges (eg_in o) (eg_full o) (eg_res o) (eg_robin o) (eg_dec o) (eg_max20 o) (eg_max10 o) (eg_min20 o) (eg_min10 o) a)) ;;;
    (fun o => (mkEdg (ei_cfg o) (eg_res (ei_cfg o)) (eg_robin (ei_cfg o)), true)).
End FInit.
