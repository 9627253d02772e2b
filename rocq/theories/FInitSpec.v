(** What the configuration of a filter means, in terms of its entries. *)
From Coq Require Import String.
From Verif Require Import Base ConfigModel ConfigSpec FilterModel VoxelModel CurvModel QuadModel EdgesModel InitModel InitSpec FInitModel.
Open Scope string_scope.
Open Scope list_scope.

Section FInitSpec.
  Variables (as_bool : yml -> option bool) (as_str : yml -> option string) (as_num : yml -> option Q)
            (as_nat : yml -> option nat) (as_int : yml -> option Z) (as_dm : yml -> option DMethod) (as_tm : yml -> option TMethod).
  Notation Cfg := (list (string * yml)).

  Definition Scalar (y : yml) : Prop := match y with YB _ | YQ _ | YT _ => True | _ => False end.
  (** the entry is one value or a sequence of values: these *)
  Definition Values {A} (conv : yml -> option A) (m : Cfg) (k : string) (l : list A) : Prop :=
    exists y, yfind m k = Some y /\
      ((Scalar y /\ exists a, conv y = Some a /\ l = [a]) \/ exists ys, y = YSeq ys /\ Forall2 (fun y a => conv y = Some a) ys l).
  (** the entry is a sequence of formulas: these *)
  Definition Formulas (m : Cfg) (k : string) (l : list string) : Prop :=
    exists ys, yfind m k = Some (YSeq ys) /\ Forall2 (fun y t => as_str y = Some t) ys l.
  (** an optional entry that, once given, has a value *)
  Definition GivenSome {A} (conv : yml -> option A) (m : Cfg) (k : string) (old new : option A) : Prop :=
    (yfind m k = None /\ new = old) \/ exists a, Given conv m k a /\ new = Some a.

  (** the formulas have been evaluated: every variable has the value of its formula *)
  Definition Evaluated (value : string -> Q) (fs : Forms) (mem : string -> Q) : Prop :=
    forall c t, In (c, Some t) fs -> mem c = value t.

  Definition LoadedDec (m : Cfg) (o n : FO DecSt) : Prop :=
    let a := fo_st o in let b := fo_st n in
    Values as_str m "input_pointcloud_layer" (ds_ins b) /\ ds_ins b <> []
    /\ GivenOr as_bool m "error_on_missing_input_layer" (ds_err a) (ds_err b)
    /\ Given as_dm m "decimate_method" (ds_method b)
    /\ Given as_str m "output_pointcloud_layer" (ds_out b)
    /\ GivenOr as_nat m "minimum_input_points_to_filter" (ds_min a) (ds_min b)
    /\ (exists t, Given as_str m "voxel_filter_resolution" t /\ fo_forms n = fo_forms o ++ [("voxel_filter_resolution", Some t)])
    /\ GivenOr as_bool m "use_tsl_robin_map" (ds_robin a) (ds_robin b)
    /\ GivenSome as_num m "flatten_to" (ds_flatten a) (ds_flatten b)
    /\ (ds_grid b = Some true <-> ds_method b = FirstPoint) /\ (ds_grid b = Some false <-> ds_method b <> FirstPoint).

  Definition LoadedDel (m : Cfg) (o n : DelSt) : Prop :=
    Values as_str m "pointcloud_layer_to_remove" (dl_names n) /\ dl_names n <> []
    /\ GivenOr as_bool m "error_on_missing_input_layer" (dl_err o) (dl_err n).

  (** [ids]: the numbers listed, in order *)
  Definition LoadedRing (m : Cfg) (ids : list Z) (o n : RingCfg) : Prop :=
    Given as_str m "input_pointcloud_layer" (ri_in n)
    /\ GivenOr as_str m "output_layer_selected" (ri_sel o) (ri_sel n)
    /\ GivenOr as_str m "output_layer_non_selected" (ri_non o) (ri_non n)
    /\ Values as_int m "selected_ring_ids" ids /\ ids <> []
    /\ NoDup (ri_ids n) /\ (forall z, In z (ri_ids n) <-> In z ids).

  Definition LoadedBox (m : Cfg) (o n : FO BoxSt) : Prop :=
    let a := fo_st o in let b := fo_st n in
    GivenOr as_str m "input_pointcloud_layer" (bx_in a) (bx_in b)
    /\ GivenOr as_str m "inside_pointcloud_layer" (bx_inside a) (bx_inside b)
    /\ GivenOr as_str m "outside_pointcloud_layer" (bx_outside a) (bx_outside b)
    /\ (bx_inside b <> "" \/ bx_outside b <> "")
    /\ exists x0 y0 z0 x1 y1 z1, Formulas m "bounding_box_min" [x0; y0; z0] /\ Formulas m "bounding_box_max" [x1; y1; z1]
       /\ fo_forms n = fo_forms o ++ [("min[0]", Some x0); ("max[0]", Some x1); ("min[1]", Some y0); ("max[1]", Some y1); ("min[2]", Some z0); ("max[2]", Some z1)].

  Definition LoadedRange (m : Cfg) (o n : FO RngSt) : Prop :=
    let a := fo_st o in let b := fo_st n in
    Given as_str m "input_pointcloud_layer" (rn_in b)
    /\ GivenOr as_str m "output_layer_between" (rn_between a) (rn_between b)
    /\ GivenOr as_str m "output_layer_outside" (rn_outside a) (rn_outside b)
    /\ (rn_between b <> "" \/ rn_outside b <> "")
    /\ exists lo hi ce, Given as_str m "range_min" lo /\ Given as_str m "range_max" hi
       /\ ((yfind m "center" = None /\ ce = []) \/ exists x y z, Formulas m "center" [x; y; z] /\ ce = [("center[0]", Some x); ("center[1]", Some y); ("center[2]", Some z)])
       /\ fo_forms n = fo_forms o ++ [("range_min", Some lo); ("range_max", Some hi)] ++ ce.

  Definition LoadedMerge (m : Cfg) (o n : FO MrgSt) : Prop :=
    let a := fo_st o in let b := fo_st n in
    Given as_str m "input_pointcloud_layer" (mg_in b)
    /\ Given as_str m "target_layer" (mg_target b)
    /\ GivenOr as_bool m "input_layer_in_local_coordinates" (mg_local a) (mg_local b)
    /\ ((yfind m "robot_pose" = None /\ fo_forms n = fo_forms o)
        \/ exists x y z w p r, Formulas m "robot_pose" [x; y; z; w; p; r]
           /\ fo_forms n = fo_forms o ++ [("x", Some x); ("y", Some y); ("z", Some z); ("yaw", Some w); ("pitch", Some p); ("roll", Some r)]).

  Definition LoadedDeskew (m : Cfg) (o n : FO DskSt) : Prop :=
    let a := fo_st o in let b := fo_st n in
    Given as_str m "input_pointcloud_layer" (dw_in b)
    /\ Given as_str m "output_pointcloud_layer" (dw_out b)
    /\ GivenOr as_bool m "silently_ignore_no_timestamps" (dw_silent a) (dw_silent b)
    /\ GivenOr as_str m "output_layer_class" (dw_class a) (dw_class b)
    /\ GivenOr as_bool m "skip_deskew" (dw_skip a) (dw_skip b)
    /\ GivenOr as_bool m "use_precise_local_velocities" (dw_precise a) (dw_precise b)
    /\ ((yfind m "twist" = None /\ dw_twist b = dw_twist a /\ fo_forms n = fo_forms o)
        \/ exists v1 v2 v3 w1 w2 w3, Formulas m "twist" [v1; v2; v3; w1; w2; w3] /\ dw_twist b = true
           /\ fo_forms n = fo_forms o ++ [("vx", Some v1); ("vy", Some v2); ("vz", Some v3); ("wx", Some w1); ("wy", Some w2); ("wz", Some w3)]).

  Definition LoadedIntensity (m : Cfg) (o n : IntCfg) : Prop :=
    Given as_str m "input_pointcloud_layer" (in_in n)
    /\ GivenOr as_str m "output_layer_low_intensity" (in_low o) (in_low n)
    /\ GivenOr as_str m "output_layer_high_intensity" (in_high o) (in_high n)
    /\ GivenOr as_str m "output_layer_mid_intensity" (in_mid o) (in_mid n)
    /\ (in_low n <> "" \/ in_mid n <> "")
    /\ Given as_num m "low_threshold" (in_lowT n) /\ Given as_num m "high_threshold" (in_highT n).

  Definition LoadedTime (m : Cfg) (o n : FO TimSt) : Prop :=
    let b := fo_st n in
    Given as_str m "pointcloud_layer" (ti_layer b) /\ Given as_tm m "method" (ti_method b)
    /\ Given as_bool m "silently_ignore_no_timestamps" (ti_ignore b)
    /\ exists t, ((yfind m "time_offset" = None /\ t = None) \/ exists x, Given as_str m "time_offset" x /\ t = Some x)
       /\ fo_forms n = fo_forms o ++ [("time_offset", t)].

  Definition LoadedNorm (m : Cfg) (o n : NormCfg) : Prop :=
    Given as_str m "pointcloud_layer" (nm_layer n)
    /\ GivenOr as_bool m "remember_intensity_range" (nm_remember o) (nm_remember n)
    /\ GivenOr as_num m "fixed_minimum_intensity" (nm_fixmin o) (nm_fixmin n)
    /\ GivenOr as_num m "fixed_maximum_intensity" (nm_fixmax o) (nm_fixmax n).

  Definition LoadedCurvature (m : Cfg) (o n : CurvCfg) : Prop :=
    Given as_str m "input_pointcloud_layer" (cv_in n)
    /\ Given as_num m "max_cosine" (cv_max_cosine n) /\ Given as_num m "min_clearance" (cv_min_clearance n) /\ Given as_num m "max_gap" (cv_max_gap n)
    /\ GivenOr as_str m "output_layer_larger_curvature" (cv_large o) (cv_large n)
    /\ GivenOr as_str m "output_layer_smaller_curvature" (cv_small o) (cv_small n)
    /\ GivenOr as_str m "output_layer_other" (cv_other o) (cv_other n).

  Definition LoadedSlice (m : Cfg) (o n : FO (Name * Name)) : Prop :=
    Given as_str m "input_layer" (fst (fo_st n)) /\ Given as_str m "output_layer" (snd (fo_st n))
    /\ exists lo hi, Given as_str m "slice_z_min" lo /\ Given as_str m "slice_z_max" hi
       /\ fo_forms n = fo_forms o ++ [("slice_z_min", Some lo); ("slice_z_max", Some hi)].

  Definition LoadedPole (m : Cfg) (o n : FO PolSt) : Prop :=
    let a := fo_st o in let b := fo_st n in
    Given as_str m "input_pointcloud_layer" (pl_in b)
    /\ GivenOr as_str m "output_layer_poles" (pl_poles a) (pl_poles b)
    /\ GivenOr as_str m "output_layer_no_poles" (pl_nopoles a) (pl_nopoles b)
    /\ (pl_poles b <> "" \/ pl_nopoles b <> "")
    /\ GivenOr as_nat m "minimum_pole_points" (pl_minpts a) (pl_minpts b)
    /\ GivenOr as_nat m "minimum_neighbors_checks_to_pass" (pl_minchecks a) (pl_minchecks b)
    /\ exists g lo hi, Given as_str m "grid_size" g /\ Given as_str m "minimum_relative_height" lo /\ Given as_str m "maximum_relative_height" hi
       /\ fo_forms n = fo_forms o ++ [("grid_size", Some g); ("minimum_relative_height", Some lo); ("maximum_relative_height", Some hi)].

  Definition LoadedOcc (m : Cfg) (o n : FO OccSt) : Prop :=
    let a := fo_st o in let b := fo_st n in
    Given as_str m "input_pointcloud_layer" (os_in b) /\ Given as_str m "input_voxel_layer" (os_vox b)
    /\ GivenOr as_str m "output_layer_static_objects" (os_static a) (os_static b)
    /\ GivenOr as_str m "output_layer_dynamic_objects" (os_dynamic a) (os_dynamic b)
    /\ exists t, Given as_str m "occupancy_threshold" t /\ fo_forms n = fo_forms o ++ [("occupancy_threshold", Some t)].

  Definition LoadedAda (m : Cfg) (o n : AdaSt) : Prop :=
    GivenOr as_bool m "enabled" (da_enabled o) (da_enabled n)
    /\ GivenOr as_str m "input_pointcloud_layer" (da_in o) (da_in n)
    /\ Given as_str m "output_pointcloud_layer" (da_out n)
    /\ Given as_nat m "desired_output_point_count" (da_desired n)
    /\ GivenOr as_num m "assumed_minimum_pointcloud_bbox" (da_bbox o) (da_bbox n)
    /\ GivenOr as_nat m "maximum_voxel_count_per_dimension" (da_maxvox o) (da_maxvox n)
    /\ GivenOr as_nat m "minimum_input_points_per_voxel" (da_minpts o) (da_minpts n).

  (** the grid has the resolution of the configuration, and the reference radius is inverted *)
  Definition LoadedQuad (m : Cfg) (o n : QuaSt) : Prop :=
    let a := qi_cfg o in let b := qi_cfg n in
    GivenOr as_str m "input_pointcloud_layer" (qd_in a) (qd_in b)
    /\ GivenOr as_bool m "error_on_missing_input_layer" (qd_error_missing a) (qd_error_missing b)
    /\ GivenOr as_bool m "use_random_point_within_voxel" (qd_random a) (qd_random b)
    /\ Given as_str m "output_pointcloud_layer" (qd_out b)
    /\ Given as_num m "voxel_filter_resolution" (qd_res b) /\ Given as_num m "quadratic_reference_radius" (qd_radius b)
    /\ Given as_bool m "use_voxel_average" (qd_average b) /\ Given as_bool m "use_closest_to_voxel_average" (qd_closest b)
    /\ qi_res n = qd_res b /\ qi_inv n = (1 / qd_radius b)%Q.

  Definition LoadedEdges (m : Cfg) (o n : EdgSt) : Prop :=
    let a := ei_cfg o in let b := ei_cfg n in
    GivenOr as_str m "input_pointcloud_layer" (eg_in a) (eg_in b)
    /\ Given as_num m "voxel_filter_resolution" (eg_res b) /\ Given as_nat m "voxel_filter_decimation" (eg_dec b)
    /\ GivenOr as_bool m "use_tsl_robin_map" (eg_robin a) (eg_robin b)
    /\ Given as_nat m "full_pointcloud_decimation" (eg_full b)
    /\ Given as_num m "voxel_filter_max_e2_e0" (eg_max20 b) /\ Given as_num m "voxel_filter_max_e1_e0" (eg_max10 b)
    /\ Given as_num m "voxel_filter_min_e2_e0" (eg_min20 b) /\ Given as_num m "voxel_filter_min_e1_e0" (eg_min10 b)
    /\ GivenOr as_num m "voxel_filter_min_e1" (eg_min1 a) (eg_min1 b)
    /\ ei_res n = eg_res b /\ ei_robin n = eg_robin b.
End FInitSpec.
