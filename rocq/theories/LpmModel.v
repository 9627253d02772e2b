(** Model of the wrapper of libpointmatcher: mp2p_icp/src/ICP_LibPointmatcher.cpp 51-225 (built with
    MP2P_HAS_LIBPOINTMATCHER), with the parts of metric_map_t it uses (metricmap.cpp 437, 534-555, 750-766).

    Simplifications: real numbers; libpointmatcher (its settings text included), RigidTransformation's
    check, the quality evaluators and the text form of a number are parameters; the messages and the
    prior (which the code never reads) are left out. *)
From Coq Require Import String Reals.
From Verif Require Import Base CovModel GeomModel SmCliModel.
Open Scope nat_scope.

(** layers, as dynamic_cast sees them: CPointsMap; CVoxelMap or CVoxelMapRGB, with its occupied voxels
    ([None]: getOccupiedVoxels() is null); any other class; a null pointer *)
Inductive PLayer := PPoints (l : list V3) | PVoxels (l : option (list V3)) | POther | PNull.
Record PMap := mkPM { pm_layers : list (string * PLayer); pm_lines : nat; pm_planes : nat }.

(** metricmap.cpp 437 *)
Definition pm_empty (m : PMap) : bool :=
  match pm_layers m with [] => Nat.eqb (pm_lines m) 0 && Nat.eqb (pm_planes m) 0 | _ => false end.
(** metricmap.cpp 544-555: only CPointsMap layers count *)
Fixpoint pm_points_only (l : list (string * PLayer)) : nat :=
  match l with
  | [] => 0
  | (_, PPoints p) :: r => List.length p + pm_points_only r
  | _ :: r => pm_points_only r
  end.
(** metricmap.cpp 534-543 *)
Definition pm_size (m : PMap) : nat := pm_lines m + pm_planes m + pm_points_only (pm_layers m).

(** mrpt::poses::CPose3D of a TPose3D with zeros *)
Definition id_pose : Pose := mkPose (mkV 1 0 0) (mkV 0 1 0) (mkV 0 0 1) (mkV 0 0 0).

Section Lpm.
(** "%f" and reading the text back *)
Variable fmt : R -> R.
(** TransformationsImpl<double>::RigidTransformation::checkParameters() *)
Variable rigid : Pose -> bool.
(** icp.loadFromYaml(settings) and icp(reading, reference): [Ok None]: PM::ConvergenceError, [Throw]: any other exception *)
Variable matcher : string -> list V3 -> list V3 -> res (option Pose).
(** the condition variable 0 of the first transformation checker; [None]: there is no checker *)
Variable checker0 : string -> list V3 -> list V3 -> option nat.
(** evaluate_quality() with the evaluators of this object, for these maps, without pairings *)
Variable quality : PMap -> PMap -> Pose -> res Q.
Context {PtPt PtLn LnLn PtPl PlPl Mat : Type}.
Variable f_pt2pt : PtPt -> Pose -> E3 R.
Variable f_pt2ln : PtLn -> Pose -> E3 R.
Variable f_ln2ln : LnLn -> Pose -> E4 R.
Variable f_pt2pl : PtPl -> Pose -> E3 R.
Variable f_pl2pl : PlPl -> Pose -> E3 R.
Variable fallback : Mat.
Variable estimate : (Pose -> res (list (option R))) -> Pose -> res Mat.
Notation Pairs := (CPairs PtPt PtLn LnLn PtPl PlPl).
Definition no_pairs : Pairs := mkCP [] [] [] [] [].

(** lines 53-76: pointsToPM() *)
Definition fmt3 (v : V3) : V3 := mkV (fmt (vx v)) (fmt (vy v)) (fmt (vz v)).
Fixpoint points_to_pm (l : list (string * PLayer)) : res (list V3) :=
  match l with
  | [] => Ok []
  | (_, PNull) :: _ => UB
  | (_, ly) :: r =>
    let here := match ly with PPoints p => map fmt3 p | PVoxels (Some p) => map fmt3 p | _ => [] end in
    let* rest := points_to_pm r in Ok (here ++ rest)
  end.

Inductive Reason := Undefined | NoPairings | SolverError | MaxIterations | Stalled | QualityCheckpointFailed | HookRequest.
(** Results.h 29-58 *)
Record LResult := mkLR {
  lr_pose : Pose; lr_cov : option Mat; lr_scale : R; lr_iterations : nat; lr_reason : Reason; lr_quality : Q; lr_pairs : Pairs }.
Definition new_result : LResult := mkLR id_pose None 1 0 Undefined 0 no_pairs.
(** LogRecord.h *)
Record LLog (Params : Type) := mkLL {
  ll_global : PMap; ll_local : PMap; ll_guess : Pose; ll_params : Params; ll_result : LResult }.
Arguments mkLL {Params}.
Arguments ll_global {Params}.
Arguments ll_local {Params}.
Arguments ll_guess {Params}.
Arguments ll_params {Params}.
Arguments ll_result {Params}.

(** lines 79-84: the text of the `derived` section *)
Definition lpm_initialize (yaml_text : string) : string := yaml_text.

(** lines 86-225.  [settings]: pm_icp_yaml_settings_; [debug_files]: Parameters::generateDebugFiles;
    [want]: outputDebugInfo.has_value().  Gives the result, the record handed to the caller, and the record
    handed to save_log_file(), which writes nothing unless generateDebugFiles. *)
Definition lpm_align {Params} (debug_files : Params -> bool) (settings : string) (local global : PMap) (guess : Pose)
    (p : Params) (want : bool) : res (LResult * option (LLog Params) * option (LLog Params)) :=
  if negb (Nat.eqb (List.length (pm_layers local)) (List.length (pm_layers global))) then Throw else
  if pm_empty local || pm_empty global then Throw else
  if String.eqb settings EmptyString then Throw else
  let optimalPose := guess in
  let result := new_result in
  if Nat.eqb (pm_size local) 0 then Throw else
  if Nat.eqb (pm_size global) 0 then Throw else
  let* ptsLocal := points_to_pm (pm_layers local) in
  let* ptsGlobal := points_to_pm (pm_layers global) in
  if Nat.eqb (List.length ptsLocal) 0 then Throw else
  if Nat.eqb (List.length ptsGlobal) 0 then Throw else
  let initTransfo := if rigid guess then guess else id_pose in
  let ptsLocalTf := map (compose initTransfo) ptsLocal in
  let* out := matcher settings ptsLocalTf ptsGlobal in
  let '(optimalPose, q0) := match out with
    | Some T => (pose_mul guess T, lr_quality result)
    | None => (optimalPose, 0%Q)
    end in
  let its := match checker0 settings ptsLocalTf ptsGlobal with Some n => n | None => 1 end in
  let result := mkLR (lr_pose result) (lr_cov result) (lr_scale result) its (lr_reason result) q0 (lr_pairs result) in
  let* q := quality global local optimalPose in
  let result := mkLR optimalPose (lr_cov result) 1 (lr_iterations result) Stalled q (lr_pairs result) in
  let* c := covariance f_pt2pt f_pt2ln f_ln2ln f_pt2pl f_pl2pl fallback estimate (lr_pairs result) (lr_pose result) in
  let result := mkLR (lr_pose result) (Some c) (lr_scale result) (lr_iterations result) (lr_reason result) (lr_quality result) (lr_pairs result) in
  let log := if want || debug_files p then Some (mkLL global local guess p result) else None in
  let saved := match log with Some l => if debug_files p then Some l else None | None => None end in
  let given := match log with Some l => if want then Some l else None | None => None end in
  Ok (result, given, saved).
End Lpm.
