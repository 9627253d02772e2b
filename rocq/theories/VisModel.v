(** Model of metric_map_t::get_visualization (mp2p_icp_map/src/metricmap.cpp 180-434, render_params.h) and
    Pairings::get_visualization (mp2p_icp/src/Pairings.cpp 176-276).

    Simplifications: real numbers; the opengl objects are their data; mrpt's own renderers, the pose of a plane, and the
    confidence interval of a histogram are parameters; layers do not share their map object. *)
From Coq Require Import String Reals.
From Verif Require Import Base GeomModel.
Open Scope nat_scope.

Section Vis.
Context {Color CMap PlanePose Data : Type}.

(** the opengl objects used: CGridPlaneXY, CSetOfLines, CPointCloud, CPointCloudColoured, CTexturedPlane, any other.
    A cloud made by mrpt's own renderer has its colors given by mrpt ([None]). *)
Inductive Gl :=
| GGrid (half spacing : R) (color : Color) (pose : PlanePose)
| GLines (color : Color) (segs : list (V3 * V3))
| GCloud (pts : list V3) (size : R) (color : option Color)
| GColoured (pts : list V3) (size : R) (how : option (R * R * nat * CMap))
| GPatch (half : R) (color : Color) (pose : PlanePose)
| GOther (d : Data).

(** render_params.h *)
Record PlanesP := mkPlanesP { pp_visible : bool; pp_half : R; pp_spacing : R; pp_color : Color }.
Record LinesP := mkLinesP { lp_visible : bool; lp_color : Color; lp_length : R; lp_lengths : option (list R) }.
Record ColorMode := mkCM {
  cm_keep : bool; cm_map : CMap; cm_coord : option nat; cm_min : option R; cm_max : option R; cm_percentile : option R }.
Record LayerP := mkLayerP { ly_size : R; ly_color : Color; ly_mode : option ColorMode; ly_voxels_as_points : bool; ly_free : bool }.
Record PointsP := mkPointsP { po_visible : bool; po_all : LayerP; po_per : list (string * LayerP) }.
Record RenderP := mkRenderP { rp_planes : PlanesP; rp_lines : LinesP; rp_points : PointsP }.

(** a layer: point cloud; CVoxelMap or CVoxelMapRGB with its occupied voxels and the option generateFreeVoxels; any
    other class; null pointer *)
Inductive VLayer := VPoints (l : list V3) | VVoxels (rgb : bool) (occupied : list V3) (free : bool) | VOther (d : Data) | VNull.

(** plane.getAsPose3DForcingOrigin(centroid) *)
Variable plane_pose : Plane -> V3 -> PlanePose.
(** CMetricMap::getVisualizationInto(): what it inserts *)
Variable own : VLayer -> list Gl.
(** CHistogram(lo, hi, 100), add() of the values, and confidenceIntervalsFromHistogram() *)
Variable interval : R -> R -> list R -> R -> R * R.

(** metricmap.cpp 194-217 *)
Definition vis_planes (planes : list (Plane * V3)) (p : PlanesP) : list Gl :=
  if pp_visible p then map (fun pc => GGrid (pp_half p) (pp_spacing p) (pp_color p) (plane_pose (fst pc) (snd pc))) planes else [].
(** metricmap.cpp 219-238 *)
Definition vis_lines (lines : list Line) (p : LinesP) : list Gl :=
  [GLines (lp_color p) (map (fun l => let half := vscale (1 / 2 * lp_length p)%R (l_dir l) in
                                      (vsub (l_base l) half, vadd (l_base l) half)) lines)].

Definition coord (i : nat) (v : V3) : R := match i with 0 => vx v | 1 => vy v | _ => vz v end.
(** CPointsMap::boundingBox() of a cloud with points *)
Definition bb_min (i : nat) (l : list V3) : R := match l with [] => 0%R | a :: r => fold_left Rmin (map (coord i) r) (coord i a) end.
Definition bb_max (i : nat) (l : list V3) : R := match l with [] => 0%R | a :: r => fold_left Rmax (map (coord i) r) (coord i a) end.

(** metricmap.cpp 348-416: the limits and axis; Throw: an assertion *)
Definition color_limits (m : ColorMode) (pts : list V3) : res (R * R * nat) :=
  let auto_bb := match cm_min m, cm_max m with Some _, Some _ => false | _, _ => true end in
  match cm_coord m with
  | None => Throw
  | Some i =>
    if negb (Nat.ltb i 3) then Throw else
    let min := if auto_bb then bb_min i pts else 0%R in
    let max := if auto_bb then bb_max i pts else 0%R in
    let '(min, max) := match auto_bb, cm_percentile m with
      | true, Some c =>
        let hi := if Req_EM_T max min then (min + 1 / 10)%R else max in
        interval min hi (map (coord i) pts) c
      | _, _ => (min, max)
      end in
    Ok (match cm_min m with Some x => x | None => min end, match cm_max m with Some x => x | None => max end, i)
  end.

(** CSetOfObjects::getByClass<CPointCloudColoured>() and setPointSize() on it; [None]: there is none *)
Fixpoint size_first_coloured (o : list Gl) (s : R) : option (list Gl) :=
  match o with
  | [] => None
  | GColoured p _ h :: r => Some (GColoured p s h :: r)
  | g :: r => match size_first_coloured r s with Some r' => Some (g :: r') | None => None end
  end.
Fixpoint size_first_cloud (o : list Gl) (s : R) : option (list Gl) :=
  match o with
  | [] => None
  | GCloud p _ c :: r => Some (GCloud p s c :: r)
  | g :: r => match size_first_cloud r s with Some r' => Some (g :: r') | None => None end
  end.
(** metricmap.cpp 321-334 *)
Definition apply_size (o : list Gl) (s : R) : list Gl :=
  match size_first_coloured o s with
  | Some o' => o'
  | None => match size_first_cloud o s with Some o' => o' | None => o end
  end.

(** metricmap.cpp 277-433: the objects so far [o]; gives the layer (its options may have changed) and the objects *)
Definition vis_layer (o : list Gl) (p : LayerP) (l : VLayer) : res (VLayer * list Gl) :=
  let points (l : VLayer) (pts : option (list V3)) : res (VLayer * list Gl) :=
    let keep := match ly_mode p with Some m => cm_keep m | None => false end in
    match pts, keep with
    | None, _ | _, true =>
      match l with VNull => UB | _ => Ok (l, apply_size (o ++ own l) (ly_size p)) end
    | Some [], _ => Ok (l, o)
    | Some pts, _ =>
      match ly_mode p with
      | Some m => let* lim := color_limits m pts in
                  Ok (l, o ++ [GColoured pts (ly_size p) (Some (fst (fst lim), snd (fst lim), snd lim, cm_map m))])
      | None => Ok (l, o ++ [GCloud pts (ly_size p) (Some (ly_color p))])
      end
    end in
  match l with
  | VVoxels rgb occ free =>
    if ly_voxels_as_points p then points l (Some occ)
    else let l' := VVoxels rgb occ (ly_free p) in Ok (l', o ++ own l')
  | VPoints pts => points l (Some pts)
  | _ => points l None
  end.

Definition VLayers := list (string * VLayer).
Fixpoint v_find (m : VLayers) (k : string) : option VLayer :=
  match m with [] => None | (n, l) :: r => if String.eqb n k then Some l else v_find r k end.
Fixpoint v_set (m : VLayers) (k : string) (l : VLayer) : VLayers :=
  match m with [] => [] | (n, x) :: r => if String.eqb n k then (n, l) :: r else (n, x) :: v_set r k l end.

(** metricmap.cpp 249-265: only the layers with parameters *)
Fixpoint vis_per (o : list Gl) (per : list (string * LayerP)) (m : VLayers) : res (VLayers * list Gl) :=
  match per with
  | [] => Ok (m, o)
  | (k, p) :: r =>
    match v_find m k with
    | None => Throw
    | Some l => let* lo := vis_layer o p l in vis_per (snd lo) r (v_set m k (fst lo))
    end
  end.
(** metricmap.cpp 267-274 *)
Fixpoint vis_all (o : list Gl) (p : LayerP) (m : VLayers) : res (VLayers * list Gl) :=
  match m with
  | [] => Ok ([], o)
  | (k, l) :: r => let* lo := vis_layer o p l in let* ro := vis_all (snd lo) p r in Ok ((k, fst lo) :: fst ro, snd ro)
  end.
Definition vis_points (o : list Gl) (p : PointsP) (m : VLayers) : res (VLayers * list Gl) :=
  if negb (po_visible p) then Ok (m, o)
  else match po_per p with [] => vis_all o (po_all p) m | per => vis_per o per m end.

(** metricmap.cpp 180-192 *)
Definition get_visualization (planes : list (Plane * V3)) (lines : list Line) (m : VLayers) (p : RenderP) : res (VLayers * list Gl) :=
  vis_points (vis_planes planes (rp_planes p) ++ vis_lines lines (rp_lines p)) (rp_points p) m.

(** ** Pairings *)
Record PairP := mkPairP {
  pr_pt2pt : bool; pr_pt2pt_color : Color;
  pr_pt2pl : bool; pr_pt2pl_segment : Color; pr_pt2pl_patch : Color; pr_pt2pl_size : R;
  pr_pt2ln : bool; pr_pt2ln_segment : Color; pr_pt2ln_line : Color; pr_pt2ln_length : R }.
(** Pairings.h: point-point (global, local), point-plane (plane, centroid, point), point-line; the other kinds *)
Record VPairs {Ln2Ln Pl2Pl : Type} := mkVP {
  vp_pt2pt : list (V3 * V3); vp_pt2pl : list (Plane * V3 * V3); vp_pt2ln : list (Line * V3);
  vp_ln2ln : list Ln2Ln; vp_pl2pl : list Pl2Pl }.
Arguments VPairs : clear implicits.
(** CPose3D::translation() of the pose of a plane *)
Variable origin : PlanePose -> V3.

(** Pairings.cpp 191-208 *)
Definition vis_pt2pt (l : list (V3 * V3)) (T : Pose) (p : PairP) : list Gl :=
  if pr_pt2pt p then [GLines (pr_pt2pt_color p) (map (fun gl => (compose T (snd gl), fst gl)) l)] else [].
(** Pairings.cpp 210-243 *)
Definition vis_pt2pl (l : list (Plane * V3 * V3)) (T : Pose) (p : PairP) : list Gl :=
  if pr_pt2pl p then
    map (fun x => GPatch (1 / 2 * pr_pt2pl_size p)%R (pr_pt2pl_patch p) (plane_pose (fst (fst x)) (snd (fst x)))) l ++
    [GLines (pr_pt2pl_segment p) (map (fun x => (compose T (snd x), origin (plane_pose (fst (fst x)) (snd (fst x))))) l)]
  else [].
(** Pairings.cpp 245-276 *)
Definition vis_pt2ln (l : list (Line * V3)) (T : Pose) (p : PairP) : list Gl :=
  if pr_pt2ln p then
    [GLines (pr_pt2ln_segment p) (map (fun x => (compose T (snd x), l_base (fst x))) l);
     GLines (pr_pt2ln_line p) (map (fun x => let half := vscale (1 / 2 * pr_pt2ln_length p)%R (l_dir (fst x)) in
                                            (vsub (l_base (fst x)) half, vadd (l_base (fst x)) half)) l)]
  else [].
(** Pairings.cpp 176-189 *)
Definition pairs_visualization {A B} (ps : VPairs A B) (T : Pose) (p : PairP) : list Gl :=
  vis_pt2pt (vp_pt2pt ps) T p ++ vis_pt2pl (vp_pt2pl ps) T p ++ vis_pt2ln (vp_pt2ln ps) T p.
End Vis.
Arguments Gl : clear implicits.
Arguments VLayer : clear implicits.
Arguments VLayers : clear implicits.
Arguments VPairs : clear implicits.
