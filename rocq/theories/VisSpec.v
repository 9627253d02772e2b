(** Specification for C312-C319: what the objects shown must be. *)
From Coq Require Import String Reals List.
From Verif Require Import Base GeomModel VisModel.
Import ListNotations.

Section Spec.
Context {Color CMap PlanePose Data : Type}.
Notation Gl := (Gl Color CMap PlanePose Data).
Notation VLayer := (VLayer Data).
Notation LayerP := (@LayerP Color CMap).
Notation ColorMode := (@ColorMode CMap).
Variable plane_pose : Plane -> V3 -> PlanePose.
Variable own : VLayer -> list Gl.
Variable interval : R -> R -> list R -> R -> R * R.

(** A plane is a grid of the given size, spacing and color, at the pose of the plane with origin at its centroid. *)
Definition plane_shown (p : @PlanesP Color) (pc : Plane * V3) (g : Gl) : Prop :=
  g = GGrid (pp_half p) (pp_spacing p) (pp_color p) (plane_pose (fst pc) (snd pc)).
(** A line is a segment along its direction, of the given length, centered at its base point. *)
Definition line_shown (len : R) (l : Line) (s : V3 * V3) : Prop :=
  vscale (1 / 2) (vadd (fst s) (snd s)) = l_base l /\ vsub (snd s) (fst s) = vscale len (l_dir l).

(** Least and greatest value. *)
Definition least (l : list R) (x : R) : Prop := In x l /\ forall y, In y l -> (x <= y)%R.
Definition greatest (l : list R) (x : R) : Prop := In x l /\ forall y, In y l -> (y <= x)%R.
(** The limits of the color map on axis [i]: those given; one not given is the end of the cloud, or of its confidence interval
    if a percentile is set (of the range from the least to the greatest value, widened by 0.1 if all are equal). *)
Definition limits (m : ColorMode) (pts : list V3) (lo hi : R) (i : nat) : Prop :=
  cm_coord m = Some i /\ (i < 3)%nat /\
  ((cm_min m = Some lo /\ cm_max m = Some hi) \/
   ((cm_min m = None \/ cm_max m = None) /\
    exists a b, least (map (coord i) pts) a /\ greatest (map (coord i) pts) b /\
    let auto := match cm_percentile m with
                | Some c => interval a (if Req_EM_T b a then (a + 1 / 10)%R else b) (map (coord i) pts) c
                | None => (a, b)
                end in
    lo = match cm_min m with Some x => x | None => fst auto end /\
    hi = match cm_max m with Some x => x | None => snd auto end)).

(** The cloud a layer is shown as, if it is. *)
Definition shown_points (p : LayerP) (l : VLayer) : option (list V3) :=
  match l with
  | VPoints pts => Some pts
  | VVoxels _ occ _ => if ly_voxels_as_points p then Some occ else None
  | _ => None
  end.
(** Layers drawn by this library, or voxel maps drawn as such; not those left to the map's own renderer. *)
Definition ours (p : LayerP) (l : VLayer) : Prop :=
  match l with
  | VPoints _ => match ly_mode p with Some m => cm_keep m = false | None => True end
  | VVoxels _ _ _ => ly_voxels_as_points p = false \/ match ly_mode p with Some m => cm_keep m = false | None => True end
  | _ => False
  end.
(** What a layer [l] is shown as, with the layer afterwards. *)
Inductive shown (p : LayerP) : VLayer -> VLayer -> list Gl -> Prop :=
| sh_empty l : shown_points p l = Some [] -> shown p l l []
| sh_plain l pts : shown_points p l = Some pts -> pts <> [] -> ly_mode p = None ->
    shown p l l [GCloud pts (ly_size p) (Some (ly_color p))]
| sh_map l pts m lo hi i : shown_points p l = Some pts -> pts <> [] -> ly_mode p = Some m -> limits m pts lo hi i ->
    shown p l l [GColoured pts (ly_size p) (Some (lo, hi, i, cm_map m))]
| sh_voxels rgb occ free : ly_voxels_as_points p = false ->
    shown p (VVoxels rgb occ free) (VVoxels rgb occ (ly_free p)) (own (VVoxels rgb occ (ly_free p))).
(** A layer that needs an axis for its colors and has none. *)
Definition lacks_axis (p : LayerP) (l : VLayer) : Prop :=
  exists pts m, shown_points p l = Some pts /\ pts <> [] /\ ly_mode p = Some m /\
    match cm_coord m with Some i => (3 <= i)%nat | None => True end.
End Spec.
