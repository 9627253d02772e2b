(** Models of FilterMerge and FilterVoxelSlice.
    Sources: /repo/mp2p_icp_filters/src/FilterMerge.cpp and FilterVoxelSlice.cpp.
    Simplifications of FilterModel apply.  Poses are a rotation matrix and a translation
    with exact rational entries.  CMetricMap::insertObservation, COccupancyGridMap2D and
    CVoxelMap are of mrpt: what they do is an argument of the model. *)
From Coq Require Import String Qround.
From Verif Require Import Base FilterModel.
Open Scope string_scope.
Open Scope Q_scope.
Open Scope list_scope.

(** mrpt::poses::CPose3D: rows of the rotation matrix, translation *)
Record Q3 := mkQ3 { q1 : Q; q2 : Q; q3 : Q }.
Record QPose := mkQPose { r1 : Q3; r2 : Q3; r3 : Q3; qt : Q3 }.
Definition dot3 (a b : Q3) : Q := q1 a * q1 b + q2 a * q2 b + q3 a * q3 b.
(** mrpt CPose3D::composePoint *)
Definition qcompose (T : QPose) (p : Q3) : Q3 :=
  mkQ3 (dot3 (r1 T) p + q1 (qt T)) (dot3 (r2 T) p + q2 (qt T)) (dot3 (r3 T) p + q3 (qt T)).
(** mrpt operator-(CPose3D): the inverse, with the transposed matrix *)
Definition qinverse (T : QPose) : QPose :=
  let a := mkQ3 (q1 (r1 T)) (q1 (r2 T)) (q1 (r3 T)) in
  let b := mkQ3 (q2 (r1 T)) (q2 (r2 T)) (q2 (r3 T)) in
  let c := mkQ3 (q3 (r1 T)) (q3 (r2 T)) (q3 (r3 T)) in
  mkQPose a b c (mkQ3 (- dot3 a (qt T)) (- dot3 b (qt T)) (- dot3 c (qt T))).
Definition qidentity : QPose := mkQPose (mkQ3 1 0 0) (mkQ3 0 1 0) (mkQ3 0 0 1) (mkQ3 0 0 0).

Definition q3_of (p : Pt) : Q3 := mkQ3 (px p) (py p) (pz p).
Definition pt_of (q : Q3) : Pt := mkPt (q1 q) (q2 q) (q3 q) 0 0%Z 0.

(** ** FilterMerge *)
(** FilterMerge.h 60-80 *)
Record MergeCfg := mkMerge { me_in : Name; me_target : Name; me_local : bool; me_pose : QPose;
  me_realized : bool }.

(** mrpt CSimplePointsMap::insertAnotherMap on an empty cloud: the points, transformed, no
    channels *)
Definition as_seen (T : QPose) (l : list Pt) : list Pt :=
  map (fun p => pt_of (qcompose T (q3_of p))) l.

(** FilterMerge.cpp 62-111.  [insert_obs target points pose]: what the target's
    insertObservation() makes of it.  A null target pointer is dereferenced (line 108). *)
Definition filter_merge (insert_obs : Layer -> list Pt -> QPose -> Layer) (c : MergeCfg) : M unit :=
  do _ <- massert (me_realized c);
  fun m =>
    match lfind m (me_in c) with
    | None | Some LNull => throw m
    | Some l =>
      match map_to_points l with
      | None => throw m
      | Some pc =>
        if String.eqb (me_target c) "" then throw m
        else match lfind m (me_target c) with
             | None => throw m
             | Some LNull => ubm m
             | Some tgt =>
               let pts := if me_local c then as_seen qidentity (cl_pts pc)
                          else as_seen (qinverse (me_pose c)) (cl_pts pc) in
               (lset m (me_target c) (insert_obs tgt pts (me_pose c)), Val tt)
             end
      end
    end.

(** ** FilterVoxelSlice *)
(** FilterVoxelSlice.h 45-60 *)
Record SliceCfg := mkSlice { sl_in : Name; sl_out : Name; sl_zmin : Q; sl_zmax : Q; sl_realized : bool }.

(** A voxel: integer coordinates and stored occupancy. *)
Record Voxel := mkVoxel { vx_x : Z; vx_y : Z; vx_z : Z; vx_occ : Q }.

(** What a layer is, for this filter. *)
Inductive SLayer_ (Grid : Type) :=
  | VoxelMap (res : Q) (voxels : list Voxel) | VoxelMapRGB (res : Q) (voxels : list Voxel)
  | OccGrid (g : Grid) | OtherMap | NullMap.
Arguments VoxelMap {Grid}. Arguments VoxelMapRGB {Grid}. Arguments OccGrid {Grid}.
Arguments OtherMap {Grid}. Arguments NullMap {Grid}.

Section Slice.
  Variable Grid : Type.
  (** COccupancyGridMap2D::Create() with mapAltitude set; setSize() to the bounding box of
      the voxels; updateCell() at the position of a voxel *)
  Variable fresh : Q -> Grid.
  Variable sized : Grid -> list Voxel -> Q -> Grid.
  Variable update : Grid -> Q -> Q -> Q -> Grid.

  Definition SMap := list (Name * SLayer_ Grid).
  Fixpoint sfind (m : SMap) (n : Name) : option (SLayer_ Grid) :=
    match m with [] => None | (k, v) :: t => if String.eqb k n then Some v else sfind t n end.
  Fixpoint sset (m : SMap) (n : Name) (l : SLayer_ Grid) : SMap :=
    match m with
    | [] => [(n, l)]
    | (k, v) :: t => if String.eqb k n then (k, l) :: t else (k, v) :: sset t n l
    end.

  (** Bonxai::PosToCoord (mrpt): floor of the scaled position *)
  Definition pos_to_coord (res z : Q) : Z := Qfloor (z / res).
  (** Bonxai::CoordToPos (mrpt): coordinate times resolution *)
  Definition coord_to_pos (res : Q) (k : Z) : Q := inject_Z k * res.

  (** FilterVoxelSlice.cpp 105-117 *)
  Definition per_voxel (c : SliceCfg) (res : Q) (g : Grid) (v : Voxel) : Grid :=
    if Z.ltb (vx_z v) (pos_to_coord res (sl_zmin c)) || Z.ltb (pos_to_coord res (sl_zmax c)) (vx_z v) then g
    else update g (coord_to_pos res (vx_x v)) (coord_to_pos res (vx_y v)) (vx_occ v).

  (** FilterVoxelSlice.cpp 56-130.  [false] in the result: an exception.  A null input
      layer is neither of the two classes, and the message dereferences it: undefined. *)
  Definition filter_slice (c : SliceCfg) (m : SMap) : SMap * outc unit :=
    if negb (sl_realized c) then (m, Exc)
    else if Qltb (sl_zmax c) (sl_zmin c) then (m, Exc)
    else if String.eqb (sl_in c) "" then (m, Exc)
    else match sfind m (sl_in c) with
         | None | Some OtherMap | Some (OccGrid _) => (m, Exc)
         | Some NullMap => (m, Undef)
         | Some (VoxelMap res vs) =>
             if String.eqb (sl_out c) "" then (m, Exc)
             else (sset m (sl_out c)
                     (OccGrid (fold_left (per_voxel c res)
                                 vs (sized (fresh ((1#2) * (sl_zmax c + sl_zmin c))) vs res))), Val tt)
         | Some (VoxelMapRGB res vs) =>
             if String.eqb (sl_out c) "" then (m, Exc)
             else (sset m (sl_out c) (OccGrid (fresh ((1#2) * (sl_zmax c + sl_zmin c)))), Val tt)
         end.
End Slice.
