(** Model of mp2p_icp_map/src/metricmap.cpp: the container operations of metric_map_t.
    Layers are pointers (metricmap.h 86: std::map<layer_name_t, CMetricMap::Ptr>), so maps may share layer
    objects: a heap holds the objects.  Simplifications:
    - numbers are rationals; a pose is any pair of functions (composePoint, rotateVector), see mrpt CPose3D;
    - layers are visited in the order of the list; std::map visits them in name order (the theorems hold for every list);
    - mrpt CPointsMap::insertAnotherMap and changeCoordinatesReference (not part of /repo) transform the
      coordinates; the other fields of appended points are those of [fields], an arbitrary function. *)
From Coq Require Import String.
From Verif Require Import Base FilterModel DeskewModel.
Open Scope nat_scope.

Definition Addr := nat.
(** an object derived from CMetricMap *)
Inductive Obj := OPts (c : Cloud) | OOther (o : Other).
Definition Heap := list Obj.

(** mrpt TLine3D *)
Record Line := mkLine { ln_base : Q3; ln_dir : Q3 }.
(** plane_patch.h: plane_patch_t *)
Record Plane := mkPlane { pl_coefs : Q * Q * Q * Q; pl_centroid : Q3 }.
(** metricmap.h 126-139: Georeferencing (lat, lon, height; mean translation and rotation (yaw, pitch, roll), covariance *)
Record Georef := mkGeo { g_lat : Q; g_lon : Q; g_h : Q; g_trans : Q3; g_rot : Q3; g_cov : list (list Q) }.

(** metricmap.h 86-143: the data fields of metric_map_t; [None]: a null pointer *)
Record MMap := mkMM {
  mm_layers : list (Name * option Addr);
  mm_lines : list Line; mm_planes : list Plane;
  mm_id : option nat; mm_label : option string;
  mm_geo : option Georef; mm_meta : list (string * string) }.

(** metricmap.h: a new object *)
Definition new_map : MMap := mkMM [] [] [] None None None [].

(** metricmap.cpp 437, metric_map_t::empty *)
Definition mm_empty (m : MMap) : bool :=
  match mm_layers m with [] => true | _ => false end && match mm_lines m with [] => true | _ => false end && match mm_planes m with [] => true | _ => false end.
(** metricmap.cpp 438, metric_map_t::clear: *this = metric_map_t(), the objects of the layers are only released *)
Definition mm_clear (m : MMap) : MMap := new_map.

(** metricmap.cpp 544-555, size_points_only: dynamic_pointer_cast<CPointsMap> of each layer, null for other classes *)
Fixpoint size_pts (h : Heap) (ls : list (Name * option Addr)) : nat :=
  match ls with
  | [] => 0
  | (_, Some a) :: t => match nth_error h a with Some (OPts c) => List.length (cl_pts c) | _ => 0 end + size_pts h t
  | (_, None) :: t => size_pts h t
  end.
(** metricmap.cpp 534-543, metric_map_t::size *)
Definition mm_size (h : Heap) (m : MMap) : nat := List.length (mm_lines m) + List.length (mm_planes m) + size_pts h (mm_layers m).

(** std::map find and operator[] = *)
Fixpoint kfind {A} (m : list (Name * A)) (n : Name) : option A :=
  match m with [] => None | (k, v) :: t => if String.eqb k n then Some v else kfind t n end.
Fixpoint kset {A} (m : list (Name * A)) (n : Name) (v : A) : list (Name * A) :=
  match m with [] => [(n, v)] | (k, w) :: t => if String.eqb k n then (k, v) :: t else (k, w) :: kset t n v end.

Record Pose := mkPose { compose : Q3 -> Q3; rotate : Q3 -> Q3 }.
(** mrpt CPose3D(): the default pose *)
Definition id_pose : Pose := mkPose (fun p => p) (fun p => p).
Definition the_pose (p : option Pose) : Pose := match p with Some p => p | None => id_pose end.

Section Merge.
Variable fields : Cls -> Cls -> Pt -> Pt.

Definition xyz (p : Pt) : Q3 := (px p, py p, pz p).
Definition with_xyz (p : Pt) (v : Q3) : Pt := let '(a, b, c) := v in mkPt a b c (p_int p) (p_ring p) (p_time p).
(** CPointsMap::changeCoordinatesReference *)
Definition moved (po : Pose) (p : Pt) : Pt := with_xyz p (compose po (xyz p)).
(** CPointsMap::insertAnotherMap: one more point, from a cloud of class [src] into one of class [dst] *)
Definition moved_into (dst src : Cls) (po : Pose) (p : Pt) : Pt := with_xyz (fields dst src p) (compose po (xyz p)).

(** metricmap.cpp 485-531: one layer of the other map; the state is the heap and the layers of this map *)
Definition merge_layer (po : option Pose) (st : Heap * list (Name * option Addr)) (l : Name * option Addr) : (Heap * list (Name * option Addr)) * outc unit :=
  let '(h, ls) := st in
  let '(n, a) := l in
  match kfind ls n with
  | None =>
      match a with
      | None => (st, Undef)
      | Some a =>
        match nth_error h a with
        | None => (st, Undef)
        | Some o =>
            let new := List.length h in
            let ls' := kset ls n (Some new) in
            match po with
            | None => ((h ++ [o], ls'), Val tt)
            | Some p =>
                match o with
                | OPts c => ((h ++ [OPts (mkCloud (cl_cls c) (map (moved p) (cl_pts c)))], ls'), Val tt)
                | OOther _ => ((h ++ [o], ls'), Exc)
                end
            end
        end
      end
  | Some None => (st, Exc)
  | Some (Some b) =>
      match nth_error h b with
      | Some (OPts c) =>
          match a with
          | Some a =>
              match nth_error h a with
              | Some (OPts d) => ((upd h b (OPts (mkCloud (cl_cls c) (cl_pts c ++ map (moved_into (cl_cls c) (cl_cls d) (the_pose po)) (cl_pts d)))), ls), Val tt)
              | _ => (st, Undef)
              end
          | None => (st, Undef)
          end
      | Some (OOther _) => (st, Exc)
      | None => (st, Undef)
      end
  end.
Fixpoint merge_layers (po : option Pose) (st : Heap * list (Name * option Addr)) (ls : list (Name * option Addr)) : (Heap * list (Name * option Addr)) * outc unit :=
  match ls with
  | [] => (st, Val tt)
  | l :: t => match merge_layer po st l with (st', Val _) => merge_layers po st' t | r => r end
  end.

Definition set_layers (m : MMap) ls := mkMM ls (mm_lines m) (mm_planes m) (mm_id m) (mm_label m) (mm_geo m) (mm_meta m).
Definition add_lines (m : MMap) l := mkMM (mm_layers m) (mm_lines m ++ l) (mm_planes m) (mm_id m) (mm_label m) (mm_geo m) (mm_meta m).
Definition add_planes (m : MMap) l := mkMM (mm_layers m) (mm_lines m) (mm_planes m ++ l) (mm_id m) (mm_label m) (mm_geo m) (mm_meta m).

Definition moved_line (po : Pose) (l : Line) : Line := mkLine (compose po (ln_base l)) (rotate po (ln_dir l)).

(** metricmap.cpp 442-532, metric_map_t::merge_with, for two different objects *)
Definition merge_with (h : Heap) (m other : MMap) (po : option Pose) : (Heap * MMap) * outc unit :=
  let m1 := add_lines m (match po with Some p => map (moved_line p) (mm_lines other) | None => mm_lines other end) in
  match po, mm_planes other with
  | Some _, _ :: _ => ((h, m1), Exc)
  | _, pls =>
      let m2 := add_planes m1 pls in
      let '((h', ls), r) := merge_layers po (h, mm_layers m2) (mm_layers other) in
      ((h', set_layers m2 ls), r)
  end.
End Merge.

(** metricmap.cpp 671-680, 695-723: get_shared_from_this_or_clone() of an object that is not owned by a shared pointer: the
    copy constructor of metric_map_t copies the pointers of the layers *)
Definition clone (m : MMap) : MMap := m.

(** ** Georeferencing as YAML *)
Inductive Y := YMap (l : list (string * Y)) | YStr (s : string) | YBool (b : bool) | YNum (q : Q) | YMat (m : list (list Q)).
Definition geo_magic : string := "mp2p_icp::Georeferencing".
Definition yget (y : Y) (k : string) : outc Y := match y with YMap l => match kfind l k with Some v => Val v | None => Exc end | _ => Exc end.
Definition ynum (y : Y) : outc Q := match y with YNum q => Val q | _ => Exc end.
Definition ymat (y : Y) : outc (list (list Q)) := match y with YMat q => Val q | _ => Exc end.
Definition obnd {A B} (x : outc A) (f : A -> outc B) : outc B := match x with Val a => f a | Exc => Exc | Undef => Undef | Spin => Spin end.
Notation "'let!' x := e 'in' f" := (obnd e (fun x => f)) (at level 200, x name, e at level 100, f at level 200).

(** metricmap.cpp 899-929, ToYAML; maps of mrpt yaml keep keys sorted, which no reader can tell *)
Definition to_yaml (g : option Georef) : Y :=
  YMap (("type", YStr geo_magic) :: ("defined", YBool (match g with Some _ => true | None => false end)) ::
    match g with
    | None => []
    | Some g =>
        [("geo_coord", YMap [("lon", YNum (g_lon g)); ("lat", YNum (g_lat g)); ("altitude", YNum (g_h g))]);
         ("T_enu_to_map", YMap [("mean", YMap [("x", YNum (fst (fst (g_trans g)))); ("y", YNum (snd (fst (g_trans g)))); ("z", YNum (snd (g_trans g)))]);
                                ("cov", YMat (g_cov g))])]
    end%string)%list.

(** metricmap.cpp 869-897, FromYAML; the rotation of a new CPose3DPDFGaussian is null *)
Definition from_yaml (y : Y) : outc (option Georef) :=
  match y with
  | YMap l =>
      let! t := yget y "type" in
      let! d := yget y "defined" in
      match t with
      | YStr s =>
          if String.eqb s geo_magic then
            match d with
            | YBool false => Val None
            | YBool true =>
                let! gc := yget y "geo_coord" in
                let! lo := yget gc "lon" in let! lon := ynum lo in
                let! la := yget gc "lat" in let! lat := ynum la in
                let! al := yget gc "altitude" in let! alt := ynum al in
                let! te := yget y "T_enu_to_map" in
                let! me := yget te "mean" in
                let! xx := yget me "x" in let! x := ynum xx in
                let! yy := yget me "y" in let! y' := ynum yy in
                let! zz := yget me "z" in let! z := ynum zz in
                let! cc := yget te "cov" in let! cov := ymat cc in
                Val (Some (mkGeo lat lon alt (x, y', z) (0, 0, 0)%Q cov))
            | _ => Exc
            end
          else Exc
      | _ => Exc
      end
  | _ => Exc
  end.
