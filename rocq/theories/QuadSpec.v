(** What FilterDecimateVoxelsQuadratic must do. *)
From Coq Require Import String Reals.
From Verif Require Import Base FilterModel VoxelModel VoxelSpec QuadModel.
Open Scope Q_scope.
Open Scope list_scope.

(** The non-linear coordinate: the identity beyond the radius, a parabola below it. *)
Definition Mapped (radius x y : Q) : Prop :=
  (radius < x \/ x < - radius -> y == x) /\
  (0 <= x <= radius -> y * radius == x * x) /\
  (- radius <= x <= 0 -> y * radius == - (x * x)).

(** [vox] gives the voxel of each point: the cell of its mapped coordinates, rounded
    towards zero. *)
Definition Voxels (radius res : Q) (vox : Pt -> Key) : Prop :=
  forall p, exists x y z, Mapped radius (px p) x /\ Mapped radius (py p) y /\ Mapped radius (pz p) z
    /\ vox p = (coord2idx res x, coord2idx res y, coord2idx res z).

Definition pts_at (vox : Pt -> Key) (k : Key) (l : list Pt) : list Pt :=
  filter (fun p => key_eqb (vox p) k) l.

(** One representative per occupied voxel. *)
Definition OnePer (vox : Pt -> Key) (src : list Pt) (R : list Pt -> Pt -> Prop)
    (kr : list (Key * Pt)) : Prop :=
  NoDup (map fst kr) /\
  (forall k, In k (map fst kr) <-> exists p, In p src /\ vox p = k) /\
  (forall k p, In (k, p) kr -> R (pts_at vox k src) p).

(** A point without its channels. *)
Definition bare (p : Pt) : Pt := mkPt (px p) (py p) (pz p) 0 0%Z 0.

(** Which representative the flags ask for. *)
Definition asked (c : QuadCfg) : DMethod :=
  if qd_closest c then ClosestToAverage else if qd_average c then VoxelAverage
  else if qd_random c then RandomPoint else FirstPoint.
