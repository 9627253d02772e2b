(** Model of FilterDecimateVoxelsQuadratic.
    Source: /repo/mp2p_icp_filters/src/FilterDecimateVoxelsQuadratic.cpp and its header.
    Simplifications of FilterModel and VoxelModel apply (exact rationals, unbounded voxel
    indices, any visiting order [ord], any random draws [rnd]). *)
From Coq Require Import String Reals Qreals.
From Verif Require Import Base FilterModel VoxelModel.
Open Scope string_scope.
Open Scope Q_scope.
Open Scope list_scope.

(** FilterDecimateVoxelsQuadratic.h 58-90 *)
Record QuadCfg := mkQuad { qd_in : Name; qd_error_missing : bool; qd_out : Name; qd_res : Q;
  qd_radius : Q; qd_average : bool; qd_closest : bool; qd_random : bool }.

(** mrpt::sign *)
Definition sgn (x : Q) : Q := if Qltb x 0 then - (1) else 1.

(** FilterDecimateVoxelsQuadratic.h 95-101; [inv] is quadratic_reference_radius_inv_,
    set by initialize() (.cpp 57). *)
Definition radius_inv (c : QuadCfg) : Q := 1 / qd_radius c.
Definition real2grid (c : QuadCfg) (x : Q) : Q :=
  if Qltb (qd_radius c) (Qabs' x) then x else sgn x * (x * x) * radius_inv c.

(** FilterDecimateVoxelsQuadratic.cpp 105-108 *)
Definition warp (c : QuadCfg) (p : Pt) : Pt :=
  mkPt (real2grid c (px p)) (real2grid c (py p)) (real2grid c (pz p)) 0 0%Z 0.

(** FilterDecimateVoxelsQuadratic.cpp 137-187: which representative is written *)
Definition quad_method (c : QuadCfg) : DMethod :=
  if qd_average c || qd_closest c then (if qd_closest c then ClosestToAverage else VoxelAverage)
  else if qd_random c then RandomPoint else FirstPoint.

(** FilterDecimateVoxelsQuadratic.cpp 56: the grid after initialize() *)
Definition quad_grid (g0 : Grid) (c : QuadCfg) : Grid := g_configure g0 (qd_res c) true.

(** FilterDecimateVoxelsQuadratic.cpp 98-191, for input points [pts]: the indices are those
    of the warped cloud, the coordinates those of the raw one, and every point is written
    with insertPointFast(x,y,z). *)
Definition quad_run (c : QuadCfg) (ord : list (Key * list nat) -> list (Key * list nat))
    (rnd : nat -> nat) (g : Grid) (pts : list Pt) : M unit :=
  let g' := g_process (g_clear g) (map (warp c) pts) in
  let vs := filter (fun kv => negb (Nat.eqb (List.length (snd kv)) 0)) (ord (g_visit g')) in
  let reps := flat_map (fun kvr => match represent (quad_method c) (snd kvr)
                                           (points_at pts (snd (fst kvr))) with
                                   | Some bp => [snd bp] | None => [] end)
                       (with_draws rnd 0 vs) in
  each (fun p => insert_xyz (qd_out c) (px p) (py p) (pz p)) reps.

(** FilterDecimateVoxelsQuadratic.cpp 62-192.  A null input layer is dereferenced. *)
Definition filter_quadratic (c : QuadCfg) (ord : list (Key * list nat) -> list (Key * list nat))
    (rnd : nat -> nat) (g : Grid) : M unit :=
  do _ <- massert (negb (String.eqb (qd_out c) ""));
  do _ <- get_or_create (qd_out c) true SimplePoints;
  fun m =>
    match lfind m (qd_in c) with
    | Some LNull => ubm m
    | Some (LPts pc) => quad_run c ord rnd g (cl_pts pc) m
    | Some (LOther o) => match ot_points o with
                         | Some pc => quad_run c ord rnd g (cl_pts pc) m
                         | None => throw m
                         end
    | None => if qd_error_missing c then throw m else ret tt m
    end.

(** FilterDecimateVoxelsQuadratic.h 102-108.  [None]: not a number (square root of a
    negative number). *)
Definition grid2real (c : QuadCfg) (y : Q) : option R :=
  if Qltb (qd_radius c) (Qabs' y) then Some (Q2R y)
  else if Qltb (y * qd_radius c) 0 then None
  else Some (R_sqrt.sqrt (Q2R (y * qd_radius c)) * Q2R (sgn y))%R.
