(** Model of FilterEdgesPlanes.
    Source: /repo/mp2p_icp_filters/src/FilterEdgesPlanes.cpp and its header.
    Simplifications of FilterModel and VoxelModel apply (exact rationals, unbounded voxel
    indices, any visiting order [ord]).  The eigen-decomposition of mrpt
    (eig_symmetric) is an arbitrary function of the covariance matrix.  mrpt's TPlane3D
    normalises the normal; eigenvectors are unit vectors already, so it is kept as is. *)
From Coq Require Import String.
From Verif Require Import Base FilterModel VoxelModel.
Open Scope string_scope.
Open Scope Q_scope.
Open Scope list_scope.

(** FilterEdgesPlanes.h 51-70 *)
Record EdgesCfg := mkEdges { eg_in : Name; eg_full : nat; eg_res : Q; eg_robin : bool; eg_dec : nat;
  eg_max20 : Q; eg_max10 : Q; eg_min20 : Q; eg_min10 : Q; eg_min1 : Q }.

Definition V3 := (Q * Q * Q)%type.
(** Lower triangle of a symmetric matrix: xx, yx, zx, yy, zy, zz *)
Record Cov := mkCov { cxx : Q; cyx : Q; czx : Q; cyy : Q; czy : Q; czz : Q }.
(** mrpt eig_symmetric: the three eigenvalues in increasing order, and the eigenvector of
    the first one *)
Definition Eig := Cov -> (V3 * V3)%type.

(** metricmap.h plane_patch_t: a plane (normal [a,b,c], offset [d]) and its centroid *)
Record PlanePatch := mkPatch { pp_normal : V3; pp_d : Q; pp_centroid : V3 }.

(** FilterEdgesPlanes.cpp 103-107, 154-160 of mrpt TPoint3D *)
Definition vdot (a b : V3) : Q :=
  let '(ax, ay, az) := a in let '(bx, by_, bz) := b in ax * bx + ay * by_ + az * bz.
Definition vneg (a : V3) : V3 := let '(x, y, z) := a in (- x, - y, - z).

(** FilterEdgesPlanes.cpp 123-137 *)
Definition cov_of (mean : V3) (l : list Pt) : Cov :=
  let '(mx, my, mz) := mean in
  let inv := 1 / inject_Z (Z.of_nat (List.length l)) in
  let s f := sum_by f l * inv in
  mkCov (s (fun p => (px p - mx) * (px p - mx))) (s (fun p => (px p - mx) * (py p - my)))
        (s (fun p => (px p - mx) * (pz p - mz))) (s (fun p => (py p - my) * (py p - my)))
        (s (fun p => (py p - my) * (pz p - mz))) (s (fun p => (pz p - mz) * (pz p - mz))).

(** FilterEdgesPlanes.cpp 148 *)
Definition is_edge (c : EdgesCfg) (e : V3) : bool :=
  let '(e0, e1, e2) := e in Qltb e2 (eg_max20 c * e0) && Qltb e1 (eg_max10 c * e0).
(** FilterEdgesPlanes.cpp 155 *)
Definition is_plane (c : EdgesCfg) (e : V3) : bool :=
  let '(e0, e1, e2) := e in
  Qltb (eg_min20 c * e0) e2 && Qltb (eg_min10 c * e0) e1 && Qltb (eg_min1 c) e1.

(** FilterEdgesPlanes.cpp 173: norm greater than 1e-3, compared squared *)
Definition away_from_origin (v : V3) : bool := Qltb (1 # 1000000) (vdot v v).

(** FilterEdgesPlanes.cpp 162-184; the sign of the product with the unit vector towards the
    centroid is that of the product with the centroid *)
Definition patch_of (mean ev0 : V3) : PlanePatch :=
  let n := if Qltb 0 (vdot mean ev0) then vneg ev0 else ev0 in
  mkPatch n (- vdot n mean) mean.

(** FilterEdgesPlanes.cpp 192; the float 0.9f taken as 9/10 *)
Definition not_horizontal (ev0 : V3) : bool := let '(_, _, z) := ev0 in Qltb (Qabs' z) (9 # 10).

(** FilterEdgesPlanes.cpp 199-203 and 208-212: [i += step]; [None]: not ended after [fuel]
    steps *)
Fixpoint step_loop (fuel step i : nat) (l : list Pt) : option (list Pt) :=
  match nth_error l i with
  | None => Some []
  | Some p =>
    match fuel with
    | O => None
    | S k => option_map (cons p) (step_loop k step (i + step) l)
    end
  end.

(** What the loop over the voxels has produced so far. *)
Record EPState := mkEP { ep_edges : list Pt; ep_planes : list Pt; ep_full : list Pt;
  ep_cent : list Pt; ep_patches : list PlanePatch }.

Definition bare_pt (p : Pt) : Pt := mkPt (px p) (py p) (pz p) 0 0%Z 0.
Definition vec_pt (v : V3) : Pt := let '(x, y, z) := v in mkPt x y z 0 0%Z 0.

(** The two insertion loops, FilterEdgesPlanes.cpp 197-213, into [dest]: 0 none, 1 edges,
    2 planes. *)
Definition ep_insert (fuel : nat) (c : EdgesCfg) (dest : nat) (l : list Pt) (s : EPState)
    : EPState * outc unit :=
  match (match dest with O => Some [] | _ => step_loop fuel (eg_dec c) 0 l end) with
  | None => (s, Spin)
  | Some sel =>
    let sel := map bare_pt sel in
    let s1 := match dest with
              | O => s
              | 1%nat => mkEP (ep_edges s ++ sel) (ep_planes s) (ep_full s) (ep_cent s) (ep_patches s)
              | _ => mkEP (ep_edges s) (ep_planes s ++ sel) (ep_full s) (ep_cent s) (ep_patches s)
              end in
    if Nat.eqb (eg_full c) 0 then (s1, Val tt)
    else match step_loop fuel (eg_full c) 0 l with
         | None => (s1, Spin)
         | Some f => (mkEP (ep_edges s1) (ep_planes s1) (ep_full s1 ++ map bare_pt f)
                           (ep_cent s1) (ep_patches s1), Val tt)
         end
  end.

(** FilterEdgesPlanes.cpp 104-214: one voxel with points [l] *)
Definition ep_voxel (fuel : nat) (c : EdgesCfg) (eig : Eig) (l : list Pt) (s : EPState)
    : EPState * outc unit :=
  if (List.length l <? 5)%nat then (s, Val tt)
  else
    let mean := mean_pt l in
    let '(vals, ev0) := eig (cov_of mean l) in
    if is_edge c vals then ep_insert fuel c 1 l s
    else if is_plane c vals then
      if away_from_origin mean then
        ep_insert fuel c (if not_horizontal ev0 then 2 else 0) l
          (mkEP (ep_edges s) (ep_planes s) (ep_full s) (ep_cent s ++ [vec_pt mean])
                (ep_patches s ++ [patch_of mean ev0]))
      else (s, Exc)
    else ep_insert fuel c 0 l s.

Fixpoint ep_voxels (fuel : nat) (c : EdgesCfg) (eig : Eig) (vs : list (list Pt)) (s : EPState)
    : EPState * outc unit :=
  match vs with
  | [] => (s, Val tt)
  | l :: t =>
    match ep_voxel fuel c eig l s with
    | (s', Val _) => ep_voxels fuel c eig t s'
    | r => r
    end
  end.

(** FilterEdgesPlanes.cpp 54: the grid after initialize() *)
Definition edges_grid (g0 : Grid) (c : EdgesCfg) : Grid := g_configure g0 (eg_res c) (eg_robin c).

(** A map: its layers and its list of planes. *)
Record PMap := mkPMap { pm_layers : Layers; pm_planes : list PlanePatch }.

(** FilterEdgesPlanes.cpp 78-81: the four new layers (their contents as the loop leaves
    them: the map holds the same objects) *)
Definition ep_store (m : Layers) (s : EPState) : Layers :=
  let cl l := LPts (mkCloud SimplePoints l) in
  lset (lset (lset (lset m "edge_points" (cl (ep_edges s))) "plane_points" (cl (ep_planes s)))
    "full_decim" (cl (ep_full s))) "plane_centroids" (cl (ep_cent s)).

(** FilterEdgesPlanes.cpp 59-221.  The input object is kept alive by the local pointer, so
    it may be one of the four layers replaced.  [inOut.planes] is appended to. *)
Definition filter_edges (fuel : nat) (c : EdgesCfg) (eig : Eig)
    (ord : list (Key * list nat) -> list (Key * list nat)) (g : Grid) (pm : PMap) : PMap * outc unit :=
  match input_layer (eg_in c) (pm_layers pm) with
  | (_, Val pc) =>
    let g' := g_process (g_clear g) (cl_pts pc) in
    let vs := map (fun kv => points_at (cl_pts pc) (snd kv)) (ord (g_visit g')) in
    let '(s, o) := ep_voxels fuel c eig vs (mkEP [] [] [] [] []) in
    (mkPMap (ep_store (pm_layers pm) s) (pm_planes pm ++ ep_patches s), o)
  | (_, o) => (pm, match o with Undef => Undef | Spin => Spin | _ => Exc end)
  end.
