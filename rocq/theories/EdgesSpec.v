(** What FilterEdgesPlanes must do. *)
From Coq Require Import String.
From Verif Require Import Base FilterModel VoxelModel VoxelSpec EdgesModel.
Open Scope string_scope.
Open Scope Q_scope.
Open Scope list_scope.

Definition total (f : Pt -> Q) (l : list Pt) : Q := fold_right Qplus 0 (map f l).

(** Covariance matrix of the positions. *)
Definition IsCov (l : list Pt) (mean : V3) (cv : Cov) : Prop :=
  let '(mx, my, mz) := mean in
  let n := inject_Z (Z.of_nat (List.length l)) in
  n * cxx cv == total (fun p => (px p - mx) * (px p - mx)) l
  /\ n * cyx cv == total (fun p => (px p - mx) * (py p - my)) l
  /\ n * czx cv == total (fun p => (px p - mx) * (pz p - mz)) l
  /\ n * cyy cv == total (fun p => (py p - my) * (py p - my)) l
  /\ n * czy cv == total (fun p => (py p - my) * (pz p - mz)) l
  /\ n * czz cv == total (fun p => (pz p - mz) * (pz p - mz)) l.

(** A voxel with what the eigen-solver says of the covariance of its points. *)
Record Vox := mkVox { vo_key : Key; vo_pts : list Pt; vo_mean : V3; vo_vals : V3; vo_ev : V3 }.
Definition Analysed (eig : Eig) (v : Vox) : Prop :=
  (let '(x, y, z) := vo_mean v in IsMean (vo_pts v) x y z)
  /\ exists cv, IsCov (vo_pts v) (vo_mean v) cv /\ eig cv = (vo_vals v, vo_ev v).

(** The voxels with at least five points, each once. *)
Definition FullVoxels (eig : Eig) (res : Q) (src : list Pt) (vs : list Vox) : Prop :=
  NoDup (map vo_key vs)
  /\ (forall k, In k (map vo_key vs) <-> (5 <= List.length (pts_in res k src))%nat)
  /\ (forall v, In v vs -> vo_pts v = pts_in res (vo_key v) src /\ Analysed eig v).

(** The kinds of voxels. *)
Definition EdgeLike (c : EdgesCfg) (v : Vox) : Prop :=
  let '(e0, e1, e2) := vo_vals v in e2 < eg_max20 c * e0 /\ e1 < eg_max10 c * e0.
Definition PlaneLike (c : EdgesCfg) (v : Vox) : Prop :=
  ~ EdgeLike c v /\
  let '(e0, e1, e2) := vo_vals v in
  eg_min20 c * e0 < e2 /\ eg_min10 c * e0 < e1 /\ eg_min1 c < e1.
Definition Steep (v : Vox) : Prop :=
  let '(_, _, z) := vo_ev v in - (9 # 10) < z /\ z < 9 # 10.
Definition NearOrigin (v : Vox) : Prop :=
  let '(x, y, z) := vo_mean v in x * x + y * y + z * z <= 1 # 1000000.

(** Positions of the elements 0, n, 2n, ... of [l]. *)
Definition EveryNth (n : nat) (l out : list Pt) : Prop :=
  forall j, nth_error out j
  = option_map (fun p => mkPt (px p) (py p) (pz p) 0 0%Z 0) (nth_error l (j * n)%nat).

(** A plane patch: through the mean, normal along the eigenvector, facing the origin. *)
Definition GoodPatch (v : Vox) (p : PlanePatch) : Prop :=
  pp_centroid p = vo_mean v
  /\ (let '(a, b, c) := vo_ev v in pp_normal p = (a, b, c) \/ pp_normal p = (- a, - b, - c))
  /\ (let '(a, b, c) := pp_normal p in let '(x, y, z) := vo_mean v in
      a * x + b * y + c * z + pp_d p == 0 /\ a * x + b * y + c * z <= 0).

(** What one voxel contributes to each output. *)
Record Piece := mkPiece { pi_edges : list Pt; pi_planes : list Pt; pi_full : list Pt; pi_cent : list Pt;
  pi_patches : list PlanePatch }.
Definition Contributes (c : EdgesCfg) (v : Vox) (w : Piece) : Prop :=
  (EdgeLike c v -> EveryNth (eg_dec c) (vo_pts v) (pi_edges w))
  /\ (~ EdgeLike c v -> pi_edges w = [])
  /\ (PlaneLike c v /\ Steep v -> EveryNth (eg_dec c) (vo_pts v) (pi_planes w))
  /\ (~ (PlaneLike c v /\ Steep v) -> pi_planes w = [])
  /\ (PlaneLike c v -> pi_cent w = [let '(x, y, z) := vo_mean v in mkPt x y z 0 0%Z 0]
                       /\ exists p, pi_patches w = [p] /\ GoodPatch v p)
  /\ (~ PlaneLike c v -> pi_cent w = [] /\ pi_patches w = [])
  /\ (eg_full c = O -> pi_full w = [])
  /\ (eg_full c <> O -> EveryNth (eg_full c) (vo_pts v) (pi_full w)).

Definition simple (l : list Pt) : Layer := LPts (mkCloud SimplePoints l).
Definition ep_outputs : list Name := ["edge_points"; "plane_points"; "full_decim"; "plane_centroids"].
