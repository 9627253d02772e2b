(** Model, over the reals, of the residuals and Jacobians of the solvers, of the robust
    kernels, and of the conversion of line and plane pairings to point pairs.

    Sources: mp2p_icp/src/errorTerms.cpp, mp2p_icp/include/mp2p_icp/robust_kernels.h,
    mp2p_icp/src/pt2ln_pl_to_pt2pt.cpp.

    Simplifications: double arithmetic is exact real arithmetic.  mrpt's geometric
    primitives are modelled by their definition: CPose3D::composePoint is R p + t,
    rotateVector is R v, TPlane::evaluatePoint is Ax+By+Cz+D, TPlane::getNormalVector is
    (A,B,C), TLine3D::distance and closestPointTo are the Euclidean ones, getAngle between
    two lines is the angle of their director vectors. *)
From Coq Require Import Reals List Lra.
Import ListNotations.
Open Scope R_scope.

Record V3 := mkV { vx : R; vy : R; vz : R }.
Definition vadd (a b : V3) := mkV (vx a + vx b) (vy a + vy b) (vz a + vz b).
Definition vsub (a b : V3) := mkV (vx a - vx b) (vy a - vy b) (vz a - vz b).
Definition vscale (k : R) (a : V3) := mkV (k * vx a) (k * vy a) (k * vz a).
Definition vdot (a b : V3) := vx a * vx b + vy a * vy b + vz a * vz b.
Definition vcross (a b : V3) := mkV (vy a * vz b - vz a * vy b) (vz a * vx b - vx a * vz b)
                                    (vx a * vy b - vy a * vx b).
Definition vnorm2 (a : V3) := vdot a a.
Definition vnorm (a : V3) := sqrt (vnorm2 a).

(** A pose as its 3x4 matrix, columns of the rotation and translation.  Jacobians are with
    respect to these 12 numbers; only where a statement says so the columns are orthonormal. *)
Record Pose := mkPose { c0 : V3; c1 : V3; c2 : V3; tr : V3 }.

(** mrpt CPose3D::composePoint, rotateVector *)
Definition rotate (T : Pose) (v : V3) : V3 :=
  vadd (vadd (vscale (vx v) (c0 T)) (vscale (vy v) (c1 T))) (vscale (vz v) (c2 T)).
Definition compose (T : Pose) (p : V3) : V3 := vadd (rotate T p) (tr T).

(** The 12 numbers, column by column (the order Jacobians use). *)
Definition vec (T : Pose) : list R :=
  [vx (c0 T); vy (c0 T); vz (c0 T); vx (c1 T); vy (c1 T); vz (c1 T);
   vx (c2 T); vy (c2 T); vz (c2 T); vx (tr T); vy (tr T); vz (tr T)].
Definition padd (T D : Pose) : Pose :=
  mkPose (vadd (c0 T) (c0 D)) (vadd (c1 T) (c1 D)) (vadd (c2 T) (c2 D)) (vadd (tr T) (tr D)).

(** Matrices as lists of rows. *)
Fixpoint dotl (a b : list R) : R :=
  match a, b with x :: s, y :: t => x * y + dotl s t | _, _ => 0 end.
Definition mvec (M : list (list R)) (v : list R) : list R := map (fun r => dotl r v) M.
Definition col (M : list (list R)) (j : nat) : list R := map (fun r => nth j r 0) M.
Definition mmul (A B : list (list R)) (cols : nat) : list (list R) :=
  map (fun r => map (fun j => dotl r (col B j)) (seq 0 cols)) A.
Definition ladd (a b : list R) : list R := map (fun xy => fst xy + snd xy) (combine a b).
Definition l3 (v : V3) : list R := [vx v; vy v; vz v].

(** d(T+p)/dT, written out in errorTerms.cpp 55-59, 99-103, 151-155, 226-230 *)
Definition Jpoint (l : V3) : list (list R) :=
  [[vx l; 0; 0; vy l; 0; 0; vz l; 0; 0; 1; 0; 0];
   [0; vx l; 0; 0; vy l; 0; 0; vz l; 0; 0; 1; 0];
   [0; 0; vx l; 0; 0; vy l; 0; 0; vz l; 0; 0; 1]].

(** errorTerms.cpp 36-66 *)
Definition error_point2point (global local : V3) (T : Pose) : V3 :=
  let g := compose T local in
  mkV (vx g - vx global) (vy g - vy global) (vz g - vz global).
Definition jac_point2point (global local : V3) (T : Pose) : list (list R) := Jpoint local.

(** lines: base point and director *)
Record Line := mkLine { l_base : V3; l_dir : V3 }.

(** errorTerms.cpp 68-113 *)
Definition error_point2line (ln : Line) (local : V3) (T : Pose) : V3 :=
  let u := l_dir ln in
  let q := vsub (compose T local) (l_base ln) in
  let uq := vdot u q in
  mkV (vx q - vx u * uq) (vy q - vy u * uq) (vz q - vz u * uq).
Definition jac_point2line (ln : Line) (local : V3) (T : Pose) : list (list R) :=
  let u := l_dir ln in
  mmul [[1 - vx u * vx u; - vx u * vy u; - vx u * vz u];
        [- vy u * vx u; 1 - vy u * vy u; - vy u * vz u];
        [- vz u * vx u; - vz u * vy u; 1 - vz u * vz u]] (Jpoint local) 12.

(** planes: normal and offset (mrpt TPlane::coefs) *)
Record Plane := mkPlane { n_ : V3; d_ : R }.
Definition eval_plane (pl : Plane) (p : V3) : R := vdot (n_ pl) p + d_ pl.

(** errorTerms.cpp 115-164 *)
Definition error_point2plane (pl : Plane) (local : V3) (T : Pose) : V3 :=
  let g := compose T local in
  let n := n_ pl in
  let mod_n := vx n * vx n + vy n * vy n + vz n * vz n in
  let k := vx n * vx g + vy n * vy g + vz n * vz g + d_ pl in
  mkV (- (vx n / mod_n) * k) (- (vy n / mod_n) * k) (- (vz n / mod_n) * k).
Definition jac_point2plane (pl : Plane) (local : V3) (T : Pose) : list (list R) :=
  let n := n_ pl in
  let mod_n := vx n * vx n + vy n * vy n + vz n * vz n in
  mmul [[- (vx n * vx n) / mod_n; - vx n * vy n / mod_n; - vx n * vz n / mod_n];
        [- vy n * vx n / mod_n; - (vy n * vy n) / mod_n; - vy n * vz n / mod_n];
        [- vz n * vx n / mod_n; - vz n * vy n / mod_n; - (vz n * vz n) / mod_n]] (Jpoint local) 12.

(** errorTerms.cpp 310-350 *)
Definition error_plane2plane (pl_g pl_l : Plane) (T : Pose) : V3 :=
  let r := rotate T (n_ pl_l) in
  mkV (vx r - vx (n_ pl_g)) (vy r - vy (n_ pl_g)) (vz r - vz (n_ pl_g)).
Definition jac_plane2plane (pl_g pl_l : Plane) (T : Pose) : list (list R) :=
  let l := n_ pl_l in
  [[vx l; 0; 0; vy l; 0; 0; vz l; 0; 0; 0; 0; 0];
   [0; vx l; 0; 0; vy l; 0; 0; vz l; 0; 0; 0; 0];
   [0; 0; vx l; 0; 0; vy l; 0; 0; vz l; 0; 0; 0]].

(** errorTerms.cpp 189-193: the director as the row vector (u,1) times the homogeneous
    matrix, i.e. R^T u (not R u) *)
Definition row_times (u : V3) (T : Pose) : V3 := mkV (vdot u (c0 T)) (vdot u (c1 T)) (vdot u (c2 T)).

(** mrpt getAngle(TLine3D, TLine3D): acos of the normalised scalar product *)
Definition angle (a b : V3) : R := acos (vdot a b / (vnorm a * vnorm b)).

(** errorTerms.cpp 213-236, the branch of (nearly) parallel lines: only the first component is
    written ([None]: left as it was). *)
Definition dist2_line (ln : Line) (p : V3) : R :=
  let q := vsub p (l_base ln) in
  vnorm2 (vcross q (l_dir ln)) / vnorm2 (l_dir ln).
Definition error_l2l_parallel (lg ll : Line) (T : Pose) : list (option R) :=
  [Some (dist2_line lg (compose T (l_base ll))); None; None; None].
Definition jac_l2l_parallel_row (lg ll : Line) (T : Pose) : list R :=
  let p := vsub (compose T (l_base ll)) (l_base lg) in
  let rv := l_dir lg in
  let mod_rv := vdot rv rv in
  let J1 := vsub (vscale 2 p) (vscale (2 / mod_rv * vdot p rv) rv) in
  map (fun j => dotl (l3 J1) (col (Jpoint (l_base ll)) j)) (seq 0 12).

(** errorTerms.cpp 238-254, the other branch *)
Definition error_l2l_general (lg ll : Line) (T : Pose) : list R :=
  let u := row_times (l_dir ll) T in
  let u1 := l_dir lg in
  let p := vsub (compose T (l_base ll)) (l_base lg) in
  let rw := vcross u u1 in
  [vdot p rw / sqrt (vdot rw rw); vx u - vx u1; vy u - vy u1; vz u - vz u1].

(** errorTerms.cpp 255-306 *)
Definition jac_l2l_general (lg ll : Line) (T : Pose) : list (list R) :=
  let u := row_times (l_dir ll) T in
  let u0 := l_dir ll in
  let u1 := l_dir lg in
  let p := vsub (compose T (l_base ll)) (l_base lg) in
  let rw := vcross u u1 in
  let B := sqrt (vdot rw rw) in
  let A := vdot p rw in
  let Ax := - vz u1 * vy p + vy u1 * vz p in
  let Ay := vz u1 * vx p - vx u1 * vz p in
  let Az := - vy u1 * vx p + vx u1 * vy p in
  let Bx := (- vz u1 * vy rw + vy u1 * vz rw) / B in
  let By := (vz u1 * vx rw + vx u1 * vz rw) / B in
  let Bz := (- vy u1 * vx rw + vx u1 * vy rw) / B in
  let J1 := [[vx rw / B; vy rw / B; vz rw / B;
              (Ax * B - A * Bx) / (B * B); (Ay * B - A * By) / (B * B); (Az * B - A * Bz) / (B * B)];
             [0; 0; 0; 1; 0; 0]; [0; 0; 0; 0; 1; 0]; [0; 0; 0; 0; 0; 1]] in
  let p0 := l_base ll in
  let J2 := Jpoint p0 ++
    [[- vx u0; 0; 0; - vy u0; 0; 0; - vz u0; 0; 0; 0; 0; 0];
     [0; - vx u0; 0; 0; - vy u0; 0; 0; - vz u0; 0; 0; 0; 0];
     [0; 0; - vx u0; 0; 0; - vy u0; 0; 0; - vz u0; 0; 0; 0]] in
  mmul J1 J2 12.

(** errorTerms.cpp 196-212: branch on the angle (in "degrees" as the code computes them,
    with its value of pi).  [None]: a component not written. *)
Definition alfa (lg ll : Line) (T : Pose) : R :=
  angle (l_dir lg) (row_times (l_dir ll) T) * 180 / (2 * (314159265 / 100000000)).
Definition error_line2line (lg ll : Line) (T : Pose) : list (option R) :=
  if Rlt_dec (Rabs (alfa lg ll T)) (1 / 100) then error_l2l_parallel lg ll T
  else map Some (error_l2l_general lg ll T).

(** ** Robust kernels, robust_kernels.h 57-95.  [None]: an empty functor, which the solvers
    treat as weight 1 (visit_correspondences.h, optimal_tf_gauss_newton.cpp). *)
Inductive Kernel := KNone | KGemanMcClure | KCauchy.
Definition kernel_fn (k : Kernel) (c : R) : option (R -> R) :=
  match k with
  | KNone => None
  | KGemanMcClure => Some (fun e2 => (c * c) / ((e2 + c) * (e2 + c)))
  | KCauchy => Some (fun e2 => (c * c) / (e2 + c * c))
  end.
Definition kernel_weight (k : Kernel) (c e2 : R) : R :=
  match kernel_fn k c with None => 1 | Some f => f e2 end.

(** ** pt2ln_pl_to_pt2pt.cpp *)
Record PtPair := mkPP { pp_global : V3; pp_local : V3 }.

(** lines 58-80: the key is the error *)
Definition plane_pair (T : Pose) (pl : Plane) (local : V3) : R * PtPair :=
  let g := compose T local in
  let d := eval_plane pl g in
  (Rabs d, mkPP (vsub g (vscale d (n_ pl))) local).

(** mrpt TLine3D::closestPointTo *)
Definition closest_on_line (ln : Line) (p : V3) : V3 :=
  vadd (l_base ln) (vscale (vdot (l_dir ln) (vsub p (l_base ln)) / vnorm2 (l_dir ln)) (l_dir ln)).

(** lines 90-110 *)
Definition line_pair (T : Pose) (ln : Line) (local : V3) : R * PtPair :=
  let g := compose T local in
  let c := closest_on_line ln g in
  (Rabs (vnorm (vsub c g)), mkPP c local).

(** std::multimap::insert: after the elements with the same key *)
Fixpoint mm_insert (x : R * PtPair) (l : list (R * PtPair)) : list (R * PtPair) :=
  match l with
  | [] => [x]
  | y :: t => if Rlt_dec (fst x) (fst y) then x :: y :: t else y :: mm_insert x t
  end.
Definition mm_of (l : list (R * PtPair)) : list (R * PtPair) := fold_left (fun m x => mm_insert x m) l [].

(** lines 24-43: from the largest error; stops at the first one below the threshold once
    there are three *)
Fixpoint take_sorted (thr : R) (desc : list (R * PtPair)) (out : list PtPair) : list PtPair :=
  match desc with
  | [] => out
  | (err, p) :: t =>
      if Rlt_dec err thr
      then if Nat.leb 3 (length out) then out else take_sorted thr t (out ++ [p])
      else take_sorted thr t (out ++ [p])
  end.
Definition append_from_sorted (sorted : list (R * PtPair)) (out : list PtPair) : list PtPair :=
  match rev sorted with
  | [] => out
  | (largest, p) :: t => take_sorted (largest * / 4) ((largest, p) :: t) out
  end.

(** lines 46-118.  Inputs: point-to-plane and point-to-line pairings, the pose (asserted to be
    there), and the point-to-point pairings, which are not read.  [None]: a plane normal not
    of unit length up to 1e-4 (ASSERT_NEAR_). *)
Record PlanePairing := mkPlP { plp_plane : Plane; plp_local : V3 }.
Record LinePairing := mkLnP { lnp_line : Line; lnp_local : V3 }.
Definition near_unit (v : V3) : bool :=
  if Rlt_dec (Rabs (vnorm v - 1)) (1 / 10000) then true else false.
Definition convert (T : Pose) (pt2pt : list PtPair) (pls : list PlanePairing) (lns : list LinePairing)
  : option (list PtPair) :=
  if forallb (fun p => near_unit (n_ (plp_plane p))) pls then
    let out1 := append_from_sorted (mm_of (map (fun p => plane_pair T (plp_plane p) (plp_local p)) pls)) [] in
    Some (append_from_sorted (mm_of (map (fun p => line_pair T (lnp_line p) (lnp_local p)) lns)) out1)
  else None.
