(** Model, over the reals, of the OLAE closed-form solver.

    Sources: mp2p_icp/src/optimal_tf_olae.cpp, mp2p_icp/src/Solver_OLAE.cpp 47-70.

    Simplifications: double arithmetic is exact real arithmetic (with M_PI = pi); Eigen's
    colPivHouseholderQr().solve() is a parameter [solve]. *)
From Coq Require Import Reals List Lra.
From Verif Require Import Base GeomModel VisitModel RotProofs HornModel.
Import ListNotations.
Open Scope R_scope.

Definition mvmul (M : M33) (x : V3) : V3 :=
  mkV (m00 M * vx x + m01 M * vy x + m02 M * vz x)
      (m10 M * vx x + m11 M * vy x + m12 M * vz x)
      (m20 M * vx x + m21 M * vy x + m22 M * vz x).
Definition det (M : M33) : R :=
  m00 M * (m11 M * m22 M - m12 M * m21 M) - m01 M * (m10 M * m22 M - m12 M * m20 M) +
  m02 M * (m10 M * m21 M - m11 M * m20 M).

(** optimal_tf_olae.cpp 141-160: B += wi * bi * ri', v -= wi * (bi x ri) *)
Definition B_add (B : M33) (c : call) : M33 :=
  let w := c_w c in let r := c_r c in let b := c_b c in
  mkM (m00 B + w * (vx b * vx r)) (m01 B + w * (vx b * vy r)) (m02 B + w * (vx b * vz r))
      (m10 B + w * (vy b * vx r)) (m11 B + w * (vy b * vy r)) (m12 B + w * (vy b * vz r))
      (m20 B + w * (vz b * vx r)) (m21 B + w * (vz b * vy r)) (m22 B + w * (vz b * vz r)).
Definition v_add (v : V3) (c : call) : V3 :=
  let w := c_w c in let r := c_r c in let b := c_b c in
  mkV (vx v - w * (vy b * vz r - vz b * vy r)) (vy v - w * (- vx b * vz r + vz b * vx r))
      (vz v - w * (vx b * vy r - vy b * vx r)).

(** lines 163-180: normalisation by the sum of weights *)
Definition B_of (cs : list call) (w_sum : R) : M33 :=
  let B := fold_left B_add cs S_zero in if Rlt_dec 0 w_sum then S_scale (1 / w_sum) B else B.
Definition v_of (cs : list call) (w_sum : R) : V3 :=
  let v := fold_left v_add cs vzero3 in if Rlt_dec 0 w_sum then vscale (1 / w_sum) v else v.

Record OlaeSys := mkOS { oM : M33; oMx : M33; oMy : M33; oMz : M33; ov : V3; ovx : V3; ovy : V3; ovz : V3 }.

(** lines 186-247: the four linear systems *)
Definition olae_systems (B : M33) (v : V3) : OlaeSys :=
  let s00 := m00 B + m00 B in let s01 := m01 B + m10 B in let s02 := m02 B + m20 B in
  let s11 := m11 B + m11 B in let s12 := m12 B + m21 B in let s22 := m22 B + m22 B in
  let tr := m00 B + m11 B + m22 B in
  let p := tr + 1 in
  let m := tr - 1 in
  let M0 := mkM (s00 - p) s01 s02 s01 (s11 - p) s12 s02 s12 (s22 - p) in
  let z1 := vx v in let z2 := vy v in let z3 := vz v in
  mkOS M0
    (mkM m (- z3) z2  (- z3) (m22 M0) (- s12)  z2 (- s12) (m11 M0))
    (mkM (m22 M0) z3 (- s02)  z3 m (- z1)  (- s02) (- z1) (m00 M0))
    (mkM (m11 M0) (- s01) (- z2)  (- s01) (m00 M0) z1  (- z2) z1 m)
    v (mkV (- z1) s02 (- s01)) (mkV (- s12) (- z2) s01) (mkV s12 (- s02) (- z3)).

(** lines 33-44 *)
Definition gibbs_quat (g : V3) : Quat :=
  let r := 1 / sqrt (1 + vx g * vx g + vy g * vy g + vz g * vz g) in
  mkQ r (- (vx g * r)) (- (vy g * r)) (- (vz g * r)).
Definition gibbs2pose (g : V3) : Pose := quat_rot (gibbs_quat g).

(** CPose3D(0,0,0, 0,0,M_PI), (0,0,0, 0,M_PI,0), (0,0,0, M_PI,0,0): half turns about x, y, z *)
Definition half_x : Pose := mkPose (mkV 1 0 0) (mkV 0 (-1) 0) (mkV 0 0 (-1)) vzero3.
Definition half_y : Pose := mkPose (mkV (-1) 0 0) (mkV 0 1 0) (mkV 0 0 (-1)) vzero3.
Definition half_z : Pose := mkPose (mkV (-1) 0 0) (mkV 0 (-1) 0) (mkV 0 0 1) vzero3.

(** composition of the rotations of two poses with null translation (CPose3D operator+) *)
Definition rot_mul (A C : Pose) : Pose := mkPose (rotate A (c0 C)) (rotate A (c1 C)) (rotate A (c2 C)) vzero3.

Definition max3 (a b c : R) : R := Rmax a (Rmax b c).

Section Olae.
Variable solve : M33 -> V3 -> V3.

(** lines 283-348: the attitude from the system with the largest determinant *)
Definition olae_attitude (s : OlaeSys) : Pose :=
  let d := Rabs (det (oM s)) in let dx := Rabs (det (oMx s)) in
  let dy := Rabs (det (oMy s)) in let dz := Rabs (det (oMz s)) in
  if Rlt_dec (max3 dx dy dz) d then gibbs2pose (solve (oM s) (ov s))
  else if Rlt_dec (max3 d dy dz) dx then rot_mul half_x (gibbs2pose (solve (oMx s) (ovx s)))
  else if Rlt_dec (max3 d dx dz) dy then rot_mul half_y (gibbs2pose (solve (oMy s) (ovy s)))
  else rot_mul half_z (gibbs2pose (solve (oMz s) (ovz s))).

(** lines 350-359 *)
Definition olae_pose (R0 : Pose) (ctl ctg : V3) : Pose :=
  mkPose (c0 R0) (c1 R0) (c2 R0) (vsub ctg (compose R0 ctl)).

(** lines 60-253 *)
Definition olae_build (p : VPairs) (wp : VWeights) (ctl ctg : V3) (outl : list nat) : res (OlaeSys * list nat) :=
  let* r := visit p wp ctl ctg outl true in
  Ok (olae_systems (B_of (vr_calls r) (vr_sum r)) (v_of (vr_calls r) (vr_sum r)), vr_outliers r).

(** lines 255-364 *)
Definition optimal_tf_olae (p : VPairs) (wp : VWeights) : res (bool * HResult) :=
  if Rle_dec 0 (wp_pt2pt wp) then if Rle_dec 0 (wp_ln2ln wp) then if Rle_dec 0 (wp_pl2pl wp) then
    let* ct := eval_centroids (vp_pts p) [] in
    let '(ctl, ctg) := ct in
    let* r1 := olae_build p wp ctl ctg [] in
    let '(sys, o) := r1 in
    if Nat.eqb (length o) 0 then Ok (true, mkHR (olae_pose (olae_attitude sys) ctl ctg) o)
    else
      let* ct2 := eval_centroids (vp_pts p) o in
      let '(ctl2, ctg2) := ct2 in
      let* r2 := olae_build p wp ctl2 ctg2 o in
      let '(sys2, o2) := r2 in
      Ok (true, mkHR (olae_pose (olae_attitude sys2) ctl2 ctg2) o2)
  else Throw else Throw else Throw.
End Olae.
