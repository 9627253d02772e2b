(** Model, over the reals, of Horn's closed-form solver.

    Sources: mp2p_icp/src/optimal_tf_horn.cpp, mp2p_icp/src/Solver_Horn.cpp 41-64.

    Simplifications: double arithmetic is exact real arithmetic.  mrpt's eig_symmetric is a
    parameter [eig]; its contract ([spectral] below: an orthonormal eigenbasis, eigenvalues in
    increasing order) is a hypothesis of the theorems, only for the matrix of the run. *)
From Coq Require Import Reals List Lra.
From Verif Require Import Base GeomModel VisitModel RotProofs.
Import ListNotations.
Open Scope R_scope.

(** A 3x3 matrix as a function of the indices 0..2, by rows *)
Record M33 := mkM { m00 : R; m01 : R; m02 : R; m10 : R; m11 : R; m12 : R; m20 : R; m21 : R; m22 : R }.

(** optimal_tf_horn.cpp 97-115: S += wi * ri * bi' *)
Definition S_add (S : M33) (c : call) : M33 :=
  let w := c_w c in let r := c_r c in let b := c_b c in
  mkM (m00 S + w * vx r * vx b) (m01 S + w * vx r * vy b) (m02 S + w * vx r * vz b)
      (m10 S + w * vy r * vx b) (m11 S + w * vy r * vy b) (m12 S + w * vy r * vz b)
      (m20 S + w * vz r * vx b) (m21 S + w * vz r * vy b) (m22 S + w * vz r * vz b).
Definition S_zero : M33 := mkM 0 0 0 0 0 0 0 0 0.
Definition S_scale (k : R) (S : M33) : M33 :=
  mkM (k * m00 S) (k * m01 S) (k * m02 S) (k * m10 S) (k * m11 S) (k * m12 S) (k * m20 S) (k * m21 S) (k * m22 S).

(** lines 97-122 *)
Definition S_of (calls : list call) (w_sum : R) : M33 :=
  let S := fold_left S_add calls S_zero in
  if Rlt_dec 0 w_sum then S_scale (1 / w_sum) S else S.

(** symmetric 4x4 matrices, upper triangle *)
Record Sym4 := mkS4 { n00 : R; n01 : R; n02 : R; n03 : R; n11 : R; n12 : R; n13 : R; n22 : R; n23 : R; n33 : R }.
(** lines 130-151 *)
Definition N_of (S : M33) : Sym4 :=
  mkS4 (m00 S + m11 S + m22 S) (m12 S - m21 S) (m20 S - m02 S) (m01 S - m10 S)
       (m00 S - m11 S - m22 S) (m01 S + m10 S) (m20 S + m02 S)
       (- m00 S + m11 S - m22 S) (m12 S + m21 S)
       (- m00 S - m11 S + m22 S).

(** what eig_symmetric returns: four eigenvectors (columns of Z) and their eigenvalues *)
Record Eig := mkEig { z0 : Quat; z1 : Quat; z2 : Quat; z3 : Quat; lam0 : R; lam1 : R; lam2 : R; lam3 : R }.
Definition qdot (a b : Quat) : R := qr a * qr b + qx a * qx b + qy a * qy b + qz a * qz b.

(** the quadratic form v' N v *)
Definition quad4 (N : Sym4) (v : Quat) : R :=
  let (r, x, y, z) := v in
  n00 N * r * r + n11 N * x * x + n22 N * y * y + n33 N * z * z +
  2 * (n01 N * r * x + n02 N * r * y + n03 N * r * z + n12 N * x * y + n13 N * x * z + n23 N * y * z).

(** Contract of mrpt eig_symmetric(Z, eigvals, sorted=true): N = Z diag(eigvals) Z' (stated as
    equality of quadratic forms), Z orthogonal, eigenvalues in increasing order. *)
Definition spectral (N : Sym4) (e : Eig) : Prop :=
  lam0 e <= lam1 e /\ lam1 e <= lam2 e /\ lam2 e <= lam3 e /\
  qdot (z0 e) (z0 e) = 1 /\ qdot (z1 e) (z1 e) = 1 /\ qdot (z2 e) (z2 e) = 1 /\ qdot (z3 e) (z3 e) = 1 /\
  qdot (z0 e) (z3 e) = 0 /\ qdot (z1 e) (z3 e) = 0 /\ qdot (z2 e) (z3 e) = 0 /\
  (forall u, qdot (z0 e) u * qdot (z0 e) u + qdot (z1 e) u * qdot (z1 e) u +
             qdot (z2 e) u * qdot (z2 e) u + qdot (z3 e) u * qdot (z3 e) u = qnorm2 u) /\
  (forall u, quad4 N u = lam0 e * (qdot (z0 e) u * qdot (z0 e) u) + lam1 e * (qdot (z1 e) u * qdot (z1 e) u) +
                         lam2 e * (qdot (z2 e) u * qdot (z2 e) u) + lam3 e * (qdot (z3 e) u * qdot (z3 e) u)).

Section Horn.
Variable eig : Sym4 -> Eig.

(** lines 157-176: greatest eigenvector, with q_r >= 0 *)
Definition best_quat (N : Sym4) : Quat :=
  let v := z3 (eig N) in
  if Rlt_dec (qr v) 0 then mkQ (- qr v) (- qx v) (- qy v) (- qz v) else v.

(** lines 76-206: [None]: returned false (and the outliers unchanged) *)
Definition se3_l2_internal (p : VPairs) (wp : VWeights) (ctl ctg : V3) (outl : list nat)
  : res (option Quat * list nat) :=
  if Nat.eqb (vp_nPt2Ln p) 0 && Nat.eqb (vp_nPt2Pl p) 0 then
    if Nat.ltb (length (vp_pts p) + length (vp_lns p) + length (vp_pls p)) 3 then Ok (None, outl)
    else
      let* r := visit p wp ctl ctg outl false in
      Ok (Some (best_quat (N_of (S_of (vr_calls r) (vr_sum r)))), vr_outliers r)
  else Throw.

(** OptimalTF_Result: pose and outliers (the scale stays 1) *)
Record HResult := mkHR { hr_pose : Pose; hr_outliers : list nat }.
Definition id_pose : Pose := mkPose (mkV 1 0 0) (mkV 0 1 0) (mkV 0 0 1) vzero3.
Definition hr_default : HResult := mkHR id_pose [].

(** lines 241-253 *)
Definition pose_of (q : Quat) (ctl ctg : V3) : Pose :=
  let R0 := quat_rot q in
  mkPose (c0 R0) (c1 R0) (c2 R0) (vsub ctg (compose R0 ctl)).

(** lines 208-258: the returned flag and [result] *)
Definition optimal_tf_horn (p : VPairs) (wp : VWeights) : res (bool * HResult) :=
  if Rle_dec 0 (wp_pt2pt wp) then if Rle_dec 0 (wp_ln2ln wp) then if Rle_dec 0 (wp_pl2pl wp) then
    let* ct := eval_centroids (vp_pts p) [] in
    let '(ctl, ctg) := ct in
    let* r1 := se3_l2_internal p wp ctl ctg [] in
    match r1 with
    | (None, o) => Ok (false, mkHR id_pose o)
    | (Some q, o) =>
      if wp_use_scale wp && negb (Nat.eqb (length o) 0) then
        let* ct2 := eval_centroids (vp_pts p) o in
        let '(ctl2, ctg2) := ct2 in
        let* r2 := se3_l2_internal p wp ctl2 ctg2 o in
        match r2 with
        | (None, o2) => Ok (false, mkHR id_pose o2)
        | (Some q2, o2) => Ok (true, mkHR (pose_of q2 ctl2 ctg2) o2)
        end
      else Ok (true, mkHR (pose_of q ctl ctg) o)
    end
  else Throw else Throw else Throw.

(** Solver_Horn.cpp 41-64.  [convert]: pt2ln_pl_to_pt2pt() (C33), used if there are point-to-line or
    point-to-plane pairs; [None]: it throws.  [out] is the caller's result, overwritten first. *)
Definition solver_horn (convert : VPairs -> option VPairs) (p : VPairs) (wp : VWeights) (out : HResult)
  : res (bool * HResult) :=
  if Nat.eqb (vp_nPt2Ln p) 0 && Nat.eqb (vp_nPt2Pl p) 0 then optimal_tf_horn p wp
  else match convert p with
       | None => Throw
       | Some p' => optimal_tf_horn p' wp
       end.
End Horn.
