(** Model of the prior term of the Gauss-Newton solver.

    Source: mp2p_icp/src/optimal_tf_gauss_newton.cpp 310-341.

    Simplifications: MRPT's SE(3) logarithm and jacob_dDinvP1invP2_de1e2 (the derivative of
    log(inv(D) inv(P1) P2 exp(e)) at e = 0) are parameters; double arithmetic is exact. *)
From Coq Require Import Reals List Lra.
From Verif Require Import Base GeomModel VisitModel GnModel.
Import ListNotations.
Open Scope R_scope.

(** Eigen: transpose, product *)
Definition trM (A : M66) : M66 :=
  let c f := mk6 (f (r0 A)) (f (r1 A)) (f (r2 A)) (f (r3 A)) (f (r4 A)) (f (r5 A)) in
  mkM6 (c x0) (c x1) (c x2) (c x3) (c x4) (c x5).
Definition mulM (A B : M66) : M66 :=
  let C := trM B in
  mkM6 (mulMV C (r0 A)) (mulMV C (r1 A)) (mulMV C (r2 A)) (mulMV C (r3 A)) (mulMV C (r4 A)) (mulMV C (r5 A)).

(** CPose3D::operator-: inv(B) A (line 319), for B with orthonormal columns *)
Definition unrotate (B : Pose) (v : V3) : V3 := mkV (vdot (c0 B) v) (vdot (c1 B) v) (vdot (c2 B) v).
Definition pose_minus (A B : Pose) : Pose :=
  mkPose (unrotate B (c0 A)) (unrotate B (c1 A)) (unrotate B (c2 A)) (unrotate B (vsub (tr A) (tr B))).

(** CPose3DPDFGaussianInf *)
Record Prior := mkPrior { pr_mean : Pose; pr_inf : M66 }.

Section PriorTerm.
Variable log6 : Pose -> V6.
Variable jac2 : Pose -> Pose -> Pose -> M66.     (* D, P1, P2 *)
Definition pose_ident : Pose := mkPose (mkV 1 0 0) (mkV 0 1 0) (mkV 0 0 1) (mkV 0 0 0).
(** lines 313-340: what is added to H and g *)
Definition prior_terms (pr : Prior) (T : Pose) : M66 * V6 :=
  let P1invP2 := pose_minus T (pr_mean pr) in
  let err_i := log6 P1invP2 in
  let df_de2 := jac2 pose_ident (pr_mean pr) T in
  let JtL := mulM (trM df_de2) (pr_inf pr) in
  (mulM JtL df_de2, mulMV JtL err_i).
End PriorTerm.
