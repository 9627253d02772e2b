(** Horn's solver: the returned rotation is optimal. *)
From Coq Require Import Reals List Lra Lia Psatz.
From Verif Require Import Base GeomModel VisitModel RotProofs HornModel.
Import ListNotations.
Open Scope R_scope.

(** weighted squared error of the rotation of [T] on the pairs of vectors of the calls *)
Fixpoint rot_cost (cs : list call) (T : Pose) : R :=
  match cs with [] => 0 | c :: r => c_w c * vnorm2 (vsub (c_b c) (rotate T (c_r c))) + rot_cost r T end.
Fixpoint gain (cs : list call) (T : Pose) : R :=
  match cs with [] => 0 | c :: r => c_w c * vdot (c_b c) (rotate T (c_r c)) + gain r T end.
Fixpoint mass (cs : list call) : R :=
  match cs with [] => 0 | c :: r => c_w c * (vnorm2 (c_b c) + vnorm2 (c_r c)) + mass r end.

Lemma rotate_norm2 T v : is_rotation T -> vnorm2 (rotate T v) = vnorm2 v.
Proof.
  intros RT. destruct RT as (N0 & N1 & N2 & D01 & D02 & D12 & _).
  destruct T as [[a0 a1 a2] [b0 b1 b2] [e0 e1 e2] t], v as [x y z]. vunf.
  transitivity (x*x*(a0*a0+a1*a1+a2*a2) + y*y*(b0*b0+b1*b1+b2*b2) + z*z*(e0*e0+e1*e1+e2*e2)
     + 2*x*y*(a0*b0+a1*b1+a2*b2) + 2*x*z*(a0*e0+a1*e1+a2*e2) + 2*y*z*(b0*e0+b1*e1+b2*e2)); [ring|].
  rewrite N0, N1, N2, D01, D02, D12. ring.
Qed.

Lemma rot_cost_gain cs T : is_rotation T -> rot_cost cs T = mass cs - 2 * gain cs T.
Proof.
  intros RT. induction cs as [|c cs IH]; simpl; [ring|]. rewrite IH.
  assert (E : vnorm2 (vsub (c_b c) (rotate T (c_r c))) = vnorm2 (c_b c) + vnorm2 (rotate T (c_r c)) - 2 * vdot (c_b c) (rotate T (c_r c)))
    by (unfold vnorm2, vdot, vsub; simpl; ring).
  rewrite E, rotate_norm2 by exact RT. ring.
Qed.

Lemma quad_fold cs : forall S q, quad4 (N_of (fold_left S_add cs S)) q = quad4 (N_of S) q + gain cs (quat_rot q).
Proof.
  induction cs as [|c cs IH]; intros S q; simpl; [ring|]. rewrite IH.
  assert (E : quad4 (N_of (S_add S c)) q = quad4 (N_of S) q + c_w c * vdot (c_b c) (rotate (quat_rot q) (c_r c))); [|rewrite E; ring].
  destruct q as [r x y z], S, c as [i [b0 b1 b2] [r0 r1 r2] w]. unfold S_add, N_of, quad4, vdot, rotate, vadd, vscale, quat_rot; simpl. ring.
Qed.

Lemma quad_scale k S q : quad4 (N_of (S_scale k S)) q = k * quad4 (N_of S) q.
Proof. destruct q, S. unfold S_scale, N_of, quad4; simpl. ring. Qed.
Lemma quad_zero q : quad4 (N_of S_zero) q = 0.
Proof. destruct q. unfold S_zero, N_of, quad4; simpl. ring. Qed.

Lemma best_quat_unit eig N : spectral N (eig N) -> qnorm2 (best_quat eig N) = 1.
Proof.
  intros (_ & _ & _ & _ & _ & _ & H & _). unfold best_quat, qdot, qnorm2 in *.
  destruct (Rlt_dec _ 0); simpl; lra.
Qed.

Lemma spectral_max N e : spectral N e -> forall u, qnorm2 u = 1 -> quad4 N u <= quad4 N (z3 e).
Proof.
  intros (L0 & L1 & L2 & _ & _ & _ & U3 & O0 & O1 & O2 & PL & QF) u HU.
  rewrite (QF u), (QF (z3 e)), O0, O1, O2, U3. specialize (PL u). rewrite HU in PL.
  set (a := qdot (z0 e) u) in *. set (b := qdot (z1 e) u) in *. set (c := qdot (z2 e) u) in *. set (d := qdot (z3 e) u) in *.
  assert (A : 0 <= a * a) by apply Rle_0_sqr. assert (B : 0 <= b * b) by apply Rle_0_sqr. assert (C : 0 <= c * c) by apply Rle_0_sqr.
  assert (X : lam3 e = lam3 e * (a * a + b * b + c * c + d * d)) by (rewrite PL; ring).
  assert (M0 : lam0 e * (a * a) <= lam3 e * (a * a)) by (apply Rmult_le_compat_r; lra).
  assert (M1 : lam1 e * (b * b) <= lam3 e * (b * b)) by (apply Rmult_le_compat_r; lra).
  assert (M2 : lam2 e * (c * c) <= lam3 e * (c * c)) by (apply Rmult_le_compat_r; lra).
  lra.
Qed.

Lemma best_quat_max eig N : spectral N (eig N) -> forall u, qnorm2 u = 1 -> quad4 N u <= quad4 N (best_quat eig N).
Proof.
  intros H u HU. assert (M := spectral_max _ _ H u HU).
  assert (E : quad4 N (best_quat eig N) = quad4 N (z3 (eig N))); [|lra].
  unfold best_quat. destruct (Rlt_dec _ 0); [|reflexivity]. destruct (z3 (eig N)). unfold quad4; simpl. ring.
Qed.

Lemma rotate_cols T T' v : c0 T = c0 T' -> c1 T = c1 T' -> c2 T = c2 T' -> rotate T v = rotate T' v.
Proof. intros A B C. unfold rotate. rewrite A, B, C. reflexivity. Qed.
Lemma gain_cols cs T T' : c0 T = c0 T' -> c1 T = c1 T' -> c2 T = c2 T' -> gain cs T = gain cs T'.
Proof. intros A B C. induction cs as [|c cs IH]; simpl; [reflexivity|]. rewrite IH, (rotate_cols T T') by assumption. reflexivity. Qed.

(** no rotation has a lower cost than the one of the greatest eigenvector *)
Lemma horn_rotation_optimal eig cs wsum :
  0 < wsum -> spectral (N_of (S_of cs wsum)) (eig (N_of (S_of cs wsum))) ->
  let q := best_quat eig (N_of (S_of cs wsum)) in
  is_rotation (quat_rot q) /\ forall T, is_rotation T -> rot_cost cs (quat_rot q) <= rot_cost cs T.
Proof.
  intros W SP q. assert (U := best_quat_unit eig _ SP). fold q in U. assert (RQ := quat_rot_is_rotation q U).
  split; [exact RQ|]. intros T RT. rewrite !rot_cost_gain by assumption.
  destruct (rotation_has_quat T RT) as [u [HU [E0 [E1 E2]]]].
  assert (M := best_quat_max eig _ SP u HU). fold q in M. unfold S_of in M.
  destruct (Rlt_dec 0 wsum); [|contradiction]. rewrite !quad_scale, !quad_fold, !quad_zero in M.
  assert (K : 0 < 1 / wsum) by (apply Rmult_lt_0_compat; [lra|apply Rinv_0_lt_compat; exact W]).
  apply Rmult_le_reg_l in M; [|exact K]. rewrite (gain_cols cs (quat_rot u) T) in M by assumption. lra.
Qed.

(** two rotations that agree on two independent vectors agree everywhere *)
Lemma rotate_cross T a b : is_rotation T -> rotate T (vcross a b) = vcross (rotate T a) (rotate T b).
Proof.
  intros RT. assert (H := rot_rows T RT). cbv zeta in H.
  destruct T as [[p00 p10 p20] [p01 p11 p21] [p02 p12 p22] t], a as [ax ay az], b as [bx by_ bz]. simpl in *. vunf.
  destruct H as (_ & _ & _ & _ & _ & _ & K00 & K10 & K20 & K01 & K11 & K21 & K02 & K12 & K22).
  f_equal.
  - transitivity ((ay * bz - az * by_) * (p11*p22 - p12*p21) + (az * bx - ax * bz) * (p20*p12 - p10*p22) + (ax * by_ - ay * bx) * (p10*p21 - p20*p11)).
    + rewrite <- K00, <- K01, <- K02. ring. + ring.
  - transitivity ((ay * bz - az * by_) * (p21*p02 - p22*p01) + (az * bx - ax * bz) * (p00*p22 - p20*p02) + (ax * by_ - ay * bx) * (p20*p01 - p00*p21)).
    + rewrite <- K10, <- K11, <- K12. ring. + ring.
  - transitivity ((ay * bz - az * by_) * (p01*p12 - p02*p11) + (az * bx - ax * bz) * (p10*p02 - p00*p12) + (ax * by_ - ay * bx) * (p00*p11 - p10*p01)).
    + rewrite <- K20, <- K21, <- K22. ring. + ring.
Qed.

Lemma rotate_add T a b : rotate T (vadd a b) = vadd (rotate T a) (rotate T b).
Proof. destruct T as [[? ? ?] [? ? ?] [? ? ?] ?], a, b. vunf. f_equal; ring. Qed.
Lemma rotate_scale T k a : rotate T (vscale k a) = vscale k (rotate T a).
Proof. destruct T as [[? ? ?] [? ? ?] [? ? ?] ?], a. vunf. f_equal; ring. Qed.
Lemma rotate_sub T a b : rotate T (vsub a b) = vsub (rotate T a) (rotate T b).
Proof. destruct T as [[? ? ?] [? ? ?] [? ? ?] ?], a, b. vunf. f_equal; ring. Qed.

(** coordinates in the basis a, b, a x b *)
Lemma in_basis a b v : vcross a b <> mkV 0 0 0 ->
  exists k1 k2 k3, v = vadd (vadd (vscale k1 a) (vscale k2 b)) (vscale k3 (vcross a b)).
Proof.
  intros NZ. set (n := vcross a b) in *.
  assert (D : vnorm2 n <> 0).
  { intros E. apply NZ. destruct n as [x y z]. unfold vnorm2, vdot in E; simpl in E.
    assert (x = 0) by nra. assert (y = 0) by nra. assert (z = 0) by nra. subst. reflexivity. }
  exists (vdot (vcross v b) n / vnorm2 n), (vdot (vcross a v) n / vnorm2 n), (vdot v n / vnorm2 n).
  unfold n in *. clear n NZ. destruct a as [ax ay az], b as [bx by_ bz], v as [x y z]. vunf.
  f_equal; field; exact D.
Qed.

Lemma rotation_determined T T' a b : is_rotation T -> is_rotation T' -> vcross a b <> mkV 0 0 0 ->
  rotate T a = rotate T' a -> rotate T b = rotate T' b -> forall v, rotate T v = rotate T' v.
Proof.
  intros RT RT' NZ EA EB v. destruct (in_basis a b v NZ) as [k1 [k2 [k3 ->]]].
  rewrite !rotate_add, !rotate_scale, !rotate_cross by assumption. rewrite EA, EB. reflexivity.
Qed.

Lemma cols_from_rotate T T' : (forall v, rotate T v = rotate T' v) -> c0 T = c0 T' /\ c1 T = c1 T' /\ c2 T = c2 T'.
Proof.
  intros H. assert (A := H (mkV 1 0 0)). assert (B := H (mkV 0 1 0)). assert (C := H (mkV 0 0 1)).
  destruct T as [[? ? ?] [? ? ?] [? ? ?] ?], T' as [[? ? ?] [? ? ?] [? ? ?] ?]. vunf.
  injection A as A0 A1 A2. injection B as B0 B1 B2. injection C as C0 C1 C2.
  repeat split; f_equal; lra.
Qed.
