(** Rotations and unit quaternions over the reals: facts used for the closed-form solvers.
    No code of /repo is modelled here except [quat_rot]. *)
From Coq Require Import Reals List Lra Lia Psatz Nsatz.
From Verif Require Import GeomModel.
Import ListNotations.
Open Scope R_scope.

(** A rotation matrix: orthonormal columns, right-handed. *)
Definition is_rotation (T : Pose) : Prop :=
  vnorm2 (c0 T) = 1 /\ vnorm2 (c1 T) = 1 /\ vnorm2 (c2 T) = 1 /\
  vdot (c0 T) (c1 T) = 0 /\ vdot (c0 T) (c2 T) = 0 /\ vdot (c1 T) (c2 T) = 0 /\
  vcross (c0 T) (c1 T) = c2 T.

Record Quat := mkQ { qr : R; qx : R; qy : R; qz : R }.
Definition qnorm2 (q : Quat) : R := qr q * qr q + qx q * qx q + qy q * qy q + qz q * qz q.

(** mrpt CPose3D(CQuaternionDouble, 0, 0, 0): the rotation matrix of a unit quaternion *)
Definition quat_rot (q : Quat) : Pose :=
  let (r, x, y, z) := q in
  mkPose (mkV (r*r + x*x - y*y - z*z) (2 * (x*y + r*z)) (2 * (z*x - r*y)))
         (mkV (2 * (x*y - r*z)) (r*r - x*x + y*y - z*z) (2 * (y*z + r*x)))
         (mkV (2 * (z*x + r*y)) (2 * (y*z - r*x)) (r*r - x*x - y*y + z*z))
         (mkV 0 0 0).

Ltac vunf := unfold compose in *; unfold rotate in *; unfold vnorm2 in *; unfold vdot, vcross, vsub, vadd, vscale in *; simpl in *.

Lemma quat_rot_is_rotation q : qnorm2 q = 1 -> is_rotation (quat_rot q).
Proof.
  destruct q as [r x y z]. unfold qnorm2; simpl. intros H. unfold is_rotation; vunf.
  assert (HH : (r*r + x*x + y*y + z*z) * (r*r + x*x + y*y + z*z) = 1) by (rewrite H; ring).
  repeat split; try nsatz. 
  unfold quat_rot; simpl. f_equal; nsatz.
Qed.

Lemma rot_rows T : is_rotation T ->
  let m00 := vx (c0 T) in let m10 := vy (c0 T) in let m20 := vz (c0 T) in
  let m01 := vx (c1 T) in let m11 := vy (c1 T) in let m21 := vz (c1 T) in
  let m02 := vx (c2 T) in let m12 := vy (c2 T) in let m22 := vz (c2 T) in
  m00*m00 + m01*m01 + m02*m02 = 1 /\ m10*m10 + m11*m11 + m12*m12 = 1 /\ m20*m20 + m21*m21 + m22*m22 = 1 /\
  m00*m10 + m01*m11 + m02*m12 = 0 /\ m00*m20 + m01*m21 + m02*m22 = 0 /\ m10*m20 + m11*m21 + m12*m22 = 0 /\
  m00 = m11*m22 - m12*m21 /\ m10 = m21*m02 - m22*m01 /\ m20 = m01*m12 - m02*m11 /\
  m01 = m20*m12 - m10*m22 /\ m11 = m00*m22 - m20*m02 /\ m21 = m10*m02 - m00*m12 /\
  m02 = m10*m21 - m20*m11 /\ m12 = m20*m01 - m00*m21 /\ m22 = m00*m11 - m10*m01.
Proof.
  destruct T as [[m00 m10 m20] [m01 m11 m21] [m02 m12 m22] t]. unfold is_rotation; vunf.
  intros (N0 & N1 & N2 & D01 & D02 & D12 & X). injection X as X0 X1 X2.
  repeat split; nsatz.
Qed.

Lemma div_sq_form a b c : a <> 0 -> b * b = a * c -> c = b * b / a.
Proof. intros A H. rewrite H. field. exact A. Qed.

(** every rotation matrix is the matrix of a unit quaternion *)
Lemma rotation_has_quat T : is_rotation T ->
  exists q, qnorm2 q = 1 /\ c0 (quat_rot q) = c0 T /\ c1 (quat_rot q) = c1 T /\ c2 (quat_rot q) = c2 T.
Proof.
  intros RT. assert (H := rot_rows T RT). cbv zeta in H. destruct RT as (N0 & N1 & N2 & D01 & D02 & D12 & _).
  destruct T as [[m00 m10 m20] [m01 m11 m21] [m02 m12 m22] t]. simpl in *. vunf.
  destruct H as (R0 & R1 & R2 & R01 & R02 & R12 & K00 & K10 & K20 & K01 & K11 & K21 & K02 & K12 & K22).
  assert (CASES : 1 <= 1 + m00 + m11 + m22 \/ 1 <= 1 + m00 - m11 - m22 \/ 1 <= 1 - m00 + m11 - m22 \/ 1 <= 1 - m00 - m11 + m22) by lra.
  destruct CASES as [C|[C|[C|C]]].
  - set (s := sqrt (1 + m00 + m11 + m22)). assert (S2 : s * s = 1 + m00 + m11 + m22) by (apply sqrt_sqrt; lra).
    assert (SP : s <> 0) by (intros E; rewrite E in S2; lra).
    exists (mkQ (s / 2) ((m21 - m12) / (2 * s)) ((m02 - m20) / (2 * s)) ((m10 - m01) / (2 * s))).
    assert (I : / s * s = 1) by (field; exact SP). unfold Rdiv. rewrite Rinv_mult. set (i := / s) in *.
    assert (I2 : i * i * (1 + m00 + m11 + m22) = 1) by (rewrite <- S2; nsatz).
    clearbody i s. clear SP C. unfold qnorm2, quat_rot; simpl.
    assert (h : / 2 * 2 = 1) by field. set (hf := / 2) in *. clearbody hf.
    split; [nsatz|]. split; [f_equal; nsatz|]. split; f_equal; nsatz.
  - set (s := sqrt (1 + m00 - m11 - m22)). assert (S2 : s * s = 1 + m00 - m11 - m22) by (apply sqrt_sqrt; lra).
    assert (SP : s <> 0) by (intros E; rewrite E in S2; lra).
    exists (mkQ ((m21 - m12) / (2 * s)) (s / 2) ((m10 + m01) / (2 * s)) ((m02 + m20) / (2 * s))).
    assert (I : / s * s = 1) by (field; exact SP). unfold Rdiv. rewrite Rinv_mult. set (i := / s) in *.
    clearbody i s. clear SP C. unfold qnorm2, quat_rot; simpl.
    assert (h : / 2 * 2 = 1) by field. set (hf := / 2) in *. clearbody hf.
    split; [nsatz|]. split; [f_equal; nsatz|]. split; f_equal; nsatz.
  - set (s := sqrt (1 - m00 + m11 - m22)). assert (S2 : s * s = 1 - m00 + m11 - m22) by (apply sqrt_sqrt; lra).
    assert (SP : s <> 0) by (intros E; rewrite E in S2; lra).
    exists (mkQ ((m02 - m20) / (2 * s)) ((m10 + m01) / (2 * s)) (s / 2) ((m21 + m12) / (2 * s))).
    assert (I : / s * s = 1) by (field; exact SP). unfold Rdiv. rewrite Rinv_mult. set (i := / s) in *.
    clearbody i s. clear SP C. unfold qnorm2, quat_rot; simpl.
    assert (h : / 2 * 2 = 1) by field. set (hf := / 2) in *. clearbody hf.
    split; [nsatz|]. split; [f_equal; nsatz|]. split; f_equal; nsatz.
  - set (s := sqrt (1 - m00 - m11 + m22)). assert (S2 : s * s = 1 - m00 - m11 + m22) by (apply sqrt_sqrt; lra).
    assert (SP : s <> 0) by (intros E; rewrite E in S2; lra).
    exists (mkQ ((m10 - m01) / (2 * s)) ((m02 + m20) / (2 * s)) ((m21 + m12) / (2 * s)) (s / 2)).
    assert (I : / s * s = 1) by (field; exact SP). unfold Rdiv. rewrite Rinv_mult. set (i := / s) in *.
    clearbody i s. clear SP C. unfold qnorm2, quat_rot; simpl.
    assert (h : / 2 * 2 = 1) by field. set (hf := / 2) in *. clearbody hf.
    split; [nsatz|]. split; [f_equal; nsatz|]. split; f_equal; nsatz.
Qed.
