(** The same scene seen from other frames: what the matcher finds and what Horn's solver answers. *)
From Coq Require Import Reals Qreals List Lra Lia.
From Verif Require Import Base PairingsModel MatcherModel BitfieldModel BitfieldProofs PointMatcherModel PointMatcherSpec PointMatcherProofs
  SolverModel QualityModel IcpModel GeomModel VisitModel VisitSpec VisitProps RotProofs
  HornModel HornProofs NoiselessProofs HornProps HornUniqueProps SmCliModel EndToEndModel EndToEndProps MonotoneProps FixpointProofs.
Import ListNotations.
Open Scope nat_scope.

(** ** Specification *)
(** The global points seen from a frame in which they are moved by [S], the local points from one in which they are moved by [M]: the pose
    [T'] is [T] seen from those frames. *)
Definition seen_as (S M T T' : Pose) : Prop := forall u, compose T' (compose M u) = compose S (compose T u).
Definition moved_points (S : Pose) (ps ps' : list P3) : Prop := Forall2 (fun p p' => to_v p' = compose S (to_v p)) ps ps'.
(** the same pair in the two frames *)
Definition same_pair (S M : Pose) (x x' : Pair) : Prop :=
  p_globalIdx x' = p_globalIdx x /\ p_localIdx x' = p_localIdx x /\ (p_err x' == p_err x)%Q /\
  to_v (p_global x') = compose S (to_v (p_global x)) /\ to_v (p_local x') = compose M (to_v (p_local x)).
(** no local point within the threshold has two nearest global points *)
Definition one_nearest (thr : Q) (Gs : list P3) (tf : P3 -> P3) (Ls : list P3) : Prop :=
  forall l i j g h, In l Ls -> nth_error Gs i = Some g -> nth_error Gs j = Some h ->
    (forall k, In k Gs -> (sqd (tf l) g <= sqd (tf l) k)%Q) -> (sqd (tf l) h == sqd (tf l) g)%Q -> (sqd (tf l) g < qsq thr)%Q -> i = j.

(** ** Rigid motions *)
Ltac punf := unfold compose, rotate, vnorm2, vdot, vcross, vsub, vadd, vscale; cbn [c0 c1 c2 tr vx vy vz].
Definition pinv (T : Pose) : Pose :=
  mkPose (mkV (vx (c0 T)) (vx (c1 T)) (vx (c2 T))) (mkV (vy (c0 T)) (vy (c1 T)) (vy (c2 T))) (mkV (vz (c0 T)) (vz (c1 T)) (vz (c2 T)))
    (mkV (- vdot (c0 T) (tr T)) (- vdot (c1 T) (tr T)) (- vdot (c2 T) (tr T))).

Lemma pinv_rotation T : is_rotation T -> is_rotation (pinv T).
Proof.
  intro H. assert (X := rot_rows T H). cbv zeta in X. clear H. destruct T as [[a0 a1 a2] [b0 b1 b2] [d0 d1 d2] t].
  cbn [c0 c1 c2 tr vx vy vz] in X. destruct X as (R0 & R1 & R2 & R01 & R02 & R12 & K00 & K10 & K20 & K01 & K11 & K21 & K02 & K12 & K22).
  unfold is_rotation, pinv. punf.
  split; [exact R0|]. split; [exact R1|]. split; [exact R2|]. split; [exact R01|]. split; [exact R02|]. split; [exact R12|].
  f_equal; [rewrite K20|rewrite K21|rewrite K22]; ring.
Qed.
Lemma pinv_left T u : is_rotation T -> compose (pinv T) (compose T u) = u.
Proof.
  destruct T as [[a0 a1 a2] [b0 b1 b2] [d0 d1 d2] [t0 t1 t2]], u as [x y z]. unfold is_rotation, pinv. punf.
  intros (N0 & N1 & N2 & D01 & D02 & D12 & _). f_equal.
  - transitivity (x * (a0*a0+a1*a1+a2*a2) + y * (a0*b0+a1*b1+a2*b2) + z * (a0*d0+a1*d1+a2*d2))%R; [ring|]. rewrite N0, D01, D02. ring.
  - transitivity (x * (a0*b0+a1*b1+a2*b2) + y * (b0*b0+b1*b1+b2*b2) + z * (b0*d0+b1*d1+b2*d2))%R; [ring|]. rewrite N1, D01, D12. ring.
  - transitivity (x * (a0*d0+a1*d1+a2*d2) + y * (b0*d0+b1*d1+b2*d2) + z * (d0*d0+d1*d1+d2*d2))%R; [ring|]. rewrite N2, D02, D12. ring.
Qed.
Lemma pinv_right T u : is_rotation T -> compose T (compose (pinv T) u) = u.
Proof.
  intro H. assert (X := rot_rows T H). cbv zeta in X. clear H. destruct T as [[a0 a1 a2] [b0 b1 b2] [d0 d1 d2] [t0 t1 t2]], u as [x y z].
  cbn [c0 c1 c2 tr vx vy vz] in X. destruct X as (R0 & R1 & R2 & R01 & R02 & R12 & _). unfold pinv. punf. f_equal.
  - transitivity ((x - t0) * (a0*a0+b0*b0+d0*d0) + (y - t1) * (a0*a1+b0*b1+d0*d1) + (z - t2) * (a0*a2+b0*b2+d0*d2) + t0)%R; [ring|]. rewrite R0, R01, R02. ring.
  - transitivity ((x - t0) * (a0*a1+b0*b1+d0*d1) + (y - t1) * (a1*a1+b1*b1+d1*d1) + (z - t2) * (a1*a2+b1*b2+d1*d2) + t1)%R; [ring|]. rewrite R1, R01, R12. ring.
  - transitivity ((x - t0) * (a0*a2+b0*b2+d0*d2) + (y - t1) * (a1*a2+b1*b2+d1*d2) + (z - t2) * (a2*a2+b2*b2+d2*d2) + t2)%R; [ring|]. rewrite R2, R02, R12. ring.
Qed.
Lemma compose_pose_mul T P u : compose (pose_mul T P) u = compose T (compose P u).
Proof. unfold pose_mul. punf. f_equal; ring. Qed.
Lemma pose_mul_rotation T P : is_rotation T -> is_rotation P -> is_rotation (pose_mul T P).
Proof.
  intros H K. assert (X := rot_rows T H). cbv zeta in X.
  destruct T as [[a0 a1 a2] [b0 b1 b2] [d0 d1 d2] t], P as [[p0 p1 p2] [q0 q1 q2] [r0 r1 r2] s].
  cbn [c0 c1 c2 tr vx vy vz] in X. destruct X as (_ & _ & _ & _ & _ & _ & K00 & K10 & K20 & K01 & K11 & K21 & K02 & K12 & K22).
  unfold is_rotation, vnorm2, vdot, vcross in H, K. cbn [c0 c1 c2 tr vx vy vz] in H, K.
  destruct H as (N0 & N1 & N2 & D01 & D02 & D12 & _). destruct K as (P0 & P1 & P2 & E01 & E02 & E12 & Y). injection Y as Y0 Y1 Y2.
  assert (DOT : forall x y z x' y' z',
     ((x * a0 + y * b0 + z * d0) * (x' * a0 + y' * b0 + z' * d0) + (x * a1 + y * b1 + z * d1) * (x' * a1 + y' * b1 + z' * d1) +
      (x * a2 + y * b2 + z * d2) * (x' * a2 + y' * b2 + z' * d2) = x * x' + y * y' + z * z')%R).
  { clear -N0 N1 N2 D01 D02 D12. intros.
    transitivity (x * x' * (a0*a0+a1*a1+a2*a2) + y * y' * (b0*b0+b1*b1+b2*b2) + z * z' * (d0*d0+d1*d1+d2*d2) +
      (x * y' + y * x') * (a0*b0+a1*b1+a2*b2) + (x * z' + z * x') * (a0*d0+a1*d1+a2*d2) + (y * z' + z * y') * (b0*d0+b1*d1+b2*d2))%R; [ring|].
    rewrite N0, N1, N2, D01, D02, D12. ring. }
  unfold is_rotation, pose_mul. punf. rewrite !DOT.
  split; [exact P0|]. split; [exact P1|]. split; [exact P2|]. split; [exact E01|]. split; [exact E02|]. split; [exact E12|].
  clear -K00 K10 K20 K01 K11 K21 K02 K12 K22 Y0 Y1 Y2. rewrite <- Y0, <- Y1, <- Y2. f_equal.
  - rewrite K00, K01, K02. ring.
  - rewrite K10, K11, K12. ring.
  - rewrite K20, K21, K22. ring.
Qed.
Lemma rotate_diff T a c : vsub (compose T a) (compose T c) = rotate T (vsub a c).
Proof. punf. f_equal; ring. Qed.
Lemma compose_dist T a c : is_rotation T -> vnorm2 (vsub (compose T a) (compose T c)) = vnorm2 (vsub a c).
Proof.
  destruct T as [[a0 a1 a2] [b0 b1 b2] [d0 d1 d2] [t0 t1 t2]], a as [x y z], c as [x' y' z']. unfold is_rotation. punf.
  intros (N0 & N1 & N2 & D01 & D02 & D12 & _).
  transitivity ((x-x')*(x-x') * (a0*a0+a1*a1+a2*a2) + (y-y')*(y-y') * (b0*b0+b1*b1+b2*b2) + (z-z')*(z-z') * (d0*d0+d1*d1+d2*d2) +
    2*(x-x')*(y-y') * (a0*b0+a1*b1+a2*b2) + 2*(x-x')*(z-z') * (a0*d0+a1*d1+a2*d2) + 2*(y-y')*(z-z') * (b0*d0+b1*d1+b2*d2))%R; [ring|].
  rewrite N0, N1, N2, D01, D02, D12. ring.
Qed.
