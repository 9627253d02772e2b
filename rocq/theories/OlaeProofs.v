(** The OLAE linear systems on noiseless correspondences. *)
From Coq Require Import Reals List Lra Lia Psatz Nsatz.
From Verif Require Import Base GeomModel VisitModel VisitSpec RotProofs HornModel HornProofs NoiselessProofs OlaeModel.
Import ListNotations.
Open Scope R_scope.

Definition qv (u : Quat) : V3 := mkV (qx u) (qy u) (qz u).
Definition vneg (v : V3) : V3 := mkV (- vx v) (- vy v) (- vz v).

(** b (r.u) + r (b.u) - (b.r + |r|^2) u = u0 b x r, for b = R(u) r *)
Lemma gibbs_identity u r : qnorm2 u = 1 ->
  let b := rotate (quat_rot u) r in
  vsub (vadd (vscale (vdot r (qv u)) b) (vscale (vdot b (qv u)) r)) (vscale (vdot b r + vnorm2 r) (qv u)) =
  vscale (qr u) (vcross b r).
Proof.
  destruct u as [u0 u1 u2 u3], r as [x y z]. unfold qnorm2, qv. cbn [qr qx qy qz]. intros H. cbv zeta.
  unfold quat_rot. vunf. f_equal; nsatz.
Qed.

Definition act (B : M33) (s : R) (x : V3) : V3 :=
  mkV ((m00 B + m00 B) * vx x + (m01 B + m10 B) * vy x + (m02 B + m20 B) * vz x - (m00 B + m11 B + m22 B + s) * vx x)
      ((m01 B + m10 B) * vx x + (m11 B + m11 B) * vy x + (m12 B + m21 B) * vz x - (m00 B + m11 B + m22 B + s) * vy x)
      ((m02 B + m20 B) * vx x + (m12 B + m21 B) * vy x + (m22 B + m22 B) * vz x - (m00 B + m11 B + m22 B + s) * vz x).

Lemma act_step u B s c v : qnorm2 u = 1 -> c_b c = rotate (quat_rot u) (c_r c) -> vnorm2 (c_r c) = 1 ->
  act B s (qv u) = vscale (- qr u) v -> act (B_add B c) (s + c_w c) (qv u) = vscale (- qr u) (v_add v c).
Proof.
  intros HU HB HR E. assert (G := gibbs_identity u (c_r c) HU). cbv zeta in G. rewrite <- HB, HR in G.
  destruct c as [i [b0 b1 b2] [r0 r1 r2] w], v as [v0 v1 v2], B. unfold qv in *. destruct u as [u0 u1 u2 u3].
  clear HB HU HR. unfold act, v_add, B_add, vscale, vsub, vadd, vdot, vcross in *. cbn [vx vy vz qr qx qy qz c_b c_r c_w HornModel.m00 HornModel.m01 HornModel.m02 HornModel.m10 HornModel.m11 HornModel.m12 HornModel.m20 HornModel.m21 HornModel.m22] in *.
  injection E as E0 E1 E2. injection G as G0 G1 G2.
  f_equal.
  - replace (- u0 * (v0 - w * (b1 * r2 - b2 * r1))) with (- u0 * v0 + w * (u0 * (b1 * r2 - b2 * r1))) by ring. rewrite <- E0, <- G0. ring.
  - replace (- u0 * (v1 - w * (- b0 * r2 + b2 * r0))) with (- u0 * v1 + w * (u0 * (b2 * r0 - b0 * r2))) by ring. rewrite <- E1, <- G1. ring.
  - replace (- u0 * (v2 - w * (b0 * r1 - b1 * r0))) with (- u0 * v2 + w * (u0 * (b0 * r1 - b1 * r0))) by ring. rewrite <- E2, <- G2. ring.
Qed.



Definition exact_calls (R0 : Pose) (cs : list call) : Prop :=
  Forall (fun c => c_b c = rotate R0 (c_r c) /\ vnorm2 (c_r c) = 1) cs.

Lemma act_fold u cs : qnorm2 u = 1 -> exact_calls (quat_rot u) cs -> forall B s v,
  act B s (qv u) = vscale (- qr u) v ->
  act (fold_left B_add cs B) (s + sum_w cs) (qv u) = vscale (- qr u) (fold_left v_add cs v).
Proof.
  intros HU F. induction F as [|c cs [Eb Er] F IH]; intros B s v E; cbn [fold_left sum_w].
  - rewrite Rplus_0_r. exact E.
  - rewrite <- Rplus_assoc. apply IH. apply act_step; assumption.
Qed.

Lemma act_scale k B s x : act (S_scale k B) (k * s) x = vscale k (act B s x).
Proof. destruct B, x as [x0 x1 x2]. unfold act, S_scale, vscale. cbn [vx vy vz HornModel.m00 HornModel.m01 HornModel.m02 HornModel.m10 HornModel.m11 HornModel.m12 HornModel.m20 HornModel.m21 HornModel.m22]. f_equal; ring. Qed.
Lemma vscale_vscale a b v : vscale a (vscale b v) = vscale b (vscale a v).
Proof. destruct v. vunf. f_equal; ring. Qed.

Lemma oM_act B v x : mvmul (oM (olae_systems B v)) x = act B 1 x.
Proof. destruct B, x as [x0 x1 x2]. unfold mvmul, olae_systems, act. cbn [oM vx vy vz HornModel.m00 HornModel.m01 HornModel.m02 HornModel.m10 HornModel.m11 HornModel.m12 HornModel.m20 HornModel.m21 HornModel.m22]. f_equal; ring. Qed.

Lemma system_action u cs : qnorm2 u = 1 -> exact_calls (quat_rot u) cs -> 0 < sum_w cs ->
  mvmul (oM (olae_systems (B_of cs (sum_w cs)) (v_of cs (sum_w cs)))) (qv u) = vscale (- qr u) (v_of cs (sum_w cs)).
Proof.
  intros HU F P. rewrite oM_act. unfold B_of, v_of. destruct (Rlt_dec 0 (sum_w cs)); [|contradiction].
  replace 1 with (1 / sum_w cs * (0 + sum_w cs)) at 2 by (field; lra). rewrite act_scale, (act_fold u cs HU F S_zero 0 vzero3).
  - apply vscale_vscale.
  - destruct u as [u0 u1 u2 u3]. unfold act, S_zero, vscale, vzero3, qv. cbn [vx vy vz qr qx qy qz HornModel.m00 HornModel.m01 HornModel.m02 HornModel.m10 HornModel.m11 HornModel.m12 HornModel.m20 HornModel.m21 HornModel.m22]. f_equal; ring.
Qed.

Lemma nonsingular M x y : det M <> 0 -> mvmul M x = mvmul M y -> x = y.
Proof.
  intros D E. destruct M as [a b c d e f g h i], x as [x0 x1 x2], y as [y0 y1 y2]. unfold mvmul, det in *.
  cbn [vx vy vz HornModel.m00 HornModel.m01 HornModel.m02 HornModel.m10 HornModel.m11 HornModel.m12 HornModel.m20 HornModel.m21 HornModel.m22] in *.
  injection E as E0 E1 E2.
  assert (A : forall z, z * (a * (e * i - f * h) - b * (d * i - f * g) + c * (d * h - e * g)) = 0 -> z = 0).
  { intros z Z. apply Rmult_integral in Z. destruct Z; [assumption|contradiction]. }
  assert (Q0 : x0 - y0 = 0).
  { apply A. transitivity ((e * i - f * h) * ((a * x0 + b * x1 + c * x2) - (a * y0 + b * y1 + c * y2))
      + (c * h - b * i) * ((d * x0 + e * x1 + f * x2) - (d * y0 + e * y1 + f * y2))
      + (b * f - c * e) * ((g * x0 + h * x1 + i * x2) - (g * y0 + h * y1 + i * y2))); [ring|]. rewrite E0, E1, E2. ring. }
  assert (Q1 : x1 - y1 = 0).
  { apply A. transitivity ((f * g - d * i) * ((a * x0 + b * x1 + c * x2) - (a * y0 + b * y1 + c * y2))
      + (a * i - c * g) * ((d * x0 + e * x1 + f * x2) - (d * y0 + e * y1 + f * y2))
      + (c * d - a * f) * ((g * x0 + h * x1 + i * x2) - (g * y0 + h * y1 + i * y2))); [ring|]. rewrite E0, E1, E2. ring. }
  assert (Q2 : x2 - y2 = 0).
  { apply A. transitivity ((d * h - e * g) * ((a * x0 + b * x1 + c * x2) - (a * y0 + b * y1 + c * y2))
      + (b * g - a * h) * ((d * x0 + e * x1 + f * x2) - (d * y0 + e * y1 + f * y2))
      + (a * e - b * d) * ((g * x0 + h * x1 + i * x2) - (g * y0 + h * y1 + i * y2))); [ring|]. rewrite E0, E1, E2. ring. }
  f_equal; lra.
Qed.

Lemma mvmul_scale M k x : mvmul M (vscale k x) = vscale k (mvmul M x).
Proof. destruct M, x as [x0 x1 x2]. unfold mvmul, vscale. cbn [vx vy vz]. f_equal; ring. Qed.

(** the Gibbs vector of a quaternion gives back its rotation *)
Lemma gibbs_of_quat u : qnorm2 u = 1 -> qr u <> 0 -> gibbs2pose (vscale (- / qr u) (qv u)) = quat_rot u.
Proof.
  destruct u as [u0 u1 u2 u3]. unfold qnorm2, qv. cbn [qr qx qy qz]. intros H N.
  unfold gibbs2pose, gibbs_quat, vscale. cbn [vx vy vz].
  set (g0 := - / u0 * u1). set (g1 := - / u0 * u2). set (g2 := - / u0 * u3).
  assert (Q : 1 + g0 * g0 + g1 * g1 + g2 * g2 = / u0 * / u0).
  { unfold g0, g1, g2. transitivity ((u0 * u0 + u1 * u1 + u2 * u2 + u3 * u3) * (/ u0 * / u0)); [field; exact N|]. rewrite H. ring. }
  rewrite Q. assert (SQ : sqrt (/ u0 * / u0) = Rabs (/ u0)) by apply sqrt_Rsqr_abs. rewrite SQ.
  assert (CASE : 1 / Rabs (/ u0) = u0 \/ 1 / Rabs (/ u0) = - u0).
  { unfold Rabs. destruct (Rcase_abs (/ u0)) as [L|L]; [right|left]; field; exact N. }
  assert (X0 : - (g0 * u0) = u1) by (unfold g0; field; exact N).
  assert (X1 : - (g1 * u0) = u2) by (unfold g1; field; exact N).
  assert (X2 : - (g2 * u0) = u3) by (unfold g2; field; exact N).
  destruct CASE as [->| ->].
  - rewrite X0, X1, X2. reflexivity.
  - replace (- (g0 * - u0)) with (- u1) by (rewrite <- X0; ring). replace (- (g1 * - u0)) with (- u2) by (rewrite <- X1; ring).
    replace (- (g2 * - u0)) with (- u3) by (rewrite <- X2; ring). unfold quat_rot. f_equal; f_equal; ring.
Qed.

Definition solves (solve : M33 -> V3 -> V3) (M : M33) (v : V3) : Prop := mvmul M (solve M v) = v.

(** the plain system *)
Lemma olae_plain solve R0 cs :
  is_rotation R0 -> exact_calls R0 cs -> 0 < sum_w cs ->
  let s := olae_systems (B_of cs (sum_w cs)) (v_of cs (sum_w cs)) in
  det (oM s) <> 0 -> solves solve (oM s) (ov s) ->
  forall x, rotate (gibbs2pose (solve (oM s) (ov s))) x = rotate R0 x.
Proof.
  intros RT F P s D SV. destruct (rotation_has_quat R0 RT) as [u [HU [E0 [E1 E2]]]].
  assert (RC : forall x, rotate (quat_rot u) x = rotate R0 x) by (intros x; apply rotate_cols; assumption).
  assert (F' : exact_calls (quat_rot u) cs).
  { eapply Forall_impl; [|exact F]. intros c [A B]. rewrite RC. auto. }
  assert (A := system_action u cs HU F' P). fold s in A.
  assert (N : qr u <> 0).
  { intros Z. rewrite Z in A.
    assert (ZZ : mvmul (oM s) (qv u) = mvmul (oM s) vzero3).
    { rewrite A. destruct (v_of cs (sum_w cs)) as [w0 w1 w2]. unfold mvmul, vzero3, vscale. cbn [vx vy vz]. f_equal; ring. }
    apply (nonsingular _ _ _ D) in ZZ. destruct u as [u0 u1 u2 u3]. unfold qv, vzero3 in ZZ. cbn [qr qx qy qz] in *. injection ZZ as -> -> ->.
    unfold qnorm2 in HU. cbn [qr qx qy qz] in HU. rewrite Z in HU. lra. }
  assert (G : solve (oM s) (ov s) = vscale (- / qr u) (qv u)).
  { apply (nonsingular _ _ _ D). unfold solves in SV. rewrite SV, mvmul_scale, A.
    change (ov s) with (v_of cs (sum_w cs)). destruct (v_of cs (sum_w cs)) as [w0 w1 w2]. vunf. f_equal; field; exact N. }
  intros x. rewrite G, gibbs_of_quat by assumption. apply RC.
Qed.

(** rotating the global vectors *)
Definition turn (A : Pose) (c : call) : call := mkCall (c_idx c) (rotate A (c_b c)) (c_r c) (c_w c).

Lemma sum_w_turn A cs : sum_w (map (turn A) cs) = sum_w cs.
Proof. induction cs as [|c cs IH]; simpl; [reflexivity|]. rewrite IH. reflexivity. Qed.

(** the half turns change the sign of two rows of B *)
Definition flip (s0 s1 s2 : R) (B : M33) : M33 :=
  mkM (s0 * m00 B) (s0 * m01 B) (s0 * m02 B) (s1 * m10 B) (s1 * m11 B) (s1 * m12 B) (s2 * m20 B) (s2 * m21 B) (s2 * m22 B).
Definition v_from_B (B : M33) : V3 := mkV (- (m12 B - m21 B)) (- (m20 B - m02 B)) (- (m01 B - m10 B)).

Lemma v_fold cs : forall B v, v = v_from_B B -> fold_left v_add cs v = v_from_B (fold_left B_add cs B).
Proof.
  induction cs as [|c cs IH]; intros B v E; cbn [fold_left]; [exact E|]. apply IH. subst v.
  destruct c as [i [b0 b1 b2] [r0 r1 r2] w], B. unfold v_add, v_from_B, B_add. cbn. f_equal; ring.
Qed.
Lemma v_of_B cs w : v_of cs w = v_from_B (B_of cs w).
Proof.
  unfold v_of, B_of. rewrite (v_fold cs S_zero vzero3) by (unfold v_from_B, S_zero, vzero3; cbn; f_equal; ring).
  destruct (Rlt_dec 0 w); [|reflexivity]. destruct (fold_left B_add cs S_zero). unfold v_from_B, S_scale, vscale. cbn. f_equal; ring.
Qed.

Lemma flip_fold A s0 s1 s2 cs : (forall v, rotate A v = mkV (s0 * vx v) (s1 * vy v) (s2 * vz v)) -> forall B,
  fold_left B_add (map (turn A) cs) (flip s0 s1 s2 B) = flip s0 s1 s2 (fold_left B_add cs B).
Proof.
  intros H. induction cs as [|c cs IH]; intros B; cbn [map fold_left]; [reflexivity|]. rewrite <- IH. f_equal.
  destruct c as [i [b0 b1 b2] [r0 r1 r2] w], B. unfold turn, B_add, flip. cbn [c_b c_r c_w]. rewrite H. cbn. f_equal; ring.
Qed.
Lemma flip_B_of A s0 s1 s2 cs w : (forall v, rotate A v = mkV (s0 * vx v) (s1 * vy v) (s2 * vz v)) ->
  B_of (map (turn A) cs) w = flip s0 s1 s2 (B_of cs w).
Proof.
  intros H. unfold B_of. assert (Z : S_zero = flip s0 s1 s2 S_zero) by (unfold flip, S_zero; cbn; f_equal; ring).
  assert (K := flip_fold A s0 s1 s2 cs H S_zero). rewrite <- Z in K. rewrite K. destruct (Rlt_dec 0 w); [|reflexivity].
  destruct (fold_left B_add cs S_zero). unfold flip, S_scale. cbn. f_equal; ring.
Qed.

Lemma half_x_rot v : rotate half_x v = mkV (1 * vx v) ((-1) * vy v) ((-1) * vz v).
Proof. destruct v. unfold half_x. vunf. f_equal; ring. Qed.
Lemma half_y_rot v : rotate half_y v = mkV ((-1) * vx v) (1 * vy v) ((-1) * vz v).
Proof. destruct v. unfold half_y. vunf. f_equal; ring. Qed.
Lemma half_z_rot v : rotate half_z v = mkV ((-1) * vx v) ((-1) * vy v) (1 * vz v).
Proof. destruct v. unfold half_z. vunf. f_equal; ring. Qed.

(** the other three systems of the code are the plain systems of the turned vectors *)
Lemma system_x B : let s := olae_systems B (v_from_B B) in let t := olae_systems (flip 1 (-1) (-1) B) (v_from_B (flip 1 (-1) (-1) B)) in
  oMx s = oM t /\ ovx s = ov t.
Proof. destruct B. cbv zeta. unfold olae_systems, flip, v_from_B. cbn. split; f_equal; ring. Qed.
Lemma system_y B : let s := olae_systems B (v_from_B B) in let t := olae_systems (flip (-1) 1 (-1) B) (v_from_B (flip (-1) 1 (-1) B)) in
  oMy s = oM t /\ ovy s = ov t.
Proof. destruct B. cbv zeta. unfold olae_systems, flip, v_from_B. cbn. split; f_equal; ring. Qed.
Lemma system_z B : let s := olae_systems B (v_from_B B) in let t := olae_systems (flip (-1) (-1) 1 B) (v_from_B (flip (-1) (-1) 1 B)) in
  oMz s = oM t /\ ovz s = ov t.
Proof. destruct B. cbv zeta. unfold olae_systems, flip, v_from_B. cbn. split; f_equal; ring. Qed.

Lemma rot_mul_rot A C v : rotate (rot_mul A C) v = rotate A (rotate C v).
Proof.
  change (rotate C v) with (vadd (vadd (vscale (vx v) (c0 C)) (vscale (vy v) (c1 C))) (vscale (vz v) (c2 C))).
  rewrite !rotate_add, !rotate_scale. reflexivity.
Qed.

Lemma rot_mul_is_rotation A C : is_rotation A -> is_rotation C -> is_rotation (rot_mul A C).
Proof.
  intros RA (N0 & N1 & N2 & D01 & D02 & D12 & X).
  assert (DOT : forall a b, vdot (rotate A a) (rotate A b) = vdot a b).
  { intros a b. assert (P := rotate_norm2 A (vadd a b) RA). rewrite rotate_add in P.
    assert (Pa := rotate_norm2 A a RA). assert (Pb := rotate_norm2 A b RA).
    destruct (rotate A a), (rotate A b), a, b. vunf. lra. }
  unfold is_rotation, rot_mul. cbn [c0 c1 c2]. unfold vnorm2 in *. rewrite !DOT. repeat split; try assumption.
  rewrite <- X, rotate_cross by exact RA. reflexivity.
Qed.

Lemma half_rotations : is_rotation half_x /\ is_rotation half_y /\ is_rotation half_z.
Proof. unfold is_rotation, half_x, half_y, half_z; vunf. repeat split; try ring; f_equal; ring. Qed.

Lemma half_twice : (forall v, rotate half_x (rotate half_x v) = v) /\ (forall v, rotate half_y (rotate half_y v) = v) /\
  (forall v, rotate half_z (rotate half_z v) = v).
Proof.
  repeat split; intros [x y z].
  - rewrite !half_x_rot. cbn. f_equal; ring.
  - rewrite !half_y_rot. cbn. f_equal; ring.
  - rewrite !half_z_rot. cbn. f_equal; ring.
Qed.

(** any of the turned systems *)
Lemma olae_turned solve R0 cs A s0 s1 s2 :
  is_rotation R0 -> exact_calls R0 cs -> 0 < sum_w cs ->
  is_rotation A -> (forall v, rotate A (rotate A v) = v) ->
  (forall v, rotate A v = mkV (s0 * vx v) (s1 * vy v) (s2 * vz v)) ->
  let B' := flip s0 s1 s2 (B_of cs (sum_w cs)) in let t := olae_systems B' (v_from_B B') in
  det (oM t) <> 0 -> solves solve (oM t) (ov t) ->
  forall x, rotate (rot_mul A (gibbs2pose (solve (oM t) (ov t)))) x = rotate R0 x.
Proof.
  intros RT F P RA AA H B' t D SV x.
  assert (E : t = olae_systems (B_of (map (turn A) cs) (sum_w (map (turn A) cs))) (v_of (map (turn A) cs) (sum_w (map (turn A) cs)))).
  { rewrite v_of_B, sum_w_turn, (flip_B_of A s0 s1 s2 cs _ H). reflexivity. }
  rewrite rot_mul_rot, E.
  rewrite (olae_plain solve (rot_mul A R0) (map (turn A) cs)).
  - rewrite rot_mul_rot. apply AA.
  - apply rot_mul_is_rotation; assumption.
  - unfold exact_calls. rewrite Forall_map. eapply Forall_impl; [|exact F]. intros c [X Y]. unfold turn. cbn [c_b c_r].
    rewrite rot_mul_rot, X. auto.
  - rewrite sum_w_turn. exact P.
  - rewrite <- E. exact D.
  - rewrite <- E. exact SV.
Qed.
