(** C353: when the least-squares pose is unique. *)
From Coq Require Import Reals List Lra Lia Psatz.
From Verif Require Import Base GeomModel VisitModel VisitSpec VisitProps RotProofs HornModel HornProofs NoiselessProofs HornProps.
Import ListNotations.
Open Scope R_scope.

(** ** Specification *)
(** [T] fits the pairs at least as well as every rigid motion. *)
Definition best_fit (ps : list (V3 * V3)) (T : Pose) : Prop :=
  is_rotation T /\ forall T', is_rotation T' -> lsq ps T <= lsq ps T'.
Definition one_best_fit (ps : list (V3 * V3)) : Prop :=
  forall T T', best_fit ps T -> best_fit ps T' -> T = T'.

(** ** Proofs *)
Lemma sq_zero a : a * a = 0 -> a = 0.
Proof. intro H. destruct (Rmult_integral _ _ H); assumption. Qed.

(** with a simple greatest eigenvalue the maximum of the form is at that eigenvector only, up to the sign *)
Lemma spectral_max_only N e u : spectral N e -> lam2 e < lam3 e -> qnorm2 u = 1 -> quad4 N (z3 e) <= quad4 N u ->
  u = z3 e \/ u = mkQ (- qr (z3 e)) (- qx (z3 e)) (- qy (z3 e)) (- qz (z3 e)).
Proof.
  intros (L0 & L1 & L2 & _ & _ & _ & U3 & O0 & O1 & O2 & PL & QF) GAP HU H.
  rewrite (QF u), (QF (z3 e)), O0, O1, O2, U3 in H. specialize (PL u). rewrite HU in PL.
  set (a := qdot (z0 e) u) in *. set (b := qdot (z1 e) u) in *. set (c := qdot (z2 e) u) in *. set (d := qdot (z3 e) u) in *.
  assert (A : 0 <= a * a) by apply Rle_0_sqr. assert (B : 0 <= b * b) by apply Rle_0_sqr. assert (C : 0 <= c * c) by apply Rle_0_sqr.
  assert (X : lam3 e = lam3 e * (a * a + b * b + c * c + d * d)) by (rewrite PL; ring).
  assert (Y : (lam3 e - lam2 e) * (a * a + b * b + c * c) <= 0).
  { assert (M0 : (lam2 e - lam0 e) * (a * a) >= 0) by (apply Rle_ge, Rmult_le_pos; lra).
    assert (M1 : (lam2 e - lam1 e) * (b * b) >= 0) by (apply Rle_ge, Rmult_le_pos; lra). lra. }
  assert (Z : a * a + b * b + c * c <= 0) by nra.
  assert (D1 : d * d = 1) by lra.
  assert (DD : (d - 1) * (d + 1) = 0) by lra.
  assert (K : forall s, s * s = 1 -> d = s -> (qr u - s * qr (z3 e)) * (qr u - s * qr (z3 e)) + (qx u - s * qx (z3 e)) * (qx u - s * qx (z3 e)) +
     (qy u - s * qy (z3 e)) * (qy u - s * qy (z3 e)) + (qz u - s * qz (z3 e)) * (qz u - s * qz (z3 e)) = 0).
  { intros s S1 S2. transitivity (qnorm2 u - 2 * s * d + s * s * qdot (z3 e) (z3 e)); [unfold qnorm2, d, qdot; ring|]. rewrite HU, U3, S1, S2. lra. }
  assert (E : forall s, s * s = 1 -> d = s -> u = mkQ (s * qr (z3 e)) (s * qx (z3 e)) (s * qy (z3 e)) (s * qz (z3 e))).
  { intros s S1 S2. specialize (K s S1 S2). clearbody d. destruct u as [r x y z]. cbn [qr qx qy qz] in *.
    assert (Q1 := Rle_0_sqr (r - s * qr (z3 e))). assert (Q2 := Rle_0_sqr (x - s * qx (z3 e))). assert (Q3 := Rle_0_sqr (y - s * qy (z3 e))). assert (Q4 := Rle_0_sqr (z - s * qz (z3 e))).
    unfold Rsqr in *. f_equal; apply Rminus_diag_uniq; apply sq_zero; lra. }
  destruct (Rmult_integral _ _ DD) as [F|F].
  - left. rewrite (E 1); [|ring|lra]. destruct (z3 e) as [r3 x3 y3 zz3]. cbn [qr qx qy qz]. f_equal; ring.
  - right. rewrite (E (-1)); [|ring|lra]. destruct (z3 e) as [r3 x3 y3 zz3]. cbn [qr qx qy qz]. f_equal; ring.
Qed.

Lemma quat_rot_opposite q : quat_rot (mkQ (- qr q) (- qx q) (- qy q) (- qz q)) = quat_rot q.
Proof. destruct q as [r x y z]. unfold quat_rot. cbn [qr qx qy qz]. f_equal; f_equal; ring. Qed.

Lemma quad_opposite N q : quad4 N (mkQ (- qr q) (- qx q) (- qy q) (- qz q)) = quad4 N q.
Proof. destruct q as [r x y z]. unfold quad4. cbn [qr qx qy qz]. ring. Qed.

Lemma best_rot eig N : quat_rot (best_quat eig N) = quat_rot (z3 (eig N)).
Proof. unfold best_quat. destruct (Rlt_dec _ 0); [apply quat_rot_opposite|reflexivity]. Qed.

(** orthogonal unit quaternions are different rotations *)
Lemma quat_rot_trace u v : vdot (c0 (quat_rot u)) (c0 (quat_rot v)) + vdot (c1 (quat_rot u)) (c1 (quat_rot v)) + vdot (c2 (quat_rot u)) (c2 (quat_rot v))
  = 4 * (qdot u v * qdot u v) - qnorm2 u * qnorm2 v.
Proof. destruct u as [r x y z], v as [r' x' y' z']. unfold quat_rot, vdot, qdot, qnorm2. cbn [c0 c1 c2 vx vy vz qr qx qy qz]. ring. Qed.

Lemma orthogonal_differ u v : qnorm2 u = 1 -> qnorm2 v = 1 -> qdot u v = 0 ->
  ~ (c0 (quat_rot u) = c0 (quat_rot v) /\ c1 (quat_rot u) = c1 (quat_rot v) /\ c2 (quat_rot u) = c2 (quat_rot v)).
Proof.
  intros U V O (A & B & C). assert (T := quat_rot_trace u v). assert (T2 := quat_rot_trace v v). rewrite A, B, C in T. rewrite T2, O, U, V in T.
  assert (W : qdot v v = 1) by exact V. rewrite W in T. lra.
Qed.

Section Pairs.
Variables (eig : Sym4 -> Eig) (p : VPairs) (wp : VWeights).
Hypothesis L : vp_lns p = [].
Hypothesis P : vp_pls p = [].
Hypothesis W : vp_weights p = [].
Hypothesis H1 : vp_nPt2Ln p = 0%nat.
Hypothesis H2 : vp_nPt2Pl p = 0%nat.
Hypothesis K : wp_kernel wp = None.
Hypothesis US : wp_use_scale wp = false.
Hypothesis A : 0 < wp_pt2pt wp.
Hypothesis B : 0 <= wp_ln2ln wp.
Hypothesis C : 0 <= wp_pl2pl wp.
Hypothesis N3 : (3 <= length (vp_pts p))%nat.
Hypothesis OFF : off_centroid (vp_pts p).
Hypothesis SP : spectral (horn_matrix p wp) (eig (horn_matrix p wp)).
Let ctl := centroid (map snd (vp_pts p)).
Let ctg := centroid (map fst (vp_pts p)).
Let N := horn_matrix p wp.
Let e := eig N.

Let NE : vp_pts p <> [].
Proof. intros E. rewrite E in N3. simpl in N3. lia. Qed.
Let PW : positive_weights p wp.
Proof. unfold positive_weights. rewrite L, P, W, K. repeat split; auto; intros X; contradiction. Qed.
Let CV : blocks_cover p.
Proof. intros X; contradiction. Qed.
Let T3 : at_least_three p.
Proof. unfold at_least_three; lia. Qed.
Let NC : horn_pairs p wp <> [].
Proof.
  assert (U := uniform_cost p wp _ ctl ctg id_pose L P W K US eq_refl OFF). fold (horn_pairs p wp) in U. destruct U as [_ LEN].
  intros E. unfold horn_pairs in E. fold ctl ctg in E. rewrite E in LEN. cbn [length] in LEN. lia.
Qed.
Let WS : 0 < sum_w (horn_pairs p wp).
Proof. apply sum_w_pos; [exact NC|]. apply used_positive; assumption. Qed.
Let w0 := wp_pt2pt wp / class_total p wp.
Let W0 : 0 < w0.
Proof. apply Rmult_lt_0_compat; [exact A|]. apply Rinv_0_lt_compat. apply class_total_pos; assumption. Qed.

(** the sum of squares, from the rotation's quaternion and where the centroid goes *)
Lemma lsq_of_quat T u : is_rotation T -> c0 (quat_rot u) = c0 T -> c1 (quat_rot u) = c1 T -> c2 (quat_rot u) = c2 T ->
  w0 * lsq (vp_pts p) T = mass (horn_pairs p wp) - 2 * (sum_w (horn_pairs p wp) * quad4 N u) + w0 * (INR (length (vp_pts p)) * vnorm2 (vsub ctg (compose T ctl))).
Proof.
  intros RT E0 E1 E2. rewrite (lsq_centred _ T NE). cbv zeta. fold ctl ctg.
  assert (U1 := uniform_cost p wp _ ctl ctg T L P W K US eq_refl OFF). destruct U1 as [U1 _]. fold w0 in U1.
  rewrite Rmult_plus_distr_l, <- U1. change (used_from p wp ctl ctg [] false 0 (items p)) with (horn_pairs p wp).
  rewrite (rot_cost_gain _ T RT). f_equal. f_equal. f_equal.
  unfold N, horn_matrix, S_of. destruct (Rlt_dec 0 (sum_w (horn_pairs p wp))) as [Q|Q]; [|contradiction].
  rewrite quad_scale, quad_fold, quad_zero. rewrite (gain_cols _ (quat_rot u) T) by assumption. field. lra.
Qed.

(** the pose of a unit quaternion that takes the centroid to the centroid *)
Let fit (u : Quat) : Pose := pose_of u ctl ctg.
Lemma fit_rot u : qnorm2 u = 1 -> is_rotation (fit u).
Proof. intro U. exact (quat_rot_is_rotation u U). Qed.
Lemma fit_centroid u : compose (fit u) ctl = ctg.
Proof.
  unfold compose. assert (CO : rotate (fit u) ctl = rotate (quat_rot u) ctl) by (apply rotate_cols; reflexivity). rewrite CO.
  unfold fit, pose_of. cbn [tr]. unfold compose. assert (TZ : tr (quat_rot u) = mkV 0 0 0) by (destruct u; reflexivity). rewrite TZ.
  destruct (rotate (quat_rot u) ctl), ctg. vunf. f_equal; ring.
Qed.
Lemma fit_lsq u : qnorm2 u = 1 -> w0 * lsq (vp_pts p) (fit u) = mass (horn_pairs p wp) - 2 * (sum_w (horn_pairs p wp) * quad4 N u).
Proof.
  intro U. rewrite (lsq_of_quat (fit u) u (fit_rot u U) eq_refl eq_refl eq_refl), fit_centroid.
  assert (Z : vnorm2 (vsub ctg ctg) = 0) by (destruct ctg; vunf; ring). rewrite Z. ring.
Qed.

Lemma horn_answer : exists o, optimal_tf_horn eig p wp = Ok (true, mkHR (fit (best_quat eig N)) o).
Proof. destruct (horn_run eig p wp PW CV NE T3 H1 H2 (or_introl US)) as (o & E & _). exists o. exact E. Qed.

Lemma only_fit T : lam2 e < lam3 e -> is_rotation T -> lsq (vp_pts p) T <= lsq (vp_pts p) (fit (best_quat eig N)) -> T = fit (best_quat eig N).
Proof.
  intros GAP RT LE. destruct (rotation_has_quat T RT) as (u & HU & E0 & E1 & E2).
  assert (Q1 := lsq_of_quat T u RT E0 E1 E2). assert (BU := best_quat_unit eig N SP). assert (Q2 := fit_lsq _ BU).
  assert (MX := best_quat_max eig N SP u HU). set (q := best_quat eig N) in *.
  assert (V0 := vnorm2_nonneg (vsub ctg (compose T ctl))).
  assert (NP : 0 < INR (length (vp_pts p))) by (apply lt_0_INR; lia).
  assert (G : w0 * lsq (vp_pts p) T <= w0 * lsq (vp_pts p) (fit q)) by (apply Rmult_le_compat_l; lra).
  rewrite Q1, Q2 in G.
  assert (G1 : sum_w (horn_pairs p wp) * quad4 N u <= sum_w (horn_pairs p wp) * quad4 N q) by (apply Rmult_le_compat_l; lra).
  assert (G2 : 0 <= w0 * (INR (length (vp_pts p)) * vnorm2 (vsub ctg (compose T ctl)))).
  { apply Rmult_le_pos; [lra|]. apply Rmult_le_pos; lra. }
  assert (G3 : quad4 N q <= quad4 N u).
  { apply Rmult_le_reg_l with (sum_w (horn_pairs p wp)); [exact WS|]. lra. }
  assert (G4 : w0 * (INR (length (vp_pts p)) * vnorm2 (vsub ctg (compose T ctl))) = 0) by lra.
  assert (G5 : vnorm2 (vsub ctg (compose T ctl)) = 0).
  { apply Rmult_integral in G4. destruct G4 as [G4|G4]; [lra|]. apply Rmult_integral in G4. destruct G4 as [G4|G4]; [lra|exact G4]. }
  apply vnorm2_zero in G5.
  assert (QE : quad4 N q = quad4 N (z3 e)).
  { unfold q, best_quat. fold e. destruct (Rlt_dec _ 0); [apply quad_opposite|reflexivity]. }
  rewrite QE in G3.
  assert (RU : quat_rot u = quat_rot q).
  { unfold q. rewrite best_rot. fold e. destruct (spectral_max_only N e u SP GAP HU G3) as [-> | ->]; [reflexivity|apply quat_rot_opposite]. }
  assert (CT : compose T ctl = compose (fit q) ctl).
  { rewrite fit_centroid. destruct ctg as [g1 g2 g3], (compose T ctl) as [t1 t2 t3]. unfold vsub, vzero3 in G5. cbn [vx vy vz] in G5. injection G5 as X Y Z. f_equal; lra. }
  rewrite RU in E0, E1, E2. unfold compose in CT.
  assert (RR : rotate T ctl = rotate (fit q) ctl) by (apply rotate_cols; [rewrite <- E0|rewrite <- E1|rewrite <- E2]; reflexivity).
  rewrite RR in CT. assert (TT : tr T = tr (fit q)).
  { destruct (rotate (fit q) ctl) as [a b c], (tr T) as [x y z], (tr (fit q)) as [x' y' z']. unfold vadd in CT. cbn [vx vy vz] in CT. injection CT as X Y Z. f_equal; lra. }
  destruct T as [t0 t1 t2 tt]. cbn [c0 c1 c2 tr] in *. unfold fit, pose_of in *. cbn [tr] in TT. rewrite TT, <- E0, <- E1, <- E2. reflexivity.
Qed.

Lemma other_fit : lam2 e = lam3 e -> exists T, is_rotation T /\ lsq (vp_pts p) T = lsq (vp_pts p) (fit (best_quat eig N)) /\ T <> fit (best_quat eig N).
Proof.
  intro EQ. assert (SP' := SP). fold N in SP'. fold e in SP'. destruct SP' as (L0 & L1 & L2 & U0 & U1 & U2 & U3 & O0 & O1 & O2 & PL & QF).
  assert (BU := best_quat_unit eig N SP).
  assert (N2 : qnorm2 (z2 e) = 1) by (change (qnorm2 (z2 e)) with (qdot (z2 e) (z2 e)); exact U2).
  exists (fit (z2 e)). split; [apply fit_rot; exact N2|]. split.
  - apply Rmult_eq_reg_l with w0; [|lra]. rewrite (fit_lsq _ N2), (fit_lsq _ BU). f_equal. f_equal. f_equal.
    assert (QE : quad4 N (best_quat eig N) = quad4 N (z3 e)).
    { unfold best_quat. fold e. destruct (Rlt_dec _ 0); [apply quad_opposite|reflexivity]. }
    rewrite QE, (QF (z2 e)), (QF (z3 e)), O0, O1, O2, U2, U3. specialize (PL (z2 e)). rewrite N2, U2 in PL.
    assert (S32 : qdot (z3 e) (z2 e) = qdot (z2 e) (z3 e)) by (unfold qdot; ring). rewrite S32, O2 in *.
    assert (X0 := Rle_0_sqr (qdot (z0 e) (z2 e))). assert (X1 := Rle_0_sqr (qdot (z1 e) (z2 e))). unfold Rsqr in *.
    assert (Y0 : qdot (z0 e) (z2 e) * qdot (z0 e) (z2 e) = 0) by lra. assert (Y1 : qdot (z1 e) (z2 e) * qdot (z1 e) (z2 e) = 0) by lra.
    rewrite Y0, Y1, EQ. ring.
  - intro F. apply (orthogonal_differ (z2 e) (z3 e) N2 U3 O2).
    assert (F0 : quat_rot (best_quat eig N) = quat_rot (z3 e)) by apply best_rot.
    rewrite <- F0. unfold fit, pose_of in F. injection F as F1 F2 F3 _. repeat split; assumption.
Qed.
End Pairs.

(** C353: for point pairs with equal weights, three or more and none within 0.1 mm of the centroids, the least-squares pose is unique
    (and Horn's solver returns it) exactly when the greatest eigenvalue of Horn's matrix is simple. *)
Theorem C353_one_best_fit_iff : forall eig p wp,
  vp_lns p = [] -> vp_pls p = [] -> vp_weights p = [] -> vp_nPt2Ln p = 0%nat -> vp_nPt2Pl p = 0%nat ->
  wp_kernel wp = None -> wp_use_scale wp = false -> 0 < wp_pt2pt wp -> 0 <= wp_ln2ln wp -> 0 <= wp_pl2pl wp ->
  (3 <= length (vp_pts p))%nat -> off_centroid (vp_pts p) ->
  spectral (horn_matrix p wp) (eig (horn_matrix p wp)) ->
  (exists res, optimal_tf_horn eig p wp = Ok (true, res) /\ best_fit (vp_pts p) (hr_pose res)) /\
  (one_best_fit (vp_pts p) <-> lam2 (eig (horn_matrix p wp)) < lam3 (eig (horn_matrix p wp))).
Proof.
  intros * L P W H1 H2 K US A B C N3 OFF SP.
  destruct (C85_horn_is_least_squares eig p wp L P W H1 H2 K US A B C N3 OFF SP) as (res & E & RR & OPT).
  split; [exists res; split; [exact E|split; assumption]|].
  destruct (horn_answer eig p wp L P W H1 H2 K US A B C N3) as (o & E'). rewrite E in E'. injection E' as ->. cbn [hr_pose] in *.
  split.
  - intro ONE. destruct SP as (S0 & S1 & S2 & SR). destruct (Rle_lt_or_eq_dec _ _ S2) as [G|G]; [exact G|exfalso].
    destruct (other_fit eig p wp L P W H1 H2 K US A B C N3 OFF (conj S0 (conj S1 (conj S2 SR))) G) as (T & RT & EQ & NEQ).
    apply NEQ. apply ONE; [|split; assumption]. split; [exact RT|]. intros T' RT'. rewrite EQ. apply OPT. exact RT'.
  - intros GAP T T' [RT BT] [RT' BT'].
    rewrite (only_fit eig p wp L P W H1 H2 K US A B C N3 OFF SP T GAP RT (BT _ RR)).
    rewrite (only_fit eig p wp L P W H1 H2 K US A B C N3 OFF SP T' GAP RT' (BT' _ RR)). reflexivity.
Qed.

(** the quarter turn of C86 is the only best fit of its pairs *)
Example C353_case : one_best_fit (vp_pts quarter_pairs).
Proof.
  apply (C353_one_best_fit_iff quarter_eig quarter_pairs wp_default); try reflexivity.
  - cbn. lra.
  - cbn. lra.
  - cbn. lra.
  - cbn. lia.
  - exact quarter_far.
  - exact quarter_spectral.
  - rewrite quarter_matrix. cbn. lra.
Qed.

(** points on a line: they can be turned around the line *)
Definition on_a_line : VPairs := mkVP (map (fun x => (mkV x 0 0, mkV x 0 0)) [1; 2; -1; -2]) [] [] 0 0 [].
Definition line_eig (_ : Sym4) : Eig :=
  mkEig (mkQ 0 0 1 0) (mkQ 0 0 0 1) (mkQ 0 1 0 0) (mkQ 1 0 0 0) (- (5 / 2)) (- (5 / 2)) (5 / 2) (5 / 2).
Lemma line_centroids : centroid (map fst (vp_pts on_a_line)) = vzero3 /\ centroid (map snd (vp_pts on_a_line)) = vzero3.
Proof. split; unfold centroid, vzero3; cbn [on_a_line vp_pts map fst snd length vsum fold_right]; unfold vzero3; vunf; f_equal; field. Qed.
Lemma line_far : off_centroid (vp_pts on_a_line).
Proof.
  unfold off_centroid. destruct line_centroids as [-> ->]. cbn [on_a_line vp_pts map].
  assert (F : forall x, 1 <= x * x -> 1 / 10000 <= vnorm (vsub (mkV x 0 0) vzero3)).
  { intros x X. apply vnorm_far. unfold vzero3. vunf. lra. }
  repeat (apply Forall_cons; [cbn [fst snd]; split; apply F; lra|]). constructor.
Qed.
Lemma line_matrix : horn_matrix on_a_line wp_default = mkS4 (5 / 2) 0 0 0 (5 / 2) 0 0 (- (5 / 2)) 0 (- (5 / 2)).
Proof.
  unfold horn_matrix.
  assert (CALLS : horn_pairs on_a_line wp_default = plain_calls on_a_line wp_default vzero3 vzero3 0 (vp_pts on_a_line)).
  { unfold horn_pairs. assert (F := line_far). unfold off_centroid in F. destruct line_centroids as [E1 E2]. rewrite E1, E2 in F |- *.
    unfold items. change (vp_lns on_a_line) with (@nil (V3 * V3)). change (vp_pls on_a_line) with (@nil (V3 * V3)). cbn [map app]. rewrite app_nil_r.
    apply used_plain; [reflexivity|reflexivity|exact F]. }
  rewrite CALLS.
  assert (CT : class_total on_a_line wp_default = 4).
  { unfold class_total. cbn [on_a_line vp_pts vp_lns vp_pls map length wp_default wp_pt2pt wp_ln2ln wp_pl2pl].
    rewrite !INR_IZR_INZ. simpl. ring. }
  cbn [on_a_line vp_pts map plain_calls]. fold on_a_line.
  rewrite CT. change (wp_pt2pt wp_default) with 1.
  assert (PB : forall i, pair_block_weight on_a_line i = 1) by reflexivity. rewrite !PB.
  assert (B0 : forall x y z, vsub (mkV x y z) vzero3 = mkV x y z).
  { clear. intros x y z. unfold vzero3. vunf. f_equal; ring. }
  rewrite !B0.
  unfold S_of. cbn [sum_w c_w]. destruct (Rlt_dec 0 _) as [|X]; [|exfalso; lra].
  unfold S_scale, S_add, S_zero, N_of. cbn [fold_left m00 m01 m02 m10 m11 m12 m20 m21 m22 c_w c_b c_r].
  clear. cbn [vx vy vz]. f_equal; field.
Qed.
Example C353_points_on_a_line : ~ one_best_fit (vp_pts on_a_line).
Proof.
  intro ONE. apply (C353_one_best_fit_iff line_eig on_a_line wp_default) in ONE; try reflexivity.
  - rewrite line_matrix in ONE. cbn in ONE. lra.
  - cbn. lra.
  - cbn. lra.
  - cbn. lra.
  - cbn. lia.
  - exact line_far.
  - rewrite line_matrix. unfold spectral, line_eig, qdot, qnorm2, quad4. cbn [z0 z1 z2 z3 lam0 lam1 lam2 lam3 qr qx qy qz n00 n01 n02 n03 n11 n12 n13 n22 n23 n33].
    repeat split; try lra; intros [r x y z]; cbn [qr qx qy qz]; ring.
Qed.
