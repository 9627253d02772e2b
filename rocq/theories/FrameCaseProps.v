(** C356-C358: scenes seen from other frames, and a run that depends on the origin of the local map. *)
From Coq Require Import Reals Qreals List Lra Lia.
From Verif Require Import Base PairingsModel MatcherModel BitfieldModel BitfieldProofs PointMatcherModel PointMatcherSpec BruteNN
  SolverModel QualityModel IcpModel GeomModel VisitModel VisitSpec VisitProps RotProofs
  HornModel HornProofs NoiselessProofs HornProps HornUniqueProps OlaeModel SmCliModel EndToEndModel EndToEndProps MonotoneProps FixpointProofs FrameProofs FrameStep FrameProps.
Import ListNotations.
Open Scope nat_scope.

(** ** The scene: the six points, a quarter turn away from the global map. [s]: the global map is turned by half a turn (-1) or not (1), [k]:
    the local map; [t], [u]: where they are moved; [e]: how far the guess is off, besides 16 degrees. *)
Section Scene.
Variables (s k : Q) (t u : P3) (e : Q).
Definition gloQ (p : P3) : P3 := mkP3 (s * - py p + px t) (s * px p + py t) (pz p + pz t).
Definition locQ (p : P3) : P3 := mkP3 (k * px p + px u) (k * py p + py u) (pz p + pz u).
Definition sc_globals : list P3 := rev (map gloQ sixQ) ++ [gloQ (mkP3 9 9 9)].
Definition sc_locals : list P3 := map locQ sixQ.
Definition solQ (q : P3) : P3 := mkP3 (s * k * - (py q - py u) + px t) (s * k * (px q - px u) + py t) (pz q - pz u + pz t).
Definition gueQ (q : P3) : P3 :=
  mkP3 (s * k * (- (7 # 25) * (px q - px u) - (24 # 25) * (py q - py u)) + s * e + px t)
       (s * k * ((24 # 25) * (px q - px u) - (7 # 25) * (py q - py u)) + py t) (pz q - pz u + pz t).
Let sg := (Q2R s * Q2R k)%R.
Let T_ := to_v t. Let U_ := to_v u.
Definition sol : Pose := mkPose (mkV 0 sg 0) (mkV (- sg) 0 0) (mkV 0 0 1) (mkV (vx T_ + sg * vy U_) (vy T_ - sg * vx U_) (vz T_ - vz U_)).
Definition gue : Pose :=
  mkPose (mkV (- (7 / 25) * sg) (24 / 25 * sg) 0) (mkV (- (24 / 25) * sg) (- (7 / 25) * sg) 0) (mkV 0 0 1)
         (mkV (vx T_ + Q2R s * Q2R e + sg * (7 / 25 * vx U_ + 24 / 25 * vy U_)) (vy T_ + sg * (- (24 / 25) * vx U_ + 7 / 25 * vy U_)) (vz T_ - vz U_)).

Lemma Q7 : Q2R (7 # 25) = (7 / 25)%R. Proof. unfold Q2R. cbn. lra. Qed.
Lemma Q24 : Q2R (24 # 25) = (24 / 25)%R. Proof. unfold Q2R. cbn. lra. Qed.
Lemma sol_exact q : to_v (solQ q) = compose sol (to_v q).
Proof.
  unfold solQ, sol, sg, T_, U_, to_v. punf. cbn [px py pz]. repeat rewrite ?Q2R_plus, ?Q2R_mult, ?Q2R_opp, ?Q2R_minus. f_equal; ring.
Qed.
Lemma gue_exact q : to_v (gueQ q) = compose gue (to_v q).
Proof.
  unfold gueQ, gue, sg, T_, U_, to_v. punf. cbn [px py pz]. repeat rewrite ?Q2R_plus, ?Q2R_mult, ?Q2R_minus, ?Q2R_opp. rewrite Q7, Q24. f_equal; field.
Qed.

Hypothesis SS : (Q2R s * Q2R s = 1)%R.
Hypothesis KK : (Q2R k * Q2R k = 1)%R.
Lemma sg_sq : (sg * sg = 1)%R.
Proof. unfold sg. transitivity ((Q2R s * Q2R s) * (Q2R k * Q2R k))%R; [ring|]. rewrite SS, KK. ring. Qed.
Lemma sol_rotation : is_rotation sol.
Proof. assert (X := sg_sq). unfold is_rotation, sol. punf. repeat split; try lra. f_equal; lra. Qed.
Lemma gue_rotation : is_rotation gue.
Proof. assert (X := sg_sq). unfold is_rotation, gue. punf. repeat split; try lra. f_equal; lra. Qed.

(** the pairs *)
Definition sc_pairs : list (V3 * V3) := map (fun p => (to_v (gloQ p), to_v (locQ p))) sixQ.
Definition sc_vp : VPairs := mkVP sc_pairs [] [] 0 0 [].
Lemma glo_v p : to_v (gloQ p) = mkV (Q2R s * - vy (to_v p) + vx T_) (Q2R s * vx (to_v p) + vy T_) (vz (to_v p) + vz T_).
Proof. unfold gloQ, T_, to_v. cbn [px py pz vx vy vz]. rewrite !Q2R_plus, !Q2R_mult, !Q2R_opp. reflexivity. Qed.
Lemma loc_v p : to_v (locQ p) = mkV (Q2R k * vx (to_v p) + vx U_) (Q2R k * vy (to_v p) + vy U_) (vz (to_v p) + vz U_).
Proof. unfold locQ, U_, to_v. cbn [px py pz vx vy vz]. rewrite !Q2R_plus, !Q2R_mult. reflexivity. Qed.
Lemma sc_pairs_v : sc_pairs = map (fun v => (mkV (Q2R s * - vy v + vx T_) (Q2R s * vx v + vy T_) (vz v + vz T_), mkV (Q2R k * vx v + vx U_) (Q2R k * vy v + vy U_) (vz v + vz U_))) six.
Proof. unfold sc_pairs. rewrite <- to_v_six, map_map. apply map_ext. intro p. rewrite glo_v, loc_v. reflexivity. Qed.
Lemma sc_noiseless : noiseless sol sc_vp.
Proof.
  assert (X : forall p, to_v (gloQ p) = compose sol (to_v (locQ p))).
  { intro p. rewrite glo_v, loc_v. unfold sol. punf. unfold sg. assert (E : forall a, (Q2R s * a = Q2R s * Q2R k * (Q2R k * a))%R) by (intro a; transitivity (Q2R s * (Q2R k * Q2R k) * a)%R; [rewrite KK; ring|ring]).
    f_equal; [rewrite (E (- vy (to_v p))%R); ring|rewrite (E (vx (to_v p))); ring|ring]. }
  split; [|split; constructor]. unfold sc_vp, sc_pairs. cbn [vp_pts]. apply Forall_forall. intros x I. apply in_map_iff in I. destruct I as (p & <- & _). cbn [fst snd]. apply X.
Qed.
Lemma sc_centroids : centroid (map fst sc_pairs) = T_ /\ centroid (map snd sc_pairs) = U_.
Proof.
  rewrite sc_pairs_v, !map_map. destruct T_ as [t0 t1 t2], U_ as [u0 u1 u2]. unfold six. cbn [map fst snd vx vy vz]. split; unfold centroid, vsum; cbn [fold_right length]; unfold vadd, vscale; cbn [vx vy vz INR]; f_equal; unfold vzero3; cbn [vx vy vz]; field.
Qed.
Lemma unit_far v : vnorm2 v = 1%R -> (1 / 10000 <= vnorm v)%R.
Proof. intro H. apply vnorm_far. rewrite H. lra. Qed.
Lemma sc_far : off_centroid sc_pairs.
Proof.
  unfold off_centroid. destruct sc_centroids as [-> ->]. rewrite sc_pairs_v. apply Forall_forall. intros x I. apply in_map_iff in I. destruct I as (v & <- & I). cbn [fst snd].
  assert (N : vnorm2 v = 1%R) by (unfold six in I; repeat (destruct I as [<-|I]; [unfold vnorm2, vdot; cbn [vx vy vz]; ring|]); destruct I).
  unfold vnorm2, vdot in N. split; apply unit_far; unfold vnorm2, vdot, vsub; cbn [vx vy vz].
  - rewrite <- N. transitivity (Q2R s * Q2R s * (vy v * vy v + vx v * vx v) + vz v * vz v)%R; [ring|]. rewrite SS. ring.
  - rewrite <- N. transitivity (Q2R k * Q2R k * (vy v * vy v + vx v * vx v) + vz v * vz v)%R; [ring|]. rewrite KK. ring.
Qed.
Lemma sc_calls : horn_pairs sc_vp wp_default = plain_calls sc_vp wp_default U_ T_ 0 sc_pairs.
Proof.
  unfold horn_pairs. assert (F := sc_far). unfold off_centroid in F. change (vp_pts sc_vp) with sc_pairs. destruct sc_centroids as [E1 E2]. rewrite E1, E2 in F |- *.
  unfold items. change (vp_lns sc_vp) with (@nil (V3 * V3)). change (vp_pls sc_vp) with (@nil (V3 * V3)). change (vp_pts sc_vp) with sc_pairs. cbn [map app]. rewrite app_nil_r.
  apply used_plain; [reflexivity|reflexivity|exact F].
Qed.
Lemma sc_matrix : horn_matrix sc_vp wp_default = mkS4 (/ 3) 0 0 (2 / 3 * sg) (- / 3) 0 0 (- / 3) 0 (/ 3).
Proof.
  unfold horn_matrix. rewrite sc_calls.
  assert (CT : class_total sc_vp wp_default = 6%R).
  { unfold class_total, sc_vp. cbn [vp_pts vp_lns vp_pls map length wp_default wp_pt2pt wp_ln2ln wp_pl2pl]. unfold sc_pairs. rewrite map_length.
    unfold sixQ. cbn [length]. rewrite !INR_IZR_INZ. simpl. ring. }
  rewrite sc_pairs_v. unfold six. cbn [map plain_calls]. rewrite CT. change (wp_pt2pt wp_default) with 1%R.
  assert (PB : forall i, pair_block_weight sc_vp i = 1%R) by reflexivity. rewrite !PB.
  unfold S_of. cbn [sum_w c_w]. destruct (Rlt_dec 0 _) as [|X]; [|exfalso; lra].
  unfold S_scale, S_add, S_zero, N_of. cbn [fold_left m00 m01 m02 m10 m11 m12 m20 m21 m22 c_w c_b c_r].
  unfold vsub. cbn [vx vy vz]. unfold sg. clear. f_equal; field.
Qed.
End Scene.

Definition turn_eig (m : Sym4) : Eig :=
  if Rlt_dec 0 (n03 m) then quarter_eig m
  else mkEig (mkQ h2 0 0 h2) (mkQ 0 1 0 0) (mkQ 0 0 1 0) (mkQ h2 0 0 (- h2)) (- / 3) (- / 3) (- / 3) 1.
Lemma turn_spectral sg : (sg = 1 \/ sg = -1)%R -> let m := mkS4 (/ 3) 0 0 (2 / 3 * sg) (- / 3) 0 0 (- / 3) 0 (/ 3) in spectral m (turn_eig m).
Proof.
  intros H m. unfold turn_eig, m. cbn [n03]. assert (HH := h2_sq).
  destruct H as [->| ->]; destruct (Rlt_dec 0 _) as [X|X]; try (exfalso; lra);
    unfold spectral, quarter_eig, qdot, qnorm2, quad4; cbn [z0 z1 z2 z3 lam0 lam1 lam2 lam3 qr qx qy qz n00 n01 n02 n03 n11 n12 n13 n22 n23 n33];
    (repeat split; try lra; try (rewrite <- (Rmult_1_r 1); nra)); intros [r x y z]; cbn [qr qx qy qz].
  - transitivity ((h2 * h2) * ((r - z) * (r - z)) + x * x + y * y + (h2 * h2) * ((r + z) * (r + z)))%R; [ring|]. rewrite HH. field.
  - transitivity (- / 3 * ((h2 * h2) * ((r - z) * (r - z))) + - / 3 * (x * x) + - / 3 * (y * y) + (h2 * h2) * ((r + z) * (r + z)))%R; [rewrite HH; field|ring].
  - transitivity ((h2 * h2) * ((r - z) * (r - z)) + x * x + y * y + (h2 * h2) * ((r + z) * (r + z)))%R; [ring|]. rewrite HH. field.
  - transitivity (- / 3 * ((h2 * h2) * ((r + z) * (r + z))) + - / 3 * (x * x) + - / 3 * (y * y) + (h2 * h2) * ((r - z) * (r - z)))%R; [rewrite HH; field|ring].
Qed.

Section Solved.
Variables (s k : Q) (t u : P3) (e : Q).
Hypothesis SS : (Q2R s * Q2R s = 1)%R.
Hypothesis KK : (Q2R k * Q2R k = 1)%R.
Hypothesis SG : (Q2R s * Q2R k = 1 \/ Q2R s * Q2R k = -1)%R.
Lemma sc_spectral : spectral (horn_matrix (sc_vp s k t u) wp_default) (turn_eig (horn_matrix (sc_vp s k t u) wp_default)).
Proof. rewrite sc_matrix by assumption. apply turn_spectral. exact SG. Qed.
Lemma sc_solved : horn_algo turn_eig (fun _ => None) wp_default (sc_vp s k t u) = Ok (true, mkHR (sol s k t u) []).
Proof.
  unfold horn_algo, solver_horn. cbn [sc_vp vp_nPt2Ln vp_nPt2Pl Nat.eqb andb]. apply C86_horn_recovers_the_pose.
  - apply sol_rotation; assumption.
  - apply sc_noiseless; assumption.
  - apply default_positive. reflexivity.
  - intros X. exfalso. apply X. reflexivity.
  - discriminate.
  - unfold at_least_three. simpl. lia.
  - reflexivity.
  - reflexivity.
  - discriminate.
  - rewrite sc_calls by assumption. rewrite sc_pairs_v. unfold six. cbn [map plain_calls]. do 2 eexists.
    split; [left; reflexivity|]. split; [right; right; left; reflexivity|]. cbn [c_r]. unfold vsub, vcross. cbn [vx vy vz].
    intros E. injection E as _ _ E. replace ((Q2R k * 1 + vx (to_v u) - vx (to_v u)) * (Q2R k * 1 + vy (to_v u) - vy (to_v u)) -
      (Q2R k * 0 + vy (to_v u) - vy (to_v u)) * (Q2R k * 0 + vx (to_v u) - vx (to_v u)))%R with (Q2R k * Q2R k)%R in E by ring. lra.
  - exact sc_spectral.
Qed.
Lemma sc_ready f : to_vpairs f = sc_vp s k t u -> horn_ready turn_eig wp_default (to_vpairs f) /\ one_best_fit (vp_pts (to_vpairs f)).
Proof.
  intros ->. assert (H : horn_ready turn_eig wp_default (sc_vp s k t u)).
  { split; [cbn; lia|]. split; [apply sc_far; assumption|exact sc_spectral]. }
  split; [exact H|]. destruct H as (N3 & OFF & SP).
  apply (C353_one_best_fit_iff turn_eig (sc_vp s k t u) wp_default); try reflexivity; try assumption; try (cbn; lra).
  rewrite sc_matrix by assumption. unfold turn_eig. destruct (Rlt_dec 0 _); cbn; lra.
Qed.
End Solved.
(** C358, where it holds: with the local map in any other frame the runs have their searches in common as long as both last. *)
Theorem C358_origin_of_the_local_map_where :
  forall M fMax shuffle mround tf_of eig convert name gpts nnG nnL nnL' Ls Ls' pose_minus log_norms tnorm realize realize' b thr wp evals evals' p ge le ge' le' wd wd' guess env env' env2 env2' r r',
  nn_correct nnG -> bbox_correct nnG -> length (nn_points nnL) = length Ls -> length (nn_points nnL') = length Ls' ->
  (0 < thr)%Q -> (0 <= bbox_epsilon b)%Q -> weight_pt2pt_layers b = [] ->
  maxLocalPointsPerLayer b = 0 \/ length Ls <= maxLocalPointsPerLayer b -> plain_weights wp ->
  is_rotation M -> moved_points M Ls Ls' ->
  align pose_minus log_norms tnorm realize (new_match_state (gmap name gpts nnG) (lmap name nnL Ls))
    (mkComponents [pose_matcher fMax shuffle mround (gmap name gpts nnG) (lmap name nnL Ls) tf_of (DT b thr 0 1) 0 0]
                  [closed_solver 0 (horn_algo eig convert wp)] evals None)
    p ge le wd guess env = Ok (env2, r) ->
  align pose_minus log_norms tnorm realize' (new_match_state (gmap name gpts nnG) (lmap name nnL' Ls'))
    (mkComponents [pose_matcher fMax shuffle mround (gmap name gpts nnG) (lmap name nnL' Ls') tf_of (DT b thr 0 1) 0 0]
                  [closed_solver 0 (horn_algo eig convert wp)] evals' None)
    p ge' le' wd' (pose_mul guess (pinv M)) env' = Ok (env2', r') ->
  (forall T f, In (T, f) (searches (r_loopTrace r)) -> clear_search tf_of eig wp b thr nnG Ls T f) ->
  (forall T f, In (T, f) (searches (r_loopTrace r')) -> exact_search tf_of eig wp b thr nnG Ls' T f) ->
  forall k a a', nth_error (searches (r_loopTrace r)) k = Some a -> nth_error (searches (r_loopTrace r')) k = Some a' -> same_search id_pose M a a'.
Proof.
  intros * NC BB LL LL' TP EPS TBL LIM PW RM LS A1 A2 K1 K2.
  destruct (align_course _ _ _ _ _ _ _ _ _ _ _ _ _ _ _ _ _ A1) as (o & C1 & R1).
  destruct (align_course _ _ _ _ _ _ _ _ _ _ _ _ _ _ _ _ _ A2) as (o' & C2 & R2).
  apply (common_part id_pose M fMax shuffle mround tf_of eig convert name gpts gpts nnG nnL nnG nnL' Ls Ls' pose_minus log_norms b thr wp p
    id_rotation RM NC BB NC BB (moved_id _) LS LL LL' TP EPS TBL LIM PW _ _ _ _ _ _ _ _ C1 _ _ _ _ _ _ _ C2).
  - apply (seen_formula id_pose M guess _ RM). apply pose_ext. intro u. rewrite !compose_pose_mul, compose_id. reflexivity.
  - intros [T f] IN. apply K1, IN.
  - intros [T f] IN. apply K2, IN.
Qed.

(** ** The runs *)
Definition vec_dec (a b : V3) : {a = b} + {a <> b}.
Proof. decide equality; apply Req_EM_T. Defined.
Definition pose_dec (A B : Pose) : {A = B} + {A <> B}.
Proof. decide equality; apply vec_dec. Defined.
Definition turn_of (D : Pose) : Pose := mkPose (c0 D) (c1 D) (c2 D) (mkV 0 0 0).
Definition fc_minus (A B : Pose) : Pose := pose_mul (pinv B) A.
(** stands for the norms of the logarithm: which motions have no translation, which no rotation *)
Definition fc_norms (D : Pose) : Q * Q :=
  ((if vec_dec (tr D) (mkV 0 0 0) then 0 else 2)%Q, (if pose_dec (turn_of D) id_pose then 0 else 28 # 100)%Q).
Definition fc_params : IcpParams := mkIcpParams 10 (1 # 100) (1 # 2) false false 0 [].

Lemma fc_relative : relative_pose fc_minus.
Proof. intros A B. reflexivity. Qed.
Lemma minus_self T : is_rotation T -> fc_minus T T = id_pose.
Proof. intro R. apply pose_ext. intro u. unfold fc_minus. rewrite compose_pose_mul, pinv_left, compose_id by exact R. reflexivity. Qed.
Lemma compose_zero T : compose T (mkV 0 0 0) = tr T.
Proof. destruct T as [[a0 a1 a2] [b0 b1 b2] [d0 d1 d2] [t0 t1 t2]]. punf. f_equal; ring. Qed.
Lemma minus_still A B : is_rotation B -> tr (fc_minus A B) = mkV 0 0 0 <-> tr A = tr B.
Proof.
  intro R. rewrite <- (compose_zero (fc_minus A B)). unfold fc_minus. rewrite compose_pose_mul, compose_zero. split.
  - intro H. rewrite <- (pinv_right B (tr A) R), H, compose_zero. reflexivity.
  - intros ->. rewrite <- (compose_zero B) at 1. apply pinv_left. exact R.
Qed.
Lemma fc_measures : forall T, is_rotation T -> fc_norms (fc_minus T T) = (0, 0)%Q.
Proof.
  intros T R. rewrite minus_self by exact R. unfold fc_norms. destruct (vec_dec _ _) as [_|X]; [|contradiction X; reflexivity].
  destruct (pose_dec _ _) as [_|X]; [reflexivity|contradiction X; reflexivity].
Qed.
Lemma norms_still A B : is_rotation B -> tr A = tr B -> exists r, fc_norms (fc_minus A B) = (0, r)%Q /\ (r = 0 \/ r = 28 # 100)%Q.
Proof.
  intros R H. apply (minus_still A B R) in H. unfold fc_norms. destruct (vec_dec _ _) as [_|X]; [|contradiction]. eexists. split; [reflexivity|].
  destruct (pose_dec _ _); [left|right]; reflexivity.
Qed.
Lemma norms_moved A B : is_rotation B -> tr A <> tr B -> exists r, fc_norms (fc_minus A B) = (2, r)%Q /\ (r = 0 \/ r = 28 # 100)%Q.
Proof.
  intros R H. unfold fc_norms. destruct (vec_dec _ _) as [X|_]; [apply (minus_still A B R) in X; contradiction|]. eexists. split; [reflexivity|].
  destruct (pose_dec _ _); [left|right]; reflexivity.
Qed.
Lemma fc_axes : no_preferred_axes fc_norms.
Proof.
  intros M D R Z. unfold fc_norms.
  assert (TR : tr (pose_mul M (pose_mul D (pinv M))) = mkV 0 0 0 <-> tr D = mkV 0 0 0).
  { assert (P0 : tr (pinv M) = mkV 0 0 0) by (unfold pinv; cbn [tr]; rewrite Z; unfold vdot; cbn [vx vy vz]; f_equal; ring).
    rewrite <- (compose_zero (pose_mul M (pose_mul D (pinv M)))), !compose_pose_mul, (compose_zero (pinv M)), P0, (compose_zero D). split.
    - intro H. rewrite <- (pinv_left M (tr D) R), H, compose_zero, P0. reflexivity.
    - intros ->. rewrite compose_zero. exact Z. }
  assert (TU : turn_of (pose_mul M (pose_mul D (pinv M))) = id_pose <-> turn_of D = id_pose).
  { assert (TC : forall A u, compose (turn_of A) u = vsub (compose A u) (tr A)).
    { intros [[a0 a1 a2] [b0 b1 b2] [d0 d1 d2] [t0 t1 t2]] u. unfold turn_of. punf. f_equal; ring. }
    assert (ZC : forall u, compose M u = rotate M u).
    { intro u. destruct M as [[a0 a1 a2] [b0 b1 b2] [d0 d1 d2] [t0 t1 t2]]. cbn [tr] in Z. injection Z as -> -> ->. punf. f_equal; ring. }
    assert (LIN : forall a b, rotate M (vsub a b) = vsub (rotate M a) (rotate M b)) by (intros; punf; f_equal; ring).
    assert (P0 : compose (pinv M) (mkV 0 0 0) = mkV 0 0 0).
    { rewrite compose_zero. unfold pinv. cbn [tr]. rewrite Z. unfold vdot. cbn [vx vy vz]. f_equal; ring. }
    assert (TRE : tr (pose_mul M (pose_mul D (pinv M))) = compose M (tr D)) by (rewrite <- compose_zero, !compose_pose_mul, P0, compose_zero; reflexivity).
    assert (KEY : forall u, compose (turn_of (pose_mul M (pose_mul D (pinv M)))) u = compose M (compose (turn_of D) (compose (pinv M) u))).
    { intro u. rewrite !TC, TRE, !compose_pose_mul, !ZC, LIN. reflexivity. }
    split; intro H; apply pose_ext; intro u.
    - assert (E := KEY (compose M u)). rewrite H, compose_id, pinv_left in E by exact R.
      rewrite <- (pinv_left M (compose (turn_of D) u) R), <- E, pinv_left, compose_id by exact R. reflexivity.
    - rewrite KEY, H, !compose_id, pinv_right by exact R. reflexivity. }
  f_equal.
  - destruct (vec_dec _ _) as [X|X]; destruct (vec_dec _ _) as [Y|Y]; try reflexivity; exfalso; tauto.
  - destruct (pose_dec _ _) as [X|X]; destruct (pose_dec _ _) as [Y|Y]; try reflexivity; exfalso; tauto.
Qed.

(** two iterations, or one, with an abstract matcher *)
Section Iterations.
Variables (matchers : list (@Matcher Pair Datatypes.unit Datatypes.unit Datatypes.unit Datatypes.unit Q MatchState Pose))
  (reset : MatchState -> MatchState) (env0 : MatchState) (algo : VPairs -> res (bool * HResult)) (guess found : Pose).
Definition it_align := align fc_minus fc_norms (fun _ => 0%Q) (fun _ e => Ok e) reset
    (mkComponents matchers [closed_solver 0 algo] [ratio_evaluator 1 (1 # 5)] None) fc_params false false false guess env0.

Lemma quality_any T f env : exists q, evaluate_quality [ratio_evaluator 1 (1 # 5)] T f env = Ok (env, q).
Proof.
  unfold evaluate_quality. cbn [evaluate_loop ratio_evaluator relativeWeight e_evaluate rbind].
  change (Qltb 0 1) with true. cbv iota. destruct (hard_discard _); cbn [rbind].
  - eexists. reflexivity.
  - change (Qltb 0 (0 + 1)) with true. cbv iota. eexists. reflexivity.
Qed.

Hypothesis RG : is_rotation guess.
Hypothesis RF : is_rotation found.
Hypothesis HM : matchers <> [].
Variables (f1 f2 : ptpairings) (m1 m2 : MatchState).
Hypothesis F1 : run_matchers matchers 0 guess (reset env0) = Ok (m1, f1).
Hypothesis E1 : pairings_empty f1 = false.
Hypothesis A1 : algo (to_vpairs f1) = Ok (true, mkHR found []).

Lemma once : tr found = tr guess ->
  exists r, it_align = Ok (m1, r) /\ r_optimal_tf r = found /\ r_nIterations r = 0 /\ searches (r_loopTrace r) = [(guess, f1)].
Proof.
  intro MOV. destruct (norms_still found guess RG MOV) as (x & N1 & X).
  assert (ST1 : is_stalled fc_params (increments fc_minus fc_norms found guess None) = true) by (unfold increments; rewrite N1; destruct X as [-> | ->]; reflexivity).
  unfold it_align, align. cbn [c_matchers c_solvers c_evaluators]. destruct matchers as [|mt0 mts]; [contradiction HM; reflexivity|]. cbn [isNil orb maxIterations fc_params icp_loop].
  unfold iter_body at 1. cbn [rbind l_env c_matchers l_sol optimalPose].
  rewrite F1. cbn [rbind]. rewrite E1. cbn [c_solvers].
  unfold run_solvers, solver_optimal_pose, solver_iter_gate, solver_latch_gate, closed_solver.
  cbn [s_enabled negb sc_icpIteration s_runFromIteration s_runUpToIteration s_runUntilTranslationCorrectionSmallerThan s_impl].
  change (Nat.ltb 0 0) with false. change (Qltb 0 0) with false. cbn [andb]. rewrite A1. cbn [rbind fst snd hr_pose negb optimalPose l_prev l_prev2].
  rewrite ST1. cbn [want_details fc_params saveIterationDetails andb rbind l_env l_sol l_pairings optimalPose].
  destruct (quality_any found f1 m1) as [q Eq]. rewrite Eq. cbn [rbind]. eexists. split; [reflexivity|]. split; [reflexivity|]. split; reflexivity.
Qed.

Hypothesis F2 : run_matchers matchers 1 found (reset m1) = Ok (m2, f2).
Hypothesis E2 : pairings_empty f2 = false.
Hypothesis A2 : algo (to_vpairs f2) = Ok (true, mkHR found []).
Lemma twice : tr found <> tr guess ->
  exists r, it_align = Ok (m2, r) /\ r_optimal_tf r = found /\ r_nIterations r = 1 /\ searches (r_loopTrace r) = [(guess, f1); (found, f2)].
Proof.
  intro MOV. destruct (norms_moved found guess RG MOV) as (x & N1 & X). assert (N2 := fc_measures found RF).
  assert (ST1 : is_stalled fc_params (increments fc_minus fc_norms found guess None) = false) by (unfold increments; rewrite N1; destruct X as [-> | ->]; reflexivity).
  assert (ST2 : is_stalled fc_params (increments fc_minus fc_norms found found (Some guess)) = true) by (unfold increments; rewrite N2, N1; destruct X as [-> | ->]; reflexivity).
  unfold it_align, align. cbn [c_matchers c_solvers c_evaluators]. destruct matchers as [|mt0 mts]; [contradiction HM; reflexivity|]. cbn [isNil orb maxIterations fc_params icp_loop].
  unfold iter_body at 1. cbn [rbind l_env c_matchers l_sol optimalPose].
  rewrite F1. cbn [rbind]. rewrite E1. cbn [c_solvers].
  unfold run_solvers, solver_optimal_pose, solver_iter_gate, solver_latch_gate, closed_solver.
  cbn [s_enabled negb sc_icpIteration s_runFromIteration s_runUpToIteration s_runUntilTranslationCorrectionSmallerThan s_impl].
  change (Nat.ltb 0 0) with false. change (Qltb 0 0) with false. cbn [andb]. rewrite A1. cbn [rbind fst snd hr_pose negb optimalPose l_prev l_prev2].
  rewrite ST1. cbn [want_details fc_params saveIterationDetails andb].
  unfold iter_tail at 1. change (find_checkpoint (quality_checkpoints fc_params) 0) with (@None Q). cbn [c_hook rbind l_env l_sol l_pairings l_prev l_prev2 l_lastCorrection l_latched l_details l_trace].
  unfold iter_body at 1. cbn [rbind l_env c_matchers l_sol optimalPose].
  rewrite F2. cbn [rbind]. rewrite E2. cbn [c_solvers].
  unfold run_solvers, solver_optimal_pose, solver_iter_gate, solver_latch_gate.
  cbn [s_enabled negb sc_icpIteration s_runFromIteration s_runUpToIteration s_runUntilTranslationCorrectionSmallerThan s_impl].
  change (Nat.ltb 1 0) with false. change (Nat.ltb 0 0) with false. change (Qltb 0 0) with false. cbn [andb]. rewrite A2. cbn [rbind fst snd hr_pose negb optimalPose l_prev l_prev2].
  rewrite ST2. cbn [want_details fc_params saveIterationDetails andb rbind l_env l_sol l_pairings optimalPose].
  destruct (quality_any found f2 m2) as [q Eq]. rewrite Eq. cbn [rbind]. eexists. split; [reflexivity|]. split; [reflexivity|]. split; reflexivity.
Qed.
End Iterations.

Section Runs.
Variables (s k : Q) (t u : P3) (e : Q) (tf_of : Pose -> P3 -> P3).
Hypothesis SS : (Q2R s * Q2R s = 1)%R.
Hypothesis KK : (Q2R k * Q2R k = 1)%R.
Hypothesis SG : (Q2R s * Q2R k = 1 \/ Q2R s * Q2R k = -1)%R.
Hypothesis TG : tf_of (gue s k t u e) = gueQ s k t u e.
Hypothesis TS : tf_of (sol s k t u) = solQ s k t u.
Notation G := (gmap 7 None (brute (sc_globals s t))).
Notation L := (lmap 7 (brute (sc_locals k u)) (sc_locals k u)).
Notation fresh := (new_match_state G L (mkMS [] [])).
(** the matcher on rationals *)
Definition sc_found (tf : P3 -> P3) (it : nat) : res (MatchState * ptpairings) :=
  run_matchers [pm_matcher 1000000 (fun l => l) (fun _ => 0%Z) G L (DT (mono_base true) (1 # 2) 0 1) 0 0] it tf fresh.
Definition right_pairs (f : ptpairings) : Prop :=
  map p_local (paired_pt2pt f) = sc_locals k u /\ map p_global (paired_pt2pt f) = map (gloQ s t) sixQ /\
  paired_pt2ln f = [] /\ paired_pt2pl f = [] /\ point_weights f = [].
Lemma right_vpairs f : right_pairs f -> to_vpairs f = sc_vp s k t u.
Proof.
  intros (A & B & C & D & E). unfold to_vpairs, sc_vp, sc_pairs. rewrite C, D, E. cbn [map length]. f_equal.
  unfold sc_locals in A. revert A B. generalize sixQ. induction (paired_pt2pt f) as [|x l IH]; intros [|q qs] A B; cbn [map] in *; try discriminate; [reflexivity|].
  injection A as A1 A2. injection B as B1 B2. rewrite A1, B1. f_equal. apply IH; assumption.
Qed.
Lemma right_some f : right_pairs f -> pairings_empty f = false.
Proof. intros (A & _). unfold pairings_empty. destruct (paired_pt2pt f); [discriminate A|reflexivity]. Qed.
Lemma fresh_any env : new_match_state G L env = fresh.
Proof. destruct (fresh_state 7 None (brute (sc_globals s t)) (brute (sc_locals k u)) (sc_locals k u)) as (m & E & _). unfold new_match_state. rewrite E. reflexivity. Qed.

Definition sc_matcher := pose_matcher 1000000 (fun l => l) (fun _ => 0%Z) (gmap 7 None (brute (sc_globals s t))) (lmap 7 (brute (sc_locals k u)) (sc_locals k u)) tf_of (DT (mono_base true) (1 # 2) 0 1) 0 0.
Definition sc_align := it_align [sc_matcher] (new_match_state (gmap 7 None (brute (sc_globals s t))) (lmap 7 (brute (sc_locals k u)) (sc_locals k u))) (mkMS [] [])
  (horn_algo turn_eig (fun _ => None) wp_default) (gue s k t u e).

Lemma sc_align_eq : sc_align = align fc_minus fc_norms (fun _ => 0%Q) (fun _ e => Ok e) (new_match_state G L)
    (mkComponents [pose_matcher 1000000 (fun l => l) (fun _ => 0%Z) G L tf_of (DT (mono_base true) (1 # 2) 0 1) 0 0]
                  [closed_solver 0 (horn_algo turn_eig (fun _ => None) wp_default)] [ratio_evaluator 1 (1 # 5)] None)
    fc_params false false false (gue s k t u e) (mkMS [] []).
Proof. unfold sc_align, it_align, sc_matcher. reflexivity. Qed.
Lemma run_found T tf it m1 f1 env : tf_of T = tf -> sc_found tf it = Ok (m1, f1) ->
  run_matchers [sc_matcher] it T (new_match_state G L env) = Ok (m1, f1).
Proof.
  intros <- F. rewrite fresh_any. unfold sc_found in F. rewrite <- pose_matcher_run in F. unfold sc_matcher. exact F.
Qed.
Lemma run_solved f : right_pairs f -> horn_algo turn_eig (fun _ => None) wp_default (to_vpairs f) = Ok (true, mkHR (sol s k t u) []).
Proof. intro H. rewrite (right_vpairs f H). apply sc_solved; assumption. Qed.

Lemma runs_twice f1 m1 f2 m2 : tr (sol s k t u) <> tr (gue s k t u e) ->
  sc_found (gueQ s k t u e) 0 = Ok (m1, f1) -> sc_found (solQ s k t u) 1 = Ok (m2, f2) -> right_pairs f1 -> right_pairs f2 ->
  exists r, sc_align = Ok (m2, r) /\ r_optimal_tf r = sol s k t u /\ r_nIterations r = 1 /\ searches (r_loopTrace r) = [(gue s k t u e, f1); (sol s k t u, f2)].
Proof.
  intros MOV F1 F2 S1 S2. unfold sc_align. apply twice with (m1 := m1).
  - apply gue_rotation; assumption.
  - apply sol_rotation; assumption.
  - discriminate.
  - apply (run_found _ _ _ _ _ _ TG F1).
  - apply right_some. exact S1.
  - apply run_solved. exact S1.
  - apply (run_found _ _ _ _ _ _ TS F2).
  - apply right_some. exact S2.
  - apply run_solved. exact S2.
  - exact MOV.
Qed.

Lemma runs_once f1 m1 : tr (sol s k t u) = tr (gue s k t u e) -> sc_found (gueQ s k t u e) 0 = Ok (m1, f1) -> right_pairs f1 ->
  exists r, sc_align = Ok (m1, r) /\ r_optimal_tf r = sol s k t u /\ r_nIterations r = 0 /\ searches (r_loopTrace r) = [(gue s k t u e, f1)].
Proof.
  intros MOV F1 S1. unfold sc_align. apply once.
  - apply gue_rotation; assumption.
  - discriminate.
  - apply (run_found _ _ _ _ _ _ TG F1).
  - apply right_some. exact S1.
  - apply run_solved. exact S1.
  - exact MOV.
Qed.

(** what the theorems ask of the searches *)
Definition one_near_check (tf : P3 -> P3) : bool :=
  forallb (fun l => forallb (fun i => forallb (fun j =>
     match nth_error (sc_globals s t) i, nth_error (sc_globals s t) j with
     | Some g, Some h => (i =? j)%nat || negb (Qeq_bool (sqd (tf l) h) (sqd (tf l) g)) || Qle_bool (qsq (1 # 2)) (sqd (tf l) g)
     | _, _ => true end) (seq 0 7)) (seq 0 7)) (sc_locals k u).
Lemma one_near_ok tf : one_near_check tf = true -> one_nearest (1 # 2) (nn_points (brute (sc_globals s t))) tf (sc_locals k u).
Proof.
  intros H l i j g h Il Gi Gj _ Q1 Q2. unfold one_near_check in H. rewrite forallb_forall in H. specialize (H l Il). rewrite forallb_forall in H.
  assert (LEN : length (sc_globals s t) = 7) by reflexivity.
  change (nn_points (brute (sc_globals s t))) with (sc_globals s t) in Gi, Gj.
  assert (Hi : i < 7) by (rewrite <- LEN; apply nth_error_Some; congruence). assert (Hj : j < 7) by (rewrite <- LEN; apply nth_error_Some; congruence).
  specialize (H i ltac:(apply in_seq; lia)). rewrite forallb_forall in H. specialize (H j ltac:(apply in_seq; lia)). rewrite Gi, Gj in H.
  apply Bool.orb_prop in H. destruct H as [H|H]; [apply Bool.orb_prop in H; destruct H as [H|H]|].
  - apply Nat.eqb_eq. exact H.
  - apply Qeq_eq_bool in Q1. rewrite Q1 in H. discriminate.
  - apply Qle_bool_iff in H. exfalso. exact (Qlt_not_le _ _ Q2 H).
Qed.
Lemma runs_exact T tf f : tf_of T = tf -> (forall q, to_v (tf q) = compose T (to_v q)) -> right_pairs f ->
  exact_search tf_of turn_eig wp_default (mono_base true) (1 # 2) (brute (sc_globals s t)) (sc_locals k u) T f.
Proof.
  intros TE EX RP. split; [intros l _; rewrite TE; apply EX|]. split; [left; reflexivity|]. intros _. apply (sc_ready s k t u SS KK SG f (right_vpairs f RP)).
Qed.
Lemma runs_clear T tf f : tf_of T = tf -> (forall q, to_v (tf q) = compose T (to_v q)) -> one_near_check tf = true -> right_pairs f ->
  clear_search tf_of turn_eig wp_default (mono_base true) (1 # 2) (brute (sc_globals s t)) (sc_locals k u) T f.
Proof.
  intros TE EX ON RP. split; [intros l _; rewrite TE; apply EX|]. split; [left; reflexivity|]. split; [rewrite TE; apply one_near_ok; exact ON|].
  intros _. apply (sc_ready s k t u SS KK SG f (right_vpairs f RP)).
Qed.
End Runs.

(** ** The cases *)
Definition tf_four (GA SA GB : Pose) (ga sa gb sb : P3 -> P3) (T : Pose) : P3 -> P3 :=
  if pose_dec T GA then ga else if pose_dec T SA then sa else if pose_dec T GB then gb else sb.
Lemma tf_four_ok GA SA GB SB ga sa gb sb : SA <> GA -> GB <> GA -> GB <> SA -> SB <> GA -> SB <> SA -> SB <> GB ->
  let f := tf_four GA SA GB ga sa gb sb in f GA = ga /\ f SA = sa /\ f GB = gb /\ f SB = sb.
Proof.
  intros N1 N2 N3 N4 N5 N6 f. unfold f, tf_four. repeat split.
  - destruct (pose_dec GA GA); [reflexivity|contradiction].
  - destruct (pose_dec SA GA); [contradiction|]. destruct (pose_dec SA SA); [reflexivity|contradiction].
  - destruct (pose_dec GB GA); [contradiction|]. destruct (pose_dec GB SA); [contradiction|]. destruct (pose_dec GB GB); [reflexivity|contradiction].
  - destruct (pose_dec SB GA); [contradiction|]. destruct (pose_dec SB SA); [contradiction|]. destruct (pose_dec SB GB); [contradiction|reflexivity].
Qed.
Lemma QR1 : Q2R 1 = 1%R. Proof. unfold Q2R. cbn. lra. Qed.
Lemma QRm : Q2R (-1) = (-1)%R. Proof. unfold Q2R. cbn. lra. Qed.
Lemma QR0 : Q2R 0 = 0%R. Proof. unfold Q2R. cbn. lra. Qed.
Lemma QR2 : Q2R 2 = 2%R. Proof. unfold Q2R. cbn. lra. Qed.
Lemma QRm2 : Q2R (-2) = (-2)%R. Proof. unfold Q2R. cbn. lra. Qed.
Lemma QR3 : Q2R 3 = 3%R. Proof. unfold Q2R. cbn. lra. Qed.
Lemma QR9 : Q2R 9 = 9%R. Proof. unfold Q2R. cbn. lra. Qed.
Lemma QR10 : Q2R 10 = 10%R. Proof. unfold Q2R. cbn. lra. Qed.
Lemma QRe : Q2R (1 # 10) = (1 / 10)%R. Proof. unfold Q2R. cbn. lra. Qed.
Definition p123 := mkP3 1 2 3.
Definition p000 := mkP3 0 0 0.
Definition p923 := mkP3 9 (-2) 3.
Definition p00 := mkP3 10 0 0.
Ltac qnum := unfold to_v, p123, p000, p923, p00; cbn [px py pz vx vy vz c0 c1 c2 tr]; rewrite ?QR1, ?QRm, ?QR0, ?QR2, ?QRm2, ?QR3, ?QR9, ?QR10, ?QRe.
(** two poses differ: one of the numbers does *)
Ltac differ h := let X := fresh in intro X; apply (f_equal h) in X; revert X; unfold gue, sol; qnum; lra.

(** the six points seen by themselves: their matcher on rationals *)
Tactic Notation "pairs_of" constr(S) constr(K) constr(T0) constr(U0) constr(tf) constr(it) ident(m) ident(f) ident(F) ident(R) :=
  destruct (sc_found S K T0 U0 tf it) as [[m f]| | ] eqn:F; [|vm_compute in F; discriminate|vm_compute in F; discriminate];
  assert (R : right_pairs S K T0 U0 f) by
    (let X := fresh in assert (X : match sc_found S K T0 U0 tf it with Ok (_, g) => right_pairs S K T0 U0 g | _ => False end) by (vm_compute; repeat split); rewrite F in X; exact X).

(** the other frame: half a turn around the vertical, and ten metres to the side *)
Definition half_turn (x : R) : Pose := mkPose (mkV (-1) 0 0) (mkV 0 (-1) 0) (mkV 0 0 1) (mkV x 0 0).
Lemma half_rotation x : is_rotation (half_turn x).
Proof. unfold is_rotation, half_turn. punf. repeat split; try lra. f_equal; lra. Qed.

Definition c356_tf := tf_four (gue 1 1 p123 p000 (1 # 10)) (sol 1 1 p123 p000) (gue (-1) 1 p923 p000 (1 # 10))
  (gueQ 1 1 p123 p000 (1 # 10)) (solQ 1 1 p123 p000) (gueQ (-1) 1 p923 p000 (1 # 10)) (solQ (-1) 1 p923 p000).

Example C356_case : exists m r m' r',
  sc_align 1 1 p123 p000 (1 # 10) c356_tf = Ok (m, r) /\ sc_align (-1) 1 p923 p000 (1 # 10) c356_tf = Ok (m', r') /\
  r_optimal_tf r' = pose_mul (half_turn 10) (r_optimal_tf r) /\ r_nIterations r = 1 /\ r_nIterations r' = 1 /\
  Forall2 (same_search (half_turn 10) id_pose) (searches (r_loopTrace r)) (searches (r_loopTrace r')).
Proof.
  destruct (tf_four_ok (gue 1 1 p123 p000 (1 # 10)) (sol 1 1 p123 p000) (gue (-1) 1 p923 p000 (1 # 10)) (sol (-1) 1 p923 p000)
    (gueQ 1 1 p123 p000 (1 # 10)) (solQ 1 1 p123 p000) (gueQ (-1) 1 p923 p000 (1 # 10)) (solQ (-1) 1 p923 p000)) as (TGA & TSA & TGB & TSB);
    [differ (fun T => vx (tr T))..|]. fold c356_tf in TGA, TSA, TGB, TSB.
  pairs_of 1%Q 1%Q p123 p000 (gueQ 1 1 p123 p000 (1 # 10)) 0 m1 f1 F1 R1.
  pairs_of 1%Q 1%Q p123 p000 (solQ 1 1 p123 p000) 1 m2 f2 F2 R2.
  pairs_of (-1)%Q 1%Q p923 p000 (gueQ (-1) 1 p923 p000 (1 # 10)) 0 m3 f3 F3 R3.
  pairs_of (-1)%Q 1%Q p923 p000 (solQ (-1) 1 p923 p000) 1 m4 f4 F4 R4.
  assert (K1 : (Q2R 1 * Q2R 1 = 1)%R) by (rewrite QR1; lra). assert (K2 : (Q2R (-1) * Q2R (-1) = 1)%R) by (rewrite QRm; lra).
  assert (G1 : (Q2R 1 * Q2R 1 = 1 \/ Q2R 1 * Q2R 1 = -1)%R) by (left; exact K1).
  assert (G2 : (Q2R (-1) * Q2R 1 = 1 \/ Q2R (-1) * Q2R 1 = -1)%R) by (right; rewrite QRm, QR1; lra).
  destruct (runs_twice 1 1 p123 p000 (1 # 10) c356_tf K1 K1 G1 TGA TSA f1 m1 f2 m2 ltac:(differ vx) F1 F2 R1 R2) as (r & E & O & N & SE).
  destruct (runs_twice (-1) 1 p923 p000 (1 # 10) c356_tf K2 K1 G2 TGB TSB f3 m3 f4 m4 ltac:(differ vx) F3 F4 R3 R4) as (r' & E' & O' & N' & SE').
  exists m2, r, m4, r'. split; [exact E|]. split; [exact E'|].
  assert (GG : gue (-1) 1 p923 p000 (1 # 10) = pose_mul (half_turn 10) (gue 1 1 p123 p000 (1 # 10))).
  { unfold gue, half_turn, pose_mul. punf. qnum. f_equal; f_equal; lra. }
  assert (X : r_optimal_tf r' = pose_mul (half_turn 10) (r_optimal_tf r) /\ r_nIterations r' = r_nIterations r /\ r_terminationReason r' = r_terminationReason r /\
    Forall2 (same_search (half_turn 10) id_pose) (searches (r_loopTrace r)) (searches (r_loopTrace r'))).
  { rewrite sc_align_eq in E, E'. rewrite GG in E'.
    eapply (C356_frame_of_the_global_map (half_turn 10)); [..|exact E|exact E'| |].
    - apply brute_correct.
    - apply brute_bbox.
    - apply brute_correct.
    - apply brute_bbox.
    - reflexivity.
    - exact fc_relative.
    - reflexivity.
    - discriminate.
    - reflexivity.
    - left. reflexivity.
    - unfold plain_weights, wp_default. cbn. repeat split; lra.
    - reflexivity.
    - apply half_rotation.
    - unfold moved_points, sc_globals, sixQ. cbn [map rev app nn_points brute]. repeat constructor;
        unfold half_turn, gloQ, to_v; punf; unfold p123, p923; cbn [px py pz]; repeat rewrite ?Q2R_plus, ?Q2R_mult, ?Q2R_opp; qnum; f_equal; lra.
    - apply gue_rotation; assumption.
    - rewrite SE. intros T f [X|[X|[]]]; injection X as <- <-.
      + eapply runs_clear; try eassumption; [intro; apply gue_exact|vm_compute; reflexivity].
      + eapply runs_clear; try eassumption; [intro; apply sol_exact|vm_compute; reflexivity].
    - rewrite SE'. intros T f [X|[X|[]]]; injection X as <- <-.
      + eapply runs_exact; try eassumption. intro; apply gue_exact.
      + eapply runs_exact; try eassumption. intro; apply sol_exact. }
  destruct X as (X & Y & _ & Z). split; [exact X|]. split; [exact N|]. split; [exact N'|exact Z].
Qed.

Definition c357_tf := tf_four (gue 1 1 p123 p000 (1 # 10)) (sol 1 1 p123 p000) (gue 1 (-1) p123 p000 (1 # 10))
  (gueQ 1 1 p123 p000 (1 # 10)) (solQ 1 1 p123 p000) (gueQ 1 (-1) p123 p000 (1 # 10)) (solQ 1 (-1) p123 p000).

Example C357_case : exists m r m' r',
  sc_align 1 1 p123 p000 (1 # 10) c357_tf = Ok (m, r) /\ sc_align 1 (-1) p123 p000 (1 # 10) c357_tf = Ok (m', r') /\
  r_optimal_tf r' = pose_mul (r_optimal_tf r) (pinv (half_turn 0)) /\ r_nIterations r = 1 /\ r_nIterations r' = 1 /\
  Forall2 (same_search id_pose (half_turn 0)) (searches (r_loopTrace r)) (searches (r_loopTrace r')).
Proof.
  destruct (tf_four_ok (gue 1 1 p123 p000 (1 # 10)) (sol 1 1 p123 p000) (gue 1 (-1) p123 p000 (1 # 10)) (sol 1 (-1) p123 p000)
    (gueQ 1 1 p123 p000 (1 # 10)) (solQ 1 1 p123 p000) (gueQ 1 (-1) p123 p000 (1 # 10)) (solQ 1 (-1) p123 p000)) as (TGA & TSA & TGB & TSB);
    [differ (fun T => vy (c0 T))..|]. fold c357_tf in TGA, TSA, TGB, TSB.
  pairs_of 1%Q 1%Q p123 p000 (gueQ 1 1 p123 p000 (1 # 10)) 0 m1 f1 F1 R1.
  pairs_of 1%Q 1%Q p123 p000 (solQ 1 1 p123 p000) 1 m2 f2 F2 R2.
  pairs_of 1%Q (-1)%Q p123 p000 (gueQ 1 (-1) p123 p000 (1 # 10)) 0 m3 f3 F3 R3.
  pairs_of 1%Q (-1)%Q p123 p000 (solQ 1 (-1) p123 p000) 1 m4 f4 F4 R4.
  assert (K1 : (Q2R 1 * Q2R 1 = 1)%R) by (rewrite QR1; lra). assert (K2 : (Q2R (-1) * Q2R (-1) = 1)%R) by (rewrite QRm; lra).
  assert (G1 : (Q2R 1 * Q2R 1 = 1 \/ Q2R 1 * Q2R 1 = -1)%R) by (left; exact K1).
  assert (G2 : (Q2R 1 * Q2R (-1) = 1 \/ Q2R 1 * Q2R (-1) = -1)%R) by (right; rewrite QRm, QR1; lra).
  destruct (runs_twice 1 1 p123 p000 (1 # 10) c357_tf K1 K1 G1 TGA TSA f1 m1 f2 m2 ltac:(differ vx) F1 F2 R1 R2) as (r & E & O & N & SE).
  destruct (runs_twice 1 (-1) p123 p000 (1 # 10) c357_tf K1 K2 G2 TGB TSB f3 m3 f4 m4 ltac:(differ vx) F3 F4 R3 R4) as (r' & E' & O' & N' & SE').
  exists m2, r, m4, r'. split; [exact E|]. split; [exact E'|].
  assert (GG : gue 1 (-1) p123 p000 (1 # 10) = pose_mul (gue 1 1 p123 p000 (1 # 10)) (pinv (half_turn 0))).
  { unfold gue, half_turn, pose_mul, pinv. punf. qnum. f_equal; f_equal; lra. }
  assert (X : r_optimal_tf r' = pose_mul (r_optimal_tf r) (pinv (half_turn 0)) /\ r_nIterations r' = r_nIterations r /\ r_terminationReason r' = r_terminationReason r /\
    Forall2 (same_search id_pose (half_turn 0)) (searches (r_loopTrace r)) (searches (r_loopTrace r'))).
  { rewrite sc_align_eq in E, E'. rewrite GG in E'.
    eapply (C357_axes_of_the_local_map (half_turn 0)); [..|exact E|exact E'| |].
    - apply brute_correct.
    - apply brute_bbox.
    - reflexivity.
    - reflexivity.
    - exact fc_relative.
    - exact fc_axes.
    - reflexivity.
    - discriminate.
    - reflexivity.
    - left. reflexivity.
    - unfold plain_weights, wp_default. cbn. repeat split; lra.
    - reflexivity.
    - apply half_rotation.
    - reflexivity.
    - unfold moved_points, sc_locals, sixQ. cbn [map]. repeat constructor;
        unfold half_turn, locQ, to_v; punf; unfold p000; cbn [px py pz]; repeat rewrite ?Q2R_plus, ?Q2R_mult, ?Q2R_opp; qnum; f_equal; lra.
    - apply gue_rotation; assumption.
    - rewrite SE. intros T f [X|[X|[]]]; injection X as <- <-.
      + eapply runs_clear; try eassumption; [intro; apply gue_exact|vm_compute; reflexivity].
      + eapply runs_clear; try eassumption; [intro; apply sol_exact|vm_compute; reflexivity].
    - rewrite SE'. intros T f [X|[X|[]]]; injection X as <- <-.
      + eapply runs_exact; try eassumption. intro; apply gue_exact.
      + eapply runs_exact; try eassumption. intro; apply sol_exact. }
  destruct X as (X & Y & _ & Z). split; [exact X|]. split; [exact N|]. split; [exact N'|exact Z].
Qed.

(** C358: the origin of the frame of the local map does matter: the stalling test looks at the motion of that origin. A guess that is 16
    degrees off around the origin of the local map is not moved, and the first iteration is the last; with the same scan given in a frame
    ten metres to the side, it is. *)
Definition c358_tf := tf_four (gue 1 1 p123 p000 0) (sol 1 1 p123 p000) (gue 1 1 p123 p00 0)
  (gueQ 1 1 p123 p000 0) (solQ 1 1 p123 p000) (gueQ 1 1 p123 p00 0) (solQ 1 1 p123 p00).

Theorem C358_origin_of_the_local_map_refuted :
  exists M nnG nnL nnL' Ls Ls' tf_of pose_minus log_norms eig wp b thr p guess env m r m' r',
  nn_correct nnG /\ bbox_correct nnG /\ length (nn_points nnL) = length Ls /\ length (nn_points nnL') = length Ls' /\
  relative_pose pose_minus /\ no_preferred_axes log_norms /\ (forall T, is_rotation T -> log_norms (pose_minus T T) = (0, 0)%Q) /\
  (0 < thr)%Q /\ (0 <= bbox_epsilon b)%Q /\ weight_pt2pt_layers b = [] /\ maxLocalPointsPerLayer b = 0 /\ plain_weights wp /\ quality_checkpoints p = [] /\
  (0 < minAbsStep_trans p)%Q /\ (0 < minAbsStep_rot p)%Q /\
  is_rotation M /\ moved_points M Ls Ls' /\ is_rotation guess /\
  align pose_minus log_norms (fun _ => 0%Q) (fun _ e => Ok e) (new_match_state (gmap 7 None nnG) (lmap 7 nnL Ls))
    (mkComponents [pose_matcher 1000000 (fun l => l) (fun _ => 0%Z) (gmap 7 None nnG) (lmap 7 nnL Ls) tf_of (DT b thr 0 1) 0 0]
                  [closed_solver 0 (horn_algo eig (fun _ => None) wp)] [ratio_evaluator 1 (1 # 5)] None)
    p false false false guess env = Ok (m, r) /\
  align pose_minus log_norms (fun _ => 0%Q) (fun _ e => Ok e) (new_match_state (gmap 7 None nnG) (lmap 7 nnL' Ls'))
    (mkComponents [pose_matcher 1000000 (fun l => l) (fun _ => 0%Z) (gmap 7 None nnG) (lmap 7 nnL' Ls') tf_of (DT b thr 0 1) 0 0]
                  [closed_solver 0 (horn_algo eig (fun _ => None) wp)] [ratio_evaluator 1 (1 # 5)] None)
    p false false false (pose_mul guess (pinv M)) env = Ok (m', r') /\
  (forall T f, In (T, f) (searches (r_loopTrace r)) -> clear_search tf_of eig wp b thr nnG Ls T f) /\
  (forall T f, In (T, f) (searches (r_loopTrace r')) -> clear_search tf_of eig wp b thr nnG Ls' T f) /\
  r_nIterations r = 0 /\ r_nIterations r' = 1.
Proof.
  destruct (tf_four_ok (gue 1 1 p123 p000 0) (sol 1 1 p123 p000) (gue 1 1 p123 p00 0) (sol 1 1 p123 p00)
    (gueQ 1 1 p123 p000 0) (solQ 1 1 p123 p000) (gueQ 1 1 p123 p00 0) (solQ 1 1 p123 p00)) as (TGA & TSA & TGB & TSB);
    [first [differ (fun T => vy (tr T)) | differ (fun T => vy (c0 T))]..|]. fold c358_tf in TGA, TSA, TGB, TSB.
  pairs_of 1%Q 1%Q p123 p000 (gueQ 1 1 p123 p000 0) 0 m1 f1 F1 R1.
  pairs_of 1%Q 1%Q p123 p00 (gueQ 1 1 p123 p00 0) 0 m3 f3 F3 R3.
  pairs_of 1%Q 1%Q p123 p00 (solQ 1 1 p123 p00) 1 m4 f4 F4 R4.
  assert (K1 : (Q2R 1 * Q2R 1 = 1)%R) by (rewrite QR1; lra).
  assert (G1 : (Q2R 1 * Q2R 1 = 1 \/ Q2R 1 * Q2R 1 = -1)%R) by (left; exact K1).
  assert (STILL : tr (sol 1 1 p123 p000) = tr (gue 1 1 p123 p000 0)) by (unfold sol, gue; qnum; f_equal; lra).
  destruct (runs_once 1 1 p123 p000 0 c358_tf K1 K1 G1 TGA f1 m1 STILL F1 R1) as (r & E & O & N & SE).
  destruct (runs_twice 1 1 p123 p00 0 c358_tf K1 K1 G1 TGB TSB f3 m3 f4 m4 ltac:(differ vx) F3 F4 R3 R4) as (r' & E' & O' & N' & SE').
  set (M := mkPose (mkV 1 0 0) (mkV 0 1 0) (mkV 0 0 1) (mkV 10 0 0)).
  assert (RM : is_rotation M) by (unfold is_rotation, M; punf; repeat split; try lra; f_equal; lra).
  assert (GG : gue 1 1 p123 p00 0 = pose_mul (gue 1 1 p123 p000 0) (pinv M)).
  { unfold gue, M, pose_mul, pinv. punf. qnum. f_equal; f_equal; lra. }
  rewrite sc_align_eq in E, E'. rewrite GG in E'.
  exists M, (brute (sc_globals 1 p123)), (brute (sc_locals 1 p000)), (brute (sc_locals 1 p00)), (sc_locals 1 p000), (sc_locals 1 p00), c358_tf, fc_minus, fc_norms,
    turn_eig, wp_default, (mono_base true), (1 # 2)%Q, fc_params, (gue 1 1 p123 p000 0), (mkMS [] []), m1, r, m4, r'.
  split; [apply brute_correct|]. split; [apply brute_bbox|]. split; [reflexivity|]. split; [reflexivity|]. split; [exact fc_relative|]. split; [exact fc_axes|].
  split; [exact fc_measures|]. split; [reflexivity|]. split; [discriminate|]. split; [reflexivity|]. split; [reflexivity|].
  split; [unfold plain_weights, wp_default; cbn; repeat split; lra|]. split; [reflexivity|]. split; [reflexivity|]. split; [reflexivity|]. split; [exact RM|].
  split.
  { unfold moved_points, sc_locals, sixQ. cbn [map]. repeat constructor;
      unfold M, locQ, to_v; punf; unfold p000, p00; cbn [px py pz]; repeat rewrite ?Q2R_plus, ?Q2R_mult, ?Q2R_opp; qnum; f_equal; lra. }
  split; [apply gue_rotation; assumption|]. split; [exact E|]. split; [exact E'|]. split; [|split; [|split; [exact N|exact N']]].
  - rewrite SE. intros T f [X|[]]; injection X as <- <-. eapply runs_clear; try eassumption; [intro; apply gue_exact|vm_compute; reflexivity].
  - rewrite SE'. intros T f [X|[X|[]]]; injection X as <- <-.
    + eapply runs_clear; try eassumption; [intro; apply gue_exact|vm_compute; reflexivity].
    + eapply runs_clear; try eassumption; [intro; apply sol_exact|vm_compute; reflexivity].
Qed.
Print Assumptions C358_origin_of_the_local_map_refuted.
Print Assumptions C358_origin_of_the_local_map_where.
