(** The exact domain on which the refuted properties C87, C88 and C89 of Horn's solver do hold. *)
From Coq Require Import Reals List Lra Lia Psatz.
From Verif Require Import Base GeomModel VisitModel VisitSpec VisitProps RotProofs HornModel HornProofs NoiselessProofs HornProps.
Import ListNotations.
Open Scope R_scope.

(** ** C87 *)
(** Whenever the solver returns false the pose is the identity, so the caller's pose survives exactly
    if it was the identity. *)
Theorem C87_pose_kept_where : forall eig convert p wp out r,
  solver_horn eig convert p wp out = Ok (false, r) -> (hr_pose r = hr_pose out <-> hr_pose out = id_pose).
Proof.
  intros eig convert p wp out r H.
  assert (G : forall q, optimal_tf_horn eig q wp = Ok (false, r) -> hr_pose r = id_pose).
  { clear. intros q. unfold optimal_tf_horn.
    destruct (Rle_dec 0 (wp_pt2pt wp)); [|discriminate]. destruct (Rle_dec 0 (wp_ln2ln wp)); [|discriminate].
    destruct (Rle_dec 0 (wp_pl2pl wp)); [|discriminate].
    destruct (eval_centroids (vp_pts q) []) as [[ctl ctg]| |]; try discriminate. cbn [rbind].
    destruct (se3_l2_internal eig q wp ctl ctg []) as [[[q1|] o]| |]; cbn [rbind]; try discriminate.
    - destruct (_ && _)%bool; [|discriminate].
      destruct (eval_centroids (vp_pts q) o) as [[ctl2 ctg2]| |]; try discriminate. cbn [rbind].
      destruct (se3_l2_internal eig q wp ctl2 ctg2 o) as [[[q2|] o2]| |]; cbn [rbind]; try discriminate.
      intro E. injection E as <-. reflexivity.
    - intro E. injection E as <-. reflexivity. }
  assert (E : hr_pose r = id_pose).
  { unfold solver_horn in H. destruct (_ && _)%bool; [exact (G _ H)|]. destruct (convert p); [exact (G _ H)|discriminate]. }
  rewrite E. split; intro X; symmetry; exact X.
Qed.

(** ** C88 *)
(** With at least three pairs of any kind the solver succeeds exactly if one of them is a point pair. *)
Theorem C88_succeeds_where : forall eig p wp,
  positive_weights p wp -> blocks_cover p -> at_least_three p ->
  vp_nPt2Ln p = 0%nat -> vp_nPt2Pl p = 0%nat -> wp_use_scale wp = false ->
  ((exists r, optimal_tf_horn eig p wp = Ok (true, r)) <-> vp_pts p <> []).
Proof.
  intros eig p wp PW CV N3 H1 H2 US. split.
  - intros [r E] Z. rewrite (C88_no_points_throws_refuted eig p wp Z) in E. discriminate.
  - intro NE. destruct (horn_run eig p wp PW CV NE N3 H1 H2 (or_introl US)) as [o [E _]]. eexists. exact E.
Qed.

(** ** C89 *)
(** Sum of weighted offsets of the points from [c] *)
Definition wmoment (ws : list R) (xs : list V3) (c : V3) : V3 :=
  fold_right (fun x acc => vadd (vscale (fst x) (vsub (snd x) c)) acc) vzero3 (combine ws xs).
(** the individual weights of the point pairs *)
Definition pair_weights (p : VPairs) : list R := map (pair_block_weight p) (seq 0 (length (vp_pts p))).

Fixpoint wcost (ws : list R) (ps : list (V3 * V3)) (ctl ctg : V3) (T : Pose) : R :=
  match ws, ps with
  | w :: ws, (g, l) :: ps => w * vnorm2 (vsub (vsub g ctg) (rotate T (vsub l ctl))) + wcost ws ps ctl ctg T
  | _, _ => 0
  end.
Fixpoint rsum (ws : list R) : R := match ws with [] => 0 | w :: r => w + rsum r end.

Lemma wlsq_expand ws : forall ps ctl ctg T, length ws = length ps ->
  let c := vsub ctg (compose T ctl) in
  wlsq ws ps T = wcost ws ps ctl ctg T + rsum ws * vnorm2 c
    + 2 * vdot c (vsub (wmoment ws (map fst ps) ctg) (rotate T (wmoment ws (map snd ps) ctl))).
Proof.
  induction ws as [|w ws IH]; intros [|[g l] ps] ctl ctg T L c; try discriminate.
  - cbn. unfold wlsq, wmoment, vzero3. cbn. destruct T as [[? ? ?] [? ? ?] [? ? ?] [? ? ?]], c. vunf. ring.
  - injection L as L. specialize (IH ps ctl ctg T L). cbv zeta in IH. fold c in IH.
    unfold wlsq, wmoment in IH |- *. cbn [combine fold_right map fst snd wcost rsum] in IH |- *. rewrite IH.
    set (A := fold_right _ _ (combine ws (map fst ps))). set (B := fold_right _ _ (combine ws (map snd ps))).
    rewrite rotate_add, rotate_scale.
    assert (X : vsub g (compose T l) = vadd (vsub (vsub g ctg) (rotate T (vsub l ctl))) c).
    { rewrite <- sub_compose. unfold c. destruct g, ctg, (compose T l), (compose T ctl). vunf. f_equal; ring. }
    rewrite X. clear. destruct (rotate T (vsub l ctl)), (rotate T B), A, c, (vsub g ctg). vunf. ring.
Qed.

Lemma plain_cost p wp ctl ctg T : forall ps i,
  rot_cost (plain_calls p wp ctl ctg i ps) T =
  wp_pt2pt wp / class_total p wp * wcost (map (pair_block_weight p) (seq i (length ps))) ps ctl ctg T.
Proof.
  induction ps as [|[g l] ps IH]; intro i; cbn [plain_calls rot_cost length seq map wcost c_w c_b c_r]; [ring|].
  rewrite IH. ring.
Qed.

Lemma plain_length p wp ctl ctg : forall ps i, length (plain_calls p wp ctl ctg i ps) = length ps.
Proof. induction ps as [|[g l] ps IH]; intro i; cbn; [reflexivity|]. rewrite IH. reflexivity. Qed.

(** For point pairs with individual weights the pose returned is the weighted least-squares one whenever
    the weights do not move the centroids (no kernel, no scale-based outlier detection). *)
Theorem C89_weighted_optimum_where : forall eig p wp,
  vp_lns p = [] -> vp_pls p = [] -> vp_nPt2Ln p = 0%nat -> vp_nPt2Pl p = 0%nat ->
  wp_kernel wp = None -> wp_use_scale wp = false -> positive_weights p wp -> blocks_cover p ->
  (3 <= length (vp_pts p))%nat -> off_centroid (vp_pts p) ->
  wmoment (pair_weights p) (map snd (vp_pts p)) (centroid (map snd (vp_pts p))) = vzero3 ->
  wmoment (pair_weights p) (map fst (vp_pts p)) (centroid (map fst (vp_pts p))) = vzero3 ->
  spectral (horn_matrix p wp) (eig (horn_matrix p wp)) ->
  exists r, optimal_tf_horn eig p wp = Ok (true, r) /\ is_rotation (hr_pose r) /\
    forall T, is_rotation T -> wlsq (pair_weights p) (vp_pts p) (hr_pose r) <= wlsq (pair_weights p) (vp_pts p) T.
Proof.
  intros eig p wp NL NP H1 H2 K US PW CV N3 OC ML MG SP.
  assert (NE : vp_pts p <> []) by (intro Z; rewrite Z in N3; simpl in N3; lia).
  set (ctl := centroid (map snd (vp_pts p))) in *. set (ctg := centroid (map fst (vp_pts p))) in *.
  assert (HP : horn_pairs p wp = plain_calls p wp ctl ctg 0 (vp_pts p)).
  { unfold horn_pairs. fold ctl ctg. unfold items. rewrite NL, NP. cbn [map app]. rewrite app_nil_r.
    apply used_plain; [exact K|exact US|exact OC]. }
  assert (HN : horn_pairs p wp <> []).
  { intro Z. apply (f_equal (@length _)) in Z. rewrite HP, plain_length in Z. simpl in Z. lia. }
  destruct (C84_horn_rotation_is_optimal eig p wp PW CV NE) as (r & E & RO & OPT & CE); try assumption.
  { unfold at_least_three. rewrite NL, NP. simpl. lia. }
  fold ctl ctg in CE.
  exists r. split; [exact E|]. split; [exact RO|]. intros T RT.
  assert (LW : length (pair_weights p) = length (vp_pts p)) by (unfold pair_weights; rewrite map_length, seq_length; reflexivity).
  assert (X : forall T, wlsq (pair_weights p) (vp_pts p) T =
     wcost (pair_weights p) (vp_pts p) ctl ctg T + rsum (pair_weights p) * vnorm2 (vsub ctg (compose T ctl))).
  { intro Q. rewrite (wlsq_expand _ _ ctl ctg Q LW). rewrite ML, MG.
    set (c := vsub ctg (compose Q ctl)). clearbody c. clear. unfold vzero3. destruct Q as [[? ? ?] [? ? ?] [? ? ?] [? ? ?]], c. vunf. ring. }
  rewrite (X (hr_pose r)), (X T), CE.
  assert (Z0 : vnorm2 (vsub ctg ctg) = 0) by (clear; destruct ctg; vunf; ring). rewrite Z0.
  assert (KP : 0 < wp_pt2pt wp / class_total p wp).
  { apply Rmult_lt_0_compat; [apply PW|]. apply Rinv_0_lt_compat. exact (class_total_pos p wp PW NE). }
  assert (WP : 0 <= rsum (pair_weights p)).
  { unfold pair_weights.
    assert (B : forall i, (i < length (vp_pts p))%nat -> 0 <= pair_block_weight p i).
    { intros i L. unfold pair_block_weight. destruct (vp_weights p) as [|b bl] eqn:EW; [lra|].
      destruct (block_weight (b :: bl) i) as [w|] eqn:W; [|exfalso]; [|].
      - destruct (block_weight_in _ _ _ W) as [nb IN]. destruct PW as (_ & _ & _ & _ & _ & F & _).
        rewrite EW, Forall_forall in F. apply Rlt_le. exact (F _ IN).
      - destruct (CV ltac:(rewrite EW; discriminate)) as [_ TOT]. rewrite EW in TOT.
        destruct (block_weight_some (b :: bl) i ltac:(lia)) as [w' W']. congruence. }
    assert (G : forall n i, (i + n <= length (vp_pts p))%nat -> 0 <= rsum (map (pair_block_weight p) (seq i n))).
    { induction n as [|n IH]; intros i L; cbn [seq map rsum]; [lra|]. specialize (IH (S i) ltac:(lia)).
      specialize (B i ltac:(lia)). lra. }
    apply G. lia. }
  specialize (OPT T RT). rewrite HP, !plain_cost in OPT. fold (pair_weights p) in OPT.
  apply Rmult_le_reg_l in OPT; [|exact KP].
  assert (N := vnorm2_nonneg (vsub ctg (compose T ctl))). nra.
Qed.

(** a case that is not covered by equal weights: the six points, the two on the x axis weighing 2 *)
Definition balanced : VPairs := pairs_of (vscale 2) [(2%nat, 2); (4%nat, 1)].
Example balanced_case :
  positive_weights balanced wp_default /\ blocks_cover balanced /\ at_least_three balanced /\
  pair_weights balanced = [2; 2; 1; 1; 1; 1] /\
  wmoment (pair_weights balanced) (map snd (vp_pts balanced)) (centroid (map snd (vp_pts balanced))) = vzero3 /\
  wmoment (pair_weights balanced) (map fst (vp_pts balanced)) (centroid (map fst (vp_pts balanced))) = vzero3.
Proof.
  split. { unfold positive_weights, wp_default, balanced; simpl. repeat split; try lra; repeat constructor; simpl; try lra; intros; lra. }
  split. { intros _. simpl. split; [repeat constructor; simpl; lia|lia]. }
  split. { unfold at_least_three; simpl; lia. }
  assert (W : pair_weights balanced = [2; 2; 1; 1; 1; 1]) by reflexivity.
  split; [exact W|]. rewrite W.
  assert (S6 : map snd (vp_pts balanced) = six) by apply pairs_of_snd. rewrite S6, centroid_six.
  assert (C2 : centroid (map fst (vp_pts balanced)) = vzero3).
  { unfold centroid, vsum, vzero3, balanced, pairs_of, six. cbn [vp_pts map fst fold_right length]. vunf. f_equal; field. }
  rewrite C2. clear. split; unfold wmoment, six, balanced, pairs_of, vzero3; cbn [vp_pts map six fst snd combine fold_right]; vunf; f_equal; ring.
Qed.
