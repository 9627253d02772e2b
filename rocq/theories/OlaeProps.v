(** C90-C92: the OLAE closed-form solver. *)
From Coq Require Import Reals List Lra Lia Psatz.
From Verif Require Import Base GeomModel VisitModel VisitSpec VisitProps RotProofs HornModel HornProofs NoiselessProofs HornProps
  OlaeModel OlaeProofs.
Import ListNotations.
Open Scope R_scope.

(** The pairs as the solver sees them, and the linear systems it builds *)
Definition olae_pairs (p : VPairs) (wp : VWeights) : list call :=
  used_from p wp (centroid (map snd (vp_pts p))) (centroid (map fst (vp_pts p))) [] true 0 (items p).
Definition olae_problem (p : VPairs) (wp : VWeights) : OlaeSys :=
  let cs := olae_pairs p wp in olae_systems (B_of cs (sum_w cs)) (v_of cs (sum_w cs)).

(** the directors of the lines and the normals of the planes are unit vectors *)
Definition unit_directions (p : VPairs) : Prop :=
  Forall (fun x => vnorm2 (snd x) = 1) (vp_lns p) /\ Forall (fun x => vnorm2 (snd x) = 1) (vp_pls p).

(** one of the four determinants is the largest one in absolute value *)
Definition one_largest (s : OlaeSys) : Prop :=
  let d := Rabs (det (oM s)) in let dx := Rabs (det (oMx s)) in
  let dy := Rabs (det (oMy s)) in let dz := Rabs (det (oMz s)) in
  (dx < d /\ dy < d /\ dz < d) \/ (d < dx /\ dy < dx /\ dz < dx) \/
  (d < dy /\ dx < dy /\ dz < dy) \/ (d < dz /\ dx < dz /\ dy < dz).

(** contract of the linear solver: it solves the non-singular systems *)
Definition linear_solver (solve : M33 -> V3 -> V3) : Prop :=
  forall M v, det M <> 0 -> mvmul M (solve M v) = v.

Lemma unit_norm v : ~ vnorm v < 1 / 10000 -> vnorm2 (unit v) = 1.
Proof.
  intros H. unfold unit. assert (Q : vnorm2 v = vnorm v * vnorm v) by (unfold vnorm; rewrite sqrt_sqrt; [reflexivity|apply vnorm2_nonneg]).
  assert (S : vnorm2 (vscale (1 / vnorm v) v) = 1 / vnorm v * (1 / vnorm v) * vnorm2 v).
  { destruct v as [x y z]. generalize (1 / vnorm (mkV x y z)). intros k. vunf. ring. }
  rewrite S, Q. field. lra.
Qed.

Lemma used_unit p wp ctl ctg : unit_directions p ->
  Forall (fun c => vnorm2 (c_r c) = 1) (used_from p wp ctl ctg [] true 0 (items p)).
Proof.
  intros [UL UP].
  assert (GI : Forall (fun it => match it with IPt _ _ => True | ILn _ l => vnorm2 l = 1 | IPl _ l => vnorm2 l = 1 end) (items p)).
  { unfold items. rewrite !Forall_app, !Forall_map. split; [apply Forall_forall; intros; exact I|].
    split; (eapply Forall_impl; [|eassumption]); intros [g l]; simpl; auto. }
  generalize 0%nat. induction GI as [|it its G F IH]; intros i; [constructor|]. cbn [used_from]. apply Forall_app. split; [|apply IH].
  unfold fate_of. destruct (in_dec Nat.eq_dec i []) as [[]|_]. destruct it as [g l|g l|g l].
  - destruct (Rlt_dec (vnorm (vsub g ctg)) (1 / 10000)); [constructor|]. destruct (Rlt_dec (vnorm (vsub l ctl)) (1 / 10000)); [constructor|].
    destruct (if wp_use_scale wp then _ else _); [constructor|]. constructor; [|constructor]. cbn [c_r]. apply unit_norm; assumption.
  - constructor; [exact G|constructor].
  - constructor; [exact G|constructor].
Qed.

(** what a run without outliers returns *)
Lemma olae_run solve p wp : positive_weights p wp -> blocks_cover p -> vp_pts p <> [] ->
  vp_nPt2Ln p = 0%nat -> vp_nPt2Pl p = 0%nat ->
  outliers_from p wp (centroid (map snd (vp_pts p))) (centroid (map fst (vp_pts p))) [] true 0 (items p) = [] ->
  optimal_tf_olae solve p wp =
    Ok (true, mkHR (olae_pose (olae_attitude solve (olae_problem p wp)) (centroid (map snd (vp_pts p))) (centroid (map fst (vp_pts p)))) []).
Proof.
  intros PW CV NE H1 H2 NO. unfold optimal_tf_olae.
  destruct (first_pass_ok p wp (centroid (map snd (vp_pts p))) (centroid (map fst (vp_pts p))) true PW CV NE H1 H2) as [r [V [VC [VO [VS _]]]]].
  destruct PW as (A & B & C & _).
  destruct (Rle_dec 0 (wp_pt2pt wp)); [|exfalso; lra]. destruct (Rle_dec 0 (wp_ln2ln wp)); [|exfalso; lra].
  destruct (Rle_dec 0 (wp_pl2pl wp)); [|exfalso; lra].
  rewrite eval_centroids_nil by exact NE. cbn [rbind]. unfold olae_build. rewrite V. cbn [rbind].
  rewrite VO, NO. cbn [length Nat.eqb]. unfold olae_problem, olae_pairs. rewrite VS, VC. reflexivity.
Qed.

Lemma max3_lt a b c d : a < d -> b < d -> c < d -> max3 a b c < d.
Proof. intros. unfold max3. repeat apply Rmax_lub_lt; assumption. Qed.
Lemma max3_nlt a b c d : d <= a \/ d <= b \/ d <= c -> ~ max3 a b c < d.
Proof.
  intros H L. unfold max3 in L. assert (A := Rmax_l a (Rmax b c)). assert (B := Rmax_r a (Rmax b c)).
  assert (C := Rmax_l b c). assert (D := Rmax_r b c). lra.
Qed.

(** C90: noiseless correspondences with one largest determinant are solved exactly, whatever the
    weights, the robust kernel and the scale-based outlier detector. *)
Theorem C90_olae_recovers_the_pose : forall solve p wp T0,
  linear_solver solve ->
  is_rotation T0 -> noiseless T0 p -> unit_directions p ->
  positive_weights p wp -> blocks_cover p -> vp_pts p <> [] ->
  vp_nPt2Ln p = 0%nat -> vp_nPt2Pl p = 0%nat -> (wp_use_scale wp = true -> 1 <= wp_scale_thr wp) ->
  one_largest (olae_problem p wp) ->
  optimal_tf_olae solve p wp = Ok (true, mkHR T0 []).
Proof.
  intros solve p wp T0 LS RT NL UD PW CV NE H1 H2 THR ONE.
  destruct (noiseless_walk T0 p wp true RT NL NE THR) as [NO GC]. fold (olae_pairs p wp) in GC.
  rewrite (olae_run solve p wp PW CV NE H1 H2 NO). do 3 f_equal.
  assert (UP := used_positive p wp (centroid (map snd (vp_pts p))) (centroid (map fst (vp_pts p))) [] true PW CV NE). fold (olae_pairs p wp) in UP.
  assert (UU := used_unit p wp (centroid (map snd (vp_pts p))) (centroid (map fst (vp_pts p))) UD). fold (olae_pairs p wp) in UU.
  assert (EX : exact_calls T0 (olae_pairs p wp)).
  { apply Forall_forall. rewrite Forall_forall in GC, UU. intros c I. split; [apply GC|apply UU]; exact I. }
  assert (EQ : forall x, rotate (olae_attitude solve (olae_problem p wp)) x = rotate T0 x).
  { destruct (list_eq_dec Nat.eq_dec (map c_idx (olae_pairs p wp)) []) as [Z|NZ].
    { exfalso. destruct (olae_pairs p wp) eqn:E; [|discriminate Z]. unfold one_largest, olae_problem in ONE. rewrite E in ONE.
      cbv zeta in ONE. unfold B_of, v_of in ONE. cbn [sum_w] in ONE. destruct (Rlt_dec 0 0) as [X|_]; [exfalso; lra|].
      unfold olae_systems, det in ONE. cbn [fold_left oM oMx oMy oMz S_zero vzero3 m00 m01 m02 m10 m11 m12 m20 m21 m22 vx vy vz] in ONE.
      ring_simplify (0 + 0) in ONE. 
      match type of ONE with (?a < ?b /\ _) \/ _ => idtac end.
      repeat match type of ONE with context [Rabs ?e] => progress replace e with (-1) in ONE by ring end. lra. }
    assert (NC : olae_pairs p wp <> []) by (intros Z; rewrite Z in NZ; apply NZ; reflexivity).
    assert (W := sum_w_pos _ NC UP).
    assert (D0 : forall d x : R, Rabs d < Rabs x -> x <> 0).
    { intros d x L ->. rewrite Rabs_R0 in L. assert (Q := Rabs_pos d). lra. }
    destruct half_rotations as [RX [RY RZ]]. destruct half_twice as [TX [TY TZ]].
    set (B := B_of (olae_pairs p wp) (sum_w (olae_pairs p wp))).
    assert (PS : olae_problem p wp = olae_systems B (v_from_B B)) by (unfold olae_problem; rewrite v_of_B; reflexivity).
    unfold one_largest in ONE. unfold olae_attitude. set (s := olae_problem p wp) in *.
    set (d := Rabs (det (oM s))) in *. set (dx := Rabs (det (oMx s))) in *. set (dy := Rabs (det (oMy s))) in *. set (dz := Rabs (det (oMz s))) in *.
    intros x. destruct ONE as [(L1 & L2 & L3)|[(L1 & L2 & L3)|[(L1 & L2 & L3)|(L1 & L2 & L3)]]].
    - destruct (Rlt_dec (max3 dx dy dz) d) as [_|N]; [|exfalso; apply N, max3_lt; assumption].
      apply (olae_plain solve T0 (olae_pairs p wp) RT EX W).
      + apply (D0 _ _ L1). + apply LS. apply (D0 _ _ L1).
    - destruct (Rlt_dec (max3 dx dy dz) d) as [N|_]; [exfalso; revert N; apply max3_nlt; lra|].
      destruct (Rlt_dec (max3 d dy dz) dx) as [_|N]; [|exfalso; apply N, max3_lt; assumption].
      destruct (system_x B) as [EM EV]. rewrite <- PS in EM, EV.
      assert (DD : det (oMx s) <> 0) by apply (D0 _ _ L1). rewrite EM in DD |- *. rewrite EV.
      apply (olae_turned solve T0 (olae_pairs p wp) half_x 1 (-1) (-1) RT EX W RX TX half_x_rot DD). apply LS. exact DD.
    - destruct (Rlt_dec (max3 dx dy dz) d) as [N|_]; [exfalso; revert N; apply max3_nlt; lra|].
      destruct (Rlt_dec (max3 d dy dz) dx) as [N|_]; [exfalso; revert N; apply max3_nlt; lra|].
      destruct (Rlt_dec (max3 d dx dz) dy) as [_|N]; [|exfalso; apply N, max3_lt; assumption].
      destruct (system_y B) as [EM EV]. rewrite <- PS in EM, EV.
      assert (DD : det (oMy s) <> 0) by apply (D0 _ _ L1). rewrite EM in DD |- *. rewrite EV.
      apply (olae_turned solve T0 (olae_pairs p wp) half_y (-1) 1 (-1) RT EX W RY TY half_y_rot DD). apply LS. exact DD.
    - destruct (Rlt_dec (max3 dx dy dz) d) as [N|_]; [exfalso; revert N; apply max3_nlt; lra|].
      destruct (Rlt_dec (max3 d dy dz) dx) as [N|_]; [exfalso; revert N; apply max3_nlt; lra|].
      destruct (Rlt_dec (max3 d dx dz) dy) as [N|_]; [exfalso; revert N; apply max3_nlt; lra|].
      destruct (system_z B) as [EM EV]. rewrite <- PS in EM, EV.
      assert (DD : det (oMz s) <> 0) by apply (D0 _ _ L1). rewrite EM in DD |- *. rewrite EV.
      apply (olae_turned solve T0 (olae_pairs p wp) half_z (-1) (-1) 1 RT EX W RZ TZ half_z_rot DD). apply LS. exact DD. }
  destruct (cols_from_rotate _ _ EQ) as [E0 [E1 E2]]. unfold olae_pose. rewrite E0, E1, E2.
  assert (TE : vsub (centroid (map fst (vp_pts p))) (compose (olae_attitude solve (olae_problem p wp)) (centroid (map snd (vp_pts p)))) = tr T0).
  { rewrite (centroid_noiseless T0 (vp_pts p) NE (proj1 NL)). unfold compose. rewrite EQ.
    assert (TZ : tr (olae_attitude solve (olae_problem p wp)) = mkV 0 0 0).
    { unfold olae_attitude. cbv zeta. repeat (destruct (Rlt_dec _ _); [reflexivity|]). reflexivity. }
    rewrite TZ. destruct (rotate T0 (centroid (map snd (vp_pts p)))), (tr T0). vunf. f_equal; ring. }
  rewrite TE. destruct T0. reflexivity.
Qed.

(** ** Concrete runs *)

(** Cramer's rule meets the contract *)
Definition cramer (M : M33) (v : V3) : V3 :=
  let d := det M in
  mkV (det (mkM (vx v) (m01 M) (m02 M) (vy v) (m11 M) (m12 M) (vz v) (m21 M) (m22 M)) / d)
      (det (mkM (m00 M) (vx v) (m02 M) (m10 M) (vy v) (m12 M) (m20 M) (vz v) (m22 M)) / d)
      (det (mkM (m00 M) (m01 M) (vx v) (m10 M) (m11 M) (vy v) (m20 M) (m21 M) (vz v)) / d).
Lemma cramer_solves : linear_solver cramer.
Proof.
  intros [a b c d e f g h i] [x y z] D. unfold mvmul, cramer, det in *. cbn [vx vy vz HornModel.m00 HornModel.m01 HornModel.m02 HornModel.m10 HornModel.m11 HornModel.m12 HornModel.m20 HornModel.m21 HornModel.m22] in *.
  f_equal; field; exact D.
Qed.

(** The six points along the axes seen after any pose: B is a third of the rotation *)
Lemma vnorm_one v : vnorm2 v = 1 -> vnorm v = 1.
Proof. intros H. unfold vnorm. rewrite H. apply sqrt_1. Qed.
Lemma unit_id v : vnorm2 v = 1 -> unit v = v.
Proof. intros H. unfold unit. rewrite vnorm_one by exact H. destruct v. vunf. f_equal; field. Qed.

Section SixPoints.
Variable T : Pose.
Hypothesis RT : is_rotation T.
Let p := pairs_of (compose T) [].

Lemma six_noiseless : noiseless T p.
Proof. repeat split; [repeat constructor|constructor|constructor]. Qed.
Lemma six_centroids : centroid (map snd (vp_pts p)) = vzero3 /\ centroid (map fst (vp_pts p)) = compose T vzero3.
Proof.
  assert (E := centroid_noiseless T (vp_pts p) ltac:(discriminate) (proj1 six_noiseless)).
  assert (S6 : map snd (vp_pts p) = six) by apply pairs_of_snd. rewrite E, S6, centroid_six. auto.
Qed.
Lemma six_calls : olae_pairs p wp_default = plain_calls p wp_default vzero3 (compose T vzero3) 0 (vp_pts p).
Proof.
  unfold olae_pairs. destruct six_centroids as [-> ->].
  unfold items. change (vp_lns p) with (@nil (V3 * V3)). change (vp_pls p) with (@nil (V3 * V3)). cbn [map app]. rewrite app_nil_r.
  assert (G : Forall (fun x => vnorm2 (vsub (fst x) (compose T vzero3)) = 1 /\ vnorm2 (vsub (snd x) vzero3) = 1) (vp_pts p)).
  { unfold p, pairs_of. cbn [vp_pts]. rewrite Forall_map.
    assert (G : Forall (fun l => vnorm2 (vsub l vzero3) = 1) six).
    { unfold six, vzero3. repeat (apply Forall_cons; [vunf; ring|]). constructor. }
    eapply Forall_impl; [|exact G]. intros l Q. cbn [fst snd] in Q |- *. split; [|exact Q].
    rewrite sub_compose, rotate_norm2 by exact RT. exact Q. }
  generalize 0%nat. induction G as [|[g l] ps [Fg Fl] F IH]; intros i; cbn [map used_from fst snd plain_calls]; [reflexivity|].
  cbn [fst snd] in Fg, Fl. unfold fate_of. destruct (in_dec Nat.eq_dec i []) as [[]|_].
  rewrite (vnorm_one _ Fg), (vnorm_one _ Fl).
  destruct (Rlt_dec 1 (1 / 10000)) as [X|_]; [exfalso; lra|]. change (wp_use_scale wp_default) with false. cbn [app].
  rewrite IH, (unit_id _ Fg), (unit_id _ Fl). reflexivity.
Qed.

Lemma six_B : B_of (olae_pairs p wp_default) (sum_w (olae_pairs p wp_default)) =
  mkM (vx (c0 T) / 3) (vx (c1 T) / 3) (vx (c2 T) / 3) (vy (c0 T) / 3) (vy (c1 T) / 3) (vy (c2 T) / 3)
      (vz (c0 T) / 3) (vz (c1 T) / 3) (vz (c2 T) / 3).
Proof.
  rewrite six_calls.
  assert (CT : class_total p wp_default = 6).
  { unfold class_total. cbn [p pairs_of vp_pts vp_lns vp_pls map six length wp_default wp_pt2pt wp_ln2ln wp_pl2pl].
    rewrite !INR_IZR_INZ. simpl. ring. }
  assert (PB : forall i, pair_block_weight p i = 1) by reflexivity.
  change (vp_pts p) with (map (fun l => (compose T l, l)) six).
  cbn [map six plain_calls].
  rewrite CT, !PB. change (wp_pt2pt wp_default) with 1. clear PB CT RT. clearbody p. clear p.
  assert (B0 : forall x y z, vsub (mkV x y z) vzero3 = mkV x y z).
  { clear. intros x y z. unfold vzero3. vunf. f_equal; ring. }
  rewrite !sub_compose, !B0.
  unfold B_of. cbn [sum_w c_w]. destruct (Rlt_dec 0 _) as [|X]; [|exfalso; lra].
  destruct T as [[a00 a10 a20] [a01 a11 a21] [a02 a12 a22] t]. unfold B_add, S_zero. cbn [fold_left m00 m01 m02 m10 m11 m12 m20 m21 m22 c_w c_b c_r].
  unfold rotate, vadd, vscale, S_scale. cbn [vx vy vz c0 c1 c2 HornModel.m00 HornModel.m01 HornModel.m02 HornModel.m10 HornModel.m11 HornModel.m12 HornModel.m20 HornModel.m21 HornModel.m22]. f_equal; field.
Qed.
End SixPoints.

Lemma default_cover f : blocks_cover (pairs_of f []).
Proof. intros X. exfalso. apply X. reflexivity. Qed.
Lemma unit_none f : unit_directions (pairs_of f []).
Proof. split; constructor. Qed.

(** a turn by atan2(3,4) about z: all the hypotheses of C90 hold *)
Definition turn34 : Pose := mkPose (mkV (4/5) (3/5) 0) (mkV (-(3/5)) (4/5) 0) (mkV 0 0 1) (mkV 1 2 3).
Lemma turn34_rotation : is_rotation turn34.
Proof. unfold is_rotation, turn34; vunf. repeat split; try field. f_equal; field. Qed.
Ltac rabs_solve := unfold Rabs; repeat match goal with |- context [Rcase_abs ?e] => destruct (Rcase_abs e) end; lra.
Example turn34_one_largest : one_largest (olae_problem (pairs_of (compose turn34) []) wp_default).
Proof.
  unfold olae_problem. cbv zeta. rewrite v_of_B, (six_B turn34 turn34_rotation). left.
  unfold olae_systems, v_from_B, det, turn34.
  cbn [oM oMx oMy oMz vx vy vz c0 c1 c2 HornModel.m00 HornModel.m01 HornModel.m02 HornModel.m10 HornModel.m11 HornModel.m12 HornModel.m20 HornModel.m21 HornModel.m22].
  repeat split; rabs_solve.
Qed.
Example turn34_recovered : optimal_tf_olae cramer (pairs_of (compose turn34) []) wp_default = Ok (true, mkHR turn34 []).
Proof.
  apply C90_olae_recovers_the_pose.
  - exact cramer_solves.
  - exact turn34_rotation.
  - apply six_noiseless.
  - apply unit_none.
  - apply default_positive. reflexivity.
  - apply default_cover.
  - discriminate.
  - reflexivity.
  - reflexivity.
  - discriminate.
  - exact turn34_one_largest.
Qed.

(** a Gibbs vector never gives a half turn *)
Lemma gibbs_trace g : -1 < vx (c0 (gibbs2pose g)) + vy (c1 (gibbs2pose g)) + vz (c2 (gibbs2pose g)).
Proof.
  destruct g as [a b c]. unfold gibbs2pose, gibbs_quat. cbn [vx vy vz]. set (n := 1 + a * a + b * b + c * c).
  assert (P : 0 < n) by (unfold n; nra). assert (S := sqrt_lt_R0 n P). set (r := 1 / sqrt n).
  assert (R0 : 0 < r) by (unfold r; apply Rdiv_lt_0_compat; lra).
  assert (RR : r * r * n = 1).
  { unfold r. rewrite <- (sqrt_sqrt n) at 3 by lra. field. lra. }
  unfold quat_rot. cbn [c0 c1 c2 vx vy vz qr qx qy qz]. unfold n in RR. nra.
Qed.

(** Finding: when two determinants tie for the largest one, the code falls into its last branch, whatever that
    system is.  For a quarter turn about x of the six points the plain and the x systems tie, both
    non-singular, and the z system is singular: no solver whatsoever gets the right rotation,
    although the plain system would give it. *)
Definition quarter_x : Pose := mkPose (mkV 1 0 0) (mkV 0 0 1) (mkV 0 (-1) 0) (mkV 1 2 3).
Lemma quarter_x_rotation : is_rotation quarter_x.
Proof. unfold is_rotation, quarter_x; vunf. repeat split; try ring. f_equal; ring. Qed.
Theorem C91_tied_determinants_give_a_wrong_pose_refuted :
  exists p wp T0, is_rotation T0 /\ noiseless T0 p /\ positive_weights p wp /\ blocks_cover p /\ vp_pts p <> [] /\
    det (oM (olae_problem p wp)) <> 0 /\
    forall solve, exists T, optimal_tf_olae solve p wp = Ok (true, mkHR T []) /\ T <> T0.
Proof.
  exists (pairs_of (compose quarter_x) []), wp_default, quarter_x.
  assert (PW : positive_weights (pairs_of (compose quarter_x) []) wp_default) by (apply default_positive; reflexivity).
  assert (NL := six_noiseless quarter_x).
  split; [exact quarter_x_rotation|]. split; [exact NL|]. split; [exact PW|]. split; [apply default_cover|]. split; [discriminate|].
  assert (E : olae_problem (pairs_of (compose quarter_x) []) wp_default =
    olae_systems (mkM (1/3) 0 0 0 0 (-1/3) 0 (1/3) 0) (mkV (2/3) 0 0)).
  { unfold olae_problem. cbv zeta. rewrite v_of_B, (six_B quarter_x quarter_x_rotation). unfold quarter_x, v_from_B. cbn [vx vy vz c0 c1 c2].
    f_equal; [f_equal; field|]. cbn [HornModel.m00 HornModel.m01 HornModel.m02 HornModel.m10 HornModel.m11 HornModel.m12 HornModel.m20 HornModel.m21 HornModel.m22]. f_equal; field. }
  rewrite E. split.
  { unfold olae_systems, det. cbn [oM HornModel.m00 HornModel.m01 HornModel.m02 HornModel.m10 HornModel.m11 HornModel.m12 HornModel.m20 HornModel.m21 HornModel.m22]. lra. }
  intros solve.
  destruct (noiseless_walk quarter_x _ wp_default true quarter_x_rotation NL ltac:(discriminate) ltac:(discriminate)) as [NO _].
  rewrite (olae_run solve _ wp_default PW (default_cover _) ltac:(discriminate) eq_refl eq_refl NO), E.
  eexists. split; [reflexivity|]. unfold olae_attitude.
  set (s := olae_systems _ _).
  assert (DD : Rabs (det (oM s)) = 32/27 /\ Rabs (det (oMx s)) = 32/27 /\ Rabs (det (oMy s)) = 0 /\ Rabs (det (oMz s)) = 0).
  { unfold s, olae_systems, det. cbn [oM oMx oMy oMz vx vy vz HornModel.m00 HornModel.m01 HornModel.m02 HornModel.m10 HornModel.m11 HornModel.m12 HornModel.m20 HornModel.m21 HornModel.m22].
    repeat split; rabs_solve. }
  destruct DD as (-> & -> & -> & ->).
  destruct (Rlt_dec (max3 (32/27) 0 0) (32/27)) as [N|_]; [exfalso; revert N; apply max3_nlt; lra|].
  destruct (Rlt_dec (max3 (32/27) 0 0) (32/27)) as [N|_]; [exfalso; revert N; apply max3_nlt; lra|].
  destruct (Rlt_dec (max3 (32/27) (32/27) 0) 0) as [N|_]; [exfalso; revert N; apply max3_nlt; lra|].
  assert (G := gibbs_trace (solve (oMz s) (ovz s))). destruct (gibbs2pose _) as [[a00 a10 a20] [a01 a11 a21] [a02 a12 a22] t].
  unfold olae_pose, rot_mul, quarter_x. cbn [c0 c1 c2 vx vy vz] in *. rewrite !half_z_rot. cbn [vx vy vz].
  intros X. injection X as X1 X2 X3 X4 X5 X6 X7 X8 X9 _ _ _. lra.
Qed.

(** Finding: OLAE has no notion of an underdetermined problem.  With one point pair (which sits
    on the centroid and is dropped) it returns true, and the rotation is a half turn about z. *)
Theorem C92_single_pair_half_turn_refuted : forall solve g l wp,
  linear_solver solve -> 0 < wp_pt2pt wp -> 0 <= wp_ln2ln wp -> 0 <= wp_pl2pl wp ->
  exists T, optimal_tf_olae solve (mkVP [(g, l)] [] [] 0 0 []) wp = Ok (true, mkHR T []) /\
    forall v, rotate T v = mkV (- vx v) (- vy v) (vz v).
Proof.
  intros solve g l wp LS A B C. unfold optimal_tf_olae.
  destruct (Rle_dec 0 (wp_pt2pt wp)); [|exfalso; lra]. destruct (Rle_dec 0 (wp_ln2ln wp)); [|exfalso; lra].
  destruct (Rle_dec 0 (wp_pl2pl wp)); [|exfalso; lra].
  rewrite eval_centroids_nil by discriminate. cbn [rbind map fst snd vp_pts].
  assert (CE : forall v, centroid [v] = v).
  { intros [x y z]. unfold centroid, vsum, vzero3. cbn [length fold_right INR]. vunf. f_equal; field. }
  rewrite !CE. unfold olae_build, visit, attitude_weights. cbn [vp_nPt2Ln vp_nPt2Pl Nat.eqb andb].
  destruct (Rlt_dec 0 (wp_pt2pt wp + wp_ln2ln wp + wp_pl2pl wp)); [|exfalso; lra]. cbn [rbind].
  assert (Z : vnorm (vsub g g) = 0).
  { unfold vnorm. replace (vnorm2 (vsub g g)) with 0; [apply sqrt_0|]. destruct g. vunf. ring. }
  unfold items, point_blocks. cbn [vp_pts vp_lns vp_pls vp_weights map app visit_loop vs_next visit_body step_block vs_blocks vs_start Nat.leb Nat.add length rbind fst snd].
  rewrite Z. destruct (Rlt_dec 0 (1 / 10000)) as [_|X]; [|exfalso; lra]. cbn [rbind vs_calls vs_new vs_sum vs_discarded rev vr_calls vr_sum vr_outliers length Nat.eqb].
  eexists. split; [reflexivity|].
  unfold B_of, v_of. destruct (Rlt_dec 0 0) as [X|_]; [exfalso; lra|]. cbn [fold_left].
  assert (E : olae_systems S_zero vzero3 = let D := mkM (-1) 0 0 0 (-1) 0 0 0 (-1) in mkOS D D D D vzero3 vzero3 vzero3 vzero3).
  { unfold olae_systems, S_zero, vzero3. cbv zeta. cbn [vx vy vz HornModel.m00 HornModel.m01 HornModel.m02 HornModel.m10 HornModel.m11 HornModel.m12 HornModel.m20 HornModel.m21 HornModel.m22]. f_equal; f_equal; ring. }
  rewrite E. unfold olae_attitude. cbv zeta. cbn [oM oMx oMy oMz ovz].
  assert (D1 : det (mkM (-1) 0 0 0 (-1) 0 0 0 (-1)) = -1) by (unfold det; cbn [HornModel.m00 HornModel.m01 HornModel.m02 HornModel.m10 HornModel.m11 HornModel.m12 HornModel.m20 HornModel.m21 HornModel.m22]; ring).
  rewrite D1. destruct (Rlt_dec _ _) as [N|_]; [exfalso; revert N; apply max3_nlt; lra|].
  assert (S := LS (mkM (-1) 0 0 0 (-1) 0 0 0 (-1)) vzero3 ltac:(rewrite D1; lra)).
  destruct (solve _ _) as [a b c]. unfold mvmul, vzero3 in S. cbn [vx vy vz HornModel.m00 HornModel.m01 HornModel.m02 HornModel.m10 HornModel.m11 HornModel.m12 HornModel.m20 HornModel.m21 HornModel.m22] in S.
  injection S as S0 S1 S2. assert (a = 0) by lra. assert (b = 0) by lra. assert (c = 0) by lra. subst.
  unfold gibbs2pose, gibbs_quat. cbn [vx vy vz]. replace (1 + 0 * 0 + 0 * 0 + 0 * 0) with 1 by ring. rewrite sqrt_1.
  intros [x y z]. unfold olae_pose, rot_mul, quat_rot. cbn [c0 c1 c2 qr qx qy qz]. rewrite !half_z_rot. unfold rotate, vadd, vscale. cbn [c0 c1 c2 vx vy vz]. f_equal; field.
Qed.
