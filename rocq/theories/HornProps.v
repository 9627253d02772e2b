(** C32, C84-C88: Horn's closed-form solver. *)
From Coq Require Import Reals List Lra Lia Psatz.
From Verif Require Import Base GeomModel VisitModel VisitSpec VisitProps RotProofs HornModel HornProofs NoiselessProofs.
Import ListNotations.
Open Scope R_scope.

(** all the weights a run may use are positive *)
Definition positive_weights (p : VPairs) (wp : VWeights) : Prop :=
  0 < wp_pt2pt wp /\ 0 <= wp_ln2ln wp /\ 0 <= wp_pl2pl wp /\
  (vp_lns p <> [] -> 0 < wp_ln2ln wp) /\ (vp_pls p <> [] -> 0 < wp_pl2pl wp) /\
  Forall (fun b => 0 < snd b) (vp_weights p) /\
  match wp_kernel wp with None => True | Some f => wp_current wp <> None /\ forall e, 0 <= e -> 0 < f e end.

Lemma kernel_factor_pos p wp b r : positive_weights p wp -> 0 < kernel_factor wp b r.
Proof.
  intros (_ & _ & _ & _ & _ & _ & K). unfold kernel_factor. destruct (wp_kernel wp) as [f|]; [|lra].
  destruct K as [_ K]. destruct (wp_current wp); [|lra]. apply K. apply vnorm2_nonneg.
Qed.

Lemma class_total_pos p wp : positive_weights p wp -> vp_pts p <> [] -> 0 < class_total p wp.
Proof.
  intros (A & B & C & _) NE. unfold class_total.
  assert (0 < INR (length (vp_pts p))) by (apply lt_0_INR; destruct (vp_pts p); [contradiction|simpl; lia]).
  assert (0 <= INR (length (vp_lns p))) by apply pos_INR. assert (0 <= INR (length (vp_pls p))) by apply pos_INR.
  assert (0 < wp_pt2pt wp * INR (length (vp_pts p))) by nra.
  assert (0 <= wp_ln2ln wp * INR (length (vp_lns p))) by nra. assert (0 <= wp_pl2pl wp * INR (length (vp_pls p))) by nra. lra.
Qed.

Lemma block_weight_in bl : forall i w, block_weight bl i = Some w -> exists n, In (n, w) bl.
Proof.
  induction bl as [|[n w'] r IH]; intros i w H; simpl in H; [discriminate|].
  destruct (Nat.ltb i n); [injection H as <-; exists n; left; reflexivity|].
  destruct (IH _ _ H) as [m I]. exists m. right; exact I.
Qed.

Lemma used_positive p wp ctl ctg outl normalize : positive_weights p wp -> blocks_cover p -> vp_pts p <> [] ->
  Forall (fun c => 0 < c_w c) (used_from p wp ctl ctg outl normalize 0 (items p)).
Proof.
  intros PW CV NE. assert (CT := class_total_pos p wp PW NE). assert (PW' := PW).
  destruct PW' as (A & B & C & D & E & F & _).
  assert (G : forall its i, (forall k it, nth_error its k = Some it -> nth_error (items p) (i + k) = Some it) ->
    Forall (fun c => 0 < c_w c) (used_from p wp ctl ctg outl normalize i its)).
  { induction its as [|it its IH]; intros i H; [constructor|]. cbn [used_from]. apply Forall_app. split.
    - assert (IT : nth_error (items p) i = Some it) by (rewrite <- (Nat.add_0_r i); apply H; reflexivity).
      assert (KP : forall b r, 0 < kernel_factor wp b r) by (intros; eapply kernel_factor_pos; exact PW).
      assert (DV : forall x, 0 < x -> 0 < x / class_total p wp) by (intros x X; apply Rmult_lt_0_compat; [exact X|apply Rinv_0_lt_compat; exact CT]).
      unfold fate_of. destruct (in_dec Nat.eq_dec i outl); [constructor|]. destruct it as [g l|g l|g l].
      + assert (L : (i < length (vp_pts p))%nat).
        { destruct (items_first p i _ IT) as [Q _]. simpl in Q. apply Q. exact I. }
        assert (BW : 0 < pair_block_weight p i).
        { unfold pair_block_weight. destruct (vp_weights p) as [|b r] eqn:EW; [lra|].
          destruct (CV ltac:(rewrite EW; discriminate)) as [_ TOT]. rewrite EW in TOT.
          destruct (block_weight_some (b :: r) i ltac:(lia)) as [w W]. rewrite W.
          destruct (block_weight_in _ _ _ W) as [nb IN]. rewrite Forall_forall in F. apply (F _ IN). }
        destruct (Rlt_dec _ _); [constructor|]. destruct (Rlt_dec _ _); [constructor|].
        match goal with |- context [if ?q then Outlier else _] => destruct q end; [constructor|].
        constructor; [|constructor]. cbn [c_w].
        apply Rmult_lt_0_compat; [|apply KP]. apply Rmult_lt_0_compat; [|exact BW]. apply DV. exact A.
      + constructor; [|constructor]. cbn [c_w]. apply Rmult_lt_0_compat; [|apply KP]. apply DV. apply D.
        intros Z. apply nth_error_In in IT. unfold items in IT. rewrite Z in IT. apply in_app_or in IT.
        destruct IT as [IT|IT]; [|simpl in IT]; apply in_map_iff in IT; destruct IT as [? [X _]]; discriminate.
      + constructor; [|constructor]. cbn [c_w]. apply Rmult_lt_0_compat; [|apply KP]. apply DV. apply E.
        intros Z. apply nth_error_In in IT. unfold items in IT. rewrite Z in IT. apply in_app_or in IT.
        destruct IT as [IT|IT]; [|apply in_app_or in IT; destruct IT as [IT|[]]]; apply in_map_iff in IT; destruct IT as [? [X _]]; discriminate.
    - apply IH. intros k x Q. replace (S i + k)%nat with (i + S k)%nat by lia. apply H. exact Q. }
  apply G. intros k it H. exact H.
Qed.

(** the walk of the first pass succeeds *)
Lemma first_pass_ok p wp ctl ctg normalize : positive_weights p wp -> blocks_cover p -> vp_pts p <> [] ->
  vp_nPt2Ln p = 0%nat -> vp_nPt2Pl p = 0%nat ->
  exists r, visit p wp ctl ctg [] normalize = Ok r /\
    vr_calls r = used_from p wp ctl ctg [] normalize 0 (items p) /\
    vr_outliers r = outliers_from p wp ctl ctg [] normalize 0 (items p) /\
    vr_sum r = sum_w (vr_calls r) /\ Forall (fun c => 0 < c_w c) (vr_calls r).
Proof.
  intros PW CV NE H1 H2.
  assert (ST : starts_not_outliers p []) by (intros c _ _ []).
  assert (SO : sorted_outliers p []) by (split; [exact I|intros x []]).
  assert (UP := used_positive p wp ctl ctg [] normalize PW CV NE).
  destruct PW as (A & B & C & D & E & F & K).
  destruct (C26_no_spurious_failure p wp ctl ctg [] normalize CV ST SO H1 H2) as [r V]; [lra| |exact UP|].
  - destruct (wp_kernel wp); [intros _; apply K|intros X; exfalso; apply X; reflexivity].
  - exists r. split; [exact V|]. destruct (C26_weights_of_every_pair p wp ctl ctg [] normalize CV ST SO) as [_ Q]. apply Q. exact V.
Qed.

Lemma sum_w_pos cs : cs <> [] -> Forall (fun c => 0 < c_w c) cs -> 0 < sum_w cs.
Proof.
  intros NE F. assert (P : forall l, Forall (fun c => 0 < c_w c) l -> 0 <= sum_w l) by (clear; induction 1; simpl; lra).
  destruct cs as [|c cs]; [contradiction|]. inversion F as [|? ? W F']; subst. simpl. specialize (P cs F'). lra.
Qed.

(** The pairs as the first pass of the solver sees them *)
Definition horn_pairs (p : VPairs) (wp : VWeights) : list call :=
  used_from p wp (centroid (map snd (vp_pts p))) (centroid (map fst (vp_pts p))) [] false 0 (items p).
Definition horn_matrix (p : VPairs) (wp : VWeights) : Sym4 :=
  N_of (S_of (horn_pairs p wp) (sum_w (horn_pairs p wp))).

Definition at_least_three (p : VPairs) : Prop := (3 <= length (vp_pts p) + length (vp_lns p) + length (vp_pls p))%nat.

(** what a run without outliers returns *)
Lemma horn_run eig p wp : positive_weights p wp -> blocks_cover p -> vp_pts p <> [] -> at_least_three p ->
  vp_nPt2Ln p = 0%nat -> vp_nPt2Pl p = 0%nat ->
  (wp_use_scale wp = false \/
   outliers_from p wp (centroid (map snd (vp_pts p))) (centroid (map fst (vp_pts p))) [] false 0 (items p) = []) ->
  exists o, optimal_tf_horn eig p wp =
    Ok (true, mkHR (pose_of (best_quat eig (horn_matrix p wp)) (centroid (map snd (vp_pts p))) (centroid (map fst (vp_pts p)))) o) /\
    o = outliers_from p wp (centroid (map snd (vp_pts p))) (centroid (map fst (vp_pts p))) [] false 0 (items p).
Proof.
  intros PW CV NE N3 H1 H2 OUT. unfold optimal_tf_horn.
  destruct (first_pass_ok p wp (centroid (map snd (vp_pts p))) (centroid (map fst (vp_pts p))) false PW CV NE H1 H2) as [r [V [VC [VO [VS _]]]]].
  destruct PW as (A & B & C & _).
  destruct (Rle_dec 0 (wp_pt2pt wp)); [|exfalso; lra]. destruct (Rle_dec 0 (wp_ln2ln wp)); [|exfalso; lra].
  destruct (Rle_dec 0 (wp_pl2pl wp)); [|exfalso; lra].
  rewrite eval_centroids_nil by exact NE. cbn [rbind]. unfold se3_l2_internal. rewrite H1, H2. cbn [Nat.eqb andb].
  unfold at_least_three in N3. destruct (Nat.ltb_spec (length (vp_pts p) + length (vp_lns p) + length (vp_pls p)) 3); [lia|].
  rewrite V. cbn [rbind]. eexists. split; [|reflexivity].
  assert (Z : wp_use_scale wp && negb (Nat.eqb (length (vr_outliers r)) 0) = false).
  { destruct OUT as [->|O]; [reflexivity|]. rewrite VO, O. simpl. apply Bool.andb_false_r. }
  rewrite Z. unfold horn_matrix, horn_pairs. rewrite VS, VC, VO. reflexivity.
Qed.

(** C84: the returned rotation is at least as good as any other one on the pairs used: points
    relative to the centroids, directions of lines and normals of planes, with their weights. *)
Theorem C84_horn_rotation_is_optimal : forall eig p wp,
  positive_weights p wp -> blocks_cover p -> vp_pts p <> [] -> at_least_three p ->
  vp_nPt2Ln p = 0%nat -> vp_nPt2Pl p = 0%nat -> wp_use_scale wp = false -> horn_pairs p wp <> [] ->
  spectral (horn_matrix p wp) (eig (horn_matrix p wp)) ->
  exists res, optimal_tf_horn eig p wp = Ok (true, res) /\
    is_rotation (hr_pose res) /\
    (forall T, is_rotation T -> rot_cost (horn_pairs p wp) (hr_pose res) <= rot_cost (horn_pairs p wp) T) /\
    compose (hr_pose res) (centroid (map snd (vp_pts p))) = centroid (map fst (vp_pts p)).
Proof.
  intros eig p wp PW CV NE N3 H1 H2 US NC SP.
  destruct (horn_run eig p wp PW CV NE N3 H1 H2 (or_introl US)) as [o [E _]].
  eexists. split; [exact E|]. cbn [hr_pose].
  assert (UP := used_positive p wp (centroid (map snd (vp_pts p))) (centroid (map fst (vp_pts p))) [] false PW CV NE). fold (horn_pairs p wp) in UP.
  assert (W := sum_w_pos _ NC UP).
  destruct (horn_rotation_optimal eig (horn_pairs p wp) _ W SP) as [RQ OPT].
  set (q := best_quat eig (horn_matrix p wp)) in *. fold (horn_matrix p wp) in RQ, OPT. fold q in RQ, OPT.
  set (ctl := centroid (map snd (vp_pts p))) in *. set (ctg := centroid (map fst (vp_pts p))) in *.
  assert (CO : forall v, rotate (pose_of q ctl ctg) v = rotate (quat_rot q) v) by (intros v; apply rotate_cols; reflexivity).
  split; [exact RQ|]. split.
  - intros T RT. assert (X : rot_cost (horn_pairs p wp) (pose_of q ctl ctg) = rot_cost (horn_pairs p wp) (quat_rot q)).
    { induction (horn_pairs p wp) as [|c l IH]; [reflexivity|]. simpl. rewrite CO. f_equal.
      clear -CO. induction l as [|c l IH]; [reflexivity|]. simpl. rewrite CO, IH. reflexivity. }
    rewrite X. apply OPT. exact RT.
  - unfold compose. rewrite CO. unfold pose_of. cbn [tr]. unfold compose.
    assert (TZ : tr (quat_rot q) = mkV 0 0 0) by (destruct q; reflexivity). rewrite TZ.
    destruct (rotate (quat_rot q) ctl), ctg. vunf. f_equal; ring.
Qed.

(** ** Least squares *)
Fixpoint lsq (ps : list (V3 * V3)) (T : Pose) : R :=
  match ps with [] => 0 | (g, l) :: r => vnorm2 (vsub g (compose T l)) + lsq r T end.

Fixpoint sum2 (ds : list V3) : R := match ds with [] => 0 | d :: r => vnorm2 d + sum2 r end.
Lemma sum2_shift ds c : sum2 ds = sum2 (map (fun d => vsub d c) ds) + 2 * vdot c (vsum ds) - INR (length ds) * vnorm2 c.
Proof.
  induction ds as [|d ds IH]; cbn [sum2 map length vsum fold_right].
  - unfold vzero3. destruct c. vunf. ring.
  - fold (vsum ds). rewrite IH, S_INR. destruct d, c, (vsum ds). vunf. ring.
Qed.

Lemma lsq_sum2 ps T : lsq ps T = sum2 (map (fun x => vsub (fst x) (compose T (snd x))) ps).
Proof. induction ps as [|[g l] ps IH]; simpl; [reflexivity|]. rewrite IH. reflexivity. Qed.

Lemma vsum_res ps T : vsum (map (fun x : V3 * V3 => vsub (fst x) (compose T (snd x))) ps) =
  vsub (vsum (map fst ps)) (vadd (rotate T (vsum (map snd ps))) (vscale (INR (length ps)) (tr T))).
Proof.
  induction ps as [|[g l] ps IH]; cbn [map vsum fold_right fst snd length].
  - destruct T as [[? ? ?] [? ? ?] [? ? ?] [? ? ?]]. unfold vzero3. vunf. f_equal; ring.
  - fold (vsum (map (fun x : V3 * V3 => vsub (fst x) (compose T (snd x))) ps)). fold (vsum (map fst ps)). fold (vsum (map snd ps)).
    rewrite IH, rotate_add, S_INR. unfold compose. destruct (rotate T (vsum (map snd ps))), (rotate T l), (tr T), (vsum (map fst ps)), g.
    vunf. f_equal; ring.
Qed.

(** error = error of the centred pairs + error of the centroid *)
Lemma lsq_centred ps T : ps <> [] ->
  let ctl := centroid (map snd ps) in let ctg := centroid (map fst ps) in
  lsq ps T = sum2 (map (fun x => vsub (vsub (fst x) ctg) (rotate T (vsub (snd x) ctl))) ps)
             + INR (length ps) * vnorm2 (vsub ctg (compose T ctl)).
Proof.
  intros NE ctl ctg. rewrite lsq_sum2. set (c := vsub ctg (compose T ctl)).
  rewrite (sum2_shift _ c), vsum_res, !map_length, map_map.
  assert (P : INR (length ps) <> 0) by (destruct ps; [contradiction|]; cbn [length]; apply not_0_INR; lia).
  assert (M : map (fun x : V3 * V3 => vsub (vsub (fst x) (compose T (snd x))) c) ps =
              map (fun x => vsub (vsub (fst x) ctg) (rotate T (vsub (snd x) ctl))) ps).
  { apply map_ext. intros [g l]. cbn [fst snd]. unfold c. rewrite <- sub_compose. destruct g, (compose T l), (compose T ctl), ctg. vunf. f_equal; ring. }
  rewrite M.
  assert (S1 : vsum (map fst ps) = vscale (INR (length ps)) ctg).
  { unfold ctg, centroid. rewrite map_length. destruct (vsum (map fst ps)). vunf. f_equal; field; exact P. }
  assert (S2 : vsum (map snd ps) = vscale (INR (length ps)) ctl).
  { unfold ctl, centroid. rewrite map_length. destruct (vsum (map snd ps)). vunf. f_equal; field; exact P. }
  rewrite S1, S2, rotate_scale. unfold c, compose.
  destruct (rotate T ctl), (tr T), ctg. vunf. ring.
Qed.

(** no pair lies on (within 0.1 mm of) the centroids *)
Definition off_centroid (ps : list (V3 * V3)) : Prop :=
  Forall (fun x => 1 / 10000 <= vnorm (vsub (fst x) (centroid (map fst ps))) /\
                   1 / 10000 <= vnorm (vsub (snd x) (centroid (map snd ps)))) ps.

Lemma uniform_cost p wp w0 ctl ctg T :
  vp_lns p = [] -> vp_pls p = [] -> vp_weights p = [] -> wp_kernel wp = None -> wp_use_scale wp = false ->
  w0 = wp_pt2pt wp / class_total p wp ->
  Forall (fun x => 1 / 10000 <= vnorm (vsub (fst x) ctg) /\ 1 / 10000 <= vnorm (vsub (snd x) ctl)) (vp_pts p) ->
  rot_cost (used_from p wp ctl ctg [] false 0 (items p)) T =
    w0 * sum2 (map (fun x => vsub (vsub (fst x) ctg) (rotate T (vsub (snd x) ctl))) (vp_pts p)) /\
  length (used_from p wp ctl ctg [] false 0 (items p)) = length (vp_pts p).
Proof.
  intros L P W K S WE F. unfold items. rewrite L, P. cbn [map app]. rewrite app_nil_r.
  generalize 0%nat. induction F as [|[g l] ps [Fg Fl] F IH]; intros i; cbn [map used_from fst snd sum2].
  - cbn. split; [ring|reflexivity].
  - cbn [fst snd] in Fg, Fl. unfold fate_of. destruct (in_dec Nat.eq_dec i []) as [[]|_].
    destruct (Rlt_dec (vnorm (vsub g ctg)) _); [exfalso; lra|]. destruct (Rlt_dec (vnorm (vsub l ctl)) _); [exfalso; lra|].
    rewrite S. destruct (IH (Datatypes.S i)) as [A B]. cbn [app rot_cost c_w c_b c_r length]. rewrite A, B.
    unfold pair_block_weight, kernel_factor. rewrite W, K, <- WE. split; [ring|reflexivity].
Qed.

(** C85: for point pairs with equal weights the pose returned is the least-squares one: no rigid
    motion has a smaller sum of squared distances. *)
Theorem C85_horn_is_least_squares : forall eig p wp,
  vp_lns p = [] -> vp_pls p = [] -> vp_weights p = [] -> vp_nPt2Ln p = 0%nat -> vp_nPt2Pl p = 0%nat ->
  wp_kernel wp = None -> wp_use_scale wp = false -> 0 < wp_pt2pt wp -> 0 <= wp_ln2ln wp -> 0 <= wp_pl2pl wp ->
  (3 <= length (vp_pts p))%nat -> off_centroid (vp_pts p) ->
  spectral (horn_matrix p wp) (eig (horn_matrix p wp)) ->
  exists res, optimal_tf_horn eig p wp = Ok (true, res) /\ is_rotation (hr_pose res) /\
    forall T, is_rotation T -> lsq (vp_pts p) (hr_pose res) <= lsq (vp_pts p) T.
Proof.
  intros eig p wp L P W H1 H2 K S A B C N3 OFF SP.
  assert (NE : vp_pts p <> []) by (intros E; rewrite E in N3; simpl in N3; lia).
  assert (PW : positive_weights p wp).
  { unfold positive_weights. rewrite L, P, W, K. repeat split; auto; intros X; contradiction. }
  assert (CV : blocks_cover p) by (intros X; contradiction).
  assert (T3 : at_least_three p) by (unfold at_least_three; lia).
  assert (U := uniform_cost p wp _ _ _ id_pose L P W K S eq_refl OFF). fold (horn_pairs p wp) in U. destruct U as [_ LEN].
  assert (NC : horn_pairs p wp <> []) by (intros E; rewrite E in LEN; simpl in LEN; lia).
  destruct (C84_horn_rotation_is_optimal eig p wp PW CV NE T3 H1 H2 S NC SP) as [res [E [RR [OPT CT]]]].
  exists res. split; [exact E|]. split; [exact RR|]. intros T RT. specialize (OPT T RT).
  rewrite (lsq_centred _ (hr_pose res) NE), (lsq_centred _ T NE). cbv zeta. rewrite CT.
  assert (U1 := uniform_cost p wp _ _ _ (hr_pose res) L P W K S eq_refl OFF).
  assert (U2 := uniform_cost p wp _ _ _ T L P W K S eq_refl OFF).
  fold (horn_pairs p wp) in U1, U2. destruct U1 as [U1 _]. destruct U2 as [U2 _]. rewrite U1, U2 in OPT.
  assert (WP : 0 < wp_pt2pt wp / class_total p wp).
  { apply Rmult_lt_0_compat; [exact A|]. apply Rinv_0_lt_compat. apply class_total_pos; assumption. }
  apply Rmult_le_reg_l in OPT; [|exact WP].
  assert (Z : vnorm2 (vsub (centroid (map fst (vp_pts p))) (centroid (map fst (vp_pts p)))) = 0).
  { destruct (centroid (map fst (vp_pts p))). vunf. ring. }
  rewrite Z. assert (Q := vnorm2_nonneg (vsub (centroid (map fst (vp_pts p))) (compose T (centroid (map snd (vp_pts p)))))).
  assert (I0 := pos_INR (length (vp_pts p))). nra.
Qed.

(** C86: noiseless correspondences are solved exactly, whatever the weights, the robust kernel
    and the scale-based outlier detector. *)
Theorem C86_horn_recovers_the_pose : forall eig p wp T0,
  is_rotation T0 -> noiseless T0 p ->
  positive_weights p wp -> blocks_cover p -> vp_pts p <> [] -> at_least_three p ->
  vp_nPt2Ln p = 0%nat -> vp_nPt2Pl p = 0%nat -> (wp_use_scale wp = true -> 1 <= wp_scale_thr wp) ->
  (exists a b, In a (horn_pairs p wp) /\ In b (horn_pairs p wp) /\ vcross (c_r a) (c_r b) <> mkV 0 0 0) ->
  spectral (horn_matrix p wp) (eig (horn_matrix p wp)) ->
  optimal_tf_horn eig p wp = Ok (true, mkHR T0 []).
Proof.
  intros eig p wp T0 RT NL PW CV NE N3 H1 H2 THR [a [b [IA [IB IND]]]] SP.
  destruct (noiseless_walk T0 p wp false RT NL NE THR) as [NO GC]. fold (horn_pairs p wp) in GC.
  destruct (horn_run eig p wp PW CV NE N3 H1 H2 (or_intror NO)) as [o [E EO]]. rewrite NO in EO. subst o.
  rewrite E. do 3 f_equal.
  assert (UP := used_positive p wp (centroid (map snd (vp_pts p))) (centroid (map fst (vp_pts p))) [] false PW CV NE). fold (horn_pairs p wp) in UP.
  assert (NC : horn_pairs p wp <> []) by (intros Z; rewrite Z in IA; destruct IA).
  assert (W := sum_w_pos _ NC UP).
  destruct (horn_rotation_optimal eig (horn_pairs p wp) _ W SP) as [RQ OPT].
  fold (horn_matrix p wp) in RQ, OPT. set (q := best_quat eig (horn_matrix p wp)) in *.
  assert (LE := OPT T0 RT). rewrite (rot_cost_zero _ _ GC) in LE.
  assert (GQ := rot_cost_nonpos _ _ UP LE). rewrite Forall_forall in GQ, GC.
  assert (EQ : forall v, rotate (quat_rot q) v = rotate T0 v).
  { apply (rotation_determined _ _ (c_r a) (c_r b)); try assumption.
    - rewrite <- (GQ a IA), <- (GC a IA). reflexivity.
    - rewrite <- (GQ b IB), <- (GC b IB). reflexivity. }
  destruct (cols_from_rotate _ _ EQ) as [E0 [E1 E2]]. unfold pose_of. rewrite E0, E1, E2.
  assert (TE : vsub (centroid (map fst (vp_pts p))) (compose (quat_rot q) (centroid (map snd (vp_pts p)))) = tr T0).
  { rewrite (centroid_noiseless T0 (vp_pts p) NE (proj1 NL)). unfold compose. rewrite EQ.
    assert (TZ : tr (quat_rot q) = mkV 0 0 0) by (destruct q; reflexivity). rewrite TZ.
    destruct (rotate T0 (centroid (map snd (vp_pts p)))), (tr T0). vunf. f_equal; ring. }
  rewrite TE. destruct T0. reflexivity.
Qed.

(** C32: fewer than three pairs (at least one of points): the solver returns false, whatever the
    weights and the linear algebra. *)
Theorem C32_horn_needs_three_pairs : forall eig p wp,
  vp_pts p <> [] -> (length (vp_pts p) + length (vp_lns p) + length (vp_pls p) < 3)%nat ->
  vp_nPt2Ln p = 0%nat -> vp_nPt2Pl p = 0%nat -> 0 <= wp_pt2pt wp -> 0 <= wp_ln2ln wp -> 0 <= wp_pl2pl wp ->
  exists res, optimal_tf_horn eig p wp = Ok (false, res).
Proof.
  intros eig p wp NE L H1 H2 A B C. unfold optimal_tf_horn.
  destruct (Rle_dec 0 (wp_pt2pt wp)); [|contradiction]. destruct (Rle_dec 0 (wp_ln2ln wp)); [|contradiction].
  destruct (Rle_dec 0 (wp_pl2pl wp)); [|contradiction].
  rewrite eval_centroids_nil by exact NE. cbn [rbind]. unfold se3_l2_internal. rewrite H1, H2. cbn [Nat.eqb andb].
  destruct (Nat.ltb_spec (length (vp_pts p) + length (vp_lns p) + length (vp_pls p)) 3); [|lia].
  cbn [rbind]. eexists. reflexivity.
Qed.

(** and it never returns true with fewer *)
Theorem C32_horn_true_means_three_pairs : forall eig p wp res,
  optimal_tf_horn eig p wp = Ok (true, res) -> at_least_three p.
Proof.
  intros eig p wp res. unfold optimal_tf_horn, at_least_three.
  destruct (Rle_dec 0 (wp_pt2pt wp)); [|discriminate]. destruct (Rle_dec 0 (wp_ln2ln wp)); [|discriminate].
  destruct (Rle_dec 0 (wp_pl2pl wp)); [|discriminate].
  destruct (eval_centroids (vp_pts p) []) as [[ctl ctg]| |]; try discriminate. cbn [rbind].
  unfold se3_l2_internal at 1. destruct (Nat.eqb (vp_nPt2Ln p) 0 && Nat.eqb (vp_nPt2Pl p) 0); [|discriminate].
  destruct (Nat.ltb_spec (length (vp_pts p) + length (vp_lns p) + length (vp_pls p)) 3) as [L|L]; [discriminate|].
  intros _. exact L.
Qed.

(** Finding: when the solver returns false the caller's pose is lost: the result is the identity. *)
Theorem C87_failure_resets_the_pose_refuted : forall eig convert p wp out,
  vp_pts p <> [] -> (length (vp_pts p) + length (vp_lns p) + length (vp_pls p) < 3)%nat ->
  vp_nPt2Ln p = 0%nat -> vp_nPt2Pl p = 0%nat -> 0 <= wp_pt2pt wp -> 0 <= wp_ln2ln wp -> 0 <= wp_pl2pl wp ->
  solver_horn eig convert p wp out = Ok (false, mkHR id_pose []).
Proof.
  intros eig convert p wp out NE L H1 H2 A B C. unfold solver_horn. rewrite H1, H2. cbn [Nat.eqb andb].
  unfold optimal_tf_horn.
  destruct (Rle_dec 0 (wp_pt2pt wp)); [|contradiction]. destruct (Rle_dec 0 (wp_ln2ln wp)); [|contradiction].
  destruct (Rle_dec 0 (wp_pl2pl wp)); [|contradiction].
  rewrite eval_centroids_nil by exact NE. cbn [rbind]. unfold se3_l2_internal. rewrite H1, H2. cbn [Nat.eqb andb].
  destruct (Nat.ltb_spec (length (vp_pts p) + length (vp_lns p) + length (vp_pls p)) 3); [|lia].
  reflexivity.
Qed.

(** Finding: without any point pair the solver throws, however many lines and planes there are. *)
Theorem C88_no_points_throws_refuted : forall eig p wp, vp_pts p = [] -> optimal_tf_horn eig p wp = Throw.
Proof.
  intros eig p wp E. unfold optimal_tf_horn. rewrite E.
  destruct (Rle_dec 0 (wp_pt2pt wp)); [|reflexivity]. destruct (Rle_dec 0 (wp_ln2ln wp)); [|reflexivity].
  destruct (Rle_dec 0 (wp_pl2pl wp)); reflexivity.
Qed.

(** ** Concrete runs: the six points at distance 1 along the axes *)
Definition six : list V3 := [mkV 1 0 0; mkV (-1) 0 0; mkV 0 1 0; mkV 0 (-1) 0; mkV 0 0 1; mkV 0 0 (-1)].
Definition pairs_of (f : V3 -> V3) (ws : list (nat * R)) : VPairs := mkVP (map (fun l => (f l, l)) six) [] [] 0 0 ws.

Lemma pairs_of_snd f ws : map snd (vp_pts (pairs_of f ws)) = six.
Proof. unfold pairs_of. cbn [vp_pts]. rewrite map_map. cbn [snd]. apply map_id. Qed.
Lemma pairs_of_fst f ws : map fst (vp_pts (pairs_of f ws)) = map f six.
Proof. unfold pairs_of. cbn [vp_pts]. rewrite map_map. reflexivity. Qed.

Lemma centroid_six : centroid six = vzero3.
Proof. unfold centroid, six, vsum, vzero3. cbn [fold_right length]. vunf. f_equal; field. Qed.

Lemma vnorm_far v : 1 <= vnorm2 v -> 1 / 10000 <= vnorm v.
Proof.
  intros H. unfold vnorm. apply Rle_trans with (sqrt 1); [rewrite sqrt_1; lra|]. apply sqrt_le_1; lra.
Qed.

(** the calls of a run without kernels and detector *)
Fixpoint plain_calls (p : VPairs) (wp : VWeights) (ctl ctg : V3) (i : nat) (ps : list (V3 * V3)) : list call :=
  match ps with
  | [] => []
  | (g, l) :: r => mkCall i (vsub g ctg) (vsub l ctl) (wp_pt2pt wp / class_total p wp * pair_block_weight p i * 1) :: plain_calls p wp ctl ctg (S i) r
  end.
Lemma used_plain p wp ctl ctg ps : wp_kernel wp = None -> wp_use_scale wp = false ->
  Forall (fun x => 1 / 10000 <= vnorm (vsub (fst x) ctg) /\ 1 / 10000 <= vnorm (vsub (snd x) ctl)) ps ->
  forall i, used_from p wp ctl ctg [] false i (map (fun x => IPt (fst x) (snd x)) ps) = plain_calls p wp ctl ctg i ps.
Proof.
  intros K S. induction 1 as [|[g l] ps [Fg Fl] F IH]; intros i; cbn [map used_from fst snd plain_calls]; [reflexivity|].
  cbn [fst snd] in Fg, Fl. unfold fate_of. destruct (in_dec Nat.eq_dec i []) as [[]|_].
  destruct (Rlt_dec (vnorm (vsub g ctg)) _); [exfalso; lra|]. destruct (Rlt_dec (vnorm (vsub l ctl)) _); [exfalso; lra|].
  rewrite S. cbn [app]. rewrite IH. unfold kernel_factor. rewrite K. reflexivity.
Qed.

(** a quarter turn about z, with a translation *)
Definition quarter : Pose := mkPose (mkV 0 1 0) (mkV (-1) 0 0) (mkV 0 0 1) (mkV 1 2 3).
Lemma quarter_rotation : is_rotation quarter.
Proof. unfold is_rotation, quarter; vunf. repeat split; try ring. f_equal; ring. Qed.

Definition quarter_pairs : VPairs := pairs_of (compose quarter) [].
Lemma quarter_noiseless : noiseless quarter quarter_pairs.
Proof. repeat split; [repeat constructor|constructor|constructor]. Qed.

Lemma quarter_far : off_centroid (vp_pts quarter_pairs).
Proof.
  unfold off_centroid. assert (E := centroid_noiseless quarter (vp_pts quarter_pairs) ltac:(discriminate) (proj1 quarter_noiseless)).
  assert (S6 : map snd (vp_pts quarter_pairs) = six) by apply pairs_of_snd. rewrite E, S6, centroid_six.
  change (vp_pts quarter_pairs) with (map (fun l => (compose quarter l, l)) six). rewrite Forall_map.
  assert (G : Forall (fun l => 1 <= vnorm2 (vsub l vzero3)) six).
  { unfold six, vzero3. repeat (apply Forall_cons; [vunf; lra|]). constructor. }
  eapply Forall_impl; [|exact G]. intros l Q. cbn [fst snd] in Q |- *. split; [|apply vnorm_far; exact Q].
  rewrite sub_compose, rotate_norm by exact quarter_rotation. apply vnorm_far; exact Q.
Qed.

Lemma quarter_calls : horn_pairs quarter_pairs wp_default =
  plain_calls quarter_pairs wp_default vzero3 (compose quarter vzero3) 0 (vp_pts quarter_pairs).
Proof.
  unfold horn_pairs. assert (E := centroid_noiseless quarter (vp_pts quarter_pairs) ltac:(discriminate) (proj1 quarter_noiseless)).
  assert (F := quarter_far). unfold off_centroid in F. rewrite E in F |- *.
  assert (S6 : map snd (vp_pts quarter_pairs) = six) by apply pairs_of_snd. rewrite S6, centroid_six in F |- *.
  unfold items. change (vp_lns quarter_pairs) with (@nil (V3 * V3)). change (vp_pls quarter_pairs) with (@nil (V3 * V3)). cbn [map app]. rewrite app_nil_r.
  apply used_plain; [reflexivity|reflexivity|exact F].
Qed.

(** its spectral decomposition *)
Definition h2 : R := / sqrt 2.
Lemma h2_sq : h2 * h2 = / 2.
Proof. unfold h2. rewrite <- Rinv_mult, sqrt_sqrt by lra. reflexivity. Qed.
Definition quarter_eig (_ : Sym4) : Eig :=
  mkEig (mkQ h2 0 0 (- h2)) (mkQ 0 1 0 0) (mkQ 0 0 1 0) (mkQ h2 0 0 h2) (- / 3) (- / 3) (- / 3) 1.

Lemma quarter_matrix : horn_matrix quarter_pairs wp_default = mkS4 (/ 3) 0 0 (2 / 3) (- / 3) 0 0 (- / 3) 0 (/ 3).
Proof.
  unfold horn_matrix. rewrite quarter_calls.
  assert (CT : class_total quarter_pairs wp_default = 6).
  { unfold class_total. cbn [quarter_pairs pairs_of vp_pts vp_lns vp_pls map six length wp_default wp_pt2pt wp_ln2ln wp_pl2pl].
    rewrite !INR_IZR_INZ. simpl. ring. }
  cbn [quarter_pairs pairs_of vp_pts map six plain_calls]. fold quarter_pairs.
  rewrite CT. change (wp_pt2pt wp_default) with 1.
  assert (PB : forall i, pair_block_weight quarter_pairs i = 1) by reflexivity. rewrite !PB.
  assert (B : forall x y z, vsub (compose quarter (mkV x y z)) (compose quarter vzero3) = mkV (- y) x z).
  { clear. intros x y z. unfold quarter, vzero3. vunf. f_equal; ring. }
  assert (B0 : forall x y z, vsub (mkV x y z) vzero3 = mkV x y z).
  { clear. intros x y z. unfold vzero3. vunf. f_equal; ring. }
  rewrite !B, !B0.
  unfold S_of. cbn [sum_w c_w]. destruct (Rlt_dec 0 _) as [|X]; [|exfalso; lra].
  unfold S_scale, S_add, S_zero, N_of. cbn [fold_left m00 m01 m02 m10 m11 m12 m20 m21 m22 c_w c_b c_r].
  clear. unfold compose, rotate, vsub, vadd, vscale. cbn [vx vy vz c0 c1 c2 tr]. unfold vadd, vscale. cbn [vx vy vz]. f_equal; field.
Qed.

Example quarter_spectral : spectral (horn_matrix quarter_pairs wp_default) (quarter_eig (horn_matrix quarter_pairs wp_default)).
Proof.
  rewrite quarter_matrix. unfold spectral, quarter_eig, qdot, qnorm2, quad4. cbn [z0 z1 z2 z3 lam0 lam1 lam2 lam3 qr qx qy qz n00 n01 n02 n03 n11 n12 n13 n22 n23 n33].
  assert (H := h2_sq). repeat split; try lra; try (rewrite <- (Rmult_1_r 1); nra).
  - intros [r x y z]. cbn [qr qx qy qz].
    transitivity ((h2 * h2) * ((r - z) * (r - z)) + x * x + y * y + (h2 * h2) * ((r + z) * (r + z))); [ring|]. rewrite H. field.
  - intros [r x y z]. cbn [qr qx qy qz].
    transitivity (- / 3 * ((h2 * h2) * ((r - z) * (r - z))) + - / 3 * (x * x) + - / 3 * (y * y) + (h2 * h2) * ((r + z) * (r + z))); [rewrite H; field|ring].
Qed.

Lemma default_positive p : vp_weights p = [] -> positive_weights p wp_default.
Proof. intros E. unfold positive_weights, wp_default; simpl. rewrite E. repeat split; try lra; try constructor; intros; lra. Qed.

(** all the hypotheses of C84, C85 and C86 hold for this run: the pose is recovered *)
Example quarter_recovered : optimal_tf_horn quarter_eig quarter_pairs wp_default = Ok (true, mkHR quarter []).
Proof.
  apply C86_horn_recovers_the_pose.
  - exact quarter_rotation.
  - exact quarter_noiseless.
  - apply default_positive. reflexivity.
  - intros X. exfalso. apply X. reflexivity.
  - discriminate.
  - unfold at_least_three. simpl. lia.
  - reflexivity.
  - reflexivity.
  - discriminate.
  - rewrite quarter_calls. cbn [quarter_pairs pairs_of vp_pts map six plain_calls]. do 2 eexists.
    split; [left; reflexivity|]. split; [right; right; left; reflexivity|]. cbn [c_r]. unfold vzero3. vunf.
    intros E. injection E as _ _ E. lra.
  - exact quarter_spectral.
Qed.

Example quarter_least_squares : exists res, optimal_tf_horn quarter_eig quarter_pairs wp_default = Ok (true, res) /\
  is_rotation (hr_pose res) /\ forall T, is_rotation T -> lsq (vp_pts quarter_pairs) (hr_pose res) <= lsq (vp_pts quarter_pairs) T.
Proof.
  apply C85_horn_is_least_squares; try reflexivity; try (simpl; lra); try (simpl; lia).
  - exact quarter_far.
  - exact quarter_spectral.
Qed.

(** ** Finding: with per-block weights the result is not the weighted least-squares pose, because
    the centroids ignore the weights.  Six points, the first one weighing 2, all of them twice as
    far in the global cloud. *)
Definition wlsq (ws : list R) (ps : list (V3 * V3)) (T : Pose) : R :=
  fold_right (fun x acc => fst x * vnorm2 (vsub (fst (snd x)) (compose T (snd (snd x)))) + acc) 0 (combine ws ps).
Definition heavy : VPairs := pairs_of (vscale 2) [(1%nat, 2); (5%nat, 1)].
Definition heavy_eig (_ : Sym4) : Eig :=
  mkEig (mkQ 0 0 1 0) (mkQ 0 0 0 1) (mkQ 0 1 0 0) (mkQ 1 0 0 0) (- (6 / 7)) (- (6 / 7)) (- (2 / 7)) 2.

Lemma centroid_heavy : centroid (map fst (vp_pts heavy)) = vzero3.
Proof. unfold centroid, vsum, vzero3, heavy, pairs_of, six. cbn [vp_pts map fst fold_right length]. vunf. f_equal; field. Qed.

Lemma heavy_calls : horn_pairs heavy wp_default = plain_calls heavy wp_default vzero3 vzero3 0 (vp_pts heavy).
Proof.
  unfold horn_pairs. rewrite centroid_heavy.
  assert (S6 : map snd (vp_pts heavy) = six) by apply pairs_of_snd. rewrite S6, centroid_six.
  unfold items. change (vp_lns heavy) with (@nil (V3 * V3)). change (vp_pls heavy) with (@nil (V3 * V3)). cbn [map app]. rewrite app_nil_r.
  apply used_plain; [reflexivity|reflexivity|].
  change (vp_pts heavy) with (map (fun l => (vscale 2 l, l)) six). rewrite Forall_map. unfold six, vzero3. cbn [fst snd].
  repeat (apply Forall_cons; [split; apply vnorm_far; vunf; lra|]). constructor.
Qed.

Lemma heavy_matrix : horn_matrix heavy wp_default = mkS4 2 0 0 0 (- (2 / 7)) 0 0 (- (6 / 7)) 0 (- (6 / 7)).
Proof.
  unfold horn_matrix. rewrite heavy_calls.
  assert (CT : class_total heavy wp_default = 6).
  { unfold class_total. cbn [heavy pairs_of vp_pts vp_lns vp_pls map six length wp_default wp_pt2pt wp_ln2ln wp_pl2pl].
    rewrite !INR_IZR_INZ. simpl. ring. }
  cbn [heavy pairs_of vp_pts map six plain_calls]. fold heavy.
  rewrite CT. change (wp_pt2pt wp_default) with 1.
  change (pair_block_weight heavy 0) with 2. change (pair_block_weight heavy 1) with 1. change (pair_block_weight heavy 2) with 1.
  change (pair_block_weight heavy 3) with 1. change (pair_block_weight heavy 4) with 1. change (pair_block_weight heavy 5) with 1.
  unfold S_of. cbn [sum_w c_w]. destruct (Rlt_dec 0 _) as [|X]; [|exfalso; lra].
  unfold S_scale, S_add, S_zero, N_of, vzero3. cbn [fold_left m00 m01 m02 m10 m11 m12 m20 m21 m22 c_w c_b c_r].
  clear. unfold compose, rotate, vsub, vadd, vscale. cbn [vx vy vz c0 c1 c2 tr]. unfold vadd, vscale. cbn [vx vy vz]. f_equal; field.
Qed.

Theorem C89_weighted_optimum_refuted :
  positive_weights heavy wp_default /\ blocks_cover heavy /\
  spectral (horn_matrix heavy wp_default) (heavy_eig (horn_matrix heavy wp_default)) /\
  exists res T, optimal_tf_horn heavy_eig heavy wp_default = Ok (true, res) /\ is_rotation T /\
    wlsq [2; 1; 1; 1; 1; 1] (vp_pts heavy) T < wlsq [2; 1; 1; 1; 1; 1] (vp_pts heavy) (hr_pose res).
Proof.
  assert (PW : positive_weights heavy wp_default).
  { unfold positive_weights, wp_default, heavy; simpl. repeat split; try lra; repeat constructor; simpl; try lra; intros; lra. }
  assert (CV : blocks_cover heavy). { intros _. simpl. split; [repeat constructor; simpl; lia|lia]. }
  split; [exact PW|]. split; [exact CV|]. split.
  { rewrite heavy_matrix. unfold spectral, heavy_eig, qdot, qnorm2, quad4. cbn [z0 z1 z2 z3 lam0 lam1 lam2 lam3 qr qx qy qz n00 n01 n02 n03 n11 n12 n13 n22 n23 n33].
    repeat split; try lra; intros [r x y z]; cbn [qr qx qy qz]; field. }
  destruct (horn_run heavy_eig heavy wp_default PW CV ltac:(discriminate) ltac:(unfold at_least_three; simpl; lia) eq_refl eq_refl (or_introl eq_refl)) as [o [E _]].
  eexists. exists (mkPose (mkV 1 0 0) (mkV 0 1 0) (mkV 0 0 1) (mkV (1 / 7) 0 0)). split; [exact E|]. split.
  { unfold is_rotation; vunf. repeat split; try ring. f_equal; ring. }
  cbn [hr_pose]. assert (S6 : map snd (vp_pts heavy) = six) by apply pairs_of_snd. rewrite S6, centroid_heavy, centroid_six.
  assert (BQ : best_quat heavy_eig (horn_matrix heavy wp_default) = mkQ 1 0 0 0).
  { unfold best_quat, heavy_eig. cbn [z3 qr]. destruct (Rlt_dec 1 0); [exfalso; lra|reflexivity]. }
  rewrite BQ.
  assert (PI : pose_of (mkQ 1 0 0 0) vzero3 vzero3 = id_pose).
  { clear. unfold pose_of, quat_rot, id_pose, vzero3. vunf. f_equal; f_equal; ring. }
  rewrite PI. clear. unfold wlsq, heavy, pairs_of, six, id_pose, vzero3. cbn [vp_pts map combine fold_right fst snd]. unfold compose, rotate, vnorm2, vdot, vsub, vadd, vscale. cbn [vx vy vz c0 c1 c2 tr]. unfold vadd, vscale. cbn [vx vy vz]. lra.
Qed.
