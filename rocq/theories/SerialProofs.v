From Coq Require Import String.
From Verif Require Import Base CodecModel CodecProofs PairingsModel SerialModel.
Open Scope N_scope.

Ltac rnorm := rewrite <- ?app_assoc.
Ltac rstep H := erewrite bind_reads by (apply (rb _ H); assumption).
Ltac lo_tac := repeat first
  [ apply lo; first [eassumption | apply u8_ok | apply u32_ok | apply u64_ok | apply f64_ok | apply bool_ok | apply string_ok]
  | apply lo_bind; [|intro] | apply lo_ret | apply lo_fail | apply lo_guard | apply lo_byte | apply lo_expect ].
Ltac sf_tac := repeat first
  [ apply sf; first [eassumption | apply u8_ok | apply u32_ok | apply u64_ok | apply f64_ok | apply bool_ok | apply string_ok]
  | apply sf_bind; [|intro] | apply sf_ret | apply sf_fail | apply sf_guard | apply sf_byte | apply sf_expect ].

Lemma nat_ok k : codec_ok (nat_c k).
Proof.
  split; [|split].
  - intros n rest H. cbn [enc dec nat_c]. erewrite bind_reads by (apply (rb _ (uint_ok k)); exact H). rewrite Nat2N.id. reflexivity.
  - apply lo_bind; [apply lo, uint_ok|]. intro. apply lo_ret.
  - apply sf_bind; [apply sf, uint_ok|]. intro. apply sf_ret.
Qed.

Section S.
Context (X : Ext) (HX : ext_ok X).
Let hPoint : codec_ok (cPoint X) := proj1 HX.
Let hLine : codec_ok (cLine X) := proj1 (proj2 HX).
Let hPlane : codec_ok (cPlane X) := proj1 (proj2 (proj2 HX)).
Let hMatch : codec_ok (cMatchList X) := proj1 (proj2 (proj2 (proj2 HX))).
Let hPose : codec_ok (cPose X) := proj1 (proj2 (proj2 (proj2 (proj2 HX)))).
Let hTPose : codec_ok (cTPose X) := proj1 (proj2 (proj2 (proj2 (proj2 (proj2 HX))))).
Let hPdf : codec_ok (cPdf X) := proj1 (proj2 (proj2 (proj2 (proj2 (proj2 (proj2 HX)))))).
Let hLayer : codec_ok (cLayer X) := proj2 (proj2 (proj2 (proj2 (proj2 (proj2 (proj2 HX)))))).

Lemma zero8 : good u8 0. Proof. reflexivity. Qed.
Ltac byte0 := erewrite bind_reads by (apply (rb _ u8_ok); apply zero8).

Lemma point_line_ok : codec_ok (c_point_line X).
Proof.
  split; [|split].
  - intros [l p] rest [H1 H2]. cbn [enc dec c_point_line] in *. unfold w_point_line, r_point_line. cbn [pl_ln_global pl_pt_local] in *.
    rnorm. byte0. rstep hLine. rstep hPoint. reflexivity.
  - unfold c_point_line, r_point_line. cbn [dec]. lo_tac.
  - unfold c_point_line, r_point_line. cbn [dec]. sf_tac.
Qed.
Lemma point_plane_ok : codec_ok (c_point_plane X).
Proof.
  split; [|split].
  - intros [[n c] p] rest [[H1 H2] H3]. cbn [enc dec c_point_plane] in *. unfold w_point_plane, r_point_plane.
    cbn [pn_pl_global pn_pt_local plane centroid] in *.
    rnorm. byte0. rstep hPoint. rstep hPlane. rstep hPoint. reflexivity.
  - unfold c_point_plane, r_point_plane. cbn [dec]. lo_tac.
  - unfold c_point_plane, r_point_plane. cbn [dec]. sf_tac.
Qed.
Lemma matched_line_ok : codec_ok (c_matched_line X).
Proof.
  split; [|split].
  - intros [g l] rest [H1 H2]. cbn [enc dec c_matched_line] in *. unfold w_matched_line, r_matched_line.
    cbn [ll_global ll_local] in *.
    rnorm. byte0. rstep hLine. rstep hLine. reflexivity.
  - unfold c_matched_line, r_matched_line. cbn [dec]. lo_tac.
  - unfold c_matched_line, r_matched_line. cbn [dec]. sf_tac.
Qed.
Lemma matched_plane_ok : codec_ok (c_matched_plane X).
Proof.
  split; [|split].
  - intros [[n2 c2] [n1 c1]] rest [[H1 H2] [H3 H4]]. cbn [enc dec c_matched_plane] in *. unfold w_matched_plane, r_matched_plane.
    cbn [nn_global nn_local plane centroid] in *.
    rnorm. byte0. rstep hPoint. rstep hPlane. rstep hPoint. rstep hPlane. reflexivity.
  - unfold c_matched_plane, r_matched_plane. cbn [dec]. lo_tac.
  - unfold c_matched_plane, r_matched_plane. cbn [dec]. sf_tac.
Qed.
Lemma pl_ok : codec_ok (v_pl X). Proof. apply vec_ok; [reflexivity|apply point_line_ok]. Qed.
Lemma pn_ok : codec_ok (v_pn X). Proof. apply vec_ok; [reflexivity|apply point_plane_ok]. Qed.
Lemma ll_ok : codec_ok (v_ll X). Proof. apply vec_ok; [reflexivity|apply matched_line_ok]. Qed.
Lemma nn_ok : codec_ok (v_nn X). Proof. apply vec_ok; [reflexivity|apply matched_plane_ok]. Qed.
Lemma weights_ok : codec_ok c_weights. Proof. apply vec_ok; [reflexivity|]. apply pair_ok; [apply nat_ok|apply f64_ok]. Qed.

Lemma pairings_back old p rest : good_pairings X p -> r_pairings X old (w_pairings X p ++ rest) = Ok (p, rest).
Proof.
  destruct p as [a b c d e w n]. intros [H1 [H2 [H3 [H4 [H5 [H6 H7]]]]]].
  cbn [paired_pt2pt paired_pt2ln paired_pt2pl paired_ln2ln paired_pl2pl point_weights potential_pairings] in *.
  unfold r_pairings, w_pairings.
  cbn [paired_pt2pt paired_pt2ln paired_pt2pl paired_ln2ln paired_pl2pl point_weights potential_pairings].
  rnorm. erewrite bind_reads by (apply (rb _ u8_ok); reflexivity). erewrite bind_reads by reflexivity.
  rstep hMatch. rstep pl_ok. rstep pn_ok. rstep ll_ok. rstep nn_ok. rstep weights_ok.
  cbv beta. change (1 <=? 1) with true. cbv iota. rstep (nat_ok 8). reflexivity.
Qed.
Lemma pairings_back_v0 old p rest : good_pairings X p ->
  r_pairings X old (w_pairings_v0 X p ++ rest) =
  Ok (mkPairings (paired_pt2pt p) (paired_pt2ln p) (paired_pt2pl p) (paired_ln2ln p) (paired_pl2pl p) (point_weights p)
        (potential_pairings old), rest).
Proof.
  destruct p as [a b c d e w n]. intros [H1 [H2 [H3 [H4 [H5 [H6 H7]]]]]].
  cbn [paired_pt2pt paired_pt2ln paired_pt2pl paired_ln2ln paired_pl2pl point_weights potential_pairings] in *.
  unfold r_pairings, w_pairings_v0.
  cbn [paired_pt2pt paired_pt2ln paired_pt2pl paired_ln2ln paired_pl2pl point_weights potential_pairings].
  rnorm. erewrite bind_reads by (apply (rb _ u8_ok); reflexivity). erewrite bind_reads by reflexivity.
  rstep hMatch. rstep pl_ok. rstep pn_ok. rstep ll_ok. rstep nn_ok. rstep weights_ok. reflexivity.
Qed.
Lemma pairings_version old v s : v < 256 -> 1 < v -> r_pairings X old (enc u8 v ++ s) = Throw.
Proof.
  intros H H1. unfold r_pairings. erewrite bind_reads by (apply (rb _ u8_ok); exact H).
  destruct (N.leb_spec v 1); [lia|]. reflexivity.
Qed.
Lemma pairings_lo old : local_reader (r_pairings X old).
Proof.
  unfold r_pairings. apply lo_bind; [apply lo, u8_ok|]. intro v. apply lo_bind; [apply lo_guard|]. intro.
  apply lo_bind; [apply lo, hMatch|]. intro. apply lo_bind; [apply lo, pl_ok|]. intro. apply lo_bind; [apply lo, pn_ok|]. intro.
  apply lo_bind; [apply lo, ll_ok|]. intro. apply lo_bind; [apply lo, nn_ok|]. intro. apply lo_bind; [apply lo, weights_ok|]. intro.
  apply lo_bind; [destruct (1 <=? v); [apply lo, nat_ok|apply lo_ret]|]. intro. apply lo_ret.
Qed.
Lemma pairings_sf old : safe_reader (r_pairings X old).
Proof.
  unfold r_pairings. apply sf_bind; [apply sf, u8_ok|]. intro v. apply sf_bind; [apply sf_guard|]. intro.
  apply sf_bind; [apply sf, hMatch|]. intro. apply sf_bind; [apply sf, pl_ok|]. intro. apply sf_bind; [apply sf, pn_ok|]. intro.
  apply sf_bind; [apply sf, ll_ok|]. intro. apply sf_bind; [apply sf, nn_ok|]. intro. apply sf_bind; [apply sf, weights_ok|]. intro.
  apply sf_bind; [destruct (1 <=? v); [apply sf, nat_ok|apply sf_ret]|]. intro. apply sf_ret.
Qed.

(** ** WeightParameters *)
Lemma pw_back p rest : good_pair_weights p -> r_pair_weights (w_pair_weights p ++ rest) = Ok (p, rest).
Proof.
  destruct p as [a b c d e]. intros [H1 [H2 [H3 [H4 H5]]]]. cbn in H1, H2, H3, H4, H5.
  unfold r_pair_weights, w_pair_weights. cbn [pw_pt2pt pw_pt2pl pw_pt2ln pw_ln2ln pw_pl2pl]. rnorm.
  do 5 (rstep f64_ok). reflexivity.
Qed.
Lemma optpose_ok : codec_ok (c_optpose X). Proof. apply opt_ok; [reflexivity|exact hPose]. Qed.
Lemma weight_params_back old p rest : good_weight_params X p -> r_weight_params X old 1 (w_weight_params X p ++ rest) = Ok (p, rest).
Proof.
  destruct p as [us th pw k cur kp]. intros [H1 [H2 [H3 [H4 H5]]]].
  cbn [wp_use_scale wp_scale_thr wp_pair_weights wp_robust_kernel wp_current wp_kernel_param] in *.
  unfold r_weight_params, w_weight_params. cbn [wp_use_scale wp_scale_thr wp_pair_weights wp_robust_kernel wp_current wp_kernel_param].
  change (1 <=? 1) with true. change (1 <? 1) with false. cbv iota. rnorm.
  erewrite bind_reads by (apply (rb _ bool_ok); exact I). rstep f64_ok. rstep u8_ok. rstep optpose_ok. rstep f64_ok.
  erewrite bind_reads by reflexivity. erewrite bind_reads by (apply pw_back; exact H5). reflexivity.
Qed.
Lemma weight_params_back_v0 old p ur sc rest : good_weight_params X p -> good f64 sc ->
  r_weight_params X old 0 (w_weight_params_v0 X p ur sc ++ rest)
  = Ok (mkWP X (wp_use_scale X p) (wp_scale_thr X p) (wp_pair_weights X p) (wp_robust_kernel X old) (wp_current X p) (wp_kernel_param X p), rest).
Proof.
  destruct p as [us th pw k cur kp]. intros [H1 [H2 [H3 [H4 H5]]]] Hsc.
  cbn [wp_use_scale wp_scale_thr wp_pair_weights wp_robust_kernel wp_current wp_kernel_param] in *.
  unfold r_weight_params, w_weight_params_v0. cbn [wp_use_scale wp_scale_thr wp_pair_weights wp_robust_kernel wp_current wp_kernel_param].
  change (0 <=? 1) with true. change (0 <? 1) with true. cbv iota. rnorm.
  erewrite bind_reads by (apply (rb _ bool_ok); exact I). rstep f64_ok.
  erewrite bind_reads.
  2: { erewrite bind_reads by (apply (rb _ bool_ok); exact I). reflexivity. }
  rstep optpose_ok. rstep f64_ok.
  erewrite bind_reads. 2: { rstep f64_ok. reflexivity. }
  erewrite bind_reads by (apply pw_back; exact H5). reflexivity.
Qed.
Lemma weight_params_version old v s : 1 < v -> r_weight_params X old v s = Throw.
Proof. intro H. unfold r_weight_params. destruct (N.leb_spec v 1); [lia|]. reflexivity. Qed.
Lemma pw_lo : local_reader r_pair_weights. Proof. unfold r_pair_weights. lo_tac. Qed.
Lemma pw_sf : safe_reader r_pair_weights. Proof. unfold r_pair_weights. sf_tac. Qed.
Lemma weight_params_lo old v : local_reader (r_weight_params X old v).
Proof.
  unfold r_weight_params. destruct (v <=? 1); [|apply lo_fail].
  apply lo_bind; [apply lo, bool_ok|]. intro. apply lo_bind; [apply lo, f64_ok|]. intro.
  apply lo_bind; [destruct (v <? 1); lo_tac|]. intro. apply lo_bind; [apply lo, optpose_ok|]. intro.
  apply lo_bind; [apply lo, f64_ok|]. intro. apply lo_bind; [destruct (v <? 1); lo_tac|]. intro.
  apply lo_bind; [apply pw_lo|]. intro. apply lo_ret.
Qed.
Lemma weight_params_sf old v : safe_reader (r_weight_params X old v).
Proof.
  unfold r_weight_params. destruct (v <=? 1); [|apply sf_fail].
  apply sf_bind; [apply sf, bool_ok|]. intro. apply sf_bind; [apply sf, f64_ok|]. intro.
  apply sf_bind; [destruct (v <? 1); sf_tac|]. intro. apply sf_bind; [apply sf, optpose_ok|]. intro.
  apply sf_bind; [apply sf, f64_ok|]. intro. apply sf_bind; [destruct (v <? 1); sf_tac|]. intro.
  apply sf_bind; [apply pw_sf|]. intro. apply sf_ret.
Qed.

(** ** Parameters *)
Section Par.
Context (dflt : Params) (ENV : bool).
Notation r_params := (r_params dflt ENV).
Definition params_read (p : Params) : Params :=
  mkP (p_maxIterations p) (p_minAbsStep_trans p) (p_minAbsStep_rot p) (p_generateDebugFiles p || ENV)
      (p_saveIterationDetails p) (p_decimationIterationDetails p) (p_decimationDebugFiles p)
      (p_debugFileNameFormat p) (p_debugPrint p) (p_quality_checkpoints dflt).
Ltac pcbn := cbn [p_maxIterations p_minAbsStep_trans p_minAbsStep_rot p_generateDebugFiles p_saveIterationDetails
  p_decimationIterationDetails p_decimationDebugFiles p_debugFileNameFormat p_debugPrint p_quality_checkpoints] in *.
Ltac rbool := erewrite bind_reads by (apply (rb _ bool_ok); exact I).
Lemma params_back p rest : good_params p -> r_params 2 (w_params p ++ rest) = Ok (params_read p, rest).
Proof.
  destruct p as [mi st sr gd sd di dd fn dp qc]. intros [H1 [H2 [H3 [H4 [H5 H6]]]]]. pcbn.
  unfold SerialModel.r_params, w_params, params_read. pcbn. cbv zeta.
  change (2 <=? 2) with true. change (1 <=? 2) with true. cbv iota. rnorm.
  rstep u32_ok. rstep f64_ok. rstep f64_ok. rbool. rstep string_ok. rbool. rstep u32_ok.
  erewrite bind_reads. 2: { rbool. rstep u32_ok. reflexivity. }
  reflexivity.
Qed.
Lemma params_back_v0 p rest : good_params p -> r_params 0 (w_params_v0 p ++ rest) =
  Ok (mkP (p_maxIterations p) (p_minAbsStep_trans p) (p_minAbsStep_rot p) (p_generateDebugFiles p || ENV)
      (p_saveIterationDetails dflt) (p_decimationIterationDetails dflt) (p_decimationDebugFiles dflt)
      (p_debugFileNameFormat p) (p_debugPrint p) (p_quality_checkpoints dflt), rest).
Proof.
  destruct p as [mi st sr gd sd di dd fn dp qc]. intros [H1 [H2 [H3 [H4 [H5 H6]]]]]. pcbn.
  unfold SerialModel.r_params, w_params_v0. pcbn. cbv zeta.
  change (0 <=? 2) with true. change (1 <=? 0) with false. change (2 <=? 0) with false. cbv iota. rnorm.
  rstep u32_ok. rstep f64_ok. rstep f64_ok. rbool. rstep string_ok. rbool. reflexivity.
Qed.
Lemma params_back_v1 p rest : good_params p -> r_params 1 (w_params_v1 p ++ rest) =
  Ok (mkP (p_maxIterations p) (p_minAbsStep_trans p) (p_minAbsStep_rot p) (p_generateDebugFiles p || ENV)
      (p_saveIterationDetails dflt) (p_decimationIterationDetails dflt) (p_decimationDebugFiles p)
      (p_debugFileNameFormat p) (p_debugPrint p) (p_quality_checkpoints dflt), rest).
Proof.
  destruct p as [mi st sr gd sd di dd fn dp qc]. intros [H1 [H2 [H3 [H4 [H5 H6]]]]]. pcbn.
  unfold SerialModel.r_params, w_params_v1, w_params_v0. pcbn. cbv zeta.
  change (1 <=? 2) with true. change (1 <=? 1) with true. change (2 <=? 1) with false. cbv iota. rnorm.
  rstep u32_ok. rstep f64_ok. rstep f64_ok. rbool. rstep string_ok. rbool. rstep u32_ok. reflexivity.
Qed.
Lemma params_version v s : 2 < v -> r_params v s = Throw.
Proof. intro H. unfold SerialModel.r_params. cbv zeta. destruct (N.leb_spec v 2); [lia|]. reflexivity. Qed.
Lemma params_lo v : local_reader (r_params v).
Proof.
  unfold SerialModel.r_params. cbv zeta. destruct (v <=? 2); [|apply lo_fail].
  apply lo_bind; [apply lo, u32_ok|]. intro. apply lo_bind; [apply lo, f64_ok|]. intro. apply lo_bind; [apply lo, f64_ok|]. intro.
  apply lo_bind; [apply lo, bool_ok|]. intro. apply lo_bind; [apply lo, string_ok|]. intro. apply lo_bind; [apply lo, bool_ok|]. intro.
  apply lo_bind; [destruct (1 <=? v); lo_tac|]. intro. apply lo_bind; [destruct (2 <=? v); lo_tac|]. intro. apply lo_ret.
Qed.
Lemma params_sf v : safe_reader (r_params v).
Proof.
  unfold SerialModel.r_params. cbv zeta. destruct (v <=? 2); [|apply sf_fail].
  apply sf_bind; [apply sf, u32_ok|]. intro. apply sf_bind; [apply sf, f64_ok|]. intro. apply sf_bind; [apply sf, f64_ok|]. intro.
  apply sf_bind; [apply sf, bool_ok|]. intro. apply sf_bind; [apply sf, string_ok|]. intro. apply sf_bind; [apply sf, bool_ok|]. intro.
  apply sf_bind; [destruct (1 <=? v); sf_tac|]. intro. apply sf_bind; [destruct (2 <=? v); sf_tac|]. intro. apply sf_ret.
Qed.
End Par.

(** ** Results *)
Lemma results_back old r rest : good_results X r -> r_results X old (w_results X r ++ rest) = Ok (r, rest).
Proof.
  destruct r as [tf sc ni tr q ps]. intros [H1 [H2 [H3 [H4 [H5 H6]]]]].
  cbn [res_optimal_tf res_scale res_nIterations res_reason res_quality res_pairings] in *.
  unfold r_results, w_results. cbn [res_optimal_tf res_scale res_nIterations res_reason res_quality res_pairings]. rnorm. byte0.
  erewrite bind_reads by reflexivity. rstep hPdf. rstep f64_ok. rstep (nat_ok 8). rstep u8_ok. rstep f64_ok.
  erewrite bind_reads by (apply pairings_back; exact H6). reflexivity.
Qed.
Lemma results_version old v s : v < 256 -> v <> 0 -> r_results X old (enc u8 v ++ s) = Throw.
Proof.
  intros H H1. unfold r_results. erewrite bind_reads by (apply (rb _ u8_ok); exact H).
  destruct (N.eqb_spec v 0); [congruence|]. reflexivity.
Qed.
Lemma results_lo old : local_reader (r_results X old).
Proof.
  unfold r_results. apply lo_bind; [apply lo, u8_ok|]. intro. apply lo_bind; [apply lo_guard|]. intro.
  apply lo_bind; [apply lo, hPdf|]. intro. apply lo_bind; [apply lo, f64_ok|]. intro. apply lo_bind; [apply lo, nat_ok|]. intro.
  apply lo_bind; [apply lo, u8_ok|]. intro. apply lo_bind; [apply lo, f64_ok|]. intro. apply lo_bind; [apply pairings_lo|]. intro. apply lo_ret.
Qed.
Lemma results_sf old : safe_reader (r_results X old).
Proof.
  unfold r_results. apply sf_bind; [apply sf, u8_ok|]. intro. apply sf_bind; [apply sf_guard|]. intro.
  apply sf_bind; [apply sf, hPdf|]. intro. apply sf_bind; [apply sf, f64_ok|]. intro. apply sf_bind; [apply sf, nat_ok|]. intro.
  apply sf_bind; [apply sf, u8_ok|]. intro. apply sf_bind; [apply sf, f64_ok|]. intro. apply sf_bind; [apply pairings_sf|]. intro. apply sf_ret.
Qed.

(** ** metric_map_t *)
Lemma patch_ok : codec_ok (c_patch X).
Proof.
  split; [|split].
  - intros [n c] rest [H1 H2]. cbn [enc dec c_patch plane centroid] in *. rnorm. rstep hPlane. rstep hPoint. reflexivity.
  - cbn [dec c_patch]. lo_tac.
  - cbn [dec c_patch]. sf_tac.
Qed.
Lemma patches_ok : codec_ok (counted (c_patch X)). Proof. apply counted_ok, patch_ok. Qed.
Lemma clines_ok : codec_ok (counted (cLine X)). Proof. apply counted_ok, hLine. Qed.
Lemma vlines_ok : codec_ok (v_lines X). Proof. apply vec_ok; [reflexivity|exact hLine]. Qed.
Lemma layers_ok : codec_ok (counted (c_layer X)). Proof. apply counted_ok, pair_ok; [apply string_ok|exact hLayer]. Qed.
Lemma optid_ok : codec_ok c_optid. Proof. apply opt_ok; [reflexivity|apply u64_ok]. Qed.
Lemma optlabel_ok : codec_ok c_optlabel. Proof. apply opt_ok; [reflexivity|apply string_ok]. Qed.
Ltac rbool := erewrite bind_reads by (apply (rb _ bool_ok); exact I).

Lemma georef_back old g rest : good_georef X g ->
  r_georef X old (w_georef X g ++ rest) = Ok (match g with None => old | Some _ => g end, rest).
Proof.
  intro H. unfold r_georef, w_georef. rnorm. erewrite bind_reads by (apply expect_back; reflexivity). byte0.
  cbv beta. change (0 =? 0) with true. cbv iota.
  destruct g as [[a b h t]|]; rnorm; rbool; [|reflexivity].
  destruct H as [H1 [H2 [H3 H4]]]. cbn [geo_lat geo_lon geo_height geo_T] in *. cbv beta iota. rstep f64_ok. rstep f64_ok. rstep f64_ok. rstep hPdf. reflexivity.
Qed.
Lemma georef_lo old : local_reader (r_georef X old).
Proof.
  unfold r_georef. apply lo_bind; [apply lo_expect|]. intro. apply lo_bind; [apply lo, u8_ok|]. intro v.
  destruct (v =? 0); [|apply lo_fail]. apply lo_bind; [apply lo, bool_ok|]. intros [|]; lo_tac.
Qed.
Lemma georef_sf old : safe_reader (r_georef X old).
Proof.
  unfold r_georef. apply sf_bind; [apply sf_expect|]. intro. apply sf_bind; [apply sf, u8_ok|]. intro v.
  destruct (v =? 0); [|apply sf_fail]. apply sf_bind; [apply sf, bool_ok|]. intros [|]; sf_tac.
Qed.

Lemma list_N_eqb_neq a b : a <> b -> list_N_eqb a b = false.
Proof. intro H. unfold list_N_eqb. destruct (list_eq_dec N.eq_dec a b); congruence. Qed.
Lemma set_layer_new (l : list (list N * xLayer X)) k v : ~ In k (map fst l) -> set_layer X l k v = l ++ [(k, v)].
Proof.
  induction l as [|[k' v'] l IH]; intro H; [reflexivity|]. cbn [set_layer]. rewrite list_N_eqb_neq.
  - cbn [app]. rewrite IH; [reflexivity|]. intro Hi. apply H. right; exact Hi.
  - intros ->. apply H. left; reflexivity.
Qed.
Lemma to_map_id (l : list (list N * xLayer X)) : NoDup (map fst l) -> to_map X l = l.
Proof.
  unfold to_map. enough (forall l acc, NoDup (map fst (acc ++ l)) ->
    fold_left (fun m kv => set_layer X m (fst kv) (snd kv)) l acc = acc ++ l) as H by (intro; apply (H l []); assumption).
  clear l. induction l as [|[k v] l IH]; intros acc H; [cbn; symmetry; apply app_nil_r|]. cbn [fold_left fst snd].
  rewrite set_layer_new.
  - rewrite IH; rewrite <- app_assoc; [reflexivity|exact H].
  - rewrite map_app in H. apply NoDup_remove_2 in H. intro Hi. apply H. apply in_or_app. auto.
Qed.

Ltac mcbn := cbn [m_lines m_planes m_layers m_id m_label m_georef m_metadata] in *.
Lemma map_back old m rest : good_map X m -> r_map X old 5 (w_map X m ++ rest) = Ok (m, rest).
Proof.
  destruct m as [ls ps ly i la g md]. intros [H1 [H2 [H3 [H4 [H5 [H6 [H7 H8]]]]]]]. mcbn.
  unfold r_map, w_map, w_map_base. mcbn. change (5 <=? 5) with true. cbv iota. rnorm.
  rstep vlines_ok. rstep patches_ok. rstep clines_ok. rstep layers_ok. cbv beta.
  change (1 <=? 5) with true. change ((2 <=? 5) && (5 <? 4)) with false. change (4 <=? 5) with true. cbv iota.
  erewrite bind_reads. 2: { rstep optid_ok. rstep optlabel_ok. reflexivity. }
  erewrite bind_reads by reflexivity.
  erewrite bind_reads by (apply georef_back; exact H7).
  rewrite (to_map_id _ H4). cbn [fst snd].
  assert (match g with Some _ => g | None => None end = g) as -> by (destruct g; reflexivity).
  destruct md as [|b md].
  - erewrite bind_reads. 2: { rbool. reflexivity. } reflexivity.
  - erewrite bind_reads. 2: { rnorm. rbool. cbv beta iota. apply (rb _ string_ok); exact H8. } reflexivity.
Qed.
(** what the old versions give back *)
Definition map_at (v : N) (m : MMap X) : MMap X :=
  mkMap X (m_lines X m) (m_planes X m) (m_layers X m)
    (if 1 <=? v then m_id X m else None) (if 1 <=? v then m_label X m else None)
    (if v =? 2 then match m_georef X m with None => None | Some g => Some (mkGeo X (geo_lat X g) (geo_lon X g) (geo_height X g) (pdf_of_mean X (pdf_mean X (geo_T X g)))) end
     else if 3 <=? v then m_georef X m else None) [].
Definition good_mean (m : MMap X) : Prop := match m_georef X m with None => True | Some g => good (cPose X) (pdf_mean X (geo_T X g)) end.
Lemma map_back_old v old m rest : v < 5 -> good_map X m -> good_mean m ->
  r_map X old v (w_map_old X v m ++ rest) = Ok (map_at v m, rest).
Proof.
  intros Hv. destruct m as [ls ps ly i la g md]. intros [H1 [H2 [H3 [H4 [H5 [H6 [H7 H8]]]]]]] Hm. unfold good_mean in Hm. mcbn.
  assert (v = 0 \/ v = 1 \/ v = 2 \/ v = 3 \/ v = 4) as HC by lia.
  unfold r_map, w_map_old, w_map_base, map_at. mcbn.
  destruct HC as [-> | [-> | [-> | [-> | ->]]]];
  (match goal with |- (if ?b then _ else _) _ = _ => change b with true end); cbv iota; rnorm;
  rstep vlines_ok; rstep patches_ok; rstep clines_ok; rstep layers_ok; cbv beta; rewrite (to_map_id _ H4).
  - reflexivity.
  - change (1 <=? 1) with true. change ((1 =? 2) || (1 =? 3)) with false. change (1 =? 4) with false. cbv iota. cbn [app]. rnorm.
    erewrite bind_reads. 2: { rstep optid_ok. rstep optlabel_ok. reflexivity. } reflexivity.
  - change (1 <=? 2) with true. change ((2 <=? 2) && (2 <? 4)) with true. change ((2 =? 2) || (2 =? 3)) with true.
    change (2 =? 2) with true. change (2 =? 4) with false. change (4 <=? 2) with false. change (5 <=? 2) with false. change (3 <=? 2) with false.
    cbv iota. rnorm.
    erewrite bind_reads. 2: { rstep optid_ok. rstep optlabel_ok. reflexivity. }
    destruct g as [[a b h t]|].
    + destruct H7 as [G1 [G2 [G3 G4]]]. cbn [geo_lat geo_lon geo_height geo_T] in *. rnorm.
      erewrite bind_reads. 2: { rbool. cbv beta iota. rstep f64_ok. rstep f64_ok. rstep f64_ok. rstep hPose. reflexivity. }
      reflexivity.
    + erewrite bind_reads. 2: { rbool. reflexivity. } reflexivity.
  - change (1 <=? 3) with true. change ((2 <=? 3) && (3 <? 4)) with true. change ((3 =? 2) || (3 =? 3)) with true.
    change (3 =? 2) with false. change (3 =? 4) with false. change (4 <=? 3) with false. change (5 <=? 3) with false. change (3 <=? 3) with true.
    cbv iota. rnorm.
    erewrite bind_reads. 2: { rstep optid_ok. rstep optlabel_ok. reflexivity. }
    destruct g as [[a b h t]|].
    + destruct H7 as [G1 [G2 [G3 G4]]]. cbn [geo_lat geo_lon geo_height geo_T] in *. rnorm.
      erewrite bind_reads. 2: { rbool. cbv beta iota. rstep f64_ok. rstep f64_ok. rstep f64_ok. rstep hPdf. reflexivity. }
      reflexivity.
    + erewrite bind_reads. 2: { rbool. reflexivity. } reflexivity.
  - change (1 <=? 4) with true. change ((2 <=? 4) && (4 <? 4)) with false. change ((4 =? 2) || (4 =? 3)) with false.
    change (4 =? 2) with false. change (4 =? 4) with true. change (4 <=? 4) with true. change (5 <=? 4) with false. change (3 <=? 4) with true.
    cbv iota. rnorm.
    erewrite bind_reads. 2: { rstep optid_ok. rstep optlabel_ok. reflexivity. }
    erewrite bind_reads by reflexivity. cbn [app].
    erewrite bind_reads by (apply georef_back; exact H7).
    destruct g; reflexivity.
Qed.
Lemma map_version old v s : 5 < v -> r_map X old v s = Throw.
Proof. intro H. unfold r_map. destruct (N.leb_spec v 5); [lia|]. reflexivity. Qed.
Lemma map_lo old v : local_reader (r_map X old v).
Proof.
  unfold r_map. destruct (v <=? 5); [|apply lo_fail].
  apply lo_bind; [apply lo, vlines_ok|]. intro. apply lo_bind; [apply lo, patches_ok|]. intro. apply lo_bind; [apply lo, clines_ok|]. intro.
  apply lo_bind; [apply lo, layers_ok|]. intro.
  apply lo_bind; [destruct (1 <=? v); [apply lo_bind; [apply lo, optid_ok|]; intro; apply lo_bind; [apply lo, optlabel_ok|]; intro; apply lo_ret|apply lo_ret]|]. intro.
  apply lo_bind.
  { destruct ((2 <=? v) && (v <? 4)); [|apply lo_ret]. apply lo_bind; [apply lo, bool_ok|]. intros [|]; [|apply lo_ret].
    do 3 (apply lo_bind; [apply lo, f64_ok|]; intro). destruct (3 <=? v); lo_tac. }
  intro. apply lo_bind; [destruct (4 <=? v); [apply georef_lo|apply lo_ret]|]. intro.
  apply lo_bind; [|intro; apply lo_ret]. destruct (5 <=? v); [|apply lo_ret]. apply lo_bind; [apply lo, bool_ok|]. intros [|]; lo_tac.
Qed.
Lemma map_sf old v : safe_reader (r_map X old v).
Proof.
  unfold r_map. destruct (v <=? 5); [|apply sf_fail].
  apply sf_bind; [apply sf, vlines_ok|]. intro. apply sf_bind; [apply sf, patches_ok|]. intro. apply sf_bind; [apply sf, clines_ok|]. intro.
  apply sf_bind; [apply sf, layers_ok|]. intro.
  apply sf_bind; [destruct (1 <=? v); [apply sf_bind; [apply sf, optid_ok|]; intro; apply sf_bind; [apply sf, optlabel_ok|]; intro; apply sf_ret|apply sf_ret]|]. intro.
  apply sf_bind.
  { destruct ((2 <=? v) && (v <? 4)); [|apply sf_ret]. apply sf_bind; [apply sf, bool_ok|]. intros [|]; [|apply sf_ret].
    do 3 (apply sf_bind; [apply sf, f64_ok|]; intro). destruct (3 <=? v); sf_tac. }
  intro. apply sf_bind; [destruct (4 <=? v); [apply georef_sf|apply sf_ret]|]. intro.
  apply sf_bind; [|intro; apply sf_ret]. destruct (5 <=? v); [|apply sf_ret]. apply sf_bind; [apply sf, bool_ok|]. intros [|]; sf_tac.
Qed.

(** ** LogRecord *)
Lemma iter_ok : codec_ok (c_iter X).
Proof.
  split; [|split].
  - intros [p q] rest [H1 H2]. cbn [enc dec c_iter] in *. unfold w_iter, r_iter. cbn [it_pose it_pairings] in *. rnorm. byte0.
    erewrite bind_reads by reflexivity. rstep hPose. erewrite bind_reads by (apply pairings_back; exact H2). reflexivity.
  - cbn [dec c_iter]. unfold r_iter. apply lo_bind; [apply lo, u8_ok|]. intro. apply lo_bind; [apply lo_guard|]. intro.
    apply lo_bind; [apply lo, hPose|]. intro. apply lo_bind; [apply pairings_lo|]. intro. apply lo_ret.
  - cbn [dec c_iter]. unfold r_iter. apply sf_bind; [apply sf, u8_ok|]. intro. apply sf_bind; [apply sf_guard|]. intro.
    apply sf_bind; [apply sf, hPose|]. intro. apply sf_bind; [apply pairings_sf|]. intro. apply sf_ret.
Qed.
Lemma iters_ok : codec_ok (c_iters X).
Proof. apply opt_ok; [reflexivity|]. apply map_ok; [reflexivity|reflexivity|apply nat_ok|apply iter_ok]. Qed.
Lemma vars_ok : codec_ok c_vars.
Proof. apply map_ok; [reflexivity|reflexivity|apply string_ok|apply f64_ok]. Qed.

Section Log.
Context (dflt : Params) (ENV : bool) (em : MMap X) (dr : Results X).
Lemma optmap_back m rest : good_optmap X m -> r_optmap X em (w_optmap X m ++ rest) = Ok (m, rest).
Proof.
  intro H. unfold r_optmap, w_optmap. destruct m as [m|]; rnorm; rbool; [|reflexivity].
  cbv beta iota. erewrite bind_reads by (apply object_back; [reflexivity|reflexivity|intro; apply map_back; exact H]). reflexivity.
Qed.
Lemma optmap_lo : local_reader (r_optmap X em).
Proof.
  unfold r_optmap. apply lo_bind; [apply lo, bool_ok|]. intros [|]; [|apply lo_ret].
  apply lo_bind; [apply lo_object; intro; apply map_lo|]. intro. apply lo_ret.
Qed.
Lemma optmap_sf : safe_reader (r_optmap X em).
Proof.
  unfold r_optmap. apply sf_bind; [apply sf, bool_ok|]. intros [|]; [|apply sf_ret].
  apply sf_bind; [apply sf_object; intro; apply map_sf|]. intro. apply sf_ret.
Qed.
Definition log_read (l : LogRec X) : LogRec X :=
  mkLog X (log_global X l) (log_local X l) (log_guess X l) (params_read dflt ENV (log_params X l)) (log_results X l)
    (log_iters X l) (log_vars X l).
Lemma log_back l rest : good_log X l -> r_log X dflt ENV em dr 1 (w_log X l ++ rest) = Ok (log_read l, rest).
Proof.
  destruct l as [g lo_ ig ps rs its vs]. intros [H1 [H2 [H3 [H4 [H5 [H6 H7]]]]]].
  cbn [log_global log_local log_guess log_params log_results log_iters log_vars] in *.
  unfold r_log, w_log, log_read. cbn [log_global log_local log_guess log_params log_results log_iters log_vars].
  change (1 <=? 1) with true. cbv iota. rnorm.
  erewrite bind_reads by (apply optmap_back; exact H1). erewrite bind_reads by (apply optmap_back; exact H2).
  rstep hTPose.
  erewrite bind_reads by (apply object_back; [reflexivity|reflexivity|intro; apply params_back; exact H4]).
  erewrite bind_reads by (apply results_back; exact H5). rstep iters_ok. rstep vars_ok. reflexivity.
Qed.
Lemma log_version v s : 1 < v -> r_log X dflt ENV em dr v s = Throw.
Proof. intro H. unfold r_log. destruct (N.leb_spec v 1); [lia|]. reflexivity. Qed.
Lemma log_lo v : local_reader (r_log X dflt ENV em dr v).
Proof.
  unfold r_log. destruct (v <=? 1); [|apply lo_fail]. apply lo_bind; [apply optmap_lo|]. intro. apply lo_bind; [apply optmap_lo|]. intro.
  apply lo_bind; [apply lo, hTPose|]. intro. apply lo_bind; [apply lo_object; intro; apply params_lo|]. intro.
  apply lo_bind; [apply results_lo|]. intro. apply lo_bind; [apply lo, iters_ok|]. intro.
  apply lo_bind; [destruct (1 <=? v); [apply lo, vars_ok|apply lo_ret]|]. intro. apply lo_ret.
Qed.
Lemma log_sf v : safe_reader (r_log X dflt ENV em dr v).
Proof.
  unfold r_log. destruct (v <=? 1); [|apply sf_fail]. apply sf_bind; [apply optmap_sf|]. intro. apply sf_bind; [apply optmap_sf|]. intro.
  apply sf_bind; [apply sf, hTPose|]. intro. apply sf_bind; [apply sf_object; intro; apply params_sf|]. intro.
  apply sf_bind; [apply results_sf|]. intro. apply sf_bind; [apply sf, iters_ok|]. intro.
  apply sf_bind; [destruct (1 <=? v); [apply sf, vars_ok|apply sf_ret]|]. intro. apply sf_ret.
Qed.
End Log.
End S.
