(** C54, C125-C127, C136: exactly when the matcher properties refuted in PointMatcherProps.v
    hold. *)
From Verif Require Import Base PairingsModel PairingsProofs MatcherModel PipelineSpec PipelineProofs QualityModel
  BitfieldModel BitfieldProofs PointMatcherModel PointMatcherSpec PointMatcherProofs PointMatcherProofs2
  PointMatcherProofs3 PointMatcherProofs4 PointMatcherProofs5 PointMatcherProofs6 PointMatcherProofs7 BruteNN PointMatcherProps.
From Coq Require Import Lqa Permutation.

(** ** C54: the pipeline delivers the weights its matchers attached exactly when they attached
    none. *)
Theorem C54_weights_where :
  forall fMax sh mround pcGlobal pcLocal (pms : list (PointMatcher * nat * nat)) it tf ms ms' p,
  run_matchers (map (fun x => pm_matcher fMax sh mround pcGlobal pcLocal (fst (fst x)) (snd (fst x)) (snd x)) pms)
    it tf ms = Ok (ms', p) ->
  exists outs, matcher_outputs it tf
     (map (fun x => pm_matcher fMax sh mround pcGlobal pcLocal (fst (fst x)) (snd (fst x)) (snd x)) pms) ms outs ms'
  /\ paired_pt2pt p = concat (map paired_pt2pt outs)
  /\ (point_weights p = concat (map point_weights outs) <-> Forall (fun o => point_weights o = []) outs).
Proof.
  intros * H. apply run_matchers_iff in H as [outs [H1 [[H2 _] H3]]]. exists outs. split; [exact H1|].
  split; [exact H2|]. rewrite H3. clear. induction outs as [|o outs IH]; cbn.
  - split; [constructor|reflexivity].
  - split.
    + intro E. symmetry in E. apply app_eq_nil in E as [E1 E2]. constructor; [exact E1|]. apply IH. symmetry. exact E2.
    + inversion 1 as [|? ? E1 E2]; subst. rewrite E1. cbn. apply IH. exact E2.
Qed.
Print Assumptions C54_weights_where.

(** ** C125: with all earlier matchers of a kind that marks local points (inlier ratio, or
    distance threshold that forbids reusing global points) no local point is paired by two
    matchers. *)
Theorem C125_local_once_where :
  forall fMax sh mround pcGlobal pcLocal (pms : list (PointMatcher * nat * nat)) it tf ms ms' p,
  rearranges sh -> layers_correct pcGlobal ->
  Forall (fun x => match fst (fst x) with
                   | DT b _ _ _ => allowMatchAlreadyMatchedGlobalPoints b = false
                   | IR _ _ => True end) pms ->
  Forall (fun x => allowMatchAlreadyMatchedPoints (pm_base (fst (fst x))) = false) pms ->
  run_matchers (map (fun x => pm_matcher fMax sh mround pcGlobal pcLocal (fst (fst x)) (snd (fst x)) (snd x)) pms)
    it tf ms = Ok (ms', p) ->
  exists outs, matcher_outputs it tf
     (map (fun x => pm_matcher fMax sh mround pcGlobal pcLocal (fst (fst x)) (snd (fst x)) (snd x)) pms) ms outs ms'
  /\ paired_pt2pt p = concat (map paired_pt2pt outs)
  /\ forall i j oi oj, i <> j -> nth_error outs i = Some oi -> nth_error outs j = Some oj ->
       forall a c, In a (paired_pt2pt oi) -> In c (paired_pt2pt oj) ->
       (p_llayer a, p_localIdx a) <> (p_llayer c, p_localIdx c).
Proof.
  intros * HS HC HM HF H.
  destruct (C09_matched_local_points_skipped _ _ _ _ _ _ _ _ _ _ _ HS HC H) as [outs [O1 [O2 O3]]].
  exists outs. split; [exact O1|]. split; [exact O2|].
  assert (HL : length outs = length pms).
  { clear - O1. remember (map _ pms) as l eqn:E. assert (length outs = length l) as ->.
    - clear E. induction O1; cbn; congruence.
    - subst. apply map_length. }
  assert (LT : forall i j oi oj, i < j -> nth_error outs i = Some oi -> nth_error outs j = Some oj ->
       forall a c, In a (paired_pt2pt oi) -> In c (paired_pt2pt oj) ->
       (p_llayer a, p_localIdx a) <> (p_llayer c, p_localIdx c)).
  { intros i j oi oj Hij Hi Hj a c Ha Hc.
    destruct (nth_error pms i) as [xi|] eqn:Ei.
    2:{ apply nth_error_None in Ei. assert (nth_error outs i <> None) as X by congruence. apply nth_error_Some in X. lia. }
    destruct (nth_error pms j) as [xj|] eqn:Ej.
    2:{ apply nth_error_None in Ej. assert (nth_error outs j <> None) as X by congruence. apply nth_error_Some in X. lia. }
    rewrite Forall_forall in HM, HF.
    apply (O3 i j xi xj oi oj Hij Ei Ej Hi Hj).
    - specialize (HM xi (nth_error_In _ _ Ei)). exact HM.
    - apply HF. eapply nth_error_In. exact Ej.
    - exact Ha.
    - exact Hc. }
  intros i j oi oj Hij Hi Hj a c Ha Hc. destruct (Nat.lt_ge_cases i j) as [L|L].
  - eapply LT; eassumption.
  - intro E. symmetry in E. revert E. eapply (LT j i); try eassumption. lia.
Qed.
Print Assumptions C125_local_once_where.

(** ** C126: a layer pair whose boxes meet honours the whole bound, angular part included. *)
Theorem C126_angular_where :
  forall fMax sh tf b thr ang k gl nn lpts g l ms out ms' out' tl,
  ly_nn gl = Some nn -> nn_correct nn ->
  (maxLocalPointsPerLayer b = 0 \/ length lpts <= maxLocalPointsPerLayer b) ->
  dt_one_layer fMax sh tf b thr ang k gl lpts g l ms out = Ok (ms', out') ->
  transform_local_to_global fMax sh tf lpts (maxLocalPointsPerLayer b) = Ok tl ->
  bb_intersects (nn_bbox nn) (tl_min tl, tl_max tl) (thr + bbox_epsilon b) = true ->
  allowMatchAlreadyMatchedPoints b = true -> allowMatchAlreadyMatchedGlobalPoints b = true ->
  forall li lp, nth_error lpts li = Some lp ->
  forall j h, nth_error (nn_points nn) j = Some h ->
  (sqd (tf lp) h < thr * thr + ang * range_sq (tf lp))%Q ->
  (exists p, In p (paired_pt2pt out') /\ gkey p = (g, j) /\ lkey p = (l, li))
  \/ exists js, length js = k /\ NoDup js
      /\ Forall (fun j' => (exists h', nth_error (nn_points nn) j' = Some h' /\ (sqd (tf lp) h' <= sqd (tf lp) h)%Q)
                /\ exists p, In p (paired_pt2pt out') /\ gkey p = (g, j') /\ lkey p = (l, li)) js.
Proof.
  intros * En HN Hmx H Et Ebb HaL HaG li lp Hlp j h Hj Hd.
  unfold dt_one_layer in H.
  destruct (Nat.ltb k 1 || Qle_bool thr 0 || Qltb ang 0) eqn:Epar; [discriminate|].
  rewrite En in H.
  destruct (isNil (nn_points nn) || isNil lpts) eqn:Ee.
  { exfalso. apply orb_true_iff in Ee as [Ee|Ee].
    - destruct (nn_points nn); [|discriminate]. destruct j; discriminate.
    - destruct lpts; [|discriminate]. destruct li; discriminate. }
  assert (Htl : tl_idxs tl = None /\ tl_pts tl = map tf lpts).
  { unfold transform_local_to_global in Et.
    destruct (Nat.eqb (maxLocalPointsPerLayer b) 0 || Nat.leb (length lpts) (maxLocalPointsPerLayer b)) eqn:E.
    - injection Et as <-. split; reflexivity.
    - exfalso. apply orb_false_iff in E as [E1 E2]. apply Nat.eqb_neq in E1. apply Nat.leb_gt in E2. lia. }
  destruct Htl as [Ti Tp]. rewrite Et in H. cbn [rbind] in H. rewrite Ebb in H. cbn [negb] in H.
  apply dt_loop_conv in H; [|exact HN|exact Ti|apply seq_NoDup].
  destruct H as [new [[X1 _] [_ X3]]]. cbn [snd] in X1.
  assert (HD : forall gi gpt err, In (gi, gpt, err) (nn_search nn (tf lp) k) -> (err <= sqd (tf lp) h)%Q ->
    exists p, In p (paired_pt2pt out') /\ gkey p = (g, gi) /\ lkey p = (l, li)).
  { intros gi gpt err Hin Hle.
    assert (HX : done_pair b (ms, add_potential out (length lpts * k)) new l li g gi).
    { apply (X3 li (tf lp)) with (gpt := gpt) (err := err).
      - apply in_seq. assert (nth_error lpts li <> None) as Y by congruence. apply nth_error_Some in Y. lia.
      - rewrite Tp, nth_error_map, Hlp. reflexivity.
      - left. exact HaL.
      - exact Hin.
      - eapply Qle_lt_trans; [exact Hle|]. exact Hd. }
    destruct HX as [[p [P1 P2]]|[Y _]]; [|congruence].
    exists p. split; [rewrite X1; apply in_app_iff; right; exact P1|exact P2]. }
  destruct (HN (tf lp) k) as [N1 [N2 [N3 [_ N5]]]]. destruct (N5 j h Hj) as [[d Hin]|[Hk Hall]].
  - left. eapply HD; [exact Hin|]. destruct (N1 _ _ _ Hin) as [_ ->]. apply Qle_refl.
  - right. exists (map (fun x => fst (fst x)) (nn_search nn (tf lp) k)).
    split; [rewrite map_length; exact Hk|]. split; [exact N2|].
    rewrite Forall_forall. intros x Hx. apply in_map_iff in Hx as [[[gi gpt] err] [<- Hin]]. cbn [fst].
    destruct (N1 _ _ _ Hin) as [Y1 Y2]. split.
    + exists gpt. split; [exact Y1|]. rewrite <- Y2. exact (Hall _ _ _ Hin).
    + eapply HD; [exact Hin|]. exact (Hall _ _ _ Hin).
Qed.
Print Assumptions C126_angular_where.

(** ** C127: which points take part: all of them without an effective limit, otherwise exactly
    the first ones, as many as the limit says. *)
Theorem C127_selected_where :
  forall fMax sh tf pc m tl, rearranges sh -> transform_local_to_global fMax sh tf pc m = Ok tl ->
  forall i, In i (used_locals tl) <-> i < length pc /\ (m = 0 \/ length pc <= m \/ i < m).
Proof.
  intros * HS H i. unfold transform_local_to_global in H.
  destruct (Nat.eqb m 0 || Nat.leb (length pc) m) eqn:E.
  - injection H as <-. unfold used_locals. cbn [tl_idxs tl_pts]. rewrite map_length, in_seq.
    apply orb_true_iff in E as [E|E]; [apply Nat.eqb_eq in E|apply Nat.leb_le in E]; lia.
  - apply orb_false_iff in E as [E1 E2]. apply Nat.eqb_neq in E1. apply Nat.leb_gt in E2.
    destruct (gather pc (sh (seq 0 m))) as [s| |]; cbn [rbind] in H; try discriminate. injection H as <-.
    unfold used_locals. cbn [tl_idxs]. split.
    + intro X. apply (Permutation_in _ (HS (seq 0 m))) in X. apply in_seq in X. lia.
    + intros [X1 X2]. apply (Permutation_in _ (Permutation_sym (HS (seq 0 m)))). apply in_seq. lia.
Qed.
Print Assumptions C127_selected_where.

(** ** C136: with valid parameters and no re-matching flags, one layer pair reads out of range
    exactly when the limit takes effect and the boxes meet; otherwise it succeeds. *)
Theorem C136_out_of_range_where :
  forall fMax sh tf b thr ang k gl nn lpts g l ms out tl,
  rearranges sh ->
  allowMatchAlreadyMatchedPoints b = true -> allowMatchAlreadyMatchedGlobalPoints b = true ->
  1 <= k -> (0 < thr)%Q -> (0 <= ang)%Q -> ly_nn gl = Some nn -> nn_points nn <> [] -> lpts <> [] ->
  transform_local_to_global fMax sh tf lpts (maxLocalPointsPerLayer b) = Ok tl ->
  let effective := 0 < maxLocalPointsPerLayer b < length lpts
    /\ bb_intersects (nn_bbox nn) (tl_min tl, tl_max tl) (thr + bbox_epsilon b) = true in
  (dt_one_layer fMax sh tf b thr ang k gl lpts g l ms out = UB <-> effective)
  /\ (~ effective -> exists s', dt_one_layer fMax sh tf b thr ang k gl lpts g l ms out = Ok s').
Proof.
  intros * HS HaL HaG Hk Ht Ha En Hne Hl Et effective.
  assert (A : effective -> dt_one_layer fMax sh tf b thr ang k gl lpts g l ms out = UB).
  { intros [B C]. eapply C136_limit_reads_out_of_range_refuted; eassumption. }
  assert (B : ~ effective -> exists s', dt_one_layer fMax sh tf b thr ang k gl lpts g l ms out = Ok s').
  { intro NE. unfold dt_one_layer.
    destruct (Nat.ltb_spec k 1); [lia|]. destruct (Qle_bool thr 0) eqn:E1; [apply Qle_bool_iff in E1; lra|].
    destruct (Qltb ang 0) eqn:E2; [apply Qltb_lt in E2; lra|]. cbn [orb]. rewrite En.
    destruct (isNil (nn_points nn) || isNil lpts); [eauto|]. rewrite Et. cbn [rbind].
    destruct (bb_intersects (nn_bbox nn) (tl_min tl, tl_max tl) (thr + bbox_epsilon b)) eqn:Ebb; cbn [negb]; [|eauto].
    assert (HM : maxLocalPointsPerLayer b = 0 \/ length lpts <= maxLocalPointsPerLayer b).
    { destruct (Nat.eq_dec (maxLocalPointsPerLayer b) 0); [auto|].
      destruct (Nat.le_gt_cases (length lpts) (maxLocalPointsPerLayer b)); [auto|].
      exfalso. apply NE. split; [lia|reflexivity]. }
    assert (Htl : tl_idxs tl = None /\ tl_pts tl = map tf lpts).
    { unfold transform_local_to_global in Et.
      destruct (Nat.eqb (maxLocalPointsPerLayer b) 0 || Nat.leb (length lpts) (maxLocalPointsPerLayer b)) eqn:E.
      - injection Et as <-. split; reflexivity.
      - exfalso. apply orb_false_iff in E as [Y1 Y2]. apply Nat.eqb_neq in Y1. apply Nat.leb_gt in Y2. lia. }
    destruct Htl as [Ti Tp].
    edestruct (dt_loop_prefix b HaL HaG thr ang k nn lpts tl g l (seq 0 (length lpts)) []) as [s1 Hs].
    - rewrite Forall_forall. intros i Hi. apply in_seq in Hi. exists i. unfold local_index. rewrite Ti, Tp, map_length.
      split; [reflexivity|lia].
    - rewrite app_nil_r in Hs. rewrite Hs. cbn [dt_loop]. eauto. }
  split; [|exact B]. split; [|exact A]. intro E.
  assert (D : effective \/ ~ effective).
  { unfold effective. destruct (bb_intersects (nn_bbox nn) (tl_min tl, tl_max tl) (thr + bbox_epsilon b)).
    - destruct (Nat.lt_ge_cases 0 (maxLocalPointsPerLayer b)); [|right; intros [? _]; lia].
      destruct (Nat.lt_ge_cases (maxLocalPointsPerLayer b) (length lpts)); [left; split; [lia|reflexivity]|right; intros [? _]; lia].
    - right. intros [_ ?]. discriminate. }
  destruct D as [D|D]; [exact D|]. destruct (B D) as [s' E']. congruence.
Qed.
Print Assumptions C136_out_of_range_where.

(** ** Concrete cases *)
Example C136_where_case : exists tl, transform_local_to_global 1000000 (fun l => l) ex_tf [mkP3 1 0 0; mkP3 2 0 0; mkP3 3 0 0] 2 = Ok tl
  /\ used_locals tl = [0; 1].
Proof. eexists. split; [vm_compute; reflexivity|reflexivity]. Qed.
