(** Properties C07-C13, C54, C55, C56.  A [PointMatcher] is one configured matcher object;
    [sh] is the random shuffle (any rearrangement), [mround] is mrpt::round. *)
From Verif Require Import Base PairingsModel PairingsProofs MatcherModel PipelineSpec PipelineProofs QualityModel
  BitfieldModel BitfieldProofs PointMatcherModel PointMatcherSpec PointMatcherProofs PointMatcherProofs2
  PointMatcherProofs3 PointMatcherProofs4 PointMatcherProofs5 PointMatcherProofs6 PointMatcherProofs7 BruteNN.
From Coq Require Import Lqa Permutation.

Definition rearranges (sh : list nat -> list nat) : Prop := forall l, Permutation (sh l) l.

(** ** C07 *)
Theorem C07_pairings_within_bound :
  forall fMax sh mround pcGlobal pcLocal b threshold angSqr k from up it tf ms out ms' f out',
  rearranges sh -> layers_correct pcGlobal ->
  m_impl_match (pm_matcher fMax sh mround pcGlobal pcLocal (DT b threshold angSqr k) from up)
    it tf ms out = Ok (ms', f, out') ->
  forall p, In p (paired_pt2pt out') ->
    genuine_pair pcGlobal pcLocal tf p
    /\ (sqd (tf (p_local p)) (p_global p)
        < threshold * threshold + angSqr * range_sq (tf (p_local p)))%Q.
Proof.
  intros * HS HC H p Hp.
  destruct (pm_impl fMax sh mround pcGlobal pcLocal HS HC _ _ _ _ _ _ _ _ _ _ H) as [bs [[X _] _]].
  destruct X as [A _ _ F _ _]. cbn in A. rewrite A in Hp. rewrite Forall_forall in F.
  apply F, GG_genuine in Hp as [G D]. split; [exact G|]. unfold dt_bound, qsq in D.
  destruct G as [_ [_ E]]. rewrite <- E. exact D.
Qed.
Print Assumptions C07_pairings_within_bound.

(** Every pairing produced by a pipeline of point matchers relates existing points. *)
Theorem C07_pipeline_pairs_are_genuine :
  forall fMax sh mround pcGlobal pcLocal (pms : list (PointMatcher * nat * nat)) it tf ms ms' p,
  rearranges sh -> layers_correct pcGlobal ->
  run_matchers (map (fun x => pm_matcher fMax sh mround pcGlobal pcLocal (fst (fst x)) (snd (fst x)) (snd x)) pms)
    it tf ms = Ok (ms', p) ->
  Forall (genuine_pair pcGlobal pcLocal tf) (paired_pt2pt p).
Proof.
  intros * HS HC H. apply run_matchers_iff in H as [outs [H1 [[H2 _] _]]].
  apply (run_trace fMax sh mround pcGlobal pcLocal HS HC) in H1 as [T1 _].
  rewrite H2, Forall_forall. intros q Hq. apply in_concat in Hq as [l [Hl Hq]].
  apply in_map_iff in Hl as [o [<- Ho]]. clear H2. induction T1 as [|x o' xs os Hx T1 IH]; [destruct Ho|].
  destruct Ho as [->|Ho]; [|auto]. apply (Hx q Hq).
Qed.
Print Assumptions C07_pipeline_pairs_are_genuine.

(** ** C08 *)
Theorem C08_no_global_point_twice :
  forall fMax sh mround pcGlobal pcLocal (pms : list (PointMatcher * nat * nat)) it tf ms ms' p,
  rearranges sh -> layers_correct pcGlobal ->
  (forall x, In x pms -> allowMatchAlreadyMatchedGlobalPoints (pm_base (fst (fst x))) = false) ->
  run_matchers (map (fun x => pm_matcher fMax sh mround pcGlobal pcLocal (fst (fst x)) (snd (fst x)) (snd x)) pms)
    it tf ms = Ok (ms', p) ->
  (forall i j a c, nth_error (paired_pt2pt p) i = Some a -> nth_error (paired_pt2pt p) j = Some c ->
     (p_glayer a, p_globalIdx a) = (p_glayer c, p_globalIdx c) -> i = j)
  /\ Forall (fun q => ~ marked (ms_global ms) (p_glayer q, p_globalIdx q)) (paired_pt2pt p).
Proof.
  intros * HS HC HF H. apply run_matchers_iff in H as [outs [H1 [[H2 _] _]]].
  apply (run_trace fMax sh mround pcGlobal pcLocal HS HC) in H1 as [T1 [_ [_ [_ [T5 _]]]]].
  rewrite <- H2 in T5. split.
  - intros i j a c Hi Hj E. assert (N : NoDup (map gkey (paired_pt2pt p))).
    { apply T5. rewrite Forall_forall. exact HF. }
    rewrite NoDup_nth_error in N. apply N.
    + rewrite map_length. apply nth_error_Some. congruence.
    + rewrite !nth_error_map, Hi, Hj. cbn. f_equal. exact E.
  - rewrite H2, Forall_forall. intros q Hq. apply in_concat in Hq as [l [Hl Hq]].
    apply in_map_iff in Hl as [o [<- Ho]]. clear H2 T5. induction T1 as [|x o' xs os Hx T1 IH]; [destruct Ho|].
    destruct Ho as [->|Ho].
    + destruct (Hx q Hq) as [_ [Z _]]. apply Z. apply HF. left. reflexivity.
    + apply IH; auto. intros y Hy. apply HF. right. exact Hy.
Qed.
Print Assumptions C08_no_global_point_twice.

(** ** C09: proved when the earlier matcher is one that marks its local points *)
Theorem C09_matched_local_points_skipped :
  forall fMax sh mround pcGlobal pcLocal (pms : list (PointMatcher * nat * nat)) it tf ms ms' p,
  rearranges sh -> layers_correct pcGlobal ->
  run_matchers (map (fun x => pm_matcher fMax sh mround pcGlobal pcLocal (fst (fst x)) (snd (fst x)) (snd x)) pms)
    it tf ms = Ok (ms', p) ->
  exists outs, matcher_outputs it tf
     (map (fun x => pm_matcher fMax sh mround pcGlobal pcLocal (fst (fst x)) (snd (fst x)) (snd x)) pms) ms outs ms'
  /\ paired_pt2pt p = concat (map paired_pt2pt outs)
  /\ forall i j xi xj oi oj, i < j -> nth_error pms i = Some xi -> nth_error pms j = Some xj ->
       nth_error outs i = Some oi -> nth_error outs j = Some oj ->
       marks_locals (fst (fst xi)) ->
       allowMatchAlreadyMatchedPoints (pm_base (fst (fst xj))) = false ->
       forall a c, In a (paired_pt2pt oi) -> In c (paired_pt2pt oj) ->
       (p_llayer a, p_localIdx a) <> (p_llayer c, p_localIdx c).
Proof.
  intros * HS HC H. apply run_matchers_iff in H as [outs [H1 [[H2 _] _]]]. exists outs.
  split; [exact H1|]. split; [exact H2|].
  apply (run_trace fMax sh mround pcGlobal pcLocal HS HC) in H1 as [_ [_ [_ [_ [_ T6]]]]].
  intros i j xi xj oi oj Hij Hi Hj Hoi Hoj Hm Ha a c Hac Hc.
  apply (T6 i j xi xj oi oj Hij Hi Hj Hoi Hoj); auto.
  destruct (fst (fst xi)); [cbn in *; rewrite Hm; reflexivity|reflexivity].
Qed.
Print Assumptions C09_matched_local_points_skipped.

(** A local point marked in the match state given by the caller is skipped, for any flags
    of the others. *)
Theorem C09_marked_local_points_skipped :
  forall fMax sh mround pcGlobal pcLocal m from up it tf ms out ms' f out',
  rearranges sh -> layers_correct pcGlobal ->
  allowMatchAlreadyMatchedPoints (pm_base m) = false ->
  m_impl_match (pm_matcher fMax sh mround pcGlobal pcLocal m from up) it tf ms out = Ok (ms', f, out') ->
  Forall (fun p => ~ marked (ms_local ms) (p_llayer p, p_localIdx p)) (paired_pt2pt out').
Proof.
  intros * HS HC Ha H.
  destruct (pm_impl fMax sh mround pcGlobal pcLocal HS HC _ _ _ _ _ _ _ _ _ _ H) as [bs [[X [L _]] _]].
  destruct X as [A _ _ _ _ _]. cbn in A. rewrite A. exact (L Ha).
Qed.
Print Assumptions C09_marked_local_points_skipped.

(** The concrete maps of the examples below: one layer "0" with two points each. *)
Definition ex_g : Layers := pts_layers [(0, [mkP3 0 0 0; mkP3 10 0 0])].
Definition ex_l : Layers := pts_layers [(0, [mkP3 (1#10) 0 0; mkP3 10 (1#10) 0; mkP3 50 0 0])].
Definition ex_b (aL aG : bool) : BaseParams := mkBase [] 0 aL aG 0.
Definition ex_ms : MatchState :=
  match fresh_ms ex_g ex_l with Ok m => m | _ => mkMS [] [] end.
Definition ex_tf : P3 -> P3 := fun p => p.
Definition ex_round (x : Q) : Z := ((2 * Qnum x + Zpos (Qden x)) / (2 * Zpos (Qden x)))%Z.
Definition ex_run (pms : list (PointMatcher * nat * nat)) :=
  run_matchers (map (fun x => pm_matcher 1000000 (fun l => l) ex_round ex_g ex_l (fst (fst x)) (snd (fst x)) (snd x)) pms)
    0 ex_tf ex_ms.
Definition pairs_of (r : res (MatchState * ptpairings)) : option (list (nat * nat)) :=
  match r with Ok (_, p) => Some (map (fun x => (p_globalIdx x, p_localIdx x)) (paired_pt2pt p)) | _ => None end.

Lemma id_rearranges : rearranges (fun l => l). Proof. intro l. reflexivity. Qed.
Example C07_ex : layers_correct ex_g /\ pairs_of (ex_run [(DT (ex_b false false) 1 0 2, 0, 0)]) = Some [(0, 0); (1, 1)].
Proof. split; [apply pts_layers_correct|vm_compute; reflexivity]. Qed.
Example C08_ex : pairs_of (ex_run [(DT (ex_b true false) 1 0 2, 0, 0); (IR (ex_b true false) (1#2), 0, 0)])
  = Some [(0, 0); (1, 1)].
Proof. vm_compute. reflexivity. Qed.
Example C09_ex : pairs_of (ex_run [(IR (ex_b false true) (1#2), 0, 0); (DT (ex_b false true) 20 0 1, 0, 0)])
  = Some [(1, 1); (0, 0)].
Proof. vm_compute. reflexivity. Qed.

(** Matcher_Points_DistanceThreshold with allowMatchAlreadyMatchedGlobalPoints = true does
    not mark the local points it pairs, so a later matcher with
    allowMatchAlreadyMatchedPoints = false pairs them again. *)
Theorem C125_skip_for_all_flags_refuted :
  exists fMax sh mround pcGlobal pcLocal (m1 m2 : PointMatcher) it tf ms ms' p,
  rearranges sh /\ layers_correct pcGlobal /\ fresh_ms pcGlobal pcLocal = Ok ms
  /\ allowMatchAlreadyMatchedPoints (pm_base m1) = false
  /\ allowMatchAlreadyMatchedPoints (pm_base m2) = false
  /\ run_matchers [pm_matcher fMax sh mround pcGlobal pcLocal m1 0 0;
                   pm_matcher fMax sh mround pcGlobal pcLocal m2 0 0] it tf ms = Ok (ms', p)
  /\ exists i j a c, i <> j /\ nth_error (paired_pt2pt p) i = Some a /\ nth_error (paired_pt2pt p) j = Some c
     /\ (p_llayer a, p_localIdx a) = (p_llayer c, p_localIdx c)
     /\ (p_glayer a, p_globalIdx a) = (p_glayer c, p_globalIdx c).
Proof.
  exists 1000000%Q, (fun l => l), ex_round, ex_g, ex_l, (DT (ex_b false true) 1 0 1), (DT (ex_b false true) 1 0 1),
    0, ex_tf, ex_ms.
  destruct (ex_run [(DT (ex_b false true) 1 0 1, 0, 0); (DT (ex_b false true) 1 0 1, 0, 0)]) as [[ms' p]| |] eqn:E;
    [|vm_compute in E; discriminate|vm_compute in E; discriminate].
  exists ms', p. split; [apply id_rearranges|]. split; [apply pts_layers_correct|]. split; [reflexivity|].
  split; [reflexivity|]. split; [reflexivity|]. split; [exact E|].
  vm_compute in E. injection E as <- <-. exists 0, 2. do 2 eexists.
  split; [discriminate|]. repeat split.
Qed.
Print Assumptions C125_skip_for_all_flags_refuted.

(** ** C10 *)
Theorem C10_in_range_points_are_paired :
  forall fMax sh mround b thr ang k from up it tf pcGlobal pcLocal ms out ms' f out',
  layers_correct pcGlobal -> unique_names pcGlobal -> rearranges sh ->
  m_impl_match (pm_matcher fMax sh mround pcGlobal pcLocal (DT b thr ang k) from up) it tf ms out = Ok (ms', f, out') ->
  (0 <= bbox_epsilon b)%Q ->
  (* a configured pair of layers, without subsampling of the local one *)
  forall g l w gl nn ll lpts, In (g, l, w) (configured_matches b pcGlobal pcLocal) ->
  In (g, gl) pcGlobal -> ly_nn gl = Some nn ->
  find_layer pcLocal l = Some ll -> ly_points ll = Some lpts ->
  (maxLocalPointsPerLayer b = 0 \/ length lpts <= maxLocalPointsPerLayer b) ->
  (* a local point that the match state does not exclude *)
  forall li lp, nth_error lpts li = Some lp ->
  (allowMatchAlreadyMatchedPoints b = true
   \/ (~ marked (ms_local ms) (l, li)
       /\ (allowMatchAlreadyMatchedGlobalPoints b = true
           \/ forall p, In p (paired_pt2pt out') -> lkey p <> (l, li)))) ->
  (* a global point nearer than the (not angular) threshold *)
  forall j h, nth_error (nn_points nn) j = Some h -> (sqd (tf lp) h < thr * thr)%Q ->
  (* is paired with it, or k points at least as near are *)
  served (allowMatchAlreadyMatchedGlobalPoints b) ms out' g j l li
  \/ exists js, length js = k /\ NoDup js
      /\ Forall (fun j' => (exists h', nth_error (nn_points nn) j' = Some h' /\ (sqd (tf lp) h' <= sqd (tf lp) h)%Q)
                /\ served (allowMatchAlreadyMatchedGlobalPoints b) ms out' g j' l li) js.
Proof.
  intros * HC HU HS H He. intros * Hcfg Hgl Hnn Hll Hlp Hmx li lp Hli Hel j h Hj Hd.
  eapply dt_complete; eassumption.
Qed.
Print Assumptions C10_in_range_points_are_paired.
Example C10_ex : exists ms' out',
  m_impl_match (pm_matcher 1000000 (fun l => l) ex_round ex_g ex_l (DT (ex_b true true) 20 0 1) 0 0) 0 ex_tf ex_ms
    pairings_empty_ctor = Ok (ms', true, out')
  /\ unique_names ex_g /\ In (0, 0, None) (configured_matches (ex_b true true) ex_g ex_l)
  /\ map (fun x => (p_globalIdx x, p_localIdx x)) (paired_pt2pt out') = [(0, 0); (1, 1)].
Proof.
  do 2 eexists. split; [vm_compute; reflexivity|]. split; [repeat constructor; intros []|].
  split; [left; reflexivity|reflexivity].
Qed.

(** With an angular threshold, points well inside the bound are dropped because the
    bounding boxes are only compared with the metric threshold. *)
Theorem C126_angular_threshold_refuted :
  exists fMax sh mround b thr ang tf pcGlobal pcLocal ms ms' out',
  layers_correct pcGlobal /\ unique_names pcGlobal /\ rearranges sh /\ fresh_ms pcGlobal pcLocal = Ok ms
  /\ allowMatchAlreadyMatchedPoints b = true /\ allowMatchAlreadyMatchedGlobalPoints b = true
  /\ maxLocalPointsPerLayer b = 0
  /\ m_impl_match (pm_matcher fMax sh mround pcGlobal pcLocal (DT b thr ang 1) 0 0) 0 tf ms pairings_empty_ctor
     = Ok (ms', true, out')
  /\ paired_pt2pt out' = []
  /\ exists gl nn ll lp h, pcGlobal = [(0, gl)] /\ pcLocal = [(0, ll)] /\ ly_nn gl = Some nn
     /\ ly_points ll = Some [lp] /\ nn_points nn = [h]
     /\ (sqd (tf lp) h < thr * thr + ang * range_sq (tf lp))%Q.
Proof.
  set (G := pts_layers [(0, [mkP3 95 0 0])]). set (L := pts_layers [(0, [mkP3 90 0 0])]).
  exists 1000000%Q, (fun l => l), ex_round, (ex_b true true), 1%Q, (76#10000)%Q, ex_tf, G, L.
  destruct (fresh_ms G L) as [ms| |] eqn:Em; [|vm_compute in Em; discriminate|vm_compute in Em; discriminate].
  exists ms.
  destruct (m_impl_match (pm_matcher 1000000 (fun l => l) ex_round G L (DT (ex_b true true) 1 (76#10000) 1) 0 0) 0 ex_tf ms
     pairings_empty_ctor) as [[[ms' f] out']| |] eqn:E; vm_compute in Em; injection Em as <-; vm_compute in E; try discriminate.
  injection E as <- <- <-. do 2 eexists.
  split; [apply pts_layers_correct|]. split; [repeat constructor; intros []|]. split; [apply id_rearranges|].
  split; [vm_compute; reflexivity|]. split; [reflexivity|]. split; [reflexivity|]. split; [reflexivity|].
  split; [vm_compute; reflexivity|]. split; [reflexivity|].
  do 5 eexists. split; [reflexivity|]. split; [reflexivity|]. split; [reflexivity|]. split; [reflexivity|].
  split; [reflexivity|]. vm_compute. reflexivity.
Qed.
Print Assumptions C126_angular_threshold_refuted.

(** ** C11 *)
Theorem C11_inlier_ratio_keeps_best :
  forall fMax sh tf b mround ratio gl nn lpts g l ms out ms' out',
  rearranges sh -> rounds_to_nearest mround -> ly_nn gl = Some nn -> nn_correct nn ->
  ir_one_layer fMax sh tf b mround ratio gl lpts g l ms out = Ok (ms', out') ->
  exists new, paired_pt2pt out' = paired_pt2pt out ++ new
  /\ NoDup (map p_localIdx new)
  /\ ((new = [] /\ (nn_points nn = [] \/ lpts = [] \/ exists tl,
           transform_local_to_global fMax sh tf lpts (maxLocalPointsPerLayer b) = Ok tl
           /\ bb_intersects (nn_bbox nn) (tl_min tl, tl_max tl) (bbox_epsilon b) = false))
      \/ exists tl cands kept dropped,
           transform_local_to_global fMax sh tf lpts (maxLocalPointsPerLayer b) = Ok tl
           (* candidates: each eligible local point with its nearest global point *)
           /\ NoDup (map p_localIdx cands)
           /\ (forall li, In li (map p_localIdx cands) <->
                 In li (used_locals tl) /\ (allowMatchAlreadyMatchedPoints b = true \/ ~ marked (ms_local ms) (l, li)))
           /\ Forall (fun p => p_glayer p = g /\ p_llayer p = l
                 /\ nth_error (nn_points nn) (p_globalIdx p) = Some (p_global p)
                 /\ nth_error lpts (p_localIdx p) = Some (p_local p)
                 /\ (p_err p == sqd (tf (p_local p)) (p_global p))%Q
                 /\ forall j h, nth_error (nn_points nn) j = Some h -> (p_err p <= sqd (tf (p_local p)) h)%Q) cands
           (* the kept ones: round(ratio * N), the best ones *)
           /\ Permutation cands (kept ++ dropped)
           /\ (inject_Z (Z.of_nat (length kept)) - (1#2) <= inject_Z (Z.of_nat (length cands)) * ratio
               <= inject_Z (Z.of_nat (length kept)) + (1#2))%Q
           /\ (forall p q, In p kept -> In q dropped -> (p_err p <= p_err q)%Q)
           (* the emitted ones: the kept ones less those whose global point is taken *)
           /\ (allowMatchAlreadyMatchedGlobalPoints b = true -> new = kept)
           /\ (forall p, In p new -> In p kept)
           /\ (forall p, In p kept -> In p new \/
                 (allowMatchAlreadyMatchedGlobalPoints b = false
                  /\ (marked (ms_global ms) (gkey p) \/ exists p', In p' new /\ gkey p' = gkey p)))).
Proof. intros. eapply ir_layer_full; eassumption. Qed.
Print Assumptions C11_inlier_ratio_keeps_best.

(** A valid ratio never makes the number of kept pairs leave [0, N]: the iterator arithmetic
    is always defined. *)
Theorem C11_kept_count_in_range :
  forall mround N ratio, rounds_to_nearest mround -> (0 < ratio)%Q -> (ratio < 1)%Q ->
  (0 <= mround (inject_Z (Z.of_nat N) * ratio)%Q <= Z.of_nat N)%Z.
Proof. intros. apply ir_keep_range; assumption. Qed.
Print Assumptions C11_kept_count_in_range.

Lemma ex_round_ok : rounds_to_nearest ex_round.
Proof.
  intros [n d]. unfold ex_round. cbn [Qnum Qden].
  set (z := ((2 * n + Zpos d) / (2 * Zpos d))%Z).
  assert (H1 : (2 * Zpos d * z <= 2 * n + Zpos d)%Z) by (apply Z.mul_div_le; lia).
  assert (H2 : (2 * n + Zpos d < 2 * Zpos d * (z + 1))%Z).
  { pose proof (Z.mul_succ_div_gt (2 * n + Zpos d) (2 * Zpos d) ltac:(lia)). unfold z. lia. }
  split; unfold Qle, Qminus, Qplus, Qopp, inject_Z; cbn [Qnum Qden]; lia.
Qed.
Example C11_ex : pairs_of (ex_run [(IR (ex_b true true) (3#5), 0, 0)]) = Some [(1, 1); (0, 0)]
  /\ ex_round (3 * (3#5)) = 2%Z.
Proof. split; vm_compute; reflexivity. Qed.

(** ** C12 *)
Theorem C12_layers_and_weights :
  forall fMax sh mround pcGlobal pcLocal m from up it tf ms out ms' f out',
  rearranges sh -> layers_correct pcGlobal ->
  m_impl_match (pm_matcher fMax sh mround pcGlobal pcLocal m from up) it tf ms out = Ok (ms', f, out') ->
  let cfg := configured_matches (pm_base m) pcGlobal pcLocal in
  (* every configured local layer exists and is a point cloud *)
  (forall x, In x cfg -> exists ll pts, find_layer pcLocal (snd (fst x)) = Some ll /\ ly_points ll = Some pts)
  (* the pairings come in one (maybe empty) block per configured match, in order *)
  /\ exists blocks : list (list Pair),
       paired_pt2pt out' = concat blocks
       /\ Forall2 (fun c blk => Forall (fun p => p_glayer p = fst (fst c) /\ p_llayer p = snd (fst c)) blk) cfg blocks
       (* and the weights are those of the non-empty blocks *)
       /\ point_weights out' = blocks_weights (combine blocks (map snd cfg)).
Proof.
  intros * HS HC H cfg.
  destruct (pm_impl fMax sh mround pcGlobal pcLocal HS HC _ _ _ _ _ _ _ _ _ _ H) as [bs [X [M [Z _]]]].
  destruct X as [[A _ _ _ _ _] [_ [B [_ [_ [_ [_ [W _]]]]]]]]. cbn in A, W. unfold cfg. rewrite <- M. split.
  - intros x Hx. apply in_map_iff in Hx as [k [<- Hk]]. cbn. rewrite Forall_forall in B.
    destruct (B k Hk) as [[ll [L1 L2]] _]. eauto.
  - exists (map bk_new bs). split; [rewrite A, flat_map_concat_map; reflexivity|]. split.
    + clear -B. induction B as [|k bs [_ [F _]] _ IH]; [constructor|]. cbn. constructor; [exact F|exact IH].
    + rewrite W. f_equal. clear. induction bs as [|k bs IH]; [reflexivity|]. cbn. rewrite IH. reflexivity.
Qed.
Print Assumptions C12_layers_and_weights.

(** With a weight table: the block lengths add up to the number of pairings. *)
Theorem C12_weight_blocks_partition :
  forall fMax sh mround pcGlobal pcLocal m from up it tf ms out ms' f out',
  rearranges sh -> layers_correct pcGlobal ->
  weight_pt2pt_layers (pm_base m) <> [] ->
  m_impl_match (pm_matcher fMax sh mround pcGlobal pcLocal m from up) it tf ms out = Ok (ms', f, out') ->
  list_sum (map fst (point_weights out')) = length (paired_pt2pt out')
  /\ Forall (fun bw => 0 < fst bw) (point_weights out').
Proof.
  intros * HS HC HW H.
  destruct (C12_layers_and_weights _ _ _ _ _ _ _ _ _ _ _ _ _ _ _ HS HC H) as [_ [bl [H1 [H2 H3]]]].
  rewrite H1, H3. assert (HN : Forall (fun c => snd c <> None) (configured_matches (pm_base m) pcGlobal pcLocal)).
  { rewrite Forall_forall. intros c Hc. unfold configured_matches in Hc.
    destruct (weight_pt2pt_layers (pm_base m)) as [|t tb]; [congruence|].
    apply in_flat_map in Hc as [g [_ Hc]]. destruct (find_layer (t :: tb) (fst g)); [|destruct Hc].
    apply in_map_iff in Hc as [lw [<- _]]. discriminate. }
  clear -H2 HN. induction H2 as [|c blk cs bls _ _ IH]; [split; constructor|].
  inversion HN as [|? ? Hc HN']; subst. destruct (IH HN') as [I1 I2]. cbn [map combine concat blocks_weights flat_map].
  destruct (snd c) as [w|]; [|congruence]. destruct blk as [|p blk]; [exact (conj I1 I2)|].
  cbn [app map list_sum fold_right fst]. unfold blocks_weights in *. split.
  - cbn [length]. rewrite app_length. unfold list_sum in I1. rewrite I1. lia.
  - constructor; [cbn; lia|exact I2].
Qed.
Print Assumptions C12_weight_blocks_partition.

(** A missing layer is silently skipped without a table, and is an error with one. *)
Theorem C12_missing_listed_layer_is_an_error :
  forall fMax sh mround pcGlobal pcLocal m from up it tf ms out g gl ls l w,
  rearranges sh -> layers_correct pcGlobal ->
  weight_pt2pt_layers (pm_base m) <> [] ->
  In (g, gl) pcGlobal -> find_layer (weight_pt2pt_layers (pm_base m)) g = Some ls -> In (l, w) ls ->
  find_layer pcLocal l = None ->
  forall r, m_impl_match (pm_matcher fMax sh mround pcGlobal pcLocal m from up) it tf ms out <> Ok r.
Proof.
  intros * HS HC HW Hg Hls Hl Hnone [[ms' f] out'] H.
  destruct (C12_layers_and_weights _ _ _ _ _ _ _ _ _ _ _ _ _ _ _ HS HC H) as [HX _].
  destruct (HX (g, l, Some w)) as [ll [pts [E _]]]; [|cbn in E; congruence].
  unfold configured_matches. destruct (weight_pt2pt_layers (pm_base m)) as [|t tb]; [congruence|].
  apply in_flat_map. exists (g, gl). split; [exact Hg|]. cbn [fst]. rewrite Hls.
  apply in_map_iff. exists (l, w). auto.
Qed.
Print Assumptions C12_missing_listed_layer_is_an_error.

Definition ex_wg : Layers := pts_layers [(0, [mkP3 0 0 0]); (1, [mkP3 10 0 0]); (2, [mkP3 0 0 0])].
Definition ex_wl : Layers := pts_layers [(5, [mkP3 0 (1#10) 0; mkP3 0 0 (1#10)]); (6, [mkP3 10 0 0])].
Definition ex_wb : BaseParams := mkBase [(0, [(5, 3%Q); (6, 4%Q)]); (1, [(6, 7%Q)])] 0 true true 0.
Definition ex_wout :=
  m_impl_match (pm_matcher 1000000 (fun l => l) ex_round ex_wg ex_wl (DT ex_wb 1 0 1) 0 0) 0 ex_tf (mkMS [] [])
    pairings_empty_ctor.
Example C12_ex : match ex_wout with Ok (_, _, o) =>
    point_weights o = [(2, 3%Q); (1, 7%Q)] /\ length (paired_pt2pt o) = 3 | _ => False end.
Proof. vm_compute. split; reflexivity. Qed.
Example C12_ex_missing :
  m_impl_match (pm_matcher 1000000 (fun l => l) ex_round ex_wg ex_l (DT ex_wb 1 0 1) 0 0) 0 ex_tf (mkMS [] [])
    pairings_empty_ctor = Throw.
Proof. vm_compute. reflexivity. Qed.

(** ** C13 *)
Theorem C13_subsampling :
  forall fMax sh tf pc m, rearranges sh ->
  (m = 0 \/ length pc <= m ->
     exists tl, transform_local_to_global fMax sh tf pc m = Ok tl /\ tl_idxs tl = None
       /\ tl_pts tl = map tf pc
       /\ forall p, In p (tl_pts tl) -> inside (tl_min tl, tl_max tl) p)
  /\ (0 < m < length pc ->
     exists tl idxs sel, transform_local_to_global fMax sh tf pc m = Ok tl
       /\ tl_idxs tl = Some idxs /\ length idxs = m /\ NoDup idxs
       /\ map Some sel = map (nth_error pc) idxs /\ tl_pts tl = map tf sel
       /\ forall p, In p (tl_pts tl) -> inside (tl_min tl, tl_max tl) p).
Proof.
  intros * HS. split.
  - intro H. destruct (transform_local_to_global fMax sh tf pc m) as [tl| |] eqn:E.
    + exists tl. split; [reflexivity|]. assert (B := tl_bbox _ _ _ _ _ _ E).
      unfold transform_local_to_global in E.
      destruct (Nat.eqb m 0 || Nat.leb (length pc) m) eqn:Eb.
      * injection E as <-. cbn in *. auto.
      * apply orb_false_iff in Eb as [E1 E2]. apply Nat.eqb_neq in E1. apply Nat.leb_gt in E2. lia.
    + unfold transform_local_to_global in E. destruct (Nat.eqb m 0 || Nat.leb (length pc) m) eqn:Eb; [discriminate|].
      apply orb_false_iff in Eb as [E1 E2]. apply Nat.eqb_neq in E1. apply Nat.leb_gt in E2. lia.
    + unfold transform_local_to_global in E. destruct (Nat.eqb m 0 || Nat.leb (length pc) m) eqn:Eb; [discriminate|].
      apply orb_false_iff in Eb as [E1 E2]. apply Nat.eqb_neq in E1. apply Nat.leb_gt in E2. lia.
  - intros [H0 Hm]. destruct (sub_spec fMax sh tf pc m HS H0 Hm) as [tl [idxs [sel [A [B [C [D [E [F G]]]]]]]]].
    exists tl, idxs, sel. split; [exact A|]. split; [exact B|]. split; [exact E|]. split; [exact F|].
    split; [exact D|]. split; [exact C|]. exact (tl_bbox _ _ _ _ _ _ A).
Qed.
Print Assumptions C13_subsampling.

(** No point past the first m is ever selected, whatever the random generator does: the
    second half of the property fails for every cloud with more than m points. *)
Theorem C127_tail_never_selected_refuted :
  forall fMax sh tf pc m tl, rearranges sh -> 0 < m < length pc ->
  transform_local_to_global fMax sh tf pc m = Ok tl ->
  forall i, m <= i -> ~ In i (used_locals tl).
Proof.
  intros * HS [H0 Hm] H i Hi X.
  destruct (sub_spec fMax sh tf pc m HS H0 Hm) as [tl' [idxs [sel [A [B [_ [_ [_ [_ G]]]]]]]]].
  rewrite H in A. injection A as <-. unfold used_locals in X. rewrite B in X.
  apply (Permutation_in _ G) in X. apply in_seq in X. lia.
Qed.
Print Assumptions C127_tail_never_selected_refuted.
Example C13_ex : match transform_local_to_global 1000000 (@rev nat) ex_tf [mkP3 1 0 0; mkP3 2 0 0; mkP3 3 0 0] 2 with
  | Ok tl => used_locals tl = [1; 0] | _ => False end.
Proof. vm_compute. reflexivity. Qed.

(** ** C54: the per-layer weights never leave run_matchers() *)
Theorem C54_layer_weights_lost_refuted :
  forall fMax sh mround pcGlobal pcLocal (pms : list (PointMatcher * nat * nat)) it tf ms ms' p,
  run_matchers (map (fun x => pm_matcher fMax sh mround pcGlobal pcLocal (fst (fst x)) (snd (fst x)) (snd x)) pms)
    it tf ms = Ok (ms', p) ->
  point_weights p = [].
Proof. intros * H. apply run_matchers_iff in H as [outs [_ [_ H]]]. exact H. Qed.
Print Assumptions C54_layer_weights_lost_refuted.
Example C54_ex : exists ms' p,
  run_matchers [pm_matcher 1000000 (fun l => l) ex_round ex_wg ex_wl (DT ex_wb 1 0 1) 0 0] 0 ex_tf (mkMS [] [])
  = Ok (ms', p) /\ length (paired_pt2pt p) = 3 /\ point_weights p = []
  /\ match ex_wout with Ok (_, _, o) => point_weights o <> [] | _ => False end.
Proof. do 2 eexists. split; [vm_compute; reflexivity|]. split; [reflexivity|]. split; [reflexivity|]. vm_compute. discriminate. Qed.

(** ** C55: limiting the number of local points *)
(** Whatever the matchers, their parameters, the poses and the iteration: a run on a fresh match
    state never reads or marks outside the maps.  It succeeds or throws. *)
Theorem C55_matching_never_out_of_range :
  forall fMax sh mround pcGlobal pcLocal (pms : list (PointMatcher * nat * nat)) it tf ms,
  rearranges sh -> rounds_to_nearest mround ->
  unique_names pcGlobal -> unique_names pcLocal -> layers_correct pcGlobal -> points_searchable pcLocal ->
  Forall (fun x => no_effective_limit pcLocal (fst (fst x))) pms ->
  fresh_ms pcGlobal pcLocal = Ok ms ->
  run_matchers (map (fun x => pm_matcher fMax sh mround pcGlobal pcLocal (fst (fst x)) (snd (fst x)) (snd x)) pms)
    it tf ms <> UB.
Proof.
  intros * HS HR UG UL HC HL HF HM E.
  destruct (fresh_total pcGlobal pcLocal UG UL) as [ms0 [E0 F0]]. rewrite HM in E0. injection E0 as <-.
  pose proof (run_matchers_safe fMax sh mround pcGlobal pcLocal UG UL HC HS HR HL pms it tf HF ms F0) as X.
  rewrite E in X. exact X.
Qed.
Print Assumptions C55_matching_never_out_of_range.

(** With valid parameters one layer of the distance-threshold matcher always succeeds, whatever the
    re-matching flags, after any number of earlier matchers of the same run. *)
Theorem C55_no_limit_layer_succeeds :
  forall fMax sh mround pcGlobal pcLocal (pms : list (PointMatcher * nat * nat)) it tf0 ms0 ms p,
  rearranges sh -> rounds_to_nearest mround ->
  unique_names pcGlobal -> unique_names pcLocal -> layers_correct pcGlobal -> points_searchable pcLocal ->
  Forall (fun x => no_effective_limit pcLocal (fst (fst x))) pms ->
  fresh_ms pcGlobal pcLocal = Ok ms0 ->
  run_matchers (map (fun x => pm_matcher fMax sh mround pcGlobal pcLocal (fst (fst x)) (snd (fst x)) (snd x)) pms)
    it tf0 ms0 = Ok (ms, p) ->
  forall b tf thr ang k g gl nn l ll lpts out,
  1 <= k -> (0 < thr)%Q -> (0 <= ang)%Q ->
  In (g, gl) pcGlobal -> ly_nn gl = Some nn -> In (l, ll) pcLocal -> ly_points ll = Some lpts ->
  (maxLocalPointsPerLayer b = 0 \/ length lpts <= maxLocalPointsPerLayer b) ->
  exists s', dt_one_layer fMax sh tf b thr ang k gl lpts g l ms out = Ok s'.
Proof.
  intros * HS HR UG UL HC HL HF HM E * Hk Ht Ha IG NG IL EP Hmx.
  destruct (fresh_total pcGlobal pcLocal UG UL) as [ms1 [E0 F0]]. rewrite HM in E0. injection E0 as <-.
  pose proof (run_matchers_safe fMax sh mround pcGlobal pcLocal UG UL HC HS HR HL pms it tf0 HF ms0 F0) as X.
  rewrite E in X. cbn in X. destruct (HL l ll lpts IL EP) as [ln [EL EN]].
  destruct (dt_one_layer_total pcGlobal pcLocal UG UL HC g l gl ll nn ln lpts IG NG IL EL EN b fMax sh tf thr ang k
    ms out X Hk Ht Ha Hmx) as [s' [Hs _]]. eauto.
Qed.
Print Assumptions C55_no_limit_layer_succeeds.

Example C55_hypotheses : unique_names ex_g /\ unique_names ex_l /\ layers_correct ex_g /\ points_searchable ex_l
  /\ fresh_ms ex_g ex_l = Ok ex_ms
  /\ Forall (fun x => no_effective_limit ex_l (fst (fst x)))
       [(DT (mkBase [] 0 false false 0) 1 0 1, 0, 0); (IR (mkBase [] 2 false false 0) (1#2), 0, 0)]
  /\ (exists ms p, ex_run [(DT (mkBase [] 0 false false 0) 1 0 1, 0, 0); (IR (mkBase [] 2 true false 0) (1#2), 0, 0)] = Ok (ms, p)).
Proof.
  split; [repeat constructor; cbn; intuition|]. split; [repeat constructor; cbn; intuition|].
  split; [apply pts_layers_correct|]. split.
  { intros l ll lpts [[= <- <-]|[]] [= <-]. eexists. split; reflexivity. }
  split; [reflexivity|]. split; [repeat constructor; left; reflexivity|].
  do 2 eexists. vm_compute. reflexivity.
Qed.

(** Whenever the limit takes effect, the loop reads past the end of the sampled points. *)
Theorem C136_limit_reads_out_of_range_refuted :
  forall fMax sh tf b thr ang k gl nn lpts g l ms out tl,
  rearranges sh ->
  allowMatchAlreadyMatchedPoints b = true -> allowMatchAlreadyMatchedGlobalPoints b = true ->
  1 <= k -> (0 < thr)%Q -> (0 <= ang)%Q -> ly_nn gl = Some nn -> nn_points nn <> [] ->
  0 < maxLocalPointsPerLayer b < length lpts ->
  transform_local_to_global fMax sh tf lpts (maxLocalPointsPerLayer b) = Ok tl ->
  bb_intersects (nn_bbox nn) (tl_min tl, tl_max tl) (thr + bbox_epsilon b) = true ->
  dt_one_layer fMax sh tf b thr ang k gl lpts g l ms out = UB.
Proof. intros * HS HaL HaG Hk Ht Ha En Hne [H0 Hm] Et Ebb. eapply dt_subsampled_ub; eassumption. Qed.
Print Assumptions C136_limit_reads_out_of_range_refuted.
Example C55_ex : m_impl_match (pm_matcher 1000000 (fun l => l) ex_round ex_g ex_l (DT (mkBase [] 2 true true 0) 1 0 1) 0 0)
  0 ex_tf ex_ms pairings_empty_ctor = UB.
Proof. vm_compute. reflexivity. Qed.

(** ** C56: potential pairings *)
Theorem C56_pairings_never_exceed_potential :
  forall fMax sh mround pcGlobal pcLocal (pms : list (PointMatcher * nat * nat)) it tf ms ms' p amin,
  rearranges sh -> layers_correct pcGlobal ->
  run_matchers (map (fun x => pm_matcher fMax sh mround pcGlobal pcLocal (fst (fst x)) (snd (fst x)) (snd x)) pms)
    it tf ms = Ok (ms', p) ->
  pairings_size p <= potential_pairings p
  /\ (0 <= quality (paired_ratio_of amin p) <= 1)%Q.
Proof.
  intros * HS HC H. apply run_matchers_iff in H as [outs [H1 [[H2 [H3 [H4 [H5 [H6 H7]]]]] _]]].
  apply (run_trace fMax sh mround pcGlobal pcLocal HS HC) in H1 as [_ [_ [_ [T4 _]]]].
  assert (Hsz : pairings_size p <= potential_pairings p).
  { unfold pairings_size. rewrite H2, H3, H4, H5, H6, H7. clear -T4.
    induction T4 as [|x o xs os [A [B [C [D E]]]] _ IH]; [cbn; lia|].
    cbn [map concat list_sum fold_right]. rewrite !app_length, B, C, D, E. cbn [length]. unfold list_sum in IH. lia. }
  split; [exact Hsz|]. destruct (paired_ratio_value amin p) as [_ [_ [X1 [X2 _]]]]. split; auto.
Qed.
Print Assumptions C56_pairings_never_exceed_potential.

(** The potential of one matcher: the local points of the configured layers, times the
    pairings per point. *)
Theorem C56_potential_counts_local_points :
  forall fMax sh mround pcGlobal pcLocal m from up it tf ms out ms' f out',
  rearranges sh -> layers_correct pcGlobal ->
  m_impl_match (pm_matcher fMax sh mround pcGlobal pcLocal m from up) it tf ms out = Ok (ms', f, out') ->
  exists sizes, Forall2 (fun c n => exists ll pts, find_layer pcLocal (snd (fst c)) = Some ll
                            /\ ly_points ll = Some pts /\ n = length pts)
                 (configured_matches (pm_base m) pcGlobal pcLocal) sizes
  /\ potential_pairings out' = list_sum sizes * match m with DT _ _ _ k => k | IR _ _ => 1 end.
Proof.
  intros * HS HC H.
  destruct (pm_impl fMax sh mround pcGlobal pcLocal HS HC _ _ _ _ _ _ _ _ _ _ H) as [bs [X [M _]]].
  destruct X as [_ [_ [B [_ [_ [_ [_ [_ P]]]]]]]]. cbn in P. rewrite <- M, P.
  exists (map (fun k => length (bk_pts k)) bs). clear -B. split.
  - induction B as [|k bs [[ll [F1 F2]] _] _ IH]; [constructor|]. cbn. constructor; [cbn; eauto|exact IH].
  - clear B. induction bs as [|k bs IH]; [reflexivity|]. cbn. unfold list_sum in IH.
    cbn in IH. rewrite IH. destruct m; cbn; lia.
Qed.
Print Assumptions C56_potential_counts_local_points.
Example C56_ex : match ex_run [(DT (ex_b true true) 1 0 2, 0, 0); (IR (ex_b true true) (1#2), 0, 0)] with
  | Ok (_, p) => potential_pairings p = 9 /\ pairings_size p = 4 | _ => False end.
Proof. vm_compute. split; reflexivity. Qed.
