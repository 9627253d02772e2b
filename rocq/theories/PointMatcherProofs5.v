From Verif Require Import Base PairingsModel PairingsProofs MatcherModel PipelineSpec PipelineProofs
  BitfieldModel BitfieldProofs PointMatcherModel PointMatcherSpec PointMatcherProofs PointMatcherProofs2
  PointMatcherProofs3 PointMatcherProofs4.
From Coq Require Import Lqa Permutation Sorted.

Section DT0.
Variable b : BaseParams.
Notation aG := (allowMatchAlreadyMatchedGlobalPoints b).

Lemma dt_neighbours_conv0 lpts g l li thr ns : forall s s',
  dt_neighbours b lpts g l li thr ns s = Ok s' -> exists new, conv s s' new /\ (aG = true -> fst s' = fst s).
Proof.
  induction ns as [|[[gi gpt] err] ns IH]; intros s s' H; cbn [dt_neighbours] in H.
  - injection H as <-. exists []. split; [apply conv_nil|auto].
  - destruct (Qle_bool thr err).
    + injection H as <-. exists []. split; [apply conv_nil|auto].
    + destruct (dt_add_pair b lpts g l li gpt gi err s) as [s1| |] eqn:E1; cbn [rbind] in H; try discriminate.
      assert (aG = true -> fst s1 = fst s) as Hs.
      { intro Ha. unfold dt_add_pair in E1. destruct s as [ms out]. rewrite Ha in E1. cbn [rbind] in E1.
        destruct (nth_error lpts li); [|discriminate]. injection E1 as <-. reflexivity. }
      apply dt_add_pair_conv in E1 as [n1 [X1 _]]. apply IH in H as [n2 [X2 X3]].
      exists (n1 ++ n2). split; [eapply conv_trans; eassumption|]. intro Ha. rewrite (X3 Ha). auto.
Qed.

Lemma dt_loop_conv0 threshold ang k nn lpts tl g l is : forall s s',
  dt_loop b threshold ang k nn lpts tl g l is s = Ok s' -> exists new, conv s s' new /\ (aG = true -> fst s' = fst s).
Proof.
  induction is as [|i is IH]; intros s s' H; cbn [dt_loop] in H.
  - injection H as <-. exists []. split; [apply conv_nil|auto].
  - destruct (local_index tl i) as [li| |]; cbn [rbind] in H; try discriminate.
    destruct (if allowMatchAlreadyMatchedPoints b then Ok false else query (ms_local (fst s)) l li) as [taken| |];
      cbn [rbind] in H; try discriminate.
    destruct taken; [apply IH; exact H|].
    destruct (nth_error (tl_pts tl) i) as [q|]; [|discriminate].
    destruct (dt_neighbours b lpts g l li _ (nn_search nn q k) s) as [s1| |] eqn:E1; cbn [rbind] in H; try discriminate.
    apply dt_neighbours_conv0 in E1 as [n1 [X1 Y1]]. apply IH in H as [n2 [X2 Y2]].
    exists (n1 ++ n2). split; [eapply conv_trans; eassumption|]. intro Ha. rewrite (Y2 Ha). auto.
Qed.

Lemma dt_one_layer_conv0 fMax sh tf threshold ang k gl lpts g l ms out s' :
  dt_one_layer fMax sh tf b threshold ang k gl lpts g l ms out = Ok s' ->
  exists new, conv (ms, out) s' new /\ (aG = true -> fst s' = ms).
Proof.
  unfold dt_one_layer. intro H.
  destruct (Nat.ltb k 1 || Qle_bool threshold 0 || Qltb ang 0); [discriminate|].
  destruct (ly_nn gl) as [nn|]; [|discriminate].
  assert (HZ : exists new, conv (ms, out) (ms, add_potential out (length lpts * k)) new /\ (aG = true -> ms = ms)).
  { exists []. split; [|auto]. split; [cbn; rewrite app_nil_r; reflexivity|cbn; auto]. }
  destruct (isNil (nn_points nn) || isNil lpts); [injection H as <-; exact HZ|].
  destruct (transform_local_to_global fMax sh tf lpts (maxLocalPointsPerLayer b)) as [tl| |]; cbn [rbind] in H; try discriminate.
  destruct (negb (bb_intersects _ _ _)); [injection H as <-; exact HZ|].
  apply dt_loop_conv0 in H. exact H.
Qed.

Lemma dt_trace_conv fMax sh tf threshold ang k pcG pcL ws s s' :
  Trace (dt_one_layer fMax sh tf b threshold ang k) pcG pcL ws s s' ->
  exists new, conv s s' new /\ (aG = true -> fst s' = fst s).
Proof.
  induction 1 as [s|g l w ws gl ll lpts ms out ms1 out1 out2 s' H1 H2 H3 H4 H5 H6 IH].
  - exists []. split; [apply conv_nil|auto].
  - apply dt_one_layer_conv0 in H4 as [n1 [X1 Y1]]. destruct IH as [n2 [X2 Y2]]. exists (n1 ++ n2).
    split; [|intro Ha; rewrite (Y2 Ha); apply Y1; exact Ha].
    eapply conv_trans; [exact X1|]. destruct X2 as [Z1 [Z2 Z3]]. split; [|split; [exact Z2|exact Z3]].
    cbn [snd] in Z1 |- *. rewrite Z1, H5. reflexivity.
Qed.
End DT0.

Lemma done_served b ms out0 ms' out' s0 n0 nb n1 l li g gi :
  paired_pt2pt out0 = [] -> conv (ms, out0) s0 n0 -> paired_pt2pt out' = n0 ++ nb ++ n1 -> ms' = ms ->
  done_pair b s0 nb l li g gi -> served (allowMatchAlreadyMatchedGlobalPoints b) ms' out' g gi l li.
Proof.
  intros HO HC HP -> HD. apply (done_pair_r _ _ _ _ _ _ _ _ _ HC) in HD. apply (done_pair_l _ _ _ n1) in HD.
  rewrite <- app_assoc, <- HP in HD. exact HD.
Qed.

Lemma find_layer_unique {A} (ls : list (nat * A)) k v v' : NoDup (map fst ls) ->
  In (k, v) ls -> In (k, v') ls -> v = v'.
Proof.
  induction ls as [|[k0 v0] ls IH]; intro H; [intros []|]. inversion H as [|? ? Hn Hd]; subst.
  intros [E1|I1] [E2|I2].
  - congruence.
  - injection E1 as -> ->. exfalso. apply Hn. apply (in_map fst) in I2. exact I2.
  - injection E2 as -> ->. exfalso. apply Hn. apply (in_map fst) in I1. exact I1.
  - auto.
Qed.

Lemma dt_complete fMax sh mround b thr ang k from up it tf pcGlobal pcLocal ms out ms' f out' :
  layers_correct pcGlobal -> unique_names pcGlobal -> (forall l, Permutation (sh l) l) ->
  m_impl_match (pm_matcher fMax sh mround pcGlobal pcLocal (DT b thr ang k) from up) it tf ms out = Ok (ms', f, out') ->
  (0 <= bbox_epsilon b)%Q ->
  forall g l w gl nn ll lpts, In (g, l, w) (configured_matches b pcGlobal pcLocal) ->
  In (g, gl) pcGlobal -> ly_nn gl = Some nn ->
  find_layer pcLocal l = Some ll -> ly_points ll = Some lpts ->
  (maxLocalPointsPerLayer b = 0 \/ length lpts <= maxLocalPointsPerLayer b) ->
  forall li lp, nth_error lpts li = Some lp ->
  (allowMatchAlreadyMatchedPoints b = true
   \/ (~ marked (ms_local ms) (l, li)
       /\ (allowMatchAlreadyMatchedGlobalPoints b = true
           \/ forall p, In p (paired_pt2pt out') -> lkey p <> (l, li)))) ->
  forall j h, nth_error (nn_points nn) j = Some h -> (sqd (tf lp) h < qsq thr)%Q ->
  served (allowMatchAlreadyMatchedGlobalPoints b) ms out' g j l li
  \/ exists js, length js = k /\ NoDup js
      /\ Forall (fun j' => (exists h', nth_error (nn_points nn) j' = Some h' /\ (sqd (tf lp) h' <= sqd (tf lp) h)%Q)
                /\ served (allowMatchAlreadyMatchedGlobalPoints b) ms out' g j' l li) js.
Proof.
  intros HC HU HS H Heps g l w gl nn ll lpts Hcfg Hgl Hnn Hll Hlp Hmx li lp Hli Hel j h Hj Hd.
  destruct (pm_impl fMax sh mround pcGlobal pcLocal HS HC _ _ _ _ _ _ _ _ _ _ H) as [_ [_ [_ [HX _]]]].
  cbn [pm_base] in HX. cbn [m_impl_match pm_matcher pm_one_layer pm_base] in H.
  apply base_impl_match_trace in H. rewrite (wanted_all _ _ _ HX) in H.
  apply in_split in Hcfg as [w1 [w2 Ecfg]]. rewrite Ecfg in H. apply Trace_split in H as [s0 [Ta Tb]].
  inversion Tb as [|? ? ? ? gl' ll' lpts' ms0 out0 ms1 out1 out2 ? I1 I2 I3 I4 I5 I6]; subst.
  assert (gl' = gl) by (eapply find_layer_unique; eassumption). subst gl'.
  rewrite Hll in I2. injection I2 as <-. rewrite Hlp in I3. injection I3 as <-.
  destruct (HC g gl nn Hgl Hnn) as [HN HB].
  assert (I4' := I4).
  apply (dt_one_layer_conv b fMax sh tf thr ang k gl lpts g l ms0 out0 (ms1, out1) nn) in I4; auto.
  destruct I4 as [nb [Cb Db]].
  apply dt_trace_conv in Ta as [n0 [Ca Ma]]. apply dt_trace_conv in I6 as [n1 [Cc _]].
  assert (HP : paired_pt2pt out' = n0 ++ nb ++ n1).
  { destruct Ca as [Ca _]. destruct Cb as [Cb _]. destruct Cc as [Cc _]. cbn [snd paired_pt2pt pairings_empty_ctor app] in *.
    rewrite Cc, I5, Cb, Ca, <- app_assoc. reflexivity. }
  assert (Hang : (0 <= ang)%Q).
  { clear -I4'. unfold dt_one_layer in I4'. destruct (Nat.ltb k 1 || Qle_bool thr 0 || Qltb ang 0) eqn:E; [discriminate|].
    apply orb_false_iff in E as [_ E]. apply Qltb_ge in E. exact E. }
  assert (Hn2 : (0 <= normSqr (tf lp))%Q) by (unfold normSqr, qsq; nra).
  assert (HE : allowMatchAlreadyMatchedPoints b = true \/ ~ marked (ms_local ms0) (l, li)).
  { destruct Hel as [Hel|[Hel1 [Hel2|Hel2]]]; [left; exact Hel| |]; right.
    - specialize (Ma Hel2). cbn [fst] in Ma. rewrite Ma. exact Hel1.
    - intro X. destruct Ca as [_ [_ Ca]]. destruct (Ca _ X) as [Y|[p [Y1 Y2]]]; [exact (Hel1 Y)|].
      apply (Hel2 p); [|exact Y2]. rewrite HP. apply in_or_app. left. exact Y1. }
  assert (HDone : forall gi gpt err, In (gi, gpt, err) (nn_search nn (tf lp) k) -> (err < qsq thr)%Q ->
     served (allowMatchAlreadyMatchedGlobalPoints b) ms out' g gi l li).
  { intros gi gpt err Hin Hlt. eapply done_served; [|exact Ca|exact HP|reflexivity|]; [reflexivity|].
    eapply Db; try eassumption; [|right; exact Hlt].
    assert (0 <= ang * normSqr (tf lp))%Q by (apply Qmult_le_0_compat; assumption). lra. }
  destruct (HN (tf lp) k) as [N1 [N2 [N3 [N4 N5]]]].
  destruct (N5 j h Hj) as [[d Hin]|[Hlen Hall]].
  - left. apply (HDone j h d); [exact Hin|]. destruct (N1 _ _ _ Hin) as [_ X]. rewrite X. exact Hd.
  - right. exists (map (fun x => fst (fst x)) (nn_search nn (tf lp) k)). split; [rewrite map_length; exact Hlen|].
    split; [exact N2|]. rewrite Forall_forall. intros j' Hj'. apply in_map_iff in Hj' as [[[j0 h'] d] [<- Hin]].
    cbn [fst]. destruct (N1 _ _ _ Hin) as [X1 X2]. pose proof (Hall _ _ _ Hin) as X3. split.
    + exists h'. split; [exact X1|]. rewrite <- X2. exact X3.
    + apply (HDone j0 h' d); [exact Hin|]. lra.
Qed.

(** ** Subsampling *)
Lemma gather_valid pc : forall is, Forall (fun i => i < length pc) is -> exists ps, gather pc is = Ok ps.
Proof.
  induction is as [|i is IH]; intro H; [exists []; reflexivity|]. inversion H; subst. cbn.
  destruct (nth_error pc i) eqn:E; [|apply nth_error_None in E; lia].
  destruct (IH H3) as [ps ->]. eexists. reflexivity.
Qed.

Lemma perm_valid (sh : list nat -> list nat) mx (pc : list P3) : (forall l, Permutation (sh l) l) -> mx < length pc ->
  Forall (fun i => i < length pc) (sh (seq 0 mx)).
Proof.
  intros HS H. rewrite Forall_forall. intros i Hi. apply (Permutation_in _ (HS _)) in Hi. apply in_seq in Hi. lia.
Qed.

Section UBs.
Variables (fMax : Q) (sh : list nat -> list nat) (tf : P3 -> P3) (b : BaseParams).
Hypothesis HS : forall l, Permutation (sh l) l.
Hypothesis HaL : allowMatchAlreadyMatchedPoints b = true.
Hypothesis HaG : allowMatchAlreadyMatchedGlobalPoints b = true.

Lemma dt_neighbours_total lpts g l li thr ns : li < length lpts -> forall s,
  exists s', dt_neighbours b lpts g l li thr ns s = Ok s'.
Proof.
  intro Hl. induction ns as [|[[gi gpt] err] ns IH]; intro s; cbn [dt_neighbours]; [eauto|].
  destruct (Qle_bool thr err); [eauto|]. unfold dt_add_pair. destruct s as [ms out]. rewrite HaG. cbn [rbind].
  destruct (nth_error lpts li) eqn:E; [|apply nth_error_None in E; lia]. cbn [rbind]. apply IH.
Qed.

Lemma dt_loop_prefix thr ang k nn lpts tl g l is1 : forall is2 s,
  Forall (fun i => exists li, local_index tl i = Ok li /\ li < length lpts /\ i < length (tl_pts tl)) is1 ->
  exists s1, dt_loop b thr ang k nn lpts tl g l (is1 ++ is2) s = dt_loop b thr ang k nn lpts tl g l is2 s1.
Proof.
  induction is1 as [|i is1 IH]; intros is2 s H; [exists s; reflexivity|]. inversion H as [|? ? [li [A [B C]]] H']; subst.
  cbn [dt_loop app]. rewrite A. cbn [rbind]. rewrite HaL. cbn [rbind].
  destruct (nth_error (tl_pts tl) i) as [q|] eqn:Eq; [|apply nth_error_None in Eq; lia].
  edestruct dt_neighbours_total as [s' ->]; [exact B|]. cbn [rbind]. apply IH. exact H'.
Qed.

Lemma dt_subsampled_ub thr ang k gl lpts g l ms out nn tl : (1 <= k) -> (0 < thr)%Q -> (0 <= ang)%Q ->
  ly_nn gl = Some nn -> nn_points nn <> [] ->
  0 < maxLocalPointsPerLayer b -> maxLocalPointsPerLayer b < length lpts ->
  transform_local_to_global fMax sh tf lpts (maxLocalPointsPerLayer b) = Ok tl ->
  bb_intersects (nn_bbox nn) (tl_min tl, tl_max tl) (thr + bbox_epsilon b) = true ->
  dt_one_layer fMax sh tf b thr ang k gl lpts g l ms out = UB.
Proof.
  intros Hk Ht Ha En Hne H0 Hmx Et Ebb. unfold dt_one_layer.
  destruct (Nat.ltb_spec k 1); [lia|]. destruct (Qle_bool thr 0) eqn:E1; [apply Qle_bool_iff in E1; lra|].
  destruct (Qltb ang 0) eqn:E2; [apply Qltb_lt in E2; lra|]. cbn [orb]. rewrite En.
  destruct (nn_points nn) as [|x0 xs] eqn:Enp; [congruence|]. destruct lpts as [|y0 ys] eqn:El; [cbn in Hmx; lia|].
  cbn [isNil orb]. rewrite <- El in *. rewrite Et. cbn [rbind]. rewrite Ebb. cbn [negb].
  set (m := maxLocalPointsPerLayer b) in *.
  assert (HT : tl_idxs tl = Some (sh (seq 0 m)) /\ length (tl_pts tl) = m).
  { unfold transform_local_to_global in Et. destruct (Nat.eqb_spec m 0); [lia|].
    destruct (Nat.leb_spec (length lpts) m); [lia|]. cbn [orb] in Et.
    destruct (gather lpts (sh (seq 0 m))) as [sel| |] eqn:Eg; cbn [rbind] in Et; try discriminate.
    injection Et as <-. cbn. split; [reflexivity|]. rewrite map_length. apply gather_spec in Eg.
    apply (f_equal (@length _)) in Eg. rewrite !map_length in Eg.
    rewrite (Permutation_length (HS (seq 0 m))), seq_length in Eg. exact Eg. }
  destruct HT as [HT1 HT2].
  assert (HL : length (sh (seq 0 m)) = m) by (rewrite (Permutation_length (HS (seq 0 m))), seq_length; reflexivity).
  replace (length lpts) with (m + S (length lpts - m - 1)) by lia. rewrite seq_app.
  edestruct dt_loop_prefix as [s1 ->].
  - rewrite Forall_forall. intros i Hi. apply in_seq in Hi. unfold local_index. rewrite HT1.
    destruct (nth_error (sh (seq 0 m)) i) as [li|] eqn:Ei; [|apply nth_error_None in Ei; lia].
    exists li. split; [reflexivity|]. split; [|lia].
    pose proof (perm_valid sh m lpts HS Hmx) as PV. rewrite Forall_forall in PV. apply PV. eapply nth_error_In. exact Ei.
  - cbn [seq dt_loop]. unfold local_index. rewrite HT1.
    destruct (nth_error (sh (seq 0 m)) (0 + m)) eqn:Ei; [|reflexivity].
    assert (nth_error (sh (seq 0 m)) (0 + m) <> None) as X by congruence. apply nth_error_Some in X. lia.
Qed.
End UBs.
