From Verif Require Import Base PairingsModel PairingsProofs MatcherModel PipelineSpec PipelineProofs
  BitfieldModel BitfieldProofs PointMatcherModel PointMatcherSpec PointMatcherProofs PointMatcherProofs2
  PointMatcherProofs3 PointMatcherProofs4 PointMatcherProofs5.
From Coq Require Import Lqa Permutation Sorted.

Lemma nth_error_Forall2 {A} (l lis : list A) : forall k,
  Forall2 (fun i li => nth_error l (i - k) = Some li) (seq k (length lis)) lis ->
  length lis = length l -> lis = l.
Proof.
  revert l. induction lis as [|x lis IH]; intros l k H HL.
  - destruct l; [reflexivity|discriminate].
  - cbn in H. inversion H as [|? ? ? ? E H']; subst. rewrite Nat.sub_diag in E.
    destruct l as [|y l]; [discriminate|]. injection E as ->. f_equal. apply (IH l (S k)); [|cbn in HL; lia].
    clear -H'. assert (Forall (fun i => S k <= i) (seq (S k) (length lis))) as G
      by (rewrite Forall_forall; intros i Hi; apply in_seq in Hi; lia).
    revert G. generalize H'. generalize (seq (S k) (length lis)). clear. intros s H.
    induction H as [|i li s lis E H IH]; intro G; constructor; inversion G; subst; [|apply IH; assumption].
    replace (i - k) with (S (i - S k)) in E by lia. exact E.
Qed.

Lemma lis_used fMax sh tf lpts mx tl lis : (forall l, Permutation (sh l) l) ->
  transform_local_to_global fMax sh tf lpts mx = Ok tl ->
  Forall2 (fun i li => local_index tl i = Ok li) (seq 0 (length (tl_pts tl))) lis -> lis = used_locals tl /\ NoDup lis.
Proof.
  intros HS Et H. unfold used_locals, local_index in *.
  assert (HL := Forall2_len _ _ _ H). rewrite seq_length in HL.
  assert (Hd : match tl_idxs tl with None => True | Some is => NoDup is /\ length is = length (tl_pts tl) end).
  { unfold transform_local_to_global in Et. destruct (Nat.eqb mx 0 || Nat.leb (length lpts) mx) eqn:E.
    - injection Et as <-. exact I.
    - destruct (gather lpts (sh (seq 0 mx))) as [sel| |] eqn:Eg; cbn [rbind] in Et; try discriminate.
      injection Et as <-. cbn. split; [eapply Permutation_NoDup; [symmetry; apply HS|apply seq_NoDup]|].
      rewrite map_length. apply gather_spec in Eg. apply (f_equal (@length _)) in Eg. rewrite !map_length in Eg. congruence. }
  destruct (tl_idxs tl) as [is|].
  - destruct Hd as [Hd1 Hd2]. assert (lis = is) as ->; [|auto].
    apply (nth_error_Forall2 is lis 0); [|congruence]. rewrite <- HL. eapply F2_impl; [|exact H].
    cbn. intros i li X. rewrite Nat.sub_0_r. destruct (nth_error is i); [|discriminate]. injection X as ->. reflexivity.
  - assert (lis = seq 0 (length (tl_pts tl))) as ->; [|split; [reflexivity|apply seq_NoDup]].
    symmetry. clear -H. induction H as [|x y l l' E _ IH]; [reflexivity|]. injection E as ->. rewrite IH. reflexivity.
Qed.

Lemma NoDup_filter' {A} (f : A -> bool) l : NoDup l -> NoDup (filter f l).
Proof. apply NoDup_filter. Qed.

Lemma Qabs_half mround N ratio : rounds_to_nearest mround ->
  let n := mround (inject_Z (Z.of_nat N) * ratio)%Q in
  (inject_Z n - (1#2) <= inject_Z (Z.of_nat N) * ratio <= inject_Z n + (1#2))%Q.
Proof. intros H n. apply H. Qed.

Lemma ir_layer_full fMax sh tf b mround ratio gl nn lpts g l ms out ms' out' :
  (forall l, Permutation (sh l) l) -> rounds_to_nearest mround ->
  ly_nn gl = Some nn -> nn_correct nn ->
  ir_one_layer fMax sh tf b mround ratio gl lpts g l ms out = Ok (ms', out') ->
  exists new, paired_pt2pt out' = paired_pt2pt out ++ new
  /\ NoDup (map p_localIdx new)
  /\ ((new = [] /\ (nn_points nn = [] \/ lpts = [] \/ exists tl,
           transform_local_to_global fMax sh tf lpts (maxLocalPointsPerLayer b) = Ok tl
           /\ bb_intersects (nn_bbox nn) (tl_min tl, tl_max tl) (bbox_epsilon b) = false))
      \/ exists tl cands kept dropped,
           transform_local_to_global fMax sh tf lpts (maxLocalPointsPerLayer b) = Ok tl
           /\ NoDup (map p_localIdx cands)
           /\ (forall li, In li (map p_localIdx cands) <->
                 In li (used_locals tl) /\ (allowMatchAlreadyMatchedPoints b = true \/ ~ marked (ms_local ms) (l, li)))
           /\ Forall (fun p => p_glayer p = g /\ p_llayer p = l
                 /\ nth_error (nn_points nn) (p_globalIdx p) = Some (p_global p)
                 /\ nth_error lpts (p_localIdx p) = Some (p_local p)
                 /\ (p_err p == sqd (tf (p_local p)) (p_global p))%Q
                 /\ forall j h, nth_error (nn_points nn) j = Some h -> (p_err p <= sqd (tf (p_local p)) h)%Q) cands
           /\ Permutation cands (kept ++ dropped)
           /\ (inject_Z (Z.of_nat (length kept)) - (1#2) <= inject_Z (Z.of_nat (length cands)) * ratio
               <= inject_Z (Z.of_nat (length kept)) + (1#2))%Q
           /\ (forall p q, In p kept -> In q dropped -> (p_err p <= p_err q)%Q)
           /\ (allowMatchAlreadyMatchedGlobalPoints b = true -> new = kept)
           /\ (forall p, In p new -> In p kept)
           /\ (forall p, In p kept -> In p new \/
                 (allowMatchAlreadyMatchedGlobalPoints b = false
                  /\ (marked (ms_global ms) (gkey p) \/ exists p', In p' new /\ gkey p' = gkey p)))).
Proof.
  intros HS HR Hnn HN H.
  apply ir_one_layer_ext in H; [|intros nn' E; rewrite Hnn in E; injection E as <-; exact HN].
  destruct H as [nn' [new [E [[A _ _ _ _ _] [_ [_ [_ D]]]]]]]. rewrite Hnn in E. injection E as <-.
  exists new. cbn [snd] in A. split; [exact A|].
  destruct D as [[-> D]|[tl [lis [cands [sorted [T1 [T2 [T3 [T4 [T5 [T6 T7]]]]]]]]]]].
  - split; [constructor|]. left. auto.
  - cbv zeta in T7. destruct T7 as [R [K1 [K2 [K3 [K4 K5]]]]].
    set (nK := mround (inject_Z (Z.of_nat (length sorted)) * ratio)%Q) in *.
    destruct (lis_used _ _ _ _ _ _ _ HS T1 T2) as [-> HD].
    assert (ND : NoDup (map p_localIdx cands)) by (rewrite T3; apply NoDup_filter; exact HD).
    assert (NK : NoDup (map p_localIdx (firstn (Z.to_nat nK) sorted))).
    { assert (NoDup (map p_localIdx sorted)) as X
        by (eapply Permutation_NoDup; [apply Permutation_map; symmetry; exact T5|exact ND]).
      rewrite <- (firstn_skipn (Z.to_nat nK) sorted), map_app in X. clear -X.
      induction (map p_localIdx (firstn (Z.to_nat nK) sorted)) as [|a r IHr]; [constructor|].
      cbn in X. inversion X; subst. constructor; [|auto]. intro Y. apply H1. apply in_or_app. auto. }
    split; [auto|]. right. exists tl, cands, (firstn (Z.to_nat nK) sorted), (skipn (Z.to_nat nK) sorted).
    split; [exact T1|]. split; [exact ND|]. split.
    { intro li. rewrite T3, filter_In. unfold eligible, marked. cbn [fst snd].
      destruct (allowMatchAlreadyMatchedPoints b); cbn [orb]; [tauto|].
      split; intros [H1 H2]; (split; [exact H1|]).
      - right. intro X. rewrite X in H2. discriminate.
      - destruct H2 as [|H2]; [discriminate|]. destruct (query (ms_local ms) l li) as [[|]| |]; try reflexivity. congruence. }
    split.
    { eapply Forall_impl; [|exact T4]. intros p [[P1 [P2 [P3 [P4 P5]]]] P6]. auto 8. }
    split; [rewrite firstn_skipn; symmetry; exact T5|].
    assert (LK : Z.of_nat (length (firstn (Z.to_nat nK) sorted)) = nK) by (rewrite firstn_length; lia).
    split; [rewrite LK; rewrite <- (Permutation_length T5); apply HR|].
    split; [exact (StronglySorted_split _ _ _ T6)|]. split; [exact K2|]. split; [exact K3|]. exact K4.
Qed.

(** Subsampling *)
Lemma sub_spec fMax sh tf pc m : (forall l, Permutation (sh l) l) -> 0 < m -> m < length pc ->
  exists tl idxs sel, transform_local_to_global fMax sh tf pc m = Ok tl
    /\ tl_idxs tl = Some idxs /\ tl_pts tl = map tf sel /\ map Some sel = map (nth_error pc) idxs
    /\ length idxs = m /\ NoDup idxs /\ Permutation idxs (seq 0 m).
Proof.
  intros HS H0 Hm. unfold transform_local_to_global. destruct (Nat.eqb_spec m 0); [lia|].
  destruct (Nat.leb_spec (length pc) m); [lia|]. cbn [orb].
  destruct (gather_valid pc _ (perm_valid sh m pc HS Hm)) as [sel Eg]. rewrite Eg. cbn [rbind].
  eexists. exists (sh (seq 0 m)), sel. split; [reflexivity|]. cbn.
  split; [reflexivity|]. split; [reflexivity|]. split; [apply gather_spec; exact Eg|].
  split; [rewrite (Permutation_length (HS _)), seq_length; reflexivity|].
  split; [eapply Permutation_NoDup; [symmetry; apply HS|apply seq_NoDup]|apply HS].
Qed.
