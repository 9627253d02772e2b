(** C273-C283: what the configuration of matchers, solvers, weights and quality evaluators does. *)
From Coq Require Import String.
From Verif Require Import Base ConfigModel ConfigSpec PairingsModel MatcherModel SolverModel PointMatcherModel PointMatcherSpec FeatModel InitModel InitSpec InitProofs.
Open Scope string_scope.
Open Scope list_scope.

Ltac rq H a := apply lreq_iff in H; destruct H as (a & ?G & ->).
Ltac op H g a := apply (lopt_iff _ _ _ _ g) in H; [destruct H as (a & ?G & ->)|reflexivity].
Ltac sq H o E := apply lseq_iff in H; destruct H as (o & E & H).
Ltac brq a := apply lreq_iff; exists a; split; [try eassumption|reflexivity].
Ltac bop g a := apply (lopt_iff _ _ _ _ g); [reflexivity|]; exists a; split; [try eassumption|reflexivity].
Ltac bsq := apply lseq_iff; eexists; split.

Ltac nad := cbn [ad_set ad_base ad_confidence ad_params a_firstToSecondDistanceMax a_absoluteMaxSearchDistance a_enableDetectPlanes a_maxPt2PtCorrespondences a_planeSearchPoints a_planeMinimumFoundPoints a_planeMinimumDistance a_planeEigenThreshold a_minimumCorrDist] in *.

Section InitP.
  Context {Pose K : Type}.
  Variables (as_bool : yml -> option bool) (as_str : yml -> option string) (as_num : yml -> option Q)
            (as_nat : yml -> option nat) (as_int : yml -> option Z) (as_kernel : yml -> option K) (of_kernel : K -> yml).
  Notation Cfg := (list (string * yml)).

  Lemma pw_spec y o o' : pw_load as_num y o = (o', true) <-> LoadedPW as_num y o'.
  Proof.
    split.
    - destruct y as [| | | | |m]; try discriminate. cbn [pw_load]. unfold pw_load_map. destruct o as [c1 c2 c3 c4 c5]. intros H.
      sq H o1 E. rq E a1. sq H o1 E. rq E a2. sq H o1 E. rq E a3. sq H o1 E. rq E a4. rq H a5.
      exists m. cbn [pt2pt pt2pl pt2ln ln2ln pl2pl]. split; [reflexivity|]. auto 6.
    - intros (m & -> & A1 & A2 & A3 & A4 & A5). destruct o' as [b1 b2 b3 b4 b5]. cbn [pt2pt pt2pl pt2ln ln2ln pl2pl] in *.
      cbn [pw_load]. unfold pw_load_map. bsq; [brq b1|]. bsq; [brq b2|]. bsq; [brq b3|]. bsq; [brq b4|]. brq b5.
  Qed.

  (** C273: loading weight parameters succeeds exactly with configurations that have the required entries, and
      then every parameter is the one of its entry, or unchanged if the entry is optional and missing. *)
  Theorem C273_weights_as_configured : forall y (o o' : @WP Pose K),
    wp_load as_bool as_num as_kernel y o = (o', true) <-> LoadedWP as_bool as_num as_kernel y o o'.
  Proof.
    intros y o o'. split.
    - destruct y as [| | | | |m]; try discriminate. cbn [wp_load]. unfold wp_load_map. destruct o as [us th pw ke cu kp]. intros H.
      sq H o1 E. rq E a1. sq H o1 E. op E (@wp_scale_thr Pose K) a2. sq H o1 E. rq E a3. sq H o1 E. op E (@wp_kparam Pose K) a4.
      exists m. split; [reflexivity|]. destruct (yfind m "pair_weights") as [y|] eqn:Y.
      + apply lpart_iff in H. destruct H as (s & E & ->). apply pw_spec in E. cbn in *. do 5 (split; [assumption || reflexivity|]).
        right. exists y. auto.
      + injection H as <-. cbn in *. do 5 (split; [assumption || reflexivity|]). left. auto.
    - intros (m & -> & A1 & A2 & A3 & A4 & A5 & A6). destruct o as [us th pw ke cu kp], o' as [us' th' pw' ke' cu' kp']. cbn in *. subst cu'.
      unfold wp_load_map. bsq; [brq us'|]. bsq; [bop (@wp_scale_thr Pose K) th'|]. bsq; [brq ke'|]. bsq; [bop (@wp_kparam Pose K) kp'|].
      destruct A6 as [[-> ->]|(y & -> & L)]; [reflexivity|]. apply lpart_iff. exists pw'. split; [|reflexivity]. apply pw_spec, L.
  Qed.

  (** C274: what save_to() writes, load_from() reads back into any object; the pose estimate is not part of it. *)
  Theorem C274_weights_round_trip : forall p o : @WP Pose K,
    (forall b, as_bool (YB b) = Some b) -> (forall q, as_num (YQ q) = Some q) -> (forall k, as_kernel (of_kernel k) = Some k) ->
    exists o', wp_load as_bool as_num as_kernel (wp_save of_kernel p) o = (o', true)
      /\ wp_use_scale o' = wp_use_scale p /\ wp_scale_thr o' = wp_scale_thr p /\ wp_weights o' = wp_weights p
      /\ wp_kernel o' = wp_kernel p /\ wp_kparam o' = wp_kparam p /\ wp_current o' = wp_current o.
  Proof.
    intros p o B N KE. destruct p as [us th [p1 p2 p3 p4 p5] ke cu kp], o as [us' th' pw' ke' cu' kp'].
    exists (mkWPar us th (mkPW p1 p2 p3 p4 p5) ke cu' kp). split; [|cbn; auto 8].
    apply C273_weights_as_configured. eexists. split; [reflexivity|]. cbn [wp_use_scale wp_scale_thr wp_weights wp_kernel wp_kparam wp_current].
    split; [eexists; split; [reflexivity|apply B]|]. split; [right; eexists; split; [reflexivity|apply N]|].
    split; [eexists; split; [reflexivity|apply KE]|]. split; [right; eexists; split; [reflexivity|apply N]|]. split; [reflexivity|].
    right. eexists. split; [reflexivity|]. eexists. split; [reflexivity|].
    do 4 (split; [eexists; split; [reflexivity|apply N]|]). eexists; split; [reflexivity|apply N].
  Qed.

  (** C275, what is left of a load that throws: every parameter has its old value or that of its entry. *)
  Theorem C275_failed_load_where : forall m (o o' : @WP Pose K) ok,
    wp_load as_bool as_num as_kernel (YDict m) o = (o', ok) ->
    wp_current o' = wp_current o
    /\ (wp_use_scale o' = wp_use_scale o \/ Given as_bool m "use_scale_outlier_detector" (wp_use_scale o'))
    /\ (wp_scale_thr o' = wp_scale_thr o \/ Given as_num m "scale_outlier_threshold" (wp_scale_thr o'))
    /\ (wp_kernel o' = wp_kernel o \/ Given as_kernel m "robust_kernel" (wp_kernel o'))
    /\ (wp_kparam o' = wp_kparam o \/ Given as_num m "robust_kernel_param" (wp_kparam o'))
    /\ (yfind m "pair_weights" = None -> wp_weights o' = wp_weights o)
    /\ ((forall b, ~ Given as_bool m "use_scale_outlier_detector" b) -> o' = o /\ ok = false).
  Proof.
    intros m o o' ok H. cbn [wp_load] in H. unfold wp_load_map, lseq, lreq, lopt in H. unfold Given.
    destruct o as [us th pw ke cu kp].
    destruct (yfind m "use_scale_outlier_detector") as [v1|] eqn:Y1; cbn in H.
    2:{ injection H as <- <-. cbn. do 6 (split; [auto|]). auto. }
    destruct (as_bool v1) as [a1|] eqn:C1; cbn in H.
    2:{ injection H as <- <-. cbn. do 6 (split; [auto|]). auto. }
    assert (NO : (forall b, ~ exists v, Some v1 = Some v /\ as_bool v = Some b) -> False).
    { intros N. apply (N a1). exists v1. auto. }
    assert (U : exists v, Some v1 = Some v /\ as_bool v = Some a1) by (exists v1; auto).
    destruct (yfind m "scale_outlier_threshold") as [v2|] eqn:Y2; cbn in H.
    1: destruct (as_num v2) as [a2|] eqn:C2; cbn in H.
    2:{ injection H as <- <-. cbn. do 6 (split; [auto|]). intros N. destruct (NO N). }
    all: destruct (yfind m "robust_kernel") as [v3|] eqn:Y3; cbn in H;
      [destruct (as_kernel v3) as [a3|] eqn:C3; cbn in H|];
      try (injection H as <- <-; cbn; do 6 (split; [eauto|]); intros N; destruct (NO N); fail).
    all: destruct (yfind m "robust_kernel_param") as [v4|] eqn:Y4; cbn in H;
      [destruct (as_num v4) as [a4|] eqn:C4; cbn in H|];
      try (injection H as <- <-; cbn; do 6 (split; [eauto|]); intros N; destruct (NO N); fail).
    all: destruct (yfind m "pair_weights") as [y|]; cbn in H;
      [unfold lpart in H; cbn in H; destruct (pw_load as_num y pw) as [s ok']|]; injection H as <- <-; cbn;
      do 5 (split; [eauto|]); (split; [intros; congruence || reflexivity|intros N; destruct (NO N)]).
  Qed.

  (** C275: loading is not all or nothing: if the first entry can be read and the kernel is missing, the load
      throws, and yet the object has the new outlier option (and the new threshold). *)
  Theorem C275_failed_load_refuted : forall m (o : @WP Pose K) b q,
    Given as_bool m "use_scale_outlier_detector" b -> GivenOr as_num m "scale_outlier_threshold" (wp_scale_thr o) q -> yfind m "robust_kernel" = None ->
    wp_load as_bool as_num as_kernel (YDict m) o = (mkWPar b q (wp_weights o) (wp_kernel o) (wp_current o) (wp_kparam o), false).
  Proof.
    intros m o b q (v & Y & C) G N. cbn [wp_load]. unfold wp_load_map, lseq, lreq, lopt. rewrite Y, C, N.
    destruct G as [[-> ->]|(w & -> & ->)]; reflexivity.
  Qed.

  Lemma win_spec m o o' : win_load as_bool as_nat m o = (o', true) <-> LoadedWin as_bool as_nat m o o'.
  Proof.
    unfold LoadedWin, win_load. destruct o as [fr up en]. split.
    - intros H. sq H o1 E. op E w_from a1. sq H o1 E. op E w_upto a2. op H w_enabled a3. cbn in *. auto.
    - intros (A1 & A2 & A3). destruct o' as [fr' up' en']. cbn in *. bsq; [bop w_from fr'|]. bsq; [bop w_upto up'|]. bop w_enabled en'.
  Qed.

  (** C276: a configured matcher runs at the iterations of its window and no other, and where it does not run it
      changes nothing. *)
  Theorem C276_matcher_window : forall PP PL PN LL NN W Env Po m w w'
    (impl : nat -> Po -> Env -> Pairings PP PL PN LL NN W -> res (Env * bool * Pairings PP PL PN LL NN W)) i pose env out,
    win_load as_bool as_nat m w = (w', true) ->
    LoadedWin as_bool as_nat m w w'
    /\ (Active w' i -> matcher_match (matcher_of w' impl) i pose env out = impl i pose env out)
    /\ (~ Active w' i -> matcher_match (matcher_of w' impl) i pose env out = Ok (env, false, out)).
  Proof.
    intros PP PL PN LL NN W Env Po m w w' impl i pose env out H. split; [apply win_spec, H|]. clear H.
    unfold matcher_match, matcher_of, matcher_gate, Active. cbn [m_enabled m_runFromIteration m_runUpToIteration m_impl_match].
    destruct w' as [fr up en]. cbn [w_from w_upto w_enabled]. destruct en; cbn [negb].
    - destruct (Nat.ltb_spec i fr); [split; [lia|reflexivity]|].
      destruct (Nat.ltb_spec 0 up); cbn [andb]; [destruct (Nat.ltb_spec up i)|]; (split; [intros A; (reflexivity || (exfalso; lia))|intros N; (reflexivity || (exfalso; apply N; split; [reflexivity|lia]))]).
    - split; [intros (X & _); discriminate X|reflexivity].
  Qed.

  Lemma solver_spec m o o' : solver_load as_bool as_num as_nat m o = (o', true) <-> LoadedSolver as_bool as_num as_nat m o o'.
  Proof.
    unfold LoadedSolver, solver_load. destruct o as [wi un]. split.
    - intros H. sq H o1 E. apply lpart_iff in E. destruct E as (s & E & ->). op H sb_until a1. cbn in *. split; [apply win_spec, E|exact G].
    - intros (A1 & A2). destruct o' as [wi' un']. cbn in *. bsq; [apply lpart_iff; exists wi'; split; [apply win_spec, A1|reflexivity]|]. bop sb_until un'.
  Qed.

  (** C273, for Solver_Horn and Solver_OLAE: the window, the threshold and, if there is an entry for them, the weights are
      those of the configuration. *)
  Theorem C273_weighted_solver_as_configured : forall m (o o' : @WSolver Pose K),
    wsolver_load as_bool as_num as_nat as_kernel m o = (o', true) <->
    LoadedSolver as_bool as_num as_nat m (ws_base o) (ws_base o')
    /\ ((yfind m "pairingsWeightParameters" = None /\ ws_weights o' = ws_weights o)
        \/ exists y, yfind m "pairingsWeightParameters" = Some y /\ LoadedWP as_bool as_num as_kernel y (ws_weights o) (ws_weights o')).
  Proof.
    intros m o o'. unfold wsolver_load. destruct o as [b w]. split.
    - intros H. sq H o1 E. apply lpart_iff in E. destruct E as (s & E & ->). apply solver_spec in E. cbn [ws_base ws_weights] in *.
      destruct (yfind m "pairingsWeightParameters") as [y|].
      + apply lpart_iff in H. destruct H as (s2 & E2 & ->). apply C273_weights_as_configured in E2. cbn [ws_base ws_weights] in *. split; [exact E|]. right. exists y. auto.
      + injection H as <-. split; [exact E|]. left. auto.
    - destruct o' as [b' w']. cbn [ws_base ws_weights]. intros [A B]. bsq; [apply lpart_iff; exists b'; split; [apply solver_spec, A|reflexivity]|]. cbn [ws_base ws_weights].
      destruct B as [[-> ->]|(y & -> & B)]; [reflexivity|]. apply lpart_iff. exists w'. split; [apply C273_weights_as_configured, B|reflexivity].
  Qed.
  (** C282: QualityEvaluator_Voxels needs the name of a layer; the scale is optional. *)
  Theorem C282_voxel_evaluator_as_configured : forall m o o', voxq_load as_str as_num m o = (o', true) <->
    Given as_str m "voxel_layer_name" (vq_layer o') /\ GivenOr as_num m "dist2quality_scale" (vq_scale o) (vq_scale o').
  Proof.
    intros m o o'. unfold voxq_load. destruct o as [l s]. split.
    - intros H. sq H o1 E. rq E a1. op H vq_scale a2. cbn in *. auto.
    - destruct o' as [l' s']. cbn. intros [A B]. bsq; [brq l'|]. bop vq_scale s'.
  Qed.

  (** C277: a configured solver is tried at the iterations of its window only; there, without a threshold on the
      last correction, its answer is the answer; outside, it answers no and changes nothing. *)
  Theorem C277_solver_window : forall (Env Po Pairs : Type) (tnorm : Po -> Q) m s s' id
    (impl : @SolverContext Po -> Pairs -> Env -> @Solution Po -> res (Env * bool * @Solution Po)) pairings out sc latched env i,
    solver_load as_bool as_num as_nat m s = (s', true) -> sc_icpIteration sc = Some i ->
    LoadedSolver as_bool as_num as_nat m s s'
    /\ (~ Active (sb_win s') i -> solver_optimal_pose tnorm (solver_of id s' impl) pairings out sc latched env = Ok (env, latched, false, out))
    /\ (Active (sb_win s') i -> (sb_until s' <= 0)%Q ->
        solver_optimal_pose tnorm (solver_of id s' impl) pairings out sc latched env =
        match impl sc pairings env out with Ok (e, b, r) => Ok (e, latched, b, r) | Throw => Throw | UB => UB end).
  Proof.
    intros Env Po Pairs tnorm m s s' id impl pairings out sc latched env i H EI. split; [apply solver_spec, H|]. clear H.
    unfold solver_optimal_pose, solver_of, solver_iter_gate, Active. rewrite EI. cbn [s_enabled s_runFromIteration s_runUpToIteration s_impl].
    destruct s' as [[fr up en] un]. cbn [sb_win sb_until w_from w_upto w_enabled]. split.
    - intros N. destruct en; cbn [negb]; [|reflexivity]. destruct (Nat.ltb_spec i fr); [reflexivity|].
      destruct (Nat.ltb_spec 0 up); cbn [andb]; [destruct (Nat.ltb_spec up i); [reflexivity|]|]; exfalso; apply N; (split; [reflexivity|lia]).
    - intros (-> & A & B) UN. cbn [negb]. destruct (Nat.ltb_spec i fr); [lia|].
      destruct (Nat.ltb_spec 0 up); cbn [andb]; [destruct (Nat.ltb_spec up i); [lia|]|]; unfold solver_latch_gate;
      cbn [s_runUntilTranslationCorrectionSmallerThan];
      (replace (Qltb 0 un) with false; [|symmetry; apply not_true_is_false; intros Q; apply Qltb_lt in Q; exact (Qlt_not_le _ _ Q UN)]);
      cbn [s_impl]; destruct (impl sc pairings env out) as [[[e b] r]| |]; reflexivity.
  Qed.

  Lemma pb_fwd m o o' : pb_load as_bool as_str as_num as_nat as_int m o = (o', true) ->
    LoadedBase as_bool as_str as_num as_nat as_int m o o'.
  Proof.
    unfold pb_load. destruct o as [wi ta ml se al ag le ep]. intros H.
    sq H o1 E. apply lpart_iff in E. destruct E as (s & EW & ->). cbn [pb_win pb_table pb_maxLocal pb_seed pb_allowLocal pb_allowGlobal pb_leaf pb_eps] in *.
    sq H o1 E. assert (T : exists ta', o1 = mkPB s ta' ml se al ag le ep /\
      ((yfind m "pointLayerMatches" = None /\ ta' = ta) \/ exists es, yfind m "pointLayerMatches" = Some (YSeq es) /\ Says as_str as_num es ta' /\ (es = [] <-> ta' = []))).
    { unfold pb_layers in E. cbn [pb_win pb_table pb_maxLocal pb_seed pb_allowLocal pb_allowGlobal pb_leaf pb_eps] in E.
      destruct (yfind m "pointLayerMatches") as [[| | | |es|]|]; try discriminate E.
      - destruct (layers_loop as_str as_num es []) as [t ok] eqn:L. injection E as <- ->. exists t. split; [reflexivity|]. right. exists es. split; [reflexivity|].
        destruct (layers_spec _ _ _ _ _ L) as (ps & F & P & Z). split.
        + exists ps. split; [exact F|]. intros g l w. rewrite P. split; [intros [X|[X _]]; [exact X|discriminate X]|auto].
        + rewrite Z. tauto.
      - injection E as <-. exists ta. split; [reflexivity|]. left. auto. }
    destruct T as (ta' & -> & T). clear E.
    sq H o1 E. op E pb_maxLocal a1. sq H o1 E. op E pb_seed a2. sq H o1 E. op E pb_allowLocal a3. sq H o1 E. op E pb_allowGlobal a4.
    cbn [pb_win pb_table pb_maxLocal pb_seed pb_allowLocal pb_allowGlobal pb_leaf pb_eps] in *.
    sq H o1 E. assert (LE : exists le', o1 = mkPB s ta' a1 a2 a3 a4 le' ep /\ exists n, GivenOr as_int m "kdtree_leaf_max_points" 0%Z n
        /\ ((n <= 0)%Z -> le' = le) /\ ((0 < n)%Z -> le' = Some n)).
    { unfold pb_kdtree in E. cbn [pb_win pb_table pb_maxLocal pb_seed pb_allowLocal pb_allowGlobal pb_leaf pb_eps] in E.
      destruct (yfind m "kdtree_leaf_max_points") as [v|] eqn:Y.
      - destruct (as_int v) as [n|] eqn:C; [|discriminate E]. destruct (Z.ltb_spec 0 n) as [P|P]; injection E as <-.
        + exists (Some n). split; [reflexivity|]. exists n. split; [right; exists v; auto|]. split; [lia|auto].
        + exists le. split; [reflexivity|]. exists n. split; [right; exists v; auto|]. split; [auto|lia].
      - injection E as <-. exists le. split; [reflexivity|]. exists 0%Z. split; [left; auto|]. split; [auto|lia]. }
    destruct LE as (le' & -> & LE). op H pb_eps a5.
    unfold LoadedBase. cbn [pb_win pb_table pb_maxLocal pb_seed pb_allowLocal pb_allowGlobal pb_leaf pb_eps] in *.
    split; [apply win_spec, EW|]. auto 9.
  Qed.
  Lemma pb_bwd m o o' : LoadedBase as_bool as_str as_num as_nat as_int m o o' ->
    exists o2, pb_load as_bool as_str as_num as_nat as_int m o = (o2, true).
  Proof.
    intros (A0 & A1 & A2 & A3 & A4 & A5 & A6 & A7). destruct o as [wi ta ml se al ag le ep], o' as [wi' ta' ml' se' al' ag' le' ep'].
    cbn [pb_win pb_table pb_maxLocal pb_seed pb_allowLocal pb_allowGlobal pb_leaf pb_eps] in *.
    assert (T : exists t, pb_layers as_str as_num m (mkPB wi' ta ml se al ag le ep) = (mkPB wi' t ml se al ag le ep, true)).
    { unfold pb_layers. cbn [pb_win pb_table pb_maxLocal pb_seed pb_allowLocal pb_allowGlobal pb_leaf pb_eps].
      destruct A1 as [[-> _]|(es & -> & (ps & F & _) & _)]; [eexists; reflexivity|].
      destruct (layers_accept as_str as_num es [] ps F) as [t L]. rewrite L. eexists. reflexivity. }
    destruct T as [t T].
    assert (KD : exists l2, pb_kdtree as_int m (mkPB wi' t ml' se' al' ag' le ep) = (mkPB wi' t ml' se' al' ag' l2 ep, true)).
    { unfold pb_kdtree. cbn [pb_win pb_table pb_maxLocal pb_seed pb_allowLocal pb_allowGlobal pb_leaf pb_eps].
      destruct A6 as (n & [[-> _]|(v & -> & ->)] & _); [eexists; reflexivity|]. destruct (0 <? n)%Z; eexists; reflexivity. }
    destruct KD as [l2 KD].
    eexists. unfold pb_load. bsq; [apply lpart_iff; exists wi'; split; [apply win_spec; exact A0|reflexivity]|].
    cbn [pb_win pb_table pb_maxLocal pb_seed pb_allowLocal pb_allowGlobal pb_leaf pb_eps].
    bsq; [exact T|]. bsq; [bop pb_maxLocal ml'|]. bsq; [bop pb_seed se'|]. bsq; [bop pb_allowLocal al'|]. bsq; [bop pb_allowGlobal ag'|].
    cbn [pb_win pb_table pb_maxLocal pb_seed pb_allowLocal pb_allowGlobal pb_leaf pb_eps].
    bsq; [exact KD|]. bop pb_eps ep'.
  Qed.

  (** C278: the parameters common to all point matchers, the table of layers included: each pair of layers has
      the weight of its latest entry, 1 if that entry has none, and no other pair has one; a matcher is accepted
      exactly if its entries can be read. *)
  Theorem C278_matcher_base_as_configured : forall m o,
    (forall o', pb_load as_bool as_str as_num as_nat as_int m o = (o', true) -> LoadedBase as_bool as_str as_num as_nat as_int m o o')
    /\ ((exists o', LoadedBase as_bool as_str as_num as_nat as_int m o o') ->
        exists o', pb_load as_bool as_str as_num as_nat as_int m o = (o', true)).
  Proof. intros m o. split; [apply pb_fwd|]. intros [o' L]. exact (pb_bwd _ _ _ L). Qed.

  (** C279: an empty list of layer matches does not mean that nothing is matched: the matcher falls back to matching all layers
      of equal names, as if the list were not there. *)
  Theorem C279_empty_list_matches_by_name_refuted : forall code m o o' pcGlobal pcLocal,
    yfind m "pointLayerMatches" = Some (YSeq []) ->
    pb_load as_bool as_str as_num as_nat as_int m o = (o', true) ->
    configured_matches (base_of code o') pcGlobal pcLocal =
    flat_map (fun g => match find_layer pcLocal (fst g) with Some _ => [(fst g, fst g, None)] | None => [] end) pcGlobal.
  Proof.
    intros code m o o' G L Y H. apply pb_fwd in H. destruct H as (_ & [[N _]|(es & E & _ & Z)] & _); [congruence|].
    assert (es = []) by congruence. apply Z in H. unfold configured_matches, base_of. rewrite H. reflexivity.
  Qed.
  Lemma find_layer_code {A B} (code : string -> nat) (f : A -> B) (l : list (string * A)) k : (forall a b, code a = code b -> a = b) ->
    find_layer (map (fun x => (code (fst x), f (snd x))) l) (code k) = option_map f (smap_get l k).
  Proof.
    intros INJ. induction l as [|[a b] l IH]; [reflexivity|]. cbn [map find_layer smap_get fst snd].
    destruct (Nat.eqb_spec (code a) (code k)) as [E|N].
    - apply INJ in E. subst a. rewrite String.eqb_refl. reflexivity.
    - destruct (String.eqb_spec a k) as [->|]; [contradiction|exact IH].
  Qed.
  (** C279, where it holds: with a list that is not empty, a global layer that no entry names is not matched, and
      a local layer is matched with a global one only if an entry says so, with the weight of the latest such entry. *)
  Theorem C279_listed_only_where : forall code m o o' es pcGlobal pcLocal g l w,
    (forall a b, code a = code b -> a = b) ->
    yfind m "pointLayerMatches" = Some (YSeq es) -> es <> [] ->
    pb_load as_bool as_str as_num as_nat as_int m o = (o', true) ->
    In (code g, code l, w) (configured_matches (base_of code o') pcGlobal pcLocal) ->
    exists q, w = Some q /\ (exists x, In (code g, x) pcGlobal) /\
      exists ps, Forall2 (Entry as_str as_num) es ps /\ exists q', In (g, l, q') ps.
  Proof.
    intros code m o o' es G L g l w INJ Y NE H IN. apply pb_fwd in H. destruct H as (_ & [[N _]|(es' & E & (ps & F & P) & Z)] & _); [congruence|].
    assert (es' = es) by congruence. subst es'. unfold configured_matches, base_of in IN. cbn [weight_pt2pt_layers] in IN.
    destruct (pb_table o') as [|t0 t] eqn:T; [destruct Z as [_ Z]; specialize (Z eq_refl); contradiction|]. rewrite <- T in *. clear NE Z.
    assert (SH : exists h r, map (fun gs : string * list (string * Q) => (code (fst gs), map (fun lw => (code (fst lw), snd lw)) (snd gs))) (pb_table o') = h :: r) by (rewrite T; cbn [map]; eauto).
    destruct SH as (h & r & SH). rewrite SH in IN. rewrite <- SH in IN. apply in_flat_map in IN. destruct IN as ([gn gl] & IG & IN). cbn [fst] in IN.
    destruct (find_layer (map (fun gs : string * list (string * Q) => (code (fst gs), map (fun lw => (code (fst lw), snd lw)) (snd gs))) (pb_table o')) gn) as [ls|] eqn:FL; [|destruct IN].
    apply in_map_iff in IN. destruct IN as ([ln q] & EQ & IL). cbn [fst snd] in EQ. injection EQ as E1 E2 <-. subst gn ln.
    rewrite (find_layer_code code (fun s => map (fun lw => (code (fst lw), snd lw)) s) (pb_table o') g INJ) in FL.
    destruct (smap_get (pb_table o') g) as [s|] eqn:SG; [|discriminate FL]. injection FL as <-.
    apply in_map_iff in IL. destruct IL as ([l0 q0] & EQ & IS). cbn [fst snd] in EQ. injection EQ as EL ->. apply INJ in EL. subst l0.
    exists q. split; [reflexivity|]. split; [eauto|]. exists ps. split; [exact F|].
    assert (X : exists q', smap_get s l = Some q').
    { clear -IS. induction s as [|[a b] s IH]; [destruct IS|]. cbn [smap_get]. destruct (String.eqb_spec a l); [eauto|]. destruct IS as [E|IS]; [injection E as -> ->; contradiction|exact (IH IS)]. }
    destruct X as [q' X]. assert (WO : weight_of (pb_table o') g l = Some q') by (unfold weight_of; rewrite SG; exact X).
    apply P in WO. destruct WO as (b & a & -> & _). exists q'. apply in_or_app. right. left. reflexivity.
  Qed.

  (** C280: Matcher_Adaptive accepts exactly the configurations in its documented ranges. *)
  Theorem C280_adaptive_as_configured : forall m o,
    (forall o', adaptive_load as_bool as_str as_num as_nat as_int m o = (o', true) -> LoadedAdaptive as_bool as_str as_num as_nat as_int m o o' /\ ad_accepted (ad_params o') = true)
    /\ ((exists o', LoadedAdaptive as_bool as_str as_num as_nat as_int m o o') ->
        exists o', adaptive_load as_bool as_str as_num as_nat as_int m o = (o', true)).
  Proof.
    intros m o. destruct o as [ba co [p1 p2 p3 p4 p5 p6 p7 p8 p9]]. unfold adaptive_load. split.
    - intros o' H. sq H o1 E. apply lpart_iff in E. destruct E as (s & EB & ->). cbn [ad_base ad_confidence ad_params] in *.
      sq H o1 E. rq E a0. nad. sq H o1 E. rq E a1. nad. sq H o1 E. rq E a2. nad.
      
      sq H o1 E. op E (fun o => a_minimumCorrDist (ad_params o)) a3. nad. sq H o1 E. rq E a4. nad.
      sq H o1 E. op E (fun o => a_planeSearchPoints (ad_params o)) a5. nad. sq H o1 E. op E (fun o => a_planeMinimumFoundPoints (ad_params o)) a6. nad.
      sq H o1 E. op E (fun o => a_planeEigenThreshold (ad_params o)) a7. nad. sq H o1 E. op E (fun o => a_maxPt2PtCorrespondences (ad_params o)) a8. nad.
      sq H o1 E. op E (fun o => a_planeMinimumDistance (ad_params o)) a9. nad.
      sq H o1 E. apply lassert_iff in E. destruct E as [C1 ->]. sq H o1 E. apply lassert_iff in E. destruct E as [C2 ->]. apply lassert_iff in H. destruct H as [C3 ->].
      cbn in *. split; [|exact C3]. unfold ad_accepted in C3. cbn in C3. apply andb_prop in C3. destruct C3 as [C3 C4]. apply andb_prop in C3. destruct C3 as [C3 C5].
      apply Nat.leb_le in C3. change (Nat.leb 3 a6 = true) in C5. apply Nat.leb_le in C5. apply Qltb_lt in C1, C2, C4.
      unfold LoadedAdaptive. cbn. split; [apply pb_fwd, EB|]. do 8 (split; [assumption|]). split; [assumption|]. split; [lia|]. auto.
    - intros [o' (B & A0 & C1 & C2 & A1 & A2 & A3 & A4 & A5 & A6 & C3 & A7 & C4 & A8 & A9)]. destruct o' as [ba' co' [q1 q2 q3 q4 q5 q6 q7 q8 q9]]. cbn in *.
      destruct (pb_bwd _ _ _ B) as [b2 EB]. eexists.
      bsq; [apply lpart_iff; exists b2; split; [exact EB|reflexivity]|]. bsq; [brq co'|]. nad. bsq; [brq q1|]. nad. bsq; [brq q2|]. nad.
      bsq; [bop (fun o => a_minimumCorrDist (ad_params o)) q9|]. nad. bsq; [brq q3|]. nad.
      bsq; [bop (fun o => a_planeSearchPoints (ad_params o)) q5|]. nad. bsq; [bop (fun o => a_planeMinimumFoundPoints (ad_params o)) q6|]. nad.
      bsq; [bop (fun o => a_planeEigenThreshold (ad_params o)) q8|]. nad. bsq; [bop (fun o => a_maxPt2PtCorrespondences (ad_params o)) q4|]. nad.
      bsq; [bop (fun o => a_planeMinimumDistance (ad_params o)) q7|]. nad.
      bsq; [apply lassert_iff; split; [apply Qltb_lt; exact C2|reflexivity]|]. bsq; [apply lassert_iff; split; [apply Qltb_lt; exact C1|reflexivity]|].
      apply lassert_iff. split; [|reflexivity]. unfold ad_accepted. cbn [ad_set ad_params a_firstToSecondDistanceMax a_absoluteMaxSearchDistance a_enableDetectPlanes a_maxPt2PtCorrespondences a_planeSearchPoints a_planeMinimumFoundPoints a_planeMinimumDistance a_planeEigenThreshold a_minimumCorrDist].
      apply andb_true_intro. split; [apply andb_true_intro; split; apply Nat.leb_le; lia|apply Qltb_lt; exact C4].
  Qed.

  (** C281: Matcher_Point2Line accepts exactly the configurations that have all its entries and ask for at least two
      points per line. *)
  Theorem C281_line_as_configured : forall m o,
    (forall o', line_load as_bool as_str as_num as_nat as_int m o = (o', true) -> LoadedLine as_bool as_str as_num as_nat as_int m o o' /\ p2ln_accepted (ln_params o') = true)
    /\ ((exists o', LoadedLine as_bool as_str as_num as_nat as_int m o o') ->
        exists o', line_load as_bool as_str as_num as_nat as_int m o = (o', true)).
  Proof.
    intros m o. destruct o as [ba [p1 p2 p3 p4]]. unfold line_load. split.
    - intros o' H. sq H o1 E. apply lpart_iff in E. destruct E as (s & EB & ->). sq H o1 E. rq E a1. sq H o1 E. rq E a2. sq H o1 E. rq E a3. sq H o1 E. rq E a4.
      apply lassert_iff in H. destruct H as [C ->]. split; [|exact C]. cbn in *. unfold p2ln_accepted in C. cbn in C. change (Nat.leb 2 a4 = true) in C. apply Nat.leb_le in C.
      unfold LoadedLine. cbn. split; [apply pb_fwd, EB|]. auto 6.
    - intros [o' (B & A1 & A2 & A3 & A4 & C)]. destruct o' as [ba' [q1 q2 q3 q4]]. cbn in *. destruct (pb_bwd _ _ _ B) as [b2 EB]. eexists.
      bsq; [apply lpart_iff; exists b2; split; [exact EB|reflexivity]|]. bsq; [brq q1|]. bsq; [brq q2|]. bsq; [brq q4|]. bsq; [brq q3|].
      apply lassert_iff. split; [|reflexivity]. unfold p2ln_accepted. apply Nat.leb_le in C. exact C.
  Qed.

  Lemma dthr_fwd m o o' : dthr_load as_bool as_str as_num as_nat as_int m o = (o', true) -> LoadedThr as_bool as_str as_num as_nat as_int m o o'.
  Proof.
    unfold dthr_load, form_req. destruct o as [ba fo]. intros H. sq H o1 E. apply lpart_iff in E. destruct E as (s & EB & ->).
    sq H o1 E. rq E a1. sq H o1 E. rq E a2. cbn [dt_base dt_forms] in *.
    unfold form_opt in H. split; [destruct (yfind m "pairingsPerPoint") as [v|]; [destruct (as_str v)|]; try discriminate H; injection H as <-; cbn; apply pb_fwd, EB|].
    destruct (yfind m "pairingsPerPoint") as [v|] eqn:Y.
    - destruct (as_str v) as [x|] eqn:C; [|discriminate H]. injection H as <-. exists a1, a2, (Some x). split; [exact G|]. split; [exact G0|].
      split; [right; exists x; split; [exists v; auto|reflexivity]|]. cbn. rewrite <- !app_assoc. reflexivity.
    - injection H as <-. exists a1, a2, None. split; [exact G|]. split; [exact G0|]. split; [left; auto|]. cbn. rewrite <- !app_assoc. reflexivity.
  Qed.
  Lemma dthr_bwd m o o' : LoadedThr as_bool as_str as_num as_nat as_int m o o' -> exists o2, dthr_load as_bool as_str as_num as_nat as_int m o = (o2, true).
  Proof.
    destruct o as [ba fo]. intros (B & t & a & p & T & A & P & _). destruct (pb_bwd _ _ _ B) as [b2 EB].
    unfold dthr_load, form_req. destruct P as [[N _]|(x & (v & N & V) & _)].
    - eexists. bsq; [apply lpart_iff; exists b2; split; [exact EB|reflexivity]|]. bsq; [brq t|]. bsq; [brq a|]. unfold form_opt. rewrite N. reflexivity.
    - eexists. bsq; [apply lpart_iff; exists b2; split; [exact EB|reflexivity]|]. bsq; [brq t|]. bsq; [brq a|]. unfold form_opt. rewrite N, V. reflexivity.
  Qed.

  (** C282, what the evaluator accepts and does: reusing the pairings of ICP, the configuration of the matcher is
      ignored; otherwise its matcher is configured with the same entries, global points being allowed several
      partners unless the configuration says something else, and the entries of the matcher are required. *)
  Theorem C282_paired_ratio_where : forall m o o',
    pratio_load as_bool as_str as_num as_nat as_int m o = (o', true) ->
    GivenOr as_bool m "reuse_icp_pairings" (pr_reuse o) (pr_reuse o')
    /\ GivenOr as_num m "absolute_minimum_pairing_ratio" (pr_min o) (pr_min o')
    /\ (pr_reuse o' = true -> pr_matcher o' = pr_matcher o)
    /\ (pr_reuse o' = false -> exists m', LoadedThr as_bool as_str as_num as_nat as_int m' (pr_matcher o) (pr_matcher o')
        /\ (forall k, yfind m k <> None \/ k <> "allowMatchAlreadyMatchedGlobalPoints" -> yfind m' k = yfind m k)
        /\ (yfind m "allowMatchAlreadyMatchedGlobalPoints" = None -> yfind m' "allowMatchAlreadyMatchedGlobalPoints" = Some (YB true))
        /\ ((forall b, as_bool (YB b) = Some b) -> yfind m "allowMatchAlreadyMatchedGlobalPoints" = None -> pb_allowGlobal (dt_base (pr_matcher o')) = true)
        /\ exists t a, Given as_str m "threshold" t /\ Given as_str m "thresholdAngularDeg" a).
  Proof.
    intros m o o' H. unfold pratio_load in H. destruct o as [re mi ma]. sq H o1 E. op E pr_reuse a1. sq H o1 E. op E pr_min a2.
    cbn [pr_reuse pr_min pr_matcher] in *. destruct a1.
    - injection H as <-. cbn. split; [exact G|]. split; [exact G0|]. split; [reflexivity|discriminate].
    - apply lpart_iff in H. destruct H as (s & E & ->). cbn [pr_reuse pr_min pr_matcher] in *. split; [exact G|]. split; [exact G0|]. split; [discriminate|]. intros _.
      apply dthr_fwd in E. eexists. split; [exact E|].
      destruct (yfind m "allowMatchAlreadyMatchedGlobalPoints") as [v|] eqn:Y.
      + split; [reflexivity|]. split; [discriminate|]. split; [intros _ X; discriminate X|]. destruct E as (_ & t & a & p & T & A & _). eauto.
      + assert (YF : forall k, k <> "allowMatchAlreadyMatchedGlobalPoints" -> yfind (("allowMatchAlreadyMatchedGlobalPoints", YB true) :: m) k = yfind m k).
        { intros k N. cbn [yfind]. destruct (String.eqb_spec "allowMatchAlreadyMatchedGlobalPoints" k); [congruence|reflexivity]. }
        split; [intros k [N|N]; apply YF; [intros ->; contradiction|exact N]|]. split; [intros _; reflexivity|]. split.
        * intros B _. destruct E as ((_ & _ & _ & _ & _ & X & _) & _). destruct X as [[X _]|(v & X & C)]; [discriminate X|]. cbn [yfind] in X. rewrite String.eqb_refl in X. injection X as <-. rewrite B in C. injection C as ->. reflexivity.
        * destruct E as (_ & t & a & p & (v1 & T & T2) & (v2 & A & A2) & _). rewrite YF in T, A by discriminate. exists t, a. split; eexists; eauto.
  Qed.
  (** C282: the configuration shown in the documentation of the evaluator, uncommented, is rejected: it has
      thresholdDistance, and the matcher requires threshold.  It is rejected whatever else is there. *)
  Theorem C282_documented_configuration_refuted : forall m o,
    yfind m "threshold" = None -> GivenOr as_bool m "reuse_icp_pairings" (pr_reuse o) false ->
    snd (pratio_load as_bool as_str as_num as_nat as_int m o) = false.
  Proof.
    intros m o T R. destruct (pratio_load as_bool as_str as_num as_nat as_int m o) as [o' [|]] eqn:E; [|reflexivity]. exfalso.
    apply C282_paired_ratio_where in E. destruct E as (R' & _ & _ & P).
    assert (RF : pr_reuse o' = false).
    { destruct R as [[N ->]|(v & Y & C)], R' as [[N' ->]|(v' & Y' & C')]; congruence. }
    destruct (P RF) as (m' & _ & _ & _ & _ & t & a & (v & Y & _) & _). congruence.
  Qed.

  (** C283: Matcher_Points_InlierRatio accepts any number as ratio, 1 included, which its documentation allows;
      with a number that is not strictly between 0 and 1 every matching of two layers throws. *)
  Theorem C283_accepted_ratio_throws_refuted : forall fMax shuffle mround tf gl lpts gname lname ms out code m o o' r,
    Given as_num m "inliersRatio" r -> (r <= 0 \/ 1 <= r)%Q ->
    inlier_load as_bool as_str as_num as_nat as_int m o = (o', true) ->
    il_ratio o' = r
    /\ ir_one_layer fMax shuffle tf (base_of code (il_base o')) mround (il_ratio o') gl lpts gname lname ms out = Throw.
  Proof.
    intros fMax shuffle mround tf gl lpts gname lname ms out code m o o' r (v & Y & C) R H. unfold inlier_load in H. sq H o1 E.
    apply lpart_iff in E. destruct E as (s & EB & ->). rq H a. cbn [il_ratio il_base]. destruct G as (v' & Y' & C').
    assert (a = r) by congruence. subst a. split; [reflexivity|]. unfold ir_one_layer.
    replace (Qle_bool r 0 || Qle_bool 1 r)%bool with true; [reflexivity|]. symmetry. apply orb_true_iff.
    destruct R; [left|right]; apply Qle_bool_iff; assumption.
  Qed.
  (** C283, what is accepted, and where the ratio itself is no reason to throw. *)
  Theorem C283_inlier_ratio_where : forall m o,
    (forall o', inlier_load as_bool as_str as_num as_nat as_int m o = (o', true) ->
       LoadedBase as_bool as_str as_num as_nat as_int m (il_base o) (il_base o') /\ Given as_num m "inliersRatio" (il_ratio o')
       /\ ((0 < il_ratio o' < 1)%Q -> forall fMax shuffle mround tf nn label gname lname ms out code lpts,
           isNil (nn_points nn) = true \/ lpts = [] ->
           ir_one_layer fMax shuffle tf (base_of code (il_base o')) mround (il_ratio o') (mkLayer label (Some nn)) lpts gname lname ms out
           = Ok (ms, add_potential out (List.length lpts))))
    /\ ((exists b r, LoadedBase as_bool as_str as_num as_nat as_int m (il_base o) b /\ Given as_num m "inliersRatio" r) ->
        exists o', inlier_load as_bool as_str as_num as_nat as_int m o = (o', true)).
  Proof.
    intros m o. destruct o as [ba ra]. unfold inlier_load. split.
    - intros o' H. sq H o1 E. apply lpart_iff in E. destruct E as (s & EB & ->). rq H a. cbn [il_ratio il_base] in *.
      split; [apply pb_fwd, EB|]. split; [exact G|]. intros [R1 R2] fMax shuffle mround tf nn label gname lname ms out code lpts EM. unfold ir_one_layer.
      replace (Qle_bool a 0) with false by (symmetry; apply not_true_is_false; intros X; apply Qle_bool_iff in X; exact (Qlt_not_le _ _ R1 X)).
      replace (Qle_bool 1 a) with false by (symmetry; apply not_true_is_false; intros X; apply Qle_bool_iff in X; exact (Qlt_not_le _ _ R2 X)).
      cbn [orb ly_nn]. destruct EM as [-> | ->]; [reflexivity|]. rewrite orb_true_r. reflexivity.
    - intros (b & r & B & R). cbn [il_base] in B. destruct (pb_bwd _ _ _ B) as [b2 EB]. eexists.
      bsq; [apply lpart_iff; exists b2; split; [exact EB|reflexivity]|]. brq r.
  Qed.
End InitP.

(** *** Concrete configurations *)
  Definition eb (y : yml) := match y with YB b => Some b | _ => None end.
  Definition es (y : yml) := match y with YT s => Some s | _ => None end.
  Definition en (y : yml) := match y with YQ q => Some q | _ => None end.
  Definition ei (y : yml) := match y with YQ q => if (Qden q =? 1)%positive then Some (Qnum q) else None | _ => None end.
  Definition eu (y : yml) := match ei y with Some z => if (z <? 0)%Z then None else Some (Z.to_nat z) | None => None end.
  Definition w0 : @WP nat string := mkWPar true 1 (mkPW 1 1 1 1 1) "None" (Some 7%nat) 1.
  Definition cw := YDict [("use_scale_outlier_detector", YB false); ("robust_kernel", YT "GemanMcClure"); ("robust_kernel_param", YQ (3 # 2));
    ("pair_weights", YDict [("pt2pt", YQ 2); ("pt2pl", YQ 3); ("pt2ln", YQ 4); ("ln2ln", YQ 5); ("pl2pl", YQ 6)])].
  (** the hypotheses of C273, C274 and C275 are met *)
  Example ex_weights : wp_load eb en es cw w0 = (mkWPar false 1 (mkPW 2 3 4 5 6) "GemanMcClure" (Some 7%nat) (3 # 2), true).
  Proof. reflexivity. Qed.
  Example ex_weights_half : wp_load eb en es (YDict [("use_scale_outlier_detector", YB false)]) w0 = (mkWPar false 1 (mkPW 1 1 1 1 1) "None" (Some 7%nat) 1, false).
  Proof. reflexivity. Qed.
  Example ex_weights_save : wp_load eb en es (wp_save YT w0) w0 = (w0, true).
  Proof. reflexivity. Qed.

  Definition b0 := mkPB (mkWin 0 0 true) [] 0 0 false false None (1 # 10).
  Definition cb : list (string * yml) := [("runFromIteration", YQ 2); ("runUpToIteration", YQ 5);
    ("pointLayerMatches", YSeq [YDict [("global", YT "map"); ("local", YT "raw"); ("weight", YQ 3)]; YDict [("global", YT "map"); ("local", YT "edges")];
                                YDict [("global", YT "map"); ("local", YT "raw"); ("weight", YQ (1 # 2))]; YDict [("global", YT "a"); ("local", YT "raw")]]);
    ("kdtree_leaf_max_points", YQ 10); ("allowMatchAlreadyMatchedGlobalPoints", YB true)].
  Example ex_base : pb_load eb es en eu ei cb b0 =
    (mkPB (mkWin 2 5 true) [("a", [("raw", 1%Q)]); ("map", [("edges", 1%Q); ("raw", 1 # 2)])] 0 0 false true (Some 10%Z) (1 # 10), true).
  Proof. vm_compute. reflexivity. Qed.
  (** the window of C276, C277: iterations 2 to 5 *)
  Example ex_active : Active (mkWin 2 5 true) 5 /\ ~ Active (mkWin 2 5 true) 6 /\ Active (mkWin 2 0 true) 1000.
  Proof. unfold Active. cbn [w_from w_upto w_enabled]. split; [|split]; [split; [reflexivity|lia]|intros (_ & _ & [?|?]); lia|split; [reflexivity|lia]]. Qed.
  Example ex_solver : solver_load eb en eu [("runUpToIteration", YQ 3); ("runUntilTranslationCorrectionSmallerThan", YQ (1 # 100))] (mkSB (mkWin 0 0 true) 0) = (mkSB (mkWin 0 3 true) (1 # 100), true).
  Proof. reflexivity. Qed.
  (** C279: an empty list is accepted *)
  Example ex_empty : pb_load eb es en eu ei [("pointLayerMatches", YSeq [])] b0 = (b0, true).
  Proof. reflexivity. Qed.
  Example ex_base_bad : snd (pb_load eb es en eu ei [("pointLayerMatches", YSeq [YDict [("global", YT "map")]])] b0) = false.
  Proof. reflexivity. Qed.
  (** C280, C281: an accepted and a rejected configuration *)
  Definition a0 := mkAdap b0 (9 # 10) (mkAd 1 1 false 1 8 4 0 (1 # 100) (1 # 10)).
  Definition ca c := [("confidenceInterval", YQ c); ("firstToSecondDistanceMax", YQ 2); ("absoluteMaxSearchDistance", YQ 5); ("enableDetectPlanes", YB true); ("planeSearchPoints", YQ 7)].
  Example ex_adaptive : adaptive_load eb es en eu ei (ca (3 # 4)) a0 = (mkAdap b0 (3 # 4) (mkAd 2 5 true 1 7 4 0 (1 # 100) (1 # 10)), true)
    /\ snd (adaptive_load eb es en eu ei (ca 1) a0) = false.
  Proof. split; vm_compute; reflexivity. Qed.
  Definition cl n := [("distanceThreshold", YQ 1); ("knn", YQ 4); ("lineEigenThreshold", YQ (1 # 10)); ("minimumLinePoints", YQ n)].
  Example ex_line : snd (line_load eb es en eu ei (cl 2) (mkLn b0 (mkLine 1 4 4 1))) = true /\ snd (line_load eb es en eu ei (cl 1) (mkLn b0 (mkLine 1 4 4 1))) = false.
  Proof. split; reflexivity. Qed.
  (** C282: the documented configuration, and the same with threshold *)
  Definition p0 := mkPRatio true (1 # 5) (mkDThr b0 []).
  Example ex_ratio_doc : snd (pratio_load eb es en eu ei [("reuse_icp_pairings", YB false); ("thresholdDistance", YT "0.10"); ("thresholdAngularDeg", YT "0")] p0) = false.
  Proof. apply C282_documented_configuration_refuted; [reflexivity|]. right. exists (YB false). split; reflexivity. Qed.
  Example ex_ratio : pratio_load eb es en eu ei [("reuse_icp_pairings", YB false); ("threshold", YT "0.10"); ("thresholdAngularDeg", YT "0")] p0 =
    (mkPRatio false (1 # 5) (mkDThr (mkPB (mkWin 0 0 true) [] 0 0 false true None (1 # 10)) [("threshold", Some "0.10"); ("thresholdAngularDeg", Some "0"); ("pairingsPerPoint", None)]), true).
  Proof. reflexivity. Qed.
  (** C283: a ratio of 1 is accepted *)
  Example ex_inlier : inlier_load eb es en eu ei [("inliersRatio", YQ 1)] (mkInl b0 (4 # 5)) = (mkInl b0 1, true).
  Proof. reflexivity. Qed.
