(** C342: the default options, where the order of the local points matters, and when it does not. *)
From Coq Require Import Reals Qreals List Lia Lra Permutation.
From Verif Require Import Base PairingsModel MatcherModel BitfieldModel PointMatcherModel PointMatcherSpec PointMatcherProofs BruteNN SolverModel
  QualityModel IcpModel GeomModel VisitModel VisitSpec VisitProps RotProofs HornModel HornProofs NoiselessProofs OlaeModel EndToEndModel EndToEndProps HornProps MonotoneProps OrderProofs OrderProps.
Import ListNotations.
Open Scope nat_scope.

Section Where.
Variables (fMax : Q) (shuffle : list nat -> list nat) (mround : Q -> Z) (tf_of : Pose -> P3 -> P3)
  (name : nat) (gpts : option (list P3)) (nnG : NNMap) (b : BaseParams) (thr : Q).
Hypothesis NC : nn_correct nnG.
Hypothesis TP : (0 < thr)%Q.
Hypothesis TBL : weight_pt2pt_layers b = [].
Let G := gmap name gpts nnG.

(** the pairs of one run of the matcher *)
Definition found_at (T : Pose) (Ls : list P3) : ptpairings :=
  let bb := fold_left keep_bbox (map (tf_of T) Ls) (mkP3 fMax fMax fMax, mkP3 (- fMax) (- fMax) (- fMax))%Q in
  mkPairings (if isNil (nn_points nnG) || isNil Ls then [] else if bb_intersects (nn_bbox nnG) bb (thr + bbox_epsilon b)
              then pairs_from thr nnG (tf_of T) name name 0 Ls else []) [] [] [] [] [] (length Ls).

Lemma match_exact T nnL Ls it env : length (nn_points nnL) = length Ls ->
  maxLocalPointsPerLayer b = 0 \/ length Ls <= maxLocalPointsPerLayer b -> sharing_ok b thr nnG (tf_of T) Ls ->
  exists ms', run_matchers [pose_matcher fMax shuffle mround G (lmap name nnL Ls) tf_of (DT b thr 0 1) 0 0] it T
      (new_match_state G (lmap name nnL Ls) env) = Ok (ms', found_at T Ls).
Proof.
  intros LL LIM AG.
  destruct (fresh_state name gpts nnG nnL Ls) as (ms & EF & ML & MG). unfold new_match_state, G. rewrite EF.
  unfold run_matchers, run_matchers_loop, matcher_match, matcher_gate, pose_matcher, pm_matcher.
  cbn [m_enabled m_runFromIteration m_runUpToIteration m_impl_match negb].
  replace (Nat.ltb it 0) with false by (symmetry; apply Nat.ltb_ge; lia). cbn [Nat.ltb Nat.leb andb].
  unfold base_impl_match. cbn [pm_base pm_one_layer]. unfold gmap at 1. cbn [match_globals].
  unfold local_layers. rewrite TBL. cbn [match_locals]. unfold lmap at 1. cbn [find_layer]. rewrite Nat.eqb_refl. cbn [ly_points].
  unfold dt_one_layer.
  assert (C1 : (1 <? 1)%nat || Qle_bool thr 0 || Qltb 0 0 = false).
  { cbn [Nat.ltb Nat.leb orb]. apply Bool.orb_false_iff. split; [|reflexivity].
    destruct (Qle_bool thr 0) eqn:E; [|reflexivity]. apply Qle_bool_iff in E. exfalso. apply (Qlt_not_le _ _ TP E). }
  rewrite C1. cbn [ly_nn]. unfold found_at. cbv zeta.
  assert (PB : forall ps, push_back_copy pairings_empty_ctor (with_pairs (add_potential pairings_empty_ctor (length Ls * 1)) ps) = mkPairings ps [] [] [] [] [] (length Ls)).
  { intro ps. unfold push_back_copy, with_pairs, add_potential, pairings_empty_ctor.
    cbn [paired_pt2pt paired_pt2ln paired_pt2pl paired_ln2ln paired_pl2pl point_weights potential_pairings app Nat.add]. rewrite Nat.mul_1_r. reflexivity. }
  assert (P0 : push_back_copy pairings_empty_ctor (add_potential pairings_empty_ctor (length Ls * 1)) = mkPairings [] [] [] [] [] [] (length Ls)) by (rewrite <- PB; reflexivity).
  destruct (isNil (nn_points nnG) || isNil Ls) eqn:EN.
  { cbn [rbind match_globals match_locals]. rewrite P0. eexists. reflexivity. }
  apply Bool.orb_false_iff in EN. destruct EN as [NG NL].
  assert (TL : transform_local_to_global fMax shuffle (tf_of T) Ls (maxLocalPointsPerLayer b)
     = Ok (mkTL (fst (fold_left keep_bbox (map (tf_of T) Ls) (mkP3 fMax fMax fMax, mkP3 (- fMax) (- fMax) (- fMax))%Q)) (snd (fold_left keep_bbox (map (tf_of T) Ls) (mkP3 fMax fMax fMax, mkP3 (- fMax) (- fMax) (- fMax))%Q)) None (map (tf_of T) Ls))).
  { unfold transform_local_to_global. replace (Nat.eqb (maxLocalPointsPerLayer b) 0 || Nat.leb (length Ls) (maxLocalPointsPerLayer b)) with true; [reflexivity|].
    symmetry. destruct LIM as [->|X]; [reflexivity|]. apply Nat.leb_le in X. rewrite X. apply Bool.orb_true_r. }
  rewrite TL. cbn [rbind tl_min tl_max]. rewrite <- surjective_pairing.
  destruct (bb_intersects _ _ _); cbn [negb].
  2:{ cbn [rbind match_globals match_locals]. rewrite P0. eexists. reflexivity. }
  assert (NE : nn_points nnG <> []) by (destruct (nn_points nnG); [discriminate NG|discriminate]).
  destruct (mono_loop b (tf_of T) thr nnG Ls name name NC NE AG
    (fst (fold_left keep_bbox (map (tf_of T) Ls) (mkP3 fMax fMax fMax, mkP3 (- fMax) (- fMax) (- fMax))%Q)) (snd (fold_left keep_bbox (map (tf_of T) Ls) (mkP3 fMax fMax fMax, mkP3 (- fMax) (- fMax) (- fMax))%Q))
    (length Ls) 0 ms (add_potential pairings_empty_ctor (length Ls * 1))) as [ms' EL].
  - reflexivity.
  - rewrite ML. apply fresh_unmarked. rewrite LL. apply Nat.le_refl.
  - rewrite MG. apply fresh_unmarked. apply Nat.le_refl.
  - rewrite EL. cbn [rbind match_globals match_locals skipn]. rewrite PB. eexists. reflexivity.
Qed.

Lemma pairs_from_found tf ls : forall i, map no_index (pairs_from thr nnG tf name name i ls) = flat_map (fun l => map no_index (pair_of thr nnG tf name name 0 l)) ls.
Proof.
  induction ls as [|l ls IH]; intro i; cbn [pairs_from flat_map]; [reflexivity|]. rewrite map_app, IH. f_equal.
  unfold pair_of. destruct (nn_search nnG (tf l) 1) as [|[[g q] e] r]; [reflexivity|]. destruct (Qle_bool _ _); reflexivity.
Qed.

Lemma found_at_same T Ls Ls' : Permutation Ls Ls' -> same_found (found_at T Ls) (found_at T Ls').
Proof.
  intro P. unfold found_at, same_found. cbv zeta. cbn [paired_pt2pt potential_pairings]. assert (LP := Permutation_length P).
  split; [|split; [|split; [|exact LP]]]; [|repeat split|repeat split].
  assert (NI : isNil Ls' = isNil Ls) by (destruct Ls, Ls'; cbn in LP; try discriminate; reflexivity). rewrite NI.
  destruct (isNil (nn_points nnG) || isNil Ls); [constructor|].
  rewrite <- (intersects_comp _ _ _ _ (bbox_perm _ _ (Permutation_map (tf_of T) P) (mkP3 fMax fMax fMax, mkP3 (- fMax) (- fMax) (- fMax))%Q)).
  destruct (bb_intersects _ _ _); [|constructor]. rewrite !pairs_from_found. apply Permutation_flat_map. exact P.
Qed.

Lemma no_rivals_perm tf Ls Ls' : Permutation Ls Ls' -> no_rivals thr nnG tf Ls -> no_rivals thr nnG tf Ls'.
Proof.
  intros P H i j li lj k g d g' d' Hi Hj Si Sj D D'. apply Permutation_nth_error in P. destruct P as (_ & f & INJ & E).
  apply INJ. rewrite E in Hi, Hj. exact (H _ _ _ _ _ _ _ _ _ Hi Hj Si Sj D D').
Qed.

(** ** The whole run *)
Variables (algo : VPairs -> res (bool * HResult)) (pose_minus : Pose -> Pose -> Pose) (log_norms : Pose -> Q * Q) (tnorm : Pose -> Q) (w amin : Q) (p : IcpParams)
  (nnL nnL' : NNMap) (Ls Ls' : list P3).
Hypothesis OF : order_free_solver (closed_solver 0 algo).
Hypothesis PL : Permutation Ls Ls'.
Hypothesis L1 : length (nn_points nnL) = length Ls.
Hypothesis L2 : length (nn_points nnL') = length Ls'.
Hypothesis LIM : maxLocalPointsPerLayer b = 0 \/ length Ls <= maxLocalPointsPerLayer b.
Let realize := fun (_ : nat) (e : MatchState) => Ok e.
Let comps l := mkComponents [pose_matcher fMax shuffle mround G l tf_of (DT b thr 0 1) 0 0] [closed_solver 0 algo] [ratio_evaluator w amin] None.
Let L := lmap name nnL Ls.
Let L' := lmap name nnL' Ls'.
Notation state := (@LoopState Pair Datatypes.unit Datatypes.unit Datatypes.unit Datatypes.unit Q MatchState Pose).

(** everything but the marks *)
Definition rel_run (s s' : state) : Prop :=
  l_sol s = l_sol s' /\ same_found (l_pairings s) (l_pairings s') /\ l_prev s = l_prev s' /\ l_prev2 s = l_prev2 s' /\
  l_lastCorrection s = l_lastCorrection s' /\ l_latched s = l_latched s' /\ Forall2 rel_detail (l_details s) (l_details s').

Lemma sharing_perm tf : sharing_ok b thr nnG tf Ls -> sharing_ok b thr nnG tf Ls'.
Proof. intros [H|H]; [left; exact H|right; eapply no_rivals_perm; eassumption]. Qed.

Lemma solver_any f f' sol sc lat e e' e1 lt ok s1 : same_found f f' ->
  run_solvers tnorm [closed_solver 0 algo] f sol sc lat e = Ok (e1, lt, ok, s1) -> exists e2, run_solvers tnorm [closed_solver 0 algo] f' sol sc lat e' = Ok (e2, lt, ok, s1).
Proof.
  intros SF H. cbn [run_solvers] in *. unfold solver_optimal_pose in *. destruct (solver_iter_gate _ _).
  - destruct (solver_latch_gate tnorm _ sc lat) as [run lt0]. destruct run.
    + assert (K := OF sc f f' e' sol SF). cbn [closed_solver s_impl] in H, K |- *.
      destruct (algo (to_vpairs f)) as [[o r]| | ]; cbn [rbind] in H, K |- *; try discriminate.
      destruct (algo (to_vpairs f')) as [[o' r']| | ]; cbn [rbind] in K |- *; try discriminate. cbn [fst snd] in *. inversion K as [[K1 K2]]. subst o'.
      destruct o; inversion H; subst; eexists; reflexivity.
    + cbn [rbind] in *. inversion H; subst. eexists; reflexivity.
  - cbn [rbind] in *. inversion H; subst. eexists; reflexivity.
Qed.

Lemma ratio_same f f' : same_found f f' -> paired_ratio_evaluate true amin pairings_empty_ctor f = paired_ratio_evaluate true amin pairings_empty_ctor f'.
Proof.
  intros (A & (B & C & D & E & _) & (B' & C' & D' & E' & _) & H). unfold paired_ratio_evaluate, paired_ratio_of, pairings_size.
  rewrite H, B, C, D, E, B', C', D', E'. apply Permutation_length in A. rewrite !map_length in A. rewrite A. reflexivity.
Qed.

Lemma quality_any f f' T e e' e1 q : same_found f f' -> evaluate_quality [ratio_evaluator w amin] T f e = Ok (e1, q) ->
  exists e2, evaluate_quality [ratio_evaluator w amin] T f' e' = Ok (e2, q).
Proof.
  intros SF H. unfold evaluate_quality in *. cbn [evaluate_loop] in *. cbn [ratio_evaluator relativeWeight e_evaluate] in *. rewrite (ratio_same f f' SF) in H.
  destruct (Qltb 0 w); [|discriminate]. cbn [rbind] in *.
  destruct (hard_discard _); cbn [rbind] in *; [inversion H; subst; eexists; reflexivity|].
  destruct (Qltb 0 (0 + w)); [|discriminate]. inversion H; subst. eexists; reflexivity.
Qed.

Lemma tail_any it s s' s1 o : rel_run s s' -> iter_tail realize (comps L) p it s = Ok (s1, o) ->
  exists s2, iter_tail realize (comps L') p it s' = Ok (s2, o) /\ rel_run s1 s2.
Proof.
  destruct s as [env sol pr pv pv2 lc la de tr], s' as [env' sol' pr' pv' pv2' lc' la' de' tr'].
  intros (B & C & D & E & F & H & I0) X. cbn [l_env l_sol l_pairings l_prev l_prev2 l_lastCorrection l_latched l_details] in *. subst.
  unfold iter_tail in *. cbn [l_env l_sol l_pairings l_prev l_prev2 l_lastCorrection l_latched l_details l_trace comps c_hook c_evaluators] in *.
  destruct (find_checkpoint (quality_checkpoints p) it) as [q0|].
  - unfold realize in *. cbn [rbind] in *.
    destruct (evaluate_quality _ (optimalPose sol') pr env) as [[e2 q]| | ] eqn:EQ; cbn [rbind] in X; try discriminate.
    destruct (quality_any pr pr' _ _ env' _ _ C EQ) as [e3 ->]. cbn [rbind].
    destruct (Qltb q q0); inversion X; subst; (eexists; split; [reflexivity|]); repeat split; try assumption; apply C.
  - inversion X; subst. eexists. split; [reflexivity|]. repeat split; try assumption; apply C.
Qed.

Lemma body_any hl guess it s s' s1 o : rel_run s s' -> sharing_ok b thr nnG (tf_of (optimalPose (l_sol s))) Ls ->
  iter_body pose_minus log_norms tnorm realize (new_match_state G L) (comps L) p hl guess it s = Ok (s1, o) ->
  exists s2, iter_body pose_minus log_norms tnorm realize (new_match_state G L') (comps L') p hl guess it s' = Ok (s2, o) /\ rel_run s1 s2.
Proof.
  destruct s as [env sol pr pv pv2 lc la de tr], s' as [env' sol' pr' pv' pv2' lc' la' de' tr'].
  intros (B & C & D & E & F & H & I0) SH X. cbn [l_env l_sol l_pairings l_prev l_prev2 l_lastCorrection l_latched l_details] in *. subst.
  unfold iter_body in *. cbn [l_env l_sol l_pairings l_prev l_prev2 l_lastCorrection l_latched l_details l_trace c_matchers c_solvers comps] in *.
  unfold realize in X |- *. cbn [rbind] in *.
  destruct (match_exact (optimalPose sol') nnL Ls it env L1 LIM SH) as [m1 M1].
  destruct (match_exact (optimalPose sol') nnL' Ls' it env' L2 ltac:(rewrite <- (Permutation_length PL); exact LIM) (sharing_perm _ SH)) as [m2 M2].
  unfold L, L'. rewrite M2. unfold L in X. rewrite M1 in X. cbn [rbind] in *.
  assert (SF := found_at_same (optimalPose sol') Ls Ls' PL). set (f := found_at (optimalPose sol') Ls) in *. set (f' := found_at (optimalPose sol') Ls') in *.
  rewrite <- (empty_same _ _ SF). destruct (pairings_empty f).
  { inversion X; subst. eexists. split; [reflexivity|]. repeat split; try assumption; apply SF. }
  destruct (run_solvers tnorm [closed_solver 0 algo] f sol' _ la' m1) as [[[[e3 lat] ok] sol2]| | ] eqn:RS; cbn [rbind] in X; try discriminate.
  destruct (solver_any _ _ _ _ _ _ m2 _ _ _ _ SF RS) as [e4 ->]. cbn [rbind].
  destruct ok; cbn [negb] in *.
  2:{ inversion X; subst. eexists. split; [reflexivity|]. repeat split; try assumption; apply SF. }
  set (stl := is_stalled p _) in *. destruct (want_details p it stl && negb hl); [discriminate|].
  assert (DT : Forall2 rel_detail (if want_details p it stl then de ++ [(it, (optimalPose sol2, f))] else de)
                                  (if want_details p it stl then de' ++ [(it, (optimalPose sol2, f'))] else de')).
  { destruct (want_details p it stl); [|exact I0]. apply Forall2_app; [exact I0|]. constructor; [|constructor]. repeat split; cbn; apply SF. }
  destruct stl.
  - inversion X; subst. eexists. split; [reflexivity|]. repeat split; try assumption; apply SF.
  - apply (tail_any it _ _ _ _ ) with (2 := X). repeat split; try assumption; apply SF.
Qed.

Lemma body_event hl guess it s s1 o :
  iter_body pose_minus log_norms tnorm realize (new_match_state G L) (comps L) p hl guess it s = Ok (s1, o) ->
  exists f tr, l_trace s1 = l_trace s ++ EvMatch it (optimalPose (l_sol s)) f :: tr.
Proof.
  unfold iter_body. intro H. unfold realize in H. cbn [rbind] in H.
  destruct (run_matchers _ _ _ _) as [[env2 found]| | ]; cbn [rbind] in H; try discriminate.
  destruct (pairings_empty found); [inversion H; subst; cbn [l_trace]; do 2 eexists; reflexivity|].
  destruct (run_solvers _ _ _ _ _ _ _) as [[[[env3 lt] ok] sol']| | ]; cbn [rbind] in H; try discriminate.
  destruct ok; cbn [negb] in H; [|inversion H; subst; cbn [l_trace]; rewrite <- app_assoc; do 2 eexists; reflexivity].
  destruct (want_details _ _ _ && _); [discriminate|]. destruct (is_stalled _ _).
  - inversion H; subst. cbn [l_trace]. rewrite <- app_assoc. do 2 eexists. reflexivity.
  - apply (tail_keeps fMax shuffle mround tf_of algo name gpts nnG nnL Ls realize b thr p [ratio_evaluator w amin] None) in H.
    destruct H as (_ & tr & E & _). cbn [l_trace] in E. rewrite E, <- !app_assoc. cbn [app]. do 2 eexists. reflexivity.
Qed.

Lemma loop_grows hl guess fuel : forall it s s1 n o,
  icp_loop pose_minus log_norms tnorm realize (new_match_state G L) (comps L) p hl guess fuel it s = Ok (s1, n, o) -> exists tr, l_trace s1 = l_trace s ++ tr.
Proof.
  induction fuel as [|fuel IH]; intros it s s1 n o X; cbn [icp_loop] in *.
  - inversion X; subst. exists []. rewrite app_nil_r. reflexivity.
  - destruct (iter_body _ _ _ _ (new_match_state G L) (comps L) p hl guess it s) as [[sb ob]| | ] eqn:EB; cbn [rbind] in X; try discriminate.
    destruct (body_event _ _ _ _ _ _ EB) as (f & tr & ET). destruct ob as [ob|].
    + inversion X; subst. eexists. exact ET.
    + destruct (IH _ _ _ _ _ X) as [tr2 E]. rewrite E, ET, <- app_assoc. eexists. reflexivity.
Qed.

Lemma loop_any hl guess fuel : forall it s s' s1 n o, rel_run s s' ->
  icp_loop pose_minus log_norms tnorm realize (new_match_state G L) (comps L) p hl guess fuel it s = Ok (s1, n, o) ->
  (forall it T f, In (EvMatch it T f) (l_trace s1) -> sharing_ok b thr nnG (tf_of T) Ls) ->
  exists s2, icp_loop pose_minus log_norms tnorm realize (new_match_state G L') (comps L') p hl guess fuel it s' = Ok (s2, n, o) /\ rel_run s1 s2.
Proof.
  induction fuel as [|fuel IH]; intros it s s' s1 n o RS X SH; cbn [icp_loop] in *.
  - inversion X; subst. eexists. split; [reflexivity|exact RS].
  - destruct (iter_body _ _ _ _ (new_match_state G L) (comps L) p hl guess it s) as [[sb ob]| | ] eqn:EB; cbn [rbind] in X; try discriminate.
    destruct (body_event _ _ _ _ _ _ EB) as (f & tr & ET).
    assert (IN : In (EvMatch it (optimalPose (l_sol s)) f) (l_trace sb)) by (rewrite ET; apply in_or_app; right; left; reflexivity).
    destruct ob as [ob|].
    + inversion X; subst. destruct (body_any _ _ _ _ _ _ _ RS (SH _ _ _ IN) EB) as (s2 & -> & R). cbn [rbind]. eexists. split; [reflexivity|exact R].
    + destruct (loop_grows _ _ _ _ _ _ _ _ X) as [tr2 E2].
      assert (IN2 : In (EvMatch it (optimalPose (l_sol s)) f) (l_trace s1)) by (rewrite E2; apply in_or_app; left; exact IN).
      destruct (body_any _ _ _ _ _ _ _ RS (SH _ _ _ IN2) EB) as (s2 & -> & R). cbn [rbind]. apply (IH _ _ _ _ _ _ R X SH).
Qed.

Lemma align_any wantDebug guess env e r :
  align pose_minus log_norms tnorm realize (new_match_state G L) (comps L) p false false wantDebug guess env = Ok (e, r) ->
  (forall it T f, In (EvMatch it T f) (r_loopTrace r) -> sharing_ok b thr nnG (tf_of T) Ls) ->
  exists e' r', align pose_minus log_norms tnorm realize (new_match_state G L') (comps L') p false false wantDebug guess env = Ok (e', r') /\ same_results r r'.
Proof.
  unfold align. unfold comps at 1 2 3 4. cbn [c_matchers c_solvers c_evaluators]. intros H SH.
  destruct (_ || _ || _ || _ || _); [discriminate|].
  assert (R0 : rel_run (mkLoop env (mkSol guess 1%Q) pairings_empty_ctor guess None None [] [] []) (mkLoop env (mkSol guess 1%Q) pairings_empty_ctor guess None None [] [] [])).
  { repeat split; cbn; constructor. }
  destruct (icp_loop _ _ _ _ (new_match_state G L) _ _ _ _ _ _ _) as [[[s1 n] o]| | ] eqn:EL; cbn [rbind] in H; try discriminate.
  unfold realize in H. cbn [rbind] in H.
  destruct (evaluate_quality _ (optimalPose (l_sol s1)) (l_pairings s1) _) as [[e2 q]| | ] eqn:EQ; cbn [rbind] in H; try discriminate.
  inversion H; subst; clear H. cbn [r_loopTrace] in SH.
  destruct (loop_any _ _ _ _ _ _ _ _ _ R0 EL SH) as (s2 & -> & (B & C & D & E & F & X & I0)). cbn [rbind]. cbv beta delta [realize]. cbn [rbind].
  rewrite <- B. destruct (quality_any _ _ _ _ (l_env s2) _ _ C EQ) as [e3 E3]. unfold comps at 1. cbn [c_evaluators]. rewrite E3. cbn [rbind].
  do 2 eexists. split; [reflexivity|]. unfold same_results. cbn. split; [reflexivity|]. split; [reflexivity|]. split; [reflexivity|]. split; [reflexivity|]. split; [reflexivity|]. split; [exact C|exact I0].
Qed.
End Where.

(** C342: with the default options (a global point is paired once), where no two local points compete
    for a global point during the run, the order of the local points does not matter. *)
Theorem C342_default_options_where :
  forall fMax shuffle mround tf_of name gpts nnG b thr eig convert wp pose_minus log_norms tnorm w amin p nnL nnL' Ls Ls' wantDebug guess env e r,
  nn_correct nnG -> (0 < thr)%Q -> weight_pt2pt_layers b = [] -> Permutation Ls Ls' ->
  length (nn_points nnL) = length Ls -> length (nn_points nnL') = length Ls' ->
  maxLocalPointsPerLayer b = 0 \/ length Ls <= maxLocalPointsPerLayer b ->
  registration fMax shuffle mround (gmap name gpts nnG) (lmap name nnL Ls) tf_of pose_minus log_norms tnorm
    (DT b thr 0 1) (horn_algo eig convert wp) w amin p wantDebug guess env = Ok (e, r) ->
  (forall it T f, In (EvMatch it T f) (r_loopTrace r) -> sharing_ok b thr nnG (tf_of T) Ls) ->
  exists e' r',
    registration fMax shuffle mround (gmap name gpts nnG) (lmap name nnL' Ls') tf_of pose_minus log_norms tnorm
      (DT b thr 0 1) (horn_algo eig convert wp) w amin p wantDebug guess env = Ok (e', r') /\ same_results r r'.
Proof.
  intros * NC TP TBL PL L1 L2 LIM RUN SH. unfold registration, registration_with in *.
  destruct (C341_library_components_ignore_the_order eig (fun _ v => v) convert wp 0 w amin) as (OF & _).
  apply (align_any fMax shuffle mround tf_of name gpts nnG b thr NC TP TBL (horn_algo eig convert wp) pose_minus log_norms tnorm w amin p nnL nnL' Ls Ls' OF PL L1 L2 LIM wantDebug guess env e r RUN SH).
Qed.

(** ** The refutation: the first of two rivals gets the global point *)
Open Scope R_scope.
(** the six pairs of the quarter turn, the first local point being [d] further away *)
Definition d_pairs (d : R) : VPairs :=
  mkVP [(mkV 1 3 3, mkV (1 + d) 0 0); (mkV 1 1 3, mkV (-1) 0 0); (mkV 0 2 3, mkV 0 1 0); (mkV 2 2 3, mkV 0 (-1) 0); (mkV 1 2 4, mkV 0 0 1); (mkV 1 2 2, mkV 0 0 (-1))] [] [] 0 0 [].
(** eigenvectors of the matrices of this shape *)
Definition d_eig (N : Sym4) : Eig :=
  mkEig (mkQ h2 0 0 (- h2)) (mkQ 0 h2 (- h2) 0) (mkQ 0 h2 h2 0) (mkQ h2 0 0 h2) (n00 N - n03 N) (n11 N - n12 N) (n11 N + n12 N) (n00 N + n03 N).
Definition d_pose (d : R) : Pose := mkPose (mkV 0 1 0) (mkV (-1) 0 0) (mkV 0 0 1) (mkV 1 (2 - d / 6) 3).

Lemma d_ctl d : centroid (map snd (vp_pts (d_pairs d))) = mkV (d / 6) 0 0.
Proof. unfold centroid, d_pairs, vsum, vzero3. cbn [vp_pts map snd fold_right length]. vunf. f_equal; field. Qed.
Lemma d_ctg d : centroid (map fst (vp_pts (d_pairs d))) = mkV 1 2 3.
Proof. unfold centroid, d_pairs, vsum, vzero3. cbn [vp_pts map fst fold_right length]. vunf. f_equal; field. Qed.

Lemma d_far d : 0 <= d <= 1 -> off_centroid (vp_pts (d_pairs d)).
Proof.
  intro D. unfold off_centroid. rewrite d_ctl, d_ctg. unfold d_pairs. cbn [vp_pts].
  repeat (apply Forall_cons; [cbn [fst snd]; split; apply vnorm_far; vunf; nra|]). constructor.
Qed.

Lemma d_matrix d : 0 <= d <= 1 -> horn_matrix (d_pairs d) wp_default = mkS4 (/ 3) 0 0 ((4 + d) / 6) (- / 3) (d / 6) 0 (- / 3) 0 (/ 3).
Proof.
  intro D. unfold horn_matrix, horn_pairs. assert (F := d_far d D). unfold off_centroid in F. rewrite d_ctl, d_ctg in *.
  unfold items. change (vp_lns (d_pairs d)) with (@nil (V3 * V3)). change (vp_pls (d_pairs d)) with (@nil (V3 * V3)). cbn [map app]. rewrite app_nil_r.
  rewrite (used_plain (d_pairs d) wp_default _ _ _ eq_refl eq_refl F).
  assert (CT : class_total (d_pairs d) wp_default = 6).
  { unfold class_total. cbn [d_pairs vp_pts vp_lns vp_pls length wp_default wp_pt2pt wp_ln2ln wp_pl2pl]. rewrite !INR_IZR_INZ. simpl. ring. }
  assert (PB : forall i, pair_block_weight (d_pairs d) i = 1) by reflexivity.
  cbn [d_pairs vp_pts plain_calls]. fold (d_pairs d). rewrite CT, !PB. change (wp_pt2pt wp_default) with 1.
  unfold S_of. cbn [sum_w c_w]. destruct (Rlt_dec 0 _) as [|X]; [|exfalso; lra].
  unfold S_scale, S_add, S_zero, N_of. cbn [fold_left m00 m01 m02 m10 m11 m12 m20 m21 m22 c_w c_b c_r].
  clear. unfold vsub. cbn [vx vy vz]. f_equal; field.
Qed.

Lemma d_spectral d : 0 <= d <= 1 -> spectral (horn_matrix (d_pairs d) wp_default) (d_eig (horn_matrix (d_pairs d) wp_default)).
Proof.
  intro D. rewrite (d_matrix d D). unfold spectral, d_eig, qdot, qnorm2, quad4. cbn [z0 z1 z2 z3 lam0 lam1 lam2 lam3 qr qx qy qz n00 n01 n02 n03 n11 n12 n13 n22 n23 n33].
  assert (H := h2_sq). repeat split; try lra; try (rewrite <- (Rmult_1_r 1); nra).
  - intros [r x y z]. cbn [qr qx qy qz].
    transitivity ((h2 * h2) * ((r - z) * (r - z) + (x - y) * (x - y) + (x + y) * (x + y) + (r + z) * (r + z))); [ring|]. rewrite H. field.
  - intros [r x y z]. cbn [qr qx qy qz].
    transitivity ((h2 * h2) * ((/ 3 - (4 + d) / 6) * ((r - z) * (r - z)) + (- / 3 - d / 6) * ((x - y) * (x - y)) + (- / 3 + d / 6) * ((x + y) * (x + y)) + (/ 3 + (4 + d) / 6) * ((r + z) * (r + z)))); [rewrite H; field|ring].
Qed.

Lemma d_ready d : 0 <= d <= 1 -> horn_ready d_eig wp_default (d_pairs d).
Proof. intro D. split; [cbn; lia|]. split; [exact (d_far d D)|exact (d_spectral d D)]. Qed.

Lemma d_solved d : exists o, horn_algo d_eig (fun _ => None) wp_default (d_pairs d) = Ok (true, mkHR (d_pose d) o).
Proof.
  unfold horn_algo, solver_horn. cbn [d_pairs vp_nPt2Ln vp_nPt2Pl Nat.eqb andb]. fold (d_pairs d).
  destruct (horn_run d_eig (d_pairs d) wp_default (default_positive (d_pairs d) eq_refl) ltac:(intro X; exfalso; apply X; reflexivity) ltac:(discriminate) ltac:(unfold at_least_three; cbn; lia) eq_refl eq_refl (or_introl eq_refl)) as (o & E & _).
  exists o. rewrite E, d_ctl, d_ctg. do 3 f_equal. unfold best_quat, d_eig. cbn [z3 qr].
  destruct (Rlt_dec h2 0) as [X|_]; [exfalso; unfold h2 in X; assert (0 < / sqrt 2) by (apply Rinv_0_lt_compat, sqrt_lt_R0; lra); lra|].
  assert (H := h2_sq). unfold pose_of, quat_rot, d_pose. cbn [qr qx qy qz c0 c1 c2].
  unfold compose, rotate, vsub, vadd, vscale. cbn [vx vy vz c0 c1 c2 tr]. unfold vzero3; cbn [vx vy vz].
  assert (V : forall a b c a' b' c', a = a' -> b = b' -> c = c' -> mkV a b c = mkV a' b' c') by (intros; subst; reflexivity).
  assert (P : forall a b c t a' b' c' t', a = a' -> b = b' -> c = c' -> t = t' -> mkPose a b c t = mkPose a' b' c' t') by (intros; subst; reflexivity).
  apply P; apply V; rewrite ?H; try field; try lra.
Qed.
Open Scope nat_scope.

(** the two local clouds *)
Definition rival : P3 := mkP3 (13 # 10) 0 0.
Definition scan_a : list P3 := sixQ ++ [rival].
Definition scan_b : list P3 := rival :: sixQ.
Definition one_params : IcpParams := mkIcpParams 1 (1 # 100) (1 # 100) false false 0 [].

Local Notation run_of Ls :=
  (registration 1000000 (fun l => l) (fun _ => 0%Z) (gmap 7 None (brute ex_globals)) (lmap 7 (brute Ls) Ls) ex_tf_of ex_minus ex_norms (fun _ => 0%Q)
      (DT (mono_base false) (1 # 2) 0 1) (horn_algo d_eig (fun _ => None) wp_default) 1 (1 # 5) one_params false quarter (mkMS [] [])) (only parsing).

Lemma one_step Ls f m d : found_by false Ls quarterQ 0 = Ok (m, f) -> to_vpairs f = d_pairs d ->
  exists m' r, run_of Ls = Ok (m', r) /\ r_optimal_tf r = d_pose d /\ r_loopTrace r = [EvMatch 0 quarter f; EvSolve 0 f true (mkSol (d_pose d) 1%Q)].
Proof.
  intros F V. unfold found_by in F. rewrite <- tf_quarter in F. rewrite <- pose_matcher_run in F.
  assert (NE : pairings_empty f = false) by (unfold pairings_empty; assert (X := f_equal (fun x => length (vp_pts x)) V); unfold to_vpairs in X; cbn [vp_pts d_pairs length] in X; rewrite map_length in X; destruct (paired_pt2pt f); [discriminate X|reflexivity]).
  destruct (d_solved d) as [o A].
  assert (Q1 : forall env, exists q, evaluate_quality [ratio_evaluator 1 (1 # 5)] (d_pose d) f env = Ok (env, q)).
  { intro env. unfold evaluate_quality. cbn [evaluate_loop ratio_evaluator relativeWeight e_evaluate rbind].
    change (Qltb 0 1) with true. cbv iota. destruct (hard_discard _); cbn [rbind].
    - eexists. reflexivity.
    - change (Qltb 0 (0 + 1)) with true. cbv iota. eexists. reflexivity. }
  unfold registration, registration_with, align. cbn [c_matchers c_solvers c_evaluators isNil orb maxIterations one_params]. cbn [icp_loop].
  unfold iter_body at 1. cbn [rbind l_env c_matchers l_sol optimalPose].
  rewrite F. cbn [rbind]. rewrite NE. cbn [c_solvers].
  unfold run_solvers, solver_optimal_pose, solver_iter_gate, solver_latch_gate, closed_solver.
  cbn [s_enabled negb sc_icpIteration s_runFromIteration s_runUpToIteration s_runUntilTranslationCorrectionSmallerThan s_impl].
  change (Nat.ltb 0 0) with false. change (Qltb 0 0) with false. cbn [andb]. rewrite V, A. cbn [rbind fst snd hr_pose negb optimalPose l_prev l_prev2].
  destruct (Q1 m) as [q Eq]. set (stl := is_stalled one_params _). cbn [want_details one_params saveIterationDetails andb]. destruct stl.
  - cbn [rbind l_env l_sol l_pairings optimalPose]. rewrite Eq. cbn [rbind]. do 2 eexists. split; [reflexivity|]. split; reflexivity.
  - unfold iter_tail at 1. change (find_checkpoint (quality_checkpoints one_params) 0) with (@None Q). cbn [c_hook rbind l_env l_sol l_pairings l_prev l_prev2 l_lastCorrection l_latched l_details l_trace optimalPose].
    rewrite Eq. cbn [rbind]. do 2 eexists. split; [reflexivity|]. split; reflexivity.
Qed.

(** C342: with the default options the order of the local points may change the estimated pose: of two
    local points near one global point, the first in the cloud gets it. *)
Theorem C342_default_options_refuted :
  exists Ls Ls' nnG b thr tf_of eig wp p guess e r e' r',
    Permutation Ls Ls' /\ nn_correct nnG /\ bbox_correct nnG /\ (0 < thr)%Q /\ weight_pt2pt_layers b = [] /\ maxLocalPointsPerLayer b = 0 /\
    allowMatchAlreadyMatchedPoints b = false /\ allowMatchAlreadyMatchedGlobalPoints b = false /\ plain_weights wp /\ is_rotation guess /\
    registration 1000000 (fun l => l) (fun _ => 0%Z) (gmap 7 None nnG) (lmap 7 (brute Ls) Ls) tf_of ex_minus ex_norms (fun _ => 0%Q)
      (DT b thr 0 1) (horn_algo eig (fun _ => None) wp) 1 (1 # 5) p false guess (mkMS [] []) = Ok (e, r) /\
    registration 1000000 (fun l => l) (fun _ => 0%Z) (gmap 7 None nnG) (lmap 7 (brute Ls') Ls') tf_of ex_minus ex_norms (fun _ => 0%Q)
      (DT b thr 0 1) (horn_algo eig (fun _ => None) wp) 1 (1 # 5) p false guess (mkMS [] []) = Ok (e', r') /\
    (forall it T found, In (EvMatch it T found) (r_loopTrace r) \/ In (EvMatch it T found) (r_loopTrace r') ->
       exact_on tf_of T Ls /\ pairings_empty found = false /\ horn_ready eig wp (to_vpairs found)) /\
    r_optimal_tf r <> r_optimal_tf r'.
Proof.
  exists scan_a, scan_b, (brute ex_globals), (mono_base false), (1 # 2)%Q, ex_tf_of, d_eig, wp_default, one_params, quarter.
  destruct (found_by false scan_a quarterQ 0) as [[m1 f1]| | ] eqn:F1; [|vm_compute in F1; discriminate|vm_compute in F1; discriminate].
  destruct (found_by false scan_b quarterQ 0) as [[m2 f2]| | ] eqn:F2; [|vm_compute in F2; discriminate|vm_compute in F2; discriminate].
  assert (V1 : to_vpairs f1 = d_pairs 0).
  { assert (X : match found_by false scan_a quarterQ 0 with Ok (_, f) => six_pairs f | _ => False end) by (vm_compute; repeat split). rewrite F1 in X. rewrite (six_pairs_vpairs f1 X).
    unfold quarter_pairs, pairs_of, six, d_pairs, quarter. cbn [map]. unfold compose, rotate, vadd, vscale. cbn [vx vy vz c0 c1 c2 tr]. f_equal.
    repeat (apply f_equal2; [apply f_equal2; f_equal; lra|]). reflexivity. }
  assert (V2 : to_vpairs f2 = d_pairs (3 / 10)).
  { assert (X : match found_by false scan_b quarterQ 0 with Ok (_, f) => map p_local (paired_pt2pt f) = rival :: tl sixQ /\ map p_global (paired_pt2pt f) = map quarterQ sixQ /\
        paired_pt2ln f = [] /\ paired_pt2pl f = [] /\ point_weights f = [] | _ => False end) by (vm_compute; repeat split). rewrite F2 in X. destruct X as (A & B & C & D & E).
    unfold to_vpairs. rewrite C, D, E. cbn [map length]. unfold d_pairs. f_equal.
    assert (Z : map (fun x => (to_v (p_global x), to_v (p_local x))) (paired_pt2pt f2) = combine (map to_v (map p_global (paired_pt2pt f2))) (map to_v (map p_local (paired_pt2pt f2)))).
    { clear. induction (paired_pt2pt f2) as [|x l IH]; [reflexivity|]. cbn [map combine]. rewrite IH. reflexivity. }
    rewrite Z, A, B. unfold rival, sixQ, quarterQ, to_v. cbn [map combine tl px py pz].
    repeat (apply f_equal2; [apply f_equal2; f_equal; unfold Q2R; cbn; lra|]). reflexivity. }
  destruct (one_step scan_a f1 m1 0 F1 V1) as (e1 & r1 & E1 & P1 & T1). destruct (one_step scan_b f2 m2 (3 / 10) F2 V2) as (e2 & r2 & E2 & P2 & T2).
  exists e1, r1, e2, r2. split; [apply Permutation_sym; apply (Permutation_cons_append sixQ rival)|]. split; [apply brute_correct|]. split; [apply brute_bbox|]. do 5 (split; [reflexivity|]).
  split; [unfold plain_weights, wp_default; cbn; repeat split; lra|]. split; [exact quarter_rotation|].
  split; [exact E1|]. split; [exact E2|].
  assert (NEM : forall f d, to_vpairs f = d_pairs d -> pairings_empty f = false).
  { intros f d V. unfold pairings_empty. assert (X := f_equal (fun x => length (vp_pts x)) V). unfold to_vpairs in X. cbn [vp_pts d_pairs length] in X. rewrite map_length in X. destruct (paired_pt2pt f); [discriminate X|reflexivity]. }
  split.
  - rewrite T1, T2. intros it T found [[X|[X|[]]]|[X|[X|[]]]]; try discriminate X; inversion X; subst; clear X.
    + split; [intros l _; rewrite tf_quarter; apply quarterQ_exact|]. split; [exact (NEM _ _ V1)|]. rewrite V1. apply d_ready. lra.
    + split; [intros l _; rewrite tf_quarter; apply quarterQ_exact|]. split; [exact (NEM _ _ V2)|]. rewrite V2. apply d_ready. lra.
  - rewrite P1, P2. unfold d_pose. intro X. injection X as X. lra.
Qed.
Print Assumptions C342_default_options_where.
Print Assumptions C342_default_options_refuted.

(** ** Cases *)
(** C340: the quarter turn with its pairs in the opposite order: solved, with the same pose. *)
Example C340_case : let p' := mkVP (rev (vp_pts quarter_pairs)) [] [] 0 0 [] in
  reordered quarter_pairs p' /\ p' <> quarter_pairs /\
  horn_algo quarter_eig (fun _ => None) wp_default quarter_pairs = Ok (true, mkHR quarter []) /\
  exists o, horn_algo quarter_eig (fun _ => None) wp_default p' = Ok (true, mkHR quarter o) /\ length o = 0.
Proof.
  cbv zeta. assert (RO : reordered quarter_pairs (mkVP (rev (vp_pts quarter_pairs)) [] [] 0 0 [])).
  { unfold reordered. cbn [vp_pts vp_lns vp_pls vp_nPt2Ln vp_nPt2Pl vp_weights]. split; [apply Permutation_rev|]. repeat split; constructor. }
  assert (Q1 : horn_algo quarter_eig (fun _ => None) wp_default quarter_pairs = Ok (true, mkHR quarter [])) by exact quarter_recovered.
  split; [exact RO|]. split.
  - intro X. apply (f_equal vp_pts) in X. cbn [vp_pts] in X. apply (f_equal (fun l => map snd l)) in X. unfold quarter_pairs, pairs_of, six in X. cbn [vp_pts map rev app snd] in X.
    injection X as _ _ X _. lra.
  - split; [exact Q1|]. destruct (C340_solvers_ignore_the_order quarter_eig (fun _ => None) (fun _ v => v) _ _ wp_default RO eq_refl eq_refl) as [K _].
    unfold same_solution in K. rewrite Q1 in K. match type of K with context [match ?x with _ => _ end] => destruct x as [[ok r]| | ] eqn:EH; [|contradiction|contradiction] end. destruct K as (<- & K1 & K2 & _). cbn [hr_pose hr_outliers length] in K1, K2.
    destruct r as [T o]. cbn [hr_pose hr_outliers] in *. subst T. exists o. split; [reflexivity|symmetry; exact K2].
Qed.

Lemma outcome_ok e r x : same_outcome (Ok (e, r)) x -> exists r', x = Ok (e, r') /\ same_results r r'.
Proof. intro H. destruct x as [[e' r']| | ]; try contradiction. destruct H as [<- H]. exists r'. split; [reflexivity|exact H]. Qed.

(** C341: the scene of C323 with the local points in the opposite order. *)
Example C341_case : exists e r r',
  registration 1000000 (fun l => l) (fun _ => 0%Z) (gmap 7 None (brute ex_globals)) (lmap 7 (brute sixQ) sixQ) ex_tf_of ex_minus ex_norms (fun _ => 0%Q)
      (DT (mono_base true) (1 # 2) 0 1) (horn_algo quarter_eig (fun _ => None) wp_default) 1 (1 # 5) mono_params false off_guess (mkMS [] []) = Ok (e, r) /\
  registration 1000000 (fun l => l) (fun _ => 0%Z) (gmap 7 None (brute ex_globals)) (lmap 7 (brute (rev sixQ)) (rev sixQ)) ex_tf_of ex_minus ex_norms (fun _ => 0%Q)
      (DT (mono_base true) (1 # 2) 0 1) (horn_algo quarter_eig (fun _ => None) wp_default) 1 (1 # 5) mono_params false off_guess (mkMS [] []) = Ok (e, r') /\
  same_results r r' /\ r_optimal_tf r' = quarter.
Proof.
  destruct (found_by true sixQ guessQ 0) as [[m1 f1]| | ] eqn:F1; [|vm_compute in F1; discriminate|vm_compute in F1; discriminate].
  destruct (found_by true sixQ quarterQ 1) as [[m2 f2]| | ] eqn:F2; [|vm_compute in F2; discriminate|vm_compute in F2; discriminate].
  assert (S1 : six_pairs f1).
  { assert (X : match found_by true sixQ guessQ 0 with Ok (_, f) => six_pairs f | _ => False end) by (vm_compute; repeat split). rewrite F1 in X. exact X. }
  assert (S2 : six_pairs f2).
  { assert (X : match found_by true sixQ quarterQ 1 with Ok (_, f) => six_pairs f | _ => False end) by (vm_compute; repeat split). rewrite F2 in X. exact X. }
  destruct (two_steps true sixQ f1 m1 f2 m2 F1 F2 S1 S2) as (r & E & A & B).
  assert (K := C341_default_pipeline 1000000 (fun l => l) (fun _ => 0%Z) ex_tf_of (gmap 7 None (brute ex_globals)) (lmap 7 (brute sixQ) sixQ) (lmap 7 (brute (rev sixQ)) (rev sixQ))
    (mkDt (mono_base true) (1 # 2) 0 1 0 0) quarter_eig (fun _ => None) wp_default 1 (1 # 5) ex_minus ex_norms (fun _ => 0%Q) mono_params false off_guess (mkMS [] [])).
  assert (SP : same_points (lmap 7 (brute sixQ) sixQ) (lmap 7 (brute (rev sixQ)) (rev sixQ))).
  { unfold lmap. constructor; [|constructor]. split; [reflexivity|]. exists sixQ, (rev sixQ), (brute sixQ), (brute (rev sixQ)). cbn [fst snd].
    split; [reflexivity|]. split; [reflexivity|]. split; [apply Permutation_rev|]. repeat split. }
  specialize (K SP ltac:(unfold unique_names; cbn; constructor; [intros []|constructor]) ltac:(split; [reflexivity|intros; left; reflexivity]) eq_refl eq_refl).
  assert (DM : dt_matcher (mkDt (mono_base true) (1 # 2) 0 1 0 0) = DT (mono_base true) (1 # 2) 0 1) by reflexivity. rewrite DM in K. clear DM.
  assert (E0 : registration 1000000 (fun l => l) (fun _ => 0%Z) (gmap 7 None (brute ex_globals)) (lmap 7 (brute sixQ) sixQ) ex_tf_of ex_minus ex_norms (fun _ => 0%Q)
      (DT (mono_base true) (1 # 2) 0 1) (horn_algo quarter_eig (fun _ => None) wp_default) 1 (1 # 5) mono_params false off_guess (mkMS [] []) = Ok (m2, r)) by exact E.
  rewrite E0 in K. destruct (outcome_ok _ _ _ K) as (r' & E1 & SR). exists m2, r, r'. split; [exact E0|]. split; [exact E1|]. split; [exact SR|].
  destruct SR as (P & _). rewrite <- P. exact A.
Qed.

(** C342: the same with the default options; no two points compete. *)
Example C342_case : exists e r e' r',
  registration 1000000 (fun l => l) (fun _ => 0%Z) (gmap 7 None (brute ex_globals)) (lmap 7 (brute sixQ) sixQ) ex_tf_of ex_minus ex_norms (fun _ => 0%Q)
      (DT (mono_base false) (1 # 2) 0 1) (horn_algo quarter_eig (fun _ => None) wp_default) 1 (1 # 5) mono_params false off_guess (mkMS [] []) = Ok (e, r) /\
  registration 1000000 (fun l => l) (fun _ => 0%Z) (gmap 7 None (brute ex_globals)) (lmap 7 (brute (rev sixQ)) (rev sixQ)) ex_tf_of ex_minus ex_norms (fun _ => 0%Q)
      (DT (mono_base false) (1 # 2) 0 1) (horn_algo quarter_eig (fun _ => None) wp_default) 1 (1 # 5) mono_params false off_guess (mkMS [] []) = Ok (e', r') /\ same_results r r'.
Proof.
  destruct C335_case as (e & r & E & EV).
  destruct (C342_default_options_where 1000000 (fun l => l) (fun _ => 0%Z) ex_tf_of 7 None (brute ex_globals) (mono_base false) (1 # 2) quarter_eig (fun _ => None) wp_default
     ex_minus ex_norms (fun _ => 0%Q) 1 (1 # 5) mono_params (brute sixQ) (brute (rev sixQ)) sixQ (rev sixQ) false off_guess (mkMS [] []) e r) as (e' & r' & E' & SR).
  - apply brute_correct.
  - reflexivity.
  - reflexivity.
  - apply Permutation_rev.
  - reflexivity.
  - reflexivity.
  - left. reflexivity.
  - exact E.
  - intros it T f I. right. apply (EV it T f I).
  - exists e, r, e', r'. split; [exact E|]. split; [exact E'|exact SR].
Qed.
Print Assumptions C341_order_of_the_local_points.
