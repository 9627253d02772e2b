(** C350: an ICP run in which every iteration improves a cost.

    The run of C334 with any matcher: if a pose that fits the found pairs at least as well as the
    pose they were found with costs at most [delta] more, then so do the poses of the run, one after the other. *)
From Coq Require Import Reals Qreals List Lra Lia.
From Verif Require Import Base PairingsModel MatcherModel BitfieldModel PointMatcherModel
  SolverModel QualityModel IcpModel GeomModel VisitModel VisitSpec RotProofs HornModel HornProps OlaeModel EndToEndModel EndToEndProps MonotoneProps.
Import ListNotations.
Open Scope nat_scope.

Section Run.
Variables (algo : VPairs -> res (bool * HResult))
  (pose_minus : Pose -> Pose -> Pose) (log_norms : Pose -> Q * Q) (tnorm : Pose -> Q) (realize : nat -> MatchState -> res MatchState).
Variable reset_ms : MatchState -> MatchState.
Variable matchers : list (@Matcher Pair Datatypes.unit Datatypes.unit Datatypes.unit Datatypes.unit Q MatchState Pose).
Variables (p : IcpParams) (hasLog : bool) (guess : Pose)
  (evals : list (@Evaluator MatchState Pose ptpairings)) (hook : option (@hook_t Pair Datatypes.unit Datatypes.unit Datatypes.unit Datatypes.unit Q MatchState Pose)).
Let comps := mkComponents matchers [closed_solver 0 algo] evals hook.
Variable cost : Pose -> R.
Variable delta : R.
Variable good : Pose -> ptpairings -> Prop.
Notation event := (@Event Pair Datatypes.unit Datatypes.unit Datatypes.unit Datatypes.unit Q Pose).
Hypothesis STEP : forall it T env ms' found, run_matchers matchers it T (reset_ms env) = Ok (ms', found) ->
  pairings_empty found = false -> good T found -> least_squares_on algo (to_vpairs found) /\
  forall T', (lsq (vp_pts (to_vpairs found)) T' <= lsq (vp_pts (to_vpairs found)) T)%R -> (cost T' <= cost T + delta)%R.

Definition fine_event (e : event) : Prop :=
  match e with EvMatch _ T found => pairings_empty found = false -> good T found | _ => True end.

(** each pose costs at most [delta] more than the one before *)
Fixpoint descending (T : Pose) (l : list Pose) : Prop :=
  match l with [] => True | T' :: r => (cost T' <= cost T + delta)%R /\ descending T' r end.

Lemma descending_app T l m : descending T l -> descending (last l T) m -> descending T (l ++ m).
Proof.
  revert T. induction l as [|x l IH]; intros T A B; cbn [app]; [exact B|]. destruct A as [A1 A2]. split; [exact A1|].
  apply IH; [exact A2|]. destruct l as [|y l]; [exact B|]. clear - B.
  assert (X : forall (l : list Pose) y T T', last (y :: l) T = last (y :: l) T').
  { clear. induction l as [|z l IH]; intros y T T'; [reflexivity|]. change (last (z :: l) T = last (z :: l) T'). apply IH. }
  change (descending (last (y :: l) T) m) in B. rewrite (X l y x T). exact B.
Qed.

Lemma tail_keeps it st st' o : iter_tail realize comps p it st = Ok (st', o) ->
  l_sol st' = l_sol st /\ exists tr, l_trace st' = l_trace st ++ tr /\ solved_poses tr = [].
Proof.
  unfold iter_tail. intro H.
  assert (HK : forall s, (match c_hook comps with
      | None => Ok (mkLoop (l_env s) (l_sol s) (l_pairings s) (optimalPose (l_sol st)) (Some (l_prev s)) (l_lastCorrection s) (l_latched s) (l_details s) (l_trace s), None)
      | Some h => let* r := h it (l_pairings s) (l_sol s) (l_env s) in let '(env', stop) := r in
          let s' := mkLoop env' (l_sol s) (l_pairings s) (l_prev s) (l_prev2 s) (l_lastCorrection s) (l_latched s) (l_details s)
               (l_trace s ++ [EvHook it (optimalPose (l_sol s)) (l_pairings s) stop]) in
          if stop then Ok (s', Some HookRequest) else Ok (mkLoop (l_env s') (l_sol s') (l_pairings s') (optimalPose (l_sol st)) (Some (l_prev s')) (l_lastCorrection s') (l_latched s') (l_details s') (l_trace s'), None)
      end) = Ok (st', o) -> l_sol st' = l_sol s /\ exists tr, l_trace st' = l_trace s ++ tr /\ solved_poses tr = []).
  { intros s X. destruct (c_hook comps) as [h|].
    - destruct (h it (l_pairings s) (l_sol s) (l_env s)) as [[env' stop]| | ]; cbn [rbind] in X; try discriminate.
      destruct stop; injection X as <- _; cbn; (split; [reflexivity|eexists; split; reflexivity]).
    - injection X as <- _. cbn. split; [reflexivity|]. exists []. rewrite app_nil_r. split; reflexivity. }
  destruct (find_checkpoint (quality_checkpoints p) it) as [mq|].
  - destruct (realize it (l_env st)) as [env1| | ]; cbn [rbind] in H; try discriminate.
    destruct (evaluate_quality (c_evaluators comps) (optimalPose (l_sol st)) (l_pairings st) env1) as [[env2 q]| | ]; cbn [rbind] in H; try discriminate.
    destruct (Qltb q mq).
    + injection H as <- _. cbn. split; [reflexivity|]. eexists. split; reflexivity.
    + apply HK in H. cbn in H. destruct H as (A & tr & B & C). split; [exact A|]. rewrite B, <- app_assoc. eexists. split; [reflexivity|]. cbn. exact C.
  - apply HK in H. exact H.
Qed.

Lemma body_descends it st st' o :
  iter_body pose_minus log_norms tnorm realize reset_ms comps p hasLog guess it st = Ok (st', o) ->
  is_rotation (optimalPose (l_sol st)) ->
  exists tr, l_trace st' = l_trace st ++ tr /\
    (Forall fine_event tr -> is_rotation (optimalPose (l_sol st')) /\ length (solved_poses tr) <= 1 /\
       optimalPose (l_sol st') = last (solved_poses tr) (optimalPose (l_sol st)) /\ descending (optimalPose (l_sol st)) (solved_poses tr)).
Proof.
  intros H RT. unfold iter_body in H.
  destruct (realize it (l_env st)) as [env1| | ]; cbn [rbind] in H; try discriminate.
  set (T := optimalPose (l_sol st)) in *.
  change (c_matchers comps) with matchers in H.
  destruct (run_matchers matchers it T (reset_ms env1)) as [[ms' found]| | ] eqn:EM; cbn [rbind] in H; try discriminate.
  destruct (pairings_empty found) eqn:PE.
  - injection H as <- _. cbn. exists [EvMatch it T found]. split; [reflexivity|]. intros _. cbn. split; [exact RT|]. split; [lia|]. split; [reflexivity|exact I].
  - change (c_solvers comps) with [closed_solver 0 algo] in H.
    unfold run_solvers, solver_optimal_pose, solver_iter_gate, solver_latch_gate, closed_solver in H.
    cbn [s_enabled negb sc_icpIteration s_runFromIteration s_runUpToIteration s_runUntilTranslationCorrectionSmallerThan s_impl] in H.
    replace (Nat.ltb it 0) with false in H by (symmetry; apply Nat.ltb_ge; lia).
    change (Nat.ltb 0 0) with false in H. change (Qltb 0 0) with false in H. cbn [andb] in H.
    destruct (algo (to_vpairs found)) as [[ok s]| | ] eqn:EA; cbn [rbind fst snd] in H; try discriminate.
    (* the events of this iteration *)
    assert (EV : exists ok', exists sol', optimalPose sol' = hr_pose s /\ exists tr,
        l_sol st' = sol' /\ l_trace st' = l_trace st ++ (EvMatch it T found :: EvSolve it found ok' sol' :: tr) /\ solved_poses tr = []).
    { destruct ok.
      - cbn [rbind negb optimalPose] in H. destruct (want_details p it _ && negb hasLog); [discriminate|].
        destruct (is_stalled p _).
        + injection H as <- _. cbn. exists true, (mkSol (hr_pose s) 1%Q). split; [reflexivity|]. exists []. split; [reflexivity|]. rewrite <- app_assoc. split; reflexivity.
        + apply tail_keeps in H. cbn in H. destruct H as (A & tr & B & C). exists true, (mkSol (hr_pose s) 1%Q). split; [reflexivity|]. exists tr. split; [exact A|].
          rewrite B, <- !app_assoc. split; [reflexivity|exact C].
      - cbn [rbind negb] in H. injection H as <- _. cbn. exists false, (mkSol (hr_pose s) 1%Q). split; [reflexivity|]. exists []. split; [reflexivity|]. rewrite <- app_assoc. split; reflexivity. }
    destruct EV as (ok' & sol' & EP & tr & ES & ET & SP). rewrite ET. eexists. split; [reflexivity|]. intro GE.
    inversion GE as [|? ? GM _]; subst.
    destruct (STEP it T env1 ms' found EM PE (GM PE)) as ((s0 & E1 & RS & OPT) & DESC). rewrite EA in E1. injection E1 as -> ->.
    assert (SPe : solved_poses (EvMatch it T found :: EvSolve it found ok' (l_sol st') :: tr) = [hr_pose s0]).
    { cbn. fold (solved_poses tr). change (optimalPose (l_sol st') :: solved_poses tr = [hr_pose s0]). rewrite SP, EP. reflexivity. }
    rewrite SPe. cbn [last length descending]. rewrite EP. split; [exact RS|]. split; [lia|]. split; [reflexivity|]. split; [|exact I].
    apply DESC. apply OPT. exact RT.
Qed.

(** the events only grow *)
Lemma body_trace it st st' o :
  iter_body pose_minus log_norms tnorm realize reset_ms comps p hasLog guess it st = Ok (st', o) ->
  exists tr, l_trace st' = l_trace st ++ tr.
Proof.
  unfold iter_body. intro H.
  destruct (realize it (l_env st)) as [env1| | ]; cbn [rbind] in H; try discriminate.
  destruct (run_matchers _ _ _ _) as [[env2 found]| | ]; cbn [rbind] in H; try discriminate.
  destruct (pairings_empty found); [injection H as <- _; cbn; eexists; reflexivity|].
  destruct (run_solvers _ _ _ _ _ _ _) as [[[[env3 lt] ok] sol']| | ]; cbn [rbind] in H; try discriminate.
  destruct ok; cbn [negb] in H; [|injection H as <- _; cbn; rewrite <- app_assoc; eexists; reflexivity].
  destruct (want_details _ _ _ && _); [discriminate|]. destruct (is_stalled _ _).
  - injection H as <- _. cbn. rewrite <- app_assoc. eexists. reflexivity.
  - apply tail_keeps in H. destruct H as (_ & tr & E & _). cbn in E. rewrite E, <- !app_assoc. eexists. reflexivity.
Qed.

Lemma solved_app (a c : list event) : solved_poses (a ++ c) = solved_poses a ++ solved_poses c.
Proof. apply flat_map_app. Qed.

Lemma last_app (l m : list Pose) T : last (l ++ m) T = last m (last l T).
Proof.
  revert T. induction m as [|x m IH] using rev_ind; intro T; [rewrite app_nil_r; reflexivity|].
  rewrite app_assoc, !last_last. reflexivity.
Qed.

Lemma loop_descends fuel : forall it st st' n o,
  icp_loop pose_minus log_norms tnorm realize reset_ms comps p hasLog guess fuel it st = Ok (st', n, o) ->
  is_rotation (optimalPose (l_sol st)) ->
  exists tr, l_trace st' = l_trace st ++ tr /\
    (Forall fine_event tr -> length (solved_poses tr) <= fuel /\ length (solved_poses tr) <= S n - it /\
       optimalPose (l_sol st') = last (solved_poses tr) (optimalPose (l_sol st)) /\ descending (optimalPose (l_sol st)) (solved_poses tr)).
Proof.
  induction fuel as [|fuel IH]; intros it st st' n o H RT; cbn [icp_loop] in H.
  - injection H as <- _ _. exists []. rewrite app_nil_r. split; [reflexivity|]. intros _. cbn. split; [lia|]. split; [lia|]. split; [reflexivity|exact I].
  - destruct (iter_body pose_minus log_norms tnorm realize reset_ms comps p hasLog guess it st) as [[s1 [reason|]]| | ] eqn:EB; cbn [rbind] in H; try discriminate.
    + injection H as <- <- _. destruct (body_descends it st s1 _ EB RT) as (tr & ET & K). exists tr. split; [exact ET|]. intro GE.
      destruct (K GE) as (_ & A & B & D). split; [lia|]. split; [lia|]. split; [exact B|exact D].
    + destruct (body_descends it st s1 _ EB RT) as (tr & ET & K).
      assert (NIT : S it <= n).
      { clear - H. revert H. generalize (S it). clear. intros m H. revert m s1 H. induction fuel as [|fuel IH]; intros m s1 H; cbn [icp_loop] in H.
        - injection H as _ <- _. lia.
        - destruct (iter_body pose_minus log_norms tnorm realize reset_ms comps p hasLog guess m s1) as [[s2 [r|]]| | ]; cbn [rbind] in H; try discriminate.
          + injection H as _ <- _. lia.
          + apply IH in H. lia. }
      assert (PRE : exists tr2, l_trace st' = l_trace s1 ++ tr2).
      { clear - H. revert H. generalize (S it). intros m H. revert m s1 H. induction fuel as [|fuel IH]; intros m s1 H; cbn [icp_loop] in H.
        - injection H as <- _ _. exists []. rewrite app_nil_r. reflexivity.
        - destruct (iter_body pose_minus log_norms tnorm realize reset_ms comps p hasLog guess m s1) as [[s2 o2]| | ] eqn:EB; cbn [rbind] in H; try discriminate.
          destruct (body_trace m s1 s2 o2 EB) as [t2 E2]. destruct o2 as [r|].
          + injection H as <- _ _. exists t2. exact E2.
          + apply IH in H. destruct H as [t3 E3]. exists (t2 ++ t3). rewrite E3, E2, app_assoc. reflexivity. }
      destruct PRE as [tr2 E2]. exists (tr ++ tr2). split; [rewrite E2, ET, app_assoc; reflexivity|]. intro GE2.
      apply Forall_app in GE2. destruct GE2 as [GE GE2]. destruct (K GE) as (R1 & A & B & D).
      destruct (IH (S it) s1 st' n o H R1) as (tr3 & ET3 & K2). rewrite E2 in ET3. apply app_inv_head in ET3. subst tr3.
      destruct (K2 GE2) as (A2 & A3 & B2 & D2). rewrite solved_app, app_length, last_app, <- B. split; [lia|]. split; [lia|]. split; [exact B2|].
      apply descending_app; [exact D|]. rewrite <- B. exact D2.
Qed.

Lemma descending_nth T l : descending T l -> forall k x y, nth_error (T :: l) k = Some x -> nth_error (T :: l) (S k) = Some y -> (cost y <= cost x + delta)%R.
Proof.
  revert T. induction l as [|z l IH]; intros T D [|k] x y X Y; cbn in X, Y; try discriminate.
  - injection X as ->. injection Y as ->. apply D.
  - destruct D as [_ D]. apply (IH z D k x y); [exact X|exact Y].
Qed.
Lemma descending_last T l : descending T l -> (cost (last l T) <= cost T + INR (length l) * delta)%R.
Proof.
  revert T. induction l as [|z l IH]; intros T D; [cbn; lra|]. destruct D as [D1 D2]. specialize (IH z D2).
  assert (X : last (z :: l) T = last l z) by (change (z :: l) with ([z] ++ l); rewrite last_app; reflexivity).
  rewrite X. cbn [length]. rewrite S_INR. lra.
Qed.
End Run.

(** The whole call. *)
Theorem align_descends :
  forall algo pose_minus log_norms tnorm realize reset_ms matchers evals hook p ge le wantDebug guess env env' r cost delta (good : Pose -> ptpairings -> Prop),
  (forall it T env ms' found, run_matchers matchers it T (reset_ms env) = Ok (ms', found) ->
     pairings_empty found = false -> good T found -> least_squares_on algo (to_vpairs found) /\
     forall T', (lsq (vp_pts (to_vpairs found)) T' <= lsq (vp_pts (to_vpairs found)) T)%R -> (cost T' <= cost T + delta)%R) ->
  is_rotation guess -> (0 <= delta)%R ->
  align pose_minus log_norms tnorm realize reset_ms (mkComponents matchers [closed_solver 0 algo] evals hook) p ge le wantDebug guess env = Ok (env', r) ->
  (forall it T found, In (EvMatch it T found) (r_loopTrace r) -> pairings_empty found = false -> good T found) ->
  let poses := guess :: solved_poses (r_loopTrace r) in
  (forall k x y, nth_error poses k = Some x -> nth_error poses (S k) = Some y -> (cost y <= cost x + delta)%R) /\
  r_optimal_tf r = last poses guess /\
  length poses <= S (maxIterations p) /\
  (cost (r_optimal_tf r) <= cost guess + INR (maxIterations p) * delta)%R.
Proof.
  intros * STEP RT DP AL EV poses.
  unfold align in AL. destruct (_ || le); [discriminate|].
  destruct (icp_loop _ _ _ _ _ _ _ _ _ _ _ _) as [[[st n] reason]| | ] eqn:EL; cbn [rbind] in AL; try discriminate.
  destruct (realize n (l_env st)) as [env1| | ]; cbn [rbind] in AL; try discriminate.
  destruct (evaluate_quality _ _ _ env1) as [[env2 q]| | ]; cbn [rbind] in AL; try discriminate.
  injection AL as <- <-. cbn [r_loopTrace r_optimal_tf] in *.
  apply (loop_descends algo pose_minus log_norms tnorm realize reset_ms matchers p _ guess evals hook cost delta good STEP) in EL; [|exact RT].
  cbn [l_trace l_sol optimalPose app] in EL. destruct EL as (tr & ET & K).
  assert (GE : Forall (fine_event good) tr).
  { apply Forall_forall. intros [it T found|? ? ? ?|? ? ? ?|? ? ? ?] I; cbn [fine_event]; try exact Logic.I.
    rewrite ET in EV. exact (EV it T found I). }
  destruct (K GE) as (A & _ & B & D). unfold poses. rewrite ET. split; [|split; [|split]].
  - intros k x y X Y. exact (descending_nth cost delta guess _ D k x y X Y).
  - change (guess :: solved_poses tr) with ([guess] ++ solved_poses tr). rewrite last_app. exact B.
  - cbn [length]. lia.
  - rewrite B. assert (X := descending_last cost delta guess _ D). apply le_INR in A. nra.
Qed.
