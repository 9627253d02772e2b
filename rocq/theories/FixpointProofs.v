(** The course of an ICP run with a closed-form solver: the searches, the poses computed from their pairs, and why it ends. *)
From Coq Require Import Reals Qreals List Lra Lia.
From Verif Require Import Base PairingsModel MatcherModel BitfieldModel PointMatcherModel
  SolverModel QualityModel IcpModel GeomModel VisitModel VisitSpec RotProofs HornModel HornProps OlaeModel EndToEndModel EndToEndProps MonotoneProps.
Import ListNotations.
Open Scope nat_scope.

(** ** Specification *)
(** the searches of a run, in order: the pose and the pairs found with it *)
Definition searches {PP PL PN LL NN W} (tr : list (@Event PP PL PN LL NN W Pose)) : list (Pose * @Pairings PP PL PN LL NN W) :=
  flat_map (fun e => match e with EvMatch _ T f => [(T, f)] | _ => [] end) tr.

(** [log_norms] measures motions: it is never negative, and 0 for no motion *)
Definition measures (pose_minus : Pose -> Pose -> Pose) (log_norms : Pose -> Q * Q) : Prop :=
  (forall D, (0 <= fst (log_norms D))%Q /\ (0 <= snd (log_norms D))%Q) /\
  (forall T, (fst (log_norms (pose_minus T T)) == 0)%Q /\ (snd (log_norms (pose_minus T T)) == 0)%Q).

Section Run.
Variables (algo : VPairs -> res (bool * HResult))
  (pose_minus : Pose -> Pose -> Pose) (log_norms : Pose -> Q * Q) (tnorm : Pose -> Q) (realize : nat -> MatchState -> res MatchState).
Variable reset_ms : MatchState -> MatchState.
Variable matchers : list (@Matcher Pair Datatypes.unit Datatypes.unit Datatypes.unit Datatypes.unit Q MatchState Pose).
Variables (p : IcpParams) (hasLog : bool) (guess : Pose)
  (evals : list (@Evaluator MatchState Pose ptpairings)) (hook : option (@hook_t Pair Datatypes.unit Datatypes.unit Datatypes.unit Datatypes.unit Q MatchState Pose)).
Let comps := mkComponents matchers [closed_solver 0 algo] evals hook.
Notation event := (@Event Pair Datatypes.unit Datatypes.unit Datatypes.unit Datatypes.unit Q Pose).

(** the pairs the matchers find in iteration [it] with the pose [T] *)
Definition found_with (it : nat) (T : Pose) (f : ptpairings) : Prop :=
  exists env ms', run_matchers matchers it T (reset_ms env) = Ok (ms', f).
Definition stalls (T' T : Pose) (p2 : option Pose) : bool := is_stalled p (increments pose_minus log_norms T' T p2).

(** why the last iteration is the last one, and the pose after it *)
Inductive ending (T : Pose) (p2 : option Pose) (f : ptpairings) : IterTermReason -> Pose -> Prop :=
| end_none : pairings_empty f = true -> ending T p2 f NoPairings T
| end_error s : pairings_empty f = false -> algo (to_vpairs f) = Ok (false, s) -> ending T p2 f SolverError (hr_pose s)
| end_stalled s : pairings_empty f = false -> algo (to_vpairs f) = Ok (true, s) -> stalls (hr_pose s) T p2 = true -> ending T p2 f Stalled (hr_pose s)
| end_quality s : pairings_empty f = false -> algo (to_vpairs f) = Ok (true, s) -> stalls (hr_pose s) T p2 = false ->
    quality_checkpoints p <> [] -> ending T p2 f QualityCheckpointFailed (hr_pose s)
| end_hook s : pairings_empty f = false -> algo (to_vpairs f) = Ok (true, s) -> stalls (hr_pose s) T p2 = false ->
    hook <> None -> ending T p2 f HookRequest (hr_pose s).

(** [course it fuel T p2 ms n reason Tend]: from iteration [it] with pose [T] (the pose before: [p2]) the searches are [ms]. *)
Inductive course : nat -> nat -> Pose -> option Pose -> list (Pose * ptpairings) -> nat -> IterTermReason -> Pose -> Prop :=
| course_out it T p2 : course it 0 T p2 [] it Undefined T
| course_end it fuel T p2 f reason Tend : found_with it T f -> ending T p2 f reason Tend ->
    course it (S fuel) T p2 [(T, f)] it reason Tend
| course_go it fuel T p2 f s ms n reason Tend : found_with it T f -> pairings_empty f = false ->
    algo (to_vpairs f) = Ok (true, s) -> stalls (hr_pose s) T p2 = false ->
    course (S it) fuel (hr_pose s) (Some T) ms n reason Tend ->
    course it (S fuel) T p2 ((T, f) :: ms) n reason Tend.

Lemma searches_app (a c : list event) : searches (a ++ c) = searches a ++ searches c.
Proof. apply flat_map_app. Qed.

Lemma tail_course it st st' o : iter_tail realize comps p it st = Ok (st', o) ->
  l_sol st' = l_sol st /\ (exists tr, l_trace st' = l_trace st ++ tr /\ searches tr = []) /\
  match o with
  | None => l_prev st' = optimalPose (l_sol st) /\ l_prev2 st' = Some (l_prev st)
  | Some r => (r = QualityCheckpointFailed /\ quality_checkpoints p <> []) \/ (r = HookRequest /\ hook <> None)
  end.
Proof.
  unfold iter_tail. intro H.
  assert (HK : forall s, l_prev s = l_prev st -> (match c_hook comps with
      | None => Ok (mkLoop (l_env s) (l_sol s) (l_pairings s) (optimalPose (l_sol st)) (Some (l_prev s)) (l_lastCorrection s) (l_latched s) (l_details s) (l_trace s), None)
      | Some h => let* r := h it (l_pairings s) (l_sol s) (l_env s) in let '(env', stop) := r in
          let s' := mkLoop env' (l_sol s) (l_pairings s) (l_prev s) (l_prev2 s) (l_lastCorrection s) (l_latched s) (l_details s)
               (l_trace s ++ [EvHook it (optimalPose (l_sol s)) (l_pairings s) stop]) in
          if stop then Ok (s', Some HookRequest) else Ok (mkLoop (l_env s') (l_sol s') (l_pairings s') (optimalPose (l_sol st)) (Some (l_prev s')) (l_lastCorrection s') (l_latched s') (l_details s') (l_trace s'), None)
      end) = Ok (st', o) -> l_sol st' = l_sol s /\ (exists tr, l_trace st' = l_trace s ++ tr /\ searches tr = []) /\
        match o with
        | None => l_prev st' = optimalPose (l_sol st) /\ l_prev2 st' = Some (l_prev st)
        | Some r => (r = QualityCheckpointFailed /\ quality_checkpoints p <> []) \/ (r = HookRequest /\ hook <> None)
        end).
  { intros s PS X. rewrite <- PS. change (c_hook comps) with hook in X. destruct hook as [h|].
    - destruct (h it (l_pairings s) (l_sol s) (l_env s)) as [[env' stop]| | ]; cbn [rbind] in X; try discriminate.
      destruct stop; injection X as <- <-; cbn.
      + split; [reflexivity|]. split; [eexists; split; reflexivity|]. right. split; [reflexivity|discriminate].
      + split; [reflexivity|]. split; [eexists; split; reflexivity|]. split; reflexivity.
    - injection X as <- <-. cbn. split; [reflexivity|]. split; [exists []; rewrite app_nil_r; split; reflexivity|]. split; reflexivity. }
  destruct (find_checkpoint (quality_checkpoints p) it) as [mq|] eqn:EC.
  - assert (QC : quality_checkpoints p <> []) by (intro X; rewrite X in EC; discriminate EC).
    destruct (realize it (l_env st)) as [env1| | ]; cbn [rbind] in H; try discriminate.
    destruct (evaluate_quality (c_evaluators comps) (optimalPose (l_sol st)) (l_pairings st) env1) as [[env2 q]| | ]; cbn [rbind] in H; try discriminate.
    destruct (Qltb q mq).
    + injection H as <- <-. cbn. split; [reflexivity|]. split; [eexists; split; reflexivity|]. left. split; [reflexivity|exact QC].
    + apply HK in H; [|reflexivity]. cbn in H. destruct H as (A & (tr & B & C) & D). split; [exact A|]. split; [|exact D].
      rewrite B, <- app_assoc. eexists. split; [reflexivity|]. cbn. exact C.
  - apply HK in H; [exact H|reflexivity].
Qed.

Lemma body_course it st st' o :
  iter_body pose_minus log_norms tnorm realize reset_ms comps p hasLog guess it st = Ok (st', o) ->
  l_prev st = optimalPose (l_sol st) ->
  let T := optimalPose (l_sol st) in
  exists f, found_with it T f /\
    (exists tr, l_trace st' = l_trace st ++ tr /\ searches tr = [(T, f)]) /\
    match o with
    | Some r => ending T (l_prev2 st) f r (optimalPose (l_sol st'))
    | None => exists s, pairings_empty f = false /\ algo (to_vpairs f) = Ok (true, s) /\ stalls (hr_pose s) T (l_prev2 st) = false /\
        optimalPose (l_sol st') = hr_pose s /\ l_prev st' = hr_pose s /\ l_prev2 st' = Some T
    end.
Proof.
  intros H PV T. unfold iter_body in H.
  destruct (realize it (l_env st)) as [env1| | ]; cbn [rbind] in H; try discriminate. fold T in H.
  change (c_matchers comps) with matchers in H.
  destruct (run_matchers matchers it T (reset_ms env1)) as [[ms' found]| | ] eqn:EM; cbn [rbind] in H; try discriminate.
  exists found. split; [exists env1, ms'; exact EM|].
  destruct (pairings_empty found) eqn:PE.
  - injection H as <- <-. cbn. split; [eexists; split; reflexivity|]. apply end_none. exact PE.
  - change (c_solvers comps) with [closed_solver 0 algo] in H.
    unfold run_solvers, solver_optimal_pose, solver_iter_gate, solver_latch_gate, closed_solver in H.
    cbn [s_enabled negb sc_icpIteration s_runFromIteration s_runUpToIteration s_runUntilTranslationCorrectionSmallerThan s_impl] in H.
    replace (Nat.ltb it 0) with false in H by (symmetry; apply Nat.ltb_ge; lia).
    change (Nat.ltb 0 0) with false in H. change (Qltb 0 0) with false in H. cbn [andb] in H.
    destruct (algo (to_vpairs found)) as [[ok s]| | ] eqn:EA; cbn [rbind fst snd] in H; try discriminate.
    rewrite PV in H. fold T in H. destruct ok.
    + cbn [rbind negb optimalPose] in H. destruct (want_details p it _ && negb hasLog); [discriminate|].
      fold (stalls (hr_pose s) T (l_prev2 st)) in H. destruct (stalls (hr_pose s) T (l_prev2 st)) eqn:ES.
      * injection H as <- <-. cbn. rewrite <- app_assoc. split; [eexists; split; reflexivity|]. apply end_stalled; assumption.
      * apply tail_course in H. cbn in H. destruct H as (A & (tr & B & C) & D). rewrite A, B, <- !app_assoc. cbn [optimalPose]. split.
        -- eexists. split; [reflexivity|]. cbn. fold (searches tr). rewrite C. reflexivity.
        -- destruct o as [r|].
           ++ destruct D as [[-> D]|[-> D]]; [apply end_quality|apply end_hook]; assumption.
           ++ destruct D as [D1 D2]. exists s. repeat (split; [assumption || reflexivity|]). exact D2.
    + cbn [rbind negb] in H. injection H as <- <-. cbn. rewrite <- app_assoc. split; [eexists; split; reflexivity|]. apply end_error; assumption.
Qed.

Lemma loop_course fuel : forall it st st' n o,
  icp_loop pose_minus log_norms tnorm realize reset_ms comps p hasLog guess fuel it st = Ok (st', n, o) ->
  l_prev st = optimalPose (l_sol st) ->
  exists tr, l_trace st' = l_trace st ++ tr /\
    course it fuel (optimalPose (l_sol st)) (l_prev2 st) (searches tr) n o (optimalPose (l_sol st')).
Proof.
  induction fuel as [|fuel IH]; intros it st st' n o H PV; cbn [icp_loop] in H.
  - injection H as <- <- <-. exists []. rewrite app_nil_r. split; [reflexivity|]. constructor.
  - destruct (iter_body pose_minus log_norms tnorm realize reset_ms comps p hasLog guess it st) as [[s1 o1]| | ] eqn:EB; cbn [rbind] in H; try discriminate.
    destruct (body_course it st s1 o1 EB PV) as (f & FW & (tr & ET & SE) & K). destruct o1 as [reason|].
    + injection H as <- <- <-. exists tr. split; [exact ET|]. rewrite SE. apply course_end; assumption.
    + destruct K as (s & PE & EA & ES & A & B & D). destruct (IH (S it) s1 st' n o H) as (tr2 & ET2 & C); [rewrite A; exact B|].
      exists (tr ++ tr2). split; [rewrite ET2, ET, app_assoc; reflexivity|]. rewrite searches_app, SE. cbn [app].
      rewrite A, D in C. eapply course_go; eassumption.
Qed.

Hypothesis MEAS : measures pose_minus log_norms.
Hypothesis MINT : (0 < minAbsStep_trans p)%Q.
Hypothesis MINR : (0 < minAbsStep_rot p)%Q.

Lemma small_min m x y : (x == 0)%Q -> (0 <= y)%Q -> (0 < m)%Q -> Qltb (qabs (qmin x y)) m = true.
Proof.
  intros X Y M. assert (Z : (qmin x y == 0)%Q).
  { unfold qmin. destruct (Qltb y x) eqn:E; [|exact X]. unfold Qltb in E. destruct (Qle_bool x y) eqn:F; [discriminate|].
    assert (Y' : ~ (x <= y)%Q) by (intro C; apply Qle_bool_iff in C; congruence). exfalso. apply Y'. rewrite X. exact Y. }
  set (z := qmin x y) in *. unfold qabs. unfold Qltb at 2. destruct (Qle_bool 0 z) eqn:E; cbn [negb].
  - unfold Qltb. destruct (Qle_bool m z) eqn:F; [|reflexivity]. apply Qle_bool_iff in F. rewrite Z in F. exfalso. apply (Qlt_not_le _ _ M F).
  - exfalso. assert (C : (0 <= z)%Q) by (rewrite Z; apply Qle_refl). apply Qle_bool_iff in C. congruence.
Qed.
(** no motion at all: the run stalls *)
Lemma no_motion_stalls T p2 : stalls T T p2 = true.
Proof.
  destruct MEAS as [NN ZZ]. unfold stalls, increments, is_stalled. destruct (ZZ T) as [Z1 Z2].
  destruct (log_norms (pose_minus T T)) as [dx dr]. cbn [fst snd] in Z1, Z2.
  assert (E : forall m x, (x == 0)%Q -> (0 < m)%Q -> Qltb (qabs x) m = true).
  { intros m x X M. assert (R := small_min m x x X). replace (qmin x x) with x in R by (unfold qmin; destruct (Qltb x x); reflexivity). apply R; [rewrite X; apply Qle_refl|exact M]. }
  destruct p2 as [p2|].
  - destruct (NN (pose_minus T p2)) as [N1 N2]. destruct (log_norms (pose_minus T p2)) as [dx2 dr2]. cbn [fst snd] in *.
    rewrite !small_min by assumption. reflexivity.
  - cbn [fst snd]. rewrite !E by assumption. reflexivity.
Qed.

(** the first search of a course *)
Lemma course_head it fuel T p2 T1 f1 ms n reason Tend : course it fuel T p2 ((T1, f1) :: ms) n reason Tend -> T1 = T.
Proof. inversion 1; subst; reflexivity. Qed.

Lemma course_same ms : forall it fuel T p2 n reason Tend, course it fuel T p2 ms n reason Tend ->
  forall k T1 f1 T2 f2, nth_error ms k = Some (T1, f1) -> nth_error ms (S k) = Some (T2, f2) -> to_vpairs f2 = to_vpairs f1 -> pairings_empty f2 = false ->
  S (S k) = length ms /\ n = it + S k /\ reason = Stalled /\ Tend = T2.
Proof.
  induction ms as [|[Tx fx] ms IH]; intros it fuel T p2 n reason Tend C k T1 f1 T2 f2 K1 K2 SAME NE; [destruct k; discriminate|].
  inversion C; subst; [destruct k; discriminate|]. destruct k as [|k].
  - cbn in K1. injection K1 as <- <-. cbn in K2. destruct ms as [|[Ty fy] ms]; [discriminate|]. injection K2 as -> ->.
    assert (Y := course_head _ _ _ _ _ _ _ _ _ _ ltac:(eassumption)). subst T2.
    match goal with X : course (S it) _ _ _ _ _ _ _ |- _ => inversion X; subst end.
    + match goal with X : ending _ _ _ _ _ |- _ => inversion X; subst end; try congruence;
      match goal with A : algo (to_vpairs f2) = Ok (_, ?s0), B : algo (to_vpairs fx) = Ok (true, s) |- _ => rewrite SAME, B in A; try discriminate; injection A as <- end.
      * cbn [length]. repeat split; lia.
      * exfalso. match goal with X : stalls _ _ _ = false |- _ => rewrite no_motion_stalls in X; discriminate end.
      * exfalso. match goal with X : stalls _ _ _ = false |- _ => rewrite no_motion_stalls in X; discriminate end.
    + exfalso. match goal with A : algo (to_vpairs f2) = Ok (true, ?s0), B : algo (to_vpairs fx) = Ok (true, s) |- _ => rewrite SAME, B in A; injection A as <- end.
      match goal with X : stalls (hr_pose s) (hr_pose s) _ = false |- _ => rewrite no_motion_stalls in X; discriminate end.
  - cbn [nth_error] in K1, K2. match goal with X : course (S it) _ _ _ _ _ _ _ |- _ => destruct (IH _ _ _ _ _ _ _ X k T1 f1 T2 f2 K1 K2 SAME NE) as (A & B & D & E) end.
    cbn [length]. repeat split; try assumption; lia.
Qed.
End Run.

(** The course of a whole call. *)
Theorem align_course :
  forall algo pose_minus log_norms tnorm realize reset_ms matchers evals hook p ge le wantDebug guess env env' r,
  align pose_minus log_norms tnorm realize reset_ms (mkComponents matchers [closed_solver 0 algo] evals hook) p ge le wantDebug guess env = Ok (env', r) ->
  exists reason, course algo pose_minus log_norms reset_ms matchers p hook 0 (maxIterations p) guess None (searches (r_loopTrace r)) (r_nIterations r) reason (r_optimal_tf r) /\
    r_terminationReason r = (if Nat.leb (maxIterations p) (r_nIterations r) then MaxIterations else reason).
Proof.
  intros * AL. unfold align in AL. destruct (_ || le); [discriminate|].
  destruct (icp_loop _ _ _ _ _ _ _ _ _ _ _ _) as [[[st n] reason]| | ] eqn:EL; cbn [rbind] in AL; try discriminate.
  destruct (realize n (l_env st)) as [env1| | ]; cbn [rbind] in AL; try discriminate.
  destruct (evaluate_quality _ _ _ env1) as [[env2 q]| | ]; cbn [rbind] in AL; try discriminate.
  injection AL as <- <-. cbn [r_loopTrace r_optimal_tf r_nIterations r_terminationReason].
  apply (loop_course algo pose_minus log_norms tnorm realize reset_ms matchers p _ guess evals hook) in EL; [|reflexivity].
  cbn [l_trace l_sol optimalPose app l_prev2] in EL. destruct EL as (tr & ET & C). exists reason. rewrite ET. split; [exact C|reflexivity].
Qed.
