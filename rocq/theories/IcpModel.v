(** Model of mp2p_icp::ICP::align and of the log-file counter of ICP::save_log_file.
    Sources: /repo/mp2p_icp/src/ICP.cpp, /repo/mp2p_icp/include/mp2p_icp/Parameters.h,
             Results.h, IterTermReason.h *)
From Verif Require Import Base PairingsModel MatcherModel SolverModel QualityModel.

(** IterTermReason.h:26-35 *)
Inductive IterTermReason : Type :=
| Undefined | NoPairings | SolverError | MaxIterations | Stalled
| QualityCheckpointFailed | HookRequest.

(** Parameters.h:34-106, the fields read by align().  quality_checkpoints is a
    std::map, i.e. an association list with unique keys. *)
Record IcpParams : Type := mkIcpParams {
  maxIterations : nat;
  minAbsStep_trans : Q;
  minAbsStep_rot : Q;
  generateDebugFiles : bool;
  saveIterationDetails : bool;
  decimationIterationDetails : nat;
  quality_checkpoints : list (nat * Q) }.

(** std::map::find *)
Fixpoint find_checkpoint (m : list (nat * Q)) (k : nat) : option Q :=
  match m with
  | [] => None
  | (k', v) :: rest => if Nat.eqb k' k then Some v else find_checkpoint rest k
  end.

Section Align.
Context {PP PL PN LL NN W : Type}.
Notation pairings := (Pairings PP PL PN LL NN W).
(** [Env]: the whole mutable world seen by matchers, solvers, evaluators and hook. *)
Context {Env Pose : Type}.
(** CPose3D operator- (line 203), and the two norms of SE<3>::log of a pose
    (lines 191-198) as finite doubles. *)
Variable pose_minus : Pose -> Pose -> Pose.
Variable log_norms : Pose -> Q * Q.
Variable tnorm : Pose -> Q.
(** Effect on the world of writing ICP_ITERATION and realising the formula
    parameters of all components (lines 87-101,131-134,264-265,319-320); it may throw
    when a formula cannot be evaluated. *)
Variable realize : nat -> Env -> res Env.
(** Reset of the MatchState at the start of each run_matchers() (Matcher.cpp:55-67). *)
Variable fresh_match_state : Env -> Env.

Notation matcher := (@Matcher PP PL PN LL NN W Env Pose).
Notation solver := (Solver Env Pose pairings).
Notation evaluator := (@Evaluator Env Pose pairings).
Notation solution := (Solution Pose).

(** IterationHook_Input / Output: iteration, pairings, solution -> request_stop *)
Definition hook_t := nat -> pairings -> solution -> Env -> res (Env * bool).

Record Components : Type := mkComponents {
  c_matchers : list matcher;
  c_solvers : list solver;
  c_evaluators : list evaluator;
  c_hook : option hook_t }.

(** Observable events of the main loop, in order (ghost state: the code has no such
    variable; each event stands for the call it names). *)
Inductive Event : Type :=
| EvMatch (iter : nat) (pose : Pose) (found : pairings)
| EvSolve (iter : nat) (used : pairings) (ok : bool) (out : solution)
| EvQuality (iter : nat) (pose : Pose) (used : pairings) (q : Q)
| EvHook (iter : nat) (pose : Pose) (used : pairings) (stop : bool).

(** The local variables of align() that live across iterations. *)
Record LoopState : Type := mkLoop {
  l_env : Env;
  l_sol : solution;                   (* state.currentSolution *)
  l_pairings : pairings;              (* state.currentPairings *)
  l_prev : Pose;                      (* prev_solution *)
  l_prev2 : option Pose;              (* prev2_solution *)
  l_lastCorrection : option Pose;     (* lastCorrection *)
  l_latched : list nat;               (* sc.perSolverPersistentData *)
  l_details : list (nat * (Pose * pairings));  (* currentLog->iterationsDetails *)
  l_trace : list Event }.             (* ghost, most recent last *)

Definition qmin (a b : Q) : Q := if Qltb b a then b else a.   (* mrpt::keep_min *)
Definition qabs (a : Q) : Q := if Qltb a 0 then (- a)%Q else a.

(** ICP.cpp:203-215: the increments after taking the minimum with the step from two
    iterations ago. *)
Definition increments (cur prev : Pose) (prev2 : option Pose) : Q * Q :=
  let '(dx, dr) := log_norms (pose_minus cur prev) in
  match prev2 with
  | None => (dx, dr)
  | Some p2 =>
    let '(dx2, dr2) := log_norms (pose_minus cur p2) in
    (qmin dx dx2, qmin dr dr2)
  end.

(** ICP.cpp:228-229 *)
Definition is_stalled (p : IcpParams) (d : Q * Q) : bool :=
  Qltb (qabs (fst d)) (minAbsStep_trans p) && Qltb (qabs (snd d)) (minAbsStep_rot p).

(** ICP.cpp:232-234.  `x % 0` is excluded by the short-circuit. *)
Definition want_details (p : IcpParams) (iter : nat) (stalled : bool) : bool :=
  saveIterationDetails p &&
  (Nat.eqb (decimationIterationDetails p) 0
   || Nat.eqb (iter mod decimationIterationDetails p) 0 || stalled).

(** ICP.cpp:258-303, the two remaining reasons to stop, then roll-over (306-307). *)
Definition iter_tail (c : Components) (p : IcpParams) (iter : nat) (st : LoopState)
  : res (LoopState * option IterTermReason) :=
  let cur := optimalPose (l_sol st) in
  let roll (st : LoopState) := mkLoop (l_env st) (l_sol st) (l_pairings st) cur
        (Some (l_prev st)) (l_lastCorrection st) (l_latched st) (l_details st) (l_trace st) in
  let hook_part (st : LoopState) : res (LoopState * option IterTermReason) :=
    match c_hook c with
    | None => Ok (roll st, None)
    | Some h =>
      let* r := h iter (l_pairings st) (l_sol st) (l_env st) in
      let '(env', stop) := r in
      let st' := mkLoop env' (l_sol st) (l_pairings st) (l_prev st) (l_prev2 st)
           (l_lastCorrection st) (l_latched st) (l_details st)
           (l_trace st ++ [EvHook iter (optimalPose (l_sol st)) (l_pairings st) stop]) in
      if stop then Ok (st', Some HookRequest) else Ok (roll st', None)
    end in
  match find_checkpoint (quality_checkpoints p) iter with
  | None => hook_part st
  | Some minQuality =>
    let* env1 := realize iter (l_env st) in
    let* r := evaluate_quality (c_evaluators c) cur (l_pairings st) env1 in
    let '(env2, q) := r in
    let st' := mkLoop env2 (l_sol st) (l_pairings st) (l_prev st) (l_prev2 st)
         (l_lastCorrection st) (l_latched st) (l_details st)
         (l_trace st ++ [EvQuality iter cur (l_pairings st) q]) in
    if Qltb q minQuality then Ok (st', Some QualityCheckpointFailed) else hook_part st'
  end.

(** ICP.cpp:127-308, the body of the loop: [None] = go on with the next iteration,
    [Some r] = break with that reason.  [hasLog] = currentLog.has_value() (line 66-77).
    Line 236 dereferences currentLog without a check. *)
Definition iter_body (c : Components) (p : IcpParams) (hasLog : bool) (initGuess : Pose)
  (iter : nat) (st : LoopState) : res (LoopState * option IterTermReason) :=
  let* env1 := realize iter (l_env st) in
  let* rm := run_matchers (c_matchers c) iter (optimalPose (l_sol st))
                          (fresh_match_state env1) in
  let '(env2, found) := rm in
  let tr1 := l_trace st ++ [EvMatch iter (optimalPose (l_sol st)) found] in
  if pairings_empty found then
    Ok (mkLoop env2 (l_sol st) found (l_prev st) (l_prev2 st) (l_lastCorrection st)
          (l_latched st) (l_details st) tr1, Some NoPairings)
  else
    let sc := mkCtx (Some (optimalPose (l_sol st)))
                (Some (pose_minus (optimalPose (l_sol st)) initGuess))
                (l_lastCorrection st) (Some iter) in
    let* rs := run_solvers tnorm (c_solvers c) found (l_sol st) sc (l_latched st) env2 in
    let '(env3, latched', ok, sol') := rs in
    let tr2 := tr1 ++ [EvSolve iter found ok sol'] in
    if negb ok then
      Ok (mkLoop env3 sol' found (l_prev st) (l_prev2 st) (l_lastCorrection st)
            latched' (l_details st) tr2, Some SolverError)
    else
      let deltaSol := pose_minus (optimalPose sol') (l_prev st) in
      let stalled := is_stalled p (increments (optimalPose sol') (l_prev st) (l_prev2 st)) in
      let details := if want_details p iter stalled
                     then l_details st ++ [(iter, (optimalPose sol', found))]
                     else l_details st in
      let st' := mkLoop env3 sol' found (l_prev st) (l_prev2 st) (Some deltaSol)
                   latched' details tr2 in
      if want_details p iter stalled && negb hasLog then UB
      else if stalled then Ok (st', Some Stalled)
      else iter_tail c p iter st'.

(** ICP.cpp:123: for (nIterations = 0; nIterations < maxIterations; nIterations++).
    [fuel] = maxIterations - nIterations. *)
Fixpoint icp_loop (c : Components) (p : IcpParams) (hasLog : bool) (initGuess : Pose)
  (fuel iter : nat) (st : LoopState) : res (LoopState * nat * IterTermReason) :=
  match fuel with
  | O => Ok (st, iter, Undefined)
  | S fuel' =>
    let* r := iter_body c p hasLog initGuess iter st in
    match r with
    | (st', Some reason) => Ok (st', iter, reason)
    | (st', None) => icp_loop c p hasLog initGuess fuel' (S iter) st'
    end
  end.

(** Results.h:29-58 (covariance not here, see CovarianceModel). *)
Record IcpResults : Type := mkIcpResults {
  r_optimal_tf : Pose;
  r_optimalScale : Q;
  r_nIterations : nat;
  r_terminationReason : IterTermReason;
  r_quality : Q;
  r_finalPairings : pairings;
  r_iterationDetails : list (nat * (Pose * pairings));  (* part of the LogRecord *)
  r_loopTrace : list Event }.                          (* ghost *)

(** ICP.cpp:36-382.  [globalEmpty], [localEmpty]: metric_map_t::empty() of the inputs.
    [wantDebugInfo]: outputDebugInfo.has_value().  Not modelled: profiler, the
    covariance, the content and saving of the log record (its file counter is below). *)
Definition align (c : Components) (p : IcpParams) (globalEmpty localEmpty wantDebugInfo : bool)
  (initGuess : Pose) (env : Env) : res (Env * IcpResults) :=
  if isNil (c_matchers c) || isNil (c_solvers c) || isNil (c_evaluators c)
     || globalEmpty || localEmpty then Throw                      (* lines 51-56 *)
  else
    let hasLog := wantDebugInfo || generateDebugFiles p in        (* line 68 *)
    let st0 := mkLoop env (mkSol initGuess 1%Q) pairings_empty_ctor initGuess None None
                 [] [] [] in
    let* rl := icp_loop c p hasLog initGuess (maxIterations p) 0 st0 in
    let '(st, nIterations, reason) := rl in
    let reason' := if Nat.leb (maxIterations p) nIterations then MaxIterations else reason in
    let* env1 := realize nIterations (l_env st) in
    let* rq := evaluate_quality (c_evaluators c) (optimalPose (l_sol st)) (l_pairings st) env1 in
    let '(env2, q) := rq in
    Ok (env2, mkIcpResults (optimalPose (l_sol st)) (optimalScale (l_sol st)) nIterations
                reason' q (l_pairings st) (l_details st) (l_trace st)).

End Align.

(** ** Log file numbering, ICP.cpp:384-401.
    One call of save_log_file() that reaches the critical section with the counter at
    [counter]: new counter value, and the record number if the file is going to be
    written.  The mutex makes lines 395-400 one atomic step.  The counter is a
    32-bit unsigned int: it wraps. *)
Definition save_log_step (decimationDebugFiles : N) (counter : N) : N * option N :=
  let id := counter in
  let counter' := ((counter + 1) mod 2 ^ 32)%N in
  if (1 <? decimationDebugFiles)%N && negb (id mod decimationDebugFiles =? 0)%N
  then (counter', None) else (counter', Some id).

(** Any number of calls, in the order in which they take the mutex; each call comes
    from some thread with its own decimation parameter (save_log_file() returns before
    the counter when generateDebugFiles is false, line 388: those calls are not
    listed).  Result: numbers of the records written, in that order. *)
Fixpoint save_log_run (calls : list N) (counter : N) : list (option N) :=
  match calls with
  | [] => []
  | d :: rest =>
    let '(counter', o) := save_log_step d counter in o :: save_log_run rest counter'
  end.
