(** Model of mp2p_icp::Solver::optimal_pose and ICP::run_solvers.
    Sources: /repo/mp2p_icp/src/Solver.cpp, /repo/mp2p_icp/include/mp2p_icp/Solver.h,
             /repo/mp2p_icp/src/ICP.cpp:469-479 *)
From Verif Require Import Base.

Section Solvers.
Context {Env Pose Pairs : Type}.
(** mrpt::poses::CPose3D::translation().norm(), as a finite double. *)
Variable tnorm : Pose -> Q.

(** OptimalTF_Result.h:32-39 (the outlier list is output-only and not modelled). *)
Record Solution : Type := mkSol { optimalPose : Pose; optimalScale : Q }.

(** Solver.h:43-62; the persistent data map is threaded separately, see
    [latched].  [prior] is constant and part of the closures. *)
Record SolverContext : Type := mkCtx {
  sc_guess : option Pose;
  sc_currentCorrection : option Pose;
  sc_lastIcpStepIncrement : option Pose;
  sc_icpIteration : option nat }.

(** Solver.h:72-102.  [s_id] stands for the address of the object, the key of
    perSolverPersistentData.  The virtual impl_optimal_pose() is arbitrary; it gets
    [out] by reference so it may change it even when it returns false. *)
Record Solver : Type := mkSolver {
  s_id : nat;
  s_enabled : bool;
  s_runFromIteration : nat;
  s_runUpToIteration : nat;
  s_runUntilTranslationCorrectionSmallerThan : Q;
  s_impl : SolverContext -> Pairs -> Env -> Solution -> res (Env * bool * Solution) }.

(** [latched]: the solvers whose persistent data holds the key "finished". *)
Definition is_latched (latched : list nat) (s : Solver) : bool :=
  existsb (Nat.eqb (s_id s)) latched.

(** Solver.cpp:39-43 *)
Definition solver_iter_gate (s : Solver) (iter : option nat) : bool :=
  if negb (s_enabled s) then false
  else match iter with
  | None => true
  | Some it =>
    if Nat.ltb it (s_runFromIteration s) then false
    else if Nat.ltb 0 (s_runUpToIteration s) && Nat.ltb (s_runUpToIteration s) it then false
    else true
  end.

(** Solver.cpp:45-61: (run the implementation?, new latches) *)
Definition solver_latch_gate (s : Solver) (sc : SolverContext) (latched : list nat)
  : bool * list nat :=
  if Qltb 0 (s_runUntilTranslationCorrectionSmallerThan s) then
    if is_latched latched s then (false, latched)
    else match sc_lastIcpStepIncrement sc with
    | Some d =>
      if Qltb (tnorm d) (s_runUntilTranslationCorrectionSmallerThan s)
      then (false, s_id s :: latched) else (true, latched)
    | None => (true, latched)
    end
  else (true, latched).

(** Solver.cpp:36-64.  Result: environment, latches, returned flag, [out]. *)
Definition solver_optimal_pose (s : Solver) (pairings : Pairs) (out : Solution)
  (sc : SolverContext) (latched : list nat) (env : Env)
  : res (Env * list nat * bool * Solution) :=
  if solver_iter_gate s (sc_icpIteration sc) then
    let '(run, latched') := solver_latch_gate s sc latched in
    if run then
      let* r := s_impl s sc pairings env out in
      let '(env', ok, out') := r in Ok (env', latched', ok, out')
    else Ok (env, latched', false, out)
  else Ok (env, latched, false, out).

(** ICP.cpp:469-479 *)
Fixpoint run_solvers (ss : list Solver) (pairings : Pairs) (out : Solution)
  (sc : SolverContext) (latched : list nat) (env : Env)
  : res (Env * list nat * bool * Solution) :=
  match ss with
  | [] => Ok (env, latched, false, out)
  | s :: rest =>
    let* r := solver_optimal_pose s pairings out sc latched env in
    let '(env', latched', ok, out') := r in
    if ok then Ok (env', latched', true, out')
    else run_solvers rest pairings out' sc latched' env'
  end.

End Solvers.
Arguments Solution : clear implicits.
Arguments SolverContext : clear implicits.
Arguments Solver : clear implicits.
