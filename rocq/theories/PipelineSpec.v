(** Specification vocabulary for C05, C06, C16, C17, C23, C24. *)
From Verif Require Import Base PairingsModel MatcherModel SolverModel QualityModel.

(** An iteration number is inside a [from, upTo] window, 0 meaning "no upper limit". *)
Definition in_window (from upTo it : nat) : Prop := from <= it /\ (upTo = 0 \/ it <= upTo).

Section MatcherSpec.
Context {PP PL PN LL NN W Env Pose : Type}.
Notation pairings := (Pairings PP PL PN LL NN W).
Notation matcher := (@Matcher PP PL PN LL NN W Env Pose).

Definition no_pairings : pairings := mkPairings [] [] [] [] [] [] 0.

(** A matcher is allowed to run at iteration [it]. *)
Definition matcher_may_run (m : matcher) (it : nat) : Prop :=
  m_enabled m = true /\ in_window (m_runFromIteration m) (m_runUpToIteration m) it.

(** [matcher_outputs ms it pose env outs env']: called one after the other on a fresh
    output, each on the environment left by the previous one, the matchers of [ms]
    produce the outputs [outs] (a matcher not allowed to run produces nothing and
    changes nothing). *)
Inductive matcher_outputs (it : nat) (pose : Pose)
  : list matcher -> Env -> list pairings -> Env -> Prop :=
| mo_nil : forall env, matcher_outputs it pose [] env [] env
| mo_run : forall m ms env env1 env2 flag out outs,
    matcher_may_run m it ->
    m_impl_match m it pose env no_pairings = Ok (env1, flag, out) ->
    matcher_outputs it pose ms env1 outs env2 ->
    matcher_outputs it pose (m :: ms) env (out :: outs) env2
| mo_skip : forall m ms env env2 outs,
    ~ matcher_may_run m it ->
    matcher_outputs it pose ms env outs env2 ->
    matcher_outputs it pose (m :: ms) env (no_pairings :: outs) env2.

(** Ordered concatenation of several pairing sets. *)
Definition is_concat (outs : list pairings) (p : pairings) : Prop :=
  paired_pt2pt p = concat (map paired_pt2pt outs)
  /\ paired_pt2ln p = concat (map paired_pt2ln outs)
  /\ paired_pt2pl p = concat (map paired_pt2pl outs)
  /\ paired_ln2ln p = concat (map paired_ln2ln outs)
  /\ paired_pl2pl p = concat (map paired_pl2pl outs)
  /\ potential_pairings p = list_sum (map potential_pairings outs).
End MatcherSpec.

Section SolverSpec.
Context {Env Pose Pairs : Type}.
Variable tnorm : Pose -> Q.
Notation solver := (Solver Env Pose Pairs).

Definition solver_in_window (s : solver) (it : option nat) : Prop :=
  s_enabled s = true /\
  forall k, it = Some k -> in_window (s_runFromIteration s) (s_runUpToIteration s) k.

(** The last ICP correction was below the solver's own limit. *)
Definition small_correction (s : solver) (sc : SolverContext Pose) : Prop :=
  exists d, sc_lastIcpStepIncrement sc = Some d /\
            (tnorm d < s_runUntilTranslationCorrectionSmallerThan s)%Q.

Definition solver_may_run (s : solver) (sc : SolverContext Pose) (latched : list nat) : Prop :=
  solver_in_window s (sc_icpIteration sc) /\
  ((0 < s_runUntilTranslationCorrectionSmallerThan s)%Q ->
     ~ In (s_id s) latched /\ ~ small_correction s sc).

(** The solver fires its latch in this call. *)
Definition latch_fires (s : solver) (sc : SolverContext Pose) (latched : list nat) : Prop :=
  solver_in_window s (sc_icpIteration sc) /\
  (0 < s_runUntilTranslationCorrectionSmallerThan s)%Q /\
  ~ In (s_id s) latched /\ small_correction s sc.

(** Calls of optimal_pose() of all solvers of a list, in order, all failing. *)
Inductive all_fail (pairs : Pairs) (sc : SolverContext Pose)
  : list solver -> Solution Pose -> list nat -> Env -> Solution Pose -> list nat -> Env -> Prop :=
| af_nil : forall out l env, all_fail pairs sc [] out l env out l env
| af_cons : forall s ss out l env out1 l1 env1 out2 l2 env2,
    solver_optimal_pose tnorm s pairs out sc l env = Ok (env1, l1, false, out1) ->
    all_fail pairs sc ss out1 l1 env1 out2 l2 env2 ->
    all_fail pairs sc (s :: ss) out l env out2 l2 env2.

(** Any number of run_solvers() calls (with arbitrary solver lists, pairings, poses and
    contexts), all sharing the same persistent data. *)
Inductive latch_history : list nat -> list nat -> Prop :=
| lh_refl : forall l, latch_history l l
| lh_step : forall l l1 l2 (ss : list solver) pairs out sc env env' ok out',
    run_solvers tnorm ss pairs out sc l env = Ok (env', l1, ok, out') ->
    latch_history l1 l2 -> latch_history l l2.
End SolverSpec.

(** Weighted mean of (weight, quality) pairs. *)
Definition qsum (l : list Q) : Q := fold_right Qplus 0%Q l.
Definition weighted_mean (l : list (Q * Q)) : Q :=
  (qsum (map (fun wq => (fst wq * snd wq)%Q) l) / qsum (map fst l))%Q.

Section QualitySpec.
Context {Env Pose Pairs : Type}.
Notation evaluator := (@Evaluator Env Pose Pairs).
(** Evaluators called in order, none asking for hard discard: the list of
    (weight, quality). *)
Inductive evals (pose : Pose) (pairs : Pairs)
  : list evaluator -> Env -> list (Q * Q) -> Env -> Prop :=
| ev_nil : forall env, evals pose pairs [] env [] env
| ev_cons : forall e es env env1 env2 r l,
    e_evaluate e pose pairs env = Ok (env1, r) -> hard_discard r = false ->
    evals pose pairs es env1 l env2 ->
    evals pose pairs (e :: es) env ((relativeWeight e, quality r) :: l) env2.
End QualitySpec.
