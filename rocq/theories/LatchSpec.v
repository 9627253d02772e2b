(** Vocabulary for C16 over a whole run of ICP::align: in which iterations is a given
    solver really called?  The calls are observed from outside: [calls env] is a log
    that the solver writes into the world at each call of its implementation. *)
From Verif Require Import Base PairingsModel MatcherModel SolverModel QualityModel IcpModel IcpSpec.

Section LatchSpec.
Context {PP PL PN LL NN W Env Pose : Type}.
Notation pairings := (Pairings PP PL PN LL NN W).
Notation event := (@Event PP PL PN LL NN W Pose).
Notation solver := (Solver Env Pose pairings).
Variable pose_minus : Pose -> Pose -> Pose.
Variable tnorm : Pose -> Q.
Variable realize : nat -> Env -> res Env.
Variable fresh_match_state : Env -> Env.

(** [calls] grows by the iteration number at each call of the implementation of [s], and
    nothing else in the system touches it. *)
Definition silent {A} (calls : Env -> list nat) (get : A -> Env) (env : Env) (r : res A) : Prop :=
  forall a, r = Ok a -> calls (get a) = calls env.

Record logs_calls_of (calls : Env -> list nat) (s : solver) (rest : list solver)
  (c : @Components PP PL PN LL NN W Env Pose) : Prop := mkLogs {
  lc_self : forall sc f env out a, s_impl s sc f env out = Ok a ->
    calls (fst (fst a)) = match sc_icpIteration sc with Some k => [k] | None => [] end ++ calls env;
  lc_others : Forall (fun s' => forall sc f env out,
    silent calls (fun a => fst (fst a)) env (s_impl s' sc f env out)) rest;
  lc_matchers : Forall (fun m => forall k q env out,
    silent calls (fun a => fst (fst a)) env (m_impl_match m k q env out)) (c_matchers c);
  lc_evaluators : Forall (fun e => forall q f env,
    silent calls fst env (e_evaluate e q f env)) (c_evaluators c);
  lc_hook : forall h, c_hook c = Some h -> forall k f so env,
    silent calls fst env (h k f so env);
  lc_realize : forall k env, silent calls (fun e => e) env (realize k env);
  lc_fresh : forall env, calls (fresh_match_state env) = calls env }.

(** The solver is enabled and iteration [k] is inside its iteration window. *)
Definition window_open (s : solver) (k : nat) : Prop :=
  s_enabled s = true /\ s_runFromIteration s <= k
  /\ (s_runUpToIteration s = 0 \/ k <= s_runUpToIteration s).

(** The translation between the two newest iterates is below the threshold of [s]. *)
Definition small_correction (guess : Pose) (s : solver) (tr : list event) : Prop :=
  match iterates guess tr with
  | cur :: prev :: _ =>
    (tnorm (pose_minus cur prev) < s_runUntilTranslationCorrectionSmallerThan s)%Q
  | _ => False
  end.

(** At some solving step of [tr] inside the window of [s], the correction was small. *)
Definition finished_in (guess : Pose) (s : solver) (tr : list event) : Prop :=
  exists pre k used ok out post, tr = pre ++ EvSolve k used ok out :: post
    /\ window_open s k /\ small_correction guess s pre.

End LatchSpec.
