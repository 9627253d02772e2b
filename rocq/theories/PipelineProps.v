(** Properties C05, C06, C16, C17, C23, C24 *)
From Verif Require Import Base PairingsModel MatcherModel SolverModel QualityModel
  PipelineSpec PipelineProofs.
From Coq Require Import Lqa.

(** C05: when the gate is open the implementation decides; when it is closed nothing
    happens. *)
Theorem C05_matcher_runs_in_window :
  forall (PP PL PN LL NN W Env Pose : Type) (m : @Matcher PP PL PN LL NN W Env Pose)
         (it : nat) (pose : Pose) (env : Env) (out : Pairings PP PL PN LL NN W),
  (m_enabled m = true /\ m_runFromIteration m <= it
     /\ (m_runUpToIteration m = 0 \/ it <= m_runUpToIteration m) ->
     matcher_match m it pose env out = m_impl_match m it pose env out)
  /\ (~ (m_enabled m = true /\ m_runFromIteration m <= it
         /\ (m_runUpToIteration m = 0 \/ it <= m_runUpToIteration m)) ->
     matcher_match m it pose env out = Ok (env, false, out)).
Proof.
  intros. split; intro H; [exact (matcher_match_run m it pose env out H)
                          |exact (matcher_match_skip m it pose env out H)].
Qed.
Print Assumptions C05_matcher_runs_in_window.

(** C06 *)
Theorem C06_run_matchers_concatenates :
  forall (PP PL PN LL NN W Env Pose : Type)
         (ms : list (@Matcher PP PL PN LL NN W Env Pose))
         (it : nat) (pose : Pose) (env env' : Env) (p : Pairings PP PL PN LL NN W),
  run_matchers ms it pose env = Ok (env', p) <->
  exists outs, matcher_outputs it pose ms env outs env' /\ is_concat outs p
               /\ point_weights p = [].
Proof. intros. exact (run_matchers_iff ms it pose env env' p). Qed.
Print Assumptions C06_run_matchers_concatenates.

(** Non-vacuity: three matchers, the middle one outside its window. *)
Definition ex_matcher (from upTo k : nat) : @Matcher nat nat nat nat nat Q nat unit :=
  mkMatcher true from upTo
    (fun it _ env out => Ok (env + 1, true,
       mkPairings (paired_pt2pt out ++ [k; env]) [] [k] [] [] [(2, 1%Q)] 10)).
Example C06_ex :
  run_matchers [ex_matcher 0 0 7; ex_matcher 0 2 8; ex_matcher 3 3 9] 3 tt 100
  = Ok (102, mkPairings [7; 100; 9; 101] [] [7; 9] [] [] [] 20).
Proof. reflexivity. Qed.
Example C05_ex :
  matcher_match (ex_matcher 0 2 8) 2 tt 0 pairings_empty_ctor
  = Ok (1, true, mkPairings [8; 0] [] [8] [] [] [(2, 1%Q)] 10)
  /\ matcher_match (ex_matcher 0 2 8) 3 tt 0 pairings_empty_ctor
  = Ok (0, false, pairings_empty_ctor).
Proof. split; reflexivity. Qed.

(** C16 *)
Theorem C16_solver_runs_iff_allowed :
  forall (Env Pose Pairs : Type) (tnorm : Pose -> Q) (s : Solver Env Pose Pairs)
         (pairs : Pairs) (out : Solution Pose) (sc : SolverContext Pose)
         (latched : list nat) (env : Env),
  (solver_may_run tnorm s sc latched ->
     solver_optimal_pose tnorm s pairs out sc latched env =
       (let* r := s_impl s sc pairs env out in
        let '(env', ok, out') := r in Ok (env', latched, ok, out')))
  /\ (~ solver_may_run tnorm s sc latched ->
      (latch_fires tnorm s sc latched /\
         solver_optimal_pose tnorm s pairs out sc latched env
         = Ok (env, s_id s :: latched, false, out))
      \/ (~ latch_fires tnorm s sc latched /\
         solver_optimal_pose tnorm s pairs out sc latched env = Ok (env, latched, false, out))).
Proof.
  intros. split; intro H; [exact (solver_runs tnorm s pairs out sc latched env H)
                          |exact (solver_skips tnorm s pairs out sc latched env H)].
Qed.
Print Assumptions C16_solver_runs_iff_allowed.

Theorem C16_latch_is_permanent :
  forall (Env Pose Pairs : Type) (tnorm : Pose -> Q) (s : Solver Env Pose Pairs) l l',
  (0 < s_runUntilTranslationCorrectionSmallerThan s)%Q ->
  In (s_id s) l -> @latch_history Env Pose Pairs tnorm l l' ->
  In (s_id s) l' /\
  forall pairs out sc env,
    solver_optimal_pose tnorm s pairs out sc l' env = Ok (env, l', false, out).
Proof. intros. eapply latched_forever; eassumption. Qed.
Print Assumptions C16_latch_is_permanent.

Definition ex_solver (id : nat) (until : Q) (ok : bool) (pose : Q) : Solver nat Q nat :=
  mkSolver id true 1 5 until (fun sc pairs env out => Ok (env + 1, ok, mkSol pose 1%Q)).
Definition ex_ctx (it : nat) (lastc : option Q) : SolverContext Q := mkCtx (Some 0%Q) None lastc (Some it).
Example C16_ex_runs : solver_may_run Qabs.Qabs (ex_solver 3 (1#2) true 9) (ex_ctx 2 (Some 3%Q)) [1; 2].
Proof.
  split.
  - split; [reflexivity|]. intros k [= <-]. split; cbn; lia.
  - intros _. split; [cbn; lia|]. intros [d [[= <-] H]].
    unfold Qlt, Qabs.Qabs, ex_solver in H; cbn in H; lia.
Qed.
Example C16_ex_fires : latch_fires Qabs.Qabs (ex_solver 3 (1#2) true 9) (ex_ctx 2 (Some (1#4)))  [1; 2].
Proof.
  split; [split; [reflexivity|intros k [= <-]; split; cbn; lia]|].
  split; [reflexivity|]. split; [cbn; lia|]. exists (1#4). split; reflexivity.
Qed.

(** C17 *)
Theorem C17_first_success_wins :
  forall (Env Pose Pairs : Type) (tnorm : Pose -> Q) (ss : list (Solver Env Pose Pairs))
         pairs out sc l env env' l' out',
  run_solvers tnorm ss pairs out sc l env = Ok (env', l', true, out') <->
  exists before s after out1 l1 env1,
    ss = before ++ s :: after
    /\ all_fail tnorm pairs sc before out l env out1 l1 env1
    /\ solver_optimal_pose tnorm s pairs out1 sc l1 env1 = Ok (env', l', true, out').
Proof. intros. exact (run_solvers_true_iff tnorm ss pairs out sc l env env' l' out'). Qed.
Print Assumptions C17_first_success_wins.

Theorem C17_false_iff_all_fail :
  forall (Env Pose Pairs : Type) (tnorm : Pose -> Q) (ss : list (Solver Env Pose Pairs))
         pairs out sc l env env' l' out',
  run_solvers tnorm ss pairs out sc l env = Ok (env', l', false, out') <->
  all_fail tnorm pairs sc ss out l env out' l' env'.
Proof. intros. exact (run_solvers_false_iff tnorm ss pairs out sc l env env' l' out'). Qed.
Print Assumptions C17_false_iff_all_fail.

Example C17_ex :
  run_solvers Qabs.Qabs [ex_solver 0 0 false 5; ex_solver 1 0 true 6; ex_solver 2 0 true 7]
    0 (mkSol 1%Q 1%Q) (ex_ctx 2 None) [] 10 = Ok (12, [], true, mkSol 6%Q 1%Q).
Proof. reflexivity. Qed.

(** C23 *)
Theorem C23_quality_is_weighted_mean :
  forall (Env Pose Pairs : Type) (es : list (@Evaluator Env Pose Pairs)) pose pairs env l env',
  es <> [] -> evals pose pairs es env l env' ->
  Forall (fun e => 0 < relativeWeight e)%Q es ->
  exists q, evaluate_quality es pose pairs env = Ok (env', q) /\ (q == weighted_mean l)%Q.
Proof. intros. apply evaluate_quality_mean; assumption. Qed.
Print Assumptions C23_quality_is_weighted_mean.

Theorem C23_weighted_mean_within_range :
  forall (l : list (Q * Q)) (lo hi : Q),
  l <> [] -> Forall (fun wq => 0 < fst wq /\ lo <= snd wq /\ snd wq <= hi)%Q l ->
  (lo <= weighted_mean l /\ weighted_mean l <= hi)%Q.
Proof. exact weighted_mean_bounds. Qed.
Print Assumptions C23_weighted_mean_within_range.

Theorem C23_hard_discard_gives_zero :
  forall (Env Pose Pairs : Type) (es : list (@Evaluator Env Pose Pairs)) pose pairs env
         before e after l env1 env' r,
  es = before ++ e :: after -> Forall (fun x => 0 < relativeWeight x)%Q (before ++ [e]) ->
  evals pose pairs before env l env1 ->
  e_evaluate e pose pairs env1 = Ok (env', r) -> hard_discard r = true ->
  evaluate_quality es pose pairs env = Ok (env', 0%Q).
Proof. intros. eapply evaluate_quality_zero; eassumption. Qed.
Print Assumptions C23_hard_discard_gives_zero.

Theorem C23_bad_weight_throws :
  forall (Env Pose Pairs : Type) (es : list (@Evaluator Env Pose Pairs)) pose pairs env
         before e after l env1,
  es = before ++ e :: after -> evals pose pairs before env l env1 ->
  Forall (fun x => 0 < relativeWeight x)%Q before ->
  (relativeWeight e <= 0)%Q ->
  evaluate_quality es pose pairs env = Throw.
Proof. intros. eapply evaluate_quality_bad_weight; eassumption. Qed.
Print Assumptions C23_bad_weight_throws.

Definition ex_eval (w q : Q) (hd : bool) : @Evaluator nat unit unit :=
  mkEvaluator w (fun _ _ env => Ok (S env, mkEval q hd)).
Example C23_ex_mean : exists q,
  evaluate_quality [ex_eval 1 (1#2) false; ex_eval 3 (9#10) false] tt tt 0 = Ok (2, q)
  /\ (q == 8 # 10)%Q.
Proof. eexists; split; [reflexivity|]. reflexivity. Qed.
Example C23_ex_hyps :
  evals tt tt [ex_eval 1 (1#2) false; ex_eval 3 (9#10) false] 0 [(1, 1#2); (3, 9#10)]%Q 2.
Proof.
  refine (ev_cons tt tt (ex_eval 1 (1#2) false) _ 0 1 2 (mkEval (1#2) false) _ eq_refl eq_refl _).
  refine (ev_cons tt tt (ex_eval 3 (9#10) false) _ 1 2 2 (mkEval (9#10) false) _ eq_refl eq_refl _).
  constructor.
Qed.
Example C23_ex_discard :
  evaluate_quality [ex_eval 1 (1#2) false; ex_eval 3 (9#10) true; ex_eval 0 1 false] tt tt 0
  = Ok (2, 0%Q).
Proof. reflexivity. Qed.

(** C24 *)
Theorem C24_paired_ratio :
  forall (PP PL PN LL NN W : Type) (reuse : bool) (amin : Q)
         (fresh icp : Pairings PP PL PN LL NN W),
  let p := if reuse then icp else fresh in
  let r := paired_ratio_evaluate reuse amin fresh icp in
  (potential_pairings p = 0 -> quality r = 0%Q)
  /\ (potential_pairings p <> 0 ->
      (quality r * inject_Z (Z.of_nat (potential_pairings p))
       == inject_Z (Z.of_nat (pairings_size p)))%Q)
  /\ (0 <= quality r)%Q
  /\ (pairings_size p <= potential_pairings p -> (quality r <= 1)%Q)
  /\ (hard_discard r = true <-> (quality r < amin)%Q).
Proof.
  intros. exact (paired_ratio_value amin p).
Qed.
Print Assumptions C24_paired_ratio.
Example C24_ex :
  let r := paired_ratio_evaluate true (1#5) pairings_empty_ctor
      (mkPairings [1; 2; 3] [4] [] [] [] (@nil (nat * Q)) 16 : Pairings nat nat nat nat nat Q) in
  (quality r == 1#4)%Q /\ hard_discard r = false.
Proof. split; reflexivity. Qed.
