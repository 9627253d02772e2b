(** Property C16 over whole runs of ICP::align. *)
From Verif Require Import Base PairingsModel MatcherModel SolverModel QualityModel IcpModel IcpSpec LatchSpec LatchProofs.

(** C16.  In a whole run of align(), the first solver of the list is called at a solving
    step of iteration [k] exactly when it is enabled, [k] is in its window and, if it has
    a positive translation threshold, neither this nor any earlier solving step inside
    its window came after a correction smaller than the threshold. *)
Theorem C16_calls_during_a_whole_run :
  forall {PP PL PN LL NN W Env Pose : Type}
    (pose_minus : Pose -> Pose -> Pose) (log_norms : Pose -> Q * Q) (tnorm : Pose -> Q)
    (realize : nat -> Env -> res Env) (fresh_match_state : Env -> Env)
    (c : @Components PP PL PN LL NN W Env Pose) (p : IcpParams)
    (globalEmpty localEmpty wantDebugInfo : bool) (guess : Pose) (env env' : Env)
    (r : @IcpResults PP PL PN LL NN W Pose)
    (s : Solver Env Pose (Pairings PP PL PN LL NN W)) (rest : list _) (calls : Env -> list nat),
  c_solvers c = s :: rest ->
  ~ In (s_id s) (map s_id rest) ->
  logs_calls_of realize fresh_match_state calls s rest c ->
  calls env = [] ->
  align pose_minus log_norms tnorm realize fresh_match_state c p globalEmpty localEmpty
        wantDebugInfo guess env = Ok (env', r) ->
  forall pre k used ok out post,
    r_loopTrace r = pre ++ EvSolve k used ok out :: post ->
    (In k (calls env') <->
     window_open s k
     /\ ~ ((0 < s_runUntilTranslationCorrectionSmallerThan s)%Q
           /\ finished_in pose_minus tnorm guess s (pre ++ [EvSolve k used ok out]))).
Proof.
  intros until calls. intros H1 H2 H3 H4 H5. eapply align_latch; eassumption.
Qed.
Print Assumptions C16_calls_during_a_whole_run.

(** Once finished, never called again in the same run. *)
Theorem C16_finished_is_for_the_whole_run :
  forall {PP PL PN LL NN W Env Pose : Type}
    (pose_minus : Pose -> Pose -> Pose) (log_norms : Pose -> Q * Q) (tnorm : Pose -> Q)
    (realize : nat -> Env -> res Env) (fresh_match_state : Env -> Env)
    (c : @Components PP PL PN LL NN W Env Pose) (p : IcpParams)
    (globalEmpty localEmpty wantDebugInfo : bool) (guess : Pose) (env env' : Env)
    (r : @IcpResults PP PL PN LL NN W Pose)
    (s : Solver Env Pose (Pairings PP PL PN LL NN W)) (rest : list _) (calls : Env -> list nat),
  c_solvers c = s :: rest ->
  ~ In (s_id s) (map s_id rest) ->
  logs_calls_of realize fresh_match_state calls s rest c ->
  calls env = [] ->
  (0 < s_runUntilTranslationCorrectionSmallerThan s)%Q ->
  align pose_minus log_norms tnorm realize fresh_match_state c p globalEmpty localEmpty
        wantDebugInfo guess env = Ok (env', r) ->
  forall pre k used ok out mid k' used' ok' out' post,
    r_loopTrace r = pre ++ EvSolve k used ok out :: mid ++ EvSolve k' used' ok' out' :: post ->
    window_open s k -> small_correction pose_minus tnorm guess s pre ->
    ~ In k (calls env') /\ ~ In k' (calls env').
Proof.
  intros until calls. intros H1 H2 H3 H4 Ht H5 pre k u ok o mid k' u' ok' o' post E Hw Hs.
  pose proof (align_latch _ _ _ _ _ _ _ _ _ _ _ H1 H2 H3 _ _ _ _ _ _ H4 H5) as H.
  split.
  - rewrite (H pre k u ok o _ E). intros [_ Hn]. apply Hn. split; [exact Ht|].
    exists pre, k, u, ok, o, []. auto.
  - rewrite (H (pre ++ EvSolve k u ok o :: mid) k' u' ok' o' post).
    2:{ rewrite <- app_assoc. exact E. }
    intros [_ Hn]. apply Hn. split; [exact Ht|].
    exists pre, k, u, ok, o, (mid ++ [EvSolve k' u' ok' o']).
    rewrite <- app_assoc. auto.
Qed.
Print Assumptions C16_finished_is_for_the_whole_run.

(** A concrete run: poses on a line, a coarse solver that jumps half way and has
    threshold 1, and a fine solver that goes on in steps of 2 when the coarse one is finished: the
    later corrections are large again, and still the coarse solver stays off. *)
Definition lpose := (Q * Q)%type.
Definition lminus (a b : lpose) : lpose := (Qred (fst a - fst b), Qred (snd a - snd b))%Q.
Definition lnorm (a : lpose) : Q := qabs (fst a).
Notation lsolver := (Solver (list nat) lpose (Pairings nat nat nat nat nat Q)).
Definition lcoarse : lsolver :=
  mkSolver 1 true 0 0 1%Q (fun sc _ env out =>
    Ok (match sc_icpIteration sc with Some k => [k] | None => [] end ++ env, true,
        mkSol (Qred (fst (optimalPose out) / 2), 0)%Q 1%Q)).
Definition lfine : lsolver :=
  mkSolver 2 true 0 0 0%Q (fun sc _ env out =>
    Ok (env, true, mkSol (Qred (fst (optimalPose out) - 2), 0)%Q 1%Q)).
Definition lcomp : @Components nat nat nat nat nat Q (list nat) lpose :=
  mkComponents
    [mkMatcher true 0 0 (fun it _ env out => Ok (env, true, mkPairings [it] [] [] [] [] [] 2))]
    [lcoarse; lfine] [mkEvaluator 1%Q (fun _ _ env => Ok (env, mkEval (1#2) false))] None.
Definition lparams : IcpParams := mkIcpParams 6 (1#100) (1#100) false false 0 [].

Example C16_ex_run_logs : logs_calls_of (fun _ e => Ok e) (fun e => e) (fun e => e) lcoarse [lfine] lcomp.
Proof.
  constructor.
  - intros sc f env out a H. injection H as <-. reflexivity.
  - constructor; [|constructor]. intros sc f env out a H. injection H as <-. reflexivity.
  - constructor; [|constructor]. intros k q env out a H. injection H as <-. reflexivity.
  - constructor; [|constructor]. intros q f env a H. injection H as <-. reflexivity.
  - discriminate.
  - intros k env a H. injection H as <-. reflexivity.
  - reflexivity.
Qed.
Example C16_ex_run :
  match align lminus (fun a => (qabs (fst a), qabs (snd a))) lnorm (fun _ e => Ok e) (fun e => e)
          lcomp lparams false false false ((4, 0)%Q : lpose) [] with
  | Ok (env', r) => env' = [2; 1; 0] /\ solved (r_loopTrace r) = [(2, 0); (1, 0); (1#2, 0); (-3#2, 0); (-7#2, 0); (-11#2, 0)]%Q
  | _ => False end.
Proof. vm_compute. split; reflexivity. Qed.
