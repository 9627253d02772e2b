(** Properties C18-C22, C25, C51-C53: ICP::align() and the debug log counter.
    In every statement the matchers, solvers, evaluators and hook are arbitrary
    functions that may fail, [pose_minus] and [log_norms] are the pose difference and
    the (translation, rotation) norms of its logarithm. *)
From Verif Require Import Base PairingsModel MatcherModel SolverModel QualityModel IcpModel
  IcpSpec IcpProofs IcpProofs2.

Definition norms_ok {Pose} (log_norms : Pose -> Q * Q) : Prop :=
  forall x, (0 <= fst (log_norms x) /\ 0 <= snd (log_norms x))%Q.

(** C18.  At most maxIterations rounds; the calls made are a prefix of the full
    schedule; nothing happens after an ending event; the reported reason is the ending
    event that occurred, or MaxIterations when the whole schedule ran and nothing
    ended it. *)
Theorem C18_budget_and_reason :
  forall (PP PL PN LL NN W Env Pose : Type) pose_minus log_norms tnorm
         (realize : nat -> Env -> res Env) fresh
         (c : @Components PP PL PN LL NN W Env Pose) p ge le dbg guess env env' r,
  norms_ok log_norms ->
  align pose_minus log_norms tnorm realize fresh c p ge le dbg guess env = Ok (env', r) ->
  let tr := r_loopTrace r in
  let hasHook := match c_hook c with Some _ => true | None => false end in
  rounds tr <= maxIterations p
  /\ r_nIterations r <= maxIterations p
  /\ (exists rest, map kind_of tr ++ rest = full_schedule p hasHook)
  /\ (forall pre e x post, tr = pre ++ e :: x :: post ->
        forall why, ~ ends pose_minus log_norms p guess pre e why)
  /\ ((r_terminationReason r = MaxIterations
       /\ map kind_of tr = full_schedule p hasHook
       /\ forall pre e, tr = pre ++ [e] -> forall why, ~ ends pose_minus log_norms p guess pre e why)
      \/ (exists pre e, tr = pre ++ [e]
            /\ ends pose_minus log_norms p guess pre e (r_terminationReason r))).
Proof. intros until r. intros Hn H. exact (align_c18 pose_minus log_norms tnorm realize fresh Hn c p ge le dbg guess env env' r H). Qed.
Print Assumptions C18_budget_and_reason.

Theorem C18_reason_is_defined :
  forall (PP PL PN LL NN W Env Pose : Type) pose_minus log_norms tnorm
         (realize : nat -> Env -> res Env) fresh
         (c : @Components PP PL PN LL NN W Env Pose) p ge le dbg guess env env' r,
  norms_ok log_norms ->
  align pose_minus log_norms tnorm realize fresh c p ge le dbg guess env = Ok (env', r) ->
  r_terminationReason r <> Undefined.
Proof.
  intros until r. intros Hn H.
  apply C18_budget_and_reason in H; [|exact Hn].
  destruct H as [_ [_ [_ [_ [[-> _]|[pre [e [_ H]]]]]]]]; [discriminate|].
  eapply ends_not_special; exact H.
Qed.
Print Assumptions C18_reason_is_defined.

(** C19, part: unless a solver failed, the returned pose is the last solution found
    (the initial guess if none).  Missing: the SolverError case, which is false, see
    the refutation. *)
Theorem C19_returned_pose :
  forall (PP PL PN LL NN W Env Pose : Type) pose_minus log_norms tnorm
         (realize : nat -> Env -> res Env) fresh
         (c : @Components PP PL PN LL NN W Env Pose) p ge le dbg guess env env' r,
  norms_ok log_norms ->
  align pose_minus log_norms tnorm realize fresh c p ge le dbg guess env = Ok (env', r) ->
  r_terminationReason r <> SolverError ->
  r_optimal_tf r = last_pose guess (r_loopTrace r).
Proof.
  intros until r. intros Hn H Hr. apply align_spec in H; [|exact Hn].
  destruct H as [_ [_ [_ [_ [[_ [_ [_ [_ [H _]]]]]|[_ H]]]]]]; [exact H|].
  exact (b_pose _ _ _ _ _ _ _ _ H Hr).
Qed.
Print Assumptions C19_returned_pose.

(** C19, the failing case: the pose returned is whatever the failing solver left in its
    output argument. *)
Theorem C19_pose_after_solver_error :
  forall (PP PL PN LL NN W Env Pose : Type) pose_minus log_norms tnorm
         (realize : nat -> Env -> res Env) fresh
         (c : @Components PP PL PN LL NN W Env Pose) p ge le dbg guess env env' r,
  norms_ok log_norms ->
  align pose_minus log_norms tnorm realize fresh c p ge le dbg guess env = Ok (env', r) ->
  r_terminationReason r = SolverError ->
  exists pre used out, r_loopTrace r = pre ++ [EvSolve (r_nIterations r) used false out]
    /\ r_optimal_tf r = optimalPose out.
Proof.
  intros until r. intros Hn H Hr. apply align_spec in H; [|exact Hn].
  destruct H as [_ [_ [_ [_ [[H _]|[_ H]]]]]]; [congruence|].
  destruct (b_pose_err _ _ _ _ _ _ _ _ H Hr) as [pre [used E]].
  exists pre, used, (mkSol (r_optimal_tf r) (r_optimalScale r)). split; [exact E|reflexivity].
Qed.
Print Assumptions C19_pose_after_solver_error.

(** ** A concrete world for examples: poses are (translation, rotation) on a line. *)
Definition xpose := (Q * Q)%type.
Definition xminus (a b : xpose) : xpose := (Qred (fst a - fst b), Qred (snd a - snd b))%Q.
Definition xnorms (a : xpose) : Q * Q := (qabs (fst a), qabs (snd a)).
Definition xrealize (k : nat) (e : nat) : res nat := Ok (e + 1).
Definition xmatcher : @Matcher nat nat nat nat nat Q nat xpose :=
  mkMatcher true 0 0 (fun it _ env out => Ok (env, true, mkPairings [it] [] [] [] [] [] 2)).
Definition xsolver (f : nat -> xpose -> option xpose) : Solver nat xpose (Pairings nat nat nat nat nat Q) :=
  mkSolver 1 true 0 0 0%Q (fun sc _ env out =>
    match sc_icpIteration sc with
    | None => Ok (env, false, out)
    | Some k => match f k (optimalPose out) with
                | Some q => Ok (env, true, mkSol q 1%Q)
                | None => Ok (env, false, mkSol (0, 0)%Q 1%Q)    (* out = OptimalTF_Result() *)
                end
    end).
Definition xeval (q : Q) : @Evaluator nat xpose (Pairings nat nat nat nat nat Q) :=
  mkEvaluator 1%Q (fun _ _ env => Ok (env, mkEval q false)).
Definition xcomp f q hook : @Components nat nat nat nat nat Q nat xpose :=
  mkComponents [xmatcher] [xsolver f] [xeval q] hook.
Definition xparams (max : nat) (det : bool) cps : IcpParams :=
  mkIcpParams max (1#10) (1#10) false det 0 cps.
Definition xalign (c : @Components nat nat nat nat nat Q nat xpose) p dbg := align xminus xnorms fst xrealize (fun e => e) c p false false dbg ((5, 5)%Q : xpose) 0.

Lemma xnorms_ok : norms_ok xnorms.
Proof.
  intros [a b]. unfold xnorms, qabs. cbn [fst snd].
  assert (forall x, 0 <= (if Qltb x 0 then - x else x))%Q as H.
  { intro x. destruct (Qltb x 0) eqn:E.
    - unfold Qltb in E. apply negb_true_iff in E.
      destruct (Qlt_le_dec x 0) as [L|L]; [|apply Qle_bool_iff in L; congruence].
      apply Qlt_le_weak. setoid_replace 0%Q with (- 0)%Q by reflexivity.
      apply Qopp_lt_compat in L. exact L.
    - unfold Qltb in E. apply negb_false_iff in E. apply Qle_bool_iff. exact E. }
  split; apply H.
Qed.

(** Halving the distance each time: the run stalls. *)
Definition halving (k : nat) (q : xpose) : option xpose := Some (Qred (fst q / 2), Qred (snd q / 2))%Q.
Example C18_ex_stalled :
  match xalign (xcomp halving (1#2) None) (xparams 20 true [(2, (1#4)%Q)]) true with
  | Ok (_, r) => r_terminationReason r = Stalled /\ r_nIterations r = 5 /\ rounds (r_loopTrace r) = 6
                 /\ r_optimal_tf r = (5#64, 5#64)%Q /\ length (r_iterationDetails r) = 6
  | _ => False end.
Proof. vm_compute. repeat split. Qed.
Example C18_ex_max :
  match xalign (xcomp (fun k q => Some (fst q + 1, snd q)%Q) (1#2) None) (xparams 3 false []) false with
  | Ok (_, r) => r_terminationReason r = MaxIterations /\ r_nIterations r = 3 /\ rounds (r_loopTrace r) = 3
  | _ => False end.
Proof. vm_compute. repeat split. Qed.
Example C21_ex_checkpoint :
  match xalign (xcomp (fun k q => Some (fst q + 1, snd q)%Q) (1#8) None) (xparams 9 false [(1, (1#4)%Q)]) false with
  | Ok (_, r) => r_terminationReason r = QualityCheckpointFailed /\ rounds (r_loopTrace r) = 2
  | _ => False end.
Proof. vm_compute. repeat split. Qed.
Example C21_ex_hook :
  match xalign (xcomp (fun k q => Some (fst q + 1, snd q)%Q) (1#2)
                 (Some (fun k _ _ env => Ok (env, Nat.eqb k 2)))) (xparams 9 false [(1, (1#4)%Q)]) false with
  | Ok (_, r) => r_terminationReason r = HookRequest /\ rounds (r_loopTrace r) = 3
  | _ => False end.
Proof. vm_compute. repeat split. Qed.

(** C19 refuted: a solver that fails at the third iteration, resetting its output as all
    the solvers of the library do, makes align() return that reset pose instead of the
    last solution found. *)
Theorem C130_returned_pose_refuted :
  exists c p r,
    (exists env', xalign c p false = Ok (env', r))
    /\ solved (r_loopTrace r) <> []
    /\ r_optimal_tf r <> last_pose (5, 5)%Q (r_loopTrace r).
Proof.
  eexists (xcomp (fun k q => if Nat.ltb k 2 then Some (fst q + 1, snd q)%Q else None) (1#2) None),
          (xparams 9 false []), _.
  split; [eexists; vm_compute; reflexivity|]. split; vm_compute; discriminate.
Qed.
Print Assumptions C130_returned_pose_refuted.

(** C20, exact criterion implemented: reported iff, at the last solve, some of the last
    two iterates is close in translation and some of the last two is close in rotation;
    and it never held before. *)
Theorem C20_stall_criterion :
  forall (PP PL PN LL NN W Env Pose : Type) pose_minus log_norms tnorm
         (realize : nat -> Env -> res Env) fresh
         (c : @Components PP PL PN LL NN W Env Pose) p ge le dbg guess env env' r,
  norms_ok log_norms ->
  align pose_minus log_norms tnorm realize fresh c p ge le dbg guess env = Ok (env', r) ->
  (r_terminationReason r = Stalled <->
     exists pre k used out, r_loopTrace r = pre ++ [EvSolve k used true out]
       /\ stall_criterion pose_minus log_norms p (iterates guess pre) (optimalPose out))
  /\ (forall pre k used out x post, r_loopTrace r = pre ++ EvSolve k used true out :: x :: post ->
       ~ stall_criterion pose_minus log_norms p (iterates guess pre) (optimalPose out)).
Proof.
  intros until r. intros Hn H. apply C18_budget_and_reason in H; [|exact Hn].
  cbn zeta in H. destruct H as [_ [_ [_ [Hmid Hend]]]]. split.
  - split.
    + intro Hs. destruct Hend as [[Hm _]|[pre [e [E He]]]]; [congruence|].
      rewrite Hs in He. inversion He; subst. exists pre, k, used, out. auto.
    + intros [pre [k [used [out [E Hc]]]]].
      assert (He : ends pose_minus log_norms p guess pre (EvSolve k used true out) Stalled)
        by (constructor; exact Hc).
      destruct Hend as [[_ [_ Hno]]|[pre' [e [E' He']]]].
      * exfalso. exact (Hno _ _ E _ He).
      * rewrite E in E'. apply app_inj_tail in E' as [<- <-]. eapply ends_fun; eassumption.
  - intros pre k used out x post E Hc. eapply Hmid; [exact E|]. constructor. exact Hc.
Qed.
Print Assumptions C20_stall_criterion.

(** C20 refuted: the pose is far from each of the last two iterates, yet the run is
    declared stalled, because translation is compared with one and rotation with the
    other. *)
Theorem C131_stall_refuted :
  exists c p r pre k used out,
    (exists env', xalign c p false = Ok (env', r))
    /\ r_terminationReason r = Stalled
    /\ r_loopTrace r = pre ++ [EvSolve k used true out]
    /\ ~ stall_intended xminus xnorms p (iterates (5, 5)%Q pre) (optimalPose out).
Proof.
  eexists (xcomp (fun k q => Some (if Nat.eqb k 0 then (15, 9) else (5, 9))%Q) (1#2) None),
          (xparams 9 false []), _, [_; _; _], _, _, _.
  split; [eexists; vm_compute; reflexivity|]. split; [reflexivity|].
  split; [cbn; reflexivity|].
  intros [q [Hq [Ht Hr]]]. vm_compute in Hq. destruct Hq as [<-|[<-|[]]].
  - vm_compute in Ht. discriminate.
  - vm_compute in Hr. discriminate.
Qed.
Print Assumptions C131_stall_refuted.

(** C21: an evaluated checkpoint below its minimum, or a hook asking to stop, is the last
    call of the loop and gives the reason; and every checkpoint listed for an executed,
    completed iteration is evaluated, on the current pose and pairings. *)
Theorem C21_checkpoint_and_hook_stop :
  forall (PP PL PN LL NN W Env Pose : Type) pose_minus log_norms tnorm
         (realize : nat -> Env -> res Env) fresh
         (c : @Components PP PL PN LL NN W Env Pose) p ge le dbg guess env env' r,
  norms_ok log_norms ->
  align pose_minus log_norms tnorm realize fresh c p ge le dbg guess env = Ok (env', r) ->
  (forall pre k pose used q minq post,
     r_loopTrace r = pre ++ EvQuality k pose used q :: post ->
     checkpoint_of p k = Some minq ->
     (post = [] /\ r_terminationReason r = QualityCheckpointFailed <-> (q < minq)%Q))
  /\ (forall pre k pose used stop post,
     r_loopTrace r = pre ++ EvHook k pose used stop :: post ->
     (post = [] /\ r_terminationReason r = HookRequest <-> stop = true))
  /\ (forall pre e post, r_loopTrace r = pre ++ e :: post -> right_arguments guess pre e)
  /\ (exists rest, map kind_of (r_loopTrace r) ++ rest =
        full_schedule p (match c_hook c with Some _ => true | None => false end)).
Proof.
  intros until r. intros Hn H.
  pose proof (align_spec _ _ _ _ _ Hn _ _ _ _ _ _ _ _ _ H) as [_ [_ [_ [Harg _]]]].
  apply C18_budget_and_reason in H; [|exact Hn]. cbn zeta in *.
  destruct H as [_ [_ [Hsch [Hmid Hend]]]].
  assert (key : forall pre e post why, r_loopTrace r = pre ++ e :: post ->
      ends pose_minus log_norms p guess pre e why -> post = [] /\ r_terminationReason r = why).
  { intros pre e post why E He. destruct post as [|x post].
    - split; [reflexivity|]. destruct Hend as [[_ [_ Hno]]|[pre' [e' [E' He']]]].
      + exfalso. exact (Hno _ _ E _ He).
      + rewrite E in E'. apply app_inj_tail in E' as [<- <-]. eapply ends_fun; eassumption.
    - exfalso. exact (Hmid _ _ _ _ E _ He). }
  assert (last : forall pre e why, r_loopTrace r = pre ++ [e] -> r_terminationReason r = why ->
      why <> MaxIterations -> ends pose_minus log_norms p guess pre e why).
  { intros pre e why E Hr Hw. destruct Hend as [[Hm _]|[pre' [e' [E' He']]]]; [congruence|].
    rewrite E in E'. apply app_inj_tail in E' as [-> ->]. rewrite <- Hr. exact He'. }
  split; [|split; [|split]].
  - intros pre k pose used q minq post E Hf. split.
    + intros [-> Hr]. specialize (last _ _ _ E Hr ltac:(discriminate)).
      inversion last; subst. congruence.
    + intro Hq. eapply key; [exact E|]. econstructor; eassumption.
  - intros pre k pose used stop post E. split.
    + intros [-> Hr]. specialize (last _ _ _ E Hr ltac:(discriminate)). inversion last; subst. reflexivity.
    + intros ->. eapply key; [exact E|]. constructor.
  - exact Harg.
  - exact Hsch.
Qed.
Print Assumptions C21_checkpoint_and_hook_stop.

(** C22 *)
Theorem C22_final_pairings_and_quality :
  forall (PP PL PN LL NN W Env Pose : Type) pose_minus log_norms tnorm
         (realize : nat -> Env -> res Env) fresh
         (c : @Components PP PL PN LL NN W Env Pose) p ge le dbg guess env env' r,
  norms_ok log_norms ->
  align pose_minus log_norms tnorm realize fresh c p ge le dbg guess env = Ok (env', r) ->
  r_finalPairings r = last_found (r_loopTrace r)
  /\ exists env0, evaluate_quality (c_evaluators c) (r_optimal_tf r) (r_finalPairings r) env0
                  = Ok (env', r_quality r).
Proof.
  intros until r. intros Hn H. apply align_spec in H; [|exact Hn].
  destruct H as [_ [Hq [Hf _]]]. auto.
Qed.
Print Assumptions C22_final_pairings_and_quality.

(** C51, exact: the reported count equals the number of executed iterations only when the
    budget was exhausted; otherwise it is one less. *)
Theorem C51_reported_iterations :
  forall (PP PL PN LL NN W Env Pose : Type) pose_minus log_norms tnorm
         (realize : nat -> Env -> res Env) fresh
         (c : @Components PP PL PN LL NN W Env Pose) p ge le dbg guess env env' r,
  norms_ok log_norms ->
  align pose_minus log_norms tnorm realize fresh c p ge le dbg guess env = Ok (env', r) ->
  (r_terminationReason r = MaxIterations -> r_nIterations r = rounds (r_loopTrace r))
  /\ (r_terminationReason r <> MaxIterations -> S (r_nIterations r) = rounds (r_loopTrace r)).
Proof. intros until r. intros Hn H. exact (align_c51 pose_minus log_norms tnorm realize fresh Hn c p ge le dbg guess env env' r H). Qed.
Print Assumptions C51_reported_iterations.

Theorem C134_reported_iterations_refuted :
  exists c p r, (exists env', xalign c p false = Ok (env', r))
    /\ r_nIterations r <> rounds (r_loopTrace r).
Proof.
  eexists (xcomp halving (1#2) None), (xparams 20 false []), _.
  split; [eexists; vm_compute; reflexivity|]. vm_compute. discriminate.
Qed.
Print Assumptions C134_reported_iterations_refuted.

(** C52: the log holds the pose and pairings of exactly the decimated iterations plus the
    stalled one. *)
Theorem C52_iteration_details :
  forall (PP PL PN LL NN W Env Pose : Type) pose_minus log_norms tnorm
         (realize : nat -> Env -> res Env) fresh
         (c : @Components PP PL PN LL NN W Env Pose) p ge le dbg guess env env' r,
  norms_ok log_norms ->
  align pose_minus log_norms tnorm realize fresh c p ge le dbg guess env = Ok (env', r) ->
  r_iterationDetails r = expected_details p
    (match r_terminationReason r with Stalled => Some (r_nIterations r) | _ => None end)
    (r_loopTrace r).
Proof.
  intros until r. intros Hn H. apply align_spec in H; [|exact Hn].
  destruct H as [_ [_ [_ [_ [[-> [_ [_ [_ [_ H]]]]]|[_ H]]]]]]; [exact H|].
  exact (b_details _ _ _ _ _ _ _ _ H).
Qed.
Print Assumptions C52_iteration_details.
Example C52_ex :
  match xalign (xcomp (fun k q => Some (if Nat.ltb k 4 then (fst q + 1, snd q) else q)%Q) (1#2) None)
    (mkIcpParams 20 (1#10) (1#10) false true 3 []) true with
  | Ok (_, r) => map fst (r_iterationDetails r) = [0; 3; 4] /\ r_terminationReason r = Stalled
  | _ => False end.
Proof. vm_compute. repeat split. Qed.

(** C53, part: with components that do not fail themselves, and a log to write details
    to, align() returns normally iff its documented preconditions hold.  Missing: the
    case saveIterationDetails without any log. *)
Theorem C53_align_succeeds :
  forall (PP PL PN LL NN W Env Pose : Type) pose_minus log_norms tnorm
         (realize : nat -> Env -> res Env) fresh
         (c : @Components PP PL PN LL NN W Env Pose) p ge le dbg guess env,
  norms_ok log_norms -> never_fail realize c ->
  (saveIterationDetails p = true -> dbg || generateDebugFiles p = true) ->
  ((exists x, align pose_minus log_norms tnorm realize fresh c p ge le dbg guess env = Ok x) <->
   c_matchers c <> [] /\ c_solvers c <> [] /\ c_evaluators c <> [] /\ ge = false /\ le = false).
Proof. intros until env. intros Hn HC HL. exact (align_total pose_minus log_norms tnorm realize fresh Hn c p ge le dbg guess env HC HL). Qed.
Print Assumptions C53_align_succeeds.
Example C53_ex : never_fail xrealize (xcomp halving (1#2) None).
Proof.
  unfold never_fail, is_ok. cbn. repeat split; intros.
  - eexists. reflexivity.
  - repeat constructor; intros; cbn; eauto.
  - repeat constructor. intros sc f env out. cbn. destruct (sc_icpIteration sc) as [k|]; cbn; eauto.
  - repeat constructor; intros; cbn; eauto.
  - discriminate.
Qed.

(** C53 refuted: asking for iteration details without a debug log runs into undefined
    behaviour although every component works. *)
Theorem C135_align_no_ub_refuted :
  exists c p, never_fail xrealize c /\ c_matchers c <> [] /\ c_solvers c <> []
    /\ c_evaluators c <> [] /\ xalign c p false = UB.
Proof.
  exists (xcomp halving (1#2) None), (xparams 20 true []).
  split; [exact C53_ex|]. repeat (split; [discriminate|]). vm_compute. reflexivity.
Qed.
Print Assumptions C135_align_no_ub_refuted.

(** C25: the i-th call (in mutex order) gets number i modulo 2^32, and its record is
    written iff the decimation is 0 or 1 or divides that number. *)
Theorem C25_log_numbering :
  forall calls i d, nth_error calls i = Some d ->
  nth_error (save_log_run calls 0) i =
    Some (let id := (N.of_nat i mod 2 ^ 32)%N in
          if ((d <=? 1) || (id mod d =? 0))%N then Some id else None).
Proof. intros calls i d H. exact (save_log_run_nth calls 0 i d eq_refl H). Qed.
Print Assumptions C25_log_numbering.

Theorem C25_numbers_distinct :
  forall calls i j x y, (N.of_nat (length calls) <= 2 ^ 32)%N ->
  nth_error (save_log_run calls 0) i = Some (Some x) ->
  nth_error (save_log_run calls 0) j = Some (Some y) -> i <> j -> x <> y.
Proof.
  intros calls i j x y Hlen Hi Hj Hne.
  assert (len : forall l c, length (save_log_run l c) = length l).
  { induction l as [|d l IH]; intro c; [reflexivity|]. cbn.
    destruct (save_log_step d c). cbn. rewrite IH. reflexivity. }
  assert (forall k z, nth_error (save_log_run calls 0) k = Some (Some z) -> z = N.of_nat k) as key.
  { intros k z Hk. assert (k < length calls) as Hlt.
    { rewrite <- (len calls 0%N). apply nth_error_Some. congruence. }
    destruct (nth_error calls k) as [d|] eqn:Ed; [|apply nth_error_None in Ed; lia].
    rewrite (C25_log_numbering _ _ _ Ed) in Hk. cbn zeta in Hk.
    rewrite (N.mod_small (N.of_nat k) (2 ^ 32)) in Hk by lia.
    destruct ((d <=? 1) || (N.of_nat k mod d =? 0))%N; congruence. }
  apply key in Hi. apply key in Hj. subst. intro E. apply Nnat.Nat2N.inj in E. contradiction.
Qed.
Print Assumptions C25_numbers_distinct.

(** Beyond 2^32 runs numbers repeat. *)
Theorem C132_numbers_distinct_refuted :
  exists calls i j x, i <> j /\
  nth_error (save_log_run calls 0) i = Some (Some x) /\
  nth_error (save_log_run calls 0) j = Some (Some x).
Proof.
  exists (repeat 1%N (S (N.to_nat (2 ^ 32)))), 0, (N.to_nat (2 ^ 32)), 0%N.
  assert (R : forall n k, k < n -> nth_error (repeat 1%N n) k = Some 1%N).
  { induction n as [|n IH]; intros k H; [lia|]. destruct k; [reflexivity|]. apply IH. lia. }
  split; [|split].
  - intro E. apply (f_equal N.of_nat) in E. rewrite N2Nat.id in E. discriminate.
  - reflexivity.
  - rewrite (C25_log_numbering _ _ 1%N).
    + rewrite N2Nat.id. reflexivity.
    + apply R. apply Nat.lt_succ_diag_r.
Qed.
Print Assumptions C132_numbers_distinct_refuted.
Example C25_ex : save_log_run [2; 2; 3; 3; 1]%N 0 = [Some 0; None; None; Some 3; Some 4]%N.
Proof. reflexivity. Qed.
