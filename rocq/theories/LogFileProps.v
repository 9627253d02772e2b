(** C326-C329: the debug record of ICP::align() and its file. *)
From Coq Require Import String.
From Verif Require Import Base PairingsModel MatcherModel SolverModel QualityModel IcpModel FilterModel DeskewModel MapModel LogFileModel LogNameProps.
Open Scope nat_scope.

Section Strip.
Context {PP PL PN LL NN W Env P : Type}.
Notation pairings := (Pairings PP PL PN LL NN W).
Notation Comps := (@Components PP PL PN LL NN W Env P).
Notation State := (@LoopState PP PL PN LL NN W Env P).
Variable pose_minus : P -> P -> P.
Variable log_norms : P -> Q * Q.
Variable tnorm : P -> Q.
Variable realize : nat -> Env -> res Env.
Variable fresh_match_state : Env -> Env.

(** ** Specification *)
(** the parameters which say when to stop *)
Definition same_search (p p' : IcpParams) : Prop :=
  maxIterations p = maxIterations p' /\ minAbsStep_trans p = minAbsStep_trans p' /\ minAbsStep_rot p = minAbsStep_rot p' /\
  quality_checkpoints p = quality_checkpoints p'.
(** details of the iterations are only asked for together with a record (otherwise: C135) *)
Definition log_ok (p : IcpParams) (want : bool) : Prop := saveIterationDetails p = true -> want || generateDebugFiles p = true.
(** everything in a result but the details of the iterations *)
Definition same_outcome (r r' : @IcpResults PP PL PN LL NN W P) : Prop :=
  r_optimal_tf r = r_optimal_tf r' /\ r_optimalScale r = r_optimalScale r' /\ r_nIterations r = r_nIterations r' /\
  r_terminationReason r = r_terminationReason r' /\ r_quality r = r_quality r' /\ r_finalPairings r = r_finalPairings r' /\
  r_loopTrace r = r_loopTrace r'.

(** ** Proof *)
Definition strip (st : State) : State :=
  mkLoop (l_env st) (l_sol st) (l_pairings st) (l_prev st) (l_prev2 st) (l_lastCorrection st) (l_latched st) [] (l_trace st).
Definition rmap {A B} (f : A -> B) (x : res A) : res B := match x with Ok a => Ok (f a) | Throw => Throw | UB => UB end.
Definition strip1 (x : State * option IterTermReason) := (strip (fst x), snd x).
Definition strip2 (x : State * nat * IterTermReason) := (strip (fst (fst x)), snd (fst x), snd x).

Lemma tail_strip (c : Comps) p p' i st : quality_checkpoints p = quality_checkpoints p' ->
  rmap strip1 (iter_tail realize c p i st) = rmap strip1 (iter_tail realize c p' i (strip st)).
Proof.
  intro E. unfold iter_tail. rewrite E. cbn [strip l_sol l_env l_pairings l_prev l_prev2 l_lastCorrection l_latched l_trace].
  destruct (find_checkpoint (quality_checkpoints p') i) as [q|].
  - destruct (realize i (l_env st)) as [e1| |]; cbn [rbind]; [|reflexivity|reflexivity].
    destruct (evaluate_quality (c_evaluators c) (optimalPose (l_sol st)) (l_pairings st) e1) as [[e2 q2]| |]; cbn [rbind]; [|reflexivity|reflexivity].
    destruct (Qltb q2 q); [reflexivity|]. destruct (c_hook c) as [h|]; [|reflexivity].
    cbn [l_sol l_env l_pairings l_prev l_prev2 l_lastCorrection l_latched l_trace].
    destruct (h i (l_pairings st) (l_sol st) e2) as [[e3 stop]| |]; cbn [rbind]; [|reflexivity|reflexivity]. destruct stop; reflexivity.
  - destruct (c_hook c) as [h|]; [|reflexivity].
    destruct (h i (l_pairings st) (l_sol st) (l_env st)) as [[e3 stop]| |]; cbn [rbind]; [|reflexivity|reflexivity]. destruct stop; reflexivity.
Qed.

Lemma body_strip (c : Comps) p p' hl g i st : same_search p p' -> (saveIterationDetails p = true -> hl = true) -> saveIterationDetails p' = false ->
  rmap strip1 (iter_body pose_minus log_norms tnorm realize fresh_match_state c p hl g i st) =
  rmap strip1 (iter_body pose_minus log_norms tnorm realize fresh_match_state c p' false g i (strip st)).
Proof.
  intros (S1 & S2 & S3 & S4) L NS. unfold iter_body. cbn [strip l_sol l_env l_pairings l_prev l_prev2 l_lastCorrection l_latched l_trace l_details].
  destruct (realize i (l_env st)) as [e1| |]; cbn [rbind]; [|reflexivity|reflexivity].
  destruct (run_matchers (c_matchers c) i (optimalPose (l_sol st)) (fresh_match_state e1)) as [[e2 found]| |]; cbn [rbind]; [|reflexivity|reflexivity].
  destruct (pairings_empty found); [reflexivity|].
  destruct (run_solvers tnorm (c_solvers c) found (l_sol st) _ (l_latched st) e2) as [[[[e3 la] ok] sol]| |]; cbn [rbind]; [|reflexivity|reflexivity].
  destruct (negb ok); [reflexivity|].
  assert (ST : is_stalled p (increments pose_minus log_norms (optimalPose sol) (l_prev st) (l_prev2 st)) =
               is_stalled p' (increments pose_minus log_norms (optimalPose sol) (l_prev st) (l_prev2 st))) by (unfold is_stalled; rewrite S2, S3; reflexivity).
  rewrite ST. set (stalled := is_stalled p' _).
  assert (W1 : want_details p i stalled && negb hl = false).
  { unfold want_details. destruct (saveIterationDetails p); [|reflexivity]. rewrite (L eq_refl). apply andb_false_r. }
  assert (W2 : want_details p' i stalled = false) by (unfold want_details; rewrite NS; reflexivity).
  rewrite W1, W2. cbn [andb]. destruct stalled; [reflexivity|].
  rewrite (tail_strip c p p' i _ S4). reflexivity.
Qed.

Lemma body_case (c : Comps) p p' hl g i st : same_search p p' -> (saveIterationDetails p = true -> hl = true) -> saveIterationDetails p' = false ->
  match iter_body pose_minus log_norms tnorm realize fresh_match_state c p hl g i st with
  | Ok (st1, r) => exists st2, iter_body pose_minus log_norms tnorm realize fresh_match_state c p' false g i (strip st) = Ok (st2, r) /\ strip st1 = strip st2
  | Throw => iter_body pose_minus log_norms tnorm realize fresh_match_state c p' false g i (strip st) = Throw
  | UB => iter_body pose_minus log_norms tnorm realize fresh_match_state c p' false g i (strip st) = UB
  end.
Proof.
  intros S1 L NS. assert (H := body_strip c p p' hl g i st S1 L NS).
  destruct (iter_body _ _ _ _ _ c p hl g i st) as [[s r]| |]; destruct (iter_body _ _ _ _ _ c p' false g i (strip st)) as [[s' r']| |];
    cbn [rmap] in H; try discriminate; try reflexivity.
  unfold strip1 in H. cbn [fst snd] in H. injection H as H1 H2. subst r'. exists s'. split; [reflexivity|].
  unfold strip. congruence.
Qed.
Lemma strip_strip st : strip (strip st) = strip st.
Proof. reflexivity. Qed.

Lemma loop_strip (c : Comps) p p' hl g : same_search p p' -> (saveIterationDetails p = true -> hl = true) -> saveIterationDetails p' = false -> forall fuel i st,
  rmap strip2 (icp_loop pose_minus log_norms tnorm realize fresh_match_state c p hl g fuel i st) =
  rmap strip2 (icp_loop pose_minus log_norms tnorm realize fresh_match_state c p' false g fuel i (strip st)).
Proof.
  intros S1 L NS. assert (S2 : same_search p' p') by (repeat split). assert (L2 : saveIterationDetails p' = true -> false = true) by (rewrite NS; discriminate).
  assert (IND : forall fuel i st, rmap strip2 (icp_loop pose_minus log_norms tnorm realize fresh_match_state c p' false g fuel i st) =
     rmap strip2 (icp_loop pose_minus log_norms tnorm realize fresh_match_state c p' false g fuel i (strip st))).
  { induction fuel as [|fuel IH]; intros i st; [reflexivity|]. cbn [icp_loop]. assert (B := body_case c p' p' false g i st S2 L2 NS).
    destruct (iter_body _ _ _ _ _ c p' false g i st) as [[s [r|]]| |].
    - destruct B as (s2 & -> & E). cbn [rbind rmap]. unfold strip2. cbn [fst snd]. rewrite E. reflexivity.
    - destruct B as (s2 & -> & E). cbn [rbind]. rewrite (IH (S i) s), (IH (S i) s2), E. reflexivity.
    - rewrite B. reflexivity.
    - rewrite B. reflexivity. }
  induction fuel as [|fuel IH]; intros i st; [reflexivity|]. cbn [icp_loop]. assert (B := body_case c p p' hl g i st S1 L NS).
  destruct (iter_body _ _ _ _ _ c p hl g i st) as [[s [r|]]| |].
  - destruct B as (s2 & -> & E). cbn [rbind rmap]. unfold strip2. cbn [fst snd]. rewrite E. reflexivity.
  - destruct B as (s2 & -> & E). cbn [rbind]. rewrite (IH (S i) s), (IND fuel (S i) s2), E. reflexivity.
  - rewrite B. reflexivity.
  - rewrite B. reflexivity.
Qed.

(** the parameters without any logging *)
Definition quiet (p : IcpParams) : IcpParams :=
  mkIcpParams (maxIterations p) (minAbsStep_trans p) (minAbsStep_rot p) false false 0 (quality_checkpoints p).

Lemma align_quiet (c : Comps) p ge le want g env : log_ok p want ->
  match align pose_minus log_norms tnorm realize fresh_match_state c p ge le want g env with
  | Ok (e, r) => exists r', align pose_minus log_norms tnorm realize fresh_match_state c (quiet p) ge le false g env = Ok (e, r') /\ same_outcome r r'
  | Throw => align pose_minus log_norms tnorm realize fresh_match_state c (quiet p) ge le false g env = Throw
  | UB => align pose_minus log_norms tnorm realize fresh_match_state c (quiet p) ge le false g env = UB
  end.
Proof.
  intro L. unfold align. destruct (isNil (c_matchers c) || isNil (c_solvers c) || isNil (c_evaluators c) || ge || le); [reflexivity|].
  cbn [quiet maxIterations generateDebugFiles orb].
  set (st0 := mkLoop env _ _ g None None [] [] []).
  assert (S1 : same_search p (quiet p)) by (repeat split).
  assert (H := loop_strip c p (quiet p) (want || generateDebugFiles p) g S1 L eq_refl (maxIterations p) 0 st0). change (strip st0) with st0 in H.
  destruct (icp_loop _ _ _ _ _ c p _ g (maxIterations p) 0 st0) as [[[st n] r]| |];
    destruct (icp_loop _ _ _ _ _ c (quiet p) _ g (maxIterations p) 0 st0) as [[[st' n'] r']| |]; cbn [rmap] in H; try discriminate; try reflexivity.
  unfold strip2 in H. cbn [fst snd] in H. injection H as E1 E2 E3 E4 E5 E6 E7 E8 E9 E10. subst n' r'. cbn [rbind]. rewrite <- E1.
  destruct (realize n (l_env st)) as [e1| |]; cbn [rbind]; [|reflexivity|reflexivity]. rewrite <- E2, <- E3.
  destruct (evaluate_quality (c_evaluators c) (optimalPose (l_sol st)) (l_pairings st) e1) as [[e2 q]| |]; cbn [rbind]; [|reflexivity|reflexivity].
  eexists. split; [reflexivity|]. unfold same_outcome. cbn. rewrite E8. repeat split.
Qed.
Lemma quiet_same p p' : same_search p p' -> quiet p = quiet p'.
Proof. intros (E1 & E2 & E3 & E4). unfold quiet. rewrite E1, E2, E3, E4. reflexivity. Qed.
End Strip.

Section Log.
Context {PP PL PN LL NN W Env P Cov FS : Type}.
Notation pairings := (Pairings PP PL PN LL NN W).
Notation Comps := (@Components PP PL PN LL NN W Env P).
Variable pose_minus : P -> P -> P.
Variable log_norms : P -> Q * Q.
Variable tnorm : P -> Q.
Variable realize : nat -> Env -> res Env.
Variable fresh_match_state : Env -> Env.
Variable covariance : pairings -> P -> res Cov.
Variable variables : Env -> list (string * Q).
Notation file := (@LogFile PP PL PN LL NN W P Cov).
Notation run := (fun (write : FS -> string -> file -> FS * bool) => align_log pose_minus log_norms tnorm realize fresh_match_state covariance variables write).

(** ** C328 *)
(** C328: asking for a record, for files (of any decimation and name) or for details does not change what the alignment finds: with the
    same criteria to stop, two calls that both return give the same pose, uncertainty, scale, iterations, reason, quality and pairings,
    and leave the components in the same state; even if the files cannot be written *)
Theorem C328_logging_does_not_change_the_result : forall write write' c p p' attached attached' want want' global local guess env h h' n n' fs fs' w r k o w' r' k' o',
  same_search (lp_icp p) (lp_icp p') -> log_ok (lp_icp p) want -> log_ok (lp_icp p') want' ->
  run write c p attached want global local guess (mkWorld env h n fs) = Ok (w, (r, k), o) ->
  run write' c p' attached' want' global local guess (mkWorld env h' n' fs') = Ok (w', (r', k'), o') ->
  same_outcome r r' /\ k = k' /\ w_env w = w_env w'.
Proof.
  intros write write' c p p' attached attached' want want' global local guess env h h' n n' fs fs' w r k o w' r' k' o' SS L L' E E'.
  cbn [w_env] in *. unfold align_log in E, E'. cbn [w_env w_heap w_counter w_fs] in E, E'.
  assert (A := align_quiet pose_minus log_norms tnorm realize fresh_match_state c (lp_icp p) (mm_empty global) (mm_empty local) want guess env L).
  assert (A' := align_quiet pose_minus log_norms tnorm realize fresh_match_state c (lp_icp p') (mm_empty global) (mm_empty local) want' guess env L').
  rewrite <- (quiet_same (lp_icp p) (lp_icp p') SS) in A'.
  destruct (align _ _ _ _ _ c (lp_icp p) _ _ want guess env) as [[e1 r1]| |]; cbn [rbind] in E; try discriminate.
  destruct (align _ _ _ _ _ c (lp_icp p') _ _ want' guess env) as [[e2 r2]| |]; cbn [rbind] in E'; try discriminate.
  destruct A as (q1 & A1 & O1). destruct A' as (q2 & A2 & O2). rewrite A1 in A2. injection A2 as -> ->.
  assert (SO : same_outcome r1 r2). { unfold same_outcome in *. intuition congruence. }
  assert (FP : r_finalPairings r1 = r_finalPairings r2) by apply SO. assert (FT : r_optimal_tf r1 = r_optimal_tf r2) by apply SO.
  rewrite FP, FT in E. destruct (covariance (r_finalPairings r2) (r_optimal_tf r2)) as [cv| |]; cbn [rbind] in E, E'; try discriminate.
  assert (R : forall (write : FS -> string -> file -> FS * bool) p attached want h n (fs : FS) (rr : @IcpResults PP PL PN LL NN W P) (w : @World Env FS) r k o,
    (if want || generateDebugFiles (lp_icp p)
     then let* vars := if attached || Nat.ltb 0 (maxIterations (lp_icp p)) then Ok (variables e2) else UB in
       let* lo := apply_functor (lp_local p) h local in let* gl := apply_functor (lp_global p) (fst lo) global in
       Ok (save_log_file write (mkLog (snd gl) (snd lo) guess p (rr, cv) vars (r_iterationDetails rr)) (mkWorld e2 (fst gl) n fs), (rr, cv),
           if want then Some (mkLog (snd gl) (snd lo) guess p (rr, cv) vars (r_iterationDetails rr)) else None)
     else Ok (mkWorld e2 h n fs, (rr, cv), None)) = Ok (w, (r, k), o) -> r = rr /\ k = cv /\ w_env w = e2).
  { clear. intros write p attached want h n fs rr w r k o E. destruct (want || generateDebugFiles (lp_icp p)).
    - destruct (attached || _); cbn [rbind] in E; [|discriminate]. destruct (apply_functor (lp_local p) h local) as [[h1 m1]| |]; cbn [rbind] in E; try discriminate.
      destruct (apply_functor (lp_global p) _ global) as [[h2 m2]| |]; cbn [rbind fst snd] in E; try discriminate.
      injection E as <- <- <- _. split; [reflexivity|]. split; [reflexivity|]. unfold save_log_file. cbn [lg_params].
      destruct (negb _); [reflexivity|]. destruct (save_log_step _ _) as [c' [id|]]; reflexivity.
    - injection E as <- <- <- _. repeat split. }
  apply R in E as (-> & -> & ->). apply R in E' as (-> & -> & ->). split; [exact SO|]. split; reflexivity.
Qed.

(** ... and with a record available a call fails with an exception for one setting of the logging exactly if it does for any other, unless a
    logging functor throws (C327 for undefined behaviour) *)
Theorem C328_same_failures : forall write write' c p p' want want' global local guess w w',
  same_search (lp_icp p) (lp_icp p') -> log_ok (lp_icp p) want -> log_ok (lp_icp p') want' -> w_env w = w_env w' ->
  lp_local p = None -> lp_global p = None -> lp_local p' = None -> lp_global p' = None ->
  run write c p true want global local guess w = Throw -> run write' c p' true want' global local guess w' = Throw.
Proof.
  intros write write' c p p' want want' global local guess w w' SS L L' EW F1 F2 F3 F4 E. unfold align_log in *. cbv beta in *.
  assert (A := align_quiet pose_minus log_norms tnorm realize fresh_match_state c (lp_icp p) (mm_empty global) (mm_empty local) want guess (w_env w) L).
  assert (A' := align_quiet pose_minus log_norms tnorm realize fresh_match_state c (lp_icp p') (mm_empty global) (mm_empty local) want' guess (w_env w') L').
  rewrite <- (quiet_same (lp_icp p) (lp_icp p') SS), <- EW in A'. rewrite <- EW.
  destruct (align _ _ _ _ _ c (lp_icp p) _ _ want guess (w_env w)) as [[e1 r1]| |]; cbn [rbind] in E; try discriminate.
  - destruct A as (q1 & A1 & O1). destruct (align _ _ _ _ _ c (lp_icp p') _ _ want' guess (w_env w)) as [[e2 r2]| |].
    + destruct A' as (q2 & A2 & O2). rewrite A1 in A2. injection A2 as -> ->. assert (SO : same_outcome r1 r2) by (unfold same_outcome in *; intuition congruence).
      assert (FP : r_finalPairings r1 = r_finalPairings r2) by apply SO. assert (FT : r_optimal_tf r1 = r_optimal_tf r2) by apply SO. cbn [rbind].
      rewrite FP, FT in E. destruct (covariance (r_finalPairings r2) (r_optimal_tf r2)) as [cv| |]; cbn [rbind] in E |- *; try discriminate; [|reflexivity].
      exfalso. revert E. rewrite F1, F2. destruct (want || _); cbn; discriminate.
    + reflexivity.
    + congruence.
  - destruct (align _ _ _ _ _ c (lp_icp p') _ _ want' guess (w_env w)) as [[e2 r2]| |]; [destruct A' as (q2 & A2 & _); congruence|reflexivity|congruence].
Qed.
End Log.
Print Assumptions C328_logging_does_not_change_the_result.
Print Assumptions C328_same_failures.
