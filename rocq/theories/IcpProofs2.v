From Verif Require Import Base PairingsModel PairingsProofs MatcherModel SolverModel QualityModel IcpModel
  PipelineSpec PipelineProofs IcpSpec IcpProofs.
From Coq Require Import Lqa.

Section Counting.
Context {PP PL PN LL NN W Env Pose : Type}.
Notation event := (@Event PP PL PN LL NN W Pose).

Definition is_kmatch (k : kind) : bool := match k with KMatch _ => true | _ => false end.

Lemma rounds_kinds (tr : list event) :
  rounds tr = length (filter is_kmatch (map kind_of tr)).
Proof.
  unfold rounds. induction tr as [|e tr IH]; [reflexivity|].
  destruct e; cbn; auto.
Qed.

Lemma sched_kmatch (c : @Components PP PL PN LL NN W Env Pose) p n :
  length (filter is_kmatch (sched c p n)) = n.
Proof.
  induction n as [|n IH]; [reflexivity|]. rewrite sched_S, filter_app, app_length, IH.
  unfold full_round. cbn. rewrite filter_app.
  destruct (checkpoint_of _ _); destruct (c_hook c); cbn; lia.
Qed.

Lemma kinds_first_n (c : @Components PP PL PN LL NN W Env Pose) p : forall m n,
  n <= m -> exists rest, sched c p n ++ rest = sched c p m.
Proof.
  induction m as [|m IH]; intros n H.
  - exists []. assert (n = 0) by lia. subst. apply app_nil_r.
  - destruct (Nat.eq_dec n (S m)) as [->|].
    + exists []. apply app_nil_r.
    + destruct (IH n ltac:(lia)) as [r Hr]. rewrite sched_S, <- Hr, <- app_assoc. eauto.
Qed.

(** A non-empty prefix of the schedule that ends in an event of round n has n+1 matches. *)
Lemma full_round_iters p hh k : Forall (fun x => match x with
   KMatch i | KSolve i | KQuality i | KHook i => i = k end) (full_round p hh k).
Proof.
  unfold full_round. rewrite !Forall_app. repeat split; [repeat constructor| |].
  - destruct (checkpoint_of _ _); repeat constructor.
  - destruct hh; repeat constructor.
Qed.


Lemma filter_none {A} (f : A -> bool) l : Forall (fun x => f x = false) l -> filter f l = [].
Proof. induction 1 as [|x l Hx _ IH]; [reflexivity|]. cbn. rewrite Hx. exact IH. Qed.

Lemma full_round_matches p hh k l rest :
  l ++ rest = full_round p hh k -> l <> [] -> length (filter is_kmatch l) = 1.
Proof.
  unfold full_round. intros H Hl. destruct l as [|a l]; [congruence|].
  cbn in H. injection H as -> H. cbn [filter is_kmatch length]. f_equal.
  assert (Forall (fun x => is_kmatch x = false) (l ++ rest)) as F.
  { rewrite H. constructor; [reflexivity|]. rewrite Forall_app. split.
    - destruct (checkpoint_of _ _); repeat constructor.
    - destruct hh; repeat constructor. }
  apply Forall_app in F as [F _]. rewrite filter_none; auto.
Qed.

Definition kiter (x : kind) : nat := match x with KMatch i | KSolve i | KQuality i | KHook i => i end.

Lemma sched_iters (c : @Components PP PL PN LL NN W Env Pose) p n :
  Forall (fun x => kiter x < n) (sched c p n).
Proof.
  induction n as [|n IH]; [constructor|]. rewrite sched_S, Forall_app. split.
  - eapply Forall_impl; [|exact IH]. cbn. lia.
  - eapply Forall_impl; [|apply full_round_iters]. intros [] H; cbn; lia.
Qed.

Lemma app_prefix_cases {A} : forall (a b x y : list A),
  a ++ b = x ++ y -> (exists l, a = x ++ l /\ l ++ b = y) \/ (exists l, x = a ++ l /\ l <> [] /\ b = l ++ y).
Proof.
  induction a as [|h a IH]; intros b x y H.
  - destruct x as [|z x]; [left; exists []; auto|].
    right. exists (z :: x). split; [reflexivity|]. split; [discriminate|exact H].
  - destruct x as [|z x].
    + left. exists (h :: a). auto.
    + cbn in H. injection H as -> H. apply IH in H as [[l [-> H]]|[l [-> [Hn ->]]]].
      * left. exists l. auto.
      * right. exists l. auto.
Qed.

Lemma break_rounds (c : @Components PP PL PN LL NN W Env Pose) p n (tr : list event) pre e rest :
  map kind_of tr ++ rest = sched c p (S n) -> tr = pre ++ [e] -> event_iter e = n ->
  rounds tr = S n.
Proof.
  intros H -> He. rewrite rounds_kinds. rewrite sched_S in H.
  apply app_prefix_cases in H as [[l [E Hl]]|[l [E [Hn _]]]].
  - rewrite E, filter_app, app_length, sched_kmatch.
    destruct l as [|a l].
    + rewrite app_nil_r in E. exfalso. pose proof (sched_iters c p n) as F.
      rewrite <- E, map_app in F. apply Forall_app in F as [_ F].
      inversion F as [|? ? Hx _]; subst. destruct e; cbn in *; lia.
    + rewrite (full_round_matches _ _ _ _ _ Hl) by discriminate. lia.
  - exfalso. pose proof (sched_iters c p n) as F. rewrite E in F.
    rewrite map_app in F. apply Forall_app in F as [F _]. apply Forall_app in F as [_ F].
    inversion F as [|? ? Hx _]; subst. destruct e; cbn in *; lia.
Qed.
End Counting.

Section Main.
Context {PP PL PN LL NN W Env Pose : Type}.
Notation pairings := (Pairings PP PL PN LL NN W).
Notation event := (@Event PP PL PN LL NN W Pose).
Variable pose_minus : Pose -> Pose -> Pose.
Variable log_norms : Pose -> Q * Q.
Variable tnorm : Pose -> Q.
Variable realize : nat -> Env -> res Env.
Variable fresh_match_state : Env -> Env.
Hypothesis norms_nonneg : forall x, (0 <= fst (log_norms x) /\ 0 <= snd (log_norms x))%Q.
Notation components := (@Components PP PL PN LL NN W Env Pose).
Notation align' := (align pose_minus log_norms tnorm realize fresh_match_state).
Notation ends' := (ends pose_minus log_norms).

Lemma ends_fun p guess (pre : list event) e r r' : ends' p guess pre e r -> ends' p guess pre e r' -> r = r'.
Proof. intros H H'. inversion H; subst; inversion H'; subst; reflexivity. Qed.

Lemma ends_not_special p guess (pre : list event) e r :
  ends' p guess pre e r -> r <> Undefined /\ r <> MaxIterations.
Proof. intro H; inversion H; subst; split; discriminate. Qed.

Lemma align_c18 c p ge le dbg guess env env' (res : @IcpResults PP PL PN LL NN W Pose) :
  align' c p ge le dbg guess env = Ok (env', res) ->
  let tr := r_loopTrace res in
  let hasHook := match c_hook c with Some _ => true | None => false end in
  rounds tr <= maxIterations p
  /\ r_nIterations res <= maxIterations p
  /\ (exists rest, map kind_of tr ++ rest = full_schedule p hasHook)
  /\ (forall pre e x post, tr = pre ++ e :: x :: post -> forall r, ~ ends' p guess pre e r)
  /\ ((r_terminationReason res = MaxIterations
       /\ map kind_of tr = full_schedule p hasHook
       /\ forall pre e, tr = pre ++ [e] -> forall r, ~ ends' p guess pre e r)
      \/ (exists pre e, tr = pre ++ [e] /\ ends' p guess pre e (r_terminationReason res))).
Proof.
  intro H. apply align_spec in H; [|exact norms_nonneg].
  destruct H as [_ [_ [_ [_ H]]]]. cbn zeta.
  destruct H as [[Hr [Hn [G [K [_ _]]]]]|[Hlt HB]].
  - split; [|split; [lia|]].
    + rewrite rounds_kinds, K. unfold full_schedule. fold (sched c p (maxIterations p)).
      rewrite (sched_kmatch c p). lia.
    + split; [exists []; rewrite app_nil_r; exact K|].
      split; [intros pre e x post E; apply (G _ _ _ E)|].
      left. split; [exact Hr|]. split; [exact K|]. intros pre e E. apply (G _ _ _ E).
  - destruct HB as [[pre [e [E [G [A [X I]]]]]] [rest Hk] _ _ _ _].
    cbn [l_trace] in *.
    destruct (kinds_first_n c p (maxIterations p) (S (r_nIterations res)) ltac:(lia)) as [rest' Hs].
    split; [|split; [lia|]].
    + rewrite (break_rounds c p _ _ _ _ _ Hk E I). lia.
    + split; [exists (rest ++ rest'); rewrite app_assoc, Hk; exact Hs|].
      split.
      * intros pre' e' x post E'. rewrite E in E'. 
        apply snoc_split in E' as [[E1 _]|[post' [_ E1]]]; [discriminate|]. apply (G _ _ _ E1).
      * right. eauto.
Qed.

Lemma align_c51 c p ge le dbg guess env env' (res : @IcpResults PP PL PN LL NN W Pose) :
  align' c p ge le dbg guess env = Ok (env', res) ->
  (r_terminationReason res = MaxIterations -> r_nIterations res = rounds (r_loopTrace res))
  /\ (r_terminationReason res <> MaxIterations -> S (r_nIterations res) = rounds (r_loopTrace res)).
Proof.
  intro H. apply align_spec in H; [|exact norms_nonneg].
  destruct H as [_ [_ [_ [_ H]]]].
  destruct H as [[Hr [Hn [G [K [_ _]]]]]|[Hlt HB]].
  - split; [|congruence]. intros _. rewrite rounds_kinds, K. unfold full_schedule.
    fold (sched c p (maxIterations p)). rewrite (sched_kmatch c p). exact Hn.
  - destruct HB as [[pre [e [E [G [A [X I]]]]]] [rest Hk] _ _ _ _]. cbn [l_trace] in *.
    pose proof (break_rounds c p _ _ _ _ _ Hk E I) as HR.
    apply ends_not_special in X as [_ X]. split; [congruence|]. intros _. symmetry. exact HR.
Qed.

(** ** Progress *)
Lemma run_matchers_total (ms : list (@Matcher PP PL PN LL NN W Env Pose)) it pose : forall env acc,
  Forall (fun m => forall k pose env out, is_ok (m_impl_match m k pose env out)) ms ->
  is_ok (run_matchers_loop ms it pose env acc).
Proof.
  induction ms as [|m ms IH]; intros env acc F; cbn; [eexists; reflexivity|].
  inversion F as [|? ? Hm F']; subst. unfold matcher_match.
  destruct (matcher_gate m it); cbn [rbind]; [|apply IH; exact F'].
  destruct (Hm it pose env pairings_empty_ctor) as [[[env' fl] out] ->]. cbn [rbind]. apply IH. exact F'.
Qed.

Lemma run_solvers_total (ss : list (Solver Env Pose pairings)) f sc : forall out l env,
  Forall (fun s => forall sc f env out, is_ok (s_impl s sc f env out)) ss ->
  is_ok (run_solvers tnorm ss f out sc l env).
Proof.
  induction ss as [|s ss IH]; intros out l env F; cbn; [eexists; reflexivity|].
  inversion F as [|? ? Hs F']; subst. unfold solver_optimal_pose.
  destruct (solver_iter_gate s (sc_icpIteration sc)); cbn [rbind]; [|apply IH; exact F'].
  destruct (solver_latch_gate tnorm s sc l) as [run l']. destruct run; cbn [rbind]; [|apply IH; exact F'].
  destruct (Hs sc f env out) as [[[env' ok] out'] ->]. cbn [rbind].
  destruct ok; [eexists; reflexivity|]. apply IH; exact F'.
Qed.

Lemma evaluate_loop_total (es : list (@Evaluator Env Pose pairings)) pose f : forall env sw se,
  Forall (fun e => (0 < relativeWeight e)%Q /\ forall pose f env, is_ok (e_evaluate e pose f env)) es ->
  exists env' o, evaluate_loop es pose f env sw se = Ok (env', o)
    /\ match o with Some (sw', _) => (es = [] -> sw' == sw)%Q /\ (sw <= sw')%Q /\ (es <> [] -> sw < sw')%Q | None => True end.
Proof.
  induction es as [|e es IH]; intros env sw se F; cbn.
  - exists env, (Some (sw, se)). repeat split; try reflexivity; try congruence. lra.
  - inversion F as [|? ? [Hw He] F']; subst. apply Qltb_lt in Hw. rewrite Hw. apply Qltb_lt in Hw.
    destruct (He pose f env) as [[env' er] ->]. cbn [rbind]. destruct (hard_discard er).
    + exists env', None. auto.
    + destruct (IH env' (sw + relativeWeight e)%Q (se + relativeWeight e * quality er)%Q F')
        as [env2 [o [-> Ho]]].
      exists env2, o. split; [reflexivity|]. destruct o as [[sw' se']|]; [|exact I].
      destruct Ho as [_ [Ho _]]. repeat split; try congruence; intros; lra.
Qed.

Lemma evaluate_quality_total (es : list (@Evaluator Env Pose pairings)) pose f env :
  es <> [] ->
  Forall (fun e => (0 < relativeWeight e)%Q /\ forall pose f env, is_ok (e_evaluate e pose f env)) es ->
  is_ok (evaluate_quality es pose f env).
Proof.
  intros Hn F. unfold evaluate_quality.
  destruct (evaluate_loop_total es pose f env 0 0 F) as [env' [o [E Ho]]]. rewrite E.
  destruct es as [|e es]; [congruence|]. cbn [rbind].
  destruct o as [[sw se]|]; [|eexists; reflexivity].
  destruct Ho as [_ [_ Ho]]. specialize (Ho Hn). apply Qltb_lt in Ho. rewrite Ho. eexists; reflexivity.
Qed.

Lemma tail_total (c : components) p n st :
  never_fail realize c -> c_evaluators c <> [] -> is_ok (iter_tail realize c p n st).
Proof.
  intros [Hre [Hm [Hs [He Hh]]]] Hn. unfold iter_tail.
  assert (HH : forall s1 : @LoopState PP PL PN LL NN W Env Pose, is_ok
    (match c_hook c with
    | None => Ok (mkLoop (l_env s1) (l_sol s1) (l_pairings s1) (optimalPose (l_sol st))
        (Some (l_prev s1)) (l_lastCorrection s1) (l_latched s1) (l_details s1) (l_trace s1), None)
    | Some h =>
      let* r := h n (l_pairings s1) (l_sol s1) (l_env s1) in
      let '(env', stop) := r in
      let st2 := mkLoop env' (l_sol s1) (l_pairings s1) (l_prev s1) (l_prev2 s1)
           (l_lastCorrection s1) (l_latched s1) (l_details s1)
           (l_trace s1 ++ [EvHook n (optimalPose (l_sol s1)) (l_pairings s1) stop]) in
      if stop then Ok (st2, Some HookRequest)
      else Ok (mkLoop (l_env st2) (l_sol st2) (l_pairings st2) (optimalPose (l_sol st))
        (Some (l_prev st2)) (l_lastCorrection st2) (l_latched st2) (l_details st2) (l_trace st2), None)
    end)).
  { intro s1. destruct (c_hook c) as [h|]; [|eexists; reflexivity].
    destruct (Hh h eq_refl n (l_pairings s1) (l_sol s1) (l_env s1)) as [[env2 stop] ->]. cbn [rbind].
    destruct stop; eexists; reflexivity. }
  destruct (find_checkpoint (quality_checkpoints p) n) as [mq|]; [|apply (HH st)].
  destruct (Hre n (l_env st)) as [env1 ->]. cbn [rbind].
  destruct (evaluate_quality_total (c_evaluators c) (optimalPose (l_sol st)) (l_pairings st) env1 Hn He)
    as [[env2 q] ->]. cbn [rbind].
  destruct (Qltb q mq); [eexists; reflexivity|].
  apply (HH (mkLoop env2 (l_sol st) (l_pairings st) (l_prev st) (l_prev2 st)
         (l_lastCorrection st) (l_latched st) (l_details st)
         (l_trace st ++ [EvQuality n (optimalPose (l_sol st)) (l_pairings st) q]))).
Qed.

Lemma body_total (c : components) p hasLog guess n st :
  never_fail realize c -> c_evaluators c <> [] -> (saveIterationDetails p = true -> hasLog = true) ->
  is_ok (iter_body pose_minus log_norms tnorm realize fresh_match_state c p hasLog guess n st).
Proof.
  intros HC Hn HL. pose proof HC as [Hre [Hm [Hs [He Hh]]]]. unfold iter_body.
  destruct (Hre n (l_env st)) as [env1 ->]. cbn [rbind].
  unfold run_matchers.
  destruct (run_matchers_total (c_matchers c) n (optimalPose (l_sol st)) (fresh_match_state env1)
    pairings_empty_ctor Hm) as [[env2 found] ->]. cbn [rbind].
  destruct (pairings_empty found); [eexists; reflexivity|].
  match goal with |- context [run_solvers tnorm (c_solvers c) found (l_sol st) ?sc (l_latched st) env2] =>
    destruct (run_solvers_total (c_solvers c) found sc (l_sol st) (l_latched st) env2 Hs)
      as [[[[env3 l'] ok] sol'] ->] end. cbn [rbind].
  destruct ok; cbn [negb]; [|eexists; reflexivity].
  assert (HW : forall s, want_details p n s && negb hasLog = false).
  { intro s. unfold want_details. destruct (saveIterationDetails p); [rewrite HL by reflexivity; apply andb_false_r|reflexivity]. }
  rewrite HW.
  match goal with |- context [want_details p n ?s] => destruct s eqn:Es end.
  - eexists; reflexivity.
  - apply tail_total; assumption.
Qed.

Lemma loop_total (c : components) p hasLog guess :
  never_fail realize c -> c_evaluators c <> [] -> (saveIterationDetails p = true -> hasLog = true) ->
  forall fuel n st,
  is_ok (icp_loop pose_minus log_norms tnorm realize fresh_match_state c p hasLog guess fuel n st).
Proof.
  intros HC Hn HL. induction fuel as [|fuel IH]; intros n st; cbn [icp_loop]; [eexists; reflexivity|].
  destruct (body_total c p hasLog guess n st HC Hn HL) as [[st' [r|]] ->]; cbn [rbind]; [eexists; reflexivity|apply IH].
Qed.

Lemma align_total (c : components) p ge le dbg guess env :
  never_fail realize c -> (saveIterationDetails p = true -> dbg || generateDebugFiles p = true) ->
  (is_ok (align' c p ge le dbg guess env) <->
   c_matchers c <> [] /\ c_solvers c <> [] /\ c_evaluators c <> [] /\ ge = false /\ le = false).
Proof.
  intros HC HL. split.
  - intros [[env' res] H]. apply align_spec in H; [|exact norms_nonneg]. apply H.
  - intros [H1 [H2 [H3 [-> ->]]]]. unfold align.
    assert (NE : forall A (l : list A), l <> [] -> isNil l = false) by (intros A [|] X; cbn in *; congruence).
    rewrite !NE by assumption. cbn [orb].
    destruct (loop_total c p (dbg || generateDebugFiles p) guess HC H3 HL (maxIterations p) 0
       (mkLoop env (mkSol guess 1%Q) pairings_empty_ctor guess None None [] [] [])) as [[[st n] r] ->].
    cbn [rbind]. destruct HC as [Hre [Hm [Hs [He Hh]]]].
    destruct (Hre n (l_env st)) as [env1 ->]. cbn [rbind].
    destruct (evaluate_quality_total (c_evaluators c) (optimalPose (l_sol st)) (l_pairings st) env1 H3 He)
      as [[env2 q] ->]. cbn [rbind]. eexists; reflexivity.
Qed.

End Main.

(** ** Log numbering *)
Lemma save_log_run_nth calls : forall c i d, (c < 2 ^ 32)%N ->
  nth_error calls i = Some d ->
  nth_error (save_log_run calls c) i =
    Some (let id := ((c + N.of_nat i) mod 2 ^ 32)%N in
          if ((d <=? 1) || (id mod d =? 0))%N then Some id else None).
Proof.
  induction calls as [|d0 calls IH]; intros c i d Hc H; [destruct i; discriminate|].
  assert (step : forall d, save_log_step d c = (((c + 1) mod 2 ^ 32)%N,
      if ((d <=? 1) || (c mod d =? 0))%N then Some c else None)).
  { intro x. unfold save_log_step. rewrite N.leb_antisym. 
    destruct (1 <? x)%N; cbn [andb orb negb]; [|reflexivity]. destruct (c mod x =? 0)%N; reflexivity. }
  cbn [save_log_run]. rewrite step. destruct i as [|i]; cbn [nth_error] in *.
  - injection H as ->. cbn zeta; rewrite N.add_0_r, (N.mod_small c (2^32)) by exact Hc. reflexivity.
  - rewrite (IH _ _ d); [|apply N.mod_upper_bound; discriminate|exact H].
    rewrite N.add_mod_idemp_l by discriminate.
    replace (c + 1 + N.of_nat i)%N with (c + N.of_nat (S i))%N by lia. reflexivity.
Qed.
