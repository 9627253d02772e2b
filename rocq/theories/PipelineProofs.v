From Verif Require Import Base PairingsModel MatcherModel SolverModel QualityModel PipelineSpec.
From Coq Require Import Lqa Setoid.

Lemma Qltb_lt a b : Qltb a b = true <-> (a < b)%Q.
Proof.
  unfold Qltb. rewrite negb_true_iff. split; intro H.
  - apply Qnot_le_lt. intro Hle. apply Qle_bool_iff in Hle. congruence.
  - destruct (Qle_bool b a) eqn:E; [|reflexivity].
    apply Qle_bool_iff in E. exfalso. eapply Qlt_not_le; eauto.
Qed.

Lemma Qltb_ge a b : Qltb a b = false <-> (b <= a)%Q.
Proof.
  unfold Qltb. rewrite negb_false_iff. apply Qle_bool_iff.
Qed.

Section M.
Context {PP PL PN LL NN W Env Pose : Type}.
Notation pairings := (Pairings PP PL PN LL NN W).
Notation matcher := (@Matcher PP PL PN LL NN W Env Pose).

Lemma matcher_gate_iff (m : matcher) it :
  matcher_gate m it = true <-> matcher_may_run m it.
Proof.
  unfold matcher_gate, matcher_may_run, in_window.
  destruct (m_enabled m); cbn [negb]; [|split; [intro X; discriminate X|intros [? _]; discriminate]].
  destruct (Nat.ltb_spec it (m_runFromIteration m)).
  { split; [intro X; discriminate X|intros [_ [? _]]; lia]. }
  destruct (Nat.ltb_spec 0 (m_runUpToIteration m));
  destruct (Nat.ltb_spec (m_runUpToIteration m) it); cbn [andb].
  - split; [intro X; discriminate X|intros [_ [_ [?|?]]]; lia].
  - split; [intros _; split; [reflexivity|split; lia]|reflexivity].
  - split; [intros _; split; [reflexivity|split; lia]|reflexivity].
  - split; [intros _; split; [reflexivity|split; lia]|reflexivity].
Qed.

Lemma matcher_match_skip (m : matcher) it pose env out :
  ~ matcher_may_run m it -> matcher_match m it pose env out = Ok (env, false, out).
Proof.
  intro H. unfold matcher_match. destruct (matcher_gate m it) eqn:E; [|reflexivity].
  apply matcher_gate_iff in E. contradiction.
Qed.

Lemma matcher_match_run (m : matcher) it pose env out :
  matcher_may_run m it -> matcher_match m it pose env out = m_impl_match m it pose env out.
Proof.
  intro H. unfold matcher_match. apply matcher_gate_iff in H. rewrite H. reflexivity.
Qed.

Definition cat (acc : pairings) (outs : list pairings) : pairings :=
  fold_left push_back_copy outs acc.

Lemma run_loop_iff (ms : list matcher) : forall it (pose : Pose) (env : Env) acc env' (p : pairings),
  run_matchers_loop ms it pose env acc = Ok (env', p) <->
  exists outs, matcher_outputs it pose ms env outs env' /\ p = cat acc outs.
Proof.
  induction ms as [|m ms IH]; intros it pose env acc env' p; cbn [run_matchers_loop].
  - split.
    + intros [= <- <-]. exists []. split; [constructor|reflexivity].
    + intros [outs [H ->]]. inversion H; subst. reflexivity.
  - split.
    + intro H. destruct (matcher_gate m it) eqn:E.
      * apply matcher_gate_iff in E. rewrite (matcher_match_run _ _ _ _ _ E) in H.
        destruct (m_impl_match m it pose env pairings_empty_ctor) as [[[env1 fl] pc]| |] eqn:Em;
          cbn in H; try discriminate.
        apply IH in H as [outs [Ho ->]]. exists (pc :: outs). split; [|reflexivity].
        econstructor; eauto.
      * assert (~ matcher_may_run m it) as Hn by (intro X; apply matcher_gate_iff in X; congruence).
        rewrite (matcher_match_skip _ _ _ _ _ Hn) in H. cbn in H.
        apply IH in H as [outs [Ho ->]]. exists (no_pairings :: outs). split; [|reflexivity].
        apply mo_skip; auto.
    + intros [outs [H ->]]. inversion H; subst.
      * rewrite (matcher_match_run m it pose env pairings_empty_ctor) by assumption.
        match goal with X : m_impl_match _ _ _ _ _ = _ |- _ =>
          change no_pairings with (@pairings_empty_ctor PP PL PN LL NN W) in X; rewrite X end.
        cbn. apply IH. eexists; split; [eassumption|reflexivity].
      * rewrite (matcher_match_skip m it pose env pairings_empty_ctor) by assumption.
        cbn. apply IH. eexists; split; [eassumption|reflexivity].
Qed.

Lemma cat_fields outs : forall acc : pairings,
  paired_pt2pt (cat acc outs) = paired_pt2pt acc ++ concat (map paired_pt2pt outs)
  /\ paired_pt2ln (cat acc outs) = paired_pt2ln acc ++ concat (map paired_pt2ln outs)
  /\ paired_pt2pl (cat acc outs) = paired_pt2pl acc ++ concat (map paired_pt2pl outs)
  /\ paired_ln2ln (cat acc outs) = paired_ln2ln acc ++ concat (map paired_ln2ln outs)
  /\ paired_pl2pl (cat acc outs) = paired_pl2pl acc ++ concat (map paired_pl2pl outs)
  /\ potential_pairings (cat acc outs)
     = potential_pairings acc + list_sum (map potential_pairings outs)
  /\ point_weights (cat acc outs) = point_weights acc.
Proof.
  induction outs as [|o outs IH]; intro acc.
  - cbn. rewrite !app_nil_r, Nat.add_0_r. repeat split.
  - unfold cat in *. cbn [fold_left map concat list_sum fold_right].
    destruct (IH (push_back_copy acc o)) as [-> [-> [-> [-> [-> [-> ->]]]]]].
    cbn. rewrite <- !app_assoc. repeat split. unfold list_sum. cbn. lia.
Qed.

Lemma pairings_eta_concat outs (p : pairings) :
  is_concat outs p -> point_weights p = [] -> p = cat pairings_empty_ctor outs.
Proof.
  intros [H1 [H2 [H3 [H4 [H5 H6]]]]] H7.
  destruct (cat_fields outs pairings_empty_ctor) as [E1 [E2 [E3 [E4 [E5 [E6 E7]]]]]].
  cbn in E1, E2, E3, E4, E5, E6, E7.
  destruct p, (cat pairings_empty_ctor outs); cbn in *. congruence.
Qed.

Lemma run_matchers_iff (ms : list matcher) it (pose : Pose) (env : Env) env' (p : pairings) :
  run_matchers ms it pose env = Ok (env', p) <->
  exists outs, matcher_outputs it pose ms env outs env' /\ is_concat outs p
               /\ point_weights p = [].
Proof.
  unfold run_matchers. rewrite run_loop_iff. split; intros [outs H]; exists outs.
  - destruct H as [H ->]. split; [exact H|].
    destruct (cat_fields outs pairings_empty_ctor) as [E1 [E2 [E3 [E4 [E5 [E6 E7]]]]]].
    repeat split; assumption.
  - destruct H as [H [Hc Hw]]. split; [exact H|]. apply pairings_eta_concat; assumption.
Qed.
End M.

Section S.
Context {Env Pose Pairs : Type}.
Variable tnorm : Pose -> Q.
Notation solver := (Solver Env Pose Pairs).

Lemma solver_iter_gate_iff (s : solver) it :
  solver_iter_gate s it = true <-> solver_in_window s it.
Proof.
  unfold solver_iter_gate, solver_in_window, in_window.
  destruct (s_enabled s); cbn [negb]; [|split; [intro X; discriminate X|intros [? _]; discriminate]].
  destruct it as [k|]; [|split; intros; auto; split; auto; congruence].
  destruct (Nat.ltb_spec k (s_runFromIteration s)).
  { split; [intro X; discriminate X|intros [_ H0]]. specialize (H0 k eq_refl). lia. }
  destruct (Nat.ltb_spec 0 (s_runUpToIteration s));
  destruct (Nat.ltb_spec (s_runUpToIteration s) k); cbn [andb].
  - split; [intro X; discriminate X|intros [_ H2]]. specialize (H2 k eq_refl). lia.
  - split; [intros _; split; [reflexivity|intros k' [= <-]; split; lia]|reflexivity].
  - split; [intros _; split; [reflexivity|intros k' [= <-]; split; lia]|reflexivity].
  - split; [intros _; split; [reflexivity|intros k' [= <-]; split; lia]|reflexivity].
Qed.

Lemma is_latched_iff l (s : solver) : is_latched l s = true <-> In (s_id s) l.
Proof.
  unfold is_latched. rewrite existsb_exists. split.
  - intros [x [Hx E]]. apply Nat.eqb_eq in E. subst. exact Hx.
  - intro H. exists (s_id s). split; [exact H|apply Nat.eqb_refl].
Qed.

Lemma solver_runs (s : solver) pairs out sc l env :
  solver_may_run tnorm s sc l ->
  solver_optimal_pose tnorm s pairs out sc l env =
    (let* r := s_impl s sc pairs env out in
     let '(env', ok, out') := r in Ok (env', l, ok, out')).
Proof.
  intros [Hw Hu]. unfold solver_optimal_pose.
  apply solver_iter_gate_iff in Hw. rewrite Hw.
  unfold solver_latch_gate.
  destruct (Qltb 0 (s_runUntilTranslationCorrectionSmallerThan s)) eqn:E; [|reflexivity].
  apply Qltb_lt in E. destruct (Hu E) as [Hl Hs].
  destruct (is_latched l s) eqn:El; [apply is_latched_iff in El; contradiction|].
  destruct (sc_lastIcpStepIncrement sc) as [d|] eqn:Ed; [|reflexivity].
  destruct (Qltb (tnorm d) (s_runUntilTranslationCorrectionSmallerThan s)) eqn:Et; [|reflexivity].
  exfalso. apply Hs. exists d. split; [exact Ed|apply Qltb_lt; exact Et].
Qed.

Lemma solver_skips (s : solver) pairs out sc l env :
  ~ solver_may_run tnorm s sc l ->
  (latch_fires tnorm s sc l /\
     solver_optimal_pose tnorm s pairs out sc l env = Ok (env, s_id s :: l, false, out))
  \/ (~ latch_fires tnorm s sc l /\
     solver_optimal_pose tnorm s pairs out sc l env = Ok (env, l, false, out)).
Proof.
  intro H. unfold solver_optimal_pose.
  destruct (solver_iter_gate s (sc_icpIteration sc)) eqn:Eg.
  2:{ right. split; [|reflexivity]. intros [Hw _]. apply solver_iter_gate_iff in Hw. congruence. }
  assert (Hw := Eg). apply solver_iter_gate_iff in Hw.
  unfold solver_latch_gate.
  destruct (Qltb 0 (s_runUntilTranslationCorrectionSmallerThan s)) eqn:E.
  2:{ exfalso. apply H. split; [exact Hw|]. intro X. apply Qltb_lt in X. congruence. }
  assert (E' := E). apply Qltb_lt in E'.
  destruct (is_latched l s) eqn:El.
  { right. split; [|reflexivity]. intros [_ [_ [Hn _]]]. apply Hn.
    apply is_latched_iff. exact El. }
  assert (Hnl : ~ In (s_id s) l) by (intro X; apply is_latched_iff in X; congruence).
  destruct (sc_lastIcpStepIncrement sc) as [d|] eqn:Ed.
  - destruct (Qltb (tnorm d) (s_runUntilTranslationCorrectionSmallerThan s)) eqn:Et.
    + left. split; [|reflexivity]. split; [exact Hw|]. split; [exact E'|].
      split; [exact Hnl|]. exists d. split; [exact Ed|apply Qltb_lt; exact Et].
    + exfalso. apply H. split; [exact Hw|]. intros _. split; [exact Hnl|].
      intros [d' [Hd' Hlt]]. rewrite Ed in Hd'. injection Hd' as <-.
      apply Qltb_lt in Hlt. congruence.
  - exfalso. apply H. split; [exact Hw|]. intros _. split; [exact Hnl|].
    intros [d' [Hd' Hlt]]. congruence.
Qed.

(** Latches are never removed. *)
Lemma solver_latch_mono (s : solver) pairs out sc l env env' l' ok out' :
  solver_optimal_pose tnorm s pairs out sc l env = Ok (env', l', ok, out') ->
  incl l l'.
Proof.
  unfold solver_optimal_pose, solver_latch_gate.
  destruct (solver_iter_gate s (sc_icpIteration sc)).
  2:{ intros [= <- <- <- <-]. apply incl_refl. }
  assert (Hrun : forall r : res (Env * bool * Solution Pose),
    (let* r0 := r in let '(e, o, ou) := r0 in Ok (e, l, o, ou)) = Ok (env', l', ok, out') ->
    incl l l').
  { intros [[[? ?] ?]| |]; cbn; try discriminate. intros [= <- <- <- <-]. apply incl_refl. }
  destruct (Qltb 0 _).
  2:{ apply Hrun. }
  destruct (is_latched l s).
  { intros [= <- <- <- <-]. apply incl_refl. }
  destruct (sc_lastIcpStepIncrement sc) as [d|].
  2:{ apply Hrun. }
  destruct (Qltb (tnorm d) _).
  - intros [= <- <- <- <-]. apply incl_tl, incl_refl.
  - apply Hrun.
Qed.

Lemma run_solvers_latch_mono (ss : list solver) : forall pairs out sc l env env' l' ok out',
  run_solvers tnorm ss pairs out sc l env = Ok (env', l', ok, out') -> incl l l'.
Proof.
  induction ss as [|s ss IH]; intros pairs out sc l env env' l' ok out'; cbn [run_solvers].
  - intros [= <- <- <- <-]. apply incl_refl.
  - destruct (solver_optimal_pose tnorm s pairs out sc l env) as [[[[e1 l1] o1] u1]| |] eqn:E;
      cbn; try discriminate.
    destruct o1.
    + intros [= <- <- <- <-]. eapply solver_latch_mono; eauto.
    + intro H. eapply incl_tran; [eapply solver_latch_mono; eauto|eapply IH; eauto].
Qed.

Lemma run_solvers_true_iff (ss : list solver) : forall pairs out sc l env env' l' out',
  run_solvers tnorm ss pairs out sc l env = Ok (env', l', true, out') <->
  exists before s after out1 l1 env1,
    ss = before ++ s :: after
    /\ all_fail tnorm pairs sc before out l env out1 l1 env1
    /\ solver_optimal_pose tnorm s pairs out1 sc l1 env1 = Ok (env', l', true, out').
Proof.
  induction ss as [|s ss IH]; intros pairs out sc l env env' l' out'; cbn [run_solvers].
  - split; [intro X; discriminate X|]. intros [b [s [a [? [? [? [H _]]]]]]]. destruct b; discriminate.
  - split.
    + destruct (solver_optimal_pose tnorm s pairs out sc l env) as [[[[e1 l1] o1] u1]| |] eqn:E;
        cbn; try discriminate.
      destruct o1.
      * intros [= <- <- <-]. exists [], s, ss, out, l, env. repeat split; [constructor|exact E].
      * intro H. apply IH in H as [b [s' [a [ou [l2 [e2 [-> [Hf Hs]]]]]]]].
        exists (s :: b), s', a, ou, l2, e2. repeat split; [|exact Hs].
        econstructor; eauto.
    + intros [b [s' [a [ou [l2 [e2 [Heq [Hf Hs]]]]]]]].
      destruct b as [|b0 b]; cbn in Heq; injection Heq as -> ->.
      * inversion Hf; subst. rewrite Hs. reflexivity.
      * inversion Hf; subst.
        match goal with X : solver_optimal_pose _ _ _ _ _ _ _ = _ |- _ => rewrite X end.
        cbn. apply IH. exists b, s', a, ou, l2, e2. auto.
Qed.

Lemma run_solvers_false_iff (ss : list solver) : forall pairs out sc l env env' l' out',
  run_solvers tnorm ss pairs out sc l env = Ok (env', l', false, out') <->
  all_fail tnorm pairs sc ss out l env out' l' env'.
Proof.
  induction ss as [|s ss IH]; intros pairs out sc l env env' l' out'; cbn [run_solvers].
  - split.
    + intros [= <- <- <-]. constructor.
    + intro H. inversion H; subst. reflexivity.
  - split.
    + destruct (solver_optimal_pose tnorm s pairs out sc l env) as [[[[e1 l1] o1] u1]| |] eqn:E;
        cbn; try discriminate.
      destruct o1; [discriminate|]. intro H. apply IH in H. econstructor; eauto.
    + intro H. inversion H; subst.
      match goal with X : solver_optimal_pose _ _ _ _ _ _ _ = _ |- _ => rewrite X end.
      cbn. apply IH. assumption.
Qed.

Lemma latch_history_incl l l' :
  @latch_history Env Pose Pairs tnorm l l' -> incl l l'.
Proof.
  induction 1 as [|? ? ? ? ? ? ? ? ? ? ? H1 H2 IH]; [apply incl_refl|].
  eapply incl_tran; [eapply run_solvers_latch_mono; eauto|exact IH].
Qed.

Lemma latched_forever (s : solver) l l' :
  (0 < s_runUntilTranslationCorrectionSmallerThan s)%Q ->
  In (s_id s) l -> @latch_history Env Pose Pairs tnorm l l' ->
  In (s_id s) l' /\
  forall pairs out sc env,
    solver_optimal_pose tnorm s pairs out sc l' env = Ok (env, l', false, out).
Proof.
  intros Hu Hin Hh. assert (Hin' := latch_history_incl _ _ Hh _ Hin).
  split; [exact Hin'|]. intros pairs out sc env.
  destruct (solver_skips s pairs out sc l' env) as [[Hf _]|[_ H]].
  - intros [_ H]. destruct (H Hu) as [H1 _]. contradiction.
  - destruct Hf as [_ [_ [Hn _]]]. contradiction.
  - exact H.
Qed.

End S.

Section Q.
Context {Env Pose Pairs : Type}.
Notation evaluator := (@Evaluator Env Pose Pairs).

Lemma evaluate_loop_some (es : list evaluator) : forall pose pairs env sw se env' sw' se',
  evaluate_loop es pose pairs env sw se = Ok (env', Some (sw', se')) ->
  exists l, evals pose pairs es env l env'
    /\ map fst l = map relativeWeight es
    /\ Forall (fun e => 0 < relativeWeight e)%Q es
    /\ (sw' == sw + qsum (map fst l))%Q
    /\ (se' == se + qsum (map (fun wq => (fst wq * snd wq)%Q) l))%Q.
Proof.
  induction es as [|e es IH]; intros pose pairs env sw se env' sw' se'; cbn [evaluate_loop].
  - intros [= <- <- <-]. exists []. repeat split; try constructor; cbn; ring.
  - destruct (Qltb 0 (relativeWeight e)) eqn:Ew; [|discriminate]. apply Qltb_lt in Ew.
    destruct (e_evaluate e pose pairs env) as [[env1 r]| |] eqn:Ee; cbn [rbind]; try discriminate.
    destruct (hard_discard r) eqn:Ed; [discriminate|].
    intro H. apply IH in H as [l [Hl [Hm [Hf [H1 H2]]]]].
    exists ((relativeWeight e, quality r) :: l).
    split; [econstructor; eauto|].
    split; [cbn; congruence|]. split; [constructor; assumption|].
    cbn [map qsum fold_right fst snd]. unfold qsum in *.
    split; [rewrite H1; ring|rewrite H2; ring].
Qed.

Lemma qsum_pos l : Forall (fun x => 0 < x)%Q l -> l <> [] -> (0 < qsum l)%Q.
Proof.
  intros H. induction H as [|x l Hx Hl IH]; [congruence|]. intros _.
  destruct l as [|y l]; [cbn; lra|].
  assert (0 < qsum (y :: l))%Q by (apply IH; discriminate).
  cbn [qsum fold_right] in *. unfold qsum in *. cbn in *. lra.
Qed.

Lemma weighted_mean_bounds l lo hi :
  l <> [] -> Forall (fun wq => 0 < fst wq /\ lo <= snd wq /\ snd wq <= hi)%Q l ->
  (lo <= weighted_mean l /\ weighted_mean l <= hi)%Q.
Proof.
  intros Hne Hf.
  assert (Hsum : (lo * qsum (map fst l) <= qsum (map (fun wq => (fst wq * snd wq)%Q) l)
                  /\ qsum (map (fun wq => (fst wq * snd wq)%Q) l) <= hi * qsum (map fst l))%Q).
  { clear Hne. induction Hf as [|[w q] l [Hw [Hlo Hhi]] Hf IH]; cbn in *.
    - split; lra.
    - unfold qsum in *. destruct IH as [IH1 IH2]. split.
      + assert (lo * w <= w * q)%Q.
        { setoid_replace (lo * w)%Q with (w * lo)%Q by ring. apply Qmult_le_l; assumption. }
        lra.
      + assert (w * q <= hi * w)%Q.
        { setoid_replace (hi * w)%Q with (w * hi)%Q by ring. apply Qmult_le_l; assumption. }
        lra. }
  assert (Hpos : (0 < qsum (map fst l))%Q).
  { apply qsum_pos; [|destruct l; [congruence|discriminate]].
    rewrite Forall_map. eapply Forall_impl; [|exact Hf]. cbn. tauto. }
  unfold weighted_mean. split.
  - apply Qle_shift_div_l; [exact Hpos|]. tauto.
  - apply Qle_shift_div_r; [exact Hpos|]. tauto.
Qed.

Lemma evaluate_loop_none (es : list evaluator) : forall pose pairs env sw se env',
  evaluate_loop es pose pairs env sw se = Ok (env', None) <->
  exists before e after l env1 r,
    es = before ++ e :: after
    /\ Forall (fun x => 0 < relativeWeight x)%Q (before ++ [e])
    /\ evals pose pairs before env l env1
    /\ e_evaluate e pose pairs env1 = Ok (env', r) /\ hard_discard r = true.
Proof.
  induction es as [|e es IH]; intros pose pairs env sw se env'; cbn [evaluate_loop].
  - split; [intro X; discriminate X|]. intros [b [? [? [? [? [? [H _]]]]]]]. destruct b; discriminate.
  - destruct (Qltb 0 (relativeWeight e)) eqn:Ew.
    2:{ split; [intro X; discriminate X|]. intros [b [x [a [l [env1 [r [He [Hf _]]]]]]]].
        exfalso. destruct b; cbn in He; injection He as -> ->;
        inversion Hf as [|? ? Hx ?]; subst; apply Qltb_lt in Hx; congruence. }
    split.
    + destruct (e_evaluate e pose pairs env) as [[env1 r]| |] eqn:Ee; cbn [rbind]; try discriminate.
      destruct (hard_discard r) eqn:Ed.
      * intros [= <-]. exists [], e, es, [], env, r.
        repeat split; try constructor; auto. apply Qltb_lt; exact Ew.
      * intro H. apply IH in H as [b [x [a [l [e2 [r2 [-> [Hf [Hl [Hx Hd]]]]]]]]]].
        exists (e :: b), x, a, ((relativeWeight e, quality r) :: l), e2, r2.
        repeat split; auto.
        -- constructor; [apply Qltb_lt; exact Ew|exact Hf].
        -- econstructor; eauto.
    + intros [b [x [a [l [e2 [r2 [He [Hf [Hl [Hx Hd]]]]]]]]]].
      destruct b as [|b0 b]; cbn in He; injection He as -> ->.
      * inversion Hl; subst. rewrite Hx. cbn [rbind]. rewrite Hd. reflexivity.
      * inversion Hl; subst.
        match goal with X : e_evaluate b0 _ _ _ = _ |- _ => rewrite X end. cbn [rbind].
        match goal with X : hard_discard _ = false |- _ => rewrite X end.
        apply IH. cbn in Hf. inversion Hf; subst.
        exists b, x, a, l0, e2, r2. auto.
Qed.

Lemma evals_length pose pairs (es : list evaluator) env l env' :
  evals pose pairs es env l env' -> length l = length es.
Proof. induction 1; cbn; congruence. Qed.

Lemma evals_weights pose pairs (es : list evaluator) env l env' :
  evals pose pairs es env l env' -> map fst l = map relativeWeight es.
Proof. induction 1; cbn; congruence. Qed.

Lemma evaluate_loop_complete (es : list evaluator) : forall pose pairs env sw se l env',
  evals pose pairs es env l env' -> Forall (fun e => 0 < relativeWeight e)%Q es ->
  exists sw' se', evaluate_loop es pose pairs env sw se = Ok (env', Some (sw', se')).
Proof.
  induction es as [|e es IH]; intros pose pairs env sw se l env' H Hf; inversion H; subst;
    cbn [evaluate_loop].
  - eauto.
  - inversion Hf as [|? ? Hw Hf']; subst. apply Qltb_lt in Hw. rewrite Hw.
    match goal with X : e_evaluate _ _ _ _ = _ |- _ => rewrite X end. cbn [rbind].
    match goal with X : hard_discard _ = false |- _ => rewrite X end.
    eapply IH; eauto.
Qed.

(** Main characterisation. *)
Lemma evaluate_quality_mean (es : list evaluator) pose pairs env l env' :
  es <> [] -> evals pose pairs es env l env' -> Forall (fun e => 0 < relativeWeight e)%Q es ->
  exists q, evaluate_quality es pose pairs env = Ok (env', q) /\ (q == weighted_mean l)%Q.
Proof.
  intros Hne Hl Hf.
  destruct (evaluate_loop_complete es pose pairs env 0 0 l env' Hl Hf) as [sw [se E]].
  assert (E2 := E). apply evaluate_loop_some in E2 as [l2 [Hl2 [Hm [_ [H1 H2]]]]].
  assert (l2 = l) as ->.
  { clear -Hl Hl2. revert l2 Hl2. induction Hl; intros l2 Hl2; inversion Hl2; subst; auto.
    assert (X : Ok (env1, r) = Ok (env3, r0)) by congruence. injection X as <- <-.
    f_equal. apply IHHl. assumption. }
  unfold evaluate_quality. destruct es as [|e es]; [congruence|].
  rewrite E. cbn [rbind].
  assert (Hpos : (0 < sw)%Q).
  { rewrite H1. assert (0 < qsum (map fst l))%Q; [|lra].
    apply qsum_pos; [|rewrite Hm; discriminate].
    rewrite Hm, Forall_map. exact Hf. }
  apply Qltb_lt in Hpos. rewrite Hpos.
  eexists; split; [reflexivity|].
  unfold weighted_mean. rewrite H1, H2. rewrite !Qplus_0_l. reflexivity.
Qed.

Lemma evaluate_quality_zero (es : list evaluator) pose pairs env before e after l env1 env' r :
  es = before ++ e :: after -> Forall (fun x => 0 < relativeWeight x)%Q (before ++ [e]) ->
  evals pose pairs before env l env1 ->
  e_evaluate e pose pairs env1 = Ok (env', r) -> hard_discard r = true ->
  evaluate_quality es pose pairs env = Ok (env', 0%Q).
Proof.
  intros He Hf Hl Hx Hd. unfold evaluate_quality.
  assert (E : evaluate_loop es pose pairs env 0 0 = Ok (env', None)).
  { apply evaluate_loop_none. exists before, e, after, l, env1, r. auto. }
  destruct es as [|e0 es0]; [destruct before; discriminate|].
  rewrite E. reflexivity.
Qed.

Lemma evaluate_quality_bad_weight (es : list evaluator) pose pairs env before e after l env1 :
  es = before ++ e :: after -> evals pose pairs before env l env1 ->
  Forall (fun x => 0 < relativeWeight x)%Q before ->
  (relativeWeight e <= 0)%Q ->
  evaluate_quality es pose pairs env = Throw.
Proof.
  intros -> Hl Hf Hw. unfold evaluate_quality.
  assert (E : forall sw se, evaluate_loop (before ++ e :: after) pose pairs env sw se = Throw).
  { clear -Hl Hf Hw. induction Hl as [env|b bs env env1 env2 r l He Hd Hl IH]; intros; cbn [app evaluate_loop].
    - apply Qltb_ge in Hw. rewrite Hw. reflexivity.
    - inversion Hf as [|? ? Hb Hf']; subst. apply Qltb_lt in Hb. rewrite Hb, He. cbn [rbind].
      rewrite Hd. apply IH; assumption. }
  destruct before as [|b bs]; cbn [app] in *; rewrite E; reflexivity.
Qed.

End Q.

Section PR.
Context {PP PL PN LL NN W : Type}.
Notation pairings := (Pairings PP PL PN LL NN W).

Lemma paired_ratio_value amin (p : pairings) :
  (potential_pairings p = 0 -> quality (paired_ratio_of amin p) = 0%Q)
  /\ (potential_pairings p <> 0 ->
      (quality (paired_ratio_of amin p) * inject_Z (Z.of_nat (potential_pairings p))
       == inject_Z (Z.of_nat (pairings_size p)))%Q)
  /\ (0 <= quality (paired_ratio_of amin p))%Q
  /\ (pairings_size p <= potential_pairings p -> (quality (paired_ratio_of amin p) <= 1)%Q)
  /\ (hard_discard (paired_ratio_of amin p) = true <->
      (quality (paired_ratio_of amin p) < amin)%Q).
Proof.
  unfold paired_ratio_of; cbn [quality hard_discard].
  assert (Hn0 : forall n, n <> 0 -> ~ (inject_Z (Z.of_nat n) == 0)%Q).
  { intros n Hn H. unfold Qeq, inject_Z in H. cbn in H. lia. }
  assert (Hpos : forall n, n <> 0 -> (0 < inject_Z (Z.of_nat n))%Q).
  { intros n Hn. unfold Qlt, inject_Z. cbn. lia. }
  split; [intros ->; reflexivity|].
  split.
  { intro Hn. destruct (Nat.eqb_spec (potential_pairings p) 0); [contradiction|].
    field. apply Hn0. exact Hn. }
  split.
  { destruct (Nat.eqb_spec (potential_pairings p) 0); [lra|].
    apply Qle_shift_div_l; [apply Hpos; assumption|].
    rewrite Qmult_0_l. change 0%Q with (inject_Z 0). rewrite <- Zle_Qle. lia. }
  split.
  { intro Hle. destruct (Nat.eqb_spec (potential_pairings p) 0); [lra|].
    apply Qle_shift_div_r; [apply Hpos; assumption|].
    rewrite Qmult_1_l. rewrite <- Zle_Qle. lia. }
  apply Qltb_lt.
Qed.
End PR.
