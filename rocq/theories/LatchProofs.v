(** Proofs for C16 over whole runs of ICP::align. *)
From Verif Require Import Base PairingsModel MatcherModel SolverModel QualityModel IcpModel PipelineProofs IcpSpec IcpProofs LatchSpec.

Section LatchProofs.
Context {PP PL PN LL NN W Env Pose : Type}.
Notation pairings := (Pairings PP PL PN LL NN W).
Notation event := (@Event PP PL PN LL NN W Pose).
Notation solver := (Solver Env Pose pairings).
Notation components := (@Components PP PL PN LL NN W Env Pose).
Variable pose_minus : Pose -> Pose -> Pose.
Variable log_norms : Pose -> Q * Q.
Variable tnorm : Pose -> Q.
Variable realize : nat -> Env -> res Env.
Variable fresh : Env -> Env.
Variable c : components.
Variable p : IcpParams.
Variable guess : Pose.
Variable calls : Env -> list nat.
Variable s : solver.
Variable rest : list solver.
Hypothesis Hss : c_solvers c = s :: rest.
Hypothesis Hid : ~ In (s_id s) (map s_id rest).
Hypothesis HL : logs_calls_of realize fresh calls s rest c.

Notation small := (small_correction pose_minus tnorm guess s).
Notation finished := (finished_in pose_minus tnorm guess s).
Notation thr := (s_runUntilTranslationCorrectionSmallerThan s).

Lemma matchers_silent (ms : list (@Matcher PP PL PN LL NN W Env Pose)) it q : forall env acc env' out,
  Forall (fun m => forall k q env out,
    silent calls (fun a => fst (fst a)) env (m_impl_match m k q env out)) ms ->
  run_matchers_loop ms it q env acc = Ok (env', out) -> calls env' = calls env.
Proof.
  induction ms as [|m ms IH]; intros env acc env' out HF H; cbn [run_matchers_loop] in H.
  - injection H as <- _. reflexivity.
  - inversion HF as [|? ? Hm HF']; subst.
    unfold matcher_match in H. destruct (matcher_gate m it).
    + destruct (m_impl_match m it q env pairings_empty_ctor) as [[[e1 b] pc]| |] eqn:E;
        cbn [rbind] in H; try discriminate.
      specialize (Hm _ _ _ _ _ E). cbn [fst] in Hm. rewrite <- Hm. eapply IH; eauto.
    + cbn [rbind] in H. eapply IH; eauto.
Qed.

Lemma eval_silent (es : list (@Evaluator Env Pose pairings)) q f : forall env a b r,
  Forall (fun e => forall q f env,
    silent calls fst env (e_evaluate e q f env)) es ->
  evaluate_loop es q f env a b = Ok r -> calls (fst r) = calls env.
Proof.
  induction es as [|e es IH]; intros env a b r HF H; cbn [evaluate_loop] in H.
  - injection H as <-. reflexivity.
  - inversion HF as [|? ? Hm HF']; subst.
    destruct (Qltb 0 (relativeWeight e)); [|discriminate].
    destruct (e_evaluate e q f env) as [[e1 er]| |] eqn:E; cbn [rbind] in H; try discriminate.
    specialize (Hm _ _ _ _ E). cbn [fst] in Hm. rewrite <- Hm.
    destruct (hard_discard er).
    + injection H as <-. reflexivity.
    + eapply IH; eauto.
Qed.

Lemma quality_silent q f env r :
  evaluate_quality (c_evaluators c) q f env = Ok r -> calls (fst r) = calls env.
Proof.
  pose proof (lc_evaluators _ _ _ _ _ _ HL) as HF.
  unfold evaluate_quality. destruct (c_evaluators c) as [|e es] eqn:Ee; [discriminate|].
  destruct (evaluate_loop (e :: es) q f env 0 0) as [[e1 [[sw se]|]]| |] eqn:E;
    cbn [rbind]; try discriminate.
  - destruct (Qltb 0 sw); [|discriminate]. intro H. injection H as <-.
    apply (eval_silent _ _ _ _ _ _ _ HF E).
  - intro H. injection H as <-. apply (eval_silent _ _ _ _ _ _ _ HF E).
Qed.

Lemma is_latched_cons x l : x <> s_id s -> is_latched (x :: l) s = is_latched l s.
Proof.
  intro H. unfold is_latched. cbn [existsb].
  replace (s_id s =? x) with false by (symmetry; apply Nat.eqb_neq; congruence). reflexivity.
Qed.

Lemma latch_gate_other (s' : solver) sc l :
  s_id s' <> s_id s -> is_latched (snd (solver_latch_gate tnorm s' sc l)) s = is_latched l s.
Proof.
  intro H. unfold solver_latch_gate.
  destruct (Qltb 0 _); [|reflexivity].
  destruct (is_latched l s'); [reflexivity|].
  destruct (sc_lastIcpStepIncrement sc) as [d|]; [|reflexivity].
  destruct (Qltb (tnorm d) _); [|reflexivity]. cbn [snd]. apply is_latched_cons, H.
Qed.

Lemma rest_silent f sc : forall (ss : list solver), incl ss rest -> forall out l env r,
  run_solvers tnorm ss f out sc l env = Ok r ->
  calls (fst (fst (fst r))) = calls env /\ is_latched (snd (fst (fst r))) s = is_latched l s.
Proof.
  pose proof (lc_others _ _ _ _ _ _ HL) as HF. rewrite Forall_forall in HF.
  induction ss as [|s' ss IH]; intros Hi out l env r H; cbn [run_solvers] in H.
  - injection H as <-. auto.
  - assert (In s' rest) as Hin by (apply Hi; left; reflexivity).
    assert (s_id s' <> s_id s) as Hne
      by (intro E; apply Hid; rewrite <- E; apply in_map; exact Hin).
    assert (incl ss rest) as Hi' by (intros x Hx; apply Hi; right; exact Hx).
    unfold solver_optimal_pose in H.
    destruct (solver_iter_gate s' (sc_icpIteration sc)).
    2:{ cbn [rbind] in H. apply (IH Hi' _ _ _ _ H). }
    pose proof (latch_gate_other s' sc l Hne) as HL'.
    destruct (solver_latch_gate tnorm s' sc l) as [run l1]. cbn [snd] in HL'.
    destruct run.
    2:{ cbn [rbind] in H. destruct (IH Hi' _ _ _ _ H) as [A B]. rewrite B. auto. }
    destruct (s_impl s' sc f env out) as [[[e1 ok] o1]| |] eqn:E; cbn [rbind] in H; try discriminate.
    pose proof (HF _ Hin _ _ _ _ _ E) as Hc. cbn [fst] in Hc.
    destruct ok.
    + injection H as <-. cbn [fst snd]. auto.
    + destruct (IH Hi' _ _ _ _ H) as [A B]. rewrite A, B. auto.
Qed.

Lemma window_gate k : solver_iter_gate s (Some k) = true <-> window_open s k.
Proof.
  unfold solver_iter_gate, window_open. destruct (s_enabled s); cbn [negb].
  2:{ split; [discriminate|intros [E _]; discriminate]. }
  destruct (Nat.ltb_spec k (s_runFromIteration s)).
  { split; [discriminate|intros [_ [H1 _]]; lia]. }
  destruct (Nat.ltb_spec 0 (s_runUpToIteration s)); cbn [andb].
  - destruct (Nat.ltb_spec (s_runUpToIteration s) k).
    + split; [discriminate|intros [_ [_ H2]]; lia].
    + split; [intros _; split; [reflexivity|split; lia]|reflexivity].
  - split; [intros _; split; [reflexivity|split; lia]|reflexivity].
Qed.

(** The whole solving stage of one iteration. *)
Lemma stage_spec f sc k out l env r :
  sc_icpIteration sc = Some k ->
  run_solvers tnorm (c_solvers c) f out sc l env = Ok r ->
  let fin := is_latched (snd (fst (fst r))) s in
  let smallnow := match sc_lastIcpStepIncrement sc with
                  | Some d => (tnorm d < thr)%Q | None => False end in
  (fin = true <-> is_latched l s = true \/ (window_open s k /\ (0 < thr)%Q /\ smallnow))
  /\ ((window_open s k /\ ~ ((0 < thr)%Q /\ fin = true)
       /\ calls (fst (fst (fst r))) = k :: calls env)
      \/ (~ (window_open s k /\ ~ ((0 < thr)%Q /\ fin = true))
          /\ calls (fst (fst (fst r))) = calls env)).
Proof.
  intros Hk H. rewrite Hss in H. cbn [run_solvers] in H. cbv zeta.
  unfold solver_optimal_pose in H. rewrite Hk in H.
  destruct (solver_iter_gate s (Some k)) eqn:Eg.
  2:{ cbn [rbind] in H. assert (~ window_open s k) as Hn
        by (intro Hw; apply window_gate in Hw; congruence).
      destruct (rest_silent f sc rest (incl_refl _) _ _ _ _ H) as [A B]. rewrite A, B.
      split; [tauto|]. right. tauto. }
  apply window_gate in Eg.
  assert (forall o l' env1 r', run_solvers tnorm rest f o sc l' env1 = Ok r' ->
    calls (fst (fst (fst r'))) = calls env1 /\ is_latched (snd (fst (fst r'))) s = is_latched l' s)
    as HR by (intros; eapply rest_silent; [apply incl_refl|eassumption]).
  assert (forall (l' : list nat) r', 
    (let* r := (let* r := s_impl s sc f env out in let '(env', ok, out') := r in Ok (env', l', ok, out')) in
     let '(env', latched', ok, out') := r in
     if ok then Ok (env', latched', true, out') else run_solvers tnorm rest f out' sc latched' env') = Ok r' ->
    calls (fst (fst (fst r'))) = k :: calls env /\ is_latched (snd (fst (fst r'))) s = is_latched l' s) as HRun.
  { intros l' r' E. destruct (s_impl s sc f env out) as [[[e1 ok] o1]| |] eqn:Ei; cbn [rbind] in E; try discriminate.
    pose proof (lc_self _ _ _ _ _ _ HL _ _ _ _ _ Ei) as Hc. rewrite Hk in Hc. cbn [fst app] in Hc.
    destruct ok.
    - injection E as <-. cbn [fst snd]. auto.
    - destruct (HR _ _ _ _ E) as [A B]. rewrite A, B. auto. }
  unfold solver_latch_gate in H. destruct (Qltb 0 thr) eqn:Et.
  - apply Qltb_lt in Et. destruct (is_latched l s) eqn:El.
    + cbn [rbind] in H. destruct (HR _ _ _ _ H) as [A B]. rewrite A, B, El.
      split; [tauto|]. right. tauto.
    + destruct (sc_lastIcpStepIncrement sc) as [d|].
      * destruct (Qltb (tnorm d) thr) eqn:Ed.
        { apply Qltb_lt in Ed. cbn [rbind] in H. destruct (HR _ _ _ _ H) as [A B]. rewrite A, B.
          assert (is_latched (s_id s :: l) s = true) as E1.
          { unfold is_latched. cbn [existsb]. rewrite Nat.eqb_refl. reflexivity. }
          rewrite E1. split; [tauto|]. right. tauto. }
        { destruct (HRun _ _ H) as [A B]. rewrite A, B, El.
          assert (~ (tnorm d < thr)%Q) as Hn by (intro Hx; apply Qltb_lt in Hx; congruence).
          split; [split; [discriminate|tauto]|]. left. intuition congruence. }
      * destruct (HRun _ _ H) as [A B]. rewrite A, B, El.
        split; [split; [discriminate|tauto]|]. left. intuition congruence.
  - assert (~ (0 < thr)%Q) as Hn by (intro Hx; apply Qltb_lt in Hx; congruence).
    destruct (HRun _ _ H) as [A B]. rewrite A, B.
    split; [tauto|]. left. tauto.
Qed.

(** ** The invariant *)
Definition called_right (cl : list nat) (tr : list event) : Prop :=
  forall pre k u ok o post, tr = pre ++ EvSolve k u ok o :: post ->
    (In k cl <-> window_open s k
                 /\ ~ ((0 < thr)%Q /\ finished (pre ++ [EvSolve k u ok o]))).

Definition core (n : nat) (cl : list nat) (tr : list event) (l : list nat) : Prop :=
  Forall (fun k => k < n) cl
  /\ Forall (fun e => event_iter e < n) tr
  /\ (is_latched l s = true <-> (0 < thr)%Q /\ finished tr)
  /\ called_right cl tr.

Definition lastc (tr : list event) : option Pose :=
  match iterates guess tr with cur :: prev :: _ => Some (pose_minus cur prev) | _ => None end.

Definition is_solve (e : event) : Prop := match e with EvSolve _ _ _ _ => True | _ => False end.

Lemma finished_snoc_other tr e : ~ is_solve e -> (finished (tr ++ [e]) <-> finished tr).
Proof.
  intro He. split; intros (pre & k & u & ok & o & post & E & H).
  - apply snoc_split in E as [[-> [-> E]]|[post' [-> E]]].
    + exfalso. apply He. rewrite <- E. exact I.
    + do 6 eexists. split; [exact E|exact H].
  - subst tr. exists pre, k, u, ok, o, (post ++ [e]). rewrite <- app_assoc. split; [reflexivity|exact H].
Qed.

Lemma finished_snoc_solve tr k u ok o :
  finished (tr ++ [EvSolve k u ok o]) <-> finished tr \/ (window_open s k /\ small tr).
Proof.
  split.
  - intros (pre & k' & u' & ok' & o' & post & E & H).
    apply snoc_split in E as [[-> [-> E]]|[post' [-> E]]].
    + injection E as -> -> -> ->. right. exact H.
    + left. do 6 eexists. split; [exact E|exact H].
  - intros [(pre & k' & u' & ok' & o' & post & E & H)|H].
    + subst tr. exists pre, k', u', ok', o', (post ++ [EvSolve k u ok o]).
      rewrite <- app_assoc. split; [reflexivity|exact H].
    + exists tr, k, u, ok, o, []. split; [reflexivity|exact H].
Qed.

Lemma core_mono n m cl tr l : n <= m -> core n cl tr l -> core m cl tr l.
Proof.
  intros Hm (A & B & C & D). split; [|split; [|split; assumption]];
    (eapply Forall_impl; [|eassumption]); cbn; intros; lia.
Qed.

Lemma core_snoc_other n cl tr l e : ~ is_solve e -> event_iter e < n ->
  core n cl tr l -> core n cl (tr ++ [e]) l.
Proof.
  intros He Hn (A & B & C & D). split; [exact A|]. split; [|split].
  - apply Forall_app. split; [exact B|]. constructor; [exact Hn|constructor].
  - rewrite C, finished_snoc_other by exact He. tauto.
  - intros pre k u ok o post E. apply snoc_split in E as [[-> [-> E]]|[post' [-> E]]].
    + exfalso. apply He. rewrite <- E. exact I.
    + eapply D; exact E.
Qed.

Lemma small_iff tr : small tr <-> match lastc tr with Some d => (tnorm d < thr)%Q | None => False end.
Proof. unfold small_correction, lastc. destruct (iterates guess tr) as [|a [|b r]]; tauto. Qed.

(** One solving stage at iteration [n]: from "everything before [n]". *)
Lemma core_solve n tr l env sc f out r :
  sc_icpIteration sc = Some n -> sc_lastIcpStepIncrement sc = lastc tr ->
  Forall (fun k => k < n) (calls env) ->
  (forall pre k u ok o post, tr = pre ++ EvSolve k u ok o :: post -> k < n) ->
  core (S n) (calls env) tr l ->
  run_solvers tnorm (c_solvers c) f out sc l env = Ok r ->
  forall u ok o, core (S n) (calls (fst (fst (fst r)))) (tr ++ [EvSolve n u ok o]) (snd (fst (fst r))).
Proof.
  intros Hn Hd Hlt Hev (A & B & C & D) HR u ok o.
  destruct (stage_spec _ _ _ _ _ _ _ Hn HR) as [HF HC]. cbv zeta in HF, HC. rewrite Hd in HF.
  rewrite <- small_iff in HF.
  assert (is_latched (snd (fst (fst r))) s = true <->
          (0 < thr)%Q /\ finished (tr ++ [EvSolve n u ok o])) as HF'.
  { rewrite finished_snoc_solve, HF, C. tauto. }
  split; [|split; [|split]].
  - destruct HC as [(_ & _ & ->)|(_ & ->)]; [constructor; [lia|]|]; exact A.
  - apply Forall_app. split; [exact B|]. constructor; [cbn; lia|constructor].
  - exact HF'.
  - rewrite Forall_forall in Hlt.
    intros pre k u' ok' o' post E. apply snoc_split in E as [[-> [-> E]]|[post' [-> E]]].
    + injection E as -> -> -> ->. rewrite <- HF'.
      destruct HC as [(H1 & H2 & ->)|(H1 & ->)].
      * split; [intros _; tauto|intros _; left; reflexivity].
      * split; [intro Hin; apply Hlt in Hin; lia|tauto].
    + pose proof (D _ _ _ _ _ _ E) as HD. pose proof (Hev _ _ _ _ _ _ E) as Hk.
      destruct HC as [(_ & _ & ->)|(_ & ->)]; [|exact HD].
      cbn [In]. rewrite <- HD. split; [intros [-> | Hx]; [lia|exact Hx]|auto].
Qed.

Notation loopstate := (@LoopState PP PL PN LL NN W Env Pose).
Definition J (n : nat) (st : loopstate) : Prop :=
  core n (calls (l_env st)) (l_trace st) (l_latched st)
  /\ l_lastCorrection st = lastc (l_trace st)
  /\ l_prev st = last_pose guess (l_trace st)
  /\ optimalPose (l_sol st) = last_pose guess (l_trace st).

Notation iterb hl := (iter_body pose_minus log_norms tnorm realize fresh c p hl guess).

Lemma lastc_snoc_solve tr k u o :
  lastc (tr ++ [EvSolve k u true o]) = Some (pose_minus (optimalPose o) (last_pose guess tr)).
Proof.
  unfold lastc. rewrite iterates_snoc_solve.
  destruct (iterates_hd guess tr) as [r ->]. reflexivity.
Qed.
Lemma lastc_snoc_other tr e :
  (match e with EvSolve _ _ true _ => False | _ => True end) -> lastc (tr ++ [e]) = lastc tr.
Proof. intro H. unfold lastc. rewrite iterates_snoc_other by exact H. reflexivity. Qed.

Lemma hook_body_case n st h e1 stop :
  c_hook c = Some h -> h n (l_pairings st) (l_sol st) (l_env st) = Ok (e1, stop) ->
  calls e1 = calls (l_env st).
Proof. intros Hh E. apply (lc_hook _ _ _ _ _ _ HL h Hh _ _ _ _ _ E). Qed.

Lemma tail_J n st st' o :
  iter_tail realize c p n st = Ok (st', o) ->
  core (S n) (calls (l_env st)) (l_trace st) (l_latched st) ->
  l_lastCorrection st = lastc (l_trace st) ->
  optimalPose (l_sol st) = last_pose guess (l_trace st) ->
  core (S n) (calls (l_env st')) (l_trace st') (l_latched st') /\ (o = None -> J (S n) st').
Proof.
  intros H HC Hlc Hp. unfold iter_tail in H.
  set (cur := optimalPose (l_sol st)) in *.
  set (roll := fun st : loopstate => mkLoop (l_env st) (l_sol st) (l_pairings st) cur
        (Some (l_prev st)) (l_lastCorrection st) (l_latched st) (l_details st) (l_trace st)) in *.
  (* the hook part, from any intermediate state *)
  assert (forall st1 st2 o2, 
     core (S n) (calls (l_env st1)) (l_trace st1) (l_latched st1) ->
     l_lastCorrection st1 = lastc (l_trace st1) ->
     l_sol st1 = l_sol st -> last_pose guess (l_trace st1) = last_pose guess (l_trace st) ->
     match c_hook c with
     | None => Ok (roll st1, None)
     | Some h =>
       let* r := h n (l_pairings st1) (l_sol st1) (l_env st1) in
       let '(env', stop) := r in
       let st' := mkLoop env' (l_sol st1) (l_pairings st1) (l_prev st1) (l_prev2 st1)
           (l_lastCorrection st1) (l_latched st1) (l_details st1)
           (l_trace st1 ++ [EvHook n (optimalPose (l_sol st1)) (l_pairings st1) stop]) in
       if stop then Ok (st', Some HookRequest) else Ok (roll st', None)
     end = Ok (st2, o2) ->
     core (S n) (calls (l_env st2)) (l_trace st2) (l_latched st2) /\ (o2 = None -> J (S n) st2)) as HH.
  { intros st1 st2 o2 HC1 Hl1 Hs1 Hp1 E. destruct (c_hook c) as [h|] eqn:Eh.
    - destruct (h n (l_pairings st1) (l_sol st1) (l_env st1)) as [[e1 stop]| |] eqn:E1;
        cbn [rbind] in E; try discriminate.
      pose proof (lc_hook _ _ _ _ _ _ HL h Eh _ _ _ _ _ E1) as Hc. cbn [fst] in Hc.
      assert (core (S n) (calls e1)
        (l_trace st1 ++ [EvHook n (optimalPose (l_sol st1)) (l_pairings st1) stop]) (l_latched st1)) as HC2.
      { rewrite Hc. apply core_snoc_other; [intros []|cbn; lia|exact HC1]. }
      destruct stop; injection E as <- <-; cbn [l_env l_trace l_latched roll].
      + split; [exact HC2|discriminate].
      + split; [exact HC2|]. intros _. unfold J. cbn [l_env l_trace l_latched l_lastCorrection l_prev l_sol roll].
        split; [exact HC2|]. rewrite lastc_snoc_other, last_pose_hook by exact I. rewrite Hs1, Hp1. auto.
    - injection E as <- <-. cbn [l_env l_trace l_latched roll]. split; [exact HC1|]. intros _.
      unfold J. cbn [l_env l_trace l_latched l_lastCorrection l_prev l_sol roll].
      split; [exact HC1|]. rewrite Hs1, Hp1. auto. }
  destruct (find_checkpoint (quality_checkpoints p) n) as [mq|].
  - destruct (realize n (l_env st)) as [env1| |] eqn:Er; cbn [rbind] in H; try discriminate.
    destruct (evaluate_quality (c_evaluators c) cur (l_pairings st) env1) as [[env2 q]| |] eqn:Eq;
      cbn [rbind] in H; try discriminate.
    pose proof (quality_silent _ _ _ _ Eq) as Hq. cbn [fst] in Hq.
    pose proof (lc_realize _ _ _ _ _ _ HL _ _ _ Er) as Hr. cbn beta in Hr.
    assert (core (S n) (calls env2) (l_trace st ++ [EvQuality n cur (l_pairings st) q]) (l_latched st)) as HC2.
    { rewrite Hq, Hr. apply core_snoc_other; [intros []|cbn; lia|exact HC]. }
    destruct (Qltb q mq).
    + injection H as <- <-. cbn [l_env l_trace l_latched]. split; [exact HC2|discriminate].
    + revert H. apply HH; cbn [l_env l_trace l_latched l_lastCorrection l_sol]; auto.
      * rewrite lastc_snoc_other by exact I. exact Hlc.
      * apply last_pose_qual.
  - revert H. apply HH; auto.
Qed.

Lemma body_J hl n st st' o : J n st -> iterb hl n st = Ok (st', o) ->
  core (S n) (calls (l_env st')) (l_trace st') (l_latched st') /\ (o = None -> J (S n) st').
Proof.
  intros (HC & Hlc & Hpr & Hp) H. unfold iter_body in H.
  destruct (realize n (l_env st)) as [env1| |] eqn:Er; cbn [rbind] in H; try discriminate.
  destruct (run_matchers (c_matchers c) n (optimalPose (l_sol st)) (fresh env1)) as [[env2 found]| |] eqn:Em;
    cbn [rbind] in H; try discriminate.
  pose proof (lc_realize _ _ _ _ _ _ HL _ _ _ Er) as Hr. cbn beta in Hr.
  pose proof (matchers_silent _ _ _ _ _ _ _ (lc_matchers _ _ _ _ _ _ HL) Em) as Hm.
  rewrite (lc_fresh _ _ _ _ _ _ HL) in Hm.
  assert (calls env2 = calls (l_env st)) as He2 by congruence.
  set (tr1 := l_trace st ++ [EvMatch n (optimalPose (l_sol st)) found]) in *.
  assert (core (S n) (calls env2) tr1 (l_latched st)) as HC1.
  { rewrite He2. apply core_snoc_other; [intros []|cbn; lia|]. eapply core_mono; [|exact HC]. lia. }
  destruct (pairings_empty found).
  { injection H as <- <-. cbn [l_env l_trace l_latched]. split; [exact HC1|discriminate]. }
  match type of H with context [run_solvers tnorm _ _ _ ?sc _ _] => set (sc0 := sc) in * end.
  destruct (run_solvers tnorm (c_solvers c) found (l_sol st) sc0 (l_latched st) env2)
    as [[[[env3 l3] ok] sol']| |] eqn:Es; cbn [rbind] in H; try discriminate.
  assert (lastc tr1 = lastc (l_trace st)) as Hl1 by (apply lastc_snoc_other; exact I).
  assert (last_pose guess tr1 = last_pose guess (l_trace st)) as Hp1 by apply last_pose_match.
  assert (core (S n) (calls env3) (tr1 ++ [EvSolve n found ok sol']) l3) as HC2.
  { refine (core_solve n tr1 (l_latched st) env2 sc0 found (l_sol st) _ eq_refl _ _ _ HC1 Es found ok sol').
    - cbn [sc0 sc_lastIcpStepIncrement]. congruence.
    - rewrite He2. apply HC.
    - intros pre k u ok' o' post E. apply snoc_split in E as [[-> [-> E]]|[post' [-> E]]]; [discriminate|].
      destruct HC as (_ & HB & _). rewrite Forall_forall in HB.
      specialize (HB (EvSolve k u ok' o')). cbn in HB. apply HB. rewrite E.
      apply in_or_app. right. left. reflexivity. }
  destruct ok; cbn [negb] in H.
  2:{ injection H as <- <-. cbn [l_env l_trace l_latched]. split; [exact HC2|discriminate]. }
  match type of H with (if ?b then _ else _) = _ => destruct b; [discriminate|] end.
  assert (Some (pose_minus (optimalPose sol') (l_prev st)) = lastc (tr1 ++ [EvSolve n found true sol'])) as Hl2.
  { rewrite lastc_snoc_solve, Hp1, Hpr. reflexivity. }
  match type of H with (if ?b then _ else _) = _ => destruct b end.
  { injection H as <- <-. cbn [l_env l_trace l_latched]. split; [exact HC2|discriminate]. }
  revert H. intro H. eapply tail_J; [exact H| | |]; cbn [l_env l_trace l_latched l_lastCorrection l_sol].
  - exact HC2.
  - exact Hl2.
  - symmetry. apply last_pose_solve.
Qed.

Lemma loop_J hl fuel : forall n st st' m r, J n st ->
  icp_loop pose_minus log_norms tnorm realize fresh c p hl guess fuel n st = Ok (st', m, r) ->
  called_right (calls (l_env st')) (l_trace st').
Proof.
  induction fuel as [|fuel IH]; intros n st st' m r HJ H; cbn [icp_loop] in H.
  - injection H as <- _ _. apply HJ.
  - destruct (iterb hl n st) as [[st1 o]| |] eqn:E; cbn [rbind] in H; try discriminate.
    destruct (body_J _ _ _ _ _ HJ E) as [HC HN]. destruct o as [rs|].
    + injection H as <- _ _. apply HC.
    + eapply IH; [apply HN; reflexivity|exact H].
Qed.

Lemma align_latch ge le dbg env env' (r : @IcpResults PP PL PN LL NN W Pose) :
  calls env = [] ->
  align pose_minus log_norms tnorm realize fresh c p ge le dbg guess env = Ok (env', r) ->
  called_right (calls env') (r_loopTrace r).
Proof.
  intros H0 H. unfold align in H.
  match type of H with (if ?b then _ else _) = _ => destruct b; [discriminate|] end.
  match type of H with rbind ?l _ = _ => destruct l as [[[st n] reason]| |] eqn:E end;
    cbn [rbind] in H; try discriminate.
  destruct (realize n (l_env st)) as [env1| |] eqn:Er; cbn [rbind] in H; try discriminate.
  match type of H with rbind ?l _ = _ => destruct l as [[env2 q]| |] eqn:Eq end;
    cbn [rbind] in H; try discriminate.
  injection H as <- <-. cbn [r_loopTrace].
  pose proof (quality_silent _ _ _ _ Eq) as Hq. cbn [fst] in Hq.
  pose proof (lc_realize _ _ _ _ _ _ HL _ _ _ Er) as Hr. cbn beta in Hr.
  rewrite Hq, Hr. refine (loop_J _ _ _ _ _ _ _ _ E).
  unfold J, core. cbn [l_env l_trace l_latched l_lastCorrection l_prev l_sol optimalPose].
  rewrite H0. split; [|auto]. split; [constructor|]. split; [constructor|]. split.
  - split; [discriminate|]. intros [_ (pre & k & u & ok & o & post & E1 & _)]. destruct pre; discriminate.
  - intros pre k u ok o post E1. destruct pre; discriminate.
Qed.
End LatchProofs.
