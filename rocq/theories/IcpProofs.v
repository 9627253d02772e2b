From Verif Require Import Base PairingsModel PairingsProofs MatcherModel SolverModel QualityModel IcpModel
  PipelineSpec PipelineProofs IcpSpec.
From Coq Require Import Lqa.

Lemma find_checkpoint_of p n : find_checkpoint (quality_checkpoints p) n = checkpoint_of p n.
Proof.
  unfold checkpoint_of. induction (quality_checkpoints p) as [|[k v] l IH]; [reflexivity|]. cbn [find_checkpoint find fst].
  destruct (Nat.eqb k n); [reflexivity|exact IH].
Qed.


Section IcpProofs.
Context {PP PL PN LL NN W Env Pose : Type}.
Notation pairings := (Pairings PP PL PN LL NN W).
Notation event := (@Event PP PL PN LL NN W Pose).
Variable pose_minus : Pose -> Pose -> Pose.
Variable log_norms : Pose -> Q * Q.
Variable tnorm : Pose -> Q.
Variable realize : nat -> Env -> res Env.
Variable fresh_match_state : Env -> Env.
Hypothesis norms_nonneg : forall x, (0 <= fst (log_norms x) /\ 0 <= snd (log_norms x))%Q.
Notation components := (@Components PP PL PN LL NN W Env Pose).
Notation loopstate := (@LoopState PP PL PN LL NN W Env Pose).

Notation body := (iter_body pose_minus log_norms tnorm realize fresh_match_state).
Notation loop := (icp_loop pose_minus log_norms tnorm realize fresh_match_state).
Notation ends' := (ends pose_minus log_norms).

Lemma qabs_nonneg a : (0 <= a)%Q -> qabs a = a.
Proof. intro H. unfold qabs. apply Qltb_ge in H. rewrite H. reflexivity. Qed.

Lemma qmin_lt a b e : Qltb (qmin a b) e = true <-> (a < e \/ b < e)%Q.
Proof.
  unfold qmin. destruct (Qltb b a) eqn:E.
  - apply Qltb_lt in E. rewrite Qltb_lt. split; [auto|]. intros [H|H]; lra.
  - apply Qltb_ge in E. rewrite Qltb_lt. split; [auto|]. intros [H|H]; lra.
Qed.

Lemma qmin_nonneg a b : (0 <= a)%Q -> (0 <= b)%Q -> (0 <= qmin a b)%Q.
Proof. intros. unfold qmin. destruct (Qltb b a); assumption. Qed.

Lemma is_stalled_iff p cur prev prev2 rest :
  is_stalled p (increments pose_minus log_norms cur prev prev2) = true <->
  stall_criterion pose_minus log_norms p
    (prev :: match prev2 with None => [] | Some q => q :: rest end) cur.
Proof.
  unfold is_stalled, increments, stall_criterion, trans_step, rot_step.
  pose proof (norms_nonneg (pose_minus cur prev)) as Hn1.
  destruct (log_norms (pose_minus cur prev)) as [dx dr] eqn:E1. cbn in Hn1.
  destruct prev2 as [q2|].
  - pose proof (norms_nonneg (pose_minus cur q2)) as Hn2.
    destruct (log_norms (pose_minus cur q2)) as [dx2 dr2] eqn:E2. cbn in Hn2.
    cbn [fst snd firstn].
    rewrite !qabs_nonneg by (apply qmin_nonneg; tauto).
    rewrite andb_true_iff, !qmin_lt.
    split.
    + intros [[Ha|Ha] [Hb|Hb]]; split;
      match goal with
      | H : (?a < _)%Q |- exists q, _ /\ (_ < minAbsStep_trans _)%Q =>
        first [exists prev; rewrite E1; split; [left; reflexivity|assumption]
              |exists q2; rewrite E2; split; [right; left; reflexivity|assumption]]
      | H : (?a < _)%Q |- exists q, _ /\ (_ < minAbsStep_rot _)%Q =>
        first [exists prev; rewrite E1; split; [left; reflexivity|assumption]
              |exists q2; rewrite E2; split; [right; left; reflexivity|assumption]]
      end.
    + intros [[q [Hq Ha]] [q' [Hq' Hb]]]. split.
      * destruct Hq as [<-|[<-|[]]]; [rewrite E1 in Ha|rewrite E2 in Ha]; cbn in Ha; auto.
      * destruct Hq' as [<-|[<-|[]]]; [rewrite E1 in Hb|rewrite E2 in Hb]; cbn in Hb; auto.
  - cbn [fst snd firstn]. rewrite !qabs_nonneg by tauto.
    rewrite andb_true_iff, !Qltb_lt. split.
    + intros [Ha Hb]. split; exists prev; rewrite E1; split; auto; left; reflexivity.
    + intros [[q [[<-|[]] Ha]] [q' [[<-|[]] Hb]]]. rewrite E1 in *. auto.
Qed.

(** ** Traces *)
Implicit Types (tr : list event) (e : event).
Section Fix.
Variable c : components.
Variable p : IcpParams.
Variable hasLog : bool.
Variable guess : Pose.
Notation hasHook := (match c_hook c with Some _ => true | None => false end).

Definition good (tr : list event) : Prop :=
  forall pre e post, tr = pre ++ e :: post ->
    right_arguments guess pre e /\ forall r, ~ ends' p guess pre e r.

Definition args_ok (tr : list event) : Prop :=
  forall pre e post, tr = pre ++ e :: post -> right_arguments guess pre e.

Lemma snoc_split {A} (tr : list A) (x e : A) (pre post : list A) :
  tr ++ [x] = pre ++ e :: post ->
  (post = [] /\ pre = tr /\ e = x) \/ (exists post', post = post' ++ [x] /\ tr = pre ++ e :: post').
Proof.
  intro H. destruct (exists_last (l := e :: post)) as [l [y Hl]]; [discriminate|].
  rewrite Hl, app_assoc in H. apply app_inj_tail in H as [-> ->].
  destruct l as [|z l].
  - left. cbn in Hl. injection Hl as -> ->. rewrite app_nil_r. auto.
  - right. cbn in Hl. injection Hl as -> ->. exists l. auto.
Qed.

Lemma good_snoc tr e :
  good tr -> right_arguments guess tr e -> (forall r, ~ ends' p guess tr e r) -> good (tr ++ [e]).
Proof.
  intros Hg Ha Hn pre x post H. apply snoc_split in H as [[-> [-> ->]]|[post' [-> H]]].
  - auto.
  - eapply Hg; exact H.
Qed.

Lemma good_args tr : good tr -> args_ok tr.
Proof. intros H pre e post E. eapply H; exact E. Qed.

Lemma args_snoc tr e : args_ok tr -> right_arguments guess tr e -> args_ok (tr ++ [e]).
Proof.
  intros Hg Ha pre x post H. apply snoc_split in H as [[-> [-> ->]]|[post' [-> H]]].
  - exact Ha.
  - eapply Hg; exact H.
Qed.

Lemma solved_snoc tr e :
  solved (tr ++ [e]) = solved tr ++
    (match e with EvSolve _ _ true out => [optimalPose out] | _ => [] end).
Proof. unfold solved. rewrite flat_map_app. cbn. rewrite app_nil_r. reflexivity. Qed.

Lemma last_snoc {A} (l : list A) x d : last (l ++ [x]) d = x.
Proof. apply last_last. Qed.

Lemma last_pose_match tr k q f : last_pose guess (tr ++ [EvMatch k q f]) = last_pose guess tr.
Proof. unfold last_pose. rewrite solved_snoc, app_nil_r. reflexivity. Qed.
Lemma last_pose_solve tr k u o : last_pose guess (tr ++ [EvSolve k u true o]) = optimalPose o.
Proof. unfold last_pose. rewrite solved_snoc. apply last_snoc. Qed.
Lemma last_pose_qual tr k a b q : last_pose guess (tr ++ [EvQuality k a b q]) = last_pose guess tr.
Proof. unfold last_pose. rewrite solved_snoc, app_nil_r. reflexivity. Qed.
Lemma last_pose_hook tr k a u b : last_pose guess (tr ++ [EvHook k a u b]) = last_pose guess tr.
Proof. unfold last_pose. rewrite solved_snoc, app_nil_r. reflexivity. Qed.

Lemma last_found_snoc (tr : list event) e :
  last_found (tr ++ [e]) = match e with EvMatch _ _ f => f | _ => last_found tr end.
Proof.
  unfold last_found. rewrite flat_map_app. cbn. rewrite app_nil_r.
  destruct e; rewrite ?app_nil_r; try reflexivity. apply last_snoc.
Qed.

Lemma iterates_snoc_other tr e :
  (match e with EvSolve _ _ true _ => False | _ => True end) ->
  iterates guess (tr ++ [e]) = iterates guess tr.
Proof.
  intro H. unfold iterates. rewrite solved_snoc.
  destruct e as [| ? ? [|] ?| |]; try contradiction; rewrite app_nil_r; reflexivity.
Qed.

Lemma iterates_snoc_solve tr k u o :
  iterates guess (tr ++ [EvSolve k u true o]) = optimalPose o :: iterates guess tr.
Proof. unfold iterates. rewrite solved_snoc, rev_app_distr. reflexivity. Qed.

Lemma iterates_hd tr : exists rest, iterates guess tr = last_pose guess tr :: rest.
Proof.
  unfold iterates, last_pose. destruct (solved tr) as [|x l] using rev_ind.
  - exists []. reflexivity.
  - rewrite rev_app_distr, last_snoc. cbn. eauto.
Qed.

Lemma details_snoc st tr e :
  expected_details p st (tr ++ [e]) = expected_details p st tr ++ expected_details p st [e].
Proof.
  unfold expected_details. destruct (saveIterationDetails p); [|reflexivity].
  rewrite flat_map_app. reflexivity.
Qed.

Lemma expected_details_stalled_irrel tr n :
  (forall e, In e tr -> event_iter e <> n) ->
  expected_details p (Some n) tr = expected_details p None tr.
Proof.
  intro H. unfold expected_details. destruct (saveIterationDetails p); [|reflexivity].
  induction tr as [|e tr IH]; [reflexivity|]. cbn [flat_map].
  rewrite IH by (intros x Hx; apply H; right; exact Hx). f_equal.
  destruct e as [| k u [|] o| |]; try reflexivity.
  destruct (Nat.eqb_spec n k) as [->|]; [|reflexivity].
  exfalso. apply (H (EvSolve k u true o)); [left; reflexivity|reflexivity].
Qed.

Definition sched (n : nat) : list kind := flat_map (full_round p hasHook) (seq 0 n).

Lemma sched_S n : sched (S n) = sched n ++ full_round p hasHook n.
Proof. unfold sched. rewrite seq_S, flat_map_app. cbn. rewrite app_nil_r. reflexivity. Qed.

(** Loop invariant at the start of iteration [n]. *)
Record Inv (n : nat) (st : loopstate) : Prop := {
  i_good : good (l_trace st);
  i_kinds : map kind_of (l_trace st) = sched n;
  i_iter : Forall (fun e => event_iter e < n) (l_trace st);
  i_pose : optimalPose (l_sol st) = last_pose guess (l_trace st);
  i_prev : exists rest, iterates guess (l_trace st) =
             l_prev st :: match l_prev2 st with None => [] | Some q => q :: rest end;
  i_pairs : l_pairings st = last_found (l_trace st);
  i_details : l_details st = expected_details p None (l_trace st) }.

(** What holds when the loop is left by `break` at iteration [n] with reason [r]. *)
Record Brk (n : nat) (st : loopstate) (r : IterTermReason) : Prop := {
  b_last : exists pre e, l_trace st = pre ++ [e] /\ good pre /\ right_arguments guess pre e
             /\ ends' p guess pre e r /\ event_iter e = n;
  b_kinds : exists rest, map kind_of (l_trace st) ++ rest = sched (S n);
  b_pose : r <> SolverError -> optimalPose (l_sol st) = last_pose guess (l_trace st);
  b_pose_err : r = SolverError -> exists pre used, l_trace st = pre ++ [EvSolve n used false (l_sol st)];
  b_pairs : l_pairings st = last_found (l_trace st);
  b_details : l_details st =
     expected_details p (match r with Stalled => Some n | _ => None end) (l_trace st) }.


Lemma sched_prefix n : exists rest, sched n ++ rest = sched (S n).
Proof. exists (full_round p hasHook n). symmetry. apply sched_S. Qed.

Lemma no_stall_no_end (pre : list event) k u o :
  ~ stall_criterion pose_minus log_norms p (iterates guess pre) (optimalPose o) ->
  forall r, ~ ends' p guess pre (EvSolve k u true o) r.
Proof. intros H r He. inversion He; subst. contradiction. Qed.

Lemma tail_spec n (st : loopstate) (pre : list event) used st' o :
  (* [st]: state after a successful, not stalled solve at iteration n *)
  good (l_trace st) ->
  map kind_of (l_trace st) = sched n ++ [KMatch n; KSolve n] ->
  Forall (fun e => event_iter e < S n) (l_trace st) ->
  l_trace st = pre ++ [EvSolve n used true (l_sol st)] ->
  (exists rest, iterates guess pre = l_prev st :: rest) ->
  l_pairings st = last_found (l_trace st) ->
  l_details st = expected_details p None (l_trace st) ->
  iter_tail realize c p n st = Ok (st', o) ->
  match o with None => Inv (S n) st' | Some r => Brk n st' r end.
Proof.
  intros Hg Hk Hit Htr [rest0 Hprev] Hpairs Hdet.
  assert (Hpose : optimalPose (l_sol st) = last_pose guess (l_trace st)).
  { rewrite Htr, last_pose_solve. reflexivity. }
  assert (Hits : iterates guess (l_trace st) = optimalPose (l_sol st) :: l_prev st :: rest0).
  { rewrite Htr, iterates_snoc_solve, Hprev. reflexivity. }
  (* the hook part, for any state s1 that extends st with a quality event or nothing *)
  assert (Hhook : forall env1 tr1,
    good tr1 ->
    map kind_of tr1 ++ (if hasHook then [KHook n] else []) = sched (S n) ->
    Forall (fun e => event_iter e < S n) tr1 ->
    last_pose guess tr1 = optimalPose (l_sol st) ->
    iterates guess tr1 = optimalPose (l_sol st) :: l_prev st :: rest0 ->
    last_found tr1 = l_pairings st ->
    expected_details p None tr1 = l_details st ->
    let s1 := mkLoop env1 (l_sol st) (l_pairings st) (l_prev st) (l_prev2 st)
                (l_lastCorrection st) (l_latched st) (l_details st) tr1 in
    match c_hook c with
    | None => Ok (mkLoop (l_env s1) (l_sol s1) (l_pairings s1) (optimalPose (l_sol st))
        (Some (l_prev s1)) (l_lastCorrection s1) (l_latched s1) (l_details s1) (l_trace s1), None)
    | Some h =>
      let* r := h n (l_pairings s1) (l_sol s1) (l_env s1) in
      let '(env', stop) := r in
      let st2 := mkLoop env' (l_sol s1) (l_pairings s1) (l_prev s1) (l_prev2 s1)
           (l_lastCorrection s1) (l_latched s1) (l_details s1)
           (l_trace s1 ++ [EvHook n (optimalPose (l_sol st)) (l_pairings s1) stop]) in
      if stop then Ok (st2, Some HookRequest)
      else Ok (mkLoop (l_env st2) (l_sol st2) (l_pairings st2) (optimalPose (l_sol st))
        (Some (l_prev st2)) (l_lastCorrection st2) (l_latched st2) (l_details st2) (l_trace st2), None)
    end = Ok (st', o) ->
    match o with None => Inv (S n) st' | Some r => Brk n st' r end).
  { intros env1 tr1 G K I P T F D. cbn [l_env l_sol l_pairings l_prev l_prev2 l_lastCorrection
      l_latched l_details l_trace].
    destruct (c_hook c) as [h|].
    - destruct (h n (l_pairings st) (l_sol st) env1) as [[env2 stop]| |]; cbn [rbind]; try discriminate.
      destruct stop; intros [= <- <-].
      + constructor; cbn [l_env l_sol l_pairings l_prev l_prev2 l_lastCorrection l_latched l_details l_trace].
        * exists tr1, (EvHook n (optimalPose (l_sol st)) (l_pairings st) true). refine (conj _ (conj _ (conj _ (conj _ _)))); auto; [split; auto|constructor].
        * exists []. rewrite map_app, app_nil_r. cbn. exact K.
        * intros _. rewrite last_pose_hook. auto.
        * discriminate.
        * rewrite last_found_snoc. auto.
        * rewrite details_snoc, D. unfold expected_details. destruct (saveIterationDetails p); cbn;
            rewrite app_nil_r; reflexivity.
      + constructor; cbn [l_env l_sol l_pairings l_prev l_prev2 l_lastCorrection l_latched l_details l_trace].
        * apply good_snoc; auto; [split; auto|]. intros r Hr. inversion Hr.
        * rewrite map_app. exact K.
        * apply Forall_app. split; [exact I|]. repeat constructor.
        * rewrite last_pose_hook. auto.
        * exists rest0. rewrite iterates_snoc_other by exact Logic.I. exact T.
        * rewrite last_found_snoc. auto.
        * rewrite details_snoc, D. unfold expected_details. destruct (saveIterationDetails p); cbn;
            rewrite app_nil_r; reflexivity.
    - intros [= <- <-]. constructor; cbn [l_env l_sol l_pairings l_prev l_prev2 l_lastCorrection l_latched l_details l_trace]; auto.
      + rewrite <- K, app_nil_r. reflexivity.
      + exists rest0. exact T. }
  unfold iter_tail.
  rewrite find_checkpoint_of. destruct (checkpoint_of p n) as [minq|] eqn:Ec.
  - destruct (realize n (l_env st)) as [env1| |]; cbn [rbind]; try discriminate.
    destruct (evaluate_quality (c_evaluators c) (optimalPose (l_sol st)) (l_pairings st) env1)
      as [[env2 q]| |]; cbn [rbind]; try discriminate.
    destruct (Qltb q minq) eqn:Eq.
    + intros [= <- <-]. apply Qltb_lt in Eq. constructor; cbn [l_env l_sol l_pairings l_prev l_prev2 l_lastCorrection l_latched l_details l_trace].
      * exists (l_trace st), (EvQuality n (optimalPose (l_sol st)) (l_pairings st) q).
        refine (conj _ (conj _ (conj _ (conj _ _)))); auto; [split; auto|econstructor; eauto].
      * exists (if hasHook then [KHook n] else []).
        rewrite map_app, Hk, sched_S. unfold full_round. rewrite Ec.
        cbn. rewrite <- !app_assoc. reflexivity.
      * intros _. rewrite last_pose_qual. exact Hpose.
      * discriminate.
      * rewrite last_found_snoc. exact Hpairs.
      * rewrite details_snoc, <- Hdet. unfold expected_details. destruct (saveIterationDetails p); cbn;
          rewrite app_nil_r; reflexivity.
    + apply (Hhook env2 (l_trace st ++ [EvQuality n (optimalPose (l_sol st)) (l_pairings st) q])).
      * apply good_snoc; auto; [split; auto|]. intros r Hr. inversion Hr; subst.
        match goal with X : checkpoint_of _ _ = Some ?m |- _ => rewrite Ec in X; injection X as <- end.
        apply Qltb_ge in Eq. lra.
      * rewrite map_app, Hk, sched_S. unfold full_round. rewrite Ec.
        cbn. rewrite <- !app_assoc. reflexivity.
      * apply Forall_app. split; [exact Hit|]. repeat constructor.
      * rewrite last_pose_qual. auto.
      * rewrite iterates_snoc_other by exact Logic.I. exact Hits.
      * rewrite last_found_snoc. auto.
      * rewrite details_snoc, <- Hdet. unfold expected_details. destruct (saveIterationDetails p); cbn;
          rewrite app_nil_r; reflexivity.
  - apply (Hhook (l_env st) (l_trace st)); auto.
    rewrite Hk, sched_S. unfold full_round. rewrite Ec. rewrite <- app_assoc. reflexivity.
Qed.

Lemma body_spec n (st : loopstate) st' o :
  Inv n st -> body c p hasLog guess n st = Ok (st', o) ->
  match o with None => Inv (S n) st' | Some r => Brk n st' r end.
Proof.
  intros HI. destruct HI as [G K I P [rest0 T] F D]. unfold iter_body.
  destruct (realize n (l_env st)) as [env1| |]; cbn [rbind]; try discriminate.
  destruct (run_matchers (c_matchers c) n (optimalPose (l_sol st)) (fresh_match_state env1))
    as [[env2 found]| |]; cbn [rbind]; try discriminate.
  set (em := EvMatch n (optimalPose (l_sol st)) found).
  destruct (pairings_empty found) eqn:Ee.
  { intros [= <- <-]. apply pairings_empty_size in Ee. constructor; cbn [l_env l_sol l_pairings l_prev l_prev2 l_lastCorrection l_latched l_details l_trace].
    - exists (l_trace st), em. refine (conj _ (conj _ (conj _ (conj _ _)))); auto. constructor. exact Ee.
    - exists (KSolve n :: (match checkpoint_of p n with
                            Some _ => [KQuality n] | None => [] end)
              ++ (if hasHook then [KHook n] else [])).
      rewrite map_app, K, sched_S, <- app_assoc. reflexivity.
    - intros _. unfold em. rewrite last_pose_match. exact P.
    - discriminate.
    - rewrite last_found_snoc. reflexivity.
    - rewrite details_snoc, <- D. unfold expected_details. destruct (saveIterationDetails p); cbn;
        rewrite app_nil_r; reflexivity. }
  assert (Ge : good (l_trace st ++ [em])).
  { apply good_snoc; auto. intros r Hr. inversion Hr; subst.
    assert (pairings_empty found = true) by (apply pairings_empty_size; assumption). congruence. }
  destruct (run_solvers tnorm (c_solvers c) found (l_sol st) _ (l_latched st) env2)
    as [[[[env3 latched'] ok] sol']| |]; cbn [rbind]; try discriminate.
  destruct ok; cbn [negb].
  2:{ intros [= <- <-]. constructor; cbn [l_env l_sol l_pairings l_prev l_prev2 l_lastCorrection l_latched l_details l_trace].
    - exists (l_trace st ++ [em]), (EvSolve n found false sol'). refine (conj _ (conj _ (conj _ (conj _ _)))); auto.
      + cbn. rewrite last_found_snoc. reflexivity.
      + constructor.
    - exists ((match checkpoint_of p n with
                            Some _ => [KQuality n] | None => [] end)
              ++ (if hasHook then [KHook n] else [])).
      rewrite !map_app, K, sched_S, <- !app_assoc. reflexivity.
    - congruence.
    - intros _. exists (l_trace st ++ [em]), found. reflexivity.
    - rewrite !last_found_snoc. reflexivity.
    - rewrite !details_snoc, <- D. unfold expected_details. destruct (saveIterationDetails p); cbn;
        rewrite !app_nil_r; reflexivity. }
  set (es := EvSolve n found true sol').
  assert (Hits : iterates guess (l_trace st ++ [em]) =
    l_prev st :: match l_prev2 st with None => [] | Some q => q :: rest0 end).
  { rewrite iterates_snoc_other by exact Logic.I. exact T. }
  pose proof (is_stalled_iff p (optimalPose sol') (l_prev st) (l_prev2 st) rest0) as Hst.
  rewrite <- Hits in Hst.
  set (stalled := is_stalled p (increments pose_minus log_norms (optimalPose sol') (l_prev st) (l_prev2 st))) in *.
  destruct (want_details p n stalled && negb hasLog); [discriminate|].
  assert (Hdets :
    (if want_details p n stalled then l_details st ++ [(n, (optimalPose sol', found))] else l_details st)
    = expected_details p (if stalled then Some n else None) ((l_trace st ++ [em]) ++ [es])).
  { rewrite !details_snoc.
    assert (E1 : expected_details p (if stalled then Some n else None) (l_trace st) = l_details st).
    { rewrite D. destruct stalled; [|reflexivity]. apply expected_details_stalled_irrel.
      intros e He. rewrite Forall_forall in I. specialize (I e He). lia. }
    rewrite E1. unfold want_details, expected_details, em, es.
    destruct (saveIterationDetails p); cbn [andb flat_map app]; [|rewrite !app_nil_r; reflexivity].
    rewrite !app_nil_r.
    destruct stalled; [rewrite Nat.eqb_refl|]; rewrite ?orb_true_r, ?orb_false_r.
    - reflexivity.
    - destruct (Nat.eqb (decimationIterationDetails p) 0
                || Nat.eqb (n mod decimationIterationDetails p) 0); rewrite ?app_nil_r; reflexivity. }
  assert (Hargs : right_arguments guess (l_trace st ++ [em]) es).
  { cbn. rewrite last_found_snoc. reflexivity. }
  destruct stalled eqn:Es.
  { intros [= <- <-]. constructor; cbn [l_env l_sol l_pairings l_prev l_prev2 l_lastCorrection l_latched l_details l_trace].
    - exists (l_trace st ++ [em]), es. refine (conj _ (conj _ (conj _ (conj _ _)))); auto.
      constructor. apply Hst. reflexivity.
    - exists ((match checkpoint_of p n with
                            Some _ => [KQuality n] | None => [] end)
              ++ (if hasHook then [KHook n] else [])).
      rewrite !map_app, K, sched_S, <- !app_assoc. reflexivity.
    - intros _. unfold es. rewrite last_pose_solve. reflexivity.
    - discriminate.
    - rewrite !last_found_snoc. reflexivity.
    - exact Hdets. }
  intro H. apply tail_spec with (pre := l_trace st ++ [em]) (used := found) in H;
    cbn [l_trace l_sol l_prev l_pairings l_details]; auto.
  - apply good_snoc; auto. apply no_stall_no_end. intro X. apply Hst in X. discriminate.
  - rewrite !map_app, K. cbn. rewrite <- app_assoc. reflexivity.
  - rewrite !Forall_app. split; [split|]; [|repeat constructor|repeat constructor].
    eapply Forall_impl; [|exact I]. cbn. lia.
  - exists (match l_prev2 st with None => [] | Some q => q :: rest0 end). exact Hits.
  - rewrite !last_found_snoc. reflexivity.
Qed.

Lemma loop_spec fuel : forall n st st' m r,
  Inv n st -> loop c p hasLog guess fuel n st = Ok (st', m, r) ->
  n <= m <= n + fuel /\
  ((m = n + fuel /\ r = Undefined /\ Inv m st') \/ (m < n + fuel /\ Brk m st' r)).
Proof.
  induction fuel as [|fuel IH]; intros n st st' m r HI; cbn [icp_loop].
  - intros [= <- <- <-]. split; [lia|]. left. rewrite Nat.add_0_r. auto.
  - destruct (body c p hasLog guess n st) as [[s1 [r1|]]| |] eqn:Eb; cbn [rbind]; try discriminate.
    + intros [= <- <- <-]. apply body_spec in Eb; [|exact HI].
      split; [lia|]. right. split; [lia|exact Eb].
    + intro H. apply body_spec in Eb; [|exact HI].
      apply IH in H; [|exact Eb]. destruct H as [Hm H].
      split; [lia|]. destruct H as [[-> H]|[H1 H2]]; [left|right]; split; auto; lia.
Qed.

Definition st0 (env : Env) : loopstate :=
  mkLoop env (mkSol guess 1%Q) pairings_empty_ctor guess None None [] [] [].

Lemma Inv0 env : Inv 0 (st0 env).
Proof.
  constructor; cbn; auto.
  - intros [|? ?] ? ? X; discriminate X.
  - exists []. reflexivity.
  - unfold expected_details. destruct (saveIterationDetails p); reflexivity.
Qed.

End Fix.

Notation align' := (align pose_minus log_norms tnorm realize fresh_match_state).

(** Everything about one successful run of align(). *)
Lemma align_spec c p ge le dbg guess env env' res :
  align' c p ge le dbg guess env = Ok (env', res) ->
  let tr := r_loopTrace res in
  let hasHook := match c_hook c with Some _ => true | None => false end in
  (* inputs were acceptable *)
  (c_matchers c <> [] /\ c_solvers c <> [] /\ c_evaluators c <> [] /\ ge = false /\ le = false)
  /\ (exists env0, evaluate_quality (c_evaluators c) (r_optimal_tf res) (r_finalPairings res) env0
                   = Ok (env', r_quality res))
  /\ r_finalPairings res = last_found tr
  /\ args_ok guess tr
  /\ ((r_terminationReason res = MaxIterations /\ r_nIterations res = maxIterations p
        /\ good p guess tr /\ map kind_of tr = full_schedule p hasHook
        /\ r_optimal_tf res = last_pose guess tr
        /\ r_iterationDetails res = expected_details p None tr)
      \/ (r_nIterations res < maxIterations p
          /\ Brk c p guess (r_nIterations res)
               (mkLoop env (mkSol (r_optimal_tf res) (r_optimalScale res)) (r_finalPairings res)
                  guess None None [] (r_iterationDetails res) tr) (r_terminationReason res))).
Proof.
  unfold align. intro H.
  destruct (isNil (c_matchers c) || isNil (c_solvers c) || isNil (c_evaluators c) || ge || le) eqn:Ein;
    [discriminate|].
  repeat rewrite orb_false_iff in Ein. destruct Ein as [[[[E1 E2] E3] E4] E5].
  change (mkLoop env (mkSol guess 1%Q) pairings_empty_ctor guess None None [] [] []) with (st0 guess env) in H.
  destruct (loop c p (dbg || generateDebugFiles p) guess (maxIterations p) 0 (st0 guess env))
    as [[[st n] r]| |] eqn:El; cbn [rbind] in H; try discriminate.
  destruct (realize n (l_env st)) as [env1| |]; cbn [rbind] in H; try discriminate.
  destruct (evaluate_quality (c_evaluators c) (optimalPose (l_sol st)) (l_pairings st) env1)
    as [[env2 q]| |] eqn:Eq; cbn [rbind] in H; try discriminate.
  injection H as <- <-. cbn [r_loopTrace r_finalPairings r_optimal_tf r_quality r_terminationReason
    r_nIterations r_iterationDetails r_optimalScale].
  apply loop_spec in El; [|apply Inv0]. destruct El as [Hn El]. cbn [Nat.add] in *.
  assert (NE : forall A (l : list A), isNil l = false -> l <> []) by (intros A [|] X; cbn in X; congruence).
  split; [repeat split; auto|]. split; [exists env1; exact Eq|].
  destruct El as [[-> [-> HI]]|[Hlt HB]].
  - rewrite Nat.leb_refl. destruct HI as [G K I P T F D].
    split; [exact F|]. split; [apply good_args with (p := p); exact G|]. left. auto 10.
  - destruct (Nat.leb_spec (maxIterations p) n); [lia|].
    split; [exact (b_pairs _ _ _ _ _ _ HB)|].
    split.
    + destruct (b_last _ _ _ _ _ _ HB) as [pre [e [-> [G [A [_ _]]]]]].
      apply args_snoc; [apply good_args with (p := p); exact G|exact A].
    + right. split; [exact Hlt|].
      destruct HB as [B1 B2 B3 B4 B5 B6]. constructor; cbn [l_env l_sol l_pairings l_prev l_prev2 l_lastCorrection l_latched l_details l_trace]; auto.
      intro X. destruct (B4 X) as [pre [used B]]. exists pre, used. rewrite B.
      destruct (l_sol st); reflexivity.
Qed.

End IcpProofs.
