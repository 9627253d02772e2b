(** Specification vocabulary for the properties of ICP::align (C18-C22, C25, C51-C53):
    everything is said about the sequence of observable calls (events) of one run. *)
From Verif Require Import Base PairingsModel MatcherModel SolverModel QualityModel IcpModel.

Section IcpSpec.
Context {PP PL PN LL NN W Env Pose : Type}.
Notation pairings := (Pairings PP PL PN LL NN W).
Notation event := (@Event PP PL PN LL NN W Pose).
Variable pose_minus : Pose -> Pose -> Pose.
Variable log_norms : Pose -> Q * Q.

(** Poses found by the successful solver calls, oldest first. *)
Definition solved (tr : list event) : list Pose :=
  flat_map (fun e => match e with EvSolve _ _ true out => [optimalPose out] | _ => [] end) tr.

(** The current estimate after [tr]: last solution found, or the initial guess. *)
Definition last_pose (guess : Pose) (tr : list event) : Pose := last (solved tr) guess.

(** The pairings found by the last matching round. *)
Definition last_found (tr : list event) : pairings :=
  last (flat_map (fun e => match e with EvMatch _ _ f => [f] | _ => [] end) tr)
       (mkPairings [] [] [] [] [] [] 0).

(** Iterates so far, newest first, ending with the initial guess. *)
Definition iterates (guess : Pose) (tr : list event) : list Pose :=
  rev (solved tr) ++ [guess].

Definition trans_step (a b : Pose) : Q := fst (log_norms (pose_minus a b)).
Definition rot_step (a b : Pose) : Q := snd (log_norms (pose_minus a b)).

(** The stall criterion for a new pose [cur], given the iterates before it: the
    translation step with respect to one of the last two iterates is small, and so is
    the rotation step with respect to one of the last two iterates. *)
Definition stall_criterion (p : IcpParams) (before : list Pose) (cur : Pose) : Prop :=
  (exists q, In q (firstn 2 before) /\ (trans_step cur q < minAbsStep_trans p)%Q)
  /\ (exists q, In q (firstn 2 before) /\ (rot_step cur q < minAbsStep_rot p)%Q).

(** What a user would expect: with respect to one same iterate. *)
Definition stall_intended (p : IcpParams) (before : list Pose) (cur : Pose) : Prop :=
  exists q, In q (firstn 2 before) /\ (trans_step cur q < minAbsStep_trans p)%Q
            /\ (rot_step cur q < minAbsStep_rot p)%Q.

(** The minimum quality listed for iteration [k], if any. *)
Definition checkpoint_of (p : IcpParams) (k : nat) : option Q :=
  option_map snd (find (fun kv => Nat.eqb (fst kv) k) (quality_checkpoints p)).

(** Event [e], happening after the events [pre], ends the run with the given reason. *)
Inductive ends (p : IcpParams) (guess : Pose) (pre : list event) : event -> IterTermReason -> Prop :=
| ends_nopairings : forall k pose f,
    pairings_size f = 0 -> ends p guess pre (EvMatch k pose f) NoPairings
| ends_solvererror : forall k used out,
    ends p guess pre (EvSolve k used false out) SolverError
| ends_stalled : forall k used out,
    stall_criterion p (iterates guess pre) (optimalPose out) ->
    ends p guess pre (EvSolve k used true out) Stalled
| ends_checkpoint : forall k pose used q minq,
    checkpoint_of p k = Some minq -> (q < minq)%Q ->
    ends p guess pre (EvQuality k pose used q) QualityCheckpointFailed
| ends_hook : forall k pose used, ends p guess pre (EvHook k pose used true) HookRequest.

(** Each call gets the current pose and the pairings of the current iteration. *)
Definition right_arguments (guess : Pose) (pre : list event) (e : event) : Prop :=
  match e with
  | EvMatch _ pose _ => pose = last_pose guess pre
  | EvSolve _ used _ _ => used = last_found pre
  | EvQuality _ pose used _ => pose = last_pose guess pre /\ used = last_found pre
  | EvHook _ pose used _ => pose = last_pose guess pre /\ used = last_found pre
  end.

(** The schedule of calls. *)
Inductive kind : Type := KMatch (k : nat) | KSolve (k : nat) | KQuality (k : nat) | KHook (k : nat).
Definition kind_of (e : event) : kind :=
  match e with
  | EvMatch k _ _ => KMatch k | EvSolve k _ _ _ => KSolve k
  | EvQuality k _ _ _ => KQuality k | EvHook k _ _ _ => KHook k
  end.
Definition event_iter (e : event) : nat :=
  match e with
  | EvMatch k _ _ => k | EvSolve k _ _ _ => k | EvQuality k _ _ _ => k | EvHook k _ _ _ => k
  end.

(** One full round: match, solve, quality checkpoint if one is listed for this
    iteration, hook if there is one. *)
Definition full_round (p : IcpParams) (hasHook : bool) (k : nat) : list kind :=
  [KMatch k; KSolve k]
  ++ (match checkpoint_of p k with Some _ => [KQuality k] | None => [] end)
  ++ (if hasHook then [KHook k] else []).
Definition full_schedule (p : IcpParams) (hasHook : bool) : list kind :=
  flat_map (full_round p hasHook) (seq 0 (maxIterations p)).

Definition is_match (e : event) : bool := match e with EvMatch _ _ _ => true | _ => false end.
(** Number of iterations actually started. *)
Definition rounds (tr : list event) : nat := length (filter is_match tr).

(** The iteration details that must be in the log. *)
Definition expected_details (p : IcpParams) (stalledAt : option nat) (tr : list event)
  : list (nat * (Pose * pairings)) :=
  if saveIterationDetails p then
    flat_map (fun e => match e with
      | EvSolve k used true out =>
        if Nat.eqb (decimationIterationDetails p) 0
           || Nat.eqb (k mod decimationIterationDetails p) 0
           || (match stalledAt with Some n => Nat.eqb n k | None => false end)
        then [(k, (optimalPose out, used))] else []
      | _ => [] end) tr
  else [].

End IcpSpec.

(** Components that never throw nor run into undefined behaviour themselves. *)
Definition is_ok {A} (r : res A) : Prop := exists a, r = Ok a.
Definition never_fail {PP PL PN LL NN W Env Pose : Type}
  (realize : nat -> Env -> res Env) (c : @Components PP PL PN LL NN W Env Pose) : Prop :=
  (forall k env, is_ok (realize k env))
  /\ Forall (fun m => forall k pose env out, is_ok (m_impl_match m k pose env out)) (c_matchers c)
  /\ Forall (fun s => forall sc f env out, is_ok (s_impl s sc f env out)) (c_solvers c)
  /\ Forall (fun e => (0 < relativeWeight e)%Q
                      /\ forall pose f env, is_ok (e_evaluate e pose f env)) (c_evaluators c)
  /\ (forall h, c_hook c = Some h -> forall k f s env, is_ok (h k f s env)).
