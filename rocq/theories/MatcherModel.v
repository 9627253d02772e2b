(** Model of mp2p_icp::Matcher::match and mp2p_icp::run_matchers.
    Sources: /repo/mp2p_icp/src/Matcher.cpp, /repo/mp2p_icp/include/mp2p_icp/Matcher.h *)
From Verif Require Import Base PairingsModel.

Section Matchers.
Context {PP PL PN LL NN W : Type}.
Notation pairings := (Pairings PP PL PN LL NN W).
(** [Env]: everything a matcher may read or change besides its arguments: the
    MatchState shared by the matchers of one run_matchers() call, random generators,
    internal caches.  The two maps are constant and part of the closures. *)
Context {Env Pose : Type}.

(** Matcher.h: the gate parameters, and the virtual method impl_match() as an
    arbitrary function: iteration, local pose, environment, [out] -> (environment,
    returned flag, out), or an exception / UB. *)
Record Matcher : Type := mkMatcher {
  m_enabled : bool;
  m_runFromIteration : nat;
  m_runUpToIteration : nat;
  m_impl_match : nat -> Pose -> Env -> pairings -> res (Env * bool * pairings) }.

(** Matcher.cpp:40-42: the three early returns. *)
Definition matcher_gate (m : Matcher) (icpIteration : nat) : bool :=
  if negb (m_enabled m) then false
  else if Nat.ltb icpIteration (m_runFromIteration m) then false
  else if Nat.ltb 0 (m_runUpToIteration m) && Nat.ltb (m_runUpToIteration m) icpIteration
       then false
  else true.

(** Matcher.cpp:35-44 *)
Definition matcher_match (m : Matcher) (icpIteration : nat) (pose : Pose) (env : Env)
  (out : pairings) : res (Env * bool * pairings) :=
  if matcher_gate m icpIteration then m_impl_match m icpIteration pose env out
  else Ok (env, false, out).

(** Matcher.cpp:71-78: the loop; [acc] is the local variable `pairings`. *)
Fixpoint run_matchers_loop (ms : list Matcher) (icpIteration : nat) (pose : Pose)
  (env : Env) (acc : pairings) : res (Env * pairings) :=
  match ms with
  | [] => Ok (env, acc)
  | m :: rest =>
    let* r := matcher_match m icpIteration pose env pairings_empty_ctor in
    let '(env', _, pc) := r in
    run_matchers_loop rest icpIteration pose env' (push_back_copy acc pc)
  end.

(** Matcher.cpp:46-88 (null matcher pointers and the warning message are not
    modelled). *)
Definition run_matchers (ms : list Matcher) (icpIteration : nat) (pose : Pose) (env : Env)
  : res (Env * pairings) :=
  run_matchers_loop ms icpIteration pose env pairings_empty_ctor.

End Matchers.
