(** Model of ICP::evaluate_quality and QualityEvaluator_PairedRatio.
    Sources: /repo/mp2p_icp/src/ICP.cpp:608-634,
             /repo/mp2p_icp/src/QualityEvaluator_PairedRatio.cpp *)
From Verif Require Import Base PairingsModel.

Section Quality.
Context {Env Pose Pairs : Type}.

(** QualityEvaluator.h: struct Result *)
Record EvalResult : Type := mkEval { quality : Q; hard_discard : bool }.

(** ICP.h quality_eval_entry_t: evaluator object and relativeWeight; the virtual
    evaluate() is arbitrary. *)
Record Evaluator : Type := mkEvaluator {
  relativeWeight : Q;
  e_evaluate : Pose -> Pairs -> Env -> res (Env * EvalResult) }.

(** ICP.cpp:615-630, the loop with its two accumulators; [None] is the early
    `return 0`. *)
Fixpoint evaluate_loop (es : list Evaluator) (pose : Pose) (pairs : Pairs) (env : Env)
  (sumW sumEvals : Q) : res (Env * option (Q * Q)) :=
  match es with
  | [] => Ok (env, Some (sumW, sumEvals))
  | e :: rest =>
    if Qltb 0 (relativeWeight e) then                 (* line 619 ASSERT_GT_ *)
      let* r := e_evaluate e pose pairs env in
      let '(env', er) := r in
      if hard_discard er then Ok (env', None)
      else evaluate_loop rest pose pairs env'
             (sumW + relativeWeight e) (sumEvals + relativeWeight e * quality er)
    else Throw
  end.

(** ICP.cpp:608-634 *)
Definition evaluate_quality (es : list Evaluator) (pose : Pose) (pairs : Pairs) (env : Env)
  : res (Env * Q) :=
  match es with
  | [] => Throw                                       (* line 613 *)
  | _ =>
    let* r := evaluate_loop es pose pairs env 0 0 in
    match r with
    | (env', None) => Ok (env', 0%Q)
    | (env', Some (sumW, sumEvals)) =>
      if Qltb 0 sumW then Ok (env', (sumEvals / sumW)%Q) else Throw   (* line 631 *)
    end
  end.

End Quality.

Section PairedRatio.
Context {PP PL PN LL NN W : Type}.
Notation pairings := (Pairings PP PL PN LL NN W).

(** QualityEvaluator_PairedRatio.cpp:65-72, on the pairings chosen at lines 52-63
    (the ones of ICP when reuse_icp_pairings, otherwise the output of a fresh
    matcher run). *)
Definition paired_ratio_of (absolute_minimum_pairing_ratio : Q) (p : pairings) : EvalResult :=
  let n := potential_pairings p in
  let q := if Nat.eqb n 0 then 0%Q
           else (inject_Z (Z.of_nat (pairings_size p)) / inject_Z (Z.of_nat n))%Q in
  mkEval q (Qltb q absolute_minimum_pairing_ratio).

(** QualityEvaluator_PairedRatio.cpp:45-73.  [fresh] is the output of the internal
    matcher on the same maps and pose. *)
Definition paired_ratio_evaluate (reuse_icp_pairings : bool)
  (absolute_minimum_pairing_ratio : Q) (fresh : pairings) (pairingsFromICP : pairings)
  : EvalResult :=
  paired_ratio_of absolute_minimum_pairing_ratio
    (if reuse_icp_pairings then pairingsFromICP else fresh).

End PairedRatio.
