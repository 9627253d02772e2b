(** Model of the TBB build of Matcher_Points_DistanceThreshold::implMatchOneLayer
    (/repo/mp2p_icp/src/Matcher_Points_DistanceThreshold.cpp:123-205): tbb::parallel_reduce
    cuts [0, nLocalPts) into consecutive ranges, runs the body on each range on any thread
    and concatenates the partial results in range order.
    Every access to the shared match state is taken as atomic, which is more than the code
    guarantees (its accesses are unsynchronised data races). *)
From Verif Require Import Base PairingsModel MatcherModel BitfieldModel PointMatcherModel.

Section Parallel.
Variable b : BaseParams.
Variables (threshold angFactorSqr : Q).
(** lines 157-182: the neighbours found for a query (nn_single_search, or nn_radius_search
    limited to pairingsPerPoint results within threshold^2) *)
Variable search : P3 -> list (nat * P3 * Q).
Variables (lpts : list P3) (tl : TransformedLocal) (gname lname : nat).

(** lines 185-196: the neighbours before the first one not below the bound *)
Fixpoint cut (thr : Q) (ns : list (nat * P3 * Q)) : list (nat * P3 * Q) :=
  match ns with
  | [] => []
  | x :: r => if Qle_bool thr (snd x) then [] else x :: cut thr r
  end.
Definition in_range (q : P3) : list (nat * P3 * Q) :=
  cut (qsq threshold + angFactorSqr * normSqr q)%Q (search q).

(** One invocation of the body (lines 133-199): the loop indices still to visit, the local
    point being processed with its remaining neighbours, a neighbour found free but not yet
    marked, and the partial result. *)
Record Task : Type := mkTask {
  tk_todo : list nat;
  tk_cur : option (nat * P3 * list (nat * P3 * Q));
  tk_pend : option (nat * P3 * Q);
  tk_out : list Pair }.
Definition task_init (is : list nat) : Task := mkTask is None None [].
Definition task_done (t : Task) : Prop := tk_todo t = [] /\ tk_cur t = None /\ tk_pend t = None.

(** lines 104-113: the pairing *)
Definition new_pair (li : nat) (lp : P3) (x : nat * P3 * Q) : Pair :=
  mkPair (fst (fst x)) li (snd (fst x)) lp (snd x) gname lname.

(** One step of one task. *)
Inductive task_step : MatchState -> Task -> MatchState -> Task -> Prop :=
(* lines 143-147: already paired, skipped *)
| ts_skip : forall ms i r li out,
    local_index tl i = Ok li ->
    allowMatchAlreadyMatchedPoints b = false -> query (ms_local ms) lname li = Ok true ->
    task_step ms (mkTask (i :: r) None None out) ms (mkTask r None None out)
(* lines 149-182: start the local point, search *)
| ts_start : forall ms i r li q lp out,
    local_index tl i = Ok li ->
    (allowMatchAlreadyMatchedPoints b = true \/ query (ms_local ms) lname li = Ok false) ->
    nth_error (tl_pts tl) i = Some q -> nth_error lpts li = Some lp ->
    task_step ms (mkTask (i :: r) None None out) ms (mkTask r (Some (li, lp, in_range q)) None out)
(* end of the neighbours *)
| ts_end : forall ms r li lp out,
    task_step ms (mkTask r (Some (li, lp, [])) None out) ms (mkTask r None None out)
(* lines 94-113, re-matching allowed: no shared access *)
| ts_free : forall ms r li lp x ns out,
    allowMatchAlreadyMatchedGlobalPoints b = true ->
    task_step ms (mkTask r (Some (li, lp, x :: ns)) None out)
              ms (mkTask r (Some (li, lp, ns)) None (out ++ [new_pair li lp x]))
(* line 99-101: global point taken *)
| ts_taken : forall ms r li lp x ns out,
    allowMatchAlreadyMatchedGlobalPoints b = false -> query (ms_global ms) gname (fst (fst x)) = Ok true ->
    task_step ms (mkTask r (Some (li, lp, x :: ns)) None out) ms (mkTask r (Some (li, lp, ns)) None out)
(* line 99-101: global point free: the marking happens in a later step *)
| ts_read : forall ms r li lp x ns out,
    allowMatchAlreadyMatchedGlobalPoints b = false -> query (ms_global ms) gname (fst (fst x)) = Ok false ->
    task_step ms (mkTask r (Some (li, lp, x :: ns)) None out) ms (mkTask r (Some (li, lp, ns)) (Some x) out)
(* lines 104-120 *)
| ts_mark : forall ms ms' r li lp x ns out,
    mark_both ms lname li gname (fst (fst x)) = Ok ms' ->
    task_step ms (mkTask r (Some (li, lp, ns)) (Some x) out)
              ms' (mkTask r (Some (li, lp, ns)) None (out ++ [new_pair li lp x])).

(** Any interleaving of the tasks. *)
Inductive par_step : MatchState * list Task -> MatchState * list Task -> Prop :=
| ps_step : forall ms ms' before t t' after,
    task_step ms t ms' t' -> par_step (ms, before ++ t :: after) (ms', before ++ t' :: after).
Inductive par_exec : MatchState * list Task -> MatchState * list Task -> Prop :=
| pe_refl : forall s, par_exec s s
| pe_step : forall s s1 s2, par_step s s1 -> par_exec s1 s2 -> par_exec s s2.

(** lines 200-210: the partial results joined in range order *)
Definition par_result (ts : list Task) : list Pair := concat (map tk_out ts).
End Parallel.
