(** Model, over the reals, of the walk over the correspondences shared by the Horn and the
    OLAE solvers.

    Sources: mp2p_icp/src/visit_correspondences.h 40-215, mp2p_icp/src/Pairings.cpp 68-109
    (centroids).

    Simplifications: double arithmetic is exact real arithmetic; the user lambdas become the
    list of the calls they receive; indices are natural numbers. *)
From Coq Require Import Reals List Lra.
From Verif Require Import Base GeomModel.
Import ListNotations.
Open Scope R_scope.

(** The part of Pairings the walk reads.  Point pairs, and the director (normal) vectors of the
    line (plane) pairs, all as (global, local).
    Simplification: for point-to-line and point-to-plane pairs only their number. *)
Record VPairs := mkVP {
  vp_pts : list (V3 * V3);
  vp_lns : list (V3 * V3);
  vp_pls : list (V3 * V3);
  vp_nPt2Ln : nat;
  vp_nPt2Pl : nat;
  vp_weights : list (nat * R) }.

(** WeightParameters.h 30-66.  [wp_kernel] is the function create_robust_kernel() returns. *)
Record VWeights := mkVW {
  wp_use_scale : bool;
  wp_scale_thr : R;
  wp_pt2pt : R;
  wp_ln2ln : R;
  wp_pl2pl : R;
  wp_kernel : option (R -> R);
  wp_current : option Pose }.

(** Pairings.cpp 68-109 *)
Fixpoint vcentroid_loop (i : nat) (ps : list (V3 * V3)) (outl : list nat) (cl cg : V3) (cnt : nat)
  : V3 * V3 * nat :=
  match ps with
  | [] => (cl, cg, cnt)
  | (g, l) :: ps' =>
    match outl with
    | o :: os =>
      if Nat.eqb i o then vcentroid_loop (S i) ps' os cl cg cnt
      else vcentroid_loop (S i) ps' outl (vadd cl l) (vadd cg g) (S cnt)
    | [] => vcentroid_loop (S i) ps' outl (vadd cl l) (vadd cg g) (S cnt)
    end
  end.
Definition vzero3 : V3 := mkV 0 0 0.
Definition eval_centroids (ps : list (V3 * V3)) (outl : list nat) : res (V3 * V3) :=
  if Nat.ltb (length outl) (length ps) then
    let wc := / INR (length ps - length outl) in
    let '(cl, cg, cnt) := vcentroid_loop 0 ps outl vzero3 vzero3 0 in
    if Nat.eqb cnt (length ps - length outl) then Ok (vscale wc cl, vscale wc cg) else Throw
  else Throw.

(** The pairs are walked in the order points, lines, planes (lines 117, 165, 179). *)
Inductive item := IPt (global local : V3) | ILn (global local : V3) | IPl (global local : V3).
Definition items (p : VPairs) : list item :=
  map (fun x => IPt (fst x) (snd x)) (vp_pts p) ++
  map (fun x => ILn (fst x) (snd x)) (vp_lns p) ++
  map (fun x => IPl (fst x) (snd x)) (vp_pls p).

(** One call of lambda_each_pair, with the index of the pair it is for. *)
Record call := mkCall { c_idx : nat; c_b : V3; c_r : V3; c_w : R }.

(** The state of the loop: blocks from cur_point_block_weights on, cur_point_block_start, outliers
    from it_next_outlier on, new_outliers and calls (latest first), w_sum, statistics. *)
Record vstate := mkVS {
  vs_blocks : list (nat * R);
  vs_start : nat;
  vs_next : list nat;
  vs_new : list nat;
  vs_calls : list call;
  vs_sum : R;
  vs_discarded : nat }.

(** lines 122-128: move to the next block.  The iterator is dereferenced before the check that
    it is not at the end, and after moving. *)
Definition step_block (i : nat) (blocks : list (nat * R)) (start : nat)
  : res (list (nat * R) * nat * R) :=
  match blocks with
  | [] => UB
  | (n, w) :: rest =>
    if Nat.leb (start + n) i then
      match rest with
      | [] => UB
      | (_, w') :: _ => Ok (rest, i, w')
      end
    else Ok (blocks, start, w)
  end.

(** lines 195-207: robust kernel, positivity check, accumulation, call *)
Definition emit (wp : VWeights) (i : nat) (b r : V3) (w : R) (s : vstate) : res vstate :=
  let* w' := match wp_kernel wp with
             | None => Ok w
             | Some f =>
               match wp_current wp with
               | None => Throw
               | Some T => let e := vsub (compose T r) b in Ok (w * f (vnorm2 e))
               end
             end in
  if Rlt_dec 0 w' then
    Ok (mkVS (vs_blocks s) (vs_start s) (vs_next s) (vs_new s)
             (mkCall i b r w' :: vs_calls s) (vs_sum s + w') (vs_discarded s))
  else Throw.

(** lines 113-207: the body of the loop for a pair that is not in the list of outliers *)
Definition visit_body (wp : VWeights) (wa : R * R * R) (ctl ctg : V3) (normalize : bool)
  (i : nat) (it : item) (s : vstate) : res vstate :=
  let '(waPt, waLn, waPl) := wa in
  match it with
  | IPt g l =>
    let* st := step_block i (vs_blocks s) (vs_start s) in
    let '(bl, start, wb) := st in
    let s := mkVS bl start (vs_next s) (vs_new s) (vs_calls s) (vs_sum s) (vs_discarded s) in
    let w := waPt * wb in
    let b := vsub g ctg in
    let r := vsub l ctl in
    let bn := vnorm b in
    let rn := vnorm r in
    if Rlt_dec bn (1 / 10000) then Ok s
    else if Rlt_dec rn (1 / 10000) then Ok s
    else
      let b' := if normalize then vscale (1 / bn) b else b in
      let r' := if normalize then vscale (1 / rn) r else r in
      if wp_use_scale wp then
        if Rlt_dec (wp_scale_thr wp) (Rmax bn rn / Rmin bn rn) then
          Ok (mkVS bl start (vs_next s) (i :: vs_new s) (vs_calls s) (vs_sum s) (S (vs_discarded s)))
        else emit wp i b' r' w s
      else emit wp i b' r' w s
  | ILn g l => emit wp i g l waLn s
  | IPl g l => emit wp i g l waPl s
  end.

(** lines 100-210: the loop *)
Fixpoint visit_loop (wp : VWeights) (wa : R * R * R) (ctl ctg : V3) (normalize : bool)
  (i : nat) (its : list item) (s : vstate) : res vstate :=
  match its with
  | [] => Ok s
  | it :: rest =>
    let* s' :=
      match vs_next s with
      | o :: os =>
        if Nat.eqb i o then
          Ok (mkVS (vs_blocks s) (vs_start s) os (i :: vs_new s) (vs_calls s) (vs_sum s) (vs_discarded s))
        else visit_body wp wa ctl ctg normalize i it s
      | [] => visit_body wp wa ctl ctg normalize i it s
      end in
    visit_loop wp wa ctl ctg normalize (S i) rest s'
  end.

(** lines 60-67 *)
Definition point_blocks (p : VPairs) : list (nat * R) :=
  match vp_weights p with [] => [(length (vp_pts p), 1)] | w => w end.

(** lines 73-86.  Division by zero (all the weighted counts are zero) is left as division by
    zero; no weight is then used. *)
Definition attitude_weights (p : VPairs) (wp : VWeights) : res (R * R * R) :=
  if Rlt_dec 0 (wp_pt2pt wp + wp_ln2ln wp + wp_pl2pl wp) then
    let k := 1 / (wp_pt2pt wp * INR (length (vp_pts p)) + wp_ln2ln wp * INR (length (vp_lns p)) +
                  wp_pl2pl wp * INR (length (vp_pls p))) in
    Ok (wp_pt2pt wp * k, wp_ln2ln wp * k, wp_pl2pl wp * k)
  else Throw.

Record vresult := mkVR { vr_calls : list call; vr_outliers : list nat; vr_sum : R; vr_discarded : nat }.

(** lines 40-215 *)
Definition visit (p : VPairs) (wp : VWeights) (ctl ctg : V3) (outl : list nat) (normalize : bool)
  : res vresult :=
  if Nat.eqb (vp_nPt2Ln p) 0 && Nat.eqb (vp_nPt2Pl p) 0 then
    let* wa := attitude_weights p wp in
    let* s := visit_loop wp wa ctl ctg normalize 0 (items p)
                (mkVS (point_blocks p) 0 outl [] [] 0 0) in
    Ok (mkVR (rev (vs_calls s)) (rev (vs_new s)) (vs_sum s) (vs_discarded s))
  else Throw.
