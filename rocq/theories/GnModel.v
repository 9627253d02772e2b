(** Model, over the reals, of the Gauss-Newton solver.

    Sources: mp2p_icp/src/optimal_tf_gauss_newton.cpp 35-337, mp2p_icp/src/Solver_GaussNewton.cpp 60-90.

    Simplifications: double arithmetic is exact real arithmetic; Eigen's ldlt().solve() and
    MRPT's SE(3) exponential are parameters; the prior term (lines 283-314) is a parameter giving its
    contribution at a pose; the verbose output is left out. *)
From Coq Require Import Reals List Lra.
From Verif Require Import Base GeomModel VisitModel.
Import ListNotations.
Open Scope R_scope.

(** 6-vectors, 6x6 matrices *)
Record V6 := mk6 { x0 : R; x1 : R; x2 : R; x3 : R; x4 : R; x5 : R }.
Definition zero6 : V6 := mk6 0 0 0 0 0 0.
Definition add6 (a b : V6) : V6 :=
  mk6 (x0 a + x0 b) (x1 a + x1 b) (x2 a + x2 b) (x3 a + x3 b) (x4 a + x4 b) (x5 a + x5 b).
Definition scale6 (k : R) (a : V6) : V6 := mk6 (k * x0 a) (k * x1 a) (k * x2 a) (k * x3 a) (k * x4 a) (k * x5 a).
Definition dot6 (a b : V6) : R :=
  x0 a * x0 b + x1 a * x1 b + x2 a * x2 b + x3 a * x3 b + x4 a * x4 b + x5 a * x5 b.
Record M66 := mkM6 { r0 : V6; r1 : V6; r2 : V6; r3 : V6; r4 : V6; r5 : V6 }.
Definition zeroM : M66 := mkM6 zero6 zero6 zero6 zero6 zero6 zero6.
Definition addM (A B : M66) : M66 :=
  mkM6 (add6 (r0 A) (r0 B)) (add6 (r1 A) (r1 B)) (add6 (r2 A) (r2 B))
       (add6 (r3 A) (r3 B)) (add6 (r4 A) (r4 B)) (add6 (r5 A) (r5 B)).
Definition mulMV (A : M66) (v : V6) : V6 :=
  mk6 (dot6 (r0 A) v) (dot6 (r1 A) v) (dot6 (r2 A) v) (dot6 (r3 A) v) (dot6 (r4 A) v) (dot6 (r5 A) v).
(** k * j j^T *)
Definition outer6 (k : R) (j : V6) : M66 :=
  mkM6 (scale6 (k * x0 j) j) (scale6 (k * x1 j) j) (scale6 (k * x2 j) j)
       (scale6 (k * x3 j) j) (scale6 (k * x4 j) j) (scale6 (k * x5 j) j).

(** MRPT Lie::SE<3>::jacob_dDexpe_de: derivative of T * exp(e) at e = 0, by columns, e being
    (translation, rotation) *)
Definition dDexpe_de (T : Pose) : list (list R) :=
  let z := vzero3 in
  let n v := vscale (-1) v in
  [ vec (mkPose z z z (c0 T)); vec (mkPose z z z (c1 T)); vec (mkPose z z z (c2 T));
    vec (mkPose z (c2 T) (n (c1 T)) z); vec (mkPose (n (c2 T)) z (c0 T) z); vec (mkPose (c1 T) (n (c0 T)) z z) ].
(** lines 125, 168, ...: J1 * dDexpe_de, one row *)
Definition row6 (T : Pose) (j : list R) : V6 :=
  let d := dDexpe_de T in
  let c k := dotl j (nth k d []) in mk6 (c 0%nat) (c 1%nat) (c 2%nat) (c 3%nat) (c 4%nat) (c 5%nat).

(** The part of Pairings the solver reads. *)
Record GPairs := mkGP {
  gp_pt2pt : list (V3 * V3);          (* global, local *)
  gp_pt2ln : list (Line * V3);
  gp_ln2ln : list (Line * Line);
  gp_pt2pl : list (Plane * V3);
  gp_pl2pl : list (Plane * Plane);
  gp_weights : list (nat * R) }.

(** optimal_tf_gauss_newton.h 28-58 *)
Record GParams := mkGPar {
  g_point : option Pose;             (* linearizationPoint *)
  g_max_inner : nat;                 (* maxInnerLoopIterations *)
  g_min_delta : R;
  g_max_cost : R;
  g_kernel : option (R -> R);        (* create_robust_kernel(kernel, kernelParam) *)
  g_w_pt2pt : R; g_w_pt2ln : R; g_w_ln2ln : R; g_w_pt2pl : R; g_w_pl2pl : R;
  g_prior : option (Pose -> M66 * V6) }.

(** The residual components of one pairing with the rows of its 12-column Jacobian *)
Definition rows := list (R * list R).
Definition rows_of (e : V3) (J : list (list R)) : rows := combine (l3 e) J.
Definition rows_pt2pt (T : Pose) (p : V3 * V3) : rows :=
  rows_of (error_point2point (fst p) (snd p) T) (jac_point2point (fst p) (snd p) T).
Definition rows_pt2ln (T : Pose) (p : Line * V3) : rows :=
  rows_of (error_point2line (fst p) (snd p) T) (jac_point2line (fst p) (snd p) T).
Definition rows_pt2pl (T : Pose) (p : Plane * V3) : rows :=
  rows_of (error_point2plane (fst p) (snd p) T) (jac_point2plane (fst p) (snd p) T).
Definition rows_pl2pl (T : Pose) (p : Plane * Plane) : rows :=
  rows_of (error_plane2plane (fst p) (snd p) T) (jac_plane2plane (fst p) (snd p) T).
(** error_line2line leaves components unset for nearly parallel lines: reading them is UB *)
Definition rows_ln2ln (T : Pose) (p : Line * Line) : res rows :=
  if Rlt_dec (Rabs (alfa (fst p) (snd p) T)) (1 / 100) then UB
  else Ok (combine (error_l2l_general (fst p) (snd p) T) (jac_l2l_general (fst p) (snd p) T)).

Definition sq_norm (r : rows) : R := fold_right (fun x s => fst x * fst x + s) 0 r.

(** H, g *)
Record NE := mkNE { ne_H : M66; ne_g : V6 }.
Definition ne_zero : NE := mkNE zeroM zero6.
Definition ne_add (a b : NE) : NE := mkNE (addM (ne_H a) (ne_H b)) (add6 (ne_g a) (ne_g b)).

(** lines 114-128 and the like: g += weight Ji^T err_i, H += weight Ji^T Ji *)
Definition term_ne (T : Pose) (w : R) (r : rows) : NE :=
  fold_left (fun a x => ne_add a (mkNE (outer6 w (row6 T (snd x))) (scale6 (w * fst x) (row6 T (snd x))))) r ne_zero.
Definition kernel_w (par : GParams) (w : R) (r : rows) : R :=
  match g_kernel par with None => w | Some f => w * f (sq_norm r) end.

(** A class of pairs in a sequential loop: adds to H, g and errNormSqr.  [squared]: the error is
    added with weight * weight (lines 167, 189, 261, 279), not weight (line 124). *)
Record Acc := mkAcc { a_ne : NE; a_err : R }.
Definition add_term (T : Pose) (squared : bool) (par : GParams) (wc : R) (a : Acc) (r : rows) : Acc :=
  let w := kernel_w par wc r in
  mkAcc (ne_add (a_ne a) (term_ne T w r))
        (a_err a + (if squared then w * w else w) * sq_norm r).

(** lines 62-68, 108-119: the cursor over the weight blocks and the weight of a point pair.
    The weight persists in w.pt2pt. *)
Record Cursor := mkCur { cur_blocks : list (nat * R); cur_start : nat }.
Definition next_weight (pts_weighted : bool) (par : GParams) (i : nat) (c : Cursor) : res (R * Cursor) :=
  if pts_weighted then
    let* s := step_block i (cur_blocks c) (cur_start c) in
    let '(bl, st, w) := s in Ok (w, mkCur bl st)
  else Ok (g_w_pt2pt par, c).
Definition weighted (p : GPairs) : bool := match gp_weights p with [] => false | _ => true end.

(** ** Build without TBB: lines 140-176 *)
Fixpoint seq_points (par : GParams) (p : GPairs) (T : Pose) (i : nat) (ps : list (V3 * V3)) (c : Cursor) (a : Acc)
  : res (Acc * Cursor) :=
  match ps with
  | [] => Ok (a, c)
  | x :: rest =>
    let* wc := next_weight (weighted p) par i c in
    let '(w, c') := wc in
    seq_points par p T (S i) rest c' (add_term T false par w a (rows_pt2pt T x))
  end.

(** lines 195-213 *)
Fixpoint seq_lines (par : GParams) (T : Pose) (ls : list (Line * Line)) (a : Acc) : res Acc :=
  match ls with
  | [] => Ok a
  | l :: rest => let* r := rows_ln2ln T l in seq_lines par T rest (add_term T true par (g_w_ln2ln par) a r)
  end.

(** lines 178-193 and 195-213: point-to-line and line-to-line, both builds *)
Definition middle_terms (par : GParams) (p : GPairs) (T : Pose) (a : Acc) : res Acc :=
  seq_lines par T (gp_ln2ln p)
    (fold_left (fun a x => add_term T true par (g_w_pt2ln par) a (rows_pt2ln T x)) (gp_pt2ln p) a).

(** lines 266-314: plane-to-plane and the prior, both builds *)
Definition last_terms (par : GParams) (p : GPairs) (T : Pose) (a : Acc) : Acc :=
  let a := fold_left (fun a x => add_term T true par (g_w_pl2pl par) a (rows_pl2pl T x)) (gp_pl2pl p) a in
  match g_prior par with
  | None => a
  | Some f => let '(H, g) := f T in mkAcc (ne_add (a_ne a) (mkNE H g)) (a_err a)
  end.

(** One iteration up to the solution of the normal equations.  H and g are those left by the previous
    iteration (lines 59-60 are before the loop). *)
Definition iter_seq (par : GParams) (p : GPairs) (T : Pose) (prev : NE) (c : Cursor) : res (Acc * Cursor) :=
  let* ac := seq_points par p T 0 (gp_pt2pt p) c (mkAcc prev 0) in
  let '(a, c) := ac in
  let* a := middle_terms par p T a in
  let a := fold_left (fun a x => add_term T true par (g_w_pt2pl par) a (rows_pt2pl T x)) (gp_pt2pl p) a in
  Ok (last_terms par p T a, c).

(** ** Build with TBB: lines 79-138, 215-253 *)

(** tbb::parallel_reduce on [lo, hi): the body on a range starting from the identity, the body
    continuing from a previous result, or the join of two results *)
Inductive rtree := RBody (lo hi : nat) | RCont (t : rtree) (lo hi : nat) | RJoin (a b : rtree).
Inductive covers : rtree -> nat -> nat -> Prop :=
| cv_body : forall lo hi, (lo <= hi)%nat -> covers (RBody lo hi) lo hi
| cv_cont : forall t lo m hi, covers t lo m -> (m <= hi)%nat -> covers (RCont t m hi) lo hi
| cv_join : forall a b lo m hi, covers a lo m -> covers b m hi -> covers (RJoin a b) lo hi.
(** body: adds the contributions of a range, in order *)
Definition body (f : nat -> NE) (lo hi : nat) (a : NE) : NE :=
  fold_left (fun a i => ne_add a (f i)) (seq lo (hi - lo)) a.
Fixpoint reduce (f : nat -> NE) (t : rtree) : NE :=
  match t with
  | RBody lo hi => body f lo hi ne_zero
  | RCont t lo hi => body f lo hi (reduce f t)
  | RJoin a b => ne_add (reduce f a) (reduce f b)
  end.

(** What TBB decides in one iteration: the two reduction trees, the order in which the iterations
    of the point loop advance the shared cursor, and the value the racing additions leave in the
    shared errNormSqr (lines 124, 242) given the contributions of the pairs.
    Simplification: the cursor is advanced atomically. *)
Record Sched := mkSched {
  s_pt : rtree; s_pl : rtree; s_order : list nat; s_race : list R -> R }.
Definition fair (p : GPairs) (s : Sched) : Prop :=
  covers (s_pt s) 0 (length (gp_pt2pt p)) /\ covers (s_pl s) 0 (length (gp_pt2pl p)).

Fixpoint cursor_weights (par : GParams) (p : GPairs) (order : list nat) (c : Cursor) : res (list (nat * R) * Cursor) :=
  match order with
  | [] => Ok ([], c)
  | i :: rest =>
    let* wc := next_weight (weighted p) par i c in
    let '(w, c1) := wc in
    let* r := cursor_weights par p rest c1 in
    let '(l, c2) := r in Ok ((i, w) :: l, c2)
  end.
Definition assigned (par : GParams) (l : list (nat * R)) (i : nat) : R :=
  match find (fun x => Nat.eqb (fst x) i) l with Some (_, w) => w | None => g_w_pt2pt par end.

Definition point_ne (par : GParams) (p : GPairs) (T : Pose) (wt : nat -> R) (i : nat) : NE :=
  match nth_error (gp_pt2pt p) i with
  | Some x => let r := rows_pt2pt T x in term_ne T (kernel_w par (wt i) r) r
  | None => ne_zero
  end.
Definition plane_ne (par : GParams) (p : GPairs) (T : Pose) (i : nat) : NE :=
  match nth_error (gp_pt2pl p) i with
  | Some x => let r := rows_pt2pl T x in term_ne T (kernel_w par (g_w_pt2pl par) r) r
  | None => ne_zero
  end.
Definition point_err (par : GParams) (p : GPairs) (T : Pose) (wt : nat -> R) (i : nat) : R :=
  match nth_error (gp_pt2pt p) i with
  | Some x => let r := rows_pt2pt T x in kernel_w par (wt i) r * sq_norm r | None => 0 end.
Definition plane_err (par : GParams) (p : GPairs) (T : Pose) (i : nat) : R :=
  match nth_error (gp_pt2pl p) i with
  | Some x => let r := rows_pt2pl T x in kernel_w par (g_w_pt2pl par) r * sq_norm r | None => 0 end.

(** lines 137-138 replace H and g; lines 252-253 add *)
Definition iter_tbb (par : GParams) (p : GPairs) (T : Pose) (s : Sched) (c : Cursor) : res (Acc * Cursor) :=
  let* ac := cursor_weights par p (s_order s) c in
  let '(l, c) := ac in
  let wt := assigned par l in
  let err := s_race s (map (point_err par p T wt) (seq 0 (length (gp_pt2pt p)))) in
  let* a := middle_terms par p T (mkAcc (reduce (point_ne par p T wt) (s_pt s)) err) in
  let a := mkAcc (ne_add (a_ne a) (reduce (plane_ne par p T) (s_pl s)))
                 (a_err a + s_race s (map (plane_err par p T) (seq 0 (length (gp_pt2pl p))))) in
  Ok (last_terms par p T a, c).

(** ** The loop: lines 70-330 *)
Definition padd_pose (T D : Pose) : Pose :=
  mkPose (rotate T (c0 D)) (rotate T (c1 D)) (rotate T (c2 D)) (compose T (tr D)).

Section Loop.
Variable ldlt : M66 -> V6 -> V6.
Variable exp6 : V6 -> Pose.
Variable par : GParams.
Variable p : GPairs.

(** A record of one inner iteration: the pose it linearises at, the normal equations, and
    errNormSqr *)
Record Step := mkStep { st_pose : Pose; st_ne : NE; st_err : R }.

(** [build k]: [None] the sequential build, [Some s] the TBB build with schedule s at iteration k *)
Fixpoint gn_loop (sched : nat -> option Sched) (fuel k : nat) (T : Pose) (prev : NE) (c : Cursor) (log : list Step)
  : res (Pose * list Step) :=
  match fuel with
  | O => Ok (T, log)
  | S fuel =>
    let* ac := match sched k with None => iter_seq par p T prev c | Some s => iter_tbb par p T s c end in
    let '(a, c) := ac in
    let log := log ++ [mkStep T (a_ne a) (a_err a)] in
    if Rle_dec (sqrt (a_err a)) (g_max_cost par) then Ok (T, log)
    else
      let delta := scale6 (-1) (ldlt (ne_H (a_ne a)) (ne_g (a_ne a))) in
      let T' := padd_pose T (exp6 delta) in
      if Rlt_dec (sqrt (dot6 delta delta)) (g_min_delta par) then Ok (T', log)
      else gn_loop sched fuel (S k) T' (a_ne a) c log
  end.

(** lines 35-60, 332 *)
Definition optimal_tf_gauss_newton (sched : nat -> option Sched) : res (bool * Pose * list Step) :=
  match g_point par with
  | None => Throw
  | Some T0 =>
    let* r := gn_loop sched (g_max_inner par) 0 T0 ne_zero (mkCur (gp_weights p) 0) [] in
    let '(T, log) := r in Ok (true, T, log)
  end.
End Loop.
