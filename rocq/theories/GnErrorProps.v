(** C339: the error that the Gauss-Newton solver compares with its limit (maxCost). *)
From Coq Require Import Reals List Lra Lia.
From Verif Require Import Base GeomModel VisitModel VisitSpec GnModel GnSpec GnProps GnCasesProps GnWhereProps.
Import ListNotations.
Open Scope R_scope.

(** The error of a class of pairs: each pair adds its squared residual times the weight, or times the square of the weight *)
Definition class_error {A} (par : GParams) (w : R) (f : A -> rows) (l : list A) : R := rsum (fun x => robust par w (f x) * sq_norm (f x)) l.
Definition class_error_sq {A} (par : GParams) (w : R) (f : A -> rows) (l : list A) : R :=
  rsum (fun x => (robust par w (f x) * robust par w (f x)) * sq_norm (f x)) l.
(** What the code computes at T: the weight once for point pairs, squared for lines and planes; for point-to-plane pairs it depends
    on the build *)
Definition compared_error (tbb_build : bool) (par : GParams) (p : GPairs) (T : Pose) : R :=
  class_error par (g_w_pt2pt par) (rows_pt2pt T) (gp_pt2pt p) +
  class_error_sq par (g_w_pt2ln par) (rows_pt2ln T) (gp_pt2ln p) +
  class_error_sq par (g_w_ln2ln par) (line_rows T) (gp_ln2ln p) +
  (if tbb_build then class_error par (g_w_pt2pl par) (rows_pt2pl T) (gp_pt2pl p) else class_error_sq par (g_w_pt2pl par) (rows_pt2pl T) (gp_pt2pl p)) +
  class_error_sq par (g_w_pl2pl par) (rows_pl2pl T) (gp_pl2pl p).

Lemma fold_err {A} T par w (f : A -> rows) xs : forall a,
  a_err (fold_left (fun a x => add_term T true par w a (f x)) xs a) = a_err a + class_error_sq par w f xs.
Proof.
  unfold class_error_sq. induction xs as [|x xs IH]; intros a; cbn [fold_left rsum]; [ring|]. rewrite IH. cbn [add_term a_err].
  change (kernel_w par w (f x)) with (robust par w (f x)). ring.
Qed.
Lemma seq_points_err par p T ps : gp_weights p = [] -> forall i c a a' c', seq_points par p T i ps c a = Ok (a', c') ->
  a_err a' = a_err a + class_error par (g_w_pt2pt par) (rows_pt2pt T) ps.
Proof.
  intros NW. unfold class_error. induction ps as [|x ps IH]; intros i c a a' c' E; cbn [seq_points rsum] in *.
  - injection E as <- <-. ring.
  - unfold next_weight, weighted in E. rewrite NW in E. cbn [rbind] in E. rewrite (IH _ _ _ _ _ E). cbn [add_term a_err].
    change (kernel_w par (g_w_pt2pt par) (rows_pt2pt T x)) with (robust par (g_w_pt2pt par) (rows_pt2pt T x)). ring.
Qed.
(** Line pairs that are nearly parallel at T *)
Definition readable (T : Pose) (l : Line * Line) : Prop := 1 / 100 <= Rabs (alfa (fst l) (snd l) T).
Lemma rows_ln T l : (readable T l -> rows_ln2ln T l = Ok (line_rows T l)) /\ (~ readable T l -> rows_ln2ln T l = UB).
Proof. unfold rows_ln2ln, readable, line_rows. destruct (Rlt_dec _ _) as [L|NL]; split; intro H; try reflexivity; exfalso; lra. Qed.
Lemma readable_dec T l : readable T l \/ ~ readable T l.
Proof. unfold readable. destruct (Rle_dec (1 / 100) (Rabs (alfa (fst l) (snd l) T))); auto. Qed.
Lemma lines_err par T ls : forall a a', seq_lines par T ls a = Ok a' -> a_err a' = a_err a + class_error_sq par (g_w_ln2ln par) (line_rows T) ls.
Proof.
  unfold class_error_sq. induction ls as [|l ls IH]; intros a a' E; cbn [seq_lines rsum] in *.
  - injection E as <-. ring.
  - destruct (rows_ln T l) as [Y N]. destruct (readable_dec T l) as [R|NR]; [rewrite (Y R) in E|rewrite (N NR) in E; discriminate E].
    cbn [rbind] in E. rewrite (IH _ _ E). cbn [add_term a_err].
    change (kernel_w par (g_w_ln2ln par) (line_rows T l)) with (robust par (g_w_ln2ln par) (line_rows T l)). ring.
Qed.
Lemma lines_ub par T ls : forall a, (Forall (readable T) ls -> exists a', seq_lines par T ls a = Ok a') /\
  (~ Forall (readable T) ls -> seq_lines par T ls a = UB).
Proof.
  induction ls as [|l ls IH]; intros a; cbn [seq_lines]; (split; intro H).
  - eauto.
  - exfalso; apply H; constructor.
  - inversion H as [|? ? R F]; subst. rewrite (proj1 (rows_ln T l) R). cbn [rbind]. apply IH. exact F.
  - destruct (readable_dec T l) as [R|NR]; [|rewrite (proj2 (rows_ln T l) NR); reflexivity].
    rewrite (proj1 (rows_ln T l) R). cbn [rbind]. apply IH. intro F. apply H. constructor; assumption.
Qed.
Lemma middle_err par p T a a' : middle_terms par p T a = Ok a' ->
  a_err a' = a_err a + class_error_sq par (g_w_pt2ln par) (rows_pt2ln T) (gp_pt2ln p) + class_error_sq par (g_w_ln2ln par) (line_rows T) (gp_ln2ln p).
Proof. unfold middle_terms. intro E. rewrite (lines_err _ _ _ _ _ E), fold_err. ring. Qed.
Lemma last_err par p T a : a_err (last_terms par p T a) = a_err a + class_error_sq par (g_w_pl2pl par) (rows_pl2pl T) (gp_pl2pl p).
Proof. unfold last_terms. destruct (g_prior par) as [f|]; [destruct (f T) as [H g]; cbn [a_err]|]; apply fold_err. Qed.
Lemma pts_map_err T par p wt ps : (forall i, wt i = g_w_pt2pt par) -> forall pre, gp_pt2pt p = pre ++ ps ->
  fold_right Rplus 0 (map (point_err par p T wt) (seq (length pre) (length ps))) = class_error par (g_w_pt2pt par) (rows_pt2pt T) ps.
Proof.
  intros W. unfold class_error. induction ps as [|x ps IH]; intros pre E; cbn [length seq map fold_right rsum]; [reflexivity|].
  assert (X : point_err par p T wt (length pre) = robust par (g_w_pt2pt par) (rows_pt2pt T x) * sq_norm (rows_pt2pt T x)).
  { unfold point_err. rewrite E, nth_error_app2, Nat.sub_diag by lia. cbn [nth_error]. rewrite W. reflexivity. }
  rewrite X. specialize (IH (pre ++ [x])). rewrite app_length in IH. cbn [length] in IH.
  replace (length pre + 1)%nat with (S (length pre)) in IH by lia. rewrite IH; [reflexivity|]. rewrite E, <- app_assoc. reflexivity.
Qed.
Lemma pls_map_err T par p ps : forall pre, gp_pt2pl p = pre ++ ps ->
  fold_right Rplus 0 (map (plane_err par p T) (seq (length pre) (length ps))) = class_error par (g_w_pt2pl par) (rows_pt2pl T) ps.
Proof.
  unfold class_error. induction ps as [|x ps IH]; intros pre E; cbn [length seq map fold_right rsum]; [reflexivity|].
  assert (X : plane_err par p T (length pre) = robust par (g_w_pt2pl par) (rows_pt2pl T x) * sq_norm (rows_pt2pl T x)).
  { unfold plane_err. rewrite E, nth_error_app2, Nat.sub_diag by lia. reflexivity. }
  rewrite X. specialize (IH (pre ++ [x])). rewrite app_length in IH. cbn [length] in IH.
  replace (length pre + 1)%nat with (S (length pre)) in IH by lia. rewrite IH; [reflexivity|]. rewrite E, <- app_assoc. reflexivity.
Qed.

(** one iteration *)
Definition is_tbb (b : option Sched) : bool := match b with Some _ => true | None => false end.
Definition one_iteration (par : GParams) (p : GPairs) (b : option Sched) (T : Pose) (prev : NE) (c : Cursor) : res (Acc * Cursor) :=
  match b with None => iter_seq par p T prev c | Some s => iter_tbb par p T s c end.
Lemma iter_err par p b T prev c a c' : gp_weights p = [] -> (forall s, b = Some s -> nothing_lost s) ->
  one_iteration par p b T prev c = Ok (a, c') -> a_err a = compared_error (is_tbb b) par p T.
Proof.
  intros NW NL E. unfold compared_error. destruct b as [s|]; cbn [one_iteration is_tbb] in *.
  - unfold iter_tbb in E. rewrite unweighted_cursor in E by exact NW. cbn [rbind] in E. apply rbind_inv in E as [a1 [M E]]. injection E as <- <-.
    rewrite last_err. cbn [a_err]. rewrite (middle_err _ _ _ _ _ M). cbn [a_err]. rewrite !(NL s eq_refl).
    assert (P1 := pts_map_err T par p _ (gp_pt2pt p) (fun i => unweighted_assigned par (s_order s) i) [] eq_refl).
    assert (P2 := pls_map_err T par p (gp_pt2pl p) [] eq_refl). change (length (@nil (V3 * V3))) with 0%nat in P1. change (length (@nil (Plane * V3))) with 0%nat in P2.
    rewrite P1, P2. ring.
  - unfold iter_seq in E. apply rbind_inv in E as [[a0 c0] [P E]]. apply rbind_inv in E as [a1 [M E]]. injection E as <- <-.
    rewrite last_err, fold_err, (middle_err _ _ _ _ _ M), (seq_points_err _ _ _ _ NW _ _ _ _ _ P). cbn [a_err]. ring.
Qed.

Section Runs.
Variables (ldlt : M66 -> V6 -> V6) (exp6 : V6 -> Pose).

(** C339: the error compared with the limit in each inner iteration, for every build and schedule that loses no addition *)
Theorem C339_compared_error : forall par p (sched : nat -> option Sched) T log,
  gp_weights p = [] -> (forall k s, sched k = Some s -> nothing_lost s) ->
  optimal_tf_gauss_newton ldlt exp6 par p sched = Ok (true, T, log) ->
  forall k s, nth_error log k = Some s -> st_err s = compared_error (is_tbb (sched k)) par p (st_pose s).
Proof.
  intros par p sched T log NW NL E. unfold optimal_tf_gauss_newton in E. destruct (g_point par) as [T0|]; [|discriminate E].
  apply rbind_inv in E as [[T1 lg] [L E]]. injection E as <- <-.
  assert (G : forall fuel k T0 prev c log0 T1 lg, length log0 = k -> gn_loop ldlt exp6 par p sched fuel k T0 prev c log0 = Ok (T1, lg) ->
    (forall j s, nth_error log0 j = Some s -> st_err s = compared_error (is_tbb (sched j)) par p (st_pose s)) ->
    (forall j s, nth_error lg j = Some s -> st_err s = compared_error (is_tbb (sched j)) par p (st_pose s))).
  { clear -NW NL. induction fuel as [|fuel IH]; intros k T0 prev c log0 T1 lg LK L F; cbn [gn_loop] in L.
    - injection L as <- <-. exact F.
    - apply rbind_inv in L as [[a c'] [I L]]. change (one_iteration par p (sched k) T0 prev c = Ok (a, c')) in I.
      apply iter_err in I; [|exact NW|exact (NL k)].
      assert (F1 : forall j s, nth_error (log0 ++ [mkStep T0 (a_ne a) (a_err a)]) j = Some s -> st_err s = compared_error (is_tbb (sched j)) par p (st_pose s)).
      { intros j s N. destruct (Nat.lt_ge_cases j k) as [LT|GE]; [rewrite nth_error_app1 in N by lia; exact (F j s N)|].
        rewrite nth_error_app2 in N by lia. destruct (j - length log0)%nat as [|d] eqn:D; [|destruct d; discriminate N].
        cbn [nth_error] in N. injection N as <-. cbn [st_err st_pose]. replace j with k by lia. exact I. }
      destruct (Rle_dec _ _); [injection L as <- <-; exact F1|]. destruct (Rlt_dec _ _); [injection L as <- <-; exact F1|].
      refine (IH (S k) _ _ _ _ _ _ _ L F1). rewrite app_length. cbn [length]. lia. }
  exact (G _ _ _ _ _ _ _ _ (eq_refl : length (@nil Step) = 0%nat) L (fun j s N => match j, N with O, N | Datatypes.S _, N => ltac:(discriminate N) end)).
Qed.

(** where it is the weighted sum of squares of all residuals: no robust kernel, and the weight of each class with pairs is 1 or 0 (except point
    pairs; and point-to-plane pairs in the TBB build) *)
Definition idempotent (w : R) : Prop := w = 0 \/ w = 1.
Lemma class_err_rows {A} T par w (f : Pose -> A -> rows) l :
  rsum (fun r => w_w r * (w_e r * w_e r)) (class_rows T par w f l) = class_error par w (f T) l.
Proof. unfold class_rows, class_error. induction l as [|x l IH]; cbn [flat_map rsum]; [reflexivity|]. rewrite rsum_app, wrows_err, IH. reflexivity. Qed.
Lemma class_err_sq {A} par w (f : A -> rows) l : g_kernel par = None -> l = [] \/ idempotent w -> class_error_sq par w f l = class_error par w f l.
Proof.
  intros K [-> | I]; [reflexivity|]. unfold class_error_sq, class_error. induction l as [|x l IH]; cbn [rsum]; [reflexivity|].
  rewrite IH. unfold robust. rewrite K. destruct I as [-> | ->]; ring.
Qed.
Lemma point_err_rows T par w l : forall i, rsum (fun r => w_w r * (w_e r * w_e r)) (point_rows T par (fun _ => w) i l) = class_error par w (rows_pt2pt T) l.
Proof. unfold class_error. induction l as [|x l IH]; intros i; cbn [point_rows rsum]; [reflexivity|]. rewrite rsum_app, wrows_err, IH. reflexivity. Qed.

Theorem C339_weighted_error_where : forall par p (sched : nat -> option Sched) T log,
  gp_weights p = [] -> (forall k s, sched k = Some s -> nothing_lost s) -> g_kernel par = None ->
  gp_pt2ln p = [] \/ idempotent (g_w_pt2ln par) -> gp_ln2ln p = [] \/ idempotent (g_w_ln2ln par) -> gp_pl2pl p = [] \/ idempotent (g_w_pl2pl par) ->
  (forall k, sched k <> None) \/ gp_pt2pl p = [] \/ idempotent (g_w_pt2pl par) ->
  optimal_tf_gauss_newton ldlt exp6 par p sched = Ok (true, T, log) ->
  forall s, In s log -> st_err s = weighted_error par p (st_pose s).
Proof.
  intros par p sched T log NW NL K I1 I2 I3 I4 E s I. apply In_nth_error in I as [k N]. rewrite (C339_compared_error _ _ _ _ _ NW NL E k s N).
  unfold compared_error, weighted_error, all_rows, all_rows_with. rewrite !rsum_app, !class_err_rows.
  replace (rsum _ (point_rows _ _ _ _ _)) with (class_error par (g_w_pt2pt par) (rows_pt2pt (st_pose s)) (gp_pt2pt p)).
  2:{ rewrite <- (point_err_rows _ _ _ _ 0). unfold point_weight. rewrite NW. reflexivity. }
  rewrite (class_err_sq _ _ _ _ K I1), (class_err_sq _ _ _ _ K I2), (class_err_sq _ _ _ _ K I3).
  destruct (sched k) as [z|] eqn:Z; cbn [is_tbb]; [ring|]. rewrite (class_err_sq par (g_w_pt2pl par) _ _ K); [ring|].
  destruct I4 as [I4|I4]; [destruct (I4 k Z)|exact I4].
Qed.

(** Line pairs: reading the error of a nearly parallel pair is undefined behaviour, and nothing else in an iteration is *)
Theorem C339_parallel_lines_undefined : forall par p b T prev c, gp_weights p = [] ->
  (Forall (readable T) (gp_ln2ln p) -> exists r, one_iteration par p b T prev c = Ok r) /\
  (~ Forall (readable T) (gp_ln2ln p) -> one_iteration par p b T prev c = UB).
Proof.
  intros par p b T prev c NW.
  assert (P : forall ps i c a, exists r, seq_points par p T i ps c a = Ok r).
  { induction ps as [|x ps IH]; intros i c1 a; cbn [seq_points]; [eauto|]. unfold next_weight, weighted. rewrite NW. cbn [rbind]. apply IH. }
  destruct b as [s|]; cbn [one_iteration]; unfold iter_tbb, iter_seq, middle_terms; [rewrite unweighted_cursor by exact NW; cbn [rbind]|destruct (P (gp_pt2pt p) 0%nat c (mkAcc prev 0)) as [[a0 c0] ->]; cbn [rbind]];
    (match goal with |- context [seq_lines par T (gp_ln2ln p) ?a] => destruct (lines_ub par T (gp_ln2ln p) a) as [Y N] end;
     split; intro F; [destruct (Y F) as [a' ->]; cbn [rbind]; eauto|rewrite (N F); reflexivity]).
Qed.
End Runs.

(** Refuted in general: with a weight of 2 a point-to-line pair counts four times its squared error *)
Definition xaxis : Line := mkLine vzero3 (mkV 1 0 0).
Definition floor : Plane := mkPlane (mkV 0 0 1) 0.
Definition up : Pose := Tv (mkV 0 0 1).
Definition wpar (n : nat) (cost w : R) : GParams := mkGPar (Some up) n 0 cost None 1 w 1 w 1 None.
Lemma sq_line : sq_norm (rows_pt2ln up (xaxis, vzero3)) = 1.
Proof.
  unfold rows_pt2ln, rows_of, error_point2line, xaxis, up, Tv, vzero3, jac_point2line, compose, rotate, vadd, vscale, vsub, vdot, l3. cbn [fst snd vx vy vz l_base l_dir c0 c1 c2 tr].
  unfold mmul, sq_norm. cbn [map combine fold_right fst]. ring.
Qed.
Lemma sq_plane : sq_norm (rows_pt2pl up (floor, vzero3)) = 1.
Proof.
  unfold rows_pt2pl, rows_of, error_point2plane, floor, up, Tv, vzero3, jac_point2plane, compose, rotate, vadd, vscale, vsub, vdot, l3. cbn [fst snd vx vy vz n_ d_ c0 c1 c2 tr].
  unfold mmul, sq_norm. cbn [map combine fold_right fst]. field.
Qed.
Theorem C339_weight_squared_refuted : forall ldlt exp6, exists par p T s,
  gp_weights p = [] /\ g_kernel par = None /\ optimal_tf_gauss_newton ldlt exp6 par p (fun _ => None) = Ok (true, T, [s]) /\
  weighted_error par p (st_pose s) = 2 /\ st_err s = 4.
Proof.
  intros ldlt exp6. set (p := mkGP [] [(xaxis, vzero3)] [] [] [] []). set (par := wpar 1 0 2).
  destruct (proj1 (C339_parallel_lines_undefined par p None up ne_zero (mkCur [] 0) eq_refl)) as [[a c] E]; [constructor|]. 
  assert (A := iter_err par p None up _ _ a c eq_refl ltac:(discriminate) E). cbn [is_tbb] in A.
  assert (A4 : a_err a = 4).
  { rewrite A. unfold compared_error, class_error, class_error_sq, p, par. cbn [gp_pt2pt gp_pt2ln gp_ln2ln gp_pt2pl gp_pl2pl rsum]. rewrite sq_line. unfold robust. cbn [wpar g_kernel g_w_pt2ln]. ring. }
  assert (R : exists T, optimal_tf_gauss_newton ldlt exp6 par p (fun _ => None) = Ok (true, T, [mkStep up (a_ne a) (a_err a)])).
  { unfold optimal_tf_gauss_newton. change (g_point par) with (Some up). cbn iota. change (g_max_inner par) with 1%nat. cbn [gn_loop].
    cbn [one_iteration] in E. change (gp_weights p) with (@nil (nat * R)). rewrite E. cbn [rbind app].
    destruct (Rle_dec _ _); cbn [rbind]; [eauto|]. destruct (Rlt_dec _ _); cbn [rbind]; eauto. }
  destruct R as [T R]. exists par, p, T, (mkStep up (a_ne a) (a_err a)). split; [reflexivity|]. split; [reflexivity|]. split; [exact R|]. split; [|exact A4].
  unfold weighted_error, all_rows, all_rows_with. rewrite !rsum_app, !class_err_rows. cbn [st_pose]. unfold class_error, p. cbn [gp_pt2pt gp_pt2ln gp_ln2ln gp_pt2pl gp_pl2pl rsum point_rows].
  rewrite sq_line. unfold robust, par. cbn [wpar g_kernel g_w_pt2ln]. ring.
Qed.

(** and with a weight of 1/2 and one point-to-plane pair the two builds disagree on whether the limit is reached: the sequential one stops at once
    and returns the guess, the TBB one goes on to a second iteration *)
Definition sched_pl (order : list nat) : Sched := mkSched (RBody 0 0) (RBody 0 1) order plus_all.
Theorem C339_builds_disagree_refuted : forall ldlt exp6 order, exists par p T' s s1 s2,
  g_point par = Some up /\ gp_weights p = [] /\ g_kernel par = None /\ g_prior par = None /\ fair p (sched_pl order) /\ nothing_lost (sched_pl order) /\
  optimal_tf_gauss_newton ldlt exp6 par p (fun _ => None) = Ok (true, up, [s]) /\
  optimal_tf_gauss_newton ldlt exp6 par p (fun _ => Some (sched_pl order)) = Ok (true, T', [s1; s2]).
Proof.
  intros ldlt exp6 order. set (p := mkGP [] [] [] [(floor, vzero3)] [] []). set (par := wpar 2 (3 / 5) (1 / 2)).
  assert (NLo : nothing_lost (sched_pl order)) by (intro l; reflexivity).
  assert (IT : forall b T prev c, exists r, one_iteration par p b T prev c = Ok r) by (intros b T prev c; apply (proj1 (C339_parallel_lines_undefined par p b T prev c eq_refl)); constructor).
  assert (Hs : exists s, optimal_tf_gauss_newton ldlt exp6 par p (fun _ => None) = Ok (true, up, [s])).
  { destruct (IT None up ne_zero (mkCur [] 0)) as [[a c] E].
    assert (A := iter_err par p None up _ _ a c eq_refl ltac:(discriminate) E). cbn [is_tbb] in A.
    assert (A4 : a_err a = (1/2) * (1/2)).
    { rewrite A. unfold compared_error, class_error, class_error_sq, p, par. cbn [gp_pt2pt gp_pt2ln gp_ln2ln gp_pt2pl gp_pl2pl rsum]. rewrite sq_plane. unfold robust. cbn [wpar g_kernel g_w_pt2pl]. ring. }
    eexists. unfold optimal_tf_gauss_newton. change (g_point par) with (Some up). cbn iota. change (g_max_inner par) with 2%nat. cbn [gn_loop].
    cbn [one_iteration] in E. change (gp_weights p) with (@nil (nat * R)). rewrite E. cbn [rbind app].
    destruct (Rle_dec _ _) as [L|NL]; [cbn [rbind]; reflexivity|]. exfalso. apply NL. rewrite A4, sqrt_square by lra. unfold par. cbn [wpar g_max_cost]. lra. }
  assert (Ht : exists T' s1 s2, optimal_tf_gauss_newton ldlt exp6 par p (fun _ => Some (sched_pl order)) = Ok (true, T', [s1; s2])).
  { destruct (IT (Some (sched_pl order)) up ne_zero (mkCur [] 0)) as [[a c] E].
    assert (A := iter_err par p (Some (sched_pl order)) up _ _ a c eq_refl ltac:(intros z Z; injection Z as <-; exact NLo) E). cbn [is_tbb] in A.
    assert (A4 : a_err a = 1/2).
    { rewrite A. unfold compared_error, class_error, class_error_sq, p, par. cbn [gp_pt2pt gp_pt2ln gp_ln2ln gp_pt2pl gp_pl2pl rsum]. rewrite sq_plane. unfold robust. cbn [wpar g_kernel g_w_pt2pl]. ring. }
    unfold optimal_tf_gauss_newton. change (g_point par) with (Some up). cbn iota. change (g_max_inner par) with 2%nat. cbn [gn_loop].
    cbn [one_iteration] in E. change (gp_weights p) with (@nil (nat * R)). rewrite E. cbn [rbind app].
    destruct (Rle_dec _ _) as [L|NL].
    { exfalso. rewrite A4 in L. unfold par in L. cbn [wpar g_max_cost] in L. assert (Q := sqrt_sqrt (1/2) ltac:(lra)). assert (P := sqrt_pos (1/2)). nra. }
    destruct (Rlt_dec _ _) as [L2|_].
    { exfalso. unfold par in L2. cbn [wpar g_min_delta] in L2. match type of L2 with sqrt ?x < 0 => assert (P := sqrt_pos x); lra end. }
    match goal with |- context [iter_tbb par p ?T (sched_pl order) ?cc] => destruct (IT (Some (sched_pl order)) T (a_ne a) cc) as [[a2 c2] E2] end.
    cbn [one_iteration] in E2. rewrite E2. cbn [rbind app].
    destruct (Rle_dec _ _); cbn [rbind]; [do 3 eexists; reflexivity|]. destruct (Rlt_dec _ _); cbn [rbind]; do 3 eexists; reflexivity. }
  destruct Hs as [s Hs]. destruct Ht as (T' & s1 & s2 & Ht). exists par, p, T', s, s1, s2. repeat (split; [reflexivity|]).
  split; [split; constructor; cbn; lia|]. split; [exact NLo|]. split; assumption.
Qed.

(** a non-trivial case of the where theorem: all classes, default weights *)
Example C339_where_case : gp_weights (mkGP [] [(xaxis, vzero3)] [] [(floor, vzero3)] [] []) = [] /\ g_kernel (tpar 3) = None /\
  idempotent (g_w_pt2ln (tpar 3)) /\ idempotent (g_w_ln2ln (tpar 3)) /\ idempotent (g_w_pl2pl (tpar 3)) /\ idempotent (g_w_pt2pl (tpar 3)) /\
  exists T log, optimal_tf_gauss_newton ldlt_t (fun d => Tv vzero3) (tpar 1) (mkGP [] [(xaxis, vzero3)] [] [(floor, vzero3)] [] []) (fun _ => None) = Ok (true, T, log).
Proof.
  repeat (split; [first [reflexivity|right; reflexivity]|]). set (p := mkGP _ _ _ _ _ _).
  destruct (proj1 (C339_parallel_lines_undefined (tpar 1) p None (Tv vzero3) ne_zero (mkCur [] 0) eq_refl)) as [[a c] E]; [constructor|].
  unfold optimal_tf_gauss_newton. change (g_point (tpar 1)) with (Some (Tv vzero3)). cbn iota. change (g_max_inner (tpar 1)) with 1%nat. cbn [gn_loop].
  cbn [one_iteration] in E. change (gp_weights p) with (@nil (nat * R)). rewrite E. cbn [rbind app].
  destruct (Rle_dec _ _); cbn [rbind]; [eauto|]. destruct (Rlt_dec _ _); cbn [rbind]; eauto.
Qed.
Print Assumptions C339_compared_error.
Print Assumptions C339_builds_disagree_refuted.
