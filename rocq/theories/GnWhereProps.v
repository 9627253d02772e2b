(** C94-C96: where the weights and the result of the Gauss-Newton solver do not depend on the
    iteration or on the schedule. *)
From Coq Require Import Reals List Lra Lia Psatz Permutation.
From Verif Require Import Base GeomModel VisitModel VisitSpec VisitProps GnModel GnSpec GnProps GnCasesProps.
Import ListNotations.
Open Scope R_scope.

(** every block of the pairing weights carries the same weight [w] *)
Definition equal_weights (w : R) (p : GPairs) : Prop :=
  gp_weights p <> [] /\ Forall (fun b => snd b = w) (gp_weights p).
(** the parallel loop visits every point pair *)
Definition visits_all (p : GPairs) (s : Sched) : Prop := Permutation (s_order s) (seq 0 (length (gp_pt2pt p))).

Lemma step_block_equal w i bl st bl' st' x : Forall (fun b : nat * R => snd b = w) bl ->
  step_block i bl st = Ok (bl', st', x) -> x = w /\ Forall (fun b : nat * R => snd b = w) bl'.
Proof.
  intros F. unfold step_block. destruct bl as [|[n y] r]; [discriminate|]. inversion F as [|? ? E F']; subst. cbn in *.
  destruct (Nat.leb (st + n) i).
  - destruct r as [|[n2 y2] r2]; [discriminate|]. inversion F' as [|? ? E2 F2]; subst. cbn in *. intros [= <- <- <-]. auto.
  - intros [= <- <- <-]. auto.
Qed.
Lemma cursor_equal w par p order : gp_weights p <> [] -> forall c l c', Forall (fun b : nat * R => snd b = w) (cur_blocks c) ->
  cursor_weights par p order c = Ok (l, c') ->
  l = map (fun i => (i, w)) order /\ Forall (fun b : nat * R => snd b = w) (cur_blocks c').
Proof.
  intro NE. assert (W : weighted p = true) by (unfold weighted; destruct (gp_weights p); [congruence|reflexivity]).
  induction order as [|i order IH]; intros c l c' F E; cbn [cursor_weights] in E.
  - injection E as <- <-. auto.
  - rewrite W in E. unfold next_weight in E.
    destruct (step_block i (cur_blocks c) (cur_start c)) as [[[bl st] x]| |] eqn:SB; cbn [rbind] in E; try discriminate.
    destruct (step_block_equal w _ _ _ _ _ _ F SB) as [-> F1].
    destruct (cursor_weights par p order (mkCur bl st)) as [[l1 c1]| |] eqn:E1; cbn [rbind] in E; try discriminate.
    injection E as <- <-. destruct (IH (mkCur bl st) l1 c1 F1 E1) as [-> F2]. auto.
Qed.
Lemma assigned_equal w par order i : In i order -> assigned par (map (fun i => (i, w)) order) i = w.
Proof.
  unfold assigned. induction order as [|j order IH]; intro H; [destruct H|]. cbn [map find fst].
  destruct (Nat.eqb_spec j i); [reflexivity|]. apply IH. destruct H; [congruence|assumption].
Qed.
Lemma block_weight_equal w bl : Forall (fun b : nat * R => snd b = w) bl -> forall i, (i < block_total bl)%nat -> block_weight bl i = Some w.
Proof.
  induction 1 as [|[n y] r E F IH]; intros i H; cbn [block_total] in H; [lia|]. cbn in E. subst. cbn [block_weight].
  destruct (Nat.ltb_spec i n); [reflexivity|]. apply IH. lia.
Qed.
Lemma point_rows_ext_in T par wt wt' ps : forall i, (forall j, (i <= j < i + length ps)%nat -> wt j = wt' j) ->
  point_rows T par wt i ps = point_rows T par wt' i ps.
Proof.
  induction ps as [|x ps IH]; intros i H; cbn [point_rows]; [reflexivity|]. cbn [length] in H.
  rewrite H by lia. rewrite (IH (S i)); [reflexivity|]. intros j Hj. apply H. lia.
Qed.

(** ** C94, C95: with one weight for all the point pairs, every inner iteration of the TBB build,
    under every schedule, solves the normal equations with that weight.  (C30 is the case of no
    weights at all.) *)
Theorem C94_equal_weights_where : forall ldlt exp6 par p w sched T log,
  no_prior par -> equal_weights w p -> (length (gp_pt2pt p) <= block_total (gp_weights p))%nat ->
  (forall k, fair p (sched k) /\ visits_all p (sched k)) ->
  optimal_tf_gauss_newton ldlt exp6 par p (tbb sched) = Ok (true, T, log) ->
  Forall (fun s => normal_equations (all_rows par p (st_pose s)) (st_ne s)) log.
Proof.
  intros ldlt exp6 par p w sched T log NP [NE EW] CV FAIR E. unfold optimal_tf_gauss_newton in E.
  destruct (g_point par) as [T0|]; [|discriminate E]. apply rbind_inv in E. destruct E as [[T1 lg] [L E]]. injection E as <- <-.
  assert (G : forall fuel k T0 prev c log0 T1 lg, gn_loop ldlt exp6 par p (tbb sched) fuel k T0 prev c log0 = Ok (T1, lg) ->
    Forall (fun b : nat * R => snd b = w) (cur_blocks c) ->
    Forall (fun s => normal_equations (all_rows par p (st_pose s)) (st_ne s)) log0 ->
    Forall (fun s => normal_equations (all_rows par p (st_pose s)) (st_ne s)) lg).
  { clear T0 T1 lg L. induction fuel as [|fuel IH]; intros k T0 prev c log0 T1 lg L FC F; cbn [gn_loop] in L.
    - injection L as <- <-. exact F.
    - apply rbind_inv in L. destruct L as [[a c'] [IT L]]. cbn [tbb] in IT.
      destruct (iter_tbb_ok par p T0 (sched k) c a c' NP (proj1 (FAIR k)) IT) as [l [CW N]].
      destruct (cursor_equal w par p _ NE _ _ _ FC CW) as [-> FC'].
      assert (F' : Forall (fun s => normal_equations (all_rows par p (st_pose s)) (st_ne s)) (log0 ++ [mkStep T0 (a_ne a) (a_err a)])).
      { apply Forall_app. split; [exact F|]. constructor; [|constructor]. cbn [st_pose st_ne]. unfold all_rows, all_rows_with in *.
        rewrite (point_rows_ext_in _ _ _ (point_weight par p)) in N; [exact N|]. intros j Hj. cbn in Hj.
        rewrite assigned_equal.
        - unfold point_weight. destruct (gp_weights p) as [|b0 r0] eqn:EB; [congruence|]. rewrite <- EB in *.
          rewrite (block_weight_equal w); [reflexivity|exact EW|lia].
        - apply (Permutation_in _ (Permutation_sym (proj2 (FAIR k)))). apply in_seq. lia. }
      destruct (Rle_dec _ _); [injection L as <- <-; exact F'|].
      destruct (Rlt_dec _ _); [injection L as <- <-; exact F'|].
      exact (IH _ _ _ _ _ _ _ L FC' F'). }
  exact (G _ _ _ _ _ _ _ _ L EW (Forall_nil _)).
Qed.
Print Assumptions C94_equal_weights_where.

(** ** C96: when no addition is lost, the error the solver compares with its limit is, in every
    inner iteration and under every schedule, the weighted sum of squares of the residuals at the
    pose of that iteration.  (For point and plane pairings: the other classes add their error with
    the squared weight.) *)
Definition nothing_lost (s : Sched) : Prop := forall l, s_race s l = fold_right Rplus 0 l.
Definition weighted_error (par : GParams) (p : GPairs) (T : Pose) : R :=
  rsum (fun r => w_w r * (w_e r * w_e r)) (all_rows par p T).

Lemma rsum_app {A} (f : A -> R) a b : rsum f (a ++ b) = rsum f a + rsum f b.
Proof. induction a as [|x a IH]; cbn [app rsum]; [ring|]. rewrite IH. ring. Qed.
Lemma wrows_err T w r : rsum (fun r => w_w r * (w_e r * w_e r)) (wrows T w r) = w * sq_norm r.
Proof.
  unfold wrows, sq_norm. induction r as [|x r IH]; cbn [map rsum fold_right w_w w_e]; [ring|].
  rewrite IH. ring.
Qed.
Lemma points_err T par p wt ps : forall pre, gp_pt2pt p = pre ++ ps ->
  fold_right Rplus 0 (map (point_err par p T wt) (seq (length pre) (length ps)))
  = rsum (fun r => w_w r * (w_e r * w_e r)) (point_rows T par wt (length pre) ps).
Proof.
  induction ps as [|x ps IH]; intros pre E; cbn [length seq map fold_right point_rows]; [reflexivity|].
  rewrite rsum_app, wrows_err.
  assert (X : point_err par p T wt (length pre) = robust par (wt (length pre)) (rows_pt2pt T x) * sq_norm (rows_pt2pt T x)).
  { unfold point_err. rewrite E, nth_error_app2, Nat.sub_diag by lia. reflexivity. }
  rewrite X. specialize (IH (pre ++ [x])). rewrite app_length in IH. cbn [length] in IH.
  replace (length pre + 1)%nat with (S (length pre)) in IH by lia. rewrite IH; [reflexivity|]. rewrite E, <- app_assoc. reflexivity.
Qed.
Lemma planes_err T par p ps : forall pre, gp_pt2pl p = pre ++ ps ->
  fold_right Rplus 0 (map (plane_err par p T) (seq (length pre) (length ps)))
  = rsum (fun r => w_w r * (w_e r * w_e r)) (class_rows T par (g_w_pt2pl par) rows_pt2pl ps).
Proof.
  unfold class_rows. induction ps as [|x ps IH]; intros pre E; cbn [length seq map fold_right flat_map]; [reflexivity|].
  rewrite rsum_app, wrows_err.
  assert (X : plane_err par p T (length pre) = robust par (g_w_pt2pl par) (rows_pt2pl T x) * sq_norm (rows_pt2pl T x)).
  { unfold plane_err. rewrite E, nth_error_app2, Nat.sub_diag by lia. reflexivity. }
  rewrite X. specialize (IH (pre ++ [x])). rewrite app_length in IH. cbn [length] in IH.
  replace (length pre + 1)%nat with (S (length pre)) in IH by lia. rewrite IH; [reflexivity|]. rewrite E, <- app_assoc. reflexivity.
Qed.

Theorem C96_error_where : forall ldlt exp6 par p sched T log,
  no_prior par -> gp_weights p = [] -> gp_pt2ln p = [] -> gp_ln2ln p = [] -> gp_pl2pl p = [] ->
  (forall k, nothing_lost (sched k)) ->
  optimal_tf_gauss_newton ldlt exp6 par p (tbb sched) = Ok (true, T, log) ->
  Forall (fun s => st_err s = weighted_error par p (st_pose s)) log.
Proof.
  intros ldlt exp6 par p sched T log NP NW N1 N2 N3 HL E. unfold optimal_tf_gauss_newton in E.
  destruct (g_point par) as [T0|]; [|discriminate E]. apply rbind_inv in E. destruct E as [[T1 lg] [L E]]. injection E as <- <-.
  assert (IT : forall T0 k c a c', iter_tbb par p T0 (sched k) c = Ok (a, c') -> a_err a = weighted_error par p T0).
  { clear -NP NW N1 N2 N3 HL. intros T0 k c a c' E. unfold iter_tbb in E. rewrite unweighted_cursor in E by exact NW.
    cbn [rbind] in E. unfold middle_terms in E. rewrite N1, N2 in E. cbn [fold_left seq_lines rbind] in E.
    injection E as <- <-. unfold last_terms. rewrite N3. unfold no_prior in NP. rewrite NP. cbn [fold_left a_err].
    rewrite !HL. unfold weighted_error, all_rows, all_rows_with. rewrite N1, N2, N3.
    change (class_rows T0 par (g_w_pt2ln par) rows_pt2ln []) with (@nil WRow).
    change (class_rows T0 par (g_w_ln2ln par) line_rows []) with (@nil WRow).
    change (class_rows T0 par (g_w_pl2pl par) rows_pl2pl []) with (@nil WRow). cbn [app].
    rewrite app_nil_r, rsum_app. f_equal.
    - transitivity (fold_right Rplus 0 (map (point_err par p T0 (point_weight par p)) (seq 0 (length (gp_pt2pt p))))).
      + f_equal. apply map_ext. intro i. unfold point_err. destruct (nth_error (gp_pt2pt p) i); [|reflexivity].
        rewrite unweighted_assigned. unfold point_weight. rewrite NW. reflexivity.
      + exact (points_err T0 par p (point_weight par p) (gp_pt2pt p) [] eq_refl).
    - exact (planes_err T0 par p (gp_pt2pl p) [] eq_refl). }
  assert (G : forall fuel k T0 prev c log0 T1 lg, gn_loop ldlt exp6 par p (tbb sched) fuel k T0 prev c log0 = Ok (T1, lg) ->
    Forall (fun s => st_err s = weighted_error par p (st_pose s)) log0 ->
    Forall (fun s => st_err s = weighted_error par p (st_pose s)) lg).
  { clear T0 T1 lg L. induction fuel as [|fuel IH]; intros k T0 prev c log0 T1 lg L F; cbn [gn_loop] in L.
    - injection L as <- <-. exact F.
    - apply rbind_inv in L. destruct L as [[a c'] [I L]]. cbn [tbb] in I. assert (A := IT _ _ _ _ _ I).
      assert (F1 : Forall (fun s => st_err s = weighted_error par p (st_pose s)) (log0 ++ [mkStep T0 (a_ne a) (a_err a)]))
        by (apply Forall_app; split; [exact F|constructor; [exact A|constructor]]).
      destruct (Rle_dec _ _) as [LE|NLE]; [injection L as <- <-; exact F1|].
      destruct (Rlt_dec _ _) as [LT|NLT]; [injection L as <- <-; exact F1|].
      exact (IH _ _ _ _ _ _ _ L F1). }
  exact (G _ _ _ _ _ _ _ _ L (Forall_nil _)).
Qed.
Print Assumptions C96_error_where.

(** ** Concrete cases *)
Example C94_where_case :
  equal_weights 3 (tpairs [mkV 1 0 0; mkV (-1) 0 0] [(1%nat, 3); (1%nat, 3)])
  /\ fair (tpairs [mkV 1 0 0; mkV (-1) 0 0] [(1%nat, 3); (1%nat, 3)]) (sched_of [1%nat; 0%nat] plus_all)
  /\ visits_all (tpairs [mkV 1 0 0; mkV (-1) 0 0] [(1%nat, 3); (1%nat, 3)]) (sched_of [0%nat; 1%nat] plus_all)
  /\ nothing_lost (sched_of [1%nat; 0%nat] plus_all).
Proof.
  split; [split; [discriminate|repeat constructor]|]. split; [split; constructor; simpl; lia|].
  split; [apply Permutation_refl|]. intro l. reflexivity.
Qed.
