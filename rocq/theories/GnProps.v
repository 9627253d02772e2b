(** C30, C93-C98: the Gauss-Newton solver. *)
From Coq Require Import Reals List Lra Lia Psatz.
From Verif Require Import Base GeomModel VisitModel VisitSpec VisitProps GnModel GnSpec.
Import ListNotations.
Open Scope R_scope.

Ltac d6 := repeat match goal with v : V6 |- _ => destruct v end; repeat match goal with m : M66 |- _ => destruct m end;
  repeat match goal with v : V6 |- _ => destruct v end;
  unfold ne_add, ne_zero, addM, zeroM, outer6, mulMV, add6, zero6, scale6, dot6; cbn [ne_H ne_g r0 r1 r2 r3 r4 r5 x0 x1 x2 x3 x4 x5].

Lemma rsum_app {A} (f : A -> R) l m : rsum f (l ++ m) = rsum f l + rsum f m.
Proof. induction l as [|a l IH]; simpl; [lra|rewrite IH; lra]. Qed.

Lemma ne_add_0_l n : ne_add ne_zero n = n.
Proof. destruct n as [H g]. d6. f_equal; f_equal; try (f_equal; ring); ring. Qed.
Lemma ne_add_0_r n : ne_add n ne_zero = n.
Proof. destruct n as [H g]. d6. f_equal; f_equal; try (f_equal; ring); ring. Qed.
Lemma ne_add_assoc a b c : ne_add a (ne_add b c) = ne_add (ne_add a b) c.
Proof. destruct a, b, c. d6. f_equal; f_equal; try (f_equal; ring); ring. Qed.

Lemma dot_add6 a b c : dot6 (add6 a b) c = dot6 a c + dot6 b c.
Proof. d6. ring. Qed.
Lemma mul_addM A B v : mulMV (addM A B) v = add6 (mulMV A v) (mulMV B v).
Proof. unfold mulMV, addM. cbn [r0 r1 r2 r3 r4 r5]. rewrite !dot_add6. reflexivity. Qed.
Lemma mul_outer w j v : mulMV (outer6 w j) v = scale6 (w * dot6 j v) j.
Proof. d6. f_equal; ring. Qed.
Lemma dot_scale6 k a b : dot6 (scale6 k a) b = k * dot6 a b.
Proof. d6. ring. Qed.

Lemma normal_nil : normal_equations [] ne_zero.
Proof. split; intros; d6; simpl; ring. Qed.
Lemma normal_add l m a b : normal_equations l a -> normal_equations m b -> normal_equations (l ++ m) (ne_add a b).
Proof.
  intros [A1 A2] [B1 B2]. split; intros.
  - cbn [ne_add ne_H]. rewrite mul_addM, dot_add6, A1, B1, rsum_app. reflexivity.
  - cbn [ne_add ne_g]. rewrite dot_add6, A2, B2, rsum_app. reflexivity.
Qed.
Lemma normal_one T w x : normal_equations [mkWR w (fst x) (row6 T (snd x))]
  (mkNE (outer6 w (row6 T (snd x))) (scale6 (w * fst x) (row6 T (snd x)))).
Proof.
  split; intros; cbn [ne_H ne_g rsum w_w w_e w_j].
  - rewrite mul_outer, dot_scale6. ring.
  - rewrite dot_scale6. ring.
Qed.
Lemma normal_fold T w r : forall l a, normal_equations l a ->
  normal_equations (l ++ wrows T w r)
    (fold_left (fun a x => ne_add a (mkNE (outer6 w (row6 T (snd x))) (scale6 (w * fst x) (row6 T (snd x))))) r a).
Proof.
  induction r as [|x r IH]; intros l a N; cbn [wrows map fold_left].
  - rewrite app_nil_r. exact N.
  - change (mkWR w (fst x) (row6 T (snd x)) :: map (fun x => mkWR w (fst x) (row6 T (snd x))) r)
      with ([mkWR w (fst x) (row6 T (snd x))] ++ wrows T w r).
    rewrite app_assoc. apply IH. apply normal_add; [exact N|apply normal_one].
Qed.
Lemma normal_term T w r : normal_equations (wrows T w r) (term_ne T w r).
Proof. apply (normal_fold T w r [] ne_zero normal_nil). Qed.

(** ** The sequential parts *)
Lemma class_ok {A} T par w (f : Pose -> A -> rows) sq xs : forall l a, normal_equations l (a_ne a) ->
  normal_equations (l ++ class_rows T par w f xs) (a_ne (fold_left (fun a x => add_term T sq par w a (f T x)) xs a)).
Proof.
  induction xs as [|x xs IH]; intros l a N; cbn [class_rows flat_map fold_left].
  - rewrite app_nil_r. exact N.
  - rewrite app_assoc. apply IH. cbn [add_term a_ne]. apply normal_add; [exact N|apply normal_term].
Qed.
Lemma lines_ok T par xs : forall l a a', normal_equations l (a_ne a) -> seq_lines par T xs a = Ok a' ->
  normal_equations (l ++ class_rows T par (g_w_ln2ln par) line_rows xs) (a_ne a').
Proof.
  induction xs as [|x xs IH]; intros l a a' N E; cbn [class_rows flat_map seq_lines] in *.
  - injection E as <-. rewrite app_nil_r. exact N.
  - unfold rows_ln2ln in E. destruct (Rlt_dec _ _); [discriminate E|]. cbn [rbind] in E. rewrite app_assoc. eapply IH; [|exact E].
    cbn [add_term a_ne]. apply normal_add; [exact N|apply normal_term].
Qed.
Lemma middle_ok T par p : forall l a a', normal_equations l (a_ne a) -> middle_terms par p T a = Ok a' ->
  normal_equations (l ++ class_rows T par (g_w_pt2ln par) rows_pt2ln (gp_pt2ln p) ++
                    class_rows T par (g_w_ln2ln par) line_rows (gp_ln2ln p)) (a_ne a').
Proof.
  intros l a a' N E. unfold middle_terms in E. rewrite app_assoc. eapply lines_ok; [|exact E]. apply class_ok. exact N.
Qed.
Lemma last_ok T par p l a : no_prior par -> normal_equations l (a_ne a) ->
  normal_equations (l ++ class_rows T par (g_w_pl2pl par) rows_pl2pl (gp_pl2pl p)) (a_ne (last_terms par p T a)).
Proof. intros NP N. unfold last_terms. rewrite NP. apply class_ok. exact N. Qed.

(** ** Any reduction tree computes the sum in order *)
Definition sum_range (f : nat -> NE) (lo hi : nat) : NE := body f lo hi ne_zero.
Lemma body_from f n : forall lo a, fold_left (fun a i => ne_add a (f i)) (seq lo n) a =
  ne_add a (fold_left (fun a i => ne_add a (f i)) (seq lo n) ne_zero).
Proof.
  induction n as [|n IH]; intros lo a; cbn [seq fold_left].
  - rewrite ne_add_0_r. reflexivity.
  - rewrite IH, (IH _ (ne_add ne_zero (f lo))), ne_add_0_l, ne_add_assoc. reflexivity.
Qed.
Lemma reduce_sum f t lo hi : covers t lo hi -> (lo <= hi)%nat /\ reduce f t = sum_range f lo hi.
Proof.
  induction 1 as [lo hi L|t lo m hi C [L IH] M|a b lo m hi CA [LA IA] CB [LB IB]]; cbn [reduce].
  - split; [exact L|reflexivity].
  - split; [lia|]. rewrite IH. unfold sum_range, body. replace (hi - lo)%nat with ((m - lo) + (hi - m))%nat by lia.
    rewrite seq_app, fold_left_app. replace (lo + (m - lo))%nat with m by lia. reflexivity.
  - split; [lia|]. rewrite IA, IB. unfold sum_range, body. replace (hi - lo)%nat with ((m - lo) + (hi - m))%nat by lia.
    rewrite seq_app, fold_left_app, (body_from f _ _ (fold_left _ _ _)). replace (lo + (m - lo))%nat with m by lia. reflexivity.
Qed.

Lemma points_sum T par p wt : forall ps pre, gp_pt2pt p = pre ++ ps ->
  forall l a, normal_equations l a ->
  normal_equations (l ++ point_rows T par wt (length pre) ps)
    (fold_left (fun a i => ne_add a (point_ne par p T wt i)) (seq (length pre) (length ps)) a).
Proof.
  induction ps as [|x ps IH]; intros pre E l a N; cbn [point_rows length seq fold_left].
  - rewrite app_nil_r. exact N.
  - rewrite app_assoc. assert (E' : gp_pt2pt p = (pre ++ [x]) ++ ps) by (rewrite <- app_assoc; exact E).
    specialize (IH (pre ++ [x]) E'). rewrite app_length, Nat.add_1_r in IH. apply IH. apply normal_add; [exact N|].
    unfold point_ne. rewrite E, nth_error_app2, Nat.sub_diag by lia. cbn [nth_error]. apply normal_term.
Qed.
Lemma planes_sum T par p : forall ps pre, gp_pt2pl p = pre ++ ps ->
  forall l a, normal_equations l a ->
  normal_equations (l ++ class_rows T par (g_w_pt2pl par) rows_pt2pl ps)
    (fold_left (fun a i => ne_add a (plane_ne par p T i)) (seq (length pre) (length ps)) a).
Proof.
  induction ps as [|x ps IH]; intros pre E l a N; cbn [class_rows flat_map length seq fold_left].
  - rewrite app_nil_r. exact N.
  - rewrite app_assoc. assert (E' : gp_pt2pl p = (pre ++ [x]) ++ ps) by (rewrite <- app_assoc; exact E).
    specialize (IH (pre ++ [x]) E'). rewrite app_length, Nat.add_1_r in IH. apply IH. apply normal_add; [exact N|].
    unfold plane_ne. rewrite E, nth_error_app2, Nat.sub_diag by lia. cbn [nth_error]. apply normal_term.
Qed.

(** ** One iteration of the TBB build *)
Lemma rbind_inv {A B} (x : res A) (f : A -> res B) b : rbind x f = Ok b -> exists a, x = Ok a /\ f a = Ok b.
Proof. destruct x; simpl; intros E; try discriminate. eexists; split; [reflexivity|exact E]. Qed.

Lemma iter_tbb_ok par p T s c a c' : no_prior par -> fair p s -> iter_tbb par p T s c = Ok (a, c') ->
  exists l, cursor_weights par p (s_order s) c = Ok (l, c') /\
    normal_equations (all_rows_with (assigned par l) par p T) (a_ne a).
Proof.
  intros NP [FP FL] E. unfold iter_tbb in E. apply rbind_inv in E. destruct E as [[l c1] [CW E]].
  apply rbind_inv in E. destruct E as [am [ME E]]. injection E as <- <-.
  exists l. split; [exact CW|]. unfold all_rows_with.
  destruct (reduce_sum (point_ne par p T (assigned par l)) _ _ _ FP) as [_ RP].
  destruct (reduce_sum (plane_ne par p T) _ _ _ FL) as [_ RL].
  rewrite RP in ME. rewrite RL. unfold sum_range, body in *. rewrite Nat.sub_0_r in *.
  assert (N1 := points_sum T par p (assigned par l) (gp_pt2pt p) [] eq_refl [] ne_zero normal_nil). cbn [app length] in N1.
  assert (N2 := middle_ok T par p _ _ _ (N1 : normal_equations _ (a_ne (mkAcc _ _))) ME).
  assert (N3 := planes_sum T par p (gp_pt2pl p) [] eq_refl [] ne_zero normal_nil). cbn [app length] in N3.
  rewrite !app_assoc. rewrite !app_assoc in N2. apply last_ok; [exact NP|]. cbn [a_ne].
  apply normal_add; [exact N2|exact N3].
Qed.

Lemma point_rows_ext T par wt wt' ps : forall i, (forall j, wt j = wt' j) -> point_rows T par wt i ps = point_rows T par wt' i ps.
Proof. induction ps as [|x ps IH]; intros i H; cbn [point_rows]; [reflexivity|]. rewrite H, (IH (S i) H). reflexivity. Qed.

(** without point weights the cursor is not used *)
Lemma unweighted_cursor par p order c : gp_weights p = [] -> cursor_weights par p order c = Ok (map (fun i => (i, g_w_pt2pt par)) order, c).
Proof.
  intros W. assert (U : weighted p = false) by (unfold weighted; rewrite W; reflexivity).
  induction order as [|i r IH]; cbn [cursor_weights map]; [reflexivity|]. unfold next_weight. rewrite U. cbn [rbind]. rewrite IH. reflexivity.
Qed.
Lemma unweighted_assigned par order i : assigned par (map (fun i => (i, g_w_pt2pt par)) order) i = g_w_pt2pt par.
Proof. unfold assigned. induction order as [|j r IH]; cbn [map find fst]; [reflexivity|]. destruct (Nat.eqb j i); [reflexivity|exact IH]. Qed.

(** C30: TBB build, pairs without individual weights.  However TBB splits the loops, joins the
    partial results, and whatever the racing additions leave in the error, the normal equations of every
    inner iteration are those of the residuals at the pose of that iteration, with their weights; and
    there are at most maxInnerLoopIterations of them. *)
Definition tbb (s : nat -> Sched) : nat -> option Sched := fun k => Some (s k).
Theorem C30_normal_equations_of_every_iteration : forall ldlt exp6 par p sched T log,
  no_prior par -> gp_weights p = [] -> (forall k, fair p (sched k)) ->
  optimal_tf_gauss_newton ldlt exp6 par p (tbb sched) = Ok (true, T, log) ->
  (length log <= g_max_inner par)%nat /\
  Forall (fun s => normal_equations (all_rows par p (st_pose s)) (st_ne s)) log.
Proof.
  intros ldlt exp6 par p sched T log NP NW FAIR E. unfold optimal_tf_gauss_newton in E.
  destruct (g_point par) as [T0|]; [|discriminate E]. apply rbind_inv in E. destruct E as [[T1 lg] [L E]]. injection E as <- <-.
  assert (G : forall fuel k T0 prev c log0 T1 lg, gn_loop ldlt exp6 par p (tbb sched) fuel k T0 prev c log0 = Ok (T1, lg) ->
    Forall (fun s => normal_equations (all_rows par p (st_pose s)) (st_ne s)) log0 ->
    (length lg <= length log0 + fuel)%nat /\ Forall (fun s => normal_equations (all_rows par p (st_pose s)) (st_ne s)) lg).
  { clear T0 T1 lg L. induction fuel as [|fuel IH]; intros k T0 prev c log0 T1 lg L F; cbn [gn_loop] in L.
    - injection L as <- <-. split; [lia|exact F].
    - apply rbind_inv in L. destruct L as [[a c'] [IT L]]. cbn [tbb] in IT.
      destruct (iter_tbb_ok par p T0 (sched k) c a c' NP (FAIR k) IT) as [l [CW N]].
      rewrite unweighted_cursor in CW by exact NW. injection CW as <- <-.
      assert (F' : Forall (fun s => normal_equations (all_rows par p (st_pose s)) (st_ne s)) (log0 ++ [mkStep T0 (a_ne a) (a_err a)])).
      { apply Forall_app. split; [exact F|]. constructor; [|constructor]. cbn [st_pose st_ne]. unfold all_rows, all_rows_with in *.
        rewrite (point_rows_ext _ _ _ (point_weight par p)) in N; [exact N|]. intros j. rewrite unweighted_assigned. unfold point_weight. rewrite NW. reflexivity. }
      assert (LL : length (log0 ++ [mkStep T0 (a_ne a) (a_err a)]) = S (length log0)) by (rewrite app_length; simpl; lia).
      destruct (Rle_dec _ _); [injection L as <- <-; split; [rewrite LL; lia|exact F']|].
      destruct (Rlt_dec _ _); [injection L as <- <-; split; [rewrite LL; lia|exact F']|].
      destruct (IH _ _ _ _ _ _ _ L F') as [A B]. split; [rewrite LL in A; lia|exact B]. }
  destruct (G _ _ _ _ _ _ _ _ L (Forall_nil _)) as [A B]. simpl in A. split; [lia|exact B].
Qed.

(** ** The step (C98) *)
Definition well_posed (l : list WRow) : Prop :=
  Forall (fun r => 0 < w_w r) l /\ forall a, Forall (fun r => dot6 (w_j r) a = 0) l -> a = zero6.
(** the linear solver solved the systems of this run *)
Definition solved (ldlt : M66 -> V6 -> V6) (log : list Step) : Prop :=
  Forall (fun s => mulMV (ne_H (st_ne s)) (ldlt (ne_H (st_ne s)) (ne_g (st_ne s))) = ne_g (st_ne s)) log.

Lemma rsum_nonneg {A} (f : A -> R) l : Forall (fun a => 0 <= f a) l -> 0 <= rsum f l.
Proof. induction 1; simpl; lra. Qed.
Lemma rsum_zero {A} (f : A -> R) l : Forall (fun a => 0 <= f a) l -> rsum f l = 0 -> Forall (fun a => f a = 0) l.
Proof.
  induction 1 as [|a l P F IH]; intros E; [constructor|]. cbn [rsum] in E. assert (Q := rsum_nonneg f l F).
  constructor; [lra|apply IH; lra].
Qed.
Lemma rsum_ext {A} (f g : A -> R) l : (forall a, f a = g a) -> rsum f l = rsum g l.
Proof. intros H. induction l as [|a l IH]; simpl; [reflexivity|]. rewrite H, IH. reflexivity. Qed.
Lemma rsum_add {A} (f g : A -> R) l : rsum (fun a => f a + g a) l = rsum f l + rsum g l.
Proof. induction l as [|a l IH]; simpl; [lra|]. rewrite IH. lra. Qed.
Lemma rsum_scale {A} k (f : A -> R) l : rsum (fun a => k * f a) l = k * rsum f l.
Proof. induction l as [|a l IH]; simpl; [lra|]. rewrite IH. lra. Qed.

(** the system of a well posed problem has at most one solution, so a linear solver that gives one gives
    that one *)
Lemma regular l n : well_posed l -> normal_equations l n -> forall x, mulMV (ne_H n) x = zero6 -> x = zero6.
Proof.
  intros [W U] [NH _] x E. apply U. assert (Q := NH x x). rewrite E in Q.
  assert (Z : dot6 zero6 x = 0) by (d6; ring). rewrite Z in Q.
  assert (P : Forall (fun r => 0 <= w_w r * (dot6 (w_j r) x * dot6 (w_j r) x)) l).
  { eapply Forall_impl; [|exact W]. intros r L. cbn beta in *. assert (0 <= dot6 (w_j r) x * dot6 (w_j r) x) by nra. nra. }
  assert (R := rsum_zero _ _ P (eq_sym Q)). rewrite Forall_forall in *. intros r I. specialize (R r I). specialize (W r I). cbn beta in *.
  apply Rmult_integral in R. destruct R as [R|R]; [lra|]. apply Rmult_integral in R. destruct R; assumption.
Qed.

Lemma dot6_comm a b : dot6 a b = dot6 b a.
Proof. d6. ring. Qed.
Lemma dot6_sub a b c : dot6 a (add6 b (scale6 (-1) c)) = dot6 a b - dot6 a c.
Proof. d6. ring. Qed.

Lemma step_minimises l n d : Forall (fun r => 0 <= w_w r) l -> normal_equations l n ->
  mulMV (ne_H n) d = scale6 (-1) (ne_g n) -> forall d', linear_cost l d <= linear_cost l d'.
Proof.
  intros W [NH NG] E d'. set (h := add6 d' (scale6 (-1) d)).
  assert (X : linear_cost l d' = linear_cost l d + (rsum (fun r => w_w r * (dot6 (w_j r) h * dot6 (w_j r) h)) l +
     2 * (rsum (fun r => w_w r * (w_e r * dot6 (w_j r) h)) l + rsum (fun r => w_w r * (dot6 (w_j r) d * dot6 (w_j r) h)) l))).
  { unfold linear_cost. rewrite <- (rsum_add (fun r => w_w r * (w_e r * dot6 (w_j r) h))), <- rsum_scale, <- !rsum_add. apply rsum_ext. intros r. unfold h. rewrite dot6_sub. unfold Rsqr. ring. }
  assert (Z : rsum (fun r => w_w r * (w_e r * dot6 (w_j r) h)) l + rsum (fun r => w_w r * (dot6 (w_j r) d * dot6 (w_j r) h)) l = 0).
  { rewrite <- NG, <- NH, E, dot_scale6. ring. }
  rewrite Z in X.
  assert (P : 0 <= rsum (fun r => w_w r * (dot6 (w_j r) h * dot6 (w_j r) h)) l).
  { apply rsum_nonneg. eapply Forall_impl; [|exact W]. intros r L. cbn beta in *. assert (0 <= dot6 (w_j r) h * dot6 (w_j r) h) by nra. nra. }
  lra.
Qed.

(** the poses of a run: each one follows from the previous one by the increment that minimises the
    linearised weighted squared error of all the pairs *)
Definition best_move (exp6 : V6 -> Pose) (l : list WRow) (T T' : Pose) : Prop :=
  exists d, T' = padd_pose T (exp6 d) /\ forall d', linear_cost l d <= linear_cost l d'.
Fixpoint trajectory (exp6 : V6 -> Pose) (rows_at : Pose -> list WRow) (T : Pose) (log : list Step) (Tend : Pose) : Prop :=
  match log with
  | [] => T = Tend
  | s :: rest => st_pose s = T /\
    ((rest = [] /\ Tend = T) \/ exists T', best_move exp6 (rows_at T) T T' /\ trajectory exp6 rows_at T' rest Tend)
  end.

Theorem C98_steps_minimise_the_linearised_error : forall ldlt exp6 par p sched T0 T log,
  no_prior par -> gp_weights p = [] -> (forall k, fair p (sched k)) ->
  g_point par = Some T0 ->
  optimal_tf_gauss_newton ldlt exp6 par p (tbb sched) = Ok (true, T, log) ->
  solved ldlt log ->
  Forall (fun s => Forall (fun r => 0 <= w_w r) (all_rows par p (st_pose s))) log ->
  trajectory exp6 (all_rows par p) T0 log T.
Proof.
  intros ldlt exp6 par p sched T0 T log NP NW FAIR GP E SV WP. unfold optimal_tf_gauss_newton in E. rewrite GP in E.
  apply rbind_inv in E. destruct E as [[T1 lg] [L E]]. injection E as <- <-.
  assert (G : forall fuel k T0 prev c log0 T1 lg, gn_loop ldlt exp6 par p (tbb sched) fuel k T0 prev c log0 = Ok (T1, lg) ->
    exists l, lg = log0 ++ l /\ (solved ldlt l -> Forall (fun s => Forall (fun r => 0 <= w_w r) (all_rows par p (st_pose s))) l -> trajectory exp6 (all_rows par p) T0 l T1)).
  { clear T0 T1 lg L SV WP GP. induction fuel as [|fuel IH]; intros k T0 prev c log0 T1 lg L; cbn [gn_loop] in L.
    - injection L as <- <-. exists []. rewrite app_nil_r. split; [reflexivity|]. intros _ _. reflexivity.
    - apply rbind_inv in L. destruct L as [[a c'] [IT L]]. cbn [tbb] in IT.
      destruct (iter_tbb_ok par p T0 (sched k) c a c' NP (FAIR k) IT) as [l0 [CW N]].
      rewrite unweighted_cursor in CW by exact NW. injection CW as <- <-.
      assert (N' : normal_equations (all_rows par p T0) (a_ne a)).
      { unfold all_rows, all_rows_with in *.
        rewrite (point_rows_ext _ _ _ (point_weight par p)) in N; [exact N|]. intros j. rewrite unweighted_assigned. unfold point_weight. rewrite NW. reflexivity. }
      set (s := mkStep T0 (a_ne a) (a_err a)) in *.
      set (d := scale6 (-1) (ldlt (ne_H (a_ne a)) (ne_g (a_ne a)))) in *.
      assert (MV : mulMV (ne_H (a_ne a)) (ldlt (ne_H (a_ne a)) (ne_g (a_ne a))) = ne_g (a_ne a) -> Forall (fun r => 0 <= w_w r) (all_rows par p T0) -> best_move exp6 (all_rows par p T0) T0 (padd_pose T0 (exp6 d))).
      { intros Q WP. exists d. split; [reflexivity|]. apply (step_minimises _ (a_ne a)); [exact WP|exact N'|].
          assert (MS : forall M v, mulMV M (scale6 (-1) v) = scale6 (-1) (mulMV M v)).
          { clear. intros [a0 a1 a2 a3 a4 a5] v. unfold mulMV, scale6 at 2. cbn [r0 r1 r2 r3 r4 r5 x0 x1 x2 x3 x4 x5]. rewrite !(dot6_comm _ (scale6 (-1) v)), !dot_scale6, !(dot6_comm v). reflexivity. }
          unfold d. rewrite MS, Q. reflexivity. }
      destruct (Rle_dec _ _).
      { injection L as <- <-. exists [s]. split; [reflexivity|]. intros _ _. cbn [trajectory]. split; [reflexivity|left; auto]. }
      destruct (Rlt_dec _ _).
      { injection L as <- <-. exists [s]. split; [reflexivity|]. intros SV WP. assert (W1 := Forall_inv WP). assert (S1 := Forall_inv SV). cbn [trajectory]. split; [reflexivity|right].
        eexists. split; [apply MV; [exact S1|exact W1]|]. reflexivity. }
      destruct (IH _ _ _ _ _ _ _ L) as [l [EL TR]]. exists (s :: l). split; [rewrite EL, <- app_assoc; reflexivity|].
      intros SV WP. cbn [trajectory]. split; [reflexivity|right]. eexists.
      split; [apply MV; [exact (Forall_inv SV)|exact (Forall_inv WP)]|]. apply TR; [exact (Forall_inv_tail SV)|exact (Forall_inv_tail WP)]. }
  destruct (G _ _ _ _ _ _ _ _ L) as [l [-> TR]]. apply TR; assumption.
Qed.

(** ** The sequential build *)
Lemma seq_points_unweighted par p T ps : gp_weights p = [] -> forall i c l a a' c',
  normal_equations l (a_ne a) -> seq_points par p T i ps c a = Ok (a', c') ->
  c' = c /\ normal_equations (l ++ point_rows T par (point_weight par p) i ps) (a_ne a').
Proof.
  intros NW. assert (U : weighted p = false) by (unfold weighted; rewrite NW; reflexivity).
  induction ps as [|x ps IH]; intros i c l a a' c' N E; cbn [seq_points point_rows] in *.
  - injection E as <- <-. rewrite app_nil_r. auto.
  - unfold next_weight in E. rewrite U in E. cbn [rbind] in E. rewrite app_assoc. eapply IH; [|exact E].
    cbn [add_term a_ne]. apply normal_add; [exact N|]. unfold point_weight. rewrite NW. apply normal_term.
Qed.

(** weighted points: first pass of the cursor *)
Definition good_blocks (p : GPairs) : Prop :=
  Forall (fun b => (0 < fst b)%nat) (gp_weights p) /\ block_total (gp_weights p) = length (gp_pt2pt p).
Definition cursor_at (bl : list (nat * R)) (c : Cursor) (i : nat) : Prop :=
  (cur_start c <= i)%nat /\ (exists n w r, cur_blocks c = (n, w) :: r /\ (0 < n)%nat /\ Forall (fun b => (0 < fst b)%nat) r /\ (i <= cur_start c + n)%nat /\ block_total (cur_blocks c) = (block_total bl - cur_start c)%nat /\ (cur_start c <= block_total bl)%nat) /\
  (forall j, (cur_start c <= j)%nat -> block_weight bl j = block_weight (cur_blocks c) (j - cur_start c)).
Lemma cursor_step par bl c i : cursor_at bl c i -> (i < block_total bl)%nat ->
  exists w c', next_weight true par i c = Ok (w, c') /\ block_weight bl i = Some w /\ cursor_at bl c' (S i).
Proof.
  intros (L & (n & w & r & EB & PN & PR & LI & TB & TS) & BW) LT. unfold next_weight, step_block. rewrite EB in *. cbn [block_total] in TB.
  destruct (Nat.leb_spec (cur_start c + n) i) as [G|G].
  - assert (i = cur_start c + n)%nat by lia. destruct r as [|[n' w'] r']; [cbn [block_total] in TB; lia|].
    assert (P1 := Forall_inv PR). assert (P2 := Forall_inv_tail PR). cbn [fst] in P1.
    exists w', (mkCur ((n', w') :: r') i). cbn [rbind].
    assert (E : forall j, (cur_start c + n <= j)%nat -> block_weight bl j = block_weight ((n', w') :: r') (j - (cur_start c + n))).
    { intros j J. rewrite BW by lia. cbn [block_weight]. destruct (Nat.ltb_spec (j - cur_start c) n); [lia|]. replace (j - cur_start c - n)%nat with (j - (cur_start c + n))%nat by lia. reflexivity. }
    subst i. split; [reflexivity|]. split.
    { rewrite E by lia. rewrite Nat.sub_diag. cbn [block_weight]. destruct (Nat.ltb_spec 0 n'); [reflexivity|lia]. }
    unfold cursor_at. cbn [cur_start cur_blocks]. split; [lia|]. split; [|exact E].
    exists n', w', r'. repeat split; try assumption; try lia.
  - exists w, c. cbn [rbind]. split; [destruct c; cbn in *; rewrite EB; reflexivity|]. split.
    { rewrite BW by lia. cbn [block_weight]. destruct (Nat.ltb_spec (i - cur_start c) n); [reflexivity|lia]. }
    unfold cursor_at. split; [lia|]. split; [|rewrite EB; exact BW]. exists n, w, r. rewrite EB. repeat split; try assumption; try lia.
Qed.

Lemma seq_points_weighted par p T ps : gp_weights p <> [] -> forall i c l a a' c',
  cursor_at (gp_weights p) c i -> (i + length ps <= block_total (gp_weights p))%nat ->
  normal_equations l (a_ne a) -> seq_points par p T i ps c a = Ok (a', c') ->
  normal_equations (l ++ point_rows T par (point_weight par p) i ps) (a_ne a').
Proof.
  intros NW. assert (U : weighted p = true) by (unfold weighted; destruct (gp_weights p); [contradiction|reflexivity]).
  induction ps as [|x ps IH]; intros i c l a a' c' CA LE N E; cbn [seq_points point_rows length] in *.
  - injection E as <- <-. rewrite app_nil_r. exact N.
  - rewrite U in E. destruct (cursor_step par _ _ _ CA ltac:(lia)) as [w [c1 [EW [BW CA']]]]. rewrite EW in E. cbn [rbind] in E.
    rewrite app_assoc. eapply IH; [exact CA'|lia| |exact E].
    cbn [add_term a_ne]. apply normal_add; [exact N|]. unfold point_weight. destruct (gp_weights p) eqn:Q; [contradiction|]. rewrite BW. apply normal_term.
Qed.

(** C30, both builds: the first inner iteration of the build without TBB is right, also with
    individual weights. *)
Theorem C30_first_iteration_sequential : forall ldlt exp6 par p T log s rest,
  no_prior par -> (gp_weights p = [] \/ good_blocks p) ->
  optimal_tf_gauss_newton ldlt exp6 par p (fun _ => None) = Ok (true, T, log) -> log = s :: rest ->
  g_point par = Some (st_pose s) /\ normal_equations (all_rows par p (st_pose s)) (st_ne s).
Proof.
  intros ldlt exp6 par p T log s rest NP WB E EL. unfold optimal_tf_gauss_newton in E.
  destruct (g_point par) as [T0|]; [|discriminate E]. apply rbind_inv in E. destruct E as [[T1 lg] [L E]]. injection E as <- <-.
  destruct (g_max_inner par) as [|fuel]; cbn [gn_loop] in L; [injection L as <- <-; discriminate EL|].
  apply rbind_inv in L. destruct L as [[a c] [IT L]].
  assert (APP : forall fuel k T0 prev c log0 T1 lg, gn_loop ldlt exp6 par p (fun _ => None) fuel k T0 prev c log0 = Ok (T1, lg) -> exists l, lg = log0 ++ l).
  { clear. induction fuel as [|fuel IH]; intros k T0 prev c log0 T1 lg L; cbn [gn_loop] in L.
    - injection L as <- <-. exists []. rewrite app_nil_r. reflexivity.
    - apply rbind_inv in L. destruct L as [[a c'] [IT L]]. destruct (Rle_dec _ _); [injection L as <- <-; eexists; reflexivity|].
      destruct (Rlt_dec _ _); [injection L as <- <-; eexists; reflexivity|]. destruct (IH _ _ _ _ _ _ _ L) as [l ->]. rewrite <- app_assoc. eexists; reflexivity. }
  assert (ES : s = mkStep T0 (a_ne a) (a_err a)).
  { cbn [app] in L. destruct (Rle_dec _ _); [injection L as <- <-; injection EL as <- <-; reflexivity|].
    destruct (Rlt_dec _ _); [injection L as <- <-; injection EL as <- <-; reflexivity|].
    destruct (APP _ _ _ _ _ _ _ _ L) as [l Q]. rewrite EL in Q. injection Q as -> _. reflexivity. }
  subst s. cbn [st_pose st_ne]. split; [reflexivity|].
  unfold iter_seq in IT. apply rbind_inv in IT. destruct IT as [[a1 c1] [SP IT]]. apply rbind_inv in IT. destruct IT as [a2 [ME IT]]. injection IT as <- <-.
  assert (N1 : normal_equations ([] ++ point_rows T0 par (point_weight par p) 0 (gp_pt2pt p)) (a_ne a1)).
  { destruct WB as [NW|[PB TB]].
    - eapply (seq_points_unweighted par p T0 _ NW 0 _ [] (mkAcc ne_zero 0)); [exact normal_nil|exact SP].
    - destruct (gp_weights p) as [|b bs] eqn:Q.
      + eapply (seq_points_unweighted par p T0 _ Q 0 _ [] (mkAcc ne_zero 0)); [exact normal_nil|exact SP].
      + eapply (seq_points_weighted par p T0 (gp_pt2pt p) ltac:(rewrite Q; discriminate) 0 _ [] (mkAcc ne_zero 0)); [| |exact normal_nil|exact SP].
        * rewrite Q. unfold cursor_at. cbn [cur_start cur_blocks]. split; [lia|]. destruct b as [n w]. inversion PB as [|? ? P1 P2]; subst; cbn [fst] in P1.
          split; [|intros j _; rewrite Nat.sub_0_r; reflexivity]. exists n, w, bs. repeat split; try assumption; lia.
        * rewrite Q, TB. lia. }
  cbn [app] in N1. assert (N2 := middle_ok T0 par p _ _ _ N1 ME).
  assert (N3 := class_ok T0 par (g_w_pt2pl par) rows_pt2pl true (gp_pt2pl p) _ _ N2).
  unfold all_rows, all_rows_with. rewrite !app_assoc. rewrite !app_assoc in N3. apply last_ok; [exact NP|]. exact N3.
Qed.

(** Finding: the build without TBB clears H and g only once, before the loop, so at iteration k it
    solves the sum of the normal equations of the poses visited so far. *)
Theorem C93_sequential_build_accumulates : forall ldlt exp6 par p T log,
  no_prior par -> gp_weights p = [] ->
  optimal_tf_gauss_newton ldlt exp6 par p (fun _ => None) = Ok (true, T, log) ->
  forall pre s post, log = pre ++ s :: post ->
  normal_equations (flat_map (fun s => all_rows par p (st_pose s)) (pre ++ [s])) (st_ne s).
Proof.
  intros ldlt exp6 par p T log NP NW E. unfold optimal_tf_gauss_newton in E.
  destruct (g_point par) as [T0|]; [|discriminate E]. apply rbind_inv in E. destruct E as [[T1 lg] [L E]]. injection E as <- <-.
  set (good := fun log : list Step => forall pre s post, log = pre ++ s :: post ->
    normal_equations (flat_map (fun s => all_rows par p (st_pose s)) (pre ++ [s])) (st_ne s)).
  assert (G : forall fuel k T0 prev c log0 T1 lg, gn_loop ldlt exp6 par p (fun _ => None) fuel k T0 prev c log0 = Ok (T1, lg) ->
    good log0 -> normal_equations (flat_map (fun s => all_rows par p (st_pose s)) log0) prev -> good lg).
  { clear T0 T1 lg L. induction fuel as [|fuel IH]; intros k T0 prev c log0 T1 lg L F N0; cbn [gn_loop] in L.
    - injection L as <- <-. exact F.
    - apply rbind_inv in L. destruct L as [[a c'] [IT L]].
      unfold iter_seq in IT. apply rbind_inv in IT. destruct IT as [[a1 c1] [SP IT]]. apply rbind_inv in IT. destruct IT as [a2 [ME IT]]. injection IT as <- <-.
      destruct (seq_points_unweighted par p T0 _ NW 0 _ _ (mkAcc prev 0) _ _ N0 SP) as [_ N1].
      assert (N2 := middle_ok T0 par p _ _ _ N1 ME).
      assert (N3 := class_ok T0 par (g_w_pt2pl par) rows_pt2pl true (gp_pt2pl p) _ _ N2).
      assert (N4 := last_ok T0 par p _ _ NP N3). set (a := last_terms par p T0 _) in *.
      assert (N5 : normal_equations (flat_map (fun s => all_rows par p (st_pose s)) (log0 ++ [mkStep T0 (a_ne a) (a_err a)])) (a_ne a)).
      { rewrite flat_map_app. cbn [flat_map st_pose]. rewrite app_nil_r. unfold all_rows at 2, all_rows_with. rewrite <- !app_assoc in N4. exact N4. }
      assert (F' : good (log0 ++ [mkStep T0 (a_ne a) (a_err a)])).
      { intros pre s post Q. destruct post as [|q post] using rev_ind.
        - apply app_inj_tail in Q. destruct Q as [-> <-]. exact N5.
        - clear IHpost. rewrite app_comm_cons, app_assoc in Q. apply app_inj_tail in Q. destruct Q as [-> _]. apply (F pre s post). reflexivity. }
      destruct (Rle_dec _ _); [injection L as <- <-; exact F'|].
      destruct (Rlt_dec _ _); [injection L as <- <-; exact F'|].
      eapply IH; [exact L|exact F'|exact N5]. }
  apply (G _ _ _ _ _ _ _ _ L).
  - intros pre s post Q. destruct pre; discriminate Q.
  - exact normal_nil.
Qed.
