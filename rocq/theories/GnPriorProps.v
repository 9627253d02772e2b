(** C267-C269: the prior of the Gauss-Newton solver. *)
From Coq Require Import Reals List Lra Lia Psatz Nsatz.
From Verif Require Import Base GeomModel VisitModel VisitSpec VisitProps GnModel GnSpec GnProps GnCasesProps RotProofs GnPriorModel.
Import ListNotations.
Open Scope R_scope.

(** ** Specification: the prior as one more residual, e = log(inv(mean) T), with derivative J and a full
    weight matrix *)
Definition has_prior (log6 : Pose -> V6) (jac2 : Pose -> Pose -> Pose -> M66) (pr : Prior) (par : GParams) : Prop :=
  g_prior par = Some (prior_terms log6 jac2 pr).
Definition prior_res (log6 : Pose -> V6) (pr : Prior) (T : Pose) : V6 := log6 (pose_minus T (pr_mean pr)).
Definition prior_der (jac2 : Pose -> Pose -> Pose -> M66) (pr : Prior) (T : Pose) (a : V6) : V6 :=
  mulMV (jac2 pose_ident (pr_mean pr) T) a.
(** u^T L v *)
Definition form (L : M66) (u v : V6) : R := dot6 u (mulMV L v).
Definition normal_equations_with_prior (log6 : Pose -> V6) (jac2 : Pose -> Pose -> Pose -> M66) (pr : Prior) (T : Pose)
  (l : list WRow) (n : NE) : Prop :=
  (forall a b, dot6 (mulMV (ne_H n) a) b =
     rsum (fun r => w_w r * (dot6 (w_j r) a * dot6 (w_j r) b)) l +
     form (pr_inf pr) (prior_der jac2 pr T b) (prior_der jac2 pr T a)) /\
  (forall a, dot6 (ne_g n) a =
     rsum (fun r => w_w r * (w_e r * dot6 (w_j r) a)) l +
     form (pr_inf pr) (prior_der jac2 pr T a) (prior_res log6 pr T)).
(** the linearised error of the pairs and of the prior after an increment d *)
Definition cost_with_prior (log6 : Pose -> V6) (jac2 : Pose -> Pose -> Pose -> M66) (pr : Prior) (T : Pose)
  (l : list WRow) (d : V6) : R :=
  let e := add6 (prior_res log6 pr T) (prior_der jac2 pr T d) in linear_cost l d + form (pr_inf pr) e e.
Definition symmetric (L : M66) : Prop := forall u v, form L u v = form L v u.
Definition semidefinite (L : M66) : Prop := forall u, 0 <= form L u u.

(** ** The residual, without the code's own formula: D is the pose seen from the mean of the prior *)
Definition relative_pose (mean T D : Pose) : Prop := forall p, compose mean (compose D p) = compose T p.
Lemma unrotate_rotate M v : is_rotation M -> unrotate M (rotate M v) = v.
Proof.
  intros (N0 & N1 & N2 & D01 & D02 & D12 & _). destruct M as [[a0 a1 a2] [b0 b1 b2] [d0 d1 d2] t], v as [x y z].
  unfold unrotate, rotate, vnorm2, vdot, vadd, vscale in *. cbn [c0 c1 c2 vx vy vz] in *. f_equal; nsatz.
Qed.
Lemma rotate_unrotate M v : is_rotation M -> rotate M (unrotate M v) = v.
Proof.
  intros RM. pose proof (rot_rows M RM) as H. cbv zeta in H. destruct M as [[a0 a1 a2] [b0 b1 b2] [d0 d1 d2] t], v as [x y z].
  cbn [c0 c1 c2 vx vy vz] in H. destruct H as (R0 & R1 & R2 & R01 & R02 & R12 & _).
  unfold unrotate, rotate, vdot, vadd, vscale in *. cbn [c0 c1 c2 vx vy vz] in *. f_equal; nsatz.
Qed.
(** C267: the residual of the prior is the logarithm of the pose relative to its mean, which there is exactly one of. *)
Theorem C267_residual_is_the_relative_pose : forall log6 pr T, is_rotation (pr_mean pr) ->
  exists D, relative_pose (pr_mean pr) T D /\ prior_res log6 pr T = log6 D /\ forall D', relative_pose (pr_mean pr) T D' -> D' = D.
Proof.
  intros log6 [M L] T RM. cbn [pr_mean] in *. exists (pose_minus T M). split; [|split; [reflexivity|]].
  - intros p. assert (E : compose (pose_minus T M) p = unrotate M (vsub (compose T p) (tr M))).
    { unfold pose_minus, compose, rotate, unrotate, vsub, vadd, vscale, vdot. cbn [c0 c1 c2 tr vx vy vz]. f_equal; ring. }
    rewrite E. unfold compose at 1. rewrite rotate_unrotate by exact RM. destruct (compose T p) as [x y z], (tr M) as [t u w].
    unfold vadd, vsub. cbn [vx vy vz]. f_equal; ring.
  - intros D R.
    assert (K : forall p, compose D p = unrotate M (vsub (compose T p) (tr M))).
    { intros p. rewrite <- (R p). unfold compose at 2. assert (X : forall u w : V3, vsub (vadd u w) w = u).
      { intros [u0 u1 u2] [w0 w1 w2]. unfold vsub, vadd. cbn [vx vy vz]. f_equal; ring. }
      rewrite X, unrotate_rotate by exact RM. reflexivity. }
    destruct D as [[a0 a1 a2] [b0 b1 b2] [d0 d1 d2] [t0 t1 t2]], T as [[e0 e1 e2] [f0 f1 f2] [g0 g1 g2] [u0 u1 u2]], M as [[h0 h1 h2] [i0 i1 i2] [j0 j1 j2] [v0 v1 v2]].
    pose proof (K (mkV 0 0 0)) as K0. pose proof (K (mkV 1 0 0)) as K1. pose proof (K (mkV 0 1 0)) as K2. pose proof (K (mkV 0 0 1)) as K3. clear K R RM.
    unfold pose_minus, compose, rotate, unrotate, vsub, vadd, vscale, vdot in *. cbn [c0 c1 c2 tr vx vy vz] in *.
    injection K0 as A0 A1 A2. injection K1 as B0 B1 B2. injection K2 as C0 C1 C2. injection K3 as D0 D1 D2. f_equal; f_equal; lra.
Qed.

(** ** Algebra *)
Lemma mul_trM A u v : dot6 (mulMV (trM A) u) v = dot6 u (mulMV A v).
Proof. destruct A as [a0 a1 a2 a3 a4 a5]. unfold mulMV, trM, dot6. cbn [r0 r1 r2 r3 r4 r5 x0 x1 x2 x3 x4 x5]. ring. Qed.
Lemma mul_mulM A B v : mulMV (mulM A B) v = mulMV A (mulMV B v).
Proof.
  assert (X : forall r, dot6 (mulMV (trM B) r) v = dot6 r (mulMV B v)) by (intros r; apply mul_trM).
  unfold mulMV at 1, mulM. cbn [r0 r1 r2 r3 r4 r5]. rewrite !X. reflexivity.
Qed.
Lemma prior_H log6 jac2 pr T H g a b : prior_terms log6 jac2 pr T = (H, g) ->
  dot6 (mulMV H a) b = form (pr_inf pr) (prior_der jac2 pr T b) (prior_der jac2 pr T a).
Proof.
  intros E. unfold prior_terms in E. injection E as <- _. rewrite !mul_mulM, mul_trM, dot6_comm. reflexivity.
Qed.
Lemma prior_g log6 jac2 pr T H g a : prior_terms log6 jac2 pr T = (H, g) ->
  dot6 g a = form (pr_inf pr) (prior_der jac2 pr T a) (prior_res log6 pr T).
Proof.
  intros E. unfold prior_terms in E. injection E as _ <-. rewrite mul_mulM, mul_trM, dot6_comm.
  unfold form, prior_der, prior_res. reflexivity.
Qed.

(** ** The iteration with and without the prior *)
Definition drop (par : GParams) : GParams :=
  mkGPar (g_point par) (g_max_inner par) (g_min_delta par) (g_max_cost par) (g_kernel par)
         (g_w_pt2pt par) (g_w_pt2ln par) (g_w_ln2ln par) (g_w_pt2pl par) (g_w_pl2pl par) None.
Lemma cursor_drop par p order : forall c, cursor_weights (drop par) p order c = cursor_weights par p order c.
Proof.
  induction order as [|i r IH]; intros c; cbn [cursor_weights]; [reflexivity|].
  change (next_weight (weighted p) (drop par) i c) with (next_weight (weighted p) par i c).
  destruct (next_weight (weighted p) par i c) as [[w c1]| |]; cbn [rbind]; try reflexivity. rewrite IH. reflexivity.
Qed.
Lemma lines_drop par T ls : forall a, seq_lines (drop par) T ls a = seq_lines par T ls a.
Proof.
  induction ls as [|l r IH]; intros a; cbn [seq_lines]; [reflexivity|]. destruct (rows_ln2ln T l); cbn [rbind]; try reflexivity. apply IH.
Qed.
Lemma middle_drop par p T a : middle_terms (drop par) p T a = middle_terms par p T a.
Proof. unfold middle_terms. rewrite lines_drop. reflexivity. Qed.
Lemma last_drop par p T a f H g : g_prior par = Some f -> f T = (H, g) ->
  a_ne (last_terms par p T a) = ne_add (a_ne (last_terms (drop par) p T a)) (mkNE H g) /\
  a_err (last_terms par p T a) = a_err (last_terms (drop par) p T a).
Proof. intros E F. unfold last_terms. rewrite E, F. cbn [drop g_prior a_ne a_err]. split; reflexivity. Qed.
Lemma iter_drop par p T s c a c' f H g : g_prior par = Some f -> f T = (H, g) -> iter_tbb par p T s c = Ok (a, c') ->
  exists a0, iter_tbb (drop par) p T s c = Ok (a0, c') /\ a_ne a = ne_add (a_ne a0) (mkNE H g) /\ a_err a = a_err a0.
Proof.
  intros E F I. unfold iter_tbb in *. rewrite cursor_drop. apply rbind_inv in I. destruct I as [[l c1] [-> I]]. cbn [rbind].
  apply rbind_inv in I. destruct I as [am [ME I]]. injection I as <- <-. rewrite middle_drop.
  match goal with |- context [middle_terms par p T ?x] => match type of ME with middle_terms par p T ?y = _ => change x with y end end.
  rewrite ME. cbn [rbind]. eexists. split; [reflexivity|]. apply (last_drop par p T _ f H g E F).
Qed.
Lemma rows_drop par p T : all_rows (drop par) p T = all_rows par p T.
Proof.
  unfold all_rows, all_rows_with.
  assert (X : forall ps i, point_rows T (drop par) (point_weight (drop par) p) i ps = point_rows T par (point_weight par p) i ps).
  { induction ps as [|x ps IH]; intros i; cbn [point_rows]; [reflexivity|]. rewrite IH. reflexivity. }
  rewrite X. reflexivity.
Qed.

Lemma iter_prior log6 jac2 pr par p T s c a c' : has_prior log6 jac2 pr par -> gp_weights p = [] -> fair p s ->
  iter_tbb par p T s c = Ok (a, c') ->
  c' = c /\ normal_equations_with_prior log6 jac2 pr T (all_rows par p T) (a_ne a).
Proof.
  intros HP NW FAIR IT. destruct (prior_terms log6 jac2 pr T) as [H g] eqn:PT.
  destruct (iter_drop par p T s c a c' _ H g HP PT IT) as [a0 [IT0 [EA _]]].
  destruct (iter_tbb_ok (drop par) p T s c a0 c' eq_refl FAIR IT0) as [l [CW N]].
  rewrite unweighted_cursor in CW by exact NW. injection CW as <- <-. split; [reflexivity|].
  assert (N' : normal_equations (all_rows par p T) (a_ne a0)).
  { rewrite <- rows_drop. unfold all_rows, all_rows_with in *.
    rewrite (point_rows_ext _ _ _ (point_weight (drop par) p)) in N; [exact N|].
    intros j. etransitivity; [apply (unweighted_assigned (drop par) (s_order s) j)|]. unfold point_weight. rewrite NW. reflexivity. }
  destruct N' as [NH NG]. rewrite EA. split; intros; cbn [ne_add ne_H ne_g].
  - rewrite mul_addM, dot_add6, NH. f_equal. apply (prior_H _ _ _ _ _ _ _ _ PT).
  - rewrite dot_add6, NG. f_equal. apply (prior_g _ _ _ _ _ _ _ PT).
Qed.

(** C267: TBB build, pairs without individual weights, with a prior: the normal equations of every inner
    iteration are those of the pairs at the pose of that iteration plus those of the prior there. *)
Theorem C267_normal_equations_with_prior : forall ldlt exp6 log6 jac2 pr par p sched T log,
  has_prior log6 jac2 pr par -> gp_weights p = [] -> (forall k, fair p (sched k)) ->
  optimal_tf_gauss_newton ldlt exp6 par p (tbb sched) = Ok (true, T, log) ->
  (length log <= g_max_inner par)%nat /\
  Forall (fun s => normal_equations_with_prior log6 jac2 pr (st_pose s) (all_rows par p (st_pose s)) (st_ne s)) log.
Proof.
  intros ldlt exp6 log6 jac2 pr par p sched T log HP NW FAIR E. unfold optimal_tf_gauss_newton in E.
  destruct (g_point par) as [T0|]; [|discriminate E]. apply rbind_inv in E. destruct E as [[T1 lg] [L E]]. injection E as <- <-.
  set (Q := fun s => normal_equations_with_prior log6 jac2 pr (st_pose s) (all_rows par p (st_pose s)) (st_ne s)).
  assert (G : forall fuel k T0 prev c log0 T1 lg, gn_loop ldlt exp6 par p (tbb sched) fuel k T0 prev c log0 = Ok (T1, lg) ->
    Forall Q log0 -> (length lg <= length log0 + fuel)%nat /\ Forall Q lg).
  { clear T0 T1 lg L. induction fuel as [|fuel IH]; intros k T0 prev c log0 T1 lg L F; cbn [gn_loop] in L.
    - injection L as <- <-. split; [lia|exact F].
    - apply rbind_inv in L. destruct L as [[a c'] [IT L]]. cbn [tbb] in IT.
      destruct (iter_prior _ _ _ _ _ _ _ _ _ _ HP NW (FAIR k) IT) as [-> N].
      assert (F' : Forall Q (log0 ++ [mkStep T0 (a_ne a) (a_err a)])).
      { apply Forall_app. split; [exact F|]. constructor; [exact N|constructor]. }
      assert (LL : length (log0 ++ [mkStep T0 (a_ne a) (a_err a)]) = S (length log0)) by (rewrite app_length; simpl; lia).
      destruct (Rle_dec _ _); [injection L as <- <-; split; [rewrite LL; lia|exact F']|].
      destruct (Rlt_dec _ _); [injection L as <- <-; split; [rewrite LL; lia|exact F']|].
      destruct (IH _ _ _ _ _ _ _ L F') as [A B]. split; [rewrite LL in A; lia|exact B]. }
  destruct (G _ _ _ _ _ _ _ _ L (Forall_nil _)) as [A B]. simpl in A. split; [lia|exact B].
Qed.

(** ** The step *)
Lemma mulMV_add A u v : mulMV A (add6 u v) = add6 (mulMV A u) (mulMV A v).
Proof. unfold mulMV. rewrite !(dot6_comm _ (add6 u v)), !dot_add6, !(dot6_comm u), !(dot6_comm v). reflexivity. Qed.
Lemma form_add_l L u v w : form L (add6 u v) w = form L u w + form L v w.
Proof. unfold form. apply dot_add6. Qed.
Lemma form_add_r L u v w : form L w (add6 u v) = form L w u + form L w v.
Proof. unfold form. rewrite mulMV_add, dot6_comm, dot_add6, !(dot6_comm _ w). reflexivity. Qed.
Lemma add6_sub d d' : add6 d (add6 d' (scale6 (-1) d)) = d'.
Proof. d6. f_equal; ring. Qed.
Lemma mulMV_scale A k v : mulMV A (scale6 k v) = scale6 k (mulMV A v).
Proof. unfold mulMV, scale6 at 2. cbn [x0 x1 x2 x3 x4 x5]. rewrite !(dot6_comm _ (scale6 k v)), !dot_scale6, !(dot6_comm v). reflexivity. Qed.

Lemma prior_step log6 jac2 pr T l n d :
  symmetric (pr_inf pr) -> semidefinite (pr_inf pr) -> Forall (fun r => 0 <= w_w r) l ->
  normal_equations_with_prior log6 jac2 pr T l n ->
  mulMV (ne_H n) d = scale6 (-1) (ne_g n) -> forall d', cost_with_prior log6 jac2 pr T l d <= cost_with_prior log6 jac2 pr T l d'.
Proof.
  intros SY SD W [NH NG] E d'. set (h := add6 d' (scale6 (-1) d)).
  set (L := pr_inf pr) in *. set (J := prior_der jac2 pr T) in *. set (e := prior_res log6 pr T) in *.
  assert (X : linear_cost l d' = linear_cost l d + (rsum (fun r => w_w r * (dot6 (w_j r) h * dot6 (w_j r) h)) l +
     2 * (rsum (fun r => w_w r * (w_e r * dot6 (w_j r) h)) l + rsum (fun r => w_w r * (dot6 (w_j r) d * dot6 (w_j r) h)) l))).
  { unfold linear_cost. rewrite <- (rsum_add (fun r => w_w r * (w_e r * dot6 (w_j r) h))), <- rsum_scale, <- !rsum_add. apply rsum_ext. intros r. unfold h. rewrite dot6_sub. unfold Rsqr. ring. }
  assert (JD : J d' = add6 (J d) (J h)).
  { unfold J, prior_der. rewrite <- mulMV_add. unfold h. rewrite add6_sub. reflexivity. }
  unfold cost_with_prior. fold L. fold J. fold e.
  assert (Y : form L (add6 e (J d')) (add6 e (J d')) = form L (add6 e (J d)) (add6 e (J d)) +
     (form L (J h) (J h) + 2 * (form L (J h) e + form L (J h) (J d)))).
  { rewrite JD, !form_add_l, !form_add_r, (SY e (J h)), (SY (J d) (J h)). ring. }
  assert (Z := NG h). assert (Z2 := NH d h). rewrite E, dot_scale6 in Z2. fold L in Z, Z2. fold J in Z, Z2. fold e in Z.
  assert (P : 0 <= rsum (fun r => w_w r * (dot6 (w_j r) h * dot6 (w_j r) h)) l).
  { apply rsum_nonneg. eapply Forall_impl; [|exact W]. intros r Lr. cbn beta in *. assert (0 <= dot6 (w_j r) h * dot6 (w_j r) h) by nra. nra. }
  assert (P2 := SD (J h)). lra.
Qed.

(** C268: with a symmetric positive semidefinite information matrix, every step of the solver minimises the
    linearised error of the pairs and of the prior together. *)
Definition best_move_with (exp6 : V6 -> Pose) (cost : V6 -> R) (T T' : Pose) : Prop :=
  exists d, T' = padd_pose T (exp6 d) /\ forall d', cost d <= cost d'.
Fixpoint trajectory_with (exp6 : V6 -> Pose) (cost_at : Pose -> V6 -> R) (T : Pose) (log : list Step) (Tend : Pose) : Prop :=
  match log with
  | [] => T = Tend
  | s :: rest => st_pose s = T /\
    ((rest = [] /\ Tend = T) \/ exists T', best_move_with exp6 (cost_at T) T T' /\ trajectory_with exp6 cost_at T' rest Tend)
  end.
Theorem C268_steps_with_prior : forall ldlt exp6 log6 jac2 pr par p sched T0 T log,
  has_prior log6 jac2 pr par -> symmetric (pr_inf pr) -> semidefinite (pr_inf pr) ->
  gp_weights p = [] -> (forall k, fair p (sched k)) ->
  g_point par = Some T0 ->
  optimal_tf_gauss_newton ldlt exp6 par p (tbb sched) = Ok (true, T, log) ->
  solved ldlt log ->
  Forall (fun s => Forall (fun r => 0 <= w_w r) (all_rows par p (st_pose s))) log ->
  trajectory_with exp6 (fun T => cost_with_prior log6 jac2 pr T (all_rows par p T)) T0 log T.
Proof.
  intros ldlt exp6 log6 jac2 pr par p sched T0 T log HP SY SD NW FAIR GP E SV WP. unfold optimal_tf_gauss_newton in E. rewrite GP in E.
  apply rbind_inv in E. destruct E as [[T1 lg] [L E]]. injection E as <- <-.
  set (ca := fun T => cost_with_prior log6 jac2 pr T (all_rows par p T)).
  assert (G : forall fuel k T0 prev c log0 T1 lg, gn_loop ldlt exp6 par p (tbb sched) fuel k T0 prev c log0 = Ok (T1, lg) ->
    exists l, lg = log0 ++ l /\ (solved ldlt l -> Forall (fun s => Forall (fun r => 0 <= w_w r) (all_rows par p (st_pose s))) l -> trajectory_with exp6 ca T0 l T1)).
  { clear T0 T1 lg L SV WP GP. induction fuel as [|fuel IH]; intros k T0 prev c log0 T1 lg L; cbn [gn_loop] in L.
    - injection L as <- <-. exists []. rewrite app_nil_r. split; [reflexivity|]. intros _ _. reflexivity.
    - apply rbind_inv in L. destruct L as [[a c'] [IT L]]. cbn [tbb] in IT.
      destruct (iter_prior _ _ _ _ _ _ _ _ _ _ HP NW (FAIR k) IT) as [-> N].
      set (s := mkStep T0 (a_ne a) (a_err a)) in *.
      set (d := scale6 (-1) (ldlt (ne_H (a_ne a)) (ne_g (a_ne a)))) in *.
      assert (MV : mulMV (ne_H (a_ne a)) (ldlt (ne_H (a_ne a)) (ne_g (a_ne a))) = ne_g (a_ne a) -> Forall (fun r => 0 <= w_w r) (all_rows par p T0) -> best_move_with exp6 (ca T0) T0 (padd_pose T0 (exp6 d))).
      { intros Q W. exists d. split; [reflexivity|]. apply (prior_step _ _ _ _ _ (a_ne a)); try assumption.
        unfold d. rewrite mulMV_scale, Q. reflexivity. }
      destruct (Rle_dec _ _).
      { injection L as <- <-. exists [s]. split; [reflexivity|]. intros _ _. cbn [trajectory_with]. split; [reflexivity|left; auto]. }
      destruct (Rlt_dec _ _).
      { injection L as <- <-. exists [s]. split; [reflexivity|]. intros SV WP. cbn [trajectory_with]. split; [reflexivity|right].
        eexists. split; [apply MV; [exact (Forall_inv SV)|exact (Forall_inv WP)]|]. reflexivity. }
      destruct (IH _ _ _ _ _ _ _ L) as [l [EL TR]]. exists (s :: l). split; [rewrite EL, <- app_assoc; reflexivity|].
      intros SV WP. cbn [trajectory_with]. split; [reflexivity|right]. eexists.
      split; [apply MV; [exact (Forall_inv SV)|exact (Forall_inv WP)]|]. apply TR; [exact (Forall_inv_tail SV)|exact (Forall_inv_tail WP)]. }
  destruct (G _ _ _ _ _ _ _ _ L) as [l [-> TR]]. apply TR; assumption.
Qed.

(** C269: the error that stops the iterations (errNormSqr) leaves out the prior, so where the pairs are
    satisfied, or where there are none, the prior has no effect however far it is from the starting pose. *)
Theorem C269_satisfied_pairs_hide_the_prior_refuted : forall ldlt exp6 log6 jac2 pr par p T0 build,
  has_prior log6 jac2 pr par -> prior_res log6 pr T0 <> zero6 ->
  g_point par = Some T0 -> exact_at T0 p -> 0 <= g_max_cost par -> gp_weights p = [] ->
  (forall s l, build 0%nat = Some s -> Forall (fun e => e = 0) l -> s_race s l = 0) ->
  exists log, optimal_tf_gauss_newton ldlt exp6 par p build = Ok (true, T0, log).
Proof.
  intros ldlt exp6 log6 jac2 pr par p T0 build _ _ GP X MC NW RC.
  apply (C97_exact_start_is_returned ldlt exp6 par p T0 build GP X MC (or_introl NW) RC).
Qed.

(** where the pairs leave an error above maxCost, the prior takes part in the step *)
Lemma loop_log ldlt exp6 par p sched : forall fuel k T0 prev c log0 T1 lg,
  gn_loop ldlt exp6 par p sched fuel k T0 prev c log0 = Ok (T1, lg) ->
  exists l, lg = log0 ++ l /\ ((l = [] /\ T1 = T0) \/ exists s r, l = s :: r /\ st_pose s = T0).
Proof.
  induction fuel as [|fuel IH]; intros k T0 prev c log0 T1 lg L; cbn [gn_loop] in L.
  - injection L as <- <-. exists []. rewrite app_nil_r. auto.
  - apply rbind_inv in L. destruct L as [[a c'] [IT L]].
    destruct (Rle_dec _ _); [injection L as <- <-; eexists; split; [reflexivity|right; do 2 eexists; split; reflexivity]|].
    destruct (Rlt_dec _ _); [injection L as <- <-; eexists; split; [reflexivity|right; do 2 eexists; split; reflexivity]|].
    destruct (IH _ _ _ _ _ _ _ L) as [l [-> _]]. rewrite <- app_assoc. eexists. split; [reflexivity|]. right. cbn [app]. do 2 eexists. split; reflexivity.
Qed.
Theorem C269_where : forall ldlt exp6 log6 jac2 pr par p sched T0 T s rest,
  has_prior log6 jac2 pr par -> symmetric (pr_inf pr) -> semidefinite (pr_inf pr) ->
  gp_weights p = [] -> (forall k, fair p (sched k)) -> g_point par = Some T0 ->
  optimal_tf_gauss_newton ldlt exp6 par p (tbb sched) = Ok (true, T, s :: rest) ->
  solved ldlt (s :: rest) -> Forall (fun r => 0 <= w_w r) (all_rows par p T0) ->
  g_max_cost par < sqrt (st_err s) ->
  exists T', best_move_with exp6 (cost_with_prior log6 jac2 pr T0 (all_rows par p T0)) T0 T' /\
    ((rest = [] /\ T = T') \/ exists s2 r, rest = s2 :: r /\ st_pose s2 = T').
Proof.
  intros ldlt exp6 log6 jac2 pr par p sched T0 T s rest HP SY SD NW FAIR GP E SV W HE. unfold optimal_tf_gauss_newton in E. rewrite GP in E.
  apply rbind_inv in E. destruct E as [[T1 lg] [L E]]. injection E as -> ->.
  destruct (g_max_inner par) as [|fuel]; cbn [gn_loop] in L; [discriminate L|].
  apply rbind_inv in L. destruct L as [[a c'] [IT L]]. cbn [tbb] in IT.
  destruct (iter_prior _ _ _ _ _ _ _ _ _ _ HP NW (FAIR 0%nat) IT) as [-> N]. cbn [app] in L.
  set (d := scale6 (-1) (ldlt (ne_H (a_ne a)) (ne_g (a_ne a)))) in *.
  assert (MV : mulMV (ne_H (a_ne a)) (ldlt (ne_H (a_ne a)) (ne_g (a_ne a))) = ne_g (a_ne a) ->
    best_move_with exp6 (cost_with_prior log6 jac2 pr T0 (all_rows par p T0)) T0 (padd_pose T0 (exp6 d))).
  { intros Q. exists d. split; [reflexivity|]. apply (prior_step _ _ _ _ _ (a_ne a)); try assumption.
    unfold d. rewrite mulMV_scale, Q. reflexivity. }
  assert (S1 := Forall_inv SV). cbn beta in S1.
  destruct (Rle_dec _ _) as [Q|Q].
  { injection L as <- <- <-. cbn [st_err] in HE. lra. }
  destruct (Rlt_dec _ _).
  { injection L as <- <- <-. exists (padd_pose T0 (exp6 d)). split; [apply MV; exact S1|left; auto]. }
  destruct (loop_log _ _ _ _ _ _ _ _ _ _ _ _ _ L) as [l [EL C]]. cbn [app] in EL. injection EL as -> ->.
  exists (padd_pose T0 (exp6 d)). split; [apply MV; exact S1|]. exact C.
Qed.

(** ** Non-vacuity: no pairs at all, and a prior one metre away with a positive definite information matrix *)
Definition log_tr (T : Pose) : V6 := mk6 (vx (tr T)) (vy (tr T)) (vz (tr T)) 0 0 0.
Definition idM : M66 := mkM6 (mk6 1 0 0 0 0 0) (mk6 0 1 0 0 0 0) (mk6 0 0 1 0 0 0) (mk6 0 0 0 1 0 0) (mk6 0 0 0 0 1 0) (mk6 0 0 0 0 0 1).
Definition pr_ex : Prior := mkPrior (mkPose (mkV 1 0 0) (mkV 0 1 0) (mkV 0 0 1) (mkV 1 0 0)) idM.
Definition par_ex : GParams := mkGPar (Some pose_ident) 6 0 0 None 1 1 1 1 1 (Some (prior_terms log_tr (fun _ _ _ => idM) pr_ex)).
Lemma pr_ex_res : prior_res log_tr pr_ex pose_ident = mk6 (-1) 0 0 0 0 0.
Proof. unfold prior_res, log_tr, pose_minus, unrotate, pr_ex, pose_ident, vdot, vsub. cbn [pr_mean tr c0 c1 c2 vx vy vz]. f_equal; ring. Qed.
Example C269_example : forall ldlt exp6, exists log,
  has_prior log_tr (fun _ _ _ => idM) pr_ex par_ex /\ prior_res log_tr pr_ex pose_ident = mk6 (-1) 0 0 0 0 0 /\
  symmetric (pr_inf pr_ex) /\ semidefinite (pr_inf pr_ex) /\
  optimal_tf_gauss_newton ldlt exp6 par_ex (mkGP [] [] [] [] [] []) (fun _ => None) = Ok (true, pose_ident, log).
Proof.
  intros ldlt exp6.
  destruct (C269_satisfied_pairs_hide_the_prior_refuted ldlt exp6 log_tr (fun _ _ _ => idM) pr_ex par_ex (mkGP [] [] [] [] [] []) pose_ident (fun _ => None)) as [log E].
  - reflexivity.
  - rewrite pr_ex_res. intros H. apply (f_equal x0) in H. cbn [x0 zero6] in H. lra.
  - reflexivity.
  - unfold exact_at. repeat split; try constructor.
  - cbn [par_ex g_max_cost]. lra.
  - reflexivity.
  - intros s l H. discriminate H.
  - exists log. split; [reflexivity|]. split; [exact pr_ex_res|].
    cbn [pr_ex pr_inf].
    split; [intros [a0 a1 a2 a3 a4 a5] [b0 b1 b2 b3 b4 b5]|split; [intros [a0 a1 a2 a3 a4 a5]|exact E]]; unfold form, mulMV, dot6, idM; cbn [r0 r1 r2 r3 r4 r5 x0 x1 x2 x3 x4 x5]; [ring|nra].
Qed.
