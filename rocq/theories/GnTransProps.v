(** C348: the Gauss-Newton solver corrects a wrong translation in one inner iteration. *)
From Coq Require Import Reals List Lra Lia Psatz Nsatz.
From Verif Require Import Base GeomModel VisitModel VisitSpec VisitProps RotProofs GnModel GnSpec GnProps GnCasesProps GnWhereProps GnErrorProps.
Import ListNotations.
Open Scope R_scope.

(** ** Specification *)
(** the pose T0 with another translation *)
Definition moved_to (T0 : Pose) (v : V3) : Pose := mkPose (c0 T0) (c1 T0) (c2 T0) v.
(** Eigen's ldlt().solve() solves the normal equations of the pairs p at the pose T *)
Definition solves_at (ldlt : M66 -> V6 -> V6) (par : GParams) (p : GPairs) (T : Pose) : Prop :=
  forall n, normal_equations (all_rows par p T) n -> mulMV (ne_H n) (ldlt (ne_H n) (ne_g n)) = ne_g n.
(** the exponential of a pure translation *)
Definition exp_translation (exp6 : V6 -> Pose) : Prop :=
  forall a b c, exp6 (mk6 a b c 0 0 0) = mkPose (mkV 1 0 0) (mkV 0 1 0) (mkV 0 0 1) (mkV a b c).

(** ** Rows *)
(** the increment, in the frame of the sensor, that leads from the translation v to that of T0 *)
Definition back (T0 : Pose) (v : V3) : V6 :=
  let t := vsub (tr T0) v in mk6 (vdot (c0 T0) t) (vdot (c1 T0) t) (vdot (c2 T0) t) 0 0 0.
Definition explains (T : Pose) (d : V6) (r : rows) : Prop := Forall (fun x => fst x = - dot6 (row6 T (snd x)) d) r.

(** R R^T = I *)
Lemma rot_back T0 t : is_rotation T0 ->
  vadd (vscale (vdot (c0 T0) t) (c0 T0)) (vadd (vscale (vdot (c1 T0) t) (c1 T0)) (vscale (vdot (c2 T0) t) (c2 T0))) = t.
Proof.
  intros (N0 & N1 & N2 & D1 & D2 & D3 & X). destruct T0 as [[a0 a1 a2] [b0 b1 b2] [e0 e1 e2] q], t as [t0 t1 t2].
  unfold vnorm2, vdot, vcross in *. cbn [c0 c1 c2 vx vy vz] in *. injection X as X0 X1 X2.
  unfold vadd, vscale. cbn [vx vy vz]. subst e0 e1 e2.
  f_equal; nsatz.
Qed.

Lemma jac_back T0 v j0 j1 j2 a b c d e f g h i : is_rotation T0 ->
  dot6 (row6 (moved_to T0 v) [a; b; c; d; e; f; g; h; i; j0; j1; j2]) (back T0 v) = vdot (mkV j0 j1 j2) (vsub (tr T0) v).
Proof.
  intros RT. assert (E := rot_back T0 (vsub (tr T0) v) RT). 
  set (t := vsub (tr T0) v) in *. unfold back. fold t.
  set (k0 := vdot (c0 T0) t) in *. set (k1 := vdot (c1 T0) t) in *. set (k2 := vdot (c2 T0) t) in *. rewrite <- E.
  clear. unfold row6, dDexpe_de, vec, moved_to, vzero3, dot6, vdot, vadd, vscale. cbn [nth dotl vx vy vz c0 c1 c2 tr x0 x1 x2 x3 x4 x5]. ring.
Qed.

Lemma compose_moved T0 v l : compose (moved_to T0 v) l = vsub (compose T0 l) (vsub (tr T0) v).
Proof.
  destruct T0 as [[a0 a1 a2] [b0 b1 b2] [e0 e1 e2] [q0 q1 q2]], v as [v0 v1 v2], l as [l0 l1 l2].
  unfold compose, rotate, moved_to, vadd, vscale, vsub. cbn [c0 c1 c2 tr vx vy vz]. f_equal; ring.
Qed.

Lemma Forall_three {A} (P : A -> Prop) a b c : P a -> P b -> P c -> Forall P [a; b; c].
Proof. auto. Qed.

Section Moved.
Variables (T0 : Pose) (v : V3).
Hypothesis RT : is_rotation T0.
Let T := moved_to T0 v.
Let d := back T0 v.

Lemma explains_pt2pt g l : compose T0 l = g -> explains T d (rows_pt2pt T (g, l)).
Proof.
  intros <-. unfold explains, rows_pt2pt, rows_of, error_point2point, jac_point2point, Jpoint, l3. cbn [fst snd combine].
  unfold T. rewrite !compose_moved. cbv zeta.
  apply Forall_three; cbn [fst snd]; unfold T, d; rewrite jac_back by exact RT; unfold vdot, vsub; cbn [vx vy vz]; ring.
Qed.
Lemma explains_pl2pl g l : rotate T0 (n_ l) = n_ g -> explains T d (rows_pl2pl T (g, l)).
Proof.
  intros E. unfold explains, rows_pl2pl, rows_of, error_plane2plane, jac_plane2plane, l3. cbn [fst snd combine].
  change (rotate T (n_ l)) with (rotate T0 (n_ l)). rewrite E.
  apply Forall_three; cbn [fst snd]; unfold T, d; rewrite jac_back by exact RT; unfold vdot; cbn [vx vy vz]; ring.
Qed.
Lemma explains_pt2ln g l t : compose T0 l = vadd (l_base g) (vscale t (l_dir g)) -> vnorm2 (l_dir g) = 1 -> explains T d (rows_pt2ln T (g, l)).
Proof.
  intros E U. unfold explains, rows_pt2ln, rows_of, error_point2line, jac_point2line, l3. cbv zeta. cbn [fst snd].
  unfold mmul, Jpoint. cbn [map seq combine]. unfold T. rewrite !compose_moved, E.
  apply Forall_three; cbn [fst snd]; unfold T, d; rewrite jac_back by exact RT; unfold col; cbn [map nth dotl]; clear E;
    destruct g as [[b0 b1 b2] [u0 u1 u2]], (vsub (tr T0) v) as [s0 s1 s2]; cbn [l_base l_dir] in *;
    unfold vnorm2, vdot in U; cbn [vx vy vz] in U; unfold vsub, vadd, vscale, vdot; cbn [vx vy vz]; nsatz.
Qed.
Lemma explains_pt2pl g l : vdot (n_ g) (compose T0 l) + d_ g = 0 -> explains T d (rows_pt2pl T (g, l)).
Proof.
  intros E. unfold explains, rows_pt2pl, rows_of, error_point2plane, jac_point2plane, l3. cbv zeta. cbn [fst snd].
  unfold mmul, Jpoint. cbn [map seq combine]. unfold T. rewrite !compose_moved.
  apply Forall_three; cbn [fst snd]; unfold T, d; rewrite jac_back by exact RT; unfold col; cbn [map nth dotl];
    destruct g as [[u0 u1 u2] k], (vsub (tr T0) v) as [s0 s1 s2], (compose T0 l) as [m0 m1 m2]; cbn [n_ d_] in *;
    unfold vdot in E; cbn [vx vy vz] in E; unfold vsub, vdot; cbn [vx vy vz];
    replace k with (- (u0 * m0 + u1 * m1 + u2 * m2)) by lra; unfold Rdiv; ring.
Qed.

Lemma explained_rows w r : explains T d r -> Forall (fun x => w_e x = - dot6 (w_j x) d) (wrows T w r).
Proof. unfold explains, wrows. rewrite Forall_map. intro H. exact H. Qed.
Lemma explained_class {A} par w (f : Pose -> A -> rows) l : Forall (fun x => explains T d (f T x)) l ->
  Forall (fun x => w_e x = - dot6 (w_j x) d) (class_rows T par w f l).
Proof.
  unfold class_rows. induction 1 as [|x l E F IH]; cbn [flat_map]; [constructor|]. apply Forall_app. split; [apply explained_rows; exact E|exact IH].
Qed.
Lemma explained_points par wt l : Forall (fun x => explains T d (rows_pt2pt T x)) l -> forall i,
  Forall (fun x => w_e x = - dot6 (w_j x) d) (point_rows T par wt i l).
Proof.
  induction 1 as [|x l E F IH]; intro i; cbn [point_rows]; [constructor|]. apply Forall_app. split; [apply explained_rows; exact E|apply IH].
Qed.
Lemma explained_all par p : exact_at T0 p -> Forall (fun x => w_e x = - dot6 (w_j x) d) (all_rows par p T).
Proof.
  intros (P & L & F & N & NL). unfold all_rows, all_rows_with. rewrite NL. repeat (apply Forall_app; split).
  - apply explained_points. eapply Forall_impl; [|exact P]. intros [g l] E. apply explains_pt2pt. exact E.
  - apply explained_class. eapply Forall_impl; [|exact L]. intros [g l] [t [E U]]. exact (explains_pt2ln g l t E U).
  - constructor.
  - apply explained_class. eapply Forall_impl; [|exact F]. intros [g l] E. apply explains_pt2pl. exact E.
  - apply explained_class. eapply Forall_impl; [|exact N]. intros [g l] E. apply explains_pl2pl. exact E.
Qed.
End Moved.

(** ** One inner iteration *)
Lemma first_normal par p b T c a c' : no_prior par -> gp_weights p = [] -> (forall s, b = Some s -> fair p s) ->
  one_iteration par p b T ne_zero c = Ok (a, c') -> normal_equations (all_rows par p T) (a_ne a).
Proof.
  intros NP NW FA E. destruct b as [s|]; cbn [one_iteration] in E.
  - destruct (iter_tbb_ok par p T s c a c' NP (FA s eq_refl) E) as [l [CW N]]. rewrite unweighted_cursor in CW by exact NW. injection CW as <- <-.
    unfold all_rows, all_rows_with in *. rewrite (point_rows_ext _ _ _ (point_weight par p)) in N; [exact N|].
    intros j. rewrite unweighted_assigned. unfold point_weight. rewrite NW. reflexivity.
  - unfold iter_seq in E. apply rbind_inv in E as [[a1 c1] [SP E]]. apply rbind_inv in E as [a2 [ME E]]. injection E as <- <-.
    destruct (seq_points_unweighted par p T _ NW 0 _ [] (mkAcc ne_zero 0) _ _ normal_nil SP) as [_ N1]. cbn [app] in N1.
    assert (N2 := middle_ok T par p _ _ _ N1 ME).
    assert (N3 := class_ok T par (g_w_pt2pl par) rows_pt2pl true (gp_pt2pl p) _ _ N2).
    unfold all_rows, all_rows_with. rewrite !app_assoc. rewrite !app_assoc in N3. apply last_ok; [exact NP|]. exact N3.
Qed.

Lemma dot6_ext a b : (forall x, dot6 a x = dot6 b x) -> a = b.
Proof.
  intros H. destruct a as [a0 a1 a2 a3 a4 a5], b as [b0 b1 b2 b3 b4 b5].
  assert (H0 := H (mk6 1 0 0 0 0 0)). assert (H1 := H (mk6 0 1 0 0 0 0)). assert (H2 := H (mk6 0 0 1 0 0 0)).
  assert (H3 := H (mk6 0 0 0 1 0 0)). assert (H4 := H (mk6 0 0 0 0 1 0)). assert (H5 := H (mk6 0 0 0 0 0 1)).
  unfold dot6 in *. cbn [x0 x1 x2 x3 x4 x5] in *. f_equal; lra.
Qed.

(** residuals that are -J d: the step is d *)
Lemma exact_step ldlt l n d : well_posed l -> normal_equations l n -> mulMV (ne_H n) (ldlt (ne_H n) (ne_g n)) = ne_g n ->
  Forall (fun x => w_e x = - dot6 (w_j x) d) l -> scale6 (-1) (ldlt (ne_H n) (ne_g n)) = d.
Proof.
  intros WP NE SV EX. assert (RG := regular l n WP NE). destruct NE as [NH NG].
  set (x := ldlt (ne_H n) (ne_g n)) in *.
  assert (Z : add6 x d = zero6).
  { apply RG. apply dot6_ext. intro y.
    assert (MA : mulMV (ne_H n) (add6 x d) = add6 (mulMV (ne_H n) x) (mulMV (ne_H n) d)).
    { clear. destruct (ne_H n) as [h0 h1 h2 h3 h4 h5]. unfold mulMV. cbn [r0 r1 r2 r3 r4 r5].
      assert (D : forall a b c, dot6 a (add6 b c) = dot6 a b + dot6 a c) by (clear; intros; d6; ring). rewrite !D. reflexivity. }
    rewrite MA, SV, dot_add6, NG, NH. rewrite <- rsum_add.
    assert (ZZ : forall k : list WRow, Forall (fun x => w_e x = - dot6 (w_j x) d) k ->
      rsum (fun a => w_w a * (w_e a * dot6 (w_j a) y) + w_w a * (dot6 (w_j a) d * dot6 (w_j a) y)) k = 0).
    { induction 1 as [|r k E F IH]; cbn [rsum]; [reflexivity|]. rewrite IH, E. ring. }
    rewrite (ZZ l EX). d6. ring. }
  clear - Z. destruct x as [a0 a1 a2 a3 a4 a5], d as [b0 b1 b2 b3 b4 b5]. unfold add6, zero6, scale6 in *. cbn [x0 x1 x2 x3 x4 x5] in *.
  injection Z as Z0 Z1 Z2 Z3 Z4 Z5. f_equal; lra.
Qed.

(** the increment leads to T0 *)
Lemma step_back T0 v exp6 : is_rotation T0 -> exp_translation exp6 -> padd_pose (moved_to T0 v) (exp6 (back T0 v)) = T0.
Proof.
  intros RT EX. unfold back. cbv zeta. rewrite EX. assert (E := rot_back T0 (vsub (tr T0) v) RT).
  set (t := vsub (tr T0) v) in *. set (k0 := vdot (c0 T0) t) in *. set (k1 := vdot (c1 T0) t) in *. set (k2 := vdot (c2 T0) t) in *.
  assert (TT : tr T0 = vadd v t) by (unfold t; destruct (tr T0) as [q0 q1 q2], v as [v0 v1 v2]; unfold vadd, vsub; cbn [vx vy vz]; f_equal; ring).
  destruct T0 as [[a0 a1 a2] [b0 b1 b2] [e0 e1 e2] q], v as [v0 v1 v2]. cbn [c0 c1 c2 tr] in *.
  unfold padd_pose, moved_to, compose, rotate. cbn [c0 c1 c2 tr vx vy vz]. clearbody t k0 k1 k2. subst q t.
  unfold vadd, vscale. cbn [vx vy vz]. f_equal; f_equal; ring.
Qed.

Lemma compared_exact b par p T : exact_at T p -> compared_error b par p T = 0.
Proof.
  intros X. destruct (exact_rows T p X) as (P & L & F & N). destruct X as (_ & _ & _ & _ & NL). unfold compared_error. rewrite NL.
  assert (Z : forall A (f : A -> rows) w l, Forall (fun x => sq_norm (f x) = 0) l -> class_error par w f l = 0 /\ class_error_sq par w f l = 0).
  { clear. intros A f w l H. unfold class_error, class_error_sq. induction H as [|x l E H [IH1 IH2]]; cbn [rsum]; [split; reflexivity|]. rewrite IH1, IH2, E. split; ring. }
  destruct (Z _ _ (g_w_pt2pt par) _ P) as [-> _]. destruct (Z _ _ (g_w_pt2ln par) _ L) as [_ ->].
  destruct (Z _ _ (g_w_pt2pl par) _ F) as [-> ->]. destruct (Z _ _ (g_w_pl2pl par) _ N) as [_ ->]. unfold class_error_sq. cbn [rsum]. destruct b; ring.
Qed.

(** no error left: the start was exact already *)
Lemma sq_norm_nonneg r : 0 <= sq_norm r.
Proof. unfold sq_norm. induction r as [|x r IH]; cbn [fold_right]; [lra|]. assert (0 <= fst x * fst x) by nra. lra. Qed.
Lemma sq_norm_zero r : sq_norm r = 0 -> Forall (fun x => fst x = 0) r.
Proof.
  unfold sq_norm. induction r as [|x r IH]; cbn [fold_right]; intro E; [constructor|].
  assert (P := sq_norm_nonneg r). unfold sq_norm in P. assert (0 <= fst x * fst x) by nra.
  constructor; [|apply IH; lra]. assert (Q : fst x * fst x = 0) by lra. apply Rmult_integral in Q. destruct Q; assumption.
Qed.
Lemma class_zero {A} T par w (f : Pose -> A -> rows) l : Forall (fun r => 0 < w_w r) (class_rows T par w f l) ->
  (0 <= class_error par w (f T) l /\ (class_error par w (f T) l = 0 -> Forall (fun r => w_e r = 0) (class_rows T par w f l))) /\
  (0 <= class_error_sq par w (f T) l /\ (class_error_sq par w (f T) l = 0 -> Forall (fun r => w_e r = 0) (class_rows T par w f l))).
Proof.
  unfold class_rows, class_error, class_error_sq. induction l as [|x l IH]; cbn [flat_map rsum]; intro W.
  - split; (split; [lra|intros _; constructor]).
  - apply Forall_app in W. destruct W as [W1 W2]. destruct (IH W2) as [[P1 Z1] [P2 Z2]]. clear IH.
    set (k := robust par w (f T x)) in *. assert (S0 := sq_norm_nonneg (f T x)).
    assert (D : f T x = [] \/ 0 < k).
    { destruct (f T x) as [|y r] eqn:E; [left; reflexivity|right]. unfold wrows in W1. cbn [map] in W1. apply Forall_inv in W1. exact W1. }
    assert (G : sq_norm (f T x) = 0 -> Forall (fun r => w_e r = 0) (wrows T k (f T x))).
    { intro E. unfold wrows. rewrite Forall_map. cbn [w_e]. apply sq_norm_zero. exact E. }
    destruct D as [D|D].
    + assert (Q : sq_norm (f T x) = 0) by (rewrite D; reflexivity). assert (GW := G Q). rewrite Q in *.
      split; (split; [nra|]); intro E; (apply Forall_app; split; [exact GW|]); [apply Z1|apply Z2]; nra.
    + split; (split; [nra|]); intro E; apply Forall_app.
      * assert (0 <= k * sq_norm (f T x)) by nra. split; [|apply Z1; lra]. apply G. assert (Q : k * sq_norm (f T x) = 0) by lra. apply Rmult_integral in Q. destruct Q; lra.
      * assert (0 <= k * k * sq_norm (f T x)) by (apply Rmult_le_pos; nra). split; [|apply Z2; lra]. apply G. assert (Q : k * k * sq_norm (f T x) = 0) by lra. apply Rmult_integral in Q. destruct Q; nra.
Qed.
Lemma points_as_class T par p : gp_weights p = [] -> forall l i, point_rows T par (point_weight par p) i l = class_rows T par (g_w_pt2pt par) rows_pt2pt l.
Proof.
  intros NW l. unfold class_rows. induction l as [|x l IH]; intro i; cbn [point_rows flat_map]; [reflexivity|]. rewrite IH. unfold point_weight. rewrite NW. reflexivity.
Qed.
Lemma error_zero b par p T : gp_weights p = [] -> Forall (fun r => 0 < w_w r) (all_rows par p T) ->
  compared_error b par p T <= 0 -> Forall (fun r => w_e r = 0) (all_rows par p T).
Proof.
  intros NW W E. unfold all_rows, all_rows_with in *. rewrite points_as_class in * by exact NW.
  repeat rewrite Forall_app in W. destruct W as (W1 & W2 & W3 & W4 & W5). unfold compared_error in E.
  destruct (class_zero _ _ _ _ _ W1) as [[A1 B1] _]. destruct (class_zero _ _ _ _ _ W2) as [_ [A2 B2]].
  destruct (class_zero _ _ _ _ _ W3) as [_ [A3 B3]]. destruct (class_zero _ _ _ _ _ W4) as [[A4 B4] [A4' B4']].
  destruct (class_zero _ _ _ _ _ W5) as [_ [A5 B5]].
  destruct b; repeat (apply Forall_app; split); first [apply B1; lra|apply B2; lra|apply B3; lra|apply B4; lra|apply B4'; lra|apply B5; lra].
Qed.

(** ** C348 *)
Section Runs.
Variables (ldlt : M66 -> V6 -> V6) (exp6 : V6 -> Pose).
Hypothesis EXP : exp_translation exp6.

Lemma one_step_run par p T0 v build :
  is_rotation T0 -> exact_at T0 p -> g_point par = Some (moved_to T0 v) -> (1 <= g_max_inner par)%nat -> 0 <= g_max_cost par ->
  no_prior par -> gp_weights p = [] -> well_posed (all_rows par p (moved_to T0 v)) -> solves_at ldlt par p (moved_to T0 v) ->
  (forall k s, build k = Some s -> fair p s /\ nothing_lost s) ->
  exists T log, optimal_tf_gauss_newton ldlt exp6 par p build = Ok (true, T, log) /\ (length log <= 2)%nat /\
   if Rle_dec (sqrt (compared_error (is_tbb (build 0%nat)) par p (moved_to T0 v))) (g_max_cost par) then T = moved_to T0 v else T = T0.
Proof.
  intros RT X GP MI MC NP NW WP LS BU. unfold optimal_tf_gauss_newton. rewrite GP. destruct (g_max_inner par) as [|fuel]; [lia|]. clear MI.
  assert (NL : gp_ln2ln p = []) by apply X.
  assert (IT : forall k T prev c, exists a c', match build k with None => iter_seq par p T prev c | Some s => iter_tbb par p T s c end = Ok (a, c') /\
     a_err a = compared_error (is_tbb (build k)) par p T).
  { intros k T prev c. destruct (C339_parallel_lines_undefined par p (build k) T prev c NW) as [Y _]. destruct Y as [[a c'] E]; [rewrite NL; constructor|].
    exists a, c'. split; [exact E|]. apply (iter_err par p (build k) T prev c a c' NW); [|exact E]. intros s B. apply (BU k s B). }
  cbn [gn_loop]. destruct (IT 0%nat (moved_to T0 v) ne_zero (mkCur (gp_weights p) 0)) as (a & c' & E & ER).
  assert (N := first_normal par p (build 0%nat) (moved_to T0 v) _ a c' NP NW (fun s B => proj1 (BU 0%nat s B)) E).
  rewrite E. cbn [rbind]. rewrite ER. destruct (Rle_dec _ _) as [LE|GT].
  - do 2 eexists. split; [reflexivity|]. split; [cbn; lia|reflexivity].
  - assert (ST := exact_step ldlt _ _ (back T0 v) WP N (LS _ N) (explained_all T0 v RT par p X)). rewrite ST, (step_back T0 v exp6 RT EXP).
    destruct (Rlt_dec _ _).
    + do 2 eexists. split; [reflexivity|]. split; [cbn; lia|reflexivity].
    + destruct fuel as [|fuel]; cbn [gn_loop].
      * do 2 eexists. split; [reflexivity|]. split; [cbn; lia|reflexivity].
      * destruct (IT 1%nat T0 (a_ne a) c') as (a2 & c2' & E2 & ER2). rewrite E2. cbn [rbind]. rewrite ER2, compared_exact, sqrt_0 by exact X.
        destruct (Rle_dec 0 (g_max_cost par)) as [_|NG]; [|contradiction].
        do 2 eexists. split; [reflexivity|]. split; [cbn; lia|reflexivity].
Qed.

(** C348: all pairs are exact at T0 and the starting pose differs from T0 only in its translation: the result is T0, with one step (a second
    inner iteration finds no error left).  Any robust kernel, any positive weights, both builds. *)
Theorem C348_wrong_translation_is_corrected : forall par p T0 v build,
  is_rotation T0 -> exact_at T0 p -> g_point par = Some (moved_to T0 v) -> (1 <= g_max_inner par)%nat -> g_max_cost par = 0 ->
  no_prior par -> gp_weights p = [] -> well_posed (all_rows par p (moved_to T0 v)) -> solves_at ldlt par p (moved_to T0 v) ->
  (forall k s, build k = Some s -> fair p s /\ nothing_lost s) ->
  exists log, optimal_tf_gauss_newton ldlt exp6 par p build = Ok (true, T0, log) /\ (length log <= 2)%nat.
Proof.
  intros par p T0 v build RT X GP MI MC NP NW WP LS BU.
  destruct (one_step_run par p T0 v build RT X GP MI ltac:(lra) NP NW WP LS BU) as (T & log & E & LN & D). rewrite E. exists log. split; [|exact LN].
  destruct (Rle_dec _ _) as [LE|_]; [|rewrite D; reflexivity]. rewrite MC in LE.
  assert (TT : moved_to T0 v = T0); [|rewrite D, TT; reflexivity].
  set (e := compared_error _ par p (moved_to T0 v)) in *.
  assert (E0 : e <= 0).
  { destruct (Rle_or_lt e 0) as [H|H]; [exact H|]. exfalso. assert (Q := sqrt_lt_R0 e H). lra. }
  destruct WP as [W U]. assert (Z := error_zero _ par p _ NW W E0). assert (EX := explained_all T0 v RT par p X).
  assert (B0 : back T0 v = zero6).
  { apply U. rewrite Forall_forall in *. intros r I. specialize (Z r I). specialize (EX r I). cbn beta in *. lra. }
  rewrite <- (step_back T0 v exp6 RT EXP) at 2. rewrite B0. unfold zero6. rewrite EXP. unfold padd_pose, moved_to, compose, rotate, vadd, vscale.
  cbn [c0 c1 c2 tr vx vy vz]. destruct T0 as [[a0 a1 a2] [b0 b1 b2] [e0 e1 e2] q], v as [v0 v1 v2]. cbn [c0 c1 c2 tr vx vy vz]. f_equal; f_equal; ring.
Qed.

(** ... and with any limit on the cost: T0, or the start when its error is within the limit *)
Theorem C348_within_the_limit_the_start_stays : forall par p T0 v build,
  is_rotation T0 -> exact_at T0 p -> g_point par = Some (moved_to T0 v) -> (1 <= g_max_inner par)%nat -> 0 <= g_max_cost par ->
  no_prior par -> gp_weights p = [] -> well_posed (all_rows par p (moved_to T0 v)) -> solves_at ldlt par p (moved_to T0 v) ->
  (forall k s, build k = Some s -> fair p s /\ nothing_lost s) ->
  let within := sqrt (compared_error (is_tbb (build 0%nat)) par p (moved_to T0 v)) <= g_max_cost par in
  exists T log, optimal_tf_gauss_newton ldlt exp6 par p build = Ok (true, T, log) /\
   (within -> T = moved_to T0 v) /\ (~ within -> T = T0).
Proof.
  intros par p T0 v build RT X GP MI MC NP NW WP LS BU. cbv zeta.
  destruct (one_step_run par p T0 v build RT X GP MI MC NP NW WP LS BU) as (T & log & E & _ & D). exists T, log. split; [exact E|].
  destruct (Rle_dec _ _); (split; intro H; [|]); try exact D; contradiction.
Qed.
End Runs.
Print Assumptions C348_wrong_translation_is_corrected.

(** ** A case *)
(** a linear solver for a problem whose solution is known *)
Lemma known_solution l n d : normal_equations l n -> Forall (fun x => w_e x = - dot6 (w_j x) d) l -> mulMV (ne_H n) (scale6 (-1) d) = ne_g n.
Proof.
  intros [NH NG] EX. apply dot6_ext. intro y. rewrite NH, NG. clear NH NG. induction EX as [|r l E F IH]; cbn [rsum]; [reflexivity|].
  rewrite IH, E. f_equal. assert (D : dot6 (w_j r) (scale6 (-1) d) = - dot6 (w_j r) d) by (clear; d6; ring). rewrite D. ring.
Qed.
Lemma known_solves T0 v par p : is_rotation T0 -> exact_at T0 p -> solves_at (fun _ _ => scale6 (-1) (back T0 v)) par p (moved_to T0 v).
Proof. intros RT X n N. eapply known_solution; [exact N|]. apply explained_all; assumption. Qed.

(** the origin frame, three points of the unit axes, and a guess one metre off *)
Definition ident : Pose := Tv vzero3.
Definition three_axes : GPairs := mkGP (map (fun l => (l, l)) [mkV 1 0 0; mkV 0 1 0; mkV 0 0 1]) [] [] [] [] [].
Lemma ident_rotation : is_rotation ident.
Proof. unfold is_rotation, ident, Tv, vnorm2, vdot, vcross. cbn [c0 c1 c2 vx vy vz]. repeat split; try ring. f_equal; ring. Qed.
Lemma three_exact : exact_at ident three_axes.
Proof.
  unfold exact_at, three_axes. cbn. repeat split; try constructor.
  all: repeat constructor; unfold ident, Tv, compose, rotate, vadd, vscale, vzero3; cbn [c0 c1 c2 tr vx vy vz fst snd]; f_equal; ring.
Qed.
Lemma three_well_posed par v : g_w_pt2pt par = 1 -> g_kernel par = None -> well_posed (all_rows par three_axes (moved_to ident v)).
Proof.
  intros W K. unfold well_posed, all_rows, all_rows_with. cbn [gp_pt2pt gp_pt2ln gp_ln2ln gp_pt2pl gp_pl2pl three_axes map class_rows flat_map app].
  rewrite app_nil_r. cbn [point_rows]. unfold robust. rewrite K. unfold point_weight. cbn [gp_weights three_axes]. rewrite W.
  unfold wrows, rows_pt2pt, rows_of, jac_point2point, Jpoint, l3. cbn [fst snd combine map app].
  split; [repeat constructor; cbn [w_w]; lra|].
  intros a F. repeat match goal with H : Forall _ (_ :: _) |- _ => let X := fresh in assert (X := Forall_inv H); apply Forall_inv_tail in H; cbn [w_j] in X end.
  unfold row6, dDexpe_de, vec, moved_to, ident, Tv, vzero3, vscale in *. cbn [nth dotl vx vy vz c0 c1 c2 tr] in *.
  destruct a as [a0 a1 a2 a3 a4 a5]. unfold dot6 in *. cbn [x0 x1 x2 x3 x4 x5 fst snd] in *. unfold zero6. f_equal; lra.
Qed.
Example C348_case : forall v, exists log,
  optimal_tf_gauss_newton (fun _ _ => scale6 (-1) (back ident v)) exp_t (mkGPar (Some (moved_to ident v)) 6 (1 / 10000000) 0 None 1 1 1 1 1 None) three_axes (fun _ => None)
    = Ok (true, ident, log) /\ (length log <= 2)%nat.
Proof.
  intro v. apply (C348_wrong_translation_is_corrected _ exp_t (fun a b c => eq_refl) _ three_axes ident v).
  - exact ident_rotation.
  - exact three_exact.
  - reflexivity.
  - cbn. lia.
  - reflexivity.
  - reflexivity.
  - reflexivity.
  - apply three_well_posed; reflexivity.
  - apply known_solves; [exact ident_rotation|exact three_exact].
  - discriminate.
Qed.
