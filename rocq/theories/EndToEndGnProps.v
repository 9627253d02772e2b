(** C349: registration with the Gauss-Newton solver. *)
From Coq Require Import Reals Qreals List Lra Lia Nsatz.
From Verif Require Import Base PairingsModel MatcherModel BitfieldModel BitfieldProofs PointMatcherModel PointMatcherSpec
  PointMatcherProofs PointMatcherProofs3 BruteNN SolverModel QualityModel IcpModel GeomModel VisitModel VisitSpec VisitProps RotProofs
  HornModel HornProofs NoiselessProofs HornProps OlaeModel OlaeProofs OlaeProps EndToEndModel EndToEndProps
  GnModel GnSpec GnProps GnCasesProps GnWhereProps GnErrorProps GnTransProps.
Import ListNotations.
Open Scope nat_scope.

(** ** Specification *)
(** the true pairs, as the solver reads them *)
Definition true_gpairs (T0 : Pose) (Ls : list P3) : GPairs :=
  mkGP (map (fun l => (compose T0 (to_v l), to_v l)) Ls) [] [] [] [] [].
(** three of the points are the corners of a triangle *)
Definition not_collinear (Ls : list P3) : Prop :=
  exists a b c, In a Ls /\ In b Ls /\ In c Ls /\ vcross (vsub (to_v b) (to_v a)) (vsub (to_v c) (to_v a)) <> mkV 0 0 0.
(** options: positive weight for point pairs, and a robust kernel, if any, that is positive *)
Definition gn_weights_ok (par : GParams) : Prop :=
  (0 < g_w_pt2pt par)%R /\ forall f, g_kernel par = Some f -> forall e, (0 <= e)%R -> (0 < f e)%R.

(** ** Point pairs on a triangle fix the pose *)
Lemma row_zero T (l : V3) j : is_rotation T -> (forall y, In y [[vx l; 0; 0; vy l; 0; 0; vz l; 0; 0; 1; 0; 0]; [0; vx l; 0; 0; vy l; 0; 0; vz l; 0; 0; 1; 0]; [0; 0; vx l; 0; 0; vy l; 0; 0; vz l; 0; 0; 1]]%R -> dot6 (row6 T y) j = 0%R) ->
  vadd (mkV (x0 j) (x1 j) (x2 j)) (vcross (mkV (x3 j) (x4 j) (x5 j)) l) = mkV 0 0 0.
Proof.
  intros RT H. assert (H0 := H _ (or_introl eq_refl)). assert (H1 := H _ (or_intror (or_introl eq_refl))). assert (H2 := H _ (or_intror (or_intror (or_introl eq_refl)))). clear H.
  set (u := vadd _ _). assert (Z : rotate T u = mkV 0 0 0).
  { destruct T as [[a0 a1 a2] [b0 b1 b2] [e0 e1 e2] q], l as [l0 l1 l2], j as [j0 j1 j2 j3 j4 j5].
    unfold u, rotate, vadd, vscale, vcross. unfold row6, dDexpe_de, vec, vzero3, vscale, dot6 in *. cbn [nth dotl vx vy vz c0 c1 c2 tr x0 x1 x2 x3 x4 x5] in *.
    f_equal; lra. }
  assert (N := rotate_norm T u RT). rewrite Z in N. unfold vnorm in N.
  assert (P : vnorm2 u = 0%R).
  { assert (Q : vnorm2 (mkV 0 0 0) = 0%R) by (unfold vnorm2, vdot; cbn [vx vy vz]; ring). rewrite Q, sqrt_0 in N. symmetry in N. apply sqrt_eq_0 in N; [exact N|].
    unfold vnorm2, vdot. nra. }
  destruct u as [u0 u1 u2]. unfold vnorm2, vdot in P. cbn [vx vy vz] in P.
  assert (u0 = 0 /\ u1 = 0 /\ u2 = 0)%R as (-> & -> & ->); [|reflexivity].
  assert (SQ : forall x, (0 <= x * x)%R) by (intro x; nra). assert (S1 := SQ u0). assert (S2 := SQ u1). assert (S3 := SQ u2).
  repeat split; apply Rsqr_0_uniq; unfold Rsqr; lra.
Qed.

Lemma triangle (t w a b c : V3) :
  vadd t (vcross w a) = mkV 0 0 0 -> vadd t (vcross w b) = mkV 0 0 0 -> vadd t (vcross w c) = mkV 0 0 0 ->
  vcross (vsub b a) (vsub c a) <> mkV 0 0 0 -> t = mkV 0 0 0 /\ w = mkV 0 0 0.
Proof.
  destruct t as [t0 t1 t2], w as [w0 w1 w2], a as [a0 a1 a2], b as [b0 b1 b2], c as [p0 p1 p2].
  unfold vadd, vcross, vsub. cbn [vx vy vz]. intros A B C NZ. injection A as A0 A1 A2. injection B as B0 B1 B2. injection C as C0 C1 C2.
  set (n0 := ((b1 - a1) * (p2 - a2) - (b2 - a2) * (p1 - a1))%R) in *.
  set (n1 := ((b2 - a2) * (p0 - a0) - (b0 - a0) * (p2 - a2))%R) in *.
  set (n2 := ((b0 - a0) * (p1 - a1) - (b1 - a1) * (p0 - a0))%R) in *.
  (* w x (b - a) = 0 and w x (c - a) = 0, so w (n.n) = 0 *)
  assert (W : (w0 * (n0 * n0 + n1 * n1 + n2 * n2) = 0 /\ w1 * (n0 * n0 + n1 * n1 + n2 * n2) = 0 /\ w2 * (n0 * n0 + n1 * n1 + n2 * n2) = 0)%R).
  { set (d0 := (b0 - a0)%R) in *. set (d1 := (b1 - a1)%R) in *. set (d2 := (b2 - a2)%R) in *.
    set (f0 := (p0 - a0)%R) in *. set (f1 := (p1 - a1)%R) in *. set (f2 := (p2 - a2)%R) in *.
    assert (X0 : (w1 * d2 - w2 * d1 = 0)%R) by (unfold d1, d2; lra). assert (X1 : (w2 * d0 - w0 * d2 = 0)%R) by (unfold d0, d2; lra). assert (X2 : (w0 * d1 - w1 * d0 = 0)%R) by (unfold d0, d1; lra).
    assert (Y0 : (w1 * f2 - w2 * f1 = 0)%R) by (unfold f1, f2; lra). assert (Y1 : (w2 * f0 - w0 * f2 = 0)%R) by (unfold f0, f2; lra). assert (Y2 : (w0 * f1 - w1 * f0 = 0)%R) by (unfold f0, f1; lra).
    assert (E0 : (w0 * n1 = w1 * n0)%R) by (unfold n0, n1; clear - X0 X1 X2 Y0 Y1 Y2; nsatz).
    assert (E1 : (w1 * n2 = w2 * n1)%R) by (unfold n2, n1; clear - X0 X1 X2 Y0 Y1 Y2; nsatz).
    assert (E2 : (w0 * n2 = w2 * n0)%R) by (unfold n2, n0; clear - X0 X1 X2 Y0 Y1 Y2; nsatz).
    assert (P : (w0 * n0 + w1 * n1 + w2 * n2 = 0)%R) by (unfold n0, n1, n2; clear - X0 X1 X2 Y0 Y1 Y2; nsatz).
    clearbody n0 n1 n2. clear - E0 E1 E2 P. repeat split; nsatz. }
  assert (NN : (0 < n0 * n0 + n1 * n1 + n2 * n2)%R).
  { destruct (Rle_lt_or_eq_dec 0 (n0 * n0 + n1 * n1 + n2 * n2)) as [H|H]; [nra|exact H|]. exfalso. apply NZ.
    assert (SQ : forall x, (0 <= x * x)%R) by (intro x; nra). assert (S1 := SQ n0). assert (S2 := SQ n1). assert (S3 := SQ n2).
    f_equal; apply Rsqr_0_uniq; unfold Rsqr; lra. }
  destruct W as (W0 & W1 & W2). apply Rmult_integral in W0. apply Rmult_integral in W1. apply Rmult_integral in W2.
  assert (w0 = 0%R) by (destruct W0; lra). assert (w1 = 0%R) by (destruct W1; lra). assert (w2 = 0%R) by (destruct W2; lra). subst w0 w1 w2.
  split; [|reflexivity]. f_equal; lra.
Qed.

Lemma true_well_posed par T0 T Ls : is_rotation T -> gn_weights_ok par -> not_collinear Ls -> well_posed (all_rows par (true_gpairs T0 Ls) T).
Proof.
  intros RT [W K] (a & b & c & IA & IB & IC & NC). unfold all_rows, all_rows_with. cbn [true_gpairs gp_pt2ln gp_ln2ln gp_pt2pl gp_pl2pl class_rows flat_map app].
  rewrite app_nil_r, points_as_class by reflexivity. cbn [gp_pt2pt true_gpairs]. unfold class_rows. split.
  - apply Forall_flat_map, Forall_forall. intros x _. unfold wrows. rewrite Forall_map. apply Forall_forall. intros y _. cbn [w_w]. unfold robust.
    destruct (g_kernel par) as [f|] eqn:E; [|exact W]. apply Rmult_lt_0_compat; [exact W|]. apply (K f eq_refl). apply sq_norm_nonneg.
  - intros j F. rewrite Forall_flat_map in F. rewrite Forall_forall in F.
    assert (G : forall l, In l Ls -> vadd (mkV (x0 j) (x1 j) (x2 j)) (vcross (mkV (x3 j) (x4 j) (x5 j)) (to_v l)) = mkV 0 0 0).
    { intros l IL. apply (row_zero T _ j RT). specialize (F (compose T0 (to_v l), to_v l)). 
      assert (I : In (compose T0 (to_v l), to_v l) (map (fun l => (compose T0 (to_v l), to_v l)) Ls)) by (apply in_map_iff; exists l; split; [reflexivity|exact IL]).
      specialize (F I). unfold wrows, rows_pt2pt, rows_of, jac_point2point, Jpoint, l3 in F. cbn [fst snd combine map] in F.
      intros y [<- |[<- |[<- |[]]]]; repeat match goal with H : Forall _ (_ :: _) |- _ => let X := fresh in assert (X := Forall_inv H); apply Forall_inv_tail in H; cbn [w_j] in X end; assumption. }
    destruct (triangle _ _ _ _ _ (G a IA) (G b IB) (G c IC) NC) as [Z1 Z2]. injection Z1 as Y0 Y1 Y2. injection Z2 as Y3 Y4 Y5.
    destruct j as [j0 j1 j2 j3 j4 j5]. cbn [x0 x1 x2 x3 x4 x5] in *. unfold zero6. congruence.
Qed.

Lemma true_exact T0 Ls : exact_at T0 (true_gpairs T0 Ls).
Proof.
  unfold exact_at, true_gpairs. cbn. split; [|repeat split; constructor]. rewrite Forall_map. apply Forall_forall. intros l _. reflexivity.
Qed.
Lemma to_true T0 Ls ps n : map (fun x => (to_v (p_global x), to_v (p_local x))) ps = map (fun l => (compose T0 (to_v l), to_v l)) Ls ->
  to_gpairs (mkPairings ps [] [] [] [] [] n) = true_gpairs T0 Ls.
Proof. intro PT. unfold to_gpairs, true_gpairs. cbn [paired_pt2pt point_weights map]. rewrite PT. reflexivity. Qed.

(** the linearisation point does not enter the residuals *)
Lemma all_rows_point par T p T' : all_rows (with_point par T) p T' = all_rows par p T'.
Proof.
  unfold all_rows, all_rows_with. f_equal.
  generalize 0 as i. induction (gp_pt2pt p) as [|x l IH]; intro i; cbn [point_rows]; [reflexivity|]. rewrite IH. reflexivity.
Qed.

(** ** C349 *)
(** the maps are aligned already: any number of points, any options, any linear solver *)
Theorem C349_aligned_maps_stay_aligned :
  forall fMax shuffle mround tf_of ldlt exp6 par build name gpts nnG nnL Ls c pose_minus log_norms tnorm b thr ang w amin p wantDebug T0 env,
  (* geometry: the true points are the nearest ones *)
  seen_from T0 Ls (nn_points nnG) c ->
  (forall i j, i < length Ls -> j < length Ls -> c i = c j -> i = j) ->
  1 <= length Ls ->
  in_basin T0 thr Ls (nn_points nnG) c -> exact_on tf_of T0 Ls ->
  (* the libraries *)
  nn_correct nnG -> bbox_correct nnG -> length (nn_points nnL) = length Ls ->
  (forall it k s l, build it k = Some s -> Forall (fun e => e = 0%R) l -> s_race s l = 0%R) ->
  (fst (log_norms (pose_minus T0 T0)) == 0)%Q -> (snd (log_norms (pose_minus T0 T0)) == 0)%Q ->
  (forall T, 0 <= fst (log_norms T) /\ 0 <= snd (log_norms T))%Q ->
  (* parameters *)
  (0 < thr)%Q -> (0 <= ang)%Q -> (0 <= bbox_epsilon b)%Q ->
  weight_pt2pt_layers b = [] -> maxLocalPointsPerLayer b = 0 \/ length Ls <= maxLocalPointsPerLayer b ->
  (0 <= g_max_cost par)%R -> (0 < w)%Q -> (amin <= 1)%Q ->
  1 <= maxIterations p -> (0 < minAbsStep_trans p)%Q -> (0 < minAbsStep_rot p)%Q ->
  Forall (fun kv => (snd kv <= 1)%Q) (quality_checkpoints p) ->
  (saveIterationDetails p = true -> wantDebug || generateDebugFiles p = true) ->
  exists env' r,
    registration_with fMax shuffle mround (gmap name gpts nnG) (lmap name nnL Ls) tf_of pose_minus log_norms tnorm
      (DT b thr ang 1) (gn_solver 0 ldlt exp6 par build) w amin p wantDebug T0 env = Ok (env', r) /\
    r_optimal_tf r = T0 /\ (r_quality r == 1)%Q /\
    map (fun x => (p_localIdx x, p_globalIdx x)) (paired_pt2pt (r_finalPairings r)) = map (fun i => (i, c i)) (seq 0 (length Ls)) /\
    r_nIterations r = 0 /\ r_terminationReason r = Stalled.
Proof.
  intros * SEEN INJ N1 BAS EX0 NC BB LLn RC LN1 LN2 LNP TH ANG EPS TBL LIM MC QW AMIN MI MT MR CHK DBG.
  destruct (run_recovers fMax shuffle mround tf_of (gn_solver 0 ldlt exp6 par build) name gpts nnG nnL Ls c pose_minus log_norms tnorm b thr ang w amin p wantDebug T0 T0 env)
    as (env' & r & E & A & _ & C & D & _ & _ & F); try assumption.
  - repeat split.
  - intros sc T ps n e o GS TT PT. unfold gn_solver. cbn [s_impl]. rewrite GS. assert (T = T0) by (destruct TT; assumption). subst T. rewrite (to_true T0 Ls ps n PT).
    destruct (C97_exact_start_is_returned ldlt exp6 (with_point par T0) (true_gpairs T0 Ls) T0 (build (sc_icpIteration sc)) eq_refl (true_exact T0 Ls) MC (or_introl eq_refl))
      as [log EL]; [intros s l B; exact (RC _ _ s l B)|]. rewrite EL. reflexivity.
  - exists env', r. destruct (F eq_refl) as [F1 F2]. repeat (split; [assumption|]). assumption.
Qed.

(** the guess is wrong in the translation only *)
Theorem C349_registration_with_gauss_newton_corrects_the_translation :
  forall fMax shuffle mround tf_of ldlt exp6 par build name gpts nnG nnL Ls c pose_minus log_norms tnorm b thr ang w amin p wantDebug T0 v env,
  (* geometry *)
  is_rotation T0 -> seen_from T0 Ls (nn_points nnG) c ->
  (forall i j, i < length Ls -> j < length Ls -> c i = c j -> i = j) ->
  not_collinear Ls ->
  in_basin (moved_to T0 v) thr Ls (nn_points nnG) c ->
  exact_on tf_of (moved_to T0 v) Ls -> exact_on tf_of T0 Ls ->
  (* the libraries *)
  nn_correct nnG -> bbox_correct nnG -> length (nn_points nnL) = length Ls ->
  solves_at ldlt par (true_gpairs T0 Ls) (moved_to T0 v) -> exp_translation exp6 ->
  (forall it k s, build it k = Some s -> fair (true_gpairs T0 Ls) s /\ nothing_lost s) ->
  (fst (log_norms (pose_minus T0 T0)) == 0)%Q -> (snd (log_norms (pose_minus T0 T0)) == 0)%Q ->
  (forall T, 0 <= fst (log_norms T) /\ 0 <= snd (log_norms T))%Q ->
  (* parameters *)
  (0 < thr)%Q -> (0 <= ang)%Q -> (0 <= bbox_epsilon b)%Q ->
  weight_pt2pt_layers b = [] -> maxLocalPointsPerLayer b = 0 \/ length Ls <= maxLocalPointsPerLayer b ->
  gn_weights_ok par -> no_prior par -> 1 <= g_max_inner par -> g_max_cost par = 0%R -> (0 < w)%Q -> (amin <= 1)%Q ->
  1 <= maxIterations p -> (0 < minAbsStep_trans p)%Q -> (0 < minAbsStep_rot p)%Q ->
  Forall (fun kv => (snd kv <= 1)%Q) (quality_checkpoints p) ->
  (saveIterationDetails p = true -> wantDebug || generateDebugFiles p = true) ->
  exists env' r,
    registration_with fMax shuffle mround (gmap name gpts nnG) (lmap name nnL Ls) tf_of pose_minus log_norms tnorm
      (DT b thr ang 1) (gn_solver 0 ldlt exp6 par build) w amin p wantDebug (moved_to T0 v) env = Ok (env', r) /\
    r_optimal_tf r = T0 /\ (r_quality r == 1)%Q /\
    map (fun x => (p_localIdx x, p_globalIdx x)) (paired_pt2pt (r_finalPairings r)) = map (fun i => (i, c i)) (seq 0 (length Ls)) /\
    r_nIterations r <= 1 /\ (2 <= maxIterations p -> r_terminationReason r = Stalled).
Proof.
  intros * RT SEEN INJ NCOL BAS EXG EX0 NC BB LLn LS EXP BU LN1 LN2 LNP TH ANG EPS TBL LIM GW NP GI MC QW AMIN MI MT MR CHK DBG.
  assert (N1 : 1 <= length Ls) by (destruct NCOL as (a & _ & _ & I & _); destruct Ls; [destruct I|cbn; lia]).
  destruct (run_recovers fMax shuffle mround tf_of (gn_solver 0 ldlt exp6 par build) name gpts nnG nnL Ls c pose_minus log_norms tnorm b thr ang w amin p wantDebug (moved_to T0 v) T0 env)
    as (env' & r & E & A & _ & C & D & F1 & F2 & _); try assumption.
  - repeat split.
  - intros sc T ps n e o GS TT PT. unfold gn_solver. cbn [s_impl]. rewrite GS. rewrite (to_true T0 Ls ps n PT).
    assert (EL : exists log, optimal_tf_gauss_newton ldlt exp6 (with_point par T) (true_gpairs T0 Ls) (build (sc_icpIteration sc)) = Ok (true, T0, log)).
    { destruct TT as [-> | ->].
      - destruct (C348_wrong_translation_is_corrected ldlt exp6 EXP (with_point par (moved_to T0 v)) (true_gpairs T0 Ls) T0 v (build (sc_icpIteration sc))) as [log [EL _]];
          try assumption; try reflexivity.
        + apply true_exact.
        + rewrite all_rows_point. exact (true_well_posed par T0 (moved_to T0 v) Ls RT GW NCOL).
        + intros k NE. rewrite all_rows_point in NE. exact (LS k NE).
        + intros k s B. exact (BU _ k s B).
        + exists log. exact EL.
      - apply C97_exact_start_is_returned; [reflexivity|apply true_exact|cbn; rewrite MC; apply Rle_refl|left; reflexivity|].
        intros s l B Z. destruct (BU _ _ s B) as [_ NL]. rewrite NL. clear - Z. induction Z as [|e l -> F IH]; cbn [fold_right]; [reflexivity|]. rewrite IH. ring. }
    destruct EL as [log EL]. rewrite EL. reflexivity.
  - exists env', r. repeat (split; [assumption|]). assumption.
Qed.
Print Assumptions C349_registration_with_gauss_newton_corrects_the_translation.

(** ** The scene of C323, seen from the quarter turn, with the guess 10 cm off *)
Definition shiftQ (p : P3) : P3 := mkP3 (- py p + (11 # 10)) (px p + 2) (pz p + 3).
Definition gn_tf_of (T : Pose) : P3 -> P3 := if Rle_dec (vx (tr T)) 1 then quarterQ else shiftQ.
Definition gn_guess : Pose := moved_to quarter (mkV (11 / 10) 2 3).
Definition gn_par : GParams := mkGPar None 6 (1 / 10000000) 0 None 1 1 1 1 1 None.
Lemma shiftQ_exact l : to_v (shiftQ l) = compose gn_guess (to_v l).
Proof.
  unfold shiftQ, gn_guess, moved_to, quarter, to_v. cbn [px py pz c0 c1 c2]. rewrite !Q2R_plus, Q2R_opp. unfold compose, rotate, vadd, vscale. cbn [vx vy vz c0 c1 c2 tr].
  assert (D : Q2R (11 # 10) = (11 / 10)%R) by (unfold Q2R; cbn; lra). assert (E : Q2R 2 = 2%R) by (unfold Q2R; cbn; lra). assert (F : Q2R 3 = 3%R) by (unfold Q2R; cbn; lra).
  rewrite D, E, F. f_equal; lra.
Qed.
Lemma quarter_sees : seen_from quarter sixQ (nn_points (brute ex_globals)) (fun i => 5 - i).
Proof.
  intros i l Hl. exists (quarterQ l). split; [|apply quarterQ_exact].
  assert (X := nth_lt _ _ _ Hl). cbn in X. do 6 (destruct i as [|i]; [injection Hl as <-; reflexivity|]). lia.
Qed.
Lemma six_not_collinear : not_collinear sixQ.
Proof.
  exists (mkP3 1 0 0), (mkP3 (-1) 0 0), (mkP3 0 1 0). split; [left; reflexivity|]. split; [right; left; reflexivity|]. split; [right; right; left; reflexivity|].
  unfold to_v, vcross, vsub, Q2R. cbn [vx vy vz px py pz Qnum Qden]. intro X. injection X as _ _ X. lra.
Qed.
Lemma norms_zero T : (fst (ex_norms (ex_minus T T)) == 0)%Q /\ (snd (ex_norms (ex_minus T T)) == 0)%Q.
Proof.
  unfold ex_norms, ex_minus. cbn [tr]. destruct (Req_EM_T _ 0) as [_|X]; [split; reflexivity|]. exfalso. apply X. unfold vnorm2, vdot, vsub. cbn [vx vy vz]. ring.
Qed.
Lemma norms_nonneg T : (0 <= fst (ex_norms T) /\ 0 <= snd (ex_norms T))%Q.
Proof. unfold ex_norms. destruct (Req_EM_T _ 0); cbn [fst snd]; split; discriminate. Qed.

Example C349_case : exists env' r,
  registration_with 1000000 (fun l => l) (fun _ => 0%Z) (gmap 7 None (brute ex_globals)) (lmap 7 (brute sixQ) sixQ) gn_tf_of
    ex_minus ex_norms (fun _ => 0%Q) (DT (mkBase [] 0 false false 0) (1 # 2) 0 1)
    (gn_solver 0 (fun _ _ => scale6 (-1) (back quarter (mkV (11 / 10) 2 3))) exp_t gn_par (fun _ _ => None)) 1 (1 # 2) ex_params false
    gn_guess (mkMS [] []) = Ok (env', r) /\
  r_optimal_tf r = quarter /\ (r_quality r == 1)%Q /\ r_terminationReason r = Stalled.
Proof.
  assert (G0 : vx (tr gn_guess) = (11 / 10)%R) by reflexivity. assert (T0x : vx (tr quarter) = 1%R) by reflexivity.
  assert (TG : gn_tf_of gn_guess = shiftQ) by (unfold gn_tf_of; rewrite G0; destruct (Rle_dec (11 / 10) 1); [exfalso; lra|reflexivity]).
  assert (TQ : gn_tf_of quarter = quarterQ) by (unfold gn_tf_of; rewrite T0x; destruct (Rle_dec 1 1); [reflexivity|exfalso; lra]).
  destruct (norms_zero quarter) as [NZ1 NZ2].
  destruct (C349_registration_with_gauss_newton_corrects_the_translation 1000000 (fun l => l) (fun _ => 0%Z) gn_tf_of
    (fun _ _ => scale6 (-1) (back quarter (mkV (11 / 10) 2 3))) exp_t gn_par (fun _ _ => None) 7 None (brute ex_globals)
    (brute sixQ) sixQ (fun i => 5 - i) ex_minus ex_norms (fun _ => 0%Q) (mkBase [] 0 false false 0) (1 # 2) 0 1 (1 # 2) ex_params false
    quarter (mkV (11 / 10) 2 3) (mkMS [] [])) as (env' & r & E & A & C & D & F & H).
  - exact quarter_rotation.
  - exact quarter_sees.
  - cbn [sixQ length]. intros i j Hi Hj X. lia.
  - exact six_not_collinear.
  - apply (in_basinQ_spec shiftQ); [exact shiftQ_exact|]. vm_compute. reflexivity.
  - intros l _. change (moved_to quarter (mkV (11 / 10) 2 3)) with gn_guess. rewrite TG. apply shiftQ_exact.
  - intros l _. rewrite TQ. apply quarterQ_exact.
  - apply brute_correct.
  - apply brute_bbox.
  - reflexivity.
  - apply known_solves; [exact quarter_rotation|apply true_exact].
  - intros x y z. reflexivity.
  - discriminate.
  - exact NZ1.
  - exact NZ2.
  - exact norms_nonneg.
  - reflexivity.
  - discriminate.
  - discriminate.
  - reflexivity.
  - left. reflexivity.
  - split; [cbn; lra|discriminate].
  - reflexivity.
  - cbn. lia.
  - reflexivity.
  - reflexivity.
  - discriminate.
  - cbn. lia.
  - reflexivity.
  - reflexivity.
  - repeat constructor. discriminate.
  - discriminate.
  - exists env', r. split; [exact E|]. split; [exact A|]. split; [exact C|]. apply H. cbn. lia.
Qed.

(** one single point seen from where the guess says *)
Example C349_aligned_case : exists env' r,
  registration_with 1000000 (fun l => l) (fun _ => 0%Z) (gmap 7 None (brute ex_globals)) (lmap 7 (brute [mkP3 1 0 0]) [mkP3 1 0 0]) gn_tf_of
    ex_minus ex_norms (fun _ => 0%Q) (DT (mkBase [] 0 false false 0) (1 # 2) 0 1)
    (gn_solver 0 (fun _ g => g) exp_t gn_par (fun _ _ => None)) 1 (1 # 2) ex_params false
    quarter (mkMS [] []) = Ok (env', r) /\
  r_optimal_tf r = quarter /\ r_nIterations r = 0 /\ r_terminationReason r = Stalled.
Proof.
  assert (T0x : vx (tr quarter) = 1%R) by reflexivity.
  assert (TQ : gn_tf_of quarter = quarterQ) by (unfold gn_tf_of; rewrite T0x; destruct (Rle_dec 1 1); [reflexivity|exfalso; lra]).
  destruct (norms_zero quarter) as [NZ1 NZ2].
  destruct (C349_aligned_maps_stay_aligned 1000000 (fun l => l) (fun _ => 0%Z) gn_tf_of
    (fun _ g => g) exp_t gn_par (fun _ _ => None) 7 None (brute ex_globals)
    (brute [mkP3 1 0 0]) [mkP3 1 0 0] (fun i => 5 - i) ex_minus ex_norms (fun _ => 0%Q) (mkBase [] 0 false false 0) (1 # 2) 0 1 (1 # 2) ex_params false
    quarter (mkMS [] [])) as (env' & r & E & A & C & D & F & H).
  - intros i l Hl. exists (quarterQ l). split; [|apply quarterQ_exact]. destruct i as [|i]; [injection Hl as <-; reflexivity|destruct i; discriminate Hl].
  - cbn [length]. intros i j Hi Hj X. lia.
  - cbn. lia.
  - apply (in_basinQ_spec quarterQ); [exact quarterQ_exact|]. vm_compute. reflexivity.
  - intros l _. rewrite TQ. apply quarterQ_exact.
  - apply brute_correct.
  - apply brute_bbox.
  - reflexivity.
  - discriminate.
  - exact NZ1.
  - exact NZ2.
  - exact norms_nonneg.
  - reflexivity.
  - discriminate.
  - discriminate.
  - reflexivity.
  - left. reflexivity.
  - cbn. lra.
  - reflexivity.
  - discriminate.
  - cbn. lia.
  - reflexivity.
  - reflexivity.
  - repeat constructor. discriminate.
  - discriminate.
  - exists env', r. split; [exact E|]. split; [exact A|]. split; [exact F|exact H].
Qed.
