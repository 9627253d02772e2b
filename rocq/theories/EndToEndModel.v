(** The default registration pipeline put together: point matcher, Horn's solver, paired-ratio
    quality, inside ICP::align.

    Sources: mp2p_icp/src/ICP.cpp 36-382 (IcpModel), Matcher_Points_DistanceThreshold.cpp
    (PointMatcherModel), Solver_Horn.cpp 41-64 (HornModel), Solver_OLAE.cpp 46-67 (OlaeModel),
    Solver_GaussNewton.cpp 37-66 (GnModel),
    QualityEvaluator_PairedRatio.cpp 45-73
    (QualityModel).

    Simplifications: the matcher works on the rational coordinates of the points (every float is
    one), the solver on real numbers; [tf_of] is CPose3D::composePoint as the matcher computes it. *)
From Coq Require Import Reals Qreals List.
From Verif Require Import Base PairingsModel MatcherModel BitfieldModel PointMatcherModel SolverModel
  QualityModel IcpModel GeomModel VisitModel RotProofs HornModel OlaeModel GnModel.
Import ListNotations.
Open Scope nat_scope.

(** a float point as the solver reads it *)
Definition to_v (p : P3) : V3 := mkV (Q2R (px p)) (Q2R (py p)) (Q2R (pz p)).

(** The pairings as the solver reads them: VisitModel's view of Pairings.h 84-110. *)
Definition to_vpairs (p : ptpairings) : VPairs :=
  mkVP (map (fun x => (to_v (p_global x), to_v (p_local x))) (paired_pt2pt p)) [] []
       (length (paired_pt2ln p)) (length (paired_pt2pl p))
       (map (fun nw => (fst nw, Q2R (snd nw))) (point_weights p)).

(** Solver_Horn.cpp 41-64.  [convert] is pt2ln_pl_to_pt2pt() (C33). *)
Definition horn_algo (eig : Sym4 -> Eig) (convert : VPairs -> option VPairs) (wp : VWeights) : VPairs -> res (bool * HResult) :=
  fun p => solver_horn eig convert p wp hr_default.
(** Solver_OLAE.cpp 46-67 *)
Definition olae_algo (solve : M33 -> V3 -> V3) (convert : VPairs -> option VPairs) (wp : VWeights) : VPairs -> res (bool * HResult) :=
  fun p =>
    if Nat.eqb (vp_nPt2Ln p) 0 && Nat.eqb (vp_nPt2Pl p) 0 then optimal_tf_olae solve p wp
    else match convert p with None => Throw | Some p' => optimal_tf_olae solve p' wp end.

Section Pipeline.
Variable fMax : Q.
Variable shuffle : list nat -> list nat.
Variable mround : Q -> Z.
Variables pcGlobal pcLocal : Layers.
Variable tf_of : Pose -> P3 -> P3.

(** The matcher object of PointMatcherModel, called with a pose. *)
Definition pose_matcher (m : PointMatcher) (from upTo : nat)
  : @Matcher Pair unit unit unit unit Q MatchState Pose :=
  mkMatcher true from upTo
    (fun it T ms out => m_impl_match (pm_matcher fMax shuffle mround pcGlobal pcLocal m from upTo) it (tf_of T) ms out).

(** A Solver object around one of the two closed-form algorithms; out = OptimalTF_Result() first, with
    scale 1 (Solver_Horn.cpp 46, Solver_OLAE.cpp 51). *)
Definition closed_solver (id : nat) (algo : VPairs -> res (bool * HResult)) : Solver MatchState Pose ptpairings :=
  mkSolver id true 0 0 0
    (fun _ pairs env _ =>
       let* r := algo (to_vpairs pairs) in
       Ok (env, fst r, mkSol (hr_pose (snd r)) 1%Q)).

(** The pairings as the Gauss-Newton solver reads them: the point matchers make point pairs only. *)
Definition to_gpairs (p : ptpairings) : GPairs :=
  mkGP (map (fun x => (to_v (p_global x), to_v (p_local x))) (paired_pt2pt p)) [] [] [] []
       (map (fun nw => (fst nw, Q2R (snd nw))) (point_weights p)).
(** Solver_GaussNewton.cpp 43-63: the options [par] with the linearization point of the context; optimal_tf_gauss_newton() leaves the
    scale at 1.  [build it k]: the build, and the thread schedule of inner iteration k (GnModel), in ICP iteration it. *)
Definition with_point (par : GParams) (T : Pose) : GParams :=
  mkGPar (Some T) (g_max_inner par) (g_min_delta par) (g_max_cost par) (g_kernel par)
    (g_w_pt2pt par) (g_w_pt2ln par) (g_w_ln2ln par) (g_w_pt2pl par) (g_w_pl2pl par) (g_prior par).
Definition gn_solver (id : nat) (ldlt : M66 -> V6 -> V6) (exp6 : V6 -> Pose) (par : GParams) (build : option nat -> nat -> option Sched)
  : Solver MatchState Pose ptpairings :=
  mkSolver id true 0 0 0
    (fun sc pairs env _ =>
       match sc_guess sc with
       | None => Throw
       | Some T =>
         let* r := optimal_tf_gauss_newton ldlt exp6 (with_point par T) (to_gpairs pairs) (build (sc_icpIteration sc)) in
         let '(ok, T', _) := r in Ok (env, ok, mkSol T' 1%Q)
       end).

(** QualityEvaluator_PairedRatio.cpp 45-73 with reuse_icp_pairings = true *)
Definition ratio_evaluator (w amin : Q) : @Evaluator MatchState Pose ptpairings :=
  mkEvaluator w (fun _ pairs env => Ok (env, paired_ratio_evaluate true amin pairings_empty_ctor pairs)).

(** Matcher.cpp 55-67: run_matchers() starts from a new MatchState on the two maps *)
Definition new_match_state (env : MatchState) : MatchState :=
  match fresh_ms pcGlobal pcLocal with Ok ms => ms | _ => env end.

(** ICP::align with one matcher, one solver and one evaluator, no hook, no formulas. *)
Definition registration_with (pose_minus : Pose -> Pose -> Pose) (log_norms : Pose -> Q * Q) (tnorm : Pose -> Q)
  (m : PointMatcher) (sv : Solver MatchState Pose ptpairings) (w amin : Q) (p : IcpParams) (wantDebug : bool) (guess : Pose) (env : MatchState) :=
  align pose_minus log_norms tnorm (fun _ e => Ok e) new_match_state
    (mkComponents [pose_matcher m 0 0] [sv] [ratio_evaluator w amin] None)
    p false false wantDebug guess env.
(** ... with one of the closed-form solvers *)
Definition registration (pose_minus : Pose -> Pose -> Pose) (log_norms : Pose -> Q * Q) (tnorm : Pose -> Q)
  (m : PointMatcher) (algo : VPairs -> res (bool * HResult)) (w amin : Q) (p : IcpParams) (wantDebug : bool) (guess : Pose) (env : MatchState) :=
  registration_with pose_minus log_norms tnorm m (closed_solver 0 algo) w amin p wantDebug guess env.
End Pipeline.
