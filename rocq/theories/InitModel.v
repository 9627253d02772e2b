(** Model of the initialize() / load_from() of matchers, solvers, quality evaluators and weights.
    Sources: /repo/mp2p_icp/src/PairWeights.cpp 26-44, WeightParameters.cpp 70-90, Matcher.cpp 28-33, Solver.cpp 28-34,
    Matcher_Points_Base.cpp 132-181, Matcher_Adaptive.cpp 32-57, Matcher_Point2Line.cpp 35-44,
    Matcher_Points_InlierRatio.cpp 34-39, Matcher_Points_DistanceThreshold.cpp 39-46, Solver_Horn.cpp 33-39, Solver_OLAE.cpp 31-37,
    QualityEvaluator_PairedRatio.cpp 27-43, QualityEvaluator_Voxels.cpp 33-38.
    Simplifications: numbers are exact; the conversions of the YAML library are arguments of the model; the
    configuration is a map; parameters that are formulas are modelled in ParamModel. *)
From Coq Require Import String.
From Verif Require Import Base ConfigModel PairingsModel MatcherModel SolverModel PointMatcherModel FeatModel.
Open Scope string_scope.
Open Scope list_scope.

(** ** Loading: the object as it was left, and whether there was no exception *)
Section Loader.
  Context {O : Type}.
  Definition Load := O -> O * bool.
  Definition lskip : Load := fun o => (o, true).
  Definition lthrow : Load := fun o => (o, false).
  Definition lseq (f g : Load) : Load := fun o => let '(o1, ok) := f o in if ok then g o1 else (o1, false).
  (** MCP_LOAD_OPT, and x = getOrDefault(key, x) *)
  Definition lopt {A} (conv : yml -> option A) (m : list (string * yml)) (k : string) (set : A -> O -> O) : Load := fun o =>
    match yfind m k with
    | None => (o, true)
    | Some v => match conv v with Some a => (set a o, true) | None => (o, false) end
    end.
  (** MCP_LOAD_REQ *)
  Definition lreq {A} (conv : yml -> option A) (m : list (string * yml)) (k : string) (set : A -> O -> O) : Load := fun o =>
    match yfind m k with
    | None => (o, false)
    | Some v => match conv v with Some a => (set a o, true) | None => (o, false) end
    end.
  (** ASSERT_ *)
  Definition lassert (c : O -> bool) : Load := fun o => (o, c o).
End Loader.
Arguments Load : clear implicits.
Infix ";;;" := lseq (at level 61, right associativity).

(** a part of an object *)
Definition lpart {O S} (get : O -> S) (set : S -> O -> O) (f : Load S) : Load O := fun o =>
  let '(s, ok) := f (get o) in (set s o, ok).

Section Init.
  Context {Pose K : Type}.
  (** as<bool>, as<std::string>, as<double>, as<uint32_t / uint64_t / size_t>, as<int>, as<RobustKernel> *)
  Variables (as_bool : yml -> option bool) (as_str : yml -> option string) (as_num : yml -> option Q)
            (as_nat : yml -> option nat) (as_int : yml -> option Z) (as_kernel : yml -> option K) (of_kernel : K -> yml).
  Notation Cfg := (list (string * yml)).

  (** *** PairWeights *)
  (** PairWeights.h 27-48 *)
  Record PW := mkPW { pt2pt : Q; pt2pl : Q; pt2ln : Q; ln2ln : Q; pl2pl : Q }.
  (** PairWeights.cpp 26-34 *)
  Definition pw_load_map (m : Cfg) : Load PW :=
    lreq as_num m "pt2pt" (fun a o => mkPW a (pt2pl o) (pt2ln o) (ln2ln o) (pl2pl o)) ;;;
    lreq as_num m "pt2pl" (fun a o => mkPW (pt2pt o) a (pt2ln o) (ln2ln o) (pl2pl o)) ;;;
    lreq as_num m "pt2ln" (fun a o => mkPW (pt2pt o) (pt2pl o) a (ln2ln o) (pl2pl o)) ;;;
    lreq as_num m "ln2ln" (fun a o => mkPW (pt2pt o) (pt2pl o) (pt2ln o) a (pl2pl o)) ;;;
    lreq as_num m "pl2pl" (fun a o => mkPW (pt2pt o) (pt2pl o) (pt2ln o) (ln2ln o) a).
  Definition pw_load (y : yml) : Load PW := match y with YDict m => pw_load_map m | _ => lthrow end.
  (** PairWeights.cpp 36-44, into an empty map *)
  Definition pw_save (p : PW) : yml :=
    YDict [("pt2pt", YQ (pt2pt p)); ("pt2pl", YQ (pt2pl p)); ("pt2ln", YQ (pt2ln p)); ("ln2ln", YQ (ln2ln p)); ("pl2pl", YQ (pl2pl p))].

  (** *** WeightParameters *)
  (** WeightParameters.h 34-77 *)
  Record WP := mkWPar { wp_use_scale : bool; wp_scale_thr : Q; wp_weights : PW; wp_kernel : K; wp_current : option Pose; wp_kparam : Q }.
  (** WeightParameters.cpp 70-79 *)
  Definition wp_load_map (m : Cfg) : Load WP :=
    lreq as_bool m "use_scale_outlier_detector" (fun a o => mkWPar a (wp_scale_thr o) (wp_weights o) (wp_kernel o) (wp_current o) (wp_kparam o)) ;;;
    lopt as_num m "scale_outlier_threshold" (fun a o => mkWPar (wp_use_scale o) a (wp_weights o) (wp_kernel o) (wp_current o) (wp_kparam o)) ;;;
    lreq as_kernel m "robust_kernel" (fun a o => mkWPar (wp_use_scale o) (wp_scale_thr o) (wp_weights o) a (wp_current o) (wp_kparam o)) ;;;
    lopt as_num m "robust_kernel_param" (fun a o => mkWPar (wp_use_scale o) (wp_scale_thr o) (wp_weights o) (wp_kernel o) (wp_current o) a) ;;;
    match yfind m "pair_weights" with
    | None => lskip
    | Some y => lpart wp_weights (fun a o => mkWPar (wp_use_scale o) (wp_scale_thr o) a (wp_kernel o) (wp_current o) (wp_kparam o)) (pw_load y)
    end.
  Definition wp_load (y : yml) : Load WP := match y with YDict m => wp_load_map m | _ => lthrow end.
  (** WeightParameters.cpp 80-90, into an empty map *)
  Definition wp_save (p : WP) : yml :=
    YDict [("use_scale_outlier_detector", YB (wp_use_scale p)); ("scale_outlier_threshold", YQ (wp_scale_thr p));
           ("robust_kernel", of_kernel (wp_kernel p)); ("robust_kernel_param", YQ (wp_kparam p)); ("pair_weights", pw_save (wp_weights p))].

  (** *** When a matcher or a solver runs *)
  (** Matcher.h 97-99, Solver.h 72-80 *)
  Record Win := mkWin { w_from : nat; w_upto : nat; w_enabled : bool }.
  (** Matcher.cpp 28-33 *)
  Definition win_load (m : Cfg) : Load Win :=
    lopt as_nat m "runFromIteration" (fun a o => mkWin a (w_upto o) (w_enabled o)) ;;;
    lopt as_nat m "runUpToIteration" (fun a o => mkWin (w_from o) a (w_enabled o)) ;;;
    lopt as_bool m "enabled" (fun a o => mkWin (w_from o) (w_upto o) a).
  (** Solver.cpp 28-34 *)
  Record SolverBase := mkSB { sb_win : Win; sb_until : Q }.
  Definition solver_load (m : Cfg) : Load SolverBase :=
    lpart sb_win (fun a o => mkSB a (sb_until o)) (win_load m) ;;;
    lopt as_num m "runUntilTranslationCorrectionSmallerThan" (fun a o => mkSB (sb_win o) a).
  (** Solver_Horn.cpp 33-39, Solver_OLAE.cpp 31-37 *)
  Record WSolver := mkWS { ws_base : SolverBase; ws_weights : WP }.
  Definition wsolver_load (m : Cfg) : Load WSolver :=
    lpart ws_base (fun a o => mkWS a (ws_weights o)) (solver_load m) ;;;
    match yfind m "pairingsWeightParameters" with
    | None => lskip
    | Some y => lpart ws_weights (fun a o => mkWS (ws_base o) a) (wp_load y)
    end.

  (** *** Matcher_Points_Base *)
  (** std::map<std::string, ...>: keys in increasing order; operator[] = v *)
  Fixpoint smap_set {A} (l : list (string * A)) (k : string) (v : A) : list (string * A) :=
    match l with
    | [] => [(k, v)]
    | (a, b) :: t => match String.compare k a with
        | Lt => (k, v) :: l
        | Eq => (a, v) :: t
        | Gt => (a, b) :: smap_set t k v
        end
    end.
  Fixpoint smap_get {A} (l : list (string * A)) (k : string) : option A :=
    match l with [] => None | (a, b) :: t => if String.eqb a k then Some b else smap_get t k end.
  Definition Table := list (string * list (string * Q)).
  (** [t[g][l] = w] *)
  Definition table_set (t : Table) (g l : string) (w : Q) : Table :=
    smap_set t g (smap_set (match smap_get t g with Some s => s | None => [] end) l w).
  (** Matcher_Points_Base.cpp 147-160: the table as it was left *)
  Fixpoint layers_loop (es : list yml) (t : Table) : Table * bool :=
    match es with
    | [] => (t, true)
    | YDict e :: r =>
        match yfind e "global", yfind e "local" with
        | Some yg, Some yl =>
            match as_str yg, as_str yl, (match yfind e "weight" with Some yw => as_num yw | None => Some 1%Q end) with
            | Some g, Some l, Some w => layers_loop r (table_set t g l w)
            | _, _, _ => (t, false)
            end
        | _, _ => (t, false)
        end
    | _ :: _ => (t, false)
    end.
  (** Matcher_Points_Base.h 52-71 *)
  Record PB := mkPB { pb_win : Win; pb_table : Table; pb_maxLocal : nat; pb_seed : nat; pb_allowLocal : bool; pb_allowGlobal : bool;
    pb_leaf : option Z; pb_eps : Q }.
  (** lines 136-161 *)
  Definition pb_layers (m : Cfg) : Load PB := fun o =>
    let put t := mkPB (pb_win o) t (pb_maxLocal o) (pb_seed o) (pb_allowLocal o) (pb_allowGlobal o) (pb_leaf o) (pb_eps o) in
    match yfind m "pointLayerMatches" with
    | None => (o, true)
    | Some (YSeq es) => let '(t, ok) := layers_loop es [] in (put t, ok)
    | Some _ => (put [], false)
    end.
  (** lines 174-177 *)
  Definition pb_kdtree (m : Cfg) : Load PB := fun o =>
    match yfind m "kdtree_leaf_max_points" with
    | None => (o, true)
    | Some v => match as_int v with
        | Some n => (if (0 <? n)%Z then mkPB (pb_win o) (pb_table o) (pb_maxLocal o) (pb_seed o) (pb_allowLocal o) (pb_allowGlobal o) (Some n) (pb_eps o) else o, true)
        | None => (o, false)
        end
    end.
  (** lines 132-181 *)
  Definition pb_load (m : Cfg) : Load PB :=
    lpart pb_win (fun a o => mkPB a (pb_table o) (pb_maxLocal o) (pb_seed o) (pb_allowLocal o) (pb_allowGlobal o) (pb_leaf o) (pb_eps o)) (win_load m) ;;;
    pb_layers m ;;;
    lopt as_nat m "maxLocalPointsPerLayer" (fun a o => mkPB (pb_win o) (pb_table o) a (pb_seed o) (pb_allowLocal o) (pb_allowGlobal o) (pb_leaf o) (pb_eps o)) ;;;
    lopt as_nat m "localPointsSampleSeed" (fun a o => mkPB (pb_win o) (pb_table o) (pb_maxLocal o) a (pb_allowLocal o) (pb_allowGlobal o) (pb_leaf o) (pb_eps o)) ;;;
    lopt as_bool m "allowMatchAlreadyMatchedPoints" (fun a o => mkPB (pb_win o) (pb_table o) (pb_maxLocal o) (pb_seed o) a (pb_allowGlobal o) (pb_leaf o) (pb_eps o)) ;;;
    lopt as_bool m "allowMatchAlreadyMatchedGlobalPoints" (fun a o => mkPB (pb_win o) (pb_table o) (pb_maxLocal o) (pb_seed o) (pb_allowLocal o) a (pb_leaf o) (pb_eps o)) ;;;
    pb_kdtree m ;;;
    lopt as_num m "bounding_box_intersection_check_epsilon" (fun a o => mkPB (pb_win o) (pb_table o) (pb_maxLocal o) (pb_seed o) (pb_allowLocal o) (pb_allowGlobal o) (pb_leaf o) a).

  (** *** Matcher_Adaptive, Matcher_Point2Line, Matcher_Points_InlierRatio *)
  Record Adaptive := mkAdap { ad_base : PB; ad_confidence : Q; ad_params : AdParams }.
  Definition ad_first (o : Adaptive) := a_firstToSecondDistanceMax (ad_params o).
  (** one field of the parameters *)
  Definition ad_set (f : AdParams -> AdParams) (o : Adaptive) : Adaptive := mkAdap (ad_base o) (ad_confidence o) (f (ad_params o)).
  (** Matcher_Adaptive.cpp 32-57; confidenceInterval is tested before the others (lines 50-56) *)
  Definition adaptive_load (m : Cfg) : Load Adaptive :=
    lpart ad_base (fun a o => mkAdap a (ad_confidence o) (ad_params o)) (pb_load m) ;;;
    lreq as_num m "confidenceInterval" (fun a o => mkAdap (ad_base o) a (ad_params o)) ;;;
    lreq as_num m "firstToSecondDistanceMax" (fun a => ad_set (fun p => mkAd a (a_absoluteMaxSearchDistance p) (a_enableDetectPlanes p)
      (a_maxPt2PtCorrespondences p) (a_planeSearchPoints p) (a_planeMinimumFoundPoints p) (a_planeMinimumDistance p) (a_planeEigenThreshold p) (a_minimumCorrDist p))) ;;;
    lreq as_num m "absoluteMaxSearchDistance" (fun a => ad_set (fun p => mkAd (a_firstToSecondDistanceMax p) a (a_enableDetectPlanes p)
      (a_maxPt2PtCorrespondences p) (a_planeSearchPoints p) (a_planeMinimumFoundPoints p) (a_planeMinimumDistance p) (a_planeEigenThreshold p) (a_minimumCorrDist p))) ;;;
    lopt as_num m "minimumCorrDist" (fun a => ad_set (fun p => mkAd (a_firstToSecondDistanceMax p) (a_absoluteMaxSearchDistance p) (a_enableDetectPlanes p)
      (a_maxPt2PtCorrespondences p) (a_planeSearchPoints p) (a_planeMinimumFoundPoints p) (a_planeMinimumDistance p) (a_planeEigenThreshold p) a)) ;;;
    lreq as_bool m "enableDetectPlanes" (fun a => ad_set (fun p => mkAd (a_firstToSecondDistanceMax p) (a_absoluteMaxSearchDistance p) a
      (a_maxPt2PtCorrespondences p) (a_planeSearchPoints p) (a_planeMinimumFoundPoints p) (a_planeMinimumDistance p) (a_planeEigenThreshold p) (a_minimumCorrDist p))) ;;;
    lopt as_nat m "planeSearchPoints" (fun a => ad_set (fun p => mkAd (a_firstToSecondDistanceMax p) (a_absoluteMaxSearchDistance p) (a_enableDetectPlanes p)
      (a_maxPt2PtCorrespondences p) a (a_planeMinimumFoundPoints p) (a_planeMinimumDistance p) (a_planeEigenThreshold p) (a_minimumCorrDist p))) ;;;
    lopt as_nat m "planeMinimumFoundPoints" (fun a => ad_set (fun p => mkAd (a_firstToSecondDistanceMax p) (a_absoluteMaxSearchDistance p) (a_enableDetectPlanes p)
      (a_maxPt2PtCorrespondences p) (a_planeSearchPoints p) a (a_planeMinimumDistance p) (a_planeEigenThreshold p) (a_minimumCorrDist p))) ;;;
    lopt as_num m "planeEigenThreshold" (fun a => ad_set (fun p => mkAd (a_firstToSecondDistanceMax p) (a_absoluteMaxSearchDistance p) (a_enableDetectPlanes p)
      (a_maxPt2PtCorrespondences p) (a_planeSearchPoints p) (a_planeMinimumFoundPoints p) (a_planeMinimumDistance p) a (a_minimumCorrDist p))) ;;;
    lopt as_nat m "maxPt2PtCorrespondences" (fun a => ad_set (fun p => mkAd (a_firstToSecondDistanceMax p) (a_absoluteMaxSearchDistance p) (a_enableDetectPlanes p)
      a (a_planeSearchPoints p) (a_planeMinimumFoundPoints p) (a_planeMinimumDistance p) (a_planeEigenThreshold p) (a_minimumCorrDist p))) ;;;
    lopt as_num m "planeMinimumDistance" (fun a => ad_set (fun p => mkAd (a_firstToSecondDistanceMax p) (a_absoluteMaxSearchDistance p) (a_enableDetectPlanes p)
      (a_maxPt2PtCorrespondences p) (a_planeSearchPoints p) (a_planeMinimumFoundPoints p) a (a_planeEigenThreshold p) (a_minimumCorrDist p))) ;;;
    lassert (fun o => Qltb (ad_confidence o) 1) ;;;
    lassert (fun o => Qltb 0 (ad_confidence o)) ;;;
    lassert (fun o => ad_accepted (ad_params o)).

  Record Line := mkLn { ln_base : PB; ln_params : LineParams }.
  Definition ln_set (f : LineParams -> LineParams) (o : Line) : Line := mkLn (ln_base o) (f (ln_params o)).
  (** Matcher_Point2Line.cpp 35-44 *)
  Definition line_load (m : Cfg) : Load Line :=
    lpart ln_base (fun a o => mkLn a (ln_params o)) (pb_load m) ;;;
    lreq as_num m "distanceThreshold" (fun a => ln_set (fun p => mkLine a (l_knn p) (l_minimumLinePoints p) (l_lineEigenThreshold p))) ;;;
    lreq as_nat m "knn" (fun a => ln_set (fun p => mkLine (l_distanceThreshold p) a (l_minimumLinePoints p) (l_lineEigenThreshold p))) ;;;
    lreq as_num m "lineEigenThreshold" (fun a => ln_set (fun p => mkLine (l_distanceThreshold p) (l_knn p) (l_minimumLinePoints p) a)) ;;;
    lreq as_nat m "minimumLinePoints" (fun a => ln_set (fun p => mkLine (l_distanceThreshold p) (l_knn p) a (l_lineEigenThreshold p))) ;;;
    lassert (fun o => p2ln_accepted (ln_params o)).

  Record Inlier := mkInl { il_base : PB; il_ratio : Q }.
  (** Matcher_Points_InlierRatio.cpp 34-39 *)
  Definition inlier_load (m : Cfg) : Load Inlier :=
    lpart il_base (fun a o => mkInl a (il_ratio o)) (pb_load m) ;;;
    lreq as_num m "inliersRatio" (fun a o => mkInl (il_base o) a).

  (** *** Matcher_Points_DistanceThreshold *)
  (** The formulas declared so far: the variable and its text, or no text: its own value (see
      declare_opt in ParamModel) *)
  Record DThr := mkDThr { dt_base : PB; dt_forms : list (string * option string) }.
  (** DECLARE_PARAMETER_REQ *)
  Definition form_req (m : Cfg) (k : string) : Load DThr :=
    lreq as_str m k (fun a o => mkDThr (dt_base o) (dt_forms o ++ [(k, Some a)])).
  (** DECLARE_PARAMETER_OPT *)
  Definition form_opt (m : Cfg) (k : string) : Load DThr := fun o =>
    match yfind m k with
    | None => (mkDThr (dt_base o) (dt_forms o ++ [(k, None)]), true)
    | Some v => match as_str v with Some a => (mkDThr (dt_base o) (dt_forms o ++ [(k, Some a)]), true) | None => (o, false) end
    end.
  (** Matcher_Points_DistanceThreshold.cpp 39-46 *)
  Definition dthr_load (m : Cfg) : Load DThr :=
    lpart dt_base (fun a o => mkDThr a (dt_forms o)) (pb_load m) ;;;
    form_req m "threshold" ;;;
    form_req m "thresholdAngularDeg" ;;;
    form_opt m "pairingsPerPoint".

  (** *** Quality evaluators *)
  (** QualityEvaluator_PairedRatio.h 58-61: the evaluator has a matcher of its own *)
  Record PRatio := mkPRatio { pr_reuse : bool; pr_min : Q; pr_matcher : DThr }.
  (** QualityEvaluator_PairedRatio.cpp 27-43: [p[key] = true] on a copy of the configuration *)
  Definition pratio_load (m : Cfg) : Load PRatio :=
    lopt as_bool m "reuse_icp_pairings" (fun a o => mkPRatio a (pr_min o) (pr_matcher o)) ;;;
    lopt as_num m "absolute_minimum_pairing_ratio" (fun a o => mkPRatio (pr_reuse o) a (pr_matcher o)) ;;;
    (fun o => if pr_reuse o then (o, true)
              else let m' := match yfind m "allowMatchAlreadyMatchedGlobalPoints" with
                             | None => ("allowMatchAlreadyMatchedGlobalPoints", YB true) :: m
                             | Some _ => m end in
                   lpart pr_matcher (fun a o => mkPRatio (pr_reuse o) (pr_min o) a) (dthr_load m') o).
  (** QualityEvaluator_Voxels.cpp 33-38 *)
  Record VoxQ := mkVoxQ { vq_layer : string; vq_scale : Q }.
  Definition voxq_load (m : Cfg) : Load VoxQ :=
    lreq as_str m "voxel_layer_name" (fun a o => mkVoxQ a (vq_scale o)) ;;;
    lopt as_num m "dist2quality_scale" (fun a o => mkVoxQ (vq_layer o) a).

  (** *** The loaded parameters in the other models *)
  Definition matcher_of {PP PL PN LL NN W Env Po} (w : Win) (impl : nat -> Po -> Env -> Pairings PP PL PN LL NN W -> res (Env * bool * Pairings PP PL PN LL NN W))
    : @Matcher PP PL PN LL NN W Env Po := mkMatcher (w_enabled w) (w_from w) (w_upto w) impl.
  Definition solver_of {Env Po Pairs} (id : nat) (s : SolverBase) (impl : @SolverContext Po -> Pairs -> Env -> @Solution Po -> res (Env * bool * @Solution Po))
    : @Solver Env Po Pairs := mkSolver id (w_enabled (sb_win s)) (w_from (sb_win s)) (w_upto (sb_win s)) (sb_until s) impl.
  (** the names of layers are numbers there *)
  Definition base_of (code : string -> nat) (o : PB) : BaseParams :=
    mkBase (map (fun gs => (code (fst gs), map (fun lw => (code (fst lw), snd lw)) (snd gs))) (pb_table o))
      (pb_maxLocal o) (pb_allowLocal o) (pb_allowGlobal o) (pb_eps o).
End Init.
