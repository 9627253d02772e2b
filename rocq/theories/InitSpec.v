(** What the configuration of matchers, solvers and evaluators means, in terms of its entries. *)
From Coq Require Import String.
From Verif Require Import Base ConfigModel ConfigSpec FeatModel InitModel.
Open Scope string_scope.
Open Scope list_scope.

Section InitSpec.
  Context {Pose K : Type}.
  Variables (as_bool : yml -> option bool) (as_str : yml -> option string) (as_num : yml -> option Q)
            (as_nat : yml -> option nat) (as_int : yml -> option Z) (as_kernel : yml -> option K).
  Notation Cfg := (list (string * yml)).

  (** the entry is there and has this value *)
  Definition Given {A} (conv : yml -> option A) (m : Cfg) (k : string) (a : A) : Prop :=
    exists v, yfind m k = Some v /\ conv v = Some a.

  Definition LoadedPW (y : yml) (p : PW) : Prop :=
    exists m, y = YDict m /\ Given as_num m "pt2pt" (pt2pt p) /\ Given as_num m "pt2pl" (pt2pl p) /\ Given as_num m "pt2ln" (pt2ln p)
      /\ Given as_num m "ln2ln" (ln2ln p) /\ Given as_num m "pl2pl" (pl2pl p).

  Definition LoadedWP (y : yml) (old new : @WP Pose K) : Prop :=
    exists m, y = YDict m
      /\ Given as_bool m "use_scale_outlier_detector" (wp_use_scale new)
      /\ GivenOr as_num m "scale_outlier_threshold" (wp_scale_thr old) (wp_scale_thr new)
      /\ Given as_kernel m "robust_kernel" (wp_kernel new)
      /\ GivenOr as_num m "robust_kernel_param" (wp_kparam old) (wp_kparam new)
      /\ wp_current new = wp_current old
      /\ ((yfind m "pair_weights" = None /\ wp_weights new = wp_weights old)
          \/ exists y, yfind m "pair_weights" = Some y /\ LoadedPW y (wp_weights new)).

  Definition LoadedWin (m : Cfg) (old new : Win) : Prop :=
    GivenOr as_nat m "runFromIteration" (w_from old) (w_from new)
    /\ GivenOr as_nat m "runUpToIteration" (w_upto old) (w_upto new)
    /\ GivenOr as_bool m "enabled" (w_enabled old) (w_enabled new).

  (** the iterations at which it runs *)
  Definition Active (w : Win) (i : nat) : Prop :=
    w_enabled w = true /\ (w_from w <= i)%nat /\ (w_upto w = 0%nat \/ (i <= w_upto w)%nat).

  Definition LoadedSolver (m : Cfg) (old new : SolverBase) : Prop :=
    LoadedWin m (sb_win old) (sb_win new)
    /\ GivenOr as_num m "runUntilTranslationCorrectionSmallerThan" (sb_until old) (sb_until new).

  (** an entry of pointLayerMatches: {global, local, weight}, the weight being 1 by default *)
  Definition Entry (e : yml) (glw : string * string * Q) : Prop :=
    exists m, e = YDict m /\ Given as_str m "global" (fst (fst glw)) /\ Given as_str m "local" (snd (fst glw))
      /\ GivenOr as_num m "weight" 1%Q (snd glw).
  (** the weight of a pair of layers in a table *)
  Definition weight_of (t : Table) (g l : string) : option Q :=
    match smap_get t g with Some s => smap_get s l | None => None end.
  (** the table says what the latest entry for each pair of layers says *)
  Definition Says (es : list yml) (t : Table) : Prop :=
    exists ps, Forall2 Entry es ps /\
      forall g l w, weight_of t g l = Some w <->
        exists before after, ps = before ++ (g, l, w) :: after /\ forall g' l' w', In (g', l', w') after -> ~ (g' = g /\ l' = l).

  Definition LoadedBase (m : Cfg) (old new : PB) : Prop :=
    LoadedWin m (pb_win old) (pb_win new)
    /\ ((yfind m "pointLayerMatches" = None /\ pb_table new = pb_table old)
        \/ exists es, yfind m "pointLayerMatches" = Some (YSeq es) /\ Says es (pb_table new) /\ (es = [] <-> pb_table new = []))
    /\ GivenOr as_nat m "maxLocalPointsPerLayer" (pb_maxLocal old) (pb_maxLocal new)
    /\ GivenOr as_nat m "localPointsSampleSeed" (pb_seed old) (pb_seed new)
    /\ GivenOr as_bool m "allowMatchAlreadyMatchedPoints" (pb_allowLocal old) (pb_allowLocal new)
    /\ GivenOr as_bool m "allowMatchAlreadyMatchedGlobalPoints" (pb_allowGlobal old) (pb_allowGlobal new)
    /\ (exists n, GivenOr as_int m "kdtree_leaf_max_points" 0%Z n
        /\ ((n <= 0)%Z -> pb_leaf new = pb_leaf old) /\ ((0 < n)%Z -> pb_leaf new = Some n))
    /\ GivenOr as_num m "bounding_box_intersection_check_epsilon" (pb_eps old) (pb_eps new).

  Definition LoadedAdaptive (m : Cfg) (old new : Adaptive) : Prop :=
    let p := ad_params old in let q := ad_params new in
    LoadedBase m (ad_base old) (ad_base new)
    /\ Given as_num m "confidenceInterval" (ad_confidence new) /\ (0 < ad_confidence new)%Q /\ (ad_confidence new < 1)%Q
    /\ Given as_num m "firstToSecondDistanceMax" (a_firstToSecondDistanceMax q)
    /\ Given as_num m "absoluteMaxSearchDistance" (a_absoluteMaxSearchDistance q)
    /\ GivenOr as_num m "minimumCorrDist" (a_minimumCorrDist p) (a_minimumCorrDist q)
    /\ Given as_bool m "enableDetectPlanes" (a_enableDetectPlanes q)
    /\ GivenOr as_nat m "planeSearchPoints" (a_planeSearchPoints p) (a_planeSearchPoints q)
    /\ GivenOr as_nat m "planeMinimumFoundPoints" (a_planeMinimumFoundPoints p) (a_planeMinimumFoundPoints q)
    /\ (3 <= a_planeMinimumFoundPoints q <= a_planeSearchPoints q)%nat
    /\ GivenOr as_num m "planeEigenThreshold" (a_planeEigenThreshold p) (a_planeEigenThreshold q) /\ (0 < a_planeEigenThreshold q)%Q
    /\ GivenOr as_nat m "maxPt2PtCorrespondences" (a_maxPt2PtCorrespondences p) (a_maxPt2PtCorrespondences q)
    /\ GivenOr as_num m "planeMinimumDistance" (a_planeMinimumDistance p) (a_planeMinimumDistance q).

  Definition LoadedLine (m : Cfg) (old new : Line) : Prop :=
    LoadedBase m (ln_base old) (ln_base new)
    /\ Given as_num m "distanceThreshold" (l_distanceThreshold (ln_params new))
    /\ Given as_nat m "knn" (l_knn (ln_params new))
    /\ Given as_num m "lineEigenThreshold" (l_lineEigenThreshold (ln_params new))
    /\ Given as_nat m "minimumLinePoints" (l_minimumLinePoints (ln_params new)) /\ (2 <= l_minimumLinePoints (ln_params new))%nat.

  Definition LoadedThr (m : Cfg) (old new : DThr) : Prop :=
    LoadedBase m (dt_base old) (dt_base new)
    /\ exists t a p, Given as_str m "threshold" t /\ Given as_str m "thresholdAngularDeg" a
       /\ ((yfind m "pairingsPerPoint" = None /\ p = None) \/ exists x, Given as_str m "pairingsPerPoint" x /\ p = Some x)
       /\ dt_forms new = dt_forms old ++ [("threshold", Some t); ("thresholdAngularDeg", Some a); ("pairingsPerPoint", p)].
End InitSpec.
