(** Model of Matcher_Points_Base, Matcher_Points_DistanceThreshold (build without TBB)
    and Matcher_Points_InlierRatio.
    Sources: /repo/mp2p_icp/src/Matcher_Points_Base.cpp,
             /repo/mp2p_icp/src/Matcher_Points_DistanceThreshold.cpp,
             /repo/mp2p_icp/src/Matcher_Points_InlierRatio.cpp,
             /repo/mp2p_icp/include/mp2p_icp/Matcher.h (MatchState)
    Coordinates and squared distances (floats in the code) are exact rationals here. *)
From Verif Require Import Base PairingsModel MatcherModel BitfieldModel.

Record P3 : Type := mkP3 { px : Q; py : Q; pz : Q }.
Definition qsq (a : Q) : Q := (a * a)%Q.
(** Matcher_Points_DistanceThreshold.cpp:225 *)
Definition normSqr (a : P3) : Q := (qsq (px a) + qsq (py a) + qsq (pz a))%Q.
(** Squared Euclidean distance, what the nearest-neighbour interface reports. *)
Definition sqd (a b : P3) : Q := (qsq (px a - px b) + qsq (py a - py b) + qsq (pz a - pz b))%Q.

(** mrpt::tfest::TMatchingPair, as filled in at DistanceThreshold.cpp:105-113 and
    InlierRatio.cpp:101-107.  [p_glayer], [p_llayer] are ghost: the layers the pair comes
    from, which the code does not store. *)
Record Pair : Type := mkPair {
  p_globalIdx : nat; p_localIdx : nat; p_global : P3; p_local : P3; p_err : Q;
  p_glayer : nat; p_llayer : nat }.
Notation ptpairings := (Pairings Pair unit unit unit unit Q).

(** Matcher.h:44-70 *)
Record MatchState : Type := mkMS { ms_local : LayerBits; ms_global : LayerBits }.

(** A map that implements mrpt::maps::NearestNeighborsCapable: its points, its
    bounding box, whether ids are contiguous indices, and the k-nearest search
    (nn_single_search is the case k = 1: it returns false when the result is empty). *)
Record NNMap : Type := mkNN {
  nn_points : list P3;
  nn_bbox : P3 * P3;
  nn_dense : bool;
  nn_search : P3 -> nat -> list (nat * P3 * Q) }.

(** A map layer as matchers see it: MapToPointsMap() and MapToNN()
    (metricmap.cpp:750-802); null layer pointers are not modelled. *)
Record Layer : Type := mkLayer { ly_points : option (list P3); ly_nn : option NNMap }.
(** metric_map_t::layers, a std::map: key order. *)
Definition Layers := list (nat * Layer).
Fixpoint find_layer {A} (ls : list (nat * A)) (k : nat) : option A :=
  match ls with [] => None | (k', v) :: r => if Nat.eqb k' k then Some v else find_layer r k end.

(** ** transform_local_to_global, Matcher_Points_Base.cpp:183-252 *)
Record TransformedLocal : Type := mkTL {
  tl_min : P3; tl_max : P3; tl_idxs : option (list nat); tl_pts : list P3 }.

Definition kmin (a b : Q) : Q := if Qltb b a then b else a.   (* mrpt::keep_min *)
Definition kmax (a b : Q) : Q := if Qltb a b then b else a.   (* mrpt::keep_max *)
(** lines 190-199, lambdaKeepBBox *)
Definition keep_bbox (bb : P3 * P3) (p : P3) : P3 * P3 :=
  (mkP3 (kmin (px (fst bb)) (px p)) (kmin (py (fst bb)) (py p)) (kmin (pz (fst bb)) (pz p)),
   mkP3 (kmax (px (snd bb)) (px p)) (kmax (py (snd bb)) (py p)) (kmax (pz (snd bb)) (pz p))).

Section TransformLocal.
(** std::numeric_limits<float>::max() (Matcher_Points_Base.h: fMax) *)
Variable fMax : Q.
(** mrpt::random::partial_shuffle over the whole range with a seeded engine: some
    rearrangement of its argument. *)
Variable shuffle : list nat -> list nat.
(** localPose.composePoint *)
Variable tf : P3 -> P3.

Fixpoint gather (pc : list P3) (is : list nat) : res (list P3) :=
  match is with
  | [] => Ok []
  | i :: r => match nth_error pc i with
              | Some p => let* ps := gather pc r in Ok (p :: ps)
              | None => UB
              end
  end.

Definition transform_local_to_global (pcLocal : list P3) (maxLocalPoints : nat)
  : res TransformedLocal :=
  let bb0 := (mkP3 fMax fMax fMax, mkP3 (- fMax) (- fMax) (- fMax))%Q in
  if Nat.eqb maxLocalPoints 0 || Nat.leb (length pcLocal) maxLocalPoints then   (* line 207 *)
    let pts := map tf pcLocal in
    let bb := fold_left keep_bbox pts bb0 in
    Ok (mkTL (fst bb) (snd bb) None pts)
  else
    let idxs := shuffle (seq 0 maxLocalPoints) in                              (* 224-232 *)
    let* sel := gather pcLocal idxs in
    let pts := map tf sel in
    let bb := fold_left keep_bbox pts bb0 in
    Ok (mkTL (fst bb) (snd bb) (Some idxs) pts).
End TransformLocal.

(** mrpt::math::TBoundingBox::intersection(b, epsilon) has a value (external code: the
    boxes overlap after growing one by epsilon in every direction). *)
Definition bb_intersects (a b : P3 * P3) (eps : Q) : bool :=
  Qle_bool (px (fst b)) (px (snd a) + eps) && Qle_bool (px (fst a) - eps) (px (snd b))
  && Qle_bool (py (fst b)) (py (snd a) + eps) && Qle_bool (py (fst a) - eps) (py (snd b))
  && Qle_bool (pz (fst b)) (pz (snd a) + eps) && Qle_bool (pz (fst a) - eps) (pz (snd b)).

(** Parameters of Matcher_Points_Base (Matcher_Points_Base.h:52-71) *)
Record BaseParams : Type := mkBase {
  weight_pt2pt_layers : list (nat * list (nat * Q));     (* std::map of std::map *)
  maxLocalPointsPerLayer : nat;
  allowMatchAlreadyMatchedPoints : bool;
  allowMatchAlreadyMatchedGlobalPoints : bool;
  bbox_epsilon : Q }.

Definition add_pt2pt (out : ptpairings) (p : Pair) : ptpairings :=
  mkPairings (paired_pt2pt out ++ [p]) (paired_pt2ln out) (paired_pt2pl out)
    (paired_ln2ln out) (paired_pl2pl out) (point_weights out) (potential_pairings out).
Definition add_potential (out : ptpairings) (n : nat) : ptpairings :=
  mkPairings (paired_pt2pt out) (paired_pt2ln out) (paired_pt2pl out)
    (paired_ln2ln out) (paired_pl2pl out) (point_weights out) (potential_pairings out + n).
Definition add_weight (out : ptpairings) (n : nat) (w : Q) : ptpairings :=
  mkPairings (paired_pt2pt out) (paired_pt2ln out) (paired_pt2pl out)
    (paired_ln2ln out) (paired_pl2pl out) (point_weights out ++ [(n, w)]) (potential_pairings out).

(** Marks both bit fields (DistanceThreshold.cpp:118-119, InlierRatio.cpp:138-139):
    std::map::operator[] followed by mark_as_set. *)
Definition mark_both (ms : MatchState) (lname li gname gi : nat) : res MatchState :=
  let* lb := bits_mark (lb_get_or_default (ms_local ms) lname) li in
  let* gb := bits_mark (lb_get_or_default (ms_global ms) gname) gi in
  Ok (mkMS (lb_set (ms_local ms) lname lb) (lb_set (ms_global ms) gname gb)).

(** point_layers.at(name)[idx] *)
Definition query (m : LayerBits) (name idx : nat) : res bool :=
  let* b := lb_at m name in bits_get b idx.

Section OneLayer.
Variable fMax : Q.
Variable shuffle : list nat -> list nat.
Variable tf : P3 -> P3.
Variable b : BaseParams.

(** DistanceThreshold.cpp:216, InlierRatio.cpp:79: the i-th sampled index, or i *)
Definition local_index (tl : TransformedLocal) (i : nat) : res nat :=
  match tl_idxs tl with
  | None => Ok i
  | Some l => match nth_error l i with Some x => Ok x | None => UB end
  end.

(** ** Matcher_Points_DistanceThreshold.cpp *)
Section DistanceThreshold.
Variables (threshold angFactorSqr : Q) (pairingsPerPoint : nat).

(** lines 94-121 lambdaAddPair *)
Definition dt_add_pair (lpts : list P3) (gname lname localIdx : nat)
  (gpt : P3) (gi : nat) (err : Q) (s : MatchState * ptpairings)
  : res (MatchState * ptpairings) :=
  let '(ms, out) := s in
  let* taken := if allowMatchAlreadyMatchedGlobalPoints b then Ok false
                else query (ms_global ms) gname gi in
  if taken then Ok (ms, out)
  else match nth_error lpts localIdx with
  | None => UB
  | Some lp =>
    let out' := add_pt2pt out (mkPair gi localIdx gpt lp err gname lname) in
    if allowMatchAlreadyMatchedGlobalPoints b then Ok (ms, out')
    else let* ms' := mark_both ms lname localIdx gname gi in Ok (ms', out')
  end.

(** lines 252-264 *)
Fixpoint dt_neighbours (lpts : list P3) (gname lname localIdx : nat) (finalThresSqr : Q)
  (ns : list (nat * P3 * Q)) (s : MatchState * ptpairings) : res (MatchState * ptpairings) :=
  match ns with
  | [] => Ok s
  | (gi, gpt, err) :: rest =>
    if Qle_bool finalThresSqr err then Ok s
    else let* s' := dt_add_pair lpts gname lname localIdx gpt gi err s in
         dt_neighbours lpts gname lname localIdx finalThresSqr rest s'
  end.

(** lines 214-265, over the indices i still to visit *)
Fixpoint dt_loop (nn : NNMap) (lpts : list P3) (tl : TransformedLocal) (gname lname : nat)
  (is : list nat) (s : MatchState * ptpairings) : res (MatchState * ptpairings) :=
  match is with
  | [] => Ok s
  | i :: rest =>
    let* localIdx := local_index tl i in
    let* taken := if allowMatchAlreadyMatchedPoints b then Ok false
                  else query (ms_local (fst s)) lname localIdx in
    if taken then dt_loop nn lpts tl gname lname rest s
    else match nth_error (tl_pts tl) i with
    | None => UB
    | Some q =>
      let thr := (qsq threshold + angFactorSqr * normSqr q)%Q in
      let* s' := dt_neighbours lpts gname lname localIdx thr (nn_search nn q pairingsPerPoint) s in
      dt_loop nn lpts tl gname lname rest s'
    end
  end.

(** lines 48-269.  [angFactorSqr] is square(DEG2RAD(thresholdAngularDeg)); a negative value
    stands for a negative angle, rejected at line 60. *)
Definition dt_one_layer (gl : Layer) (lpts : list P3) (gname lname : nat)
  (ms : MatchState) (out : ptpairings) : res (MatchState * ptpairings) :=
  if Nat.ltb pairingsPerPoint 1 || Qle_bool threshold 0 || Qltb angFactorSqr 0 then Throw
  else match ly_nn gl with
  | None => Throw
  | Some nn =>
    let out := add_potential out (length lpts * pairingsPerPoint) in
    if isNil (nn_points nn) || isNil lpts then Ok (ms, out)
    else
      let* tl := transform_local_to_global fMax shuffle tf lpts (maxLocalPointsPerLayer b) in
      if negb (bb_intersects (nn_bbox nn) (tl_min tl, tl_max tl) (threshold + bbox_epsilon b))
      then Ok (ms, out)
      else dt_loop nn lpts tl gname lname (seq 0 (length lpts)) (ms, out)
  end.
End DistanceThreshold.

(** ** Matcher_Points_InlierRatio.cpp *)
Section InlierRatio.
(** mrpt::round: to the nearest integer *)
Variable mround : Q -> Z.
Variable inliersRatio : Q.

(** multimap::emplace_hint(begin(), key, value) (line 110): ascending keys, and among
    equal keys as close to begin() as possible. *)
Fixpoint mm_insert (p : Pair) (l : list Pair) : list Pair :=
  match l with
  | [] => [p]
  | x :: r => if Qltb (p_err x) (p_err p) then x :: mm_insert p r else p :: l
  end.

(** lines 77-112 *)
Fixpoint ir_candidates (nn : NNMap) (lpts : list P3) (tl : TransformedLocal)
  (gname lname : nat) (ms : MatchState) (is : list nat) (acc : list Pair) : res (list Pair) :=
  match is with
  | [] => Ok acc
  | i :: rest =>
    let* localIdx := local_index tl i in
    let* taken := if allowMatchAlreadyMatchedPoints b then Ok false
                  else query (ms_local ms) lname localIdx in
    if taken then ir_candidates nn lpts tl gname lname ms rest acc
    else match nth_error (tl_pts tl) i, nth_error lpts localIdx with
    | Some q, Some lp =>
      match nn_search nn q 1 with
      | [] => ir_candidates nn lpts tl gname lname ms rest acc
      | (gi, gpt, err) :: _ =>
        ir_candidates nn lpts tl gname lname ms rest
          (mm_insert (mkPair gi localIdx gpt lp err gname lname) acc)
      end
    | _, _ => UB
    end
  end.

(** lines 125-140 *)
Fixpoint ir_emit (ps : list Pair) (gname lname : nat) (s : MatchState * ptpairings)
  : res (MatchState * ptpairings) :=
  match ps with
  | [] => Ok s
  | p :: rest =>
    let '(ms, out) := s in
    let* taken := if allowMatchAlreadyMatchedGlobalPoints b then Ok false
                  else query (ms_global ms) gname (p_globalIdx p) in
    if taken then ir_emit rest gname lname s
    else let* ms' := mark_both ms lname (p_localIdx p) gname (p_globalIdx p) in
         ir_emit rest gname lname (ms', add_pt2pt out p)
  end.

(** lines 41-143; std::advance out of [begin, end] is undefined *)
Definition ir_one_layer (gl : Layer) (lpts : list P3) (gname lname : nat)
  (ms : MatchState) (out : ptpairings) : res (MatchState * ptpairings) :=
  if Qle_bool inliersRatio 0 || Qle_bool 1 inliersRatio then Throw
  else match ly_nn gl with
  | None => Throw
  | Some nn =>
    let out := add_potential out (length lpts) in
    if isNil (nn_points nn) || isNil lpts then Ok (ms, out)
    else
      let* tl := transform_local_to_global fMax shuffle tf lpts (maxLocalPointsPerLayer b) in
      if negb (bb_intersects (nn_bbox nn) (tl_min tl, tl_max tl) (bbox_epsilon b))
      then Ok (ms, out)
      else
        let* sorted := ir_candidates nn lpts tl gname lname ms (seq 0 (length (tl_pts tl))) [] in
        if isNil sorted then Throw
        else
          let nKeep := mround (inject_Z (Z.of_nat (length sorted)) * inliersRatio)%Q in
          if (nKeep <? 0)%Z || (Z.of_nat (length sorted) <? nKeep)%Z then UB
          else ir_emit (firstn (Z.to_nat nKeep) sorted) gname lname (ms, out)
  end.
End InlierRatio.
End OneLayer.

(** ** Matcher_Points_Base::impl_match, Matcher_Points_Base.cpp:30-132 *)
Section ImplMatch.
(** implMatchOneLayer(): global layer, local points, names, state, out *)
Variable one_layer : Layer -> list P3 -> nat -> nat -> MatchState -> ptpairings
                     -> res (MatchState * ptpairings).
Variable b : BaseParams.
Variables pcGlobal pcLocal : Layers.

(** lines 64-127: the local layers to match with one global layer *)
Fixpoint match_locals (gname : nat) (gl : Layer) (locals : list (nat * option Q))
  (s : MatchState * ptpairings) : res (MatchState * ptpairings) :=
  match locals with
  | [] => Ok s
  | (lname, w) :: rest =>
    match find_layer pcLocal lname with
    | None => match w with
              | None => match_locals gname gl rest s
              | Some _ => Throw
              end
    | Some ll =>
      match ly_points ll with
      | None => Throw
      | Some lpts =>
        let '(ms, out) := s in
        let nBefore := length (paired_pt2pt out) in
        let* s' := one_layer gl lpts gname lname ms out in
        let '(ms', out') := s' in
        let nAfter := length (paired_pt2pt out') in
        let out'' := match w with
                     | Some w => if Nat.eqb nAfter nBefore then out'
                                 else add_weight out' (nAfter - nBefore) w
                     | None => out' end in
        match_locals gname gl rest (ms', out'')
      end
    end
  end.

(** lines 44-62 *)
Definition local_layers (gname : nat) : option (list (nat * option Q)) :=
  match weight_pt2pt_layers b with
  | [] => Some [(gname, None)]
  | tbl => match find_layer tbl gname with
           | None => None
           | Some ls => Some (map (fun kv => (fst kv, Some (snd kv))) ls)
           end
  end.

(** lines 40-128 *)
Fixpoint match_globals (gs : Layers) (s : MatchState * ptpairings)
  : res (MatchState * ptpairings) :=
  match gs with
  | [] => Ok s
  | (gname, gl) :: rest =>
    match local_layers gname with
    | None => match_globals rest s
    | Some ls => let* s' := match_locals gname gl ls s in match_globals rest s'
    end
  end.

(** lines 30-132 *)
Definition base_impl_match (ms : MatchState) (out : ptpairings)
  : res (MatchState * bool * ptpairings) :=
  let* s := match_globals pcGlobal (ms, pairings_empty_ctor) in
  let '(ms', out') := s in Ok (ms', true, out').
End ImplMatch.

(** ** The two concrete matchers inside the generic pipeline *)
Inductive PointMatcher : Type :=
| DT (b : BaseParams) (threshold angFactorSqr : Q) (pairingsPerPoint : nat)
| IR (b : BaseParams) (inliersRatio : Q).

Definition pm_base (m : PointMatcher) : BaseParams :=
  match m with DT b _ _ _ => b | IR b _ => b end.

Section Concrete.
Variable fMax : Q.
Variable shuffle : list nat -> list nat.
Variable mround : Q -> Z.
Variables pcGlobal pcLocal : Layers.

Definition pm_one_layer (m : PointMatcher) (tf : P3 -> P3) :=
  match m with
  | DT b t a k => dt_one_layer fMax shuffle tf b t a k
  | IR b r => ir_one_layer fMax shuffle tf b mround r
  end.

(** A Matcher object in the sense of MatcherModel: the pose is the transformation. *)
Definition pm_matcher (m : PointMatcher) (from upTo : nat)
  : @Matcher Pair unit unit unit unit Q MatchState (P3 -> P3) :=
  mkMatcher true from upTo
    (fun _ tf ms out => base_impl_match (pm_one_layer m tf) (pm_base m) pcGlobal pcLocal ms out).

(** MatchState constructor (Matcher.h:46-66) on two maps *)
Definition layer_info (ls : Layers) : list (nat * LayerInfo) :=
  map (fun kv => (fst kv, Some (option_map (fun nn => (length (nn_points nn), nn_dense nn))
                                  (ly_nn (snd kv))))) ls.
Definition fresh_ms : res MatchState :=
  let* l := bits_initialize_from (layer_info pcLocal) [] in
  let* g := bits_initialize_from (layer_info pcGlobal) [] in
  Ok (mkMS l g).
End Concrete.
