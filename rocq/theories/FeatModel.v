(** Model of estimate_points_eigen() and of the matchers that pair points with features:
    Matcher_Point2Plane, Matcher_Point2Line, Matcher_Adaptive (one layer; the loop over the layers is
    Matcher_Points_Base::impl_match, see PointMatcherModel.v).
    Sources: /repo/mp2p_icp_map/src/estimate_points_eigen.cpp,
             /repo/mp2p_icp/src/Matcher_Point2Plane.cpp, Matcher_Point2Line.cpp, Matcher_Adaptive.cpp.
    Simplifications: those of PointMatcherModel.v (exact rationals), and
    - mrpt's eig_symmetric is a parameter: eigenvalues (ascending) and eigenvectors of a symmetric matrix;
    - TVector3D::unitarize and TPlane::distance are parameters (they take a square root). *)
From Verif Require Import Base PairingsModel MatcherModel BitfieldModel PointMatcherModel.

(** ** estimate_points_eigen *)
(** A symmetric 3x3 matrix by its lower half: (0,0) (1,0) (2,0) (1,1) (2,1) (2,2) *)
Record Sym3 : Type := mkSym { s00 : Q; s10 : Q; s20 : Q; s11 : Q; s21 : Q; s22 : Q }.
Record Spec3 : Type := mkSpec3 { val0 : Q; val1 : Q; val2 : Q; vec0 : P3; vec1 : P3; vec2 : P3 }.
(** estimate_points_eigen.h: PointCloudEigen *)
Record Eig : Type := mkEig { eg_mean : P3; eg_cov : Sym3; eg_spec : Spec3 }.

Definition p3add (a b : P3) : P3 := mkP3 (px a + px b) (py a + py b) (pz a + pz b).
Definition p3sub (a b : P3) : P3 := mkP3 (px a - px b) (py a - py b) (pz a - pz b).
Definition p3scale (k : Q) (a : P3) : P3 := mkP3 (px a * k) (py a * k) (pz a * k).
(** estimate_points_eigen.cpp 53-62: one term of the covariance *)
Definition sym_add (m : Sym3) (a : P3) : Sym3 :=
  mkSym (s00 m + px a * px a) (s10 m + px a * py a) (s20 m + px a * pz a)
        (s11 m + py a * py a) (s21 m + py a * pz a) (s22 m + pz a * pz a).
Definition sym_scale (k : Q) (m : Sym3) : Sym3 :=
  mkSym (s00 m * k) (s10 m * k) (s20 m * k) (s11 m * k) (s21 m * k) (s22 m * k).

Section Feat.
Variable eig_symmetric : Sym3 -> Spec3.

(** estimate_points_eigen.cpp 45-63, 76-95 and 98-118: mean and covariance of a list of points, then their spectrum *)
Definition eigen_of (pts : list P3) : Eig :=
  let inv_n := (1 / inject_Z (Z.of_nat (length pts)))%Q in
  let mean := p3scale inv_n (fold_left p3add pts (mkP3 0 0 0)) in
  let cov := sym_scale inv_n
               (fold_left (fun m p => sym_add m (p3sub p mean)) pts (mkSym 0 0 0 0 0 0)) in
  mkEig mean cov (eig_symmetric cov).

(** estimate_points_eigen.cpp 38-64: with totalCount *)
Definition estimate_total (xs : list P3) (totalCount : nat) : res Eig :=
  if Nat.ltb totalCount 3 then Throw
  else if Nat.ltb (length xs) totalCount then UB
  else Ok (eigen_of (firstn totalCount xs)).

(** estimate_points_eigen.cpp 65-96: with indices; xs[pt_idx] is not checked *)
Definition estimate_indices (xs : list P3) (idxs : list nat) : res Eig :=
  if Nat.ltb (length idxs) 3 then Throw
  else let* pts := gather xs idxs in Ok (eigen_of pts).

(** ** Pairings with features *)
(** point_line_pair_t, point_plane_pair_t; [fl_idx] is ghost: the index of the local point, which the code
    does not store.  A plane is a point (the centroid) and a normal vector. *)
Record PlanePatch : Type := mkPP { pp_centroid : P3; pp_normal : P3 }.
Record LnPair : Type := mkLnP { ln_local : P3; ln_base : P3; ln_dir : P3; ln_idx : nat }.
Record PlPair : Type := mkPlP { pl_local : P3; pl_plane : PlanePatch; pl_idx : nat }.
Notation fpairings := (Pairings Pair LnPair PlPair unit unit Q).

Definition fadd_pt (out : fpairings) (p : Pair) : fpairings :=
  mkPairings (paired_pt2pt out ++ [p]) (paired_pt2ln out) (paired_pt2pl out)
    (paired_ln2ln out) (paired_pl2pl out) (point_weights out) (potential_pairings out).
Definition fadd_ln (out : fpairings) (p : LnPair) : fpairings :=
  mkPairings (paired_pt2pt out) (paired_pt2ln out ++ [p]) (paired_pt2pl out)
    (paired_ln2ln out) (paired_pl2pl out) (point_weights out) (potential_pairings out).
Definition fadd_pl (out : fpairings) (p : PlPair) : fpairings :=
  mkPairings (paired_pt2pt out) (paired_pt2ln out) (paired_pt2pl out ++ [p])
    (paired_ln2ln out) (paired_pl2pl out) (point_weights out) (potential_pairings out).
Definition fadd_potential (out : fpairings) (n : nat) : fpairings :=
  mkPairings (paired_pt2pt out) (paired_pt2ln out) (paired_pt2pl out)
    (paired_ln2ln out) (paired_pl2pl out) (point_weights out) (potential_pairings out + n).

(** ms.localPairedBitField.point_layers[localName].mark_as_set(localIdx) *)
Definition mark_local (ms : MatchState) (lname li : nat) : res MatchState :=
  let* lb := bits_mark (lb_get_or_default (ms_local ms) lname) li in
  Ok (mkMS (lb_set (ms_local ms) lname lb) (ms_global ms)).

Section OneLayer.
Variable fMax : Q.
Variable shuffle : list nat -> list nat.
Variable tf : P3 -> P3.
Variable b : BaseParams.

(** the test of Point2Plane.cpp:83-85, Point2Line.cpp:91-93, Adaptive.cpp:129-135 *)
Definition taken_local (ms : MatchState) (lname li : nat) : res bool :=
  if allowMatchAlreadyMatchedPoints b then Ok false else query (ms_local ms) lname li.

(** ** Matcher_Point2Plane.cpp *)
(** A map that implements NearestPlaneCapable: isEmpty(), boundingBox(), nn_search_pt2pl() *)
Record NPMap : Type := mkNP {
  np_empty : bool; np_bbox : P3 * P3; np_search : P3 -> Q -> option PlanePatch * Q }.

(** lines 79-111 *)
Fixpoint p2pl_loop (distanceThreshold : Q) (np : NPMap) (lpts : list P3) (tl : TransformedLocal) (lname : nat)
  (is : list nat) (s : MatchState * fpairings) : res (MatchState * fpairings) :=
  match is with
  | [] => Ok s
  | i :: rest =>
    let '(ms, out) := s in
    let* localIdx := local_index tl i in
    let* taken := taken_local ms lname localIdx in
    if taken then p2pl_loop distanceThreshold np lpts tl lname rest s
    else match nth_error (tl_pts tl) i with
    | None => UB
    | Some q =>
      match np_search np q distanceThreshold with
      | (None, _) => p2pl_loop distanceThreshold np lpts tl lname rest s
      | (Some pl, d) =>
        if Qltb distanceThreshold d then p2pl_loop distanceThreshold np lpts tl lname rest s
        else match nth_error lpts localIdx with
        | None => UB
        | Some lp =>
          let* ms' := mark_local ms lname localIdx in
          p2pl_loop distanceThreshold np lpts tl lname rest (ms', fadd_pl out (mkPlP lp pl localIdx))
        end
      end
    end
  end.

(** lines 41-114; [None] is a map without the interface *)
Definition p2pl_one_layer (distanceThreshold : Q) (gl : option NPMap) (lpts : list P3) (lname : nat)
  (ms : MatchState) (out : fpairings) : res (MatchState * fpairings) :=
  match gl with
  | None => Throw
  | Some np =>
    let out := fadd_potential out (length lpts) in
    if np_empty np || isNil lpts then Ok (ms, out)
    else
      let* tl := transform_local_to_global fMax shuffle tf lpts (maxLocalPointsPerLayer b) in
      if negb (bb_intersects (np_bbox np) (tl_min tl, tl_max tl) (distanceThreshold + bbox_epsilon b))
      then Ok (ms, out)
      else p2pl_loop distanceThreshold np lpts tl lname (seq 0 (length (tl_pts tl))) (ms, out)
  end.

(** ** Matcher_Point2Line.cpp *)
Variable unitarize : P3 -> P3.

(** lines 109-127: how many of the neighbours are kept, given their squared distances *)
Fixpoint first_beyond (maxSqr : Q) (ds : list Q) : nat :=
  match ds with
  | [] => 0
  | d :: r => if Qltb maxSqr d then 0 else S (first_beyond maxSqr r)
  end.
Definition kept_neighbours (maxSqr : Q) (ds : list Q) : nat :=
  match rev ds with
  | last :: _ => if Qltb last maxSqr then length ds else first_beyond maxSqr ds
  | [] => first_beyond maxSqr ds
  end.

Record LineParams : Type := mkLine {
  l_distanceThreshold : Q; l_knn : nat; l_minimumLinePoints : nat; l_lineEigenThreshold : Q }.

(** Matcher_Point2Line.cpp 36-45 initialize(): what is required of the parameters *)
Definition p2ln_accepted (c : LineParams) : bool := Nat.leb 2 (l_minimumLinePoints c).

(** lines 87-160.  All the neighbours found are used for the fit (kddPts is not trimmed, lines 122-123, 132-135). *)
Fixpoint p2ln_loop (c : LineParams) (nn : NNMap) (lpts : list P3) (tl : TransformedLocal) (lname : nat)
  (is : list nat) (s : MatchState * fpairings) : res (MatchState * fpairings) :=
  match is with
  | [] => Ok s
  | i :: rest =>
    let '(ms, out) := s in
    let* localIdx := local_index tl i in
    let* taken := taken_local ms lname localIdx in
    if taken then p2ln_loop c nn lpts tl lname rest s
    else match nth_error (tl_pts tl) i with
    | None => UB
    | Some q =>
      let ns := nn_search nn q (l_knn c) in
      let n := kept_neighbours (qsq (l_distanceThreshold c)) (map snd ns) in
      if Nat.ltb n (l_minimumLinePoints c) then p2ln_loop c nn lpts tl lname rest s
      else
        let* eig := estimate_total (map (fun x => snd (fst x)) ns) (length ns) in
        let sp := eg_spec eig in
        if Qltb (l_lineEigenThreshold c * val2 sp) (val0 sp) then p2ln_loop c nn lpts tl lname rest s
        else if Qltb (l_lineEigenThreshold c * val2 sp) (val1 sp) then p2ln_loop c nn lpts tl lname rest s
        else match nth_error lpts localIdx with
        | None => UB
        | Some lp =>
          let* ms' := mark_local ms lname localIdx in
          p2ln_loop c nn lpts tl lname rest
            (ms', fadd_ln out (mkLnP lp (eg_mean eig) (unitarize (vec2 sp)) localIdx))
        end
    end
  end.

(** lines 46-163 *)
Definition p2ln_one_layer (c : LineParams) (gl : Layer) (lpts : list P3) (lname : nat)
  (ms : MatchState) (out : fpairings) : res (MatchState * fpairings) :=
  match ly_nn gl with
  | None => Throw
  | Some nn =>
    let out := fadd_potential out (length lpts) in
    if isNil (nn_points nn) || isNil lpts then Ok (ms, out)
    else
      let* tl := transform_local_to_global fMax shuffle tf lpts (maxLocalPointsPerLayer b) in
      if negb (bb_intersects (nn_bbox nn) (tl_min tl, tl_max tl) (l_distanceThreshold c + bbox_epsilon b))
      then Ok (ms, out)
      else p2ln_loop c nn lpts tl lname (seq 0 (length (tl_pts tl))) (ms, out)
  end.

(** ** Matcher_Adaptive.cpp *)
Record AdParams : Type := mkAd {
  a_firstToSecondDistanceMax : Q; a_absoluteMaxSearchDistance : Q;
  a_enableDetectPlanes : bool; a_maxPt2PtCorrespondences : nat; a_planeSearchPoints : nat;
  a_planeMinimumFoundPoints : nat; a_planeMinimumDistance : Q; a_planeEigenThreshold : Q;
  a_minimumCorrDist : Q }.
(** Matcher_Adaptive.cpp 50-56 initialize(): what is required of these parameters *)
Definition ad_accepted (c : AdParams) : bool :=
  Nat.leb (a_planeMinimumFoundPoints c) (a_planeSearchPoints c)
  && Nat.leb 3 (a_planeMinimumFoundPoints c) && Qltb 0 (a_planeEigenThreshold c).
(** Matcher_Adaptive.h 84: MAX_CORRS_PER_LOCAL *)
Definition MAX_CORRS_PER_LOCAL : nat := 10.

(** nn_radius_search(q, maxDistSqr, ..., maxPoints) *)
Variable radius_search : NNMap -> P3 -> Q -> nat -> list (nat * P3 * Q).
(** The histogram over [min, max] of the given errors, and the upper end of its confidence
    interval (lines 191-203; mrpt). *)
Variable ci_high : Q -> Q -> list Q -> res Q.
(** TPlane::distance *)
Variable plane_distance : PlanePatch -> P3 -> Q.

Section Adaptive.
Variable c : AdParams.

(** lines 106-120 lambdaAddPair *)
Definition ad_add_pair (lpts : list P3) (gname lname localIdx : nat) (gpt : P3) (gi : nat) (err : Q)
  (m : list (list Pair)) : res (list (list Pair)) :=
  match nth_error m localIdx with
  | None => Throw                                                   (* std::vector::at *)
  | Some ps =>
    if Nat.leb MAX_CORRS_PER_LOCAL (length ps) then Ok m
    else match nth_error lpts localIdx with
    | None => UB
    | Some lp => Ok (upd m localIdx (ps ++ [mkPair gi localIdx gpt lp err gname lname]))
    end
  end.

(** lines 122-123, 141-162 *)
Definition ad_max_points : nat :=
  if a_enableDetectPlanes c then a_planeSearchPoints c else a_maxPt2PtCorrespondences c.
Definition ad_search (nn : NNMap) (q : P3) : list (nat * P3 * Q) :=
  if Nat.eqb ad_max_points 1 then firstn 1 (nn_search nn q 1)
  else radius_search nn q (qsq (a_absoluteMaxSearchDistance c)) ad_max_points.

(** lines 170-184: limits of the histogram *)
Definition ad_limits (k : nat) (err : Q) (h : option (Q * Q)) : option (Q * Q) :=
  if Nat.leb k 1 then
    match h with
    | Some (lo, hi) => Some (kmin lo err, kmax hi err)
    | None => Some (err, err)
    end
  else h.

(** lines 164-187, from neighbour number k on *)
Fixpoint ad_neighbours (lpts : list P3) (gname lname localIdx k : nat) (ns : list (nat * P3 * Q))
  (s : list (list Pair) * option (Q * Q)) : res (list (list Pair) * option (Q * Q)) :=
  match ns with
  | [] => Ok s
  | (gi, gpt, err) :: rest =>
    if Qltb (qsq (a_absoluteMaxSearchDistance c)) err then ad_neighbours lpts gname lname localIdx (S k) rest s
    else
      let* m' := ad_add_pair lpts gname lname localIdx gpt gi err (fst s) in
      ad_neighbours lpts gname lname localIdx (S k) rest (m', ad_limits k err (snd s))
  end.

(** lines 125-189 *)
Fixpoint ad_search_loop (nn : NNMap) (lpts : list P3) (tl : TransformedLocal) (gname lname : nat) (ms : MatchState)
  (is : list nat) (s : list (list Pair) * option (Q * Q)) : res (list (list Pair) * option (Q * Q)) :=
  match is with
  | [] => Ok s
  | i :: rest =>
    let* localIdx := local_index tl i in
    let* taken := taken_local ms lname localIdx in
    if taken then ad_search_loop nn lpts tl gname lname ms rest s
    else match nth_error (tl_pts tl) i with
    | None => UB
    | Some q =>
      let* s' := ad_neighbours lpts gname lname localIdx 0 (ad_search nn q) s in
      ad_search_loop nn lpts tl gname lname ms rest s'
    end
  end.

(** lines 225-253: the plane of the neighbours of one local point, if accepted.  The distance of line
    251 is that of the local point as it is in the local map. *)
Definition ad_plane (mspl : list Pair) : res (option PlanePatch) :=
  if a_enableDetectPlanes c && Nat.leb (a_planeMinimumFoundPoints c) (length mspl) then
    let* eig := estimate_total (map p_global mspl) (length mspl) in
    let sp := eg_spec eig in
    if Qltb (val0 sp) (a_planeEigenThreshold c * val2 sp) && Qltb (val0 sp) (a_planeEigenThreshold c * val1 sp)
    then
      let pl := mkPP (eg_mean eig) (vec0 sp) in
      match mspl with
      | [] => Throw                                                 (* mspl.at(0) *)
      | p0 :: _ => Ok (if Qltb (Qabs.Qabs (plane_distance pl (p_local p0))) (a_planeMinimumDistance c)
                       then Some pl else None)
      end
    else Ok None
  else Ok None.

(** lines 273-300, from number i on; [e0] is the error of the first one *)
Fixpoint ad_points (maxCorrDistSqr : Q) (e0 : Q) (gname lname i : nat) (ps : list Pair) (s : MatchState * fpairings)
  : res (MatchState * fpairings) :=
  match ps with
  | [] => Ok s
  | p :: rest =>
    let '(ms, out) := s in
    let* taken := if allowMatchAlreadyMatchedGlobalPoints b then Ok false
                  else query (ms_global ms) gname (p_globalIdx p) in
    if taken then ad_points maxCorrDistSqr e0 gname lname (S i) rest s
    else if Qle_bool maxCorrDistSqr (p_err p) then ad_points maxCorrDistSqr e0 gname lname (S i) rest s
    else if negb (Nat.eqb i 0) && Qltb (e0 * qsq (a_firstToSecondDistanceMax c)) (p_err p) then Ok s
    else
      let out' := fadd_pt out p in
      let* ms' := if allowMatchAlreadyMatchedGlobalPoints b then Ok ms
                  else mark_local ms lname (p_localIdx p) in
      ad_points maxCorrDistSqr e0 gname lname (S i) rest (ms', out')
  end.

(** lines 223-301 *)
Fixpoint ad_emit (maxCorrDistSqr : Q) (lpts : list P3) (gname lname : nat) (m : list (list Pair))
  (s : MatchState * fpairings) : res (MatchState * fpairings) :=
  match m with
  | [] => Ok s
  | mspl :: rest =>
    let* pl := ad_plane mspl in
    match pl, mspl with
    | Some pl, p0 :: _ =>
      match nth_error lpts (p_localIdx p0) with
      | None => UB
      | Some lp =>
        let* ms' := mark_local (fst s) lname (p_localIdx p0) in
        ad_emit maxCorrDistSqr lpts gname lname rest (ms', fadd_pl (snd s) (mkPlP lp pl (p_localIdx p0)))
      end
    | _, [] => ad_emit maxCorrDistSqr lpts gname lname rest s
    | None, p0 :: _ =>
      let* s' := ad_points maxCorrDistSqr (p_err p0) gname lname 0 (firstn (a_maxPt2PtCorrespondences c) mspl) s in
      ad_emit maxCorrDistSqr lpts gname lname rest s'
    end
  end.

(** lines 59-314; line 218: std::max(square(minimumCorrDist), ci_high) *)
Definition ad_one_layer (gl : Layer) (lpts : list P3) (gname lname : nat)
  (ms : MatchState) (out : fpairings) : res (MatchState * fpairings) :=
  match ly_nn gl with
  | None => Throw
  | Some nn =>
    let out := fadd_potential out (length lpts * a_maxPt2PtCorrespondences c) in
    if isNil (nn_points nn) || isNil lpts then Ok (ms, out)
    else
      let* tl := transform_local_to_global fMax shuffle tf lpts (maxLocalPointsPerLayer b) in
      if negb (bb_intersects (nn_bbox nn) (tl_min tl, tl_max tl) (bbox_epsilon b))
      then Ok (ms, out)
      else
        let n := length (tl_pts tl) in
        let* mh := ad_search_loop nn lpts tl gname lname ms (seq 0 n) (repeat [] n, None) in
        match snd mh with
        | None => UB                                     (* line 193: empty optionals dereferenced *)
        | Some (lo, hi) =>
          let* ci := ci_high lo hi (flat_map (fun ps => map p_err (firstn 2 ps)) (fst mh)) in
          let maxCorr := if Qltb (qsq (a_minimumCorrDist c)) ci then ci else qsq (a_minimumCorrDist c) in
          ad_emit maxCorr lpts gname lname (fst mh) (ms, out)
        end
  end.
End Adaptive.
End OneLayer.
End Feat.
