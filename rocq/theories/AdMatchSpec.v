(** Specification vocabulary for the adaptive matcher. *)
From Verif Require Import Base PairingsModel BitfieldModel PointMatcherModel PointMatcherSpec FeatModel FeatSpec.

(** The radius search is correct: distinct genuine points within the distance, nearest first, and if there are
    more than asked for, the nearest ones.  Asking for zero is asking for all. *)
Definition radius_correct (radius_search : NNMap -> P3 -> Q -> nat -> list (nat * P3 * Q)) (nn : NNMap) : Prop :=
  forall q m k, let r := radius_search nn q m k in
  (forall i g d, In (i, g, d) r -> nth_error (nn_points nn) i = Some g /\ (d == sqd q g)%Q /\ (d <= m)%Q)
  /\ NoDup (map (fun x => fst (fst x)) r)
  /\ (k <> 0 -> length r <= k)
  /\ (forall a i g d b j h e c, r = a ++ (i, g, d) :: b ++ (j, h, e) :: c -> (d <= e)%Q)
  /\ (forall j h, nth_error (nn_points nn) j = Some h -> (sqd q h <= m)%Q ->
        (exists d, In (j, h, d) r)
        \/ (k <> 0 /\ length r = k /\ forall i g d, In (i, g, d) r -> (d <= sqd q h)%Q)).

(** [ps] are pairings of the local point number [li], at [lp] in the local map and seen at [q], with its [k] nearest
    global points within the (squared) distance [m], nearest first. *)
Definition nearest_pairs (nn : NNMap) (gname lname li : nat) (lp q : P3) (m : Q) (k : nat) (ps : list Pair) : Prop :=
  (forall p, In p ps -> p_localIdx p = li /\ p_local p = lp /\ p_glayer p = gname /\ p_llayer p = lname
     /\ nth_error (nn_points nn) (p_globalIdx p) = Some (p_global p)
     /\ (p_err p == sqd q (p_global p))%Q /\ (p_err p <= m)%Q)
  /\ NoDup (map p_globalIdx ps)
  /\ length ps <= k
  /\ (forall a p b p' c, ps = a ++ p :: b ++ p' :: c -> (p_err p <= p_err p')%Q)
  /\ (forall j h, nth_error (nn_points nn) j = Some h -> (sqd q h <= m)%Q ->
        (exists p, In p ps /\ p_globalIdx p = j)
        \/ (length ps = k /\ forall p, In p ps -> (p_err p <= sqd q h)%Q)).

(** How many neighbours of a local point are looked at: at most ten. *)
Definition looked_at (c : AdParams) : nat :=
  match (if a_enableDetectPlanes c then a_planeSearchPoints c else a_maxPt2PtCorrespondences c) with
  | 0 => 10
  | k => Nat.min 10 k
  end.

(** What is found for each local point: nothing for those that do not take part, else its nearest ones in range. *)
Definition found_for (sh : list nat -> list nat) (tf : P3 -> P3) (b : BaseParams) (c : AdParams) (nn : NNMap)
  (gname lname : nat) (ms : MatchState) (lpts : list P3) (found : list (list Pair)) : Prop :=
  length found = length (participating sh (maxLocalPointsPerLayer b) lpts)
  /\ forall li ps, nth_error found li = Some ps ->
     exists lp, nth_error lpts li = Some lp
     /\ if excluded b ms lname li then ps = []
        else nearest_pairs nn gname lname li lp (tf lp)
               (a_absoluteMaxSearchDistance c * a_absoluteMaxSearchDistance c) (looked_at c) ps.

(** The plane of the neighbours of a local point, if there are enough, they are flat enough, and it is near the
    coordinates of the local point in the local map. *)
Definition flat_patch (eig_symmetric : Sym3 -> Spec3) (plane_distance : PlanePatch -> P3 -> Q) (c : AdParams)
  (ps : list Pair) : option PlanePatch :=
  match ps with
  | [] => None
  | p0 :: _ =>
    let e := eigen_of eig_symmetric (map p_global ps) in
    let sp := eg_spec e in
    let pl := mkPP (eg_mean e) (vec0 sp) in
    if a_enableDetectPlanes c && Nat.leb (a_planeMinimumFoundPoints c) (length ps)
       && negb (Qle_bool (a_planeEigenThreshold c * val2 sp) (val0 sp))
       && negb (Qle_bool (a_planeEigenThreshold c * val1 sp) (val0 sp))
       && negb (Qle_bool (a_planeMinimumDistance c) (Qabs.Qabs (plane_distance pl (p_local p0))))
    then Some pl else None
  end.

(** The global point was paired before and must be skipped. *)
Definition gexcluded (b : BaseParams) (ms : MatchState) (gname gi : nat) : bool :=
  negb (allowMatchAlreadyMatchedGlobalPoints b)
  && match query (ms_global ms) gname gi with Ok true => true | _ => false end.

(** The point-to-point pairings of a local point: among its first ones, those not excluded, nearer than the adaptive
    threshold and, but for the first, whose squared error is within the ratio of that of the first. *)
Definition kept_pairs (b : BaseParams) (c : AdParams) (ms : MatchState) (gname : nat) (maxSqr : Q) (ps : list Pair) : list Pair :=
  let ok p := negb (gexcluded b ms gname (p_globalIdx p)) && negb (Qle_bool maxSqr (p_err p)) in
  match firstn (a_maxPt2PtCorrespondences c) ps with
  | [] => []
  | p0 :: r => filter ok [p0]
      ++ filter (fun p => ok p && Qle_bool (p_err p) (p_err p0 * (a_firstToSecondDistanceMax c * a_firstToSecondDistanceMax c))) r
  end.

(** The errors of the two nearest ones of every local point. *)
Definition errors12 (found : list (list Pair)) : list Q := flat_map (fun ps => map p_err (firstn 2 ps)) found.

(** The global match state has room for the points of the global layer. *)
Definition has_global_room (b : BaseParams) (ms : MatchState) (gname : nat) (nn : NNMap) : Prop :=
  exists bf, lb_find (ms_global ms) gname = Some bf
    /\ forall v, dense_ bf = Some v -> length (nn_points nn) <= length v.

Definition extremes (lo hi : Q) (es : list Q) : Prop :=
  In lo es /\ In hi es /\ forall e, In e es -> (lo <= e <= hi)%Q.

(** The planes and the points of all that was found: for each local point its plane or, failing that, its points. *)
Definition planes_of (eig_symmetric : Sym3 -> Spec3) (plane_distance : PlanePatch -> P3 -> Q) (c : AdParams)
  (found : list (list Pair)) : list PlPair :=
  flat_map (fun ps => match flat_patch eig_symmetric plane_distance c ps, ps with
                      | Some pl, p0 :: _ => [mkPlP (p_local p0) pl (p_localIdx p0)]
                      | _, _ => [] end) found.
Definition points_of (eig_symmetric : Sym3 -> Spec3) (plane_distance : PlanePatch -> P3 -> Q) (b : BaseParams)
  (c : AdParams) (gname : nat) (maxSqr : Q) (ms : MatchState) (found : list (list Pair)) : list Pair :=
  flat_map (fun ps => match flat_patch eig_symmetric plane_distance c ps with
                      | Some _ => []
                      | None => kept_pairs b c ms gname maxSqr ps end) found.
Definition larger (a b : Q) : Q := if Qle_bool b a then a else b.
