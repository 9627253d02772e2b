(** Specification vocabulary for the feature matchers. *)
From Verif Require Import Base PairingsModel BitfieldModel PointMatcherModel PointMatcherSpec FeatModel.

(** The indices of the local points that take part: all, or those sampled. *)
Definition participating (sh : list nat -> list nat) (mx : nat) (lpts : list P3) : list nat :=
  if Nat.eqb mx 0 || Nat.leb (length lpts) mx then seq 0 (length lpts) else sh (seq 0 mx).

(** The point was paired before and must be skipped. *)
Definition excluded (b : BaseParams) (ms : MatchState) (lname li : nat) : bool :=
  negb (allowMatchAlreadyMatchedPoints b)
  && match query (ms_local ms) lname li with Ok true => true | _ => false end.

(** The local points (index, point) that take part and are not excluded. *)
Definition candidates (sh : list nat -> list nat) (b : BaseParams) (ms : MatchState) (lname : nat) (lpts : list P3)
  : list (nat * P3) :=
  flat_map (fun li => match nth_error lpts li with
                      | Some lp => if excluded b ms lname li then [] else [(li, lp)]
                      | None => [] end)
    (participating sh (maxLocalPointsPerLayer b) lpts).

(** The plane accepted for a point seen at [q]: the one found, unless farther than the threshold. *)
Definition plane_for (thr : Q) (np : NPMap) (q : P3) : option PlanePatch :=
  match np_search np q thr with
  | (Some pl, d) => if Qle_bool d thr then Some pl else None
  | (None, _) => None
  end.

(** The line accepted for a point seen at [q]: fitted to its [knn] nearest points, if enough of them are near and
    the two smaller eigenvalues are small. *)
Definition near_count (thr : Q) (ns : list (nat * P3 * Q)) : nat :=
  length (filter (fun x => Qle_bool (snd x) (thr * thr)) ns).
Definition line_for (eig_symmetric : Sym3 -> Spec3) (unitarize : P3 -> P3) (c : LineParams) (nn : NNMap) (q : P3)
  : option (P3 * P3) :=
  let ns := nn_search nn q (l_knn c) in
  if Nat.leb (l_minimumLinePoints c) (near_count (l_distanceThreshold c) ns) then
    let e := eigen_of eig_symmetric (map (fun x => snd (fst x)) ns) in
    let sp := eg_spec e in
    if Qle_bool (val0 sp) (l_lineEigenThreshold c * val2 sp) && Qle_bool (val1 sp) (l_lineEigenThreshold c * val2 sp)
    then Some (eg_mean e, unitarize (vec2 sp)) else None
  else None.

(** Local marks after a call: those from before and the given indices of layer [lname]. *)
Definition marks_added (ms ms' : MatchState) (lname : nat) (lis : list nat) : Prop :=
  ms_global ms' = ms_global ms
  /\ forall k, marked (ms_local ms') k <-> marked (ms_local ms) k \/ (fst k = lname /\ In (snd k) lis).

(** All the points are farther than [eps] from the box, on the same side along one axis. *)
Definition away (bb : P3 * P3) (eps : Q) (pts : list P3) : Prop :=
  exists f, (f = px \/ f = py \/ f = pz)
  /\ ((forall p, In p pts -> f (snd bb) + eps < f p)%Q \/ (forall p, In p pts -> f p < f (fst bb) - eps)%Q).

(** The transformed points that take part. *)
Definition moved (sh : list nat -> list nat) (tf : P3 -> P3) (b : BaseParams) (lpts : list P3) : list P3 :=
  flat_map (fun li => match nth_error lpts li with Some lp => [tf lp] | None => [] end)
    (participating sh (maxLocalPointsPerLayer b) lpts).

(** The match state has room for the points of the local layer. *)
Definition has_room (ms : MatchState) (lname : nat) (lpts : list P3) : Prop :=
  exists bf, lb_find (ms_local ms) lname = Some bf /\ forall v, dense_ bf = Some v -> length lpts <= length v.
