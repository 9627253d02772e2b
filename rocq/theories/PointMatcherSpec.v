(** Specification vocabulary for C07-C13, C54, C55. *)
From Verif Require Import Base PairingsModel MatcherModel BitfieldModel PointMatcherModel.

(** What a correct k-nearest-neighbours search returns: existing distinct points with
    their squared distances, at most k, nearest first, and nothing nearer is left out. *)
Definition nn_correct (nn : NNMap) : Prop :=
  forall q k, let r := nn_search nn q k in
  (forall i g d, In (i, g, d) r -> nth_error (nn_points nn) i = Some g /\ (d == sqd q g)%Q)
  /\ NoDup (map (fun x => fst (fst x)) r)
  /\ length r <= k
  /\ (forall a i g d b j h e c, r = a ++ (i, g, d) :: b ++ (j, h, e) :: c -> (d <= e)%Q)
  /\ (forall j h, nth_error (nn_points nn) j = Some h ->
        (exists d, In (j, h, d) r)
        \/ (length r = k /\ forall i g d, In (i, g, d) r -> (d <= sqd q h)%Q)).

(** The reported bounding box contains every point. *)
Definition inside (bb : P3 * P3) (p : P3) : Prop :=
  (px (fst bb) <= px p <= px (snd bb) /\ py (fst bb) <= py p <= py (snd bb)
   /\ pz (fst bb) <= pz p <= pz (snd bb))%Q.
Definition bbox_correct (nn : NNMap) : Prop := forall p, In p (nn_points nn) -> inside (nn_bbox nn) p.

Definition layers_correct (ls : Layers) : Prop :=
  forall k l nn, In (k, l) ls -> ly_nn l = Some nn -> nn_correct nn /\ bbox_correct nn.

(** Squared distance of a point to the origin. *)
Definition range_sq (p : P3) : Q := (px p * px p + py p * py p + pz p * pz p)%Q.

(** A pairing between existing points of the two maps, with their coordinates and error. *)
Definition genuine_pair (pcGlobal pcLocal : Layers) (tf : P3 -> P3) (p : Pair) : Prop :=
  (exists gl nn, In (p_glayer p, gl) pcGlobal /\ ly_nn gl = Some nn
                 /\ nth_error (nn_points nn) (p_globalIdx p) = Some (p_global p))
  /\ (exists ll lpts, find_layer pcLocal (p_llayer p) = Some ll /\ ly_points ll = Some lpts
                 /\ nth_error lpts (p_localIdx p) = Some (p_local p))
  /\ (p_err p == sqd (tf (p_local p)) (p_global p))%Q.

(** Identity of the global / local point of a pairing. *)
Definition gkey (p : Pair) : nat * nat := (p_glayer p, p_globalIdx p).
Definition lkey (p : Pair) : nat * nat := (p_llayer p, p_localIdx p).

(** The matcher marks the local points it pairs. *)
Definition marks_locals (m : PointMatcher) : Prop :=
  match m with DT b _ _ _ => allowMatchAlreadyMatchedGlobalPoints b = false | IR _ _ => True end.

(** The (global layer, local layer, weight) matches that the configuration asks for. *)
Definition configured_matches (b : BaseParams) (pcGlobal pcLocal : Layers)
  : list (nat * nat * option Q) :=
  match weight_pt2pt_layers b with
  | [] => flat_map (fun g => match find_layer pcLocal (fst g) with
                             | Some _ => [(fst g, fst g, None)] | None => [] end) pcGlobal
  | tbl => flat_map (fun g => match find_layer tbl (fst g) with
                             | Some ls => map (fun lw => (fst g, fst lw, Some (snd lw))) ls
                             | None => [] end) pcGlobal
  end.

(** The weight blocks of a list of blocks of pairings with their optional weights. *)
Definition blocks_weights (bs : list (list Pair * option Q)) : list (nat * Q) :=
  flat_map (fun bw => match bw with
                      | ([], _) => [] | (_, None) => []
                      | (l, Some w) => [(length l, w)] end) bs.

(** mrpt::round returns an integer at distance at most 1/2. *)
Definition rounds_to_nearest (mround : Q -> Z) : Prop :=
  forall x, (inject_Z (mround x) - (1#2) <= x <= inject_Z (mround x) + (1#2))%Q.

(** The point (layer, index) is marked as already paired. *)
Definition marked (m : LayerBits) (kv : nat * nat) : Prop := query m (fst kv) (snd kv) = Ok true.

(** In [out], the global point (g, j) is paired with the local point (l, li); or, when
    re-matching global points is forbidden, it is paired with some other point or was
    marked before the call. *)
Definition served (aG : bool) (ms : MatchState) (out : ptpairings) (g j l li : nat) : Prop :=
  (exists p, In p (paired_pt2pt out) /\ gkey p = (g, j) /\ lkey p = (l, li))
  \/ (aG = false /\ (marked (ms_global ms) (g, j)
                     \/ exists p, In p (paired_pt2pt out) /\ gkey p = (g, j))).

(** std::map: one entry per key. *)
Definition unique_names (ls : Layers) : Prop := NoDup (map fst ls).

(** The local indices that take part: all of them, or the sampled ones. *)
Definition used_locals (tl : TransformedLocal) : list nat :=
  match tl_idxs tl with None => seq 0 (length (tl_pts tl)) | Some is => is end.

(** Every layer that can be read as points can also be searched, over as many points (true of
    every mrpt point cloud, which is both). *)
Definition points_searchable (ls : Layers) : Prop :=
  forall l ll lpts, In (l, ll) ls -> ly_points ll = Some lpts ->
  exists ln, ly_nn ll = Some ln /\ length lpts = length (nn_points ln).

(** The distance-threshold matcher has no limit on the local points, or one that no layer
    reaches.  The inlier-ratio matcher may have any limit. *)
Definition no_effective_limit (pcLocal : Layers) (m : PointMatcher) : Prop :=
  match m with
  | DT b _ _ _ => maxLocalPointsPerLayer b = 0
      \/ forall l ll lpts, In (l, ll) pcLocal -> ly_points ll = Some lpts -> length lpts <= maxLocalPointsPerLayer b
  | IR _ _ => True
  end.
