(** C145, C149, C150: where the feature and adaptive matchers keep the refuted properties. *)
From Verif Require Import Base PairingsModel BitfieldModel BitfieldProofs PointMatcherModel PointMatcherSpec PointMatcherProofs
  FeatModel FeatSpec FeatProofs FeatProps AdMatchSpec AdMatchProofs AdMatchProps BruteNN.
From Coq Require Import Lqa Permutation.

(** ** C145: if all the neighbours asked for are required to be near, the line is fitted to near
    points only. *)
Theorem C145_line_of_near_points_where :
  forall eig_symmetric unitarize fMax sh tf b c gl nn lpts lname ms out ms' out',
  (forall l, Permutation (sh l) l) -> ly_nn gl = Some nn -> nn_correct nn ->
  l_knn c <= l_minimumLinePoints c ->
  p2ln_one_layer eig_symmetric fMax sh tf b unitarize c gl lpts lname ms out = Ok (ms', out') ->
  forall p, In p (paired_pt2ln out') -> ~ In p (paired_pt2ln out) ->
  exists near, (forall g, In g near -> In g (nn_points nn)
                  /\ (sqd (tf (ln_local p)) g <= l_distanceThreshold c * l_distanceThreshold c)%Q)
    /\ ln_base p = eg_mean (eigen_of eig_symmetric near).
Proof.
  intros * HS En HN HK H p Hp Hn.
  destruct (C144_point_to_line_exact _ _ _ _ _ _ _ _ _ _ _ _ _ _ _ HS En HN H) as [new [E [_ [_ [_ [_ [_ [_ [_ D]]]]]]]]].
  rewrite E in Hp. apply in_app_iff in Hp as [Hp|Hp]; [contradiction|].
  destruct D as [-> |[-> _]]; [|destruct Hp]. apply in_flat_map in Hp as [[li lp] [_ Hp]]. cbn [fst snd] in Hp.
  destruct (line_for eig_symmetric unitarize c nn (tf lp)) as [[base dir]|] eqn:EL; [|destruct Hp].
  destruct Hp as [<-|[]]. cbn [ln_local ln_base]. unfold line_for in EL.
  destruct (Nat.leb_spec (l_minimumLinePoints c) (near_count (l_distanceThreshold c) (nn_search nn (tf lp) (l_knn c)))) as [L|L]; [|discriminate].
  destruct (Qle_bool _ _ && Qle_bool _ _); [|discriminate]. injection EL as <- _.
  destruct (HN (tf lp) (l_knn c)) as [N1 [_ [N3 _]]].
  exists (map (fun x => snd (fst x)) (nn_search nn (tf lp) (l_knn c))). split; [|reflexivity].
  intros g Hg. apply in_map_iff in Hg as [[[i g'] d] [<- Hin]]. cbn [fst snd]. destruct (N1 _ _ _ Hin) as [Y1 Y2].
  split; [eapply nth_error_In; exact Y1|]. rewrite <- Y2.
  assert (FA : forall (f : nat * P3 * Q -> bool) l, length l <= length (filter f l) -> forall x, In x l -> f x = true).
  { intros f l. induction l as [|y l IH]; intros HL x Hx; [destruct Hx|]. cbn in HL.
    assert (FL : length (filter f l) <= length l) by (clear; induction l as [|z l IH]; cbn; [lia|destruct (f z); cbn; lia]).
    destruct (f y) eqn:Ey; [|lia]. destruct Hx as [<-|Hx]; [exact Ey|]. apply IH; [cbn in HL; lia|exact Hx]. }
  assert (X := FA (fun x => Qle_bool (snd x) (l_distanceThreshold c * l_distanceThreshold c)) (nn_search nn (tf lp) (l_knn c))).
  unfold near_count in L. specialize (X ltac:(lia) _ Hin). cbn [snd] in X. apply Qle_bool_iff in X. exact X.
Qed.
Print Assumptions C145_line_of_near_points_where.

Lemma ad_new eig_symmetric fMax sh tf b radius_search ci_high plane_distance c gl nn lpts gname lname ms out ms' out' :
  (forall l, Permutation (sh l) l) -> ly_nn gl = Some nn -> nn_correct nn -> radius_correct radius_search nn ->
  has_room ms lname lpts -> has_global_room b ms gname nn -> ad_accepted c = true ->
  ad_one_layer eig_symmetric fMax sh tf b radius_search ci_high plane_distance c gl lpts gname lname ms out = Ok (ms', out') ->
  exists found maxSqr npt npl, paired_pt2pt out' = paired_pt2pt out ++ npt /\ paired_pt2pl out' = paired_pt2pl out ++ npl
    /\ incl npl (planes_of eig_symmetric plane_distance c found)
    /\ incl npt (points_of eig_symmetric plane_distance b c gname maxSqr ms found)
    /\ (found = [] \/ found_for sh tf b c nn gname lname ms lpts found).
Proof.
  intros HS En HN HRS HR HGR HA H.
  pose proof (C147_adaptive_exact eig_symmetric fMax sh tf b radius_search ci_high plane_distance c gl nn lpts gname lname ms out
    HS En HN HRS HR HGR HA) as X. rewrite H in X.
  destruct X as (npt & npl & E1 & E2 & _ & _ & _ & _ & _ & _ & _ & [(Z1 & Z2 & _)|(found & lo & hi & ci & F & _ & _ & P1 & P2)]).
  - subst. exists [], 0%Q, [], []. split; [exact E1|]. split; [exact E2|]. split; [intros ? []|]. split; [intros ? []|]. left. reflexivity.
  - exists found, (larger (a_minimumCorrDist c * a_minimumCorrDist c) ci), npt, npl. split; [exact E1|]. split; [exact E2|].
    split; [rewrite <- P1; apply incl_refl|]. split; [rewrite <- P2; apply incl_refl|]. right. exact F.
Qed.

(** ** C150: the accepted plane is near the point as it is in the local map; so near the point in
    the global frame wherever the pose does not change its distance to that plane. *)
Theorem C150_plane_distance_where :
  forall eig_symmetric fMax sh tf b radius_search ci_high plane_distance c gl nn lpts gname lname ms out ms' out',
  (forall l, Permutation (sh l) l) -> ly_nn gl = Some nn -> nn_correct nn -> radius_correct radius_search nn ->
  has_room ms lname lpts -> has_global_room b ms gname nn -> ad_accepted c = true ->
  ad_one_layer eig_symmetric fMax sh tf b radius_search ci_high plane_distance c gl lpts gname lname ms out = Ok (ms', out') ->
  forall p, In p (paired_pt2pl out') -> ~ In p (paired_pt2pl out) ->
    (Qabs.Qabs (plane_distance (pl_plane p) (pl_local p)) < a_planeMinimumDistance c)%Q
    /\ ((Qabs.Qabs (plane_distance (pl_plane p) (tf (pl_local p))) == Qabs.Qabs (plane_distance (pl_plane p) (pl_local p)))%Q ->
        (Qabs.Qabs (plane_distance (pl_plane p) (tf (pl_local p))) < a_planeMinimumDistance c)%Q).
Proof.
  intros * HS En HN HRS HR HGR HA H p Hp Hn.
  destruct (ad_new _ _ _ _ _ _ _ _ _ _ _ _ _ _ _ _ _ _ HS En HN HRS HR HGR HA H) as (found & ms0 & npt & npl & _ & E & I & _ & _).
  rewrite E in Hp. apply in_app_iff in Hp as [Hp|Hp]; [contradiction|]. apply I in Hp.
  unfold planes_of in Hp. apply in_flat_map in Hp as [ps [_ Hp]].
  destruct (flat_patch eig_symmetric plane_distance c ps) as [pl|] eqn:EF; [|destruct Hp].
  destruct ps as [|p0 ps]; [destruct Hp|]. destruct Hp as [<-|[]]. cbn [pl_plane pl_local].
  cbn [flat_patch] in EF.
  match type of EF with (if ?a && negb ?d then _ else _) = _ => destruct a; cbn [andb] in EF; [|discriminate]; destruct d eqn:ED; cbn [negb] in EF; [discriminate|] end.
  injection EF as <-.
  assert (L : (Qabs.Qabs (plane_distance (mkPP (eg_mean (eigen_of eig_symmetric (map p_global (p0 :: ps))))
      (vec0 (eg_spec (eigen_of eig_symmetric (map p_global (p0 :: ps)))))) (p_local p0)) < a_planeMinimumDistance c)%Q).
  { apply Qnot_le_lt. intro X. apply Qle_bool_iff in X. congruence. }
  split; [exact L|]. intro X. rewrite X. exact L.
Qed.
Print Assumptions C150_plane_distance_where.

(** ** C149: a global point marked before the call is not taken; and one local point does not take
    a global point twice. *)
Theorem C149_marked_before_where :
  forall eig_symmetric fMax sh tf b radius_search ci_high plane_distance c gl nn lpts gname lname ms out ms' out',
  (forall l, Permutation (sh l) l) -> ly_nn gl = Some nn -> nn_correct nn -> radius_correct radius_search nn ->
  has_room ms lname lpts -> has_global_room b ms gname nn -> ad_accepted c = true ->
  allowMatchAlreadyMatchedGlobalPoints b = false ->
  ad_one_layer eig_symmetric fMax sh tf b radius_search ci_high plane_distance c gl lpts gname lname ms out = Ok (ms', out') ->
  forall p, In p (paired_pt2pt out') -> ~ In p (paired_pt2pt out) -> ~ marked (ms_global ms) (gname, p_globalIdx p).
Proof.
  intros * HS En HN HRS HR HGR HA HG H p Hp Hn HM.
  destruct (ad_new _ _ _ _ _ _ _ _ _ _ _ _ _ _ _ _ _ _ HS En HN HRS HR HGR HA H) as (found & ms0 & npt & npl & E & _ & _ & I & _).
  rewrite E in Hp. apply in_app_iff in Hp as [Hp|Hp]; [contradiction|]. apply I in Hp.
  unfold points_of in Hp. apply in_flat_map in Hp as [ps [_ Hp]].
  destruct (flat_patch eig_symmetric plane_distance c ps); [destruct Hp|].
  assert (X : gexcluded b ms gname (p_globalIdx p) = true).
  { unfold gexcluded. rewrite HG. unfold marked in HM. cbn [fst snd] in HM. rewrite HM. reflexivity. }
  unfold kept_pairs in Hp. destruct (firstn (a_maxPt2PtCorrespondences c) ps) as [|p0 r]; [destruct Hp|].
  apply in_app_iff in Hp as [Hp|Hp]; apply filter_In in Hp as [_ Hp].
  - rewrite X in Hp. discriminate.
  - rewrite X in Hp. discriminate.
Qed.
Print Assumptions C149_marked_before_where.

(** ** A concrete case: three neighbours asked for and required; the line is that of three near
    points. *)
Example C145_where_case : exists ms' out' p,
  p2ln_one_layer ex_eig 1000 (fun l => l) (fun p => p) ex_base (fun v => v) (mkLine 2 3 3 (1#10)) ex_gl [mkP3 1 0 0] 0 (ex_ms 1) ex_out
    = Ok (ms', out') /\ paired_pt2ln out' = [p] /\ l_knn (mkLine 2 3 3 (1#10)) <= l_minimumLinePoints (mkLine 2 3 3 (1#10)).
Proof. eexists _, _, _. split; [vm_compute; reflexivity|]. split; [reflexivity|]. cbn. lia. Qed.
