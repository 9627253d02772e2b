(** Theorems about Matcher_Adaptive. *)
From Verif Require Import Base PairingsModel PairingsProofs MatcherModel BitfieldModel BitfieldProofs PointMatcherModel
  PointMatcherSpec PointMatcherProofs PointMatcherProofs2 PointMatcherProofs5 PointMatcherProofs7 BruteNN FeatModel FeatSpec
  FeatProofs AdMatchSpec AdMatchProofs.
From Coq Require Import Lqa Permutation.

(** ** C147: the adaptive matcher *)
(** Every local point that takes part gets its nearest global points in range; from them the plane they form, or the
    points that pass the adaptive threshold and the ratio to the nearest.  Exactly the paired local points are marked
    (those paired with points only if re-matching global points is forbidden).  It fails only if the statistics fail,
    or if no local point has a global point in range. *)
Theorem C147_adaptive_exact :
  forall eig_symmetric fMax sh tf b radius_search ci_high plane_distance c gl nn lpts gname lname ms out,
  (forall l, Permutation (sh l) l) -> ly_nn gl = Some nn -> nn_correct nn -> radius_correct radius_search nn ->
  has_room ms lname lpts -> has_global_room b ms gname nn -> ad_accepted c = true ->
  match ad_one_layer eig_symmetric fMax sh tf b radius_search ci_high plane_distance c gl lpts gname lname ms out with
  | Ok (ms', out') => exists npt npl,
      paired_pt2pt out' = paired_pt2pt out ++ npt /\ paired_pt2pl out' = paired_pt2pl out ++ npl
      /\ paired_pt2ln out' = paired_pt2ln out /\ paired_ln2ln out' = paired_ln2ln out
      /\ paired_pl2pl out' = paired_pl2pl out /\ point_weights out' = point_weights out
      /\ potential_pairings out' = potential_pairings out + length lpts * a_maxPt2PtCorrespondences c
      /\ marks_added ms ms' lname
           (map pl_idx npl ++ if allowMatchAlreadyMatchedGlobalPoints b then [] else map p_localIdx npt)
      /\ has_room ms' lname lpts
      /\ ((npt = [] /\ npl = []
           /\ (nn_points nn = [] \/ lpts = [] \/ away (nn_bbox nn) (bbox_epsilon b) (moved sh tf b lpts)))
          \/ exists found lo hi ci, found_for sh tf b c nn gname lname ms lpts found
             /\ extremes lo hi (errors12 found) /\ ci_high lo hi (errors12 found) = Ok ci
             /\ npl = planes_of eig_symmetric plane_distance c found
             /\ npt = points_of eig_symmetric plane_distance b c gname
                        (larger (a_minimumCorrDist c * a_minimumCorrDist c) ci) ms found)
  | Throw => exists lo hi es, ci_high lo hi es = Throw
  | UB => (exists lo hi es, ci_high lo hi es = UB)
      \/ exists found, found_for sh tf b c nn gname lname ms lpts found /\ Forall (fun ps => ps = []) found
  end.
Proof.
  intros * HS En HN HRS HR HGR HA.
  assert (H3 : 3 <= a_planeMinimumFoundPoints c).
  { unfold ad_accepted in HA. apply andb_true_iff in HA as [HA _]. apply andb_true_iff in HA as [_ HA]. apply Nat.leb_le in HA. exact HA. }
  unfold ad_one_layer. rewrite En.
  destruct (isNil (nn_points nn) || isNil lpts) eqn:Ee.
  { exists [], []. rewrite !app_nil_r. repeat (split; [reflexivity|]).
    split; [destruct (allowMatchAlreadyMatchedGlobalPoints b); apply marks_nil|]. split; [exact HR|]. left.
    split; [reflexivity|]. split; [reflexivity|]. apply orb_true_iff in Ee as [Ee|Ee].
    - left. destruct (nn_points nn); [reflexivity|discriminate].
    - right. left. destruct lpts; [reflexivity|discriminate]. }
  destruct (tl_participating fMax sh tf b lpts HS) as [tl [Et [L1 [L2 [L3 L4]]]]]. rewrite Et. cbn [rbind].
  destruct (bb_intersects (nn_bbox nn) (tl_min tl, tl_max tl) (bbox_epsilon b)) eqn:Eb; cbn [negb].
  2:{ exists [], []. rewrite !app_nil_r. repeat (split; [reflexivity|]).
      split; [destruct (allowMatchAlreadyMatchedGlobalPoints b); apply marks_nil|]. split; [exact HR|]. left.
      split; [reflexivity|]. split; [reflexivity|]. right. right.
      eapply bb_away; [exact Eb|]. eapply moved_tl; eassumption. }
  set (P := participating sh (maxLocalPointsPerLayer b) lpts) in *.
  assert (HPb : forall li, In li P <-> li < length P).
  { intro li. unfold P, participating. destruct (Nat.eqb _ 0 || Nat.leb _ _).
    - rewrite seq_length, in_seq. lia.
    - rewrite (Permutation_length (HS _)), seq_length. split; intro X.
      + apply (Permutation_in _ (HS _)) in X. apply in_seq in X. lia.
      + apply (Permutation_in _ (Permutation_sym (HS _))). apply in_seq. lia. }
  destruct (ad_search_loop_spec radius_search c tf b lpts tl gname lname nn ms HN HRS HR P L4
              P 0 (repeat [] (length P)) None (fun j => eq_refl) L2) as (found & E1 & E2 & E3 & _).
  { intros li Hli. apply HPb in Hli. rewrite nth_error_repeat by exact Hli. reflexivity. }
  rewrite L1, E1. cbn [rbind fst snd]. rewrite repeat_length in E2.
  set (F' := F radius_search c tf b lpts gname lname nn ms) in *.
  assert (HE : forall li ps, nth_error found li = Some ps -> In li P /\ ps = F' li).
  { intros li ps Hli. assert (In li P) as I. { apply HPb. rewrite <- E2. apply nth_error_Some. congruence. }
    split; [exact I|]. rewrite (E3 li I) in Hli. congruence. }
  assert (FF : found_for sh tf b c nn gname lname ms lpts found).
  { split; [exact E2|]. intros li ps Hli. destruct (HE _ _ Hli) as [I ->]. rewrite Forall_forall in L3. specialize (L3 _ I).
    destruct (nth_error lpts li) as [lp|] eqn:El; [|apply nth_error_None in El; lia]. exists lp. split; [reflexivity|].
    unfold F', F. rewrite El. destruct (excluded b ms lname li); [reflexivity|]. apply near10_spec; assumption. }
  assert (ES : forall e, In e (flat_map (fun li => map p_err (firstn 2 (F' li))) P) <-> In e (errors12 found)).
  { intro e. unfold errors12. rewrite !in_flat_map. split.
    - intros [li [I J]]. exists (F' li). split; [eapply nth_error_In; apply E3; exact I|exact J].
    - intros [ps [I J]]. apply In_nth_error in I as [li I]. destruct (HE _ _ I) as [K ->]. exists li. auto. }
  pose proof (hadd_none (flat_map (fun li => map p_err (firstn 2 (F' li))) P)) as HX.
  destruct (fold_left hadd _ None) as [[lo hi]|].
  2:{ right. exists found. split; [exact FF|]. rewrite Forall_forall. intros ps Hps.
      destruct ps as [|p ps]; [reflexivity|]. exfalso. rewrite HX in ES. apply (ES (p_err p)). unfold errors12.
      rewrite in_flat_map. exists (p :: ps). split; [exact Hps|]. left. reflexivity. }
  change (flat_map (fun ps => map p_err (firstn 2 ps)) found) with (errors12 found).
  destruct (ci_high lo hi (errors12 found)) as [ci| |] eqn:Ec; cbn [rbind]; [|eauto|left; eauto].
  set (mx := if Qltb _ ci then ci else _).
  assert (HMX : mx = larger (a_minimumCorrDist c * a_minimumCorrDist c) ci).
  { unfold mx, larger, Qltb, qsq. destruct (Qle_bool ci _); reflexivity. }
  assert (HFA : Forall (fun ps => sortedp ps /\ Forall (good_pair lpts nn) ps
            /\ forall p, In p ps -> nth_error lpts (p_localIdx p) = Some (p_local p)) found).
  { rewrite Forall_forall. intros ps Hps. apply In_nth_error in Hps as [li Hli]. destruct FF as [_ FF].
    destruct (FF li ps Hli) as [lp [El X]]. destruct (excluded b ms lname li).
    - subst ps. split; [intros a p z p' w Hz; destruct a; discriminate|]. split; [constructor|intros p []].
    - destruct X as (X1 & X2 & X3 & X4 & X5). split; [exact X4|]. split.
      + rewrite Forall_forall. intros p Hp. destruct (X1 p Hp) as (Y1 & Y2 & Y3 & Y4 & Y5 & _). split.
        * rewrite Y1. apply nth_error_Some. congruence.
        * apply nth_error_Some. congruence.
      + intros p Hp. destruct (X1 p Hp) as (Y1 & Y2 & _). rewrite Y1, Y2. exact El. }
  destruct (ad_emit_spec eig_symmetric plane_distance b c lpts gname lname nn mx found H3 HFA ms
     (fadd_potential out (length lpts * a_maxPt2PtCorrespondences c)) HR HGR) as (mk & (ms' & out' & A & B & C & D) & HM).
  rewrite A. destruct B as (B1 & B2 & B3 & B4 & B5 & B6 & B7). cbn in B1, B2, B3, B4, B5, B6, B7.
  exists (points_of eig_symmetric plane_distance b c gname mx ms found), (planes_of eig_symmetric plane_distance c found).
  split; [exact B1|]. split; [exact B2|]. split; [exact B3|]. split; [exact B4|]. split; [exact B5|]. split; [exact B6|]. split; [exact B7|].
  split. { destruct C as [C1 C2]. split; [exact C1|]. intro k. rewrite C2, HM. unfold mk_marks. reflexivity. }
  split; [exact D|]. right. exists found, lo, hi, ci. split; [exact FF|]. split; [eapply extremes_ext; [exact ES|exact HX]|].
  split; [exact Ec|]. split; [reflexivity|]. rewrite HMX. reflexivity.
Qed.
Print Assumptions C147_adaptive_exact.

(** If the statistics are total and some local point that takes part has a global point in range, it succeeds. *)
Theorem C147_adaptive_succeeds :
  forall eig_symmetric fMax sh tf b radius_search ci_high plane_distance c gl nn lpts gname lname ms out,
  (forall l, Permutation (sh l) l) -> ly_nn gl = Some nn -> nn_correct nn -> radius_correct radius_search nn ->
  has_room ms lname lpts -> has_global_room b ms gname nn -> ad_accepted c = true ->
  (forall lo hi es, exists ci, ci_high lo hi es = Ok ci) ->
  (exists x g, In x (candidates sh b ms lname lpts) /\ In g (nn_points nn)
     /\ (sqd (tf (snd x)) g <= a_absoluteMaxSearchDistance c * a_absoluteMaxSearchDistance c)%Q) ->
  exists ms' out', ad_one_layer eig_symmetric fMax sh tf b radius_search ci_high plane_distance c gl lpts gname lname ms out
    = Ok (ms', out').
Proof.
  intros * HS En HN HRS HR HGR HA HC [x [g [Hx [Hg Hd]]]].
  pose proof (C147_adaptive_exact eig_symmetric fMax sh tf b radius_search ci_high plane_distance c gl nn lpts gname lname ms out
    HS En HN HRS HR HGR HA) as X.
  destruct (ad_one_layer _ _ _ _ _ _ _ _ _ _ _ _ _ _ _) as [[ms' out']| |]; [eauto| |].
  - destruct X as (lo & hi & es & X). destruct (HC lo hi es). congruence.
  - exfalso. destruct X as [(lo & hi & es & X)|(found & [F1 F2] & F3)]; [destruct (HC lo hi es); congruence|].
    unfold candidates in Hx. apply in_flat_map in Hx as [li [H1 H2]]. destruct (nth_error lpts li) as [lp|] eqn:El; [|destruct H2].
    destruct (excluded b ms lname li) eqn:Ex; [destruct H2|]. destruct H2 as [<-|[]]. cbn [snd] in Hd.
    assert (li < length found) as HL.
    { rewrite F1. revert H1. unfold participating. destruct (Nat.eqb _ 0 || Nat.leb _ _).
      - rewrite seq_length, in_seq. lia.
      - intro Y. apply (Permutation_in _ (HS _)) in Y. rewrite (Permutation_length (HS _)), seq_length. apply in_seq in Y. lia. }
    destruct (nth_error found li) as [ps|] eqn:Ef; [|apply nth_error_None in Ef; lia].
    destruct (F2 li ps Ef) as [lp' [El' Y]]. rewrite El in El'. injection El' as <-. rewrite Ex in Y.
    rewrite Forall_forall in F3. rewrite (F3 ps (nth_error_In _ _ Ef)) in Y.
    destruct Y as (_ & _ & _ & _ & Y). apply In_nth_error in Hg as [j Hj].
    destruct (Y j g Hj Hd) as [[p [[] _]]|[Z _]]. cbn in Z. unfold looked_at in Z.
    destruct (a_enableDetectPlanes c); [destruct (a_planeSearchPoints c)|destruct (a_maxPt2PtCorrespondences c)]; discriminate Z.
Qed.
Print Assumptions C147_adaptive_succeeds.

(** ** Concrete cases *)
(** A radius search by brute force, on the points of any map. *)
Definition brute_radius (nn : NNMap) (q : P3) (m : Q) (k : nat) : list (nat * P3 * Q) :=
  let r := filter (fun x => Qle_bool (snd x) m) (brute_search (nn_points nn) q (length (nn_points nn))) in
  if Nat.eqb k 0 then r else firstn k r.
Lemma sorted3_filter f r : sorted3 r -> sorted3 (filter f r).
Proof.
  induction r as [|x r IH]; intros H; [exact H|]. cbn. specialize (IH (sorted3_tl _ _ H)). destruct (f x); [|exact IH].
  intros a i g d b j h e c E. destruct a as [|y a].
  - injection E as -> E. eapply (sorted3_le [(i, g, d)] r); [exact H|left; reflexivity|].
    assert (In (j, h, e) (filter f r)) as I by (rewrite E; apply in_or_app; right; left; reflexivity). apply filter_In in I. apply I.
  - injection E as _ E. eapply IH. exact E.
Qed.
Lemma NoDup_map_filter {A B} (g : A -> B) f (l : list A) : NoDup (map g l) -> NoDup (map g (filter f l)).
Proof.
  induction l as [|x l IH]; intro H; [constructor|]. cbn in H. inversion H; subst. cbn. destruct (f x); [|apply IH; assumption].
  cbn. constructor; [|apply IH; assumption]. intro X. apply H2. apply in_map_iff in X as [y [E X]]. apply filter_In in X.
  rewrite <- E. apply in_map. apply X.
Qed.
Lemma brute_radius_correct pts : radius_correct brute_radius (brute pts).
Proof.
  intros q m k. unfold brute_radius. cbn [nn_points brute].
  destruct (brute_correct pts q (length pts)) as (A & B & C & D & F). cbn [nn_search nn_points brute] in *.
  set (s := brute_search pts q (length pts)) in *. set (r := filter (fun x => Qle_bool (snd x) m) s).
  assert (Ar : forall i g d, In (i, g, d) r -> nth_error pts i = Some g /\ (d == sqd q g)%Q /\ (d <= m)%Q).
  { intros i g d H. apply filter_In in H as [H1 H2]. destruct (A _ _ _ H1) as [A1 A2]. split; [exact A1|]. split; [exact A2|].
    apply Qle_bool_iff. exact H2. }
  assert (Br : NoDup (map (fun x => fst (fst x)) r)) by (apply NoDup_map_filter; exact B).
  assert (Dr : sorted3 r) by (apply sorted3_filter; exact D).
  assert (Fr : forall j h, nth_error pts j = Some h -> (sqd q h <= m)%Q -> exists d, In (j, h, d) r).
  { intros j h Hj Hs. destruct (F j h Hj) as [[d Hd]|[F1 F2]].
    - exists d. apply filter_In. split; [exact Hd|]. apply Qle_bool_iff. cbn [snd]. destruct (A _ _ _ Hd) as [_ A2]. lra.
    - (* the search returned all the points *)
      assert (In j (map (fun x => fst (fst x)) s)) as IJ.
      { assert (HLj : j < length pts) by (apply nth_error_Some; congruence).
        assert (incl (seq 0 (length pts)) (map (fun x => fst (fst x)) s)) as IN.
        { apply NoDup_length_incl; [exact B|rewrite map_length, seq_length; lia|].
          intros i Hi. apply in_map_iff in Hi as [[[i' g] d] [<- Hx]]. apply in_seq. cbn. split; [lia|].
          destruct (A _ _ _ Hx) as [A1 _]. apply nth_error_Some. cbn in *. congruence. }
        apply IN. apply in_seq. lia. }
      apply in_map_iff in IJ as [[[j' g] d] [E Hx]]. cbn in E. subst j'. destruct (A _ _ _ Hx) as [A1 A2].
      assert (g = h) by congruence. subst g. exists d. apply filter_In. split; [exact Hx|]. apply Qle_bool_iff. cbn [snd]. lra. }
  cbv zeta. destruct (Nat.eqb_spec k 0) as [->|Hk].
  - split; [exact Ar|]. split; [exact Br|]. split; [congruence|]. split; [exact Dr|]. intros j h Hj Hs. left. apply Fr; assumption.
  - split; [intros i g d H; apply Ar; eapply firstn_incl; exact H|].
    split; [rewrite <- firstn_map; eapply NoDup_app_l; rewrite firstn_skipn; exact Br|].
    split; [intros _; rewrite firstn_length; lia|].
    split; [eapply (sorted3_app_l (firstn k r) (skipn k r)); rewrite firstn_skipn; exact Dr|].
    intros j h Hj Hs. destruct (Fr j h Hj Hs) as [d Hd]. rewrite <- (firstn_skipn k r) in Hd. apply in_app_or in Hd as [Hd|Hd]; [left; eauto|right].
    split; [exact Hk|]. split.
    + rewrite firstn_length. destruct (Nat.le_gt_cases k (length r)) as [X|X]; [lia|]. rewrite skipn_all2 in Hd by lia. destruct Hd.
    + intros i g e He. assert (e <= d)%Q by (eapply (sorted3_le (firstn k r) (skipn k r)); [rewrite firstn_skipn; exact Dr|exact He|exact Hd]).
      assert (In (j, h, d) r) as Hr by (rewrite <- (firstn_skipn k r); apply in_or_app; right; exact Hd).
      destruct (Ar _ _ _ Hr) as [_ [Y _]]. lra.
Qed.

Definition xb : BaseParams := mkBase [] 0 false false (1#2).
Definition xout : Pairings Pair LnPair PlPair unit unit Q := mkPairings [] [] [] [] [] [] 0.
Definition xbits (n : nat) := mkBits (Some (repeat false n)) [].
(** Local layers 0 and 1, global layer 0 with up to eight points. *)
Definition xms : MatchState := mkMS [(0, xbits 8); (1, xbits 8)] [(0, xbits 8)].
Definition xci (lo hi : Q) (es : list Q) : res Q := Ok hi.
(** The spectrum of a diagonal covariance with the smallest value last, as those of the points below. *)
Definition xeig (m : Sym3) : Spec3 := mkSpec3 (s22 m) (s11 m) (s00 m) (mkP3 0 0 1) (mkP3 0 1 0) (mkP3 1 0 0).
(** The signed distance to a plane with a normal of length one. *)
Definition xdist (pl : PlanePatch) (p : P3) : Q :=
  ((px p - px (pp_centroid pl)) * px (pp_normal pl) + (py p - py (pp_centroid pl)) * py (pp_normal pl)
   + (pz p - pz (pp_centroid pl)) * pz (pp_normal pl))%Q.
(** Four points of the plane z = 5. *)
Definition xflat : list P3 := [mkP3 1 1 5; mkP3 (-1) 1 5; mkP3 1 (-1) 5; mkP3 (-1) (-1) 5].
Definition xparams (planes : bool) (k : nat) : AdParams := mkAd (6#5) 5 planes k 4 4 (1#10) (1#100) (1#10).
Lemma xroom l lpts : l < 2 -> length lpts <= 8 -> has_room xms l lpts.
Proof.
  intros H1 H2. exists (xbits 8). split; [destruct l as [|[|]]; [reflexivity|reflexivity|lia]|]. intros v [= <-]. exact H2.
Qed.
Lemma xgroom pts : length pts <= 8 -> has_global_room xb xms 0 (brute pts).
Proof. intro H. exists (xbits 8). split; [reflexivity|]. intros v [= <-]. exact H. Qed.

(** Points: the local point at the origin takes its nearest two: the third is beyond the ratio. *)
Example C147_ex_points :
  exists ms' out', ad_one_layer xeig 1000 (fun l => l) (fun p => p) xb brute_radius xci xdist (xparams false 3)
     (mkLayer None (Some (brute [mkP3 1 0 0; mkP3 (-1) 0 0; mkP3 3 0 0; mkP3 0 9 0]))) [mkP3 0 0 0; mkP3 0 6 0] 0 0 xms xout = Ok (ms', out')
  /\ map (fun p => (p_localIdx p, p_globalIdx p)) (paired_pt2pt out') = [(0, 0); (0, 1)]
  /\ paired_pt2pl out' = [] /\ potential_pairings out' = 6
  /\ ad_accepted (xparams false 3) = true.
Proof. eexists _, _. split; [vm_compute; reflexivity|]. repeat (split; [reflexivity|]). reflexivity. Qed.
(** A plane. *)
Example C147_ex_plane :
  exists ms' out', ad_one_layer xeig 1000 (fun l => l) (fun p => p) xb brute_radius xci xdist (xparams true 1)
     (mkLayer None (Some (brute xflat))) [mkP3 0 0 5; mkP3 0 0 0] 0 0 xms xout = Ok (ms', out')
  /\ map pl_idx (paired_pt2pl out') = [0] /\ paired_pt2pt out' = [] /\ ad_accepted (xparams true 1) = true.
Proof. eexists _, _. split; [vm_compute; reflexivity|]. repeat (split; [reflexivity|]). reflexivity. Qed.

(** ** C148: matching maps that are too far apart finds nothing -- refuted *)
(** The boxes of the two maps meet, but no local point has a global point within absoluteMaxSearchDistance: the limits
    of the histogram, never set, are read. *)
Theorem C148_nothing_in_range_refuted :
  ~ (forall eig_symmetric fMax sh tf b radius_search ci_high plane_distance c gl nn lpts gname lname ms out,
     (forall l, Permutation (sh l) l) -> ly_nn gl = Some nn -> nn_correct nn -> bbox_correct nn -> radius_correct radius_search nn ->
     has_room ms lname lpts -> has_global_room b ms gname nn -> ad_accepted c = true ->
     (forall lo hi es, exists ci, ci_high lo hi es = Ok ci) ->
     ad_one_layer eig_symmetric fMax sh tf b radius_search ci_high plane_distance c gl lpts gname lname ms out <> UB).
Proof.
  intro H. set (pts := [mkP3 0 0 0; mkP3 100 0 0]).
  apply (H xeig 1000%Q (fun l => l) (fun p => p) xb brute_radius xci xdist (xparams false 1)
    (mkLayer None (Some (brute pts))) (brute pts) [mkP3 50 0 0] 0 0 xms xout); try reflexivity.
  - apply brute_correct.
  - apply brute_bbox.
  - apply brute_radius_correct.
  - apply xroom; cbn; lia.
  - apply xgroom. cbn. lia.
  - intros. eexists. reflexivity.
Qed.
Print Assumptions C148_nothing_in_range_refuted.

(** ** C149: a global point is paired once if re-matching is forbidden -- refuted *)
(** Two local layers matched one after the other against a global layer take the same global point: the matcher
    never marks global points. *)
Theorem C149_global_points_reused_refuted :
  ~ (forall eig_symmetric fMax sh tf b radius_search ci_high plane_distance c gl nn lpts1 lpts2 gname l1 l2 ms out ms1 out1 ms2 out2,
     (forall l, Permutation (sh l) l) -> ly_nn gl = Some nn -> nn_correct nn -> bbox_correct nn -> radius_correct radius_search nn ->
     has_room ms l1 lpts1 -> has_room ms l2 lpts2 -> has_global_room b ms gname nn -> ad_accepted c = true -> l1 <> l2 ->
     allowMatchAlreadyMatchedGlobalPoints b = false ->
     ad_one_layer eig_symmetric fMax sh tf b radius_search ci_high plane_distance c gl lpts1 gname l1 ms out = Ok (ms1, out1) ->
     ad_one_layer eig_symmetric fMax sh tf b radius_search ci_high plane_distance c gl lpts2 gname l2 ms1 out1 = Ok (ms2, out2) ->
     paired_pt2pt out = [] ->
     forall p p' a z, paired_pt2pt out1 = a ++ p :: z -> In p' (skipn (length (paired_pt2pt out1)) (paired_pt2pt out2)) ->
       p_globalIdx p' <> p_globalIdx p).
Proof.
  intro H. set (pts := [mkP3 0 0 0; mkP3 100 0 0]).
  set (run := ad_one_layer xeig 1000 (fun l => l) (fun p => p) xb brute_radius xci xdist (xparams false 1) (mkLayer None (Some (brute pts)))).
  destruct (run [mkP3 0 0 (1#100); mkP3 1 0 0] 0 0 xms xout) as [[ms1 out1]| |] eqn:E1; [|vm_compute in E1; discriminate|vm_compute in E1; discriminate].
  destruct (run [mkP3 0 (1#100) 0; mkP3 1 0 0] 0 1 ms1 out1) as [[ms2 out2]| |] eqn:E2;
    [|vm_compute in E1; injection E1 as <- <-; vm_compute in E2; discriminate|vm_compute in E1; injection E1 as <- <-; vm_compute in E2; discriminate].
  pose proof (fun p p' a z => H xeig 1000%Q (fun l => l) (fun p => p) xb brute_radius xci xdist (xparams false 1)
    (mkLayer None (Some (brute pts))) (brute pts) [mkP3 0 0 (1#100); mkP3 1 0 0] [mkP3 0 (1#100) 0; mkP3 1 0 0] 0 0 1 xms xout ms1 out1 ms2 out2
    (fun l => Permutation_refl l) eq_refl (brute_correct _) (brute_bbox _) (brute_radius_correct _)
    (xroom 0 [mkP3 0 0 (1#100); mkP3 1 0 0] ltac:(lia) ltac:(cbn; lia)) (xroom 1 [mkP3 0 (1#100) 0; mkP3 1 0 0] ltac:(lia) ltac:(cbn; lia))
    (xgroom pts ltac:(cbn; lia)) eq_refl ltac:(lia) eq_refl E1 E2 eq_refl p p' a z) as X.
  clear H. unfold run in E1, E2. vm_compute in E1. injection E1 as <- <-. vm_compute in E2. injection E2 as <- <-.
  eapply (X _ _ [] _ eq_refl); [left; reflexivity|reflexivity].
Qed.
Print Assumptions C149_global_points_reused_refuted.

(** ** C150: an accepted plane is near the local point -- refuted *)
(** The distance compared with planeMinimumDistance is that of the point before it is moved to the global frame: a
    point that ends up one metre away from the plane is paired with it. *)
Theorem C150_plane_distance_refuted :
  ~ (forall eig_symmetric fMax sh tf b radius_search ci_high plane_distance c gl nn lpts gname lname ms out ms' out',
     (forall l, Permutation (sh l) l) -> ly_nn gl = Some nn -> nn_correct nn -> bbox_correct nn -> radius_correct radius_search nn ->
     has_room ms lname lpts -> has_global_room b ms gname nn -> ad_accepted c = true ->
     ad_one_layer eig_symmetric fMax sh tf b radius_search ci_high plane_distance c gl lpts gname lname ms out = Ok (ms', out') ->
     forall p, In p (paired_pt2pl out') -> ~ In p (paired_pt2pl out) ->
       (Qabs.Qabs (plane_distance (pl_plane p) (tf (pl_local p))) < a_planeMinimumDistance c)%Q).
Proof.
  intro H. set (tf := fun p : P3 => mkP3 (px p) (py p) (pz p + 1)).
  destruct (ad_one_layer xeig 1000 (fun l => l) tf xb brute_radius xci xdist (xparams true 1)
     (mkLayer None (Some (brute xflat))) [mkP3 0 0 5; mkP3 0 0 0] 0 0 xms xout) as [[ms' out']| |] eqn:E;
     [|vm_compute in E; discriminate|vm_compute in E; discriminate].
  pose proof (H xeig 1000%Q (fun l => l) tf xb brute_radius xci xdist (xparams true 1)
    (mkLayer None (Some (brute xflat))) (brute xflat) [mkP3 0 0 5; mkP3 0 0 0] 0 0 xms xout ms' out'
    (fun l => Permutation_refl l) eq_refl (brute_correct _) (brute_bbox _) (brute_radius_correct _)
    (xroom 0 [mkP3 0 0 5; mkP3 0 0 0] ltac:(lia) ltac:(cbn; lia)) (xgroom xflat ltac:(cbn; lia)) eq_refl E) as X.
  clear H. vm_compute in E. injection E as <- <-. specialize (X _ (or_introl eq_refl) (fun F => F)). vm_compute in X. discriminate X.
Qed.
Print Assumptions C150_plane_distance_refuted.
