(** Theorems about estimate_points_eigen and the matchers of points with planes and lines. *)
From Verif Require Import Base PairingsModel PairingsProofs MatcherModel BitfieldModel BitfieldProofs PointMatcherModel
  PointMatcherSpec PointMatcherProofs PointMatcherProofs2 PointMatcherProofs5 PointMatcherProofs7 BruteNN FeatModel FeatSpec FeatProofs.
From Coq Require Import Lqa Permutation.

(** ** C143: point-to-plane matching *)
(** The pairings made are, in order, those of the local points that take part, are not already paired (when
    re-matching is forbidden), and for which the map finds a plane within the threshold.  Exactly these points are
    marked.  Nothing is paired when a map is empty or the boxes do not meet. *)
Theorem C143_point_to_plane_exact :
  forall fMax sh tf b thr np lpts lname ms out ms' out',
  (forall l, Permutation (sh l) l) ->
  p2pl_one_layer fMax sh tf b thr (Some np) lpts lname ms out = Ok (ms', out') ->
  exists new,
    paired_pt2pl out' = paired_pt2pl out ++ new
    /\ paired_pt2pt out' = paired_pt2pt out /\ paired_pt2ln out' = paired_pt2ln out
    /\ paired_ln2ln out' = paired_ln2ln out /\ paired_pl2pl out' = paired_pl2pl out
    /\ point_weights out' = point_weights out
    /\ potential_pairings out' = potential_pairings out + length lpts
    /\ marks_added ms ms' lname (map pl_idx new)
    /\ (new = flat_map (fun x => match plane_for thr np (tf (snd x)) with
                                 | Some pl => [mkPlP (snd x) pl (fst x)] | None => [] end)
                (candidates sh b ms lname lpts)
        \/ (new = [] /\ (np_empty np = true \/ away (np_bbox np) (thr + bbox_epsilon b) (moved sh tf b lpts)))).
Proof.
  intros * HS H. unfold p2pl_one_layer in H.
  destruct (np_empty np || isNil lpts) eqn:Ee.
  { injection H as <- <-. exists []. rewrite app_nil_r. repeat (split; [reflexivity|]). split; [apply marks_nil|].
    apply orb_true_iff in Ee as [Ee|Ee]; [right; split; [reflexivity|left; exact Ee]|].
    left. destruct lpts; [|discriminate]. unfold candidates, participating. cbn [length]. change (Nat.leb 0 _) with true. rewrite orb_true_r. reflexivity. }
  destruct (tl_participating fMax sh tf b lpts HS) as [tl [Et [L1 [L2 [L3 L4]]]]]. rewrite Et in H. cbn [rbind] in H.
  destruct (bb_intersects (np_bbox np) (tl_min tl, tl_max tl) (thr + bbox_epsilon b)) eqn:Eb; cbn [negb] in H.
  2:{ injection H as <- <-. exists []. rewrite app_nil_r. repeat (split; [reflexivity|]). split; [apply marks_nil|].
      right. split; [reflexivity|]. right. eapply bb_away; [exact Eb|]. eapply moved_tl; eassumption. }
  rewrite L1, (p2pl_loop_ploop tf b lpts tl lname _ L4) in H.
  apply ploop_spec in H; [|rewrite pts_of_fst by exact L3; exact L2]. cbn [fst snd] in H. destruct H as [H1 H2].
  match type of H1 with _ = fold_left _ ?h ?o => pose proof (fold_pl h o) as F end. cbv zeta in F.
  destruct F as [F1 [F2 [F3 [F4 [F5 [F6 F7]]]]]].
  match type of H1 with _ = fold_left _ ?h ?o => set (hs := h) in * end. rewrite H1.
  exists (map (fun h => mkPlP (snd (fst h)) (snd h) (fst (fst h))) hs).
  split; [rewrite F1; reflexivity|]. split; [rewrite F2; reflexivity|]. split; [rewrite F3; reflexivity|].
  split; [rewrite F4; reflexivity|]. split; [rewrite F5; reflexivity|]. split; [rewrite F6; reflexivity|].
  split; [rewrite F7; reflexivity|]. split.
  { rewrite map_map. cbn [pl_idx]. exact H2. }
  left. unfold hs. rewrite (hits_candidates tf b lname (act_plane thr np) (fun x y => mkPlP (snd x) y (fst x))).
  rewrite candidates_pts. reflexivity.
Qed.
Print Assumptions C143_point_to_plane_exact.

(** With room in the match state it always succeeds, whatever the limit on the local points. *)
Theorem C143_point_to_plane_succeeds :
  forall fMax sh tf b thr np lpts lname ms out,
  (forall l, Permutation (sh l) l) -> has_room ms lname lpts ->
  exists ms' out', p2pl_one_layer fMax sh tf b thr (Some np) lpts lname ms out = Ok (ms', out')
    /\ has_room ms' lname lpts.
Proof.
  intros * HS HR. unfold p2pl_one_layer. destruct (np_empty np || isNil lpts); [eauto|].
  destruct (tl_participating fMax sh tf b lpts HS) as [tl [Et [L1 [L2 [L3 L4]]]]]. rewrite Et. cbn [rbind].
  destruct (negb _); [eauto|]. rewrite L1, (p2pl_loop_ploop tf b lpts tl lname _ L4).
  match goal with |- exists _ _, ploop _ _ _ ?a ?ad ?cs ?s = _ /\ _ =>
    pose proof (ploop_safe tf b lname lpts a ad (fun q => ltac:(discriminate)) cs (pts_of_bound _ _ L3) s HR) as X;
    destruct (ploop tf b lname a ad cs s) as [[ms' out']| |] end; [eauto|destruct X as [q X]; discriminate X|destruct X].
Qed.
Print Assumptions C143_point_to_plane_succeeds.

(** ** C144: point-to-line matching *)
Theorem C144_point_to_line_exact :
  forall eig_symmetric unitarize fMax sh tf b c gl nn lpts lname ms out ms' out',
  (forall l, Permutation (sh l) l) -> ly_nn gl = Some nn -> nn_correct nn ->
  p2ln_one_layer eig_symmetric fMax sh tf b unitarize c gl lpts lname ms out = Ok (ms', out') ->
  exists new,
    paired_pt2ln out' = paired_pt2ln out ++ new
    /\ paired_pt2pt out' = paired_pt2pt out /\ paired_pt2pl out' = paired_pt2pl out
    /\ paired_ln2ln out' = paired_ln2ln out /\ paired_pl2pl out' = paired_pl2pl out
    /\ point_weights out' = point_weights out
    /\ potential_pairings out' = potential_pairings out + length lpts
    /\ marks_added ms ms' lname (map ln_idx new)
    /\ (new = flat_map (fun x => match line_for eig_symmetric unitarize c nn (tf (snd x)) with
                                 | Some (base, dir) => [mkLnP (snd x) base dir (fst x)] | None => [] end)
                (candidates sh b ms lname lpts)
        \/ (new = [] /\ (nn_points nn = []
              \/ away (nn_bbox nn) (l_distanceThreshold c + bbox_epsilon b) (moved sh tf b lpts)))).
Proof.
  intros * HS En HN H. unfold p2ln_one_layer in H. rewrite En in H.
  destruct (isNil (nn_points nn) || isNil lpts) eqn:Ee.
  { injection H as <- <-. exists []. rewrite app_nil_r. repeat (split; [reflexivity|]). split; [apply marks_nil|].
    apply orb_true_iff in Ee as [Ee|Ee]; [right; split; [reflexivity|left; destruct (nn_points nn); [reflexivity|discriminate]]|].
    left. destruct lpts; [|discriminate]. unfold candidates, participating. cbn [length]. change (Nat.leb 0 _) with true. rewrite orb_true_r. reflexivity. }
  destruct (tl_participating fMax sh tf b lpts HS) as [tl [Et [L1 [L2 [L3 L4]]]]]. rewrite Et in H. cbn [rbind] in H.
  destruct (bb_intersects (nn_bbox nn) (tl_min tl, tl_max tl) (l_distanceThreshold c + bbox_epsilon b)) eqn:Eb; cbn [negb] in H.
  2:{ injection H as <- <-. exists []. rewrite app_nil_r. repeat (split; [reflexivity|]). split; [apply marks_nil|].
      right. split; [reflexivity|]. right. eapply bb_away; [exact Eb|]. eapply moved_tl; eassumption. }
  rewrite L1, (p2ln_loop_ploop tf b lpts tl lname _ L4) in H.
  assert (HP := H). apply ploop_spec in H; [|rewrite pts_of_fst by exact L3; exact L2]. cbn [fst snd] in H. destruct H as [H1 H2].
  match type of H1 with _ = fold_left _ ?h ?o => pose proof (fold_ln h o) as F end. cbv zeta in F.
  destruct F as [F1 [F2 [F3 [F4 [F5 [F6 F7]]]]]].
  match type of H1 with _ = fold_left _ ?h ?o => set (hs := h) in * end. rewrite H1.
  exists (map (fun h => mkLnP (snd (fst h)) (fst (snd h)) (snd (snd h)) (fst (fst h))) hs).
  split; [rewrite F1; reflexivity|]. split; [rewrite F2; reflexivity|]. split; [rewrite F3; reflexivity|].
  split; [rewrite F4; reflexivity|]. split; [rewrite F5; reflexivity|]. split; [rewrite F6; reflexivity|].
  split; [rewrite F7; reflexivity|]. split.
  { rewrite map_map. cbn [ln_idx]. exact H2. }
  left. unfold hs.
  rewrite (hits_candidates tf b lname _ (fun x y => mkLnP (snd x) (fst y) (snd y) (fst x))).
  rewrite candidates_pts.
  assert (HA : forall q, act_line eig_symmetric unitarize c nn q <> Throw ->
     match act_line eig_symmetric unitarize c nn q with Ok (Some y) => Some y | _ => None end
     = line_for eig_symmetric unitarize c nn q).
  { intros q. unfold act_line, line_for. rewrite kept_sorted.
    2:{ intros a d b0 e c0 Hd. destruct (HN q (l_knn c)) as [_ [_ [_ [N4 _]]]].
        apply map_eq_app in Hd as [r1 [r2 [E1 [E2 E3]]]]. destruct r2 as [|[[i g] d0] r2]; [discriminate|].
        cbn [map snd] in E3. injection E3 as E3 E4. apply map_eq_app in E4 as [r3 [r4 [E5 [E6 E7]]]].
        destruct r4 as [|[[j h] e0] r4]; [discriminate|]. cbn [map snd] in E7. injection E7 as E7 E8.
        rewrite <- E3, <- E7. eapply N4. rewrite E1, E5. reflexivity. }
    unfold near_count. rewrite (Nat.leb_antisym).
    assert (HF : length (filter (fun d => Qle_bool d (qsq (l_distanceThreshold c))) (map snd (nn_search nn q (l_knn c))))
       = length (filter (fun x => Qle_bool (snd x) (l_distanceThreshold c * l_distanceThreshold c)) (nn_search nn q (l_knn c)))).
    { unfold qsq. induction (nn_search nn q (l_knn c)) as [|x l IH]; [reflexivity|]. cbn [map filter].
      destruct (Qle_bool (snd x) _); cbn [length]; rewrite IH; reflexivity. }
    rewrite HF. destruct (Nat.ltb _ (l_minimumLinePoints c)); cbn [negb]; [reflexivity|].
    unfold estimate_total. rewrite map_length.
    destruct (Nat.ltb (length (nn_search nn q (l_knn c))) 3); cbn [rbind]; [congruence|].
    rewrite Nat.ltb_irrefl. cbn [rbind].
    replace (firstn (length (nn_search nn q (l_knn c))) (map (fun x => snd (fst x)) (nn_search nn q (l_knn c))))
      with (map (fun x => snd (fst x)) (nn_search nn q (l_knn c))).
    2:{ rewrite <- (map_length (fun x => snd (fst x)) (nn_search nn q (l_knn c))), firstn_all. reflexivity. }
    intros _. unfold Qltb. destruct (Qle_bool (val0 _) _); cbn [negb andb]; [|reflexivity].
    destruct (Qle_bool (val1 _) _); reflexivity. }
  (* every point that was looked at did not throw *)
  assert (HT : forall x, In x (filter (fun x => negb (excluded b ms lname (fst x))) (pts_of lpts (participating sh (maxLocalPointsPerLayer b) lpts))) ->
     act_line eig_symmetric unitarize c nn (tf (snd x)) <> Throw).
  { clear -HP L2 L3. rewrite <- (pts_of_fst lpts _ L3) in L2. revert L2 HP.
    generalize (pts_of lpts (participating sh (maxLocalPointsPerLayer b) lpts)). intros cs.
    change ms with (fst (ms, fadd_potential out (length lpts))) at 2.
    generalize (ms, fadd_potential out (length lpts)).
    induction cs as [|[li lp] cs IH]; intros s ND HP x Hx E; [destruct Hx|]. cbn [ploop] in HP.
    inversion ND as [|? ? Hn ND']; subst. cbn [filter fst] in Hx.
    assert (EX : forall t, taken_local b (fst s) lname li = Ok t -> excluded b (fst s) lname li = t).
    { unfold taken_local, excluded. intros t Et. destruct (allowMatchAlreadyMatchedPoints b); cbn [negb andb]; [injection Et as <-; reflexivity|].
      rewrite Et. destruct t; reflexivity. }
    destruct (taken_local b (fst s) lname li) as [t| |]; cbn [rbind] in HP; try discriminate.
    rewrite (EX t eq_refl) in Hx. destruct t; cbn [negb] in Hx; [apply (IH s ND' HP x Hx E)|].
    destruct Hx as [<-|Hx].
    { cbn [snd] in E. rewrite E in HP. discriminate HP. }
    destruct (act_line eig_symmetric unitarize c nn (tf lp)) as [[y|]| |]; cbn [rbind] in HP; try discriminate.
    - destruct (mark_local (fst s) lname li) as [ms1| |] eqn:Em; cbn [rbind] in HP; try discriminate.
      refine (IH _ ND' HP x _ E). cbn [fst]. rewrite filter_In in *. destruct Hx as [X1 X2]. split; [exact X1|].
      rewrite (excluded_other _ _ _ _ _ (fst x) Em); [exact X2|]. intro Y. apply Hn. rewrite <- Y. apply in_map. exact X1.
    - exact (IH s ND' HP x Hx E). }
  clear -HA HT. induction (filter _ _) as [|x cs IH]; [reflexivity|]. cbn [flat_map].
  rewrite IH by (intros y Hy; apply HT; right; exact Hy). f_equal.
  specialize (HA _ (HT x (or_introl eq_refl))). rewrite <- HA.
  destruct (act_line _ _ _ _ _) as [[[y1 y2]|]| |]; reflexivity.
Qed.
Print Assumptions C144_point_to_line_exact.

(** At least three points required of a line: with room in the match state it always succeeds. *)
Theorem C144_point_to_line_succeeds :
  forall eig_symmetric unitarize fMax sh tf b c gl nn lpts lname ms out,
  (forall l, Permutation (sh l) l) -> ly_nn gl = Some nn -> nn_correct nn -> has_room ms lname lpts ->
  3 <= l_minimumLinePoints c ->
  exists ms' out', p2ln_one_layer eig_symmetric fMax sh tf b unitarize c gl lpts lname ms out = Ok (ms', out')
    /\ has_room ms' lname lpts.
Proof.
  intros * HS En HN HR H3. unfold p2ln_one_layer. rewrite En. destruct (isNil _ || isNil lpts); [eauto|].
  destruct (tl_participating fMax sh tf b lpts HS) as [tl [Et [L1 [L2 [L3 L4]]]]]. rewrite Et. cbn [rbind].
  destruct (negb _); [eauto|]. rewrite L1, (p2ln_loop_ploop tf b lpts tl lname _ L4).
  assert (HA : forall q, exists r, act_line eig_symmetric unitarize c nn q = Ok r).
  { intro q. unfold act_line. destruct (Nat.ltb_spec (kept_neighbours (qsq (l_distanceThreshold c)) (map snd (nn_search nn q (l_knn c))))
      (l_minimumLinePoints c)) as [|HK]; [eauto|].
    assert (HL : kept_neighbours (qsq (l_distanceThreshold c)) (map snd (nn_search nn q (l_knn c))) <= length (nn_search nn q (l_knn c))).
    { rewrite <- (map_length snd). unfold kept_neighbours.
      assert (FB : forall m ds, first_beyond m ds <= length ds).
      { intros m ds. induction ds as [|d ds IH]; cbn; [lia|]. destruct (Qltb m d); lia. }
      destruct (rev _) as [|la r]; [apply FB|]. destruct (Qltb la _); [lia|apply FB]. }
    unfold estimate_total. rewrite map_length. destruct (Nat.ltb_spec (length (nn_search nn q (l_knn c))) 3); [lia|].
    rewrite Nat.ltb_irrefl. cbn [rbind].
    destruct (Qltb _ (val0 _)); [eauto|]. destruct (Qltb _ (val1 _)); eauto. }
  match goal with |- exists _ _, ploop _ _ _ ?a ?ad ?cs ?s = _ /\ _ =>
    pose proof (ploop_safe tf b lname lpts a ad (fun q => ltac:(destruct (HA q) as [r ->]; discriminate)) cs (pts_of_bound _ _ L3) s HR) as X;
    destruct (ploop tf b lname a ad cs s) as [[ms' out']| |] end; [eauto|destruct X as [q X]; destruct (HA q) as [r Y]; congruence|destruct X].
Qed.
Print Assumptions C144_point_to_line_succeeds.

(** ** Concrete cases *)
Definition ex_base : BaseParams := mkBase [] 0 false false 0.
Definition ex_out : Pairings Pair LnPair PlPair unit unit Q := mkPairings [] [] [] [] [] [] 0.
Definition ex_ms (n : nat) : MatchState := mkMS [(0, mkBits (Some (repeat false n)) [])] [(0, mkBits (Some (repeat false 4)) [])].
Definition ex_shift (p : P3) : P3 := mkP3 (px p + 1) (py p) (pz p).
(** The plane z = 0, known for x >= 0 only. *)
Definition ex_np : NPMap := mkNP false (mkP3 0 0 0, mkP3 9 9 0)
  (fun q _ => (if Qle_bool 0 (px q) then Some (mkPP (mkP3 0 0 0) (mkP3 0 0 1)) else None, Qabs.Qabs (pz q))).
Definition ex_local : list P3 := [mkP3 (-5) 0 0; mkP3 2 0 (1#2); mkP3 3 0 2; mkP3 4 0 (-(1#3))].

Example C143_ex :
  exists ms' out', p2pl_one_layer 1000 (fun l => l) ex_shift ex_base 1 (Some ex_np) ex_local 0 (ex_ms 4) ex_out = Ok (ms', out')
  /\ map (fun p => (pl_idx p, pl_local p)) (paired_pt2pl out') = [(1, mkP3 2 0 (1#2)); (3, mkP3 4 0 (-(1#3)))]
  /\ potential_pairings out' = 4 /\ has_room (ex_ms 4) 0 ex_local.
Proof.
  eexists _, _. split; [vm_compute; reflexivity|]. split; [reflexivity|]. split; [reflexivity|].
  eexists. split; [reflexivity|]. intros v [= <-]. vm_compute. lia.
Qed.

(** Four points on a line along x; their covariance is zero except (0,0). *)
Definition ex_line : list P3 := [mkP3 0 0 0; mkP3 1 0 0; mkP3 2 0 0; mkP3 21 0 0].
Definition ex_eig (m : Sym3) : Spec3 := mkSpec3 0 0 (s00 m) (mkP3 0 0 1) (mkP3 0 1 0) (mkP3 1 0 0).
Definition ex_nn : NNMap := brute ex_line.
Definition ex_gl : Layer := mkLayer None (Some ex_nn).
(** [ex_eig] is right for these matrices: the ones that are zero except (0,0) *)
Lemma ex_eig_right m : s10 m == 0 -> s20 m == 0 -> s11 m == 0 -> s21 m == 0 -> s22 m == 0 ->
  let mul v := mkP3 (s00 m * px v + s10 m * py v + s20 m * pz v) (s10 m * px v + s11 m * py v + s21 m * pz v)
                    (s20 m * px v + s21 m * py v + s22 m * pz v) in
  let eqv a b := px a == px b /\ py a == py b /\ pz a == pz b in
  let sp := ex_eig m in
  eqv (mul (vec0 sp)) (p3scale (val0 sp) (vec0 sp)) /\ eqv (mul (vec1 sp)) (p3scale (val1 sp) (vec1 sp))
  /\ eqv (mul (vec2 sp)) (p3scale (val2 sp) (vec2 sp)).
Proof.
  intros H1 H2 H3 H4 H5. cbn. rewrite H1, H2, H3, H4, H5.
  repeat match goal with |- _ /\ _ => split end; ring.
Qed.

Example C144_ex :
  exists ms' out', p2ln_one_layer ex_eig 1000 (fun l => l) ex_shift ex_base (fun v => v)
      (mkLine 2 3 3 (1#10)) ex_gl [mkP3 0 1 0; mkP3 20 0 0] 0 (ex_ms 2) ex_out = Ok (ms', out')
  /\ (exists p, paired_pt2ln out' = [p] /\ ln_idx p = 0 /\ ln_local p = mkP3 0 1 0 /\ ln_dir p = mkP3 1 0 0
        /\ px (ln_base p) == 1 /\ py (ln_base p) == 0 /\ pz (ln_base p) == 0)
  /\ potential_pairings out' = 2 /\ nn_correct ex_nn /\ has_room (ex_ms 2) 0 [mkP3 0 1 0; mkP3 20 0 0].
Proof.
  eexists _, _. split; [vm_compute; reflexivity|].
  split; [eexists; cbn; repeat (split; [reflexivity|]); reflexivity|]. split; [reflexivity|].
  split; [apply brute_correct|]. eexists. split; [reflexivity|]. intros v [= <-]. vm_compute. lia.
Qed.

(** ** C145: only neighbours within the threshold take part in the fit -- refuted *)
(** Where a line is accepted, it is fitted to all the neighbours found, those beyond the threshold included:
    the point at distance 20 moves the base of the line from x = 1 to x = 6. *)
Theorem C145_line_of_near_points_refuted :
  ~ (forall eig_symmetric unitarize fMax sh tf b c gl nn lpts lname ms out ms' out',
     (forall l, Permutation (sh l) l) -> ly_nn gl = Some nn -> nn_correct nn -> bbox_correct nn ->
     p2ln_one_layer eig_symmetric fMax sh tf b unitarize c gl lpts lname ms out = Ok (ms', out') ->
     forall p, In p (paired_pt2ln out') -> ~ In p (paired_pt2ln out) ->
     exists near, (forall g, In g near -> In g (nn_points nn)
                     /\ (sqd (tf (ln_local p)) g <= l_distanceThreshold c * l_distanceThreshold c)%Q)
       /\ ln_base p = eg_mean (eigen_of eig_symmetric near)).
Proof.
  intro H.
  assert (X : exists ms' out' p, p2ln_one_layer ex_eig 1000 (fun l => l) (fun p => p) ex_base (fun v => v)
      (mkLine 2 4 3 (1#10)) ex_gl [mkP3 1 0 0] 0 (ex_ms 1) ex_out = Ok (ms', out') /\ In p (paired_pt2ln out')
      /\ ln_local p = mkP3 1 0 0 /\ (px (ln_base p) == 6)%Q).
  { eexists _, _, _. split; [vm_compute; reflexivity|]. split; [left; reflexivity|]. split; reflexivity. }
  destruct X as [ms' [out' [p [E [HI [Hl Hb]]]]]].
  specialize (H ex_eig (fun v => v) 1000%Q (fun l => l) (fun p => p) ex_base (mkLine 2 4 3 (1#10)) ex_gl ex_nn
    [mkP3 1 0 0] 0 (ex_ms 1) ex_out ms' out' (fun l => Permutation_refl l) eq_refl (brute_correct _) (brute_bbox _) E p HI (fun F => F)).
  destruct H as [near [H1 H2]]. rewrite H2 in Hb. rewrite Hl in H1. clear -H1 Hb.
  assert (HN : forall g, In g near -> (px g <= 2)%Q).
  { intros g Hg. destruct (H1 g Hg) as [A B]. cbn in A. clear H1.
    destruct A as [<-|[<-|[<-|[<-|[]]]]]; cbn; try lra. exfalso. vm_compute in B. apply B. reflexivity. }
  clear H1. assert (HM : (px (eg_mean (eigen_of ex_eig near)) <= 2)%Q); [|rewrite Hb in HM; vm_compute in HM; apply HM; reflexivity].
  cbn [eigen_of eg_mean p3scale px].
  assert (HS : forall acc, (px (fold_left p3add near acc) <= px acc + 2 * inject_Z (Z.of_nat (length near)))%Q).
  { clear Hb. induction near as [|g near IH]; intro acc; cbn [fold_left length]; [change (inject_Z (Z.of_nat 0)) with 0%Q; lra|].
    specialize (IH (fun g' H' => HN g' (or_intror H')) (p3add acc g)). specialize (HN g (or_introl eq_refl)).
    rewrite Nat2Z.inj_succ, <- Z.add_1_r, inject_Z_plus. cbn [p3add px] in IH. change (inject_Z 1) with 1%Q. lra. }
  specialize (HS (mkP3 0 0 0)). cbn [px] in HS. destruct near as [|g near]; [vm_compute; discriminate|].
  set (n := inject_Z (Z.of_nat (length (g :: near)))) in *.
  assert (Hn : (0 < n)%Q). { unfold n. change 0%Q with (inject_Z 0). rewrite <- Zlt_Qlt. cbn [length]. lia. }
  unfold Qdiv. rewrite Qmult_1_l. setoid_replace 2%Q with ((2 * n) * / n)%Q by (field; intro Z0; rewrite Z0 in Hn; inversion Hn).
  apply Qmult_le_compat_r; [lra|]. apply Qinv_le_0_compat. lra.
Qed.
Print Assumptions C145_line_of_near_points_refuted.

(** ** C146: accepted parameters never make matching fail -- refuted *)
(** minimumLinePoints = 2 is accepted, but estimating a line from two neighbours throws. *)
Theorem C146_two_point_lines_refuted :
  ~ (forall eig_symmetric unitarize fMax sh tf b c gl nn lpts lname ms out,
     p2ln_accepted c = true ->
     (forall l, Permutation (sh l) l) -> ly_nn gl = Some nn -> nn_correct nn -> bbox_correct nn -> has_room ms lname lpts ->
     exists r, p2ln_one_layer eig_symmetric fMax sh tf b unitarize c gl lpts lname ms out = Ok r).
Proof.
  intro H.
  specialize (H ex_eig (fun v => v) 1000%Q (fun l => l) (fun p => p) ex_base (mkLine 2 2 2 (1#10)) ex_gl ex_nn
    [mkP3 1 0 0] 0 (ex_ms 1) ex_out eq_refl (fun l => Permutation_refl l) eq_refl (brute_correct _) (brute_bbox _)).
  destruct H as [r H]; [|vm_compute in H; discriminate H].
  eexists. split; [reflexivity|]. intros v [= <-]. vm_compute. lia.
Qed.
Print Assumptions C146_two_point_lines_refuted.
