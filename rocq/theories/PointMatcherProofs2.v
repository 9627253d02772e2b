From Verif Require Import Base PairingsModel PairingsProofs MatcherModel PipelineSpec PipelineProofs
  BitfieldModel BitfieldProofs PointMatcherModel PointMatcherSpec PointMatcherProofs.
From Coq Require Import Lqa Permutation Sorted.

Lemma isNil_false {A} (l : list A) : isNil l = false -> l <> [].
Proof. destruct l; [discriminate|]. intros _. discriminate. Qed.

Lemma StronglySorted_split {A} (R : A -> A -> Prop) (l : list A) n :
  StronglySorted R l -> forall x y, In x (firstn n l) -> In y (skipn n l) -> R x y.
Proof.
  revert n. induction l as [|a l IH]; intros n H x y Hx Hy.
  - rewrite firstn_nil in Hx. destruct Hx.
  - destruct n; [destruct Hx|]. cbn in Hx, Hy. inversion H; subst.
    destruct Hx as [<-|Hx]; [|eapply IH; eauto].
    rewrite Forall_forall in H3. apply H3. rewrite <- (firstn_skipn n l). apply in_or_app. right. exact Hy.
Qed.

(** Full result of one layer of the inlier-ratio matcher. *)
Lemma ir_one_layer_ext fMax sh tf b mround ratio gl lpts g l ms out s' :
  ir_one_layer fMax sh tf b mround ratio gl lpts g l ms out = Ok s' ->
  (forall nn, ly_nn gl = Some nn -> nn_correct nn) ->
  exists nn new, ly_nn gl = Some nn
    /\ Ext (allowMatchAlreadyMatchedGlobalPoints b) true (pair_ok tf nn lpts g l) (ms, out) s' new
    /\ lfree (allowMatchAlreadyMatchedPoints b) (ms, out) new
    /\ same_but_potential out (snd s')
    /\ potential_pairings (snd s') = potential_pairings out + length lpts
    /\ ((new = [] /\ (nn_points nn = [] \/ lpts = [] \/ exists tl,
             transform_local_to_global fMax sh tf lpts (maxLocalPointsPerLayer b) = Ok tl
             /\ bb_intersects (nn_bbox nn) (tl_min tl, tl_max tl) (bbox_epsilon b) = false))
         \/ exists tl lis cands sorted,
          transform_local_to_global fMax sh tf lpts (maxLocalPointsPerLayer b) = Ok tl
          /\ Forall2 (fun i li => local_index tl i = Ok li) (seq 0 (length (tl_pts tl))) lis
          /\ map p_localIdx cands = filter (eligible b ms l) lis
          /\ Forall (fun p => pair_ok tf nn lpts g l p
                /\ forall j h, nth_error (nn_points nn) j = Some h -> (p_err p <= sqd (tf (p_local p)) h)%Q) cands
          /\ Permutation sorted cands /\ StronglySorted err_le sorted
          /\ let nKeep := mround (inject_Z (Z.of_nat (length sorted)) * ratio)%Q in
             (0 <= nKeep <= Z.of_nat (length sorted))%Z
             /\ let kept := firstn (Z.to_nat nKeep) sorted in
                length new <= length kept
                /\ (allowMatchAlreadyMatchedGlobalPoints b = true -> new = kept)
                /\ (forall p, In p new -> In p kept)
                /\ (forall p, In p kept -> In p new \/
                      (allowMatchAlreadyMatchedGlobalPoints b = false
                       /\ (marked (ms_global ms) (gkey p) \/ exists p', In p' new /\ gkey p' = gkey p)))
                /\ (NoDup (map p_localIdx kept) -> NoDup (map p_localIdx new))).
Proof.
  unfold ir_one_layer. intros H HN.
  destruct (Qle_bool ratio 0 || Qle_bool 1 ratio); [discriminate|].
  destruct (ly_nn gl) as [nn|] eqn:En; [|discriminate]. specialize (HN nn eq_refl).
  exists nn.
  destruct (isNil (nn_points nn) || isNil lpts) eqn:Ee.
  { injection H as <-. exists []. split; [reflexivity|]. split; [apply Ext_nil; reflexivity|].
    split; [intros _; constructor|]. split; [repeat split|]. split; [reflexivity|]. left. split; [reflexivity|].
    apply orb_true_iff in Ee as [Ee|Ee]; [left; destruct (nn_points nn)|right; left; destruct lpts]; try discriminate; reflexivity. }
  apply orb_false_iff in Ee as [Ee1 Ee2]. apply isNil_false in Ee1, Ee2.
  destruct (transform_local_to_global fMax sh tf lpts (maxLocalPointsPerLayer b)) as [tl| |] eqn:Et;
    cbn [rbind] in H; try discriminate.
  destruct (negb (bb_intersects _ _ _)) eqn:Ebb.
  { injection H as <-. exists []. split; [reflexivity|]. split; [apply Ext_nil; reflexivity|].
    split; [intros _; constructor|]. split; [repeat split|]. split; [reflexivity|]. left. split; [reflexivity|].
    right. right. exists tl. split; [reflexivity|]. apply negb_true_iff. exact Ebb. }
  destruct (ir_candidates b nn lpts tl g l ms (seq 0 (length (tl_pts tl))) []) as [sorted| |] eqn:Ec;
    cbn [rbind] in H; try discriminate.
  destruct (isNil sorted) eqn:Es; [discriminate|].
  apply (ir_candidates_spec b tf) in Ec; [|exact (tl_spec _ _ _ _ _ _ Et)|exact HN|exact Ee1|constructor].
  destruct Ec as [cands [lis [P1 [P2 [P3 [P4 P5]]]]]]. cbn [app] in P1.
  set (nKeep := mround (inject_Z (Z.of_nat (length sorted)) * ratio)%Q) in *.
  destruct ((nKeep <? 0)%Z || (Z.of_nat (length sorted) <? nKeep)%Z) eqn:Er; [discriminate|].
  apply orb_false_iff in Er as [R1 R2]. apply Z.ltb_ge in R1, R2.
  set (kept := firstn (Z.to_nat nKeep) sorted) in *.
  assert (HK : forall p, In p kept -> In p cands).
  { intros p Hp. apply (Permutation_in _ P1). unfold kept in Hp.
    rewrite <- (firstn_skipn (Z.to_nat nKeep) sorted). apply in_or_app. left. exact Hp. }
  apply (ir_emit_spec b (fun p => pair_ok tf nn lpts g l p)) in H.
  - destruct H as [new [X1 [X2 [X3 [X4 [X5 X6]]]]]]. exists new. split; [reflexivity|].
    split; [eapply Ext_start; exact X1|]. apply same_rest_potential in X2 as [X2 X7].
    split.
    + intro Ha. rewrite Forall_forall. intros p Hp. apply X5, HK in Hp.
      rewrite Forall_forall in P5. destruct (P5 p Hp) as [[_ [Hl _]] _].
      apply (in_map p_localIdx) in Hp. rewrite P4 in Hp. apply filter_In in Hp as [_ Hp].
      unfold eligible in Hp. rewrite Ha in Hp. cbn [orb] in Hp.
      unfold marked, lkey. cbn [fst snd]. rewrite Hl. intro X. rewrite X in Hp. discriminate.
    + split; [exact X2|]. split; [exact X7|]. right. exists tl, lis, cands, sorted.
      split; [reflexivity|]. split; [exact P3|]. split; [exact P4|]. split; [exact P5|].
      split; [exact P1|]. split; [exact P2|]. fold nKeep. cbv zeta. split; [lia|].
      fold kept. split; [exact X3|]. split; [exact X4|]. split; [exact X5|]. exact X6.
  - rewrite Forall_forall. intros p Hp. apply HK in Hp. rewrite Forall_forall in P5.
    destruct (P5 p Hp) as [Hok _]. split; [exact Hok|]. destruct Hok as [A [B _]]. auto.
Qed.

(** ** impl_match *)
Lemma find_layer_in {A} (ls : list (nat * A)) k v : find_layer ls k = Some v -> In (k, v) ls.
Proof.
  induction ls as [|[k' v'] ls IH]; cbn; [discriminate|].
  destruct (Nat.eqb_spec k' k) as [->|]; [intros [= ->]; left; reflexivity|right; auto].
Qed.

(** What is required from the one-layer function. *)
Definition one_layer_ok (one_layer : Layer -> list P3 -> nat -> nat -> MatchState -> ptpairings
    -> res (MatchState * ptpairings)) (aG aL mk : bool) (Gl : Layer -> list P3 -> nat -> nat -> Pair -> Prop)
    (pot : list P3 -> nat) : Prop :=
  forall gl lpts g l ms out s', one_layer gl lpts g l ms out = Ok s' ->
  (forall nn, ly_nn gl = Some nn -> nn_correct nn) ->
  exists new, Ext aG mk (Gl gl lpts g l) (ms, out) s' new /\ lfree aL (ms, out) new
    /\ same_but_potential out (snd s')
    /\ potential_pairings (snd s') = potential_pairings out + pot lpts
    /\ length new <= pot lpts.

Lemma dt_ok fMax sh tf b threshold ang k :
  one_layer_ok (dt_one_layer fMax sh tf b threshold ang k)
    (allowMatchAlreadyMatchedGlobalPoints b) (allowMatchAlreadyMatchedPoints b)
    (negb (allowMatchAlreadyMatchedGlobalPoints b))
    (fun gl lpts g l p => exists nn, ly_nn gl = Some nn /\ pair_ok tf nn lpts g l p /\ dt_bound tf threshold ang p)
    (fun lpts => length lpts * k).
Proof.
  intros gl lpts g l ms out s' H HN. apply dt_one_layer_ext in H; [|exact HN].
  destruct H as [nn [new [H1 [[A B C D E F] H3]]]]. exists new. split; [|exact H3].
  constructor; auto. eapply Forall_impl; [|exact D]. cbn. eauto.
Qed.

Lemma Forall2_len {A B} (R : A -> B -> Prop) l l' : Forall2 R l l' -> length l = length l'.
Proof. induction 1; cbn; congruence. Qed.
Lemma filter_len {A} (f : A -> bool) l : length (filter f l) <= length l.
Proof. induction l as [|x l IH]; cbn; [lia|]. destruct (f x); cbn; lia. Qed.

Lemma tl_length fMax sh tf lpts mx tl : (forall l, Permutation (sh l) l) ->
  transform_local_to_global fMax sh tf lpts mx = Ok tl -> length (tl_pts tl) <= length lpts.
Proof.
  unfold transform_local_to_global. intros HS T1.
  destruct (Nat.eqb mx 0 || Nat.leb (length lpts) mx) eqn:E.
  - injection T1 as <-. cbn. rewrite map_length. lia.
  - destruct (gather lpts (sh (seq 0 mx))) as [sel| |] eqn:Eg; cbn [rbind] in T1; try discriminate.
    injection T1 as <-. cbn. rewrite map_length. apply gather_spec in Eg.
    apply (f_equal (@length _)) in Eg. rewrite !map_length in Eg.
    rewrite (Permutation_length (HS (seq 0 mx))), seq_length in Eg.
    apply orb_false_iff in E as [_ E]. apply Nat.leb_gt in E. lia.
Qed.

Lemma ir_ok fMax sh tf b mround ratio : (forall l, Permutation (sh l) l) ->
  one_layer_ok (ir_one_layer fMax sh tf b mround ratio)
    (allowMatchAlreadyMatchedGlobalPoints b) (allowMatchAlreadyMatchedPoints b) true
    (fun gl lpts g l p => exists nn, ly_nn gl = Some nn /\ pair_ok tf nn lpts g l p)
    (fun lpts => length lpts).
Proof.
  intros HS gl lpts g l ms out s' H HN. apply ir_one_layer_ext in H; [|exact HN].
  destruct H as [nn [new [H1 [[A B C D E F] [H3 [H4 [H5 H6]]]]]]]. exists new.
  split; [constructor; auto; eapply Forall_impl; [|exact D]; cbn; eauto|].
  split; [exact H3|]. split; [exact H4|]. split; [exact H5|].
  destruct H6 as [[-> _]|[tl [lis [cands [sorted [T1 [T2 [T3 [T4 [T5 [T6 T7]]]]]]]]]]]; [cbn; lia|].
  cbv zeta in T7. destruct T7 as [_ [T7 _]]. etransitivity; [exact T7|].
  rewrite firstn_length. apply Forall2_len in T2. rewrite seq_length in T2.
  apply Permutation_length in T5. apply (f_equal (@length nat)) in T3. rewrite map_length in T3.
  pose proof (filter_len (eligible b ms l) lis) as X.
  pose proof (tl_length _ _ _ _ _ _ HS T1) as Y. lia.
Qed.

Section Impl.
Variable one_layer : Layer -> list P3 -> nat -> nat -> MatchState -> ptpairings
    -> res (MatchState * ptpairings).
Variables aG aL mk : bool.
Variable Gl : Layer -> list P3 -> nat -> nat -> Pair -> Prop.
Variable pot : list P3 -> nat.
Hypothesis HOL : one_layer_ok one_layer aG aL mk Gl pot.
Variable b : BaseParams.
Variables pcGlobal pcLocal : Layers.

Definition GG (p : Pair) : Prop :=
  exists gl ll lpts, In (p_glayer p, gl) pcGlobal /\ find_layer pcLocal (p_llayer p) = Some ll
    /\ ly_points ll = Some lpts /\ Gl gl lpts (p_glayer p) (p_llayer p) p.
Hypothesis HGL : forall gl lpts g l p, Gl gl lpts g l p -> p_glayer p = g /\ p_llayer p = l.

(** One visited match: names, weight, the points of the local layer and the pairings it added. *)
Record Blk : Type := mkBlk { bk_g : nat; bk_l : nat; bk_w : option Q; bk_pts : list P3; bk_new : list Pair }.
Definition blk_ok (k : Blk) : Prop :=
  (exists ll, find_layer pcLocal (bk_l k) = Some ll /\ ly_points ll = Some (bk_pts k))
  /\ Forall (fun p => p_glayer p = bk_g k /\ p_llayer p = bk_l k) (bk_new k)
  /\ length (bk_new k) <= pot (bk_pts k).

(** the output after visiting the blocks [bs] *)
Definition extends (s s' : MatchState * ptpairings) (bs : list Blk) : Prop :=
  Ext aG mk GG s s' (flat_map bk_new bs) /\ lfree aL s (flat_map bk_new bs)
  /\ Forall blk_ok bs
  /\ paired_pt2ln (snd s') = paired_pt2ln (snd s) /\ paired_pt2pl (snd s') = paired_pt2pl (snd s)
  /\ paired_ln2ln (snd s') = paired_ln2ln (snd s) /\ paired_pl2pl (snd s') = paired_pl2pl (snd s)
  /\ point_weights (snd s') = point_weights (snd s) ++ blocks_weights (map (fun k => (bk_new k, bk_w k)) bs)
  /\ potential_pairings (snd s') = potential_pairings (snd s) + list_sum (map (fun k => pot (bk_pts k)) bs).

Lemma extends_nil s : extends s s [].
Proof.
  destruct s as [ms out]. split; [apply Ext_nil; reflexivity|]. split; [intros _; constructor|].
  split; [constructor|]. cbn. repeat split; auto. symmetry. apply app_nil_r.
Qed.

Lemma extends_trans s s1 s2 b1 b2 : extends s s1 b1 -> extends s1 s2 b2 -> extends s s2 (b1 ++ b2).
Proof.
  intros [A1 [L1 [B1 [C1 [D1 [E1 [F1 [G1 H1]]]]]]]] [A2 [L2 [B2 [C2 [D2 [E2 [F2 [G2 H2]]]]]]]].
  unfold extends. rewrite flat_map_app. split; [eapply Ext_trans; eassumption|].
  split; [eapply lfree_trans; eassumption|]. split; [apply Forall_app; auto|].
  repeat (split; [congruence|]). split.
  - rewrite G2, G1, map_app. unfold blocks_weights. rewrite flat_map_app, app_assoc. reflexivity.
  - rewrite H2, H1, map_app, list_sum_app. lia.
Qed.

Lemma match_locals_ext g gl locals : In (g, gl) pcGlobal ->
  (forall nn, ly_nn gl = Some nn -> nn_correct nn) -> forall s s',
  match_locals one_layer pcLocal g gl locals s = Ok s' ->
  exists bs, extends s s' bs /\
    map (fun k => (bk_g k, bk_l k, bk_w k)) bs
    = map (fun lw => (g, fst lw, snd lw))
        (filter (fun lw => match find_layer pcLocal (fst lw) with Some _ => true | None => false end) locals)
    /\ Forall (fun lw => find_layer pcLocal (fst lw) = None -> snd lw = None) locals.
Proof.
  intros Hin HN. induction locals as [|[lname w] locals IH]; intros s s' H; cbn [match_locals] in H.
  - injection H as <-. exists []. split; [apply extends_nil|]. split; [reflexivity|constructor].
  - cbn [filter fst]. destruct (find_layer pcLocal lname) as [ll|] eqn:El.
    + destruct (ly_points ll) as [lpts|] eqn:Ep; [|discriminate]. destruct s as [ms out].
      destruct (one_layer gl lpts g lname ms out) as [[ms1 out1]| |] eqn:E1; cbn [rbind] in H; try discriminate.
      destruct (HOL _ _ _ _ _ _ _ E1 HN) as [new [X1 [X2 [X3 [X4 X5]]]]].
      apply IH in H. destruct H as [bs [HB [HM HF]]].
      exists (mkBlk g lname w lpts new :: bs). split; [|split].
      * change (mkBlk g lname w lpts new :: bs) with ([mkBlk g lname w lpts new] ++ bs).
        eapply extends_trans; [|exact HB]. unfold extends. cbn [flat_map bk_new]. rewrite app_nil_r.
        assert (Happ := e_app _ _ _ _ _ _ X1). cbn [snd] in Happ.
        assert (Hlen : length (paired_pt2pt out1) = length (paired_pt2pt out) + length new)
          by (rewrite Happ, app_length; reflexivity).
        assert (HP : paired_pt2pt (match w with
             | Some w => if Nat.eqb (length (paired_pt2pt out1)) (length (paired_pt2pt out)) then out1
                         else add_weight out1 (length (paired_pt2pt out1) - length (paired_pt2pt out)) w
             | None => out1 end) = paired_pt2pt out1)
          by (destruct w; [destruct (Nat.eqb _ _)|]; reflexivity).
        destruct X1 as [A1 A2 A3 A4 A5 A6].
        split.
        { constructor; cbn [fst snd] in *; auto; [congruence|].
          eapply Forall_impl; [|exact A4]. intros p Hp. destruct (HGL _ _ _ _ _ Hp) as [<- <-].
          exists gl, ll, lpts. auto. }
        split; [exact X2|].
        split.
        { constructor; [|constructor]. split; [exists ll; auto|]. split; [|exact X5].
          eapply Forall_impl; [|exact A4]. cbn. intros p Hp. exact (HGL _ _ _ _ _ Hp). }
        unfold same_but_potential in X3. cbn [snd] in X3, X4 |- *. destruct X3 as [Y1 [Y2 [Y3 [Y4 Y5]]]].
        cbn [map bk_pts bk_w bk_new list_sum fold_right blocks_weights flat_map].
        rewrite Nat.add_0_r, !app_nil_r.
        destruct w as [w|].
        -- destruct (Nat.eqb_spec (length (paired_pt2pt out1)) (length (paired_pt2pt out))) as [Eq|Ne].
           ++ assert (new = []) as -> by (destruct new; [reflexivity|cbn in Hlen; lia]).
              rewrite app_nil_r. auto 8.
           ++ destruct new as [|p0 new']; [cbn in Hlen; lia|].
              unfold add_weight. cbn [paired_pt2ln paired_pt2pl paired_ln2ln paired_pl2pl point_weights potential_pairings].
              replace (length (paired_pt2pt out1) - length (paired_pt2pt out)) with (length (p0 :: new')) by lia.
              repeat (split; [assumption|]). split; [rewrite Y5; reflexivity|exact X4].
        -- destruct new; rewrite app_nil_r; auto 8.
      * cbn [map]. rewrite HM. reflexivity.
      * constructor; [cbn; congruence|exact HF].
    + destruct w as [w|]; [discriminate|]. apply IH in H. destruct H as [bs [HB [HM HF]]].
      exists bs. split; [exact HB|]. split; [exact HM|]. constructor; [reflexivity|exact HF].
Qed.

(** The matches made for one global layer. *)
Definition wanted (kg : nat * Layer) : list (nat * nat * option Q) :=
  match local_layers b (fst kg) with
  | None => []
  | Some ls => map (fun lw => (fst kg, fst lw, snd lw))
        (filter (fun lw => match find_layer pcLocal (fst lw) with Some _ => true | None => false end) ls)
  end.

Lemma match_globals_ext : layers_correct pcGlobal -> forall gs, (forall x, In x gs -> In x pcGlobal) ->
  forall s s', match_globals one_layer b pcLocal gs s = Ok s' ->
  exists bs, extends s s' bs /\ map (fun k => (bk_g k, bk_l k, bk_w k)) bs = flat_map wanted gs
    /\ Forall (fun kg => forall ls, local_layers b (fst kg) = Some ls ->
          Forall (fun lw => find_layer pcLocal (fst lw) = None -> snd lw = None) ls) gs.
Proof.
  intros HC. induction gs as [|[g gl] gs IH]; intros HI s s' H; cbn [match_globals] in H.
  - injection H as <-. exists []. split; [apply extends_nil|]. split; [reflexivity|constructor].
  - cbn [flat_map]. unfold wanted at 1. cbn [fst] in *. destruct (local_layers b g) as [ls|] eqn:El.
    + destruct (match_locals one_layer pcLocal g gl ls s) as [s1| |] eqn:E1; cbn [rbind] in H; try discriminate.
      apply match_locals_ext in E1.
      * destruct E1 as [b1 [X1 [X2 X3]]]. apply IH in H; [|intros; apply HI; right; assumption].
        destruct H as [b2 [Y1 [Y2 Y3]]]. exists (b1 ++ b2). split; [eapply extends_trans; eassumption|].
        split; [rewrite map_app, X2, Y2; reflexivity|]. constructor; [|exact Y3].
        cbn [fst]. rewrite El. intros ls' [= <-]. exact X3.
      * apply HI. left. reflexivity.
      * intros nn Hnn. apply (HC g gl nn); [apply HI; left; reflexivity|exact Hnn].
    + apply IH in H; [|intros; apply HI; right; assumption].
      destruct H as [b2 [Y1 [Y2 Y3]]]. exists b2. split; [exact Y1|]. split; [exact Y2|].
      constructor; [|exact Y3]. cbn [fst]. rewrite El. discriminate.
Qed.

Lemma base_impl_match_ext ms out ms' f out' : layers_correct pcGlobal ->
  base_impl_match one_layer b pcGlobal pcLocal ms out = Ok (ms', f, out') ->
  exists bs, extends (ms, pairings_empty_ctor) (ms', out') bs
    /\ map (fun k => (bk_g k, bk_l k, bk_w k)) bs = flat_map wanted pcGlobal
    /\ Forall (fun kg => forall ls, local_layers b (fst kg) = Some ls ->
          Forall (fun lw => find_layer pcLocal (fst lw) = None -> snd lw = None) ls) pcGlobal
    /\ f = true.
Proof.
  intros HC H. unfold base_impl_match in H.
  destruct (match_globals one_layer b pcLocal pcGlobal (ms, pairings_empty_ctor)) as [[ms1 out1]| |] eqn:E;
    cbn [rbind] in H; try discriminate.
  injection H as <- <- <-. apply match_globals_ext in E; auto.
  destruct E as [bs [X1 [X2 X3]]]. exists bs. auto.
Qed.
End Impl.
