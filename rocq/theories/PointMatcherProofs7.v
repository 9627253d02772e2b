(** Safety of whole matching runs (C55): the match state always covers the maps. *)
From Verif Require Import Base PairingsModel PairingsProofs MatcherModel PipelineSpec PipelineProofs
  BitfieldModel BitfieldProofs PointMatcherModel PointMatcherSpec PointMatcherProofs PointMatcherProofs2
  PointMatcherProofs3 PointMatcherProofs4 PointMatcherProofs5.
From Coq Require Import Lqa Permutation.

(** Every layer has its bit field, of the size of the layer when dense. *)
Definition fits (ls : Layers) (m : LayerBits) : Prop :=
  forall k l nn, In (k, l) ls -> ly_nn l = Some nn ->
  exists bf, lb_find m k = Some bf /\ forall v, dense_ bf = Some v -> length v = length (nn_points nn).

Lemma fits_query ls m k l nn i : fits ls m -> In (k, l) ls -> ly_nn l = Some nn -> i < length (nn_points nn) ->
  exists x, query m k i = Ok x.
Proof.
  intros F I N L. destruct (F k l nn I N) as [bf [E1 E2]]. unfold query, lb_at. rewrite E1. cbn [rbind].
  unfold bits_get. destruct (dense_ bf) as [v|]; [|eauto]. specialize (E2 v eq_refl).
  destruct (nth_error v i) eqn:E; [eauto|]. apply nth_error_None in E. lia.
Qed.

Lemma fits_mark ls m k l nn i : unique_names ls -> fits ls m -> In (k, l) ls -> ly_nn l = Some nn ->
  i < length (nn_points nn) ->
  exists b', bits_mark (lb_get_or_default m k) i = Ok b' /\ fits ls (lb_set m k b').
Proof.
  intros U F I N L. destruct (F k l nn I N) as [bf [E1 E2]]. unfold lb_get_or_default. rewrite E1.
  assert (X : exists b', bits_mark bf i = Ok b' /\ forall v, dense_ b' = Some v -> length v = length (nn_points nn)).
  { unfold bits_mark. destruct (dense_ bf) as [v|] eqn:Ed.
    - specialize (E2 v eq_refl). destruct (Nat.ltb_spec i (length v)); [|lia]. eexists. split; [reflexivity|].
      cbn. intros v' [= <-]. rewrite length_upd. exact E2.
    - eexists. split; [reflexivity|]. cbn. discriminate. }
  destruct X as [b' [X1 X2]]. exists b'. split; [exact X1|].
  intros k' l' nn' I' N'. rewrite lb_find_set. destruct (Nat.eqb_spec k k') as [EK|NK]; [|eapply F; eassumption].
  subst k'. exists b'. split; [reflexivity|]. intros v Hv. rewrite (X2 v Hv).
  assert (l' = l) by (eapply find_layer_unique; eassumption). subst. congruence.
Qed.

Section Safe.
Variables pcGlobal pcLocal : Layers.
Hypothesis UG : unique_names pcGlobal.
Hypothesis UL : unique_names pcLocal.
Hypothesis HC : layers_correct pcGlobal.

Definition msfits (ms : MatchState) : Prop := fits pcLocal (ms_local ms) /\ fits pcGlobal (ms_global ms).
Definition safe {A} (r : res (MatchState * A)) : Prop :=
  match r with Ok s => msfits (fst s) | Throw => True | UB => False end.
Definition total {A} (r : res (MatchState * A)) : Prop := exists s, r = Ok s /\ msfits (fst s).
Lemma total_safe {A} (r : res (MatchState * A)) : total r -> safe r.
Proof. intros [s [-> H]]. exact H. Qed.

(** One pair of layers: their places in the maps. *)
Section OnePair.
Variables (g l : nat) (gl ll : Layer) (nn ln : NNMap) (lpts : list P3).
Hypothesis IG : In (g, gl) pcGlobal.
Hypothesis NG : ly_nn gl = Some nn.
Hypothesis IL : In (l, ll) pcLocal.
Hypothesis NL : ly_nn ll = Some ln.
Hypothesis LL : length lpts = length (nn_points ln).

Lemma mark_both_total ms li gi : msfits ms -> li < length lpts -> gi < length (nn_points nn) ->
  exists ms', mark_both ms l li g gi = Ok ms' /\ msfits ms'.
Proof.
  intros [F1 F2] H1 H2. unfold mark_both.
  destruct (fits_mark _ _ l ll ln li UL F1 IL NL ltac:(lia)) as [b1 [-> X1]]. cbn [rbind].
  destruct (fits_mark _ _ g gl nn gi UG F2 IG NG H2) as [b2 [-> X2]]. cbn [rbind].
  eexists. split; [reflexivity|]. split; assumption.
Qed.

Lemma nn_in_range q k i h d : In (i, h, d) (nn_search nn q k) -> i < length (nn_points nn).
Proof.
  intro H. destruct (HC g gl nn IG NG) as [HN _]. destruct (HN q k) as [N1 _]. apply N1 in H as [H _].
  apply nth_error_Some. congruence.
Qed.

Section DTs.
Variable b : BaseParams.
Lemma dt_neighbours_total' li thr ns : li < length lpts ->
  (forall i h d, In (i, h, d) ns -> i < length (nn_points nn)) -> forall s, msfits (fst s) ->
  total (dt_neighbours b lpts g l li thr ns s).
Proof.
  intros Hl. induction ns as [|[[gi gpt] err] ns IH]; intros Hn s Hs; cbn [dt_neighbours]; [exists s; auto|].
  destruct (Qle_bool thr err); [exists s; auto|].
  assert (X : total (dt_add_pair b lpts g l li gpt gi err s)).
  { unfold dt_add_pair. destruct s as [ms out]. cbn [fst] in Hs.
    assert (Hg : gi < length (nn_points nn)) by (eapply Hn; left; reflexivity).
    destruct (fits_query _ _ g gl nn gi (proj2 Hs) IG NG Hg) as [x Hx].
    destruct (nth_error lpts li) as [lp|] eqn:E; [|apply nth_error_None in E; lia].
    destruct (allowMatchAlreadyMatchedGlobalPoints b); cbn [rbind].
    - eexists. split; [reflexivity|exact Hs].
    - rewrite Hx. cbn [rbind]. destruct x; [eexists; split; [reflexivity|exact Hs]|].
      destruct (mark_both_total ms li gi Hs Hl Hg) as [ms' [-> H']]. cbn [rbind].
      eexists. split; [reflexivity|exact H']. }
  destruct X as [s1 [-> H1]]. cbn [rbind]. apply IH; [|exact H1]. intros i h d Hi. eapply Hn. right. exact Hi.
Qed.

Lemma dt_loop_total thr ang k tl is : forall s, msfits (fst s) ->
  Forall (fun i => exists li, local_index tl i = Ok li /\ li < length lpts /\ i < length (tl_pts tl)) is ->
  total (dt_loop b thr ang k nn lpts tl g l is s).
Proof.
  induction is as [|i is IH]; intros s Hs H; [exists s; auto|]. inversion H as [|? ? [li [A [B C]]] H']; subst.
  cbn [dt_loop]. rewrite A. cbn [rbind].
  destruct (fits_query _ _ l ll ln li (proj1 Hs) IL NL ltac:(lia)) as [x Hx].
  assert (Y : exists y, (if allowMatchAlreadyMatchedPoints b then Ok false else query (ms_local (fst s)) l li) = Ok y)
    by (destruct (allowMatchAlreadyMatchedPoints b); eauto).
  destruct Y as [y ->]. cbn [rbind]. destruct y; [apply IH; assumption|].
  destruct (nth_error (tl_pts tl) i) as [q|] eqn:Eq; [|apply nth_error_None in Eq; lia].
  destruct (dt_neighbours_total' li (qsq thr + ang * normSqr q) (nn_search nn q k) B
    (fun i h d => nn_in_range q k i h d) s Hs) as [s1 [-> H1]].
  cbn [rbind]. apply IH; assumption.
Qed.

Lemma dt_one_layer_total fMax sh tf thr ang k ms out : msfits ms ->
  1 <= k -> (0 < thr)%Q -> (0 <= ang)%Q ->
  (maxLocalPointsPerLayer b = 0 \/ length lpts <= maxLocalPointsPerLayer b) ->
  total (dt_one_layer fMax sh tf b thr ang k gl lpts g l ms out).
Proof.
  intros Hs Hk Ht Ha Hmx. unfold dt_one_layer. destruct (Nat.ltb_spec k 1); [lia|].
  destruct (Qle_bool thr 0) eqn:E1; [apply Qle_bool_iff in E1; lra|].
  destruct (Qltb ang 0) eqn:E2; [apply Qltb_lt in E2; lra|]. cbn [orb]. rewrite NG.
  destruct (isNil (nn_points nn) || isNil lpts); [eexists; split; [reflexivity|exact Hs]|].
  unfold transform_local_to_global.
  destruct (Nat.eqb (maxLocalPointsPerLayer b) 0 || Nat.leb (length lpts) (maxLocalPointsPerLayer b)) eqn:Eb.
  2:{ apply orb_false_iff in Eb as [X1 X2]. apply Nat.eqb_neq in X1. apply Nat.leb_gt in X2. lia. }
  cbn [rbind]. destruct (negb _); [eexists; split; [reflexivity|exact Hs]|].
  apply dt_loop_total; [exact Hs|]. rewrite Forall_forall. intros i Hi. apply in_seq in Hi. exists i. cbn.
  rewrite map_length. split; [reflexivity|lia].
Qed.
Lemma dt_one_layer_safe fMax sh tf thr ang k ms out : msfits ms ->
  (maxLocalPointsPerLayer b = 0 \/ length lpts <= maxLocalPointsPerLayer b) ->
  safe (dt_one_layer fMax sh tf b thr ang k gl lpts g l ms out).
Proof.
  intros Hs Hmx. destruct (Nat.ltb k 1 || Qle_bool thr 0 || Qltb ang 0) eqn:E.
  - unfold dt_one_layer. rewrite E. exact I.
  - apply orb_false_iff in E as [E E3]. apply orb_false_iff in E as [E1 E2].
    apply total_safe, dt_one_layer_total; auto.
    + apply Nat.ltb_ge in E1. exact E1.
    + apply Qle_bool_false in E2. exact E2.
    + apply Qltb_ge in E3. exact E3.
Qed.
End DTs.

Section IRs.
Variable b : BaseParams.
Definition cand_in_range (p : Pair) : Prop := p_globalIdx p < length (nn_points nn) /\ p_localIdx p < length lpts.

Lemma ir_candidates_total tl ms is : msfits ms ->
  Forall (fun i => exists li, local_index tl i = Ok li /\ li < length lpts /\ i < length (tl_pts tl)) is ->
  forall acc, Forall cand_in_range acc ->
  exists r, ir_candidates b nn lpts tl g l ms is acc = Ok r /\ Forall cand_in_range r.
Proof.
  intros Hs. induction is as [|i is IH]; intros H acc Ha; [exists acc; auto|].
  inversion H as [|? ? [li [A [B C]]] H']; subst. cbn [ir_candidates]. rewrite A. cbn [rbind].
  destruct (fits_query _ _ l ll ln li (proj1 Hs) IL NL ltac:(lia)) as [x Hx].
  assert (Y : exists y, (if allowMatchAlreadyMatchedPoints b then Ok false else query (ms_local ms) l li) = Ok y)
    by (destruct (allowMatchAlreadyMatchedPoints b); eauto).
  destruct Y as [y ->]. cbn [rbind]. destruct y; [apply IH; assumption|].
  destruct (nth_error (tl_pts tl) i) as [q|] eqn:Eq; [|apply nth_error_None in Eq; lia].
  destruct (nth_error lpts li) as [lp|] eqn:El; [|apply nth_error_None in El; lia].
  destruct (nn_search nn q 1) as [|[[gi gpt] err] r0] eqn:En; [apply IH; assumption|].
  apply IH; [assumption|]. eapply Permutation_Forall; [symmetry; apply mm_insert_perm|]. constructor; [|exact Ha].
  split; cbn; [|exact B]. apply (nn_in_range q 1 gi gpt err). rewrite En. left. reflexivity.
Qed.

Lemma ir_emit_total ps : Forall cand_in_range ps -> forall s, msfits (fst s) -> total (ir_emit b ps g l s).
Proof.
  induction 1 as [|p ps [P1 P2] _ IH]; intros [ms out] Hs; cbn [ir_emit]; [eexists; split; [reflexivity|exact Hs]|].
  cbn [fst] in Hs. destruct (fits_query _ _ g gl nn _ (proj2 Hs) IG NG P1) as [x Hx].
  destruct (mark_both_total ms _ _ Hs P2 P1) as [ms' [E' H']].
  assert (Y : exists y, (if allowMatchAlreadyMatchedGlobalPoints b then Ok false
    else query (ms_global ms) g (p_globalIdx p)) = Ok y) by (destruct (allowMatchAlreadyMatchedGlobalPoints b); eauto).
  destruct Y as [y ->]. cbn [rbind]. destruct y; [apply IH; exact Hs|]. rewrite E'. cbn [rbind]. apply IH. exact H'.
Qed.

Lemma ir_one_layer_safe fMax sh tf mround ratio ms out : (forall l, Permutation (sh l) l) ->
  rounds_to_nearest mround -> msfits ms ->
  safe (ir_one_layer fMax sh tf b mround ratio gl lpts g l ms out).
Proof.
  intros HS HR Hs. unfold ir_one_layer. destruct (Qle_bool ratio 0 || Qle_bool 1 ratio) eqn:Er; [exact I|].
  apply orb_false_iff in Er as [R1 R2]. apply Qle_bool_false in R1, R2. rewrite NG.
  destruct (isNil (nn_points nn) || isNil lpts); [exact Hs|].
  destruct (transform_local_to_global fMax sh tf lpts (maxLocalPointsPerLayer b)) as [tl| |] eqn:Et; cbn [rbind].
  2:{ exact I. }
  2:{ unfold transform_local_to_global in Et.
      destruct (Nat.eqb_spec (maxLocalPointsPerLayer b) 0); [discriminate|].
      destruct (Nat.leb_spec (length lpts) (maxLocalPointsPerLayer b)); [discriminate|]. cbn [orb] in Et.
      destruct (gather_valid lpts (sh (seq 0 (maxLocalPointsPerLayer b)))) as [ps Eg].
      { apply perm_valid; assumption. }
      rewrite Eg in Et. discriminate. }
  destruct (negb _); [exact Hs|].
  destruct (ir_candidates_total tl ms (seq 0 (length (tl_pts tl))) Hs) with (acc := @nil Pair) as [cs [Ec Fc]].
  { rewrite Forall_forall. intros i Hi. apply in_seq in Hi. unfold transform_local_to_global in Et.
    destruct (Nat.eqb (maxLocalPointsPerLayer b) 0 || Nat.leb (length lpts) (maxLocalPointsPerLayer b)) eqn:Eb.
    - injection Et as <-. cbn [tl_pts] in Hi. rewrite map_length in Hi. exists i. cbn. rewrite map_length.
      split; [reflexivity|lia].
    - apply orb_false_iff in Eb as [X1 X2]. apply Nat.leb_gt in X2.
      destruct (gather lpts (sh (seq 0 (maxLocalPointsPerLayer b)))) as [ps| |] eqn:Eg; try discriminate.
      cbn [rbind] in Et. injection Et as <-. cbn [tl_pts] in *. rewrite map_length in *. unfold local_index. cbn [tl_idxs].
      pose proof (gather_spec _ _ _ Eg) as GS. apply (f_equal (@length _)) in GS. rewrite !map_length in GS.
      destruct (nth_error (sh (seq 0 (maxLocalPointsPerLayer b))) i) as [li|] eqn:Ei; [|apply nth_error_None in Ei; lia].
      exists li. split; [reflexivity|]. split; [|lia].
      pose proof (perm_valid sh _ lpts HS X2) as PV. rewrite Forall_forall in PV. apply PV. eapply nth_error_In. exact Ei. }
  { constructor. }
  rewrite Ec. cbn [rbind]. destruct (isNil cs); [exact I|].
  pose proof (ir_keep_range mround (length cs) ratio HR R1 R2) as KR.
  set (n := mround (inject_Z (Z.of_nat (length cs)) * ratio)%Q) in *.
  destruct ((n <? 0)%Z || (Z.of_nat (length cs) <? n)%Z) eqn:Ez.
  { unfold n in Ez. cbv zeta in KR. apply orb_true_iff in Ez as [Ez|Ez]; apply Z.ltb_lt in Ez; lia. }
  apply total_safe, ir_emit_total; [|exact Hs]. rewrite Forall_forall in *. intros p Hp. apply Fc.
  rewrite <- (firstn_skipn (Z.to_nat n) cs). apply in_or_app. left. exact Hp.
Qed.
End IRs.
End OnePair.
End Safe.

(** ** Whole runs *)
Section Runs.
Variables (fMax : Q) (sh : list nat -> list nat) (mround : Q -> Z).
Variables pcGlobal pcLocal : Layers.
Hypothesis UG : unique_names pcGlobal.
Hypothesis UL : unique_names pcLocal.
Hypothesis HC : layers_correct pcGlobal.
Hypothesis HS : forall l, Permutation (sh l) l.
Hypothesis HR : rounds_to_nearest mround.
Hypothesis HL : points_searchable pcLocal.
Notation ok := (msfits pcGlobal pcLocal).

Lemma pm_one_layer_safe m tf g l gl ll lpts ms out : no_effective_limit pcLocal m -> ok ms ->
  In (g, gl) pcGlobal -> In (l, ll) pcLocal -> ly_points ll = Some lpts ->
  safe pcGlobal pcLocal (pm_one_layer fMax sh mround m tf gl lpts g l ms out).
Proof.
  intros HM Hs IG IL EP. destruct (HL l ll lpts IL EP) as [ln [EL EN]].
  destruct (ly_nn gl) as [nn|] eqn:NG.
  - destruct m as [b thr ang k|b r]; cbn [pm_one_layer].
    + eapply dt_one_layer_safe; eauto. cbn in HM. destruct HM as [HM|HM]; [left; exact HM|right; eauto].
    + eapply ir_one_layer_safe; eauto.
  - destruct m as [b thr ang k|b r]; cbn [pm_one_layer]; [unfold dt_one_layer|unfold ir_one_layer]; rewrite NG;
    match goal with |- context[if ?x then _ else _] => destruct x end; exact I.
Qed.

Lemma match_locals_safe m tf g gl locals : no_effective_limit pcLocal m -> In (g, gl) pcGlobal -> forall s, ok (fst s) ->
  safe pcGlobal pcLocal (match_locals (pm_one_layer fMax sh mround m tf) pcLocal g gl locals s).
Proof.
  intros HM IG. induction locals as [|[l w] locals IH]; intros s Hs; cbn [match_locals]; [exact Hs|].
  destruct (find_layer pcLocal l) as [ll|] eqn:El.
  - destruct (ly_points ll) as [lpts|] eqn:Ep; [|exact I]. destruct s as [ms out].
    pose proof (pm_one_layer_safe m tf g l gl ll lpts ms out HM Hs IG (find_layer_in _ _ _ El) Ep) as X.
    destruct (pm_one_layer fMax sh mround m tf gl lpts g l ms out) as [[ms1 out1]| |]; [|exact I|exact X].
    cbn [rbind]. apply IH. exact X.
  - destruct w; [exact I|]. apply IH. exact Hs.
Qed.

Lemma match_globals_safe m tf gs : no_effective_limit pcLocal m -> (forall x, In x gs -> In x pcGlobal) -> forall s, ok (fst s) ->
  safe pcGlobal pcLocal (match_globals (pm_one_layer fMax sh mround m tf) (pm_base m) pcLocal gs s).
Proof.
  intros HM. induction gs as [|[g gl] gs IH]; intros HI s Hs; cbn [match_globals]; [exact Hs|].
  destruct (local_layers (pm_base m) g) as [ls|].
  - pose proof (match_locals_safe m tf g gl ls HM (HI _ (or_introl eq_refl)) s Hs) as X.
    destruct (match_locals _ pcLocal g gl ls s) as [s1| |]; [|exact I|exact X].
    cbn [rbind]. apply IH; [intros; apply HI; right; assumption|exact X].
  - apply IH; [intros; apply HI; right; assumption|exact Hs].
Qed.

Lemma run_matchers_safe (pms : list (PointMatcher * nat * nat)) it tf :
  Forall (fun x => no_effective_limit pcLocal (fst (fst x))) pms -> forall ms, ok ms ->
  safe pcGlobal pcLocal
    (run_matchers (map (fun x => pm_matcher fMax sh mround pcGlobal pcLocal (fst (fst x)) (snd (fst x)) (snd x)) pms) it tf ms).
Proof.
  unfold run_matchers. generalize (@pairings_empty_ctor Pair unit unit unit unit Q).
  induction pms as [|[[m from] up] pms IH]; intros acc HF ms Hs; cbn [run_matchers_loop map]; [exact Hs|].
  inversion HF as [|? ? HM HF']; subst. cbn [fst snd] in *. unfold matcher_match.
  destruct (matcher_gate _ it).
  - cbn [m_impl_match pm_matcher]. unfold base_impl_match.
    pose proof (match_globals_safe m tf pcGlobal HM (fun x h => h) (ms, pairings_empty_ctor) Hs) as X.
    destruct (match_globals _ (pm_base m) pcLocal pcGlobal _) as [[ms1 out1]| |]; [|exact I|exact X].
    cbn [rbind]. apply IH; assumption.
  - cbn [rbind]. apply IH; assumption.
Qed.
End Runs.

Lemma fresh_fits ls m : unique_names ls -> bits_initialize_from (layer_info ls) [] = Ok m -> fits ls m.
Proof.
  intros U H k l nn I N.
  assert (ND : NoDup (map fst (layer_info ls))).
  { unfold layer_info. rewrite map_map. cbn [fst]. exact U. }
  rewrite (bits_init_find _ _ _ ND H k).
  assert (E : find (fun kl : nat * LayerInfo => Nat.eqb (fst kl) k) (layer_info ls)
              = Some (k, Some (Some (length (nn_points nn), nn_dense nn)))).
  { clear H ND m. induction ls as [|[k0 l0] ls IH]; [destruct I|]. inversion U as [|? ? Hn Hd]; subst.
    cbn [layer_info map find fst]. destruct I as [E|I].
    - injection E as <- <-. rewrite Nat.eqb_refl. cbn [snd]. rewrite N. reflexivity.
    - destruct (Nat.eqb_spec k0 k) as [->|]; [exfalso; apply Hn; apply (in_map fst) in I; exact I|]. apply IH; assumption. }
  rewrite E. eexists. split; [reflexivity|]. intros v Hv. unfold bits_assign in Hv.
  destruct (nn_dense nn); [|discriminate]. injection Hv as <-. apply repeat_length.
Qed.
Lemma fresh_total pcGlobal pcLocal : unique_names pcGlobal -> unique_names pcLocal ->
  exists ms, fresh_ms pcGlobal pcLocal = Ok ms /\ msfits pcGlobal pcLocal ms.
Proof.
  intros U1 U2.
  assert (X : forall ls m, exists m', init_layers (layer_info ls) m = Ok m').
  { induction ls as [|[k l] ls IH]; intro m; [cbn; eauto|]. cbn [layer_info map init_layers].
    destruct (ly_nn (snd (k, l))); cbn [option_map]; apply IH. }
  unfold fresh_ms.
  destruct (X pcLocal []) as [m1 E1]. destruct (X pcGlobal []) as [m2 E2].
  assert (B1 : exists b1, bits_initialize_from (layer_info pcLocal) [] = Ok b1)
    by (unfold bits_initialize_from; rewrite E1; cbn [rbind]; eauto).
  assert (B2 : exists b1, bits_initialize_from (layer_info pcGlobal) [] = Ok b1)
    by (unfold bits_initialize_from; rewrite E2; cbn [rbind]; eauto).
  destruct B1 as [b1 B1]. destruct B2 as [b2 B2]. rewrite B1, B2. cbn [rbind]. eexists. split; [reflexivity|].
  split; cbn; apply fresh_fits; assumption.
Qed.
