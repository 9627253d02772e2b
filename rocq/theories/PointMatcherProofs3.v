From Verif Require Import Base PairingsModel PairingsProofs MatcherModel PipelineSpec PipelineProofs
  BitfieldModel BitfieldProofs PointMatcherModel PointMatcherSpec PointMatcherProofs PointMatcherProofs2.
From Coq Require Import Lqa Permutation Sorted.

Lemma mark_both_conv_l ms l li g gi ms' x : mark_both ms l li g gi = Ok ms' ->
  marked (ms_local ms') x -> x = (l, li) \/ marked (ms_local ms) x.
Proof.
  unfold mark_both.
  destruct (bits_mark (lb_get_or_default (ms_local ms) l) li) as [lb| |] eqn:E1; cbn [rbind]; try discriminate.
  destruct (bits_mark (lb_get_or_default (ms_global ms) g) gi) as [gb| |] eqn:E2; cbn [rbind]; try discriminate.
  intros [= <-]. cbn. apply marked_set_conv. exact E1.
Qed.

(** Marks are only added for the emitted pairings. *)
Definition conv (s s' : MatchState * ptpairings) (new : list Pair) : Prop :=
  paired_pt2pt (snd s') = paired_pt2pt (snd s) ++ new
  /\ (forall x, marked (ms_global (fst s')) x -> marked (ms_global (fst s)) x \/ exists p, In p new /\ gkey p = x)
  /\ (forall x, marked (ms_local (fst s')) x -> marked (ms_local (fst s)) x \/ exists p, In p new /\ lkey p = x).

Lemma conv_nil s : conv s s [].
Proof. split; [rewrite app_nil_r; reflexivity|]. split; auto. Qed.
Lemma conv_trans s s1 s2 a b : conv s s1 a -> conv s1 s2 b -> conv s s2 (a ++ b).
Proof.
  intros [A1 [A2 A3]] [B1 [B2 B3]]. split; [rewrite B1, A1, app_assoc; reflexivity|]. split.
  - intros x H. destruct (B2 x H) as [H'|[p [H1 H2]]].
    + destruct (A2 x H') as [H''|[p [H1 H2]]]; [auto|]. right. exists p. rewrite in_app_iff. auto.
    + right. exists p. rewrite in_app_iff. auto.
  - intros x H. destruct (B3 x H) as [H'|[p [H1 H2]]].
    + destruct (A3 x H') as [H''|[p [H1 H2]]]; [auto|]. right. exists p. rewrite in_app_iff. auto.
    + right. exists p. rewrite in_app_iff. auto.
Qed.

Section DTC.
Variable b : BaseParams.
Notation aG := (allowMatchAlreadyMatchedGlobalPoints b).
Notation aL := (allowMatchAlreadyMatchedPoints b).

(** The global point (g, gi) is paired in [new], or was marked before. *)
Definition done_pair (s : MatchState * ptpairings) (new : list Pair) (l li g gi : nat) : Prop :=
  (exists p, In p new /\ gkey p = (g, gi) /\ lkey p = (l, li))
  \/ (aG = false /\ (marked (ms_global (fst s)) (g, gi) \/ exists p, In p new /\ gkey p = (g, gi))).

Lemma dt_add_pair_conv lpts g l li gpt gi err s s' :
  dt_add_pair b lpts g l li gpt gi err s = Ok s' ->
  exists new, conv s s' new /\ Forall (fun p => lkey p = (l, li)) new /\ done_pair s new l li g gi.
Proof.
  destruct s as [ms out]. unfold dt_add_pair. intros H.
  destruct (if aG then Ok false else query (ms_global ms) g gi) as [taken| |] eqn:Et; cbn [rbind] in H; try discriminate.
  destruct taken.
  - injection H as <-. exists []. split; [apply conv_nil|]. split; [constructor|]. right.
    destruct aG; [discriminate|]. split; [reflexivity|]. left. exact Et.
  - destruct (nth_error lpts li) as [lp|]; [|discriminate].
    set (p := mkPair gi li gpt lp err g l) in *.
    assert (HD : done_pair (ms, out) [p] l li g gi) by (left; exists p; repeat split; left; reflexivity).
    destruct aG eqn:Ea.
    + injection H as <-. exists [p]. split; [|split; [repeat constructor|exact HD]].
      split; [reflexivity|]. cbn. auto.
    + destruct (mark_both ms l li g gi) as [ms'| |] eqn:Em; cbn [rbind] in H; try discriminate.
      injection H as <-. exists [p]. split; [|split; [repeat constructor|exact HD]].
      split; [reflexivity|]. cbn [fst]. split; intros x Hx.
      * destruct (mark_both_conv _ _ _ _ _ _ _ Em Hx) as [->|]; [|auto]. right. exists p. split; [left|]; reflexivity.
      * destruct (mark_both_conv_l _ _ _ _ _ _ _ Em Hx) as [->|]; [|auto]. right. exists p. split; [left|]; reflexivity.
Qed.

Lemma done_pair_l s new n2 l li g gi : done_pair s new l li g gi -> done_pair s (new ++ n2) l li g gi.
Proof.
  intros [[p [A B]]|[A [B|[p [B C]]]]].
  - left. exists p. rewrite in_app_iff. auto.
  - right. auto.
  - right. split; [exact A|]. right. exists p. rewrite in_app_iff. auto.
Qed.
Lemma done_pair_r s s1 n1 n2 l li g gi : conv s s1 n1 -> done_pair s1 n2 l li g gi -> done_pair s (n1 ++ n2) l li g gi.
Proof.
  intros [_ [C2 _]] [[p [A B]]|[A [B|[p [B C]]]]].
  - left. exists p. rewrite in_app_iff. auto.
  - right. split; [exact A|]. destruct (C2 _ B) as [X|[p [X Y]]]; [left; exact X|].
    right. exists p. rewrite in_app_iff. auto.
  - right. split; [exact A|]. right. exists p. rewrite in_app_iff. auto.
Qed.

Definition nsorted (ns : list (nat * P3 * Q)) : Prop :=
  forall a i g d b j h e c, ns = a ++ (i, g, d) :: b ++ (j, h, e) :: c -> (d <= e)%Q.

Lemma dt_neighbours_conv lpts g l li thr ns : forall s s', nsorted ns ->
  dt_neighbours b lpts g l li thr ns s = Ok s' ->
  exists new, conv s s' new /\ Forall (fun p => lkey p = (l, li)) new
    /\ forall gi gpt err, In (gi, gpt, err) ns -> (err < thr)%Q -> done_pair s new l li g gi.
Proof.
  induction ns as [|[[gi gpt] err] ns IH]; intros s s' HS H; cbn [dt_neighbours] in H.
  - injection H as <-. exists []. split; [apply conv_nil|]. split; [constructor|]. intros ? ? ? [].
  - destruct (Qle_bool thr err) eqn:Et.
    + injection H as <-. exists []. split; [apply conv_nil|]. split; [constructor|].
      intros gi' gpt' err' [[= <- <- <-]|Hin] Hlt; apply Qle_bool_iff in Et; [lra|].
      apply in_split in Hin as [a [c ->]]. specialize (HS [] gi gpt err a gi' gpt' err' c eq_refl). lra.
    + destruct (dt_add_pair b lpts g l li gpt gi err s) as [s1| |] eqn:E1; cbn [rbind] in H; try discriminate.
      apply dt_add_pair_conv in E1 as [n1 [X1 [K1 D1]]].
      apply IH in H.
      * destruct H as [n2 [X2 [K2 D2]]]. exists (n1 ++ n2). split; [eapply conv_trans; eassumption|].
        split; [apply Forall_app; auto|]. intros gi' gpt' err' [[= <- <- <-]|Hin] Hlt.
        -- apply done_pair_l. exact D1.
        -- eapply done_pair_r; [exact X1|]. eapply D2; eassumption.
      * intros a i1 g1 d1 b1 j h e c ->. eapply (HS ((gi, gpt, err) :: a)). reflexivity.
Qed.

Lemma dt_loop_conv threshold ang k nn lpts tl g l is : forall s s', nn_correct nn ->
  dt_loop b threshold ang k nn lpts tl g l is s = Ok s' -> tl_idxs tl = None -> NoDup is ->
  exists new, conv s s' new
    /\ (forall p, In p new -> p_llayer p = l /\ In (p_localIdx p) is)
    /\ forall i q, In i is -> nth_error (tl_pts tl) i = Some q ->
         (aL = true \/ ~ marked (ms_local (fst s)) (l, i)) ->
         forall gi gpt err, In (gi, gpt, err) (nn_search nn q k) ->
           (err < qsq threshold + ang * normSqr q)%Q -> done_pair s new l i g gi.
Proof.
  induction is as [|i is IH]; intros s s' HN H HT HD; cbn [dt_loop] in H.
  - injection H as <-. exists []. split; [apply conv_nil|]. split; [intros ? []|]. intros ? ? [].
  - inversion HD as [|? ? Hni HD']; subst.
    unfold local_index in H. rewrite HT in H. cbn [rbind] in H.
    destruct (if aL then Ok false else query (ms_local (fst s)) l i) as [taken| |] eqn:Et;
      cbn [rbind] in H; try discriminate.
    destruct taken.
    + apply IH in H; auto. destruct H as [new [X1 [X2 X3]]]. exists new. split; [exact X1|].
      split; [intros p Hp; destruct (X2 p Hp); split; [assumption|right; assumption]|].
      intros j q [<-|Hj] Hq Hel; [|apply X3; assumption].
      exfalso. destruct aL; [discriminate|]. destruct Hel as [Hel|Hel]; [discriminate|]. apply Hel. exact Et.
    + destruct (nth_error (tl_pts tl) i) as [q|] eqn:Eq; [|discriminate].
      destruct (dt_neighbours b lpts g l i _ (nn_search nn q k) s) as [s1| |] eqn:E1; cbn [rbind] in H; try discriminate.
      apply dt_neighbours_conv in E1; [|destruct (HN q k) as [_ [_ [_ [N4 _]]]]; exact N4]. destruct E1 as [n1 [X1 [K1 D1]]].
      apply IH in H; auto. destruct H as [n2 [X2 [K2 D2]]].
      exists (n1 ++ n2). split; [eapply conv_trans; eassumption|]. split.
      * intros p Hp. apply in_app_or in Hp as [Hp|Hp].
        -- rewrite Forall_forall in K1. specialize (K1 p Hp). unfold lkey in K1. injection K1 as -> ->.
           split; [reflexivity|left; reflexivity].
        -- destruct (K2 p Hp). split; [assumption|right; assumption].
      * intros j q' [<-|Hj] Hq Hel gi gpt err Hin Hlt.
        -- rewrite Eq in Hq. injection Hq as <-. apply done_pair_l. eapply D1; eassumption.
        -- eapply done_pair_r; [exact X1|]. eapply D2; try eassumption.
           destruct Hel as [Hel|Hel]; [left; exact Hel|]. right. intro Hm.
           destruct X1 as [_ [_ C3]]. destruct (C3 _ Hm) as [Y|[p [Y1 Y2]]]; [exact (Hel Y)|].
           rewrite Forall_forall in K1. rewrite (K1 p Y1) in Y2. injection Y2 as <-. contradiction.
Qed.

Lemma bb_miss (A B : P3 * P3) (eps thr : Q) (q h : P3) : bb_intersects A B eps = false ->
  inside A h -> inside B q -> (0 <= thr)%Q -> (thr <= eps)%Q -> (thr * thr < sqd q h)%Q.
Proof.
  unfold bb_intersects. intros H [[A1 A2] [[A3 A4] [A5 A6]]] [[B1 B2] [[B3 B4] [B5 B6]]] H0 H1.
  assert (SQ : forall a : Q, (0 <= a * a)%Q) by (intro a; nra).
  assert (BIG : forall a : Q, (thr < a)%Q \/ (thr < - a)%Q -> (thr * thr < a * a)%Q) by (intros a [X|X]; nra).
  assert ((thr < px q - px h \/ thr < - (px q - px h))
       \/ (thr < py q - py h \/ thr < - (py q - py h))
       \/ (thr < pz q - pz h \/ thr < - (pz q - pz h)))%Q as D.
  { repeat rewrite andb_false_iff in H.
    destruct H as [[[[[H|H]|H]|H]|H]|H]; apply Qle_bool_false in H.
    - left; left; lra.
    - left; right; lra.
    - right; left; left; lra.
    - right; left; right; lra.
    - right; right; left; lra.
    - right; right; right; lra. }
  unfold sqd, qsq. pose proof (SQ (px q - px h)%Q). pose proof (SQ (py q - py h)%Q). pose proof (SQ (pz q - pz h)%Q).
  destruct D as [D|[D|D]]; apply BIG in D; lra.
Qed.

(** Completeness of one layer. *)
Lemma dt_one_layer_conv fMax sh tf threshold ang k gl lpts g l ms out s' nn :
  dt_one_layer fMax sh tf b threshold ang k gl lpts g l ms out = Ok s' ->
  ly_nn gl = Some nn -> nn_correct nn -> bbox_correct nn ->
  (maxLocalPointsPerLayer b = 0 \/ length lpts <= maxLocalPointsPerLayer b) ->
  (0 <= bbox_epsilon b)%Q ->
  exists new, conv (ms, out) s' new
    /\ forall li lp, nth_error lpts li = Some lp ->
         (aL = true \/ ~ marked (ms_local ms) (l, li)) ->
         forall gi gpt err, In (gi, gpt, err) (nn_search nn (tf lp) k) ->
           (err < qsq threshold + ang * normSqr (tf lp))%Q ->
           ((ang == 0)%Q \/ (err < qsq threshold)%Q) -> done_pair (ms, out) new l li g gi.
Proof.
  unfold dt_one_layer. intros H En HN HB Hmx Heps.
  destruct (Nat.ltb k 1 || Qle_bool threshold 0 || Qltb ang 0) eqn:Epar; [discriminate|].
  apply orb_false_iff in Epar as [Epar Ea0]. apply orb_false_iff in Epar as [_ Eth]. apply Qle_bool_false in Eth.
  rewrite En in H.
  destruct (isNil (nn_points nn) || isNil lpts) eqn:Ee.
  { injection H as <-. exists []. split; [split; [rewrite app_nil_r; reflexivity|cbn; auto]|].
    intros li lp Hlp _ gi gpt err Hin. exfalso. apply orb_true_iff in Ee as [Ee|Ee].
    - destruct (nn_points nn) eqn:Ep; [|discriminate]. destruct (HN (tf lp) k) as [N1 _].
      destruct (N1 _ _ _ Hin) as [X _]. rewrite Ep in X. destruct gi; discriminate.
    - destruct lpts; [|discriminate]. destruct li; discriminate. }
  assert (Htl : exists tl, transform_local_to_global fMax sh tf lpts (maxLocalPointsPerLayer b) = Ok tl
            /\ tl_idxs tl = None /\ tl_pts tl = map tf lpts).
  { unfold transform_local_to_global.
    destruct (Nat.eqb (maxLocalPointsPerLayer b) 0 || Nat.leb (length lpts) (maxLocalPointsPerLayer b)) eqn:E.
    - eexists. repeat split.
    - exfalso. apply orb_false_iff in E as [E1 E2]. apply Nat.eqb_neq in E1. apply Nat.leb_gt in E2. lia. }
  destruct Htl as [tl [Et [Ti Tp]]]. rewrite Et in H. cbn [rbind] in H.
  destruct (negb (bb_intersects _ _ _)) eqn:Ebb.
  { injection H as <-. exists []. split; [split; [rewrite app_nil_r; reflexivity|cbn; auto]|].
    intros li lp Hlp _ gi gpt err Hin Hlt Hex. exfalso.
    apply negb_true_iff in Ebb.
    destruct (HN (tf lp) k) as [N1 _]. destruct (N1 _ _ _ Hin) as [X1 X2].
    assert ((err < threshold * threshold)%Q).
    { destruct Hex as [Hex|Hex]; [|exact Hex]. unfold qsq in Hlt. rewrite Hex in Hlt. lra. }
    assert ((threshold * threshold < sqd (tf lp) gpt)%Q); [|rewrite X2 in H; lra].
    eapply bb_miss; [exact Ebb| | |lra|lra].
    - apply HB. eapply nth_error_In. exact X1.
    - apply (tl_bbox _ _ _ _ _ _ Et). rewrite Tp. apply in_map. eapply nth_error_In. exact Hlp. }
  apply dt_loop_conv in H; [|exact HN|exact Ti|apply seq_NoDup].
  destruct H as [new [X1 [X2 X3]]]. exists new. split; [exact X1|].
  intros li lp Hlp Hel gi gpt err Hin Hlt _. apply (X3 li (tf lp)) with (gpt := gpt) (err := err); try assumption.
  - apply in_seq. assert (nth_error lpts li <> None) as Y by congruence. apply nth_error_Some in Y. lia.
  - rewrite Tp, nth_error_map, Hlp. reflexivity.
Qed.
End DTC.

(** ** The sequence of one-layer calls made by impl_match *)
Section Tr.
Variable one_layer : Layer -> list P3 -> nat -> nat -> MatchState -> ptpairings
    -> res (MatchState * ptpairings).
Variable b : BaseParams.
Variables pcGlobal pcLocal : Layers.

Inductive Trace : list (nat * nat * option Q) -> MatchState * ptpairings -> MatchState * ptpairings -> Prop :=
| tr_nil : forall s, Trace [] s s
| tr_cons : forall g l w ws gl ll lpts ms out ms1 out1 out2 s',
    In (g, gl) pcGlobal -> find_layer pcLocal l = Some ll -> ly_points ll = Some lpts ->
    one_layer gl lpts g l ms out = Ok (ms1, out1) ->
    paired_pt2pt out2 = paired_pt2pt out1 ->
    Trace ws (ms1, out2) s' -> Trace ((g, l, w) :: ws) (ms, out) s'.

Lemma Trace_app w1 w2 s s1 s2 : Trace w1 s s1 -> Trace w2 s1 s2 -> Trace (w1 ++ w2) s s2.
Proof. induction 1 as [|? ? ? ? ? ? ? ? ? ? ? ? ? ? ? ? ? ? ? IH]; intro HX; cbn; [exact HX|]. eapply tr_cons; eauto. Qed.
Lemma Trace_split w1 : forall w2 s s2, Trace (w1 ++ w2) s s2 -> exists s1, Trace w1 s s1 /\ Trace w2 s1 s2.
Proof.
  induction w1 as [|x w1 IH]; intros w2 s s2 H; cbn in H; [exists s; split; [constructor|exact H]|].
  inversion H; subst. match goal with T : Trace (w1 ++ w2) _ _ |- _ => apply IH in T as [s1 [A B]] end.
  exists s1. split; [econstructor; eauto|exact B].
Qed.

Lemma match_locals_trace g gl locals : In (g, gl) pcGlobal -> forall s s',
  match_locals one_layer pcLocal g gl locals s = Ok s' ->
  Trace (map (fun lw => (g, fst lw, snd lw))
        (filter (fun lw => match find_layer pcLocal (fst lw) with Some _ => true | None => false end) locals)) s s'.
Proof.
  intro Hin. induction locals as [|[lname w] locals IH]; intros s s' H; cbn [match_locals] in H.
  - injection H as <-. constructor.
  - cbn [filter fst]. destruct (find_layer pcLocal lname) as [ll|] eqn:El.
    + destruct (ly_points ll) as [lpts|] eqn:Ep; [|discriminate]. destruct s as [ms out].
      destruct (one_layer gl lpts g lname ms out) as [[ms1 out1]| |] eqn:E1; cbn [rbind] in H; try discriminate.
      apply IH in H. cbn [map fst snd]. eapply tr_cons; try eassumption.
      destruct w; [destruct (Nat.eqb _ _)|]; reflexivity.
    + destruct w; [discriminate|]. apply IH. exact H.
Qed.

Lemma match_globals_trace : forall gs, (forall x, In x gs -> In x pcGlobal) ->
  forall s s', match_globals one_layer b pcLocal gs s = Ok s' -> Trace (flat_map (wanted b pcLocal) gs) s s'.
Proof.
  induction gs as [|[g gl] gs IH]; intros HI s s' H; cbn [match_globals] in H.
  - injection H as <-. constructor.
  - cbn [flat_map]. unfold wanted at 1. cbn [fst] in *. destruct (local_layers b g) as [ls|] eqn:El.
    + destruct (match_locals one_layer pcLocal g gl ls s) as [s1| |] eqn:E1; cbn [rbind] in H; try discriminate.
      eapply Trace_app; [eapply match_locals_trace; [apply HI; left; reflexivity|exact E1]|].
      apply IH; [intros; apply HI; right; assumption|exact H].
    + apply IH; [intros; apply HI; right; assumption|exact H].
Qed.

Lemma base_impl_match_trace ms out ms' f out' :
  base_impl_match one_layer b pcGlobal pcLocal ms out = Ok (ms', f, out') ->
  Trace (flat_map (wanted b pcLocal) pcGlobal) (ms, pairings_empty_ctor) (ms', out').
Proof.
  intro H. unfold base_impl_match in H.
  destruct (match_globals one_layer b pcLocal pcGlobal (ms, pairings_empty_ctor)) as [[ms1 out1]| |] eqn:E;
    cbn [rbind] in H; try discriminate.
  injection H as <- <- <-. apply match_globals_trace in E; auto.
Qed.
End Tr.

(** The matches found are the configured ones whose local layer exists. *)
Lemma wanted_configured b pcGlobal pcLocal :
  flat_map (wanted b pcLocal) pcGlobal
  = filter (fun x => match find_layer pcLocal (snd (fst x)) with Some _ => true | None => false end)
      (configured_matches b pcGlobal pcLocal).
Proof.
  unfold wanted, configured_matches, local_layers. induction pcGlobal as [|[g gl] gs IH].
  - destruct (weight_pt2pt_layers b); reflexivity.
  - cbn [flat_map]. rewrite IH. destruct (weight_pt2pt_layers b) as [|t tbl] eqn:Ew.
    + cbn [flat_map fst filter map]. rewrite filter_app. f_equal.
      destruct (find_layer pcLocal g) eqn:E; cbn; [rewrite E|]; reflexivity.
    + cbn [fst]. rewrite filter_app. f_equal.
      destruct (find_layer (t :: tbl) g) as [ls|]; [|reflexivity].
      induction ls as [|[l w] ls IHl]; [reflexivity|]. cbn [map filter fst snd].
      destruct (find_layer pcLocal l); cbn [map filter fst snd]; rewrite IHl; reflexivity.
Qed.

Lemma missing_listed b pcGlobal pcLocal :
  Forall (fun kg : nat * Layer => forall ls, local_layers b (fst kg) = Some ls ->
          Forall (fun lw => find_layer pcLocal (fst lw) = None -> snd lw = None) ls) pcGlobal ->
  forall x, In x (configured_matches b pcGlobal pcLocal) -> find_layer pcLocal (snd (fst x)) <> None.
Proof.
  intros HF x Hx. rewrite Forall_forall in HF. unfold configured_matches in Hx. unfold local_layers in HF.
  destruct (weight_pt2pt_layers b) as [|t tbl] eqn:Ew.
  - apply in_flat_map in Hx as [[g gl] [H1 H2]]. cbn [fst] in H2. destruct (find_layer pcLocal g) eqn:E; [|destruct H2].
    destruct H2 as [<-|[]]. cbn. congruence.
  - apply in_flat_map in Hx as [[g gl] [H1 H2]]. cbn [fst] in H2.
    destruct (find_layer (t :: tbl) g) as [ls|] eqn:E; [|destruct H2].
    apply in_map_iff in H2 as [[l w] [<- H2]]. cbn. specialize (HF _ H1). cbn [fst] in HF. rewrite E in HF.
    specialize (HF _ eq_refl). rewrite Forall_forall in HF.
    specialize (HF (l, Some w)). cbn in HF. intro X. discriminate HF; [|exact X].
    apply in_map_iff. exists (l, w). auto.
Qed.

Lemma filter_all {A} (f : A -> bool) l : (forall x, In x l -> f x = true) -> filter f l = l.
Proof.
  induction l as [|x l IH]; intro H; [reflexivity|]. cbn. rewrite (H x (or_introl eq_refl)).
  rewrite IH; [reflexivity|]. intros y Hy. apply H. right. exact Hy.
Qed.
Lemma wanted_all b pcGlobal pcLocal :
  (forall x, In x (configured_matches b pcGlobal pcLocal) -> find_layer pcLocal (snd (fst x)) <> None) ->
  flat_map (wanted b pcLocal) pcGlobal = configured_matches b pcGlobal pcLocal.
Proof.
  intro H. rewrite wanted_configured. apply filter_all. intros x Hx. specialize (H x Hx).
  destruct (find_layer pcLocal (snd (fst x))); congruence.
Qed.
