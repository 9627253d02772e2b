From Verif Require Import Base PairingsModel PairingsProofs MatcherModel PipelineSpec PipelineProofs
  BitfieldModel BitfieldProofs PointMatcherModel PointMatcherSpec PointMatcherProofs PointMatcherProofs2
  PointMatcherProofs3.
From Coq Require Import Lqa Permutation Sorted.

Definition pm_aG (m : PointMatcher) := allowMatchAlreadyMatchedGlobalPoints (pm_base m).
Definition pm_aL (m : PointMatcher) := allowMatchAlreadyMatchedPoints (pm_base m).
Definition pm_mk (m : PointMatcher) : bool := match m with DT b _ _ _ => negb (allowMatchAlreadyMatchedGlobalPoints b) | IR _ _ => true end.
Definition pm_G (m : PointMatcher) (tf : P3 -> P3) (gl : Layer) (lpts : list P3) (g l : nat) (p : Pair) : Prop :=
  (exists nn, ly_nn gl = Some nn /\ pair_ok tf nn lpts g l p)
  /\ match m with DT _ t a _ => dt_bound tf t a p | IR _ _ => True end.
Definition pm_pot (m : PointMatcher) (lpts : list P3) : nat :=
  match m with DT _ _ _ k => length lpts * k | IR _ _ => length lpts end.

Lemma pm_ok fMax sh mround tf m : (forall l, Permutation (sh l) l) ->
  one_layer_ok (pm_one_layer fMax sh mround m tf) (pm_aG m) (pm_aL m) (pm_mk m) (pm_G m tf) (pm_pot m).
Proof.
  intro HS. destruct m as [b t a k|b r]; cbn [pm_one_layer].
  - intros gl lpts g l ms out s' H HN. destruct (dt_ok fMax sh tf b t a k _ _ _ _ _ _ _ H HN) as [new [X1 X2]].
    exists new. split; [|exact X2]. destruct X1 as [A B C D E F]. constructor; auto.
    eapply Forall_impl; [|exact D]. intros p [nn [Y1 [Y2 Y3]]]. split; [exists nn; auto|exact Y3].
  - intros gl lpts g l ms out s' H HN. destruct (ir_ok fMax sh tf b mround r HS _ _ _ _ _ _ _ H HN) as [new [X1 X2]].
    exists new. split; [|exact X2]. destruct X1 as [A B C D E F]. constructor; auto.
    eapply Forall_impl; [|exact D]. intros p Hp. split; [exact Hp|exact I].
Qed.

Lemma pm_HGL m tf gl lpts g l p : pm_G m tf gl lpts g l p -> p_glayer p = g /\ p_llayer p = l.
Proof. intros [[nn [_ [A [B _]]]] _]. auto. Qed.

Lemma F2_impl {A B} (P Q : A -> B -> Prop) l l' : (forall x y, P x y -> Q x y) -> Forall2 P l l' -> Forall2 Q l l'.
Proof. intro H. induction 1; constructor; auto. Qed.

Section L.
Variable fMax : Q.
Variable sh : list nat -> list nat.
Variable mround : Q -> Z.
Variables pcGlobal pcLocal : Layers.
Hypothesis HS : forall l, Permutation (sh l) l.
Hypothesis HC : layers_correct pcGlobal.
Notation mk := (fun x => pm_matcher fMax sh mround pcGlobal pcLocal (fst (fst x)) (snd (fst x)) (snd x)).

Lemma pm_impl m from up it tf ms out ms' f out' :
  m_impl_match (pm_matcher fMax sh mround pcGlobal pcLocal m from up) it tf ms out = Ok (ms', f, out') ->
  exists bs, extends (pm_aG m) (pm_aL m) (pm_mk m) (pm_G m tf) (pm_pot m) pcGlobal pcLocal (ms, pairings_empty_ctor) (ms', out') bs
    /\ map (fun k => (bk_g k, bk_l k, bk_w k)) bs = configured_matches (pm_base m) pcGlobal pcLocal
    /\ (forall x, In x (configured_matches (pm_base m) pcGlobal pcLocal) -> find_layer pcLocal (snd (fst x)) <> None)
    /\ f = true.
Proof.
  cbn [m_impl_match pm_matcher]. intro H.
  apply (base_impl_match_ext _ _ _ _ _ _ (pm_ok fMax sh mround tf m HS) (pm_base m) pcGlobal pcLocal) in H;
    [|apply pm_HGL|exact HC].
  destruct H as [bs [X1 [X2 [X3 X4]]]]. exists bs. split; [exact X1|].
  pose proof (missing_listed _ _ _ X3) as X5. rewrite (wanted_all _ _ _ X5) in X2. auto.
Qed.

Lemma GG_genuine m tf p : GG (pm_G m tf) pcGlobal pcLocal p ->
  genuine_pair pcGlobal pcLocal tf p /\ match m with DT _ t a _ => dt_bound tf t a p | IR _ _ => True end.
Proof.
  intros [gl [ll [lpts [A [B [C [[nn [D [_ [_ [E [F H]]]]]] K]]]]]]]. split; [|exact K].
  split; [exists gl, nn; auto|]. split; [exists ll, lpts; auto|exact H].
Qed.

(** The run of the whole list. *)
Lemma run_trace pms : forall it tf ms outs ms',
  matcher_outputs it tf (map mk pms) ms outs ms' ->
  Forall2 (fun x out => forall p, In p (paired_pt2pt out) ->
      genuine_pair pcGlobal pcLocal tf p
      /\ (pm_aG (fst (fst x)) = false -> ~ marked (ms_global ms) (gkey p))
      /\ (pm_aL (fst (fst x)) = false -> ~ marked (ms_local ms) (lkey p))
      /\ (pm_aG (fst (fst x)) = false -> marked (ms_global ms') (gkey p))
      /\ (pm_mk (fst (fst x)) = true -> marked (ms_local ms') (lkey p))) pms outs
  /\ (forall x, marked (ms_global ms) x -> marked (ms_global ms') x)
  /\ (forall x, marked (ms_local ms) x -> marked (ms_local ms') x)
  /\ Forall2 (fun x out => length (paired_pt2pt out) <= potential_pairings out
       /\ paired_pt2ln out = [] /\ paired_pt2pl out = [] /\ paired_ln2ln out = [] /\ paired_pl2pl out = []) pms outs
  /\ (Forall (fun x => pm_aG (fst (fst x)) = false) pms -> NoDup (map gkey (concat (map paired_pt2pt outs))))
  /\ (forall i j xi xj oi oj, i < j -> nth_error pms i = Some xi -> nth_error pms j = Some xj ->
       nth_error outs i = Some oi -> nth_error outs j = Some oj ->
       pm_mk (fst (fst xi)) = true -> pm_aL (fst (fst xj)) = false ->
       forall p q, In p (paired_pt2pt oi) -> In q (paired_pt2pt oj) -> lkey p <> lkey q).
Proof.
  induction pms as [|[[m from] up] pms IH]; intros it tf ms outs ms' H; cbn [map] in H; inversion H; subst; clear H.
  - split; [constructor|]. split; [auto|]. split; [auto|]. split; [constructor|]. split; [constructor|].
    intros i j xi xj oi oj _ Hi. destruct i; discriminate.
  - match goal with H : m_impl_match _ _ _ _ _ = _ |- _ => cbn [fst snd] in H; apply pm_impl in H as [bs [X1 _]] end.
    match goal with H : matcher_outputs _ _ _ _ _ _ |- _ => apply IH in H as [T1 [T2 [T3 [T4 [T5 T6]]]]] end.
    destruct X1 as [A1 [L1 [B1 [C1 [D1 [E1 [F1 [G1 H1]]]]]]]]. destruct A1 as [P1 P2 P3 P4 P5 P6].
    cbn [fst snd paired_pt2pt pairings_empty_ctor app paired_pt2ln paired_pt2pl paired_ln2ln paired_pl2pl potential_pairings] in *.
    assert (Q1 : forall p, In p (paired_pt2pt out) -> genuine_pair pcGlobal pcLocal tf p
      /\ (pm_aG m = false -> ~ marked (ms_global ms) (gkey p))
      /\ (pm_aL m = false -> ~ marked (ms_local ms) (lkey p))
      /\ (pm_aG m = false -> marked (ms_global env1) (gkey p))
      /\ (pm_mk m = true -> marked (ms_local env1) (lkey p))).
    { intros p Hp. rewrite P1 in Hp. rewrite Forall_forall in P4. split; [apply (GG_genuine m), P4; exact Hp|].
      split; [intro Ha; destruct (P5 Ha) as [_ [U _]]; rewrite Forall_forall in U; exact (U p Hp)|].
      split; [intro Ha; specialize (L1 Ha); cbn in L1; rewrite Forall_forall in L1; exact (L1 p Hp)|].
      split; [intro Ha; destruct (P5 Ha) as [_ [_ U]]; rewrite Forall_forall in U; exact (U p Hp)|].
      intro Ha. specialize (P6 Ha). rewrite Forall_forall in P6. exact (P6 p Hp). }
    split; [|split; [auto|split; [auto|split; [|split]]]].
    + constructor.
      * cbn [fst snd]. intros p Hp. destruct (Q1 p Hp) as [Y1 [Y2 [Y3 [Y4 Y5]]]].
        split; [exact Y1|]. split; [exact Y2|]. split; [exact Y3|]. split; auto.
      * eapply F2_impl; [|exact T1]. cbn [fst snd]. intros x o Hx p Hp.
        destruct (Hx p Hp) as [Y1 [Y2 [Y3 [Y4 Y5]]]]. split; [exact Y1|].
        split; [intros Ha X; exact (Y2 Ha (P3 _ X))|]. split; [intros Ha X; exact (Y3 Ha (P2 _ X))|]. auto.
    + constructor; [|exact T4]. rewrite P1. split; [|auto].
      rewrite H1. clear -B1. cbn. induction B1 as [|k bs Hk _ IHb]; [cbn; lia|]. cbn [flat_map map list_sum fold_right].
      rewrite app_length. destruct Hk as [_ [_ Hk]]. unfold list_sum in IHb. lia.
    + intro HF. inversion HF as [|? ? Ha HF']; subst. cbn [fst] in Ha. cbn [map concat].
      rewrite map_app. apply NoDup_app_disjoint; [rewrite P1; apply (P5 Ha)|apply T5; exact HF'|].
      intros k Hk1 Hk2. apply in_map_iff in Hk1 as [p1 [<- Hp1]]. apply in_map_iff in Hk2 as [p2 [Ek Hp2]].
      apply in_concat in Hp2 as [l [Hl Hp2]]. apply in_map_iff in Hl as [o [<- Ho]].
      apply (In_nth_error) in Ho as [n Hn].
      destruct (Q1 p1 Hp1) as [_ [_ [_ [Y4 _]]]]. specialize (Y4 Ha).
      clear -T1 HF' Hn Hp2 Ek Y4. revert n Hn. induction T1 as [|x o' xs os Hx T1 IHt]; intros n Hn; [destruct n; discriminate|].
      inversion HF' as [|? ? Hx0 HF'']; subst. destruct n; [|eapply IHt; [exact HF''|exact Hn]]. injection Hn as ->.
      destruct (Hx p2 Hp2) as [_ [Z _]]. apply (Z Hx0). rewrite Ek. exact Y4.
    + intros i j xi xj oi oj Hij Hi Hj Hoi Hoj Hm Ha p q Hp Hq.
      destruct j as [|j]; [lia|]. cbn in Hj, Hoj. destruct i as [|i].
      * cbn in Hi, Hoi. injection Hi as <-. injection Hoi as <-. cbn [fst] in Hm.
        destruct (Q1 p Hp) as [_ [_ [_ [_ Y5]]]]. specialize (Y5 Hm). intro E.
        clear -T1 Hj Hoj Hq Ha Y5 E. revert j Hj Hoj.
        induction T1 as [|x o' xs os Hx T1 IHt]; intros j Hj Hoj; [destruct j; discriminate|].
        destruct j; [|eapply IHt; eassumption]. injection Hj as ->. injection Hoj as ->.
        destruct (Hx q Hq) as [_ [_ [Z _]]]. apply (Z Ha). rewrite <- E. exact Y5.
      * cbn in Hi, Hoi. eapply (T6 i j); try eassumption; lia.
  - match goal with H : matcher_outputs _ _ _ _ _ _ |- _ => apply IH in H as [T1 [T2 [T3 [T4 [T5 T6]]]]] end.
    split; [constructor; [intros p []|exact T1]|]. split; [exact T2|]. split; [exact T3|].
    split; [constructor; [cbn; auto|exact T4]|]. split.
    + intro HF. inversion HF; subst. cbn. auto.
    + intros i j xi xj oi oj Hij Hi Hj Hoi Hoj Hm Ha p q Hp Hq.
      destruct j as [|j]; [lia|]. cbn in Hj, Hoj. destruct i as [|i].
      * cbn in Hoi. injection Hoi as <-. destruct Hp.
      * cbn in Hi, Hoi. eapply (T6 i j); try eassumption; lia.
Qed.
End L.
