From Verif Require Import Base PairingsModel PairingsProofs MatcherModel PipelineSpec PipelineProofs
  BitfieldModel BitfieldProofs PointMatcherModel PointMatcherSpec.
From Coq Require Import Lqa.

Lemma NoDup_app_disjoint {A} (l1 l2 : list A) :
  NoDup l1 -> NoDup l2 -> (forall x, In x l1 -> In x l2 -> False) -> NoDup (l1 ++ l2).
Proof.
  intros H1 H2 HD. induction H1 as [|x l Hx Hl IH]; cbn; [exact H2|]. constructor.
  - rewrite in_app_iff. intros [X|X]; [contradiction|]. apply (HD x); [left; reflexivity|exact X].
  - apply IH. intros y Hy. apply HD. right. exact Hy.
Qed.


Lemma bits_mark_get b i b' : bits_mark b i = Ok b' ->
  bits_get b' i = Ok true /\ forall j, bits_get b j = Ok true -> bits_get b' j = Ok true.
Proof.
  unfold bits_mark, bits_get. destruct (dense_ b) as [v|] eqn:E.
  - destruct (Nat.ltb_spec i (length v)) as [Hi|]; [|discriminate]. intros [= <-]. cbn.
    split; [rewrite nth_error_upd, Nat.eqb_refl by assumption; reflexivity|].
    intros j. rewrite nth_error_upd by assumption. destruct (Nat.eqb j i); [reflexivity|auto].
  - intros [= <-]. cbn. split; [rewrite Nat.eqb_refl; reflexivity|].
    intros j H. injection H as ->. rewrite orb_true_r. reflexivity.
Qed.

Lemma marked_set m k i b' : bits_mark (lb_get_or_default m k) i = Ok b' ->
  marked (lb_set m k b') (k, i) /\ forall x, marked m x -> marked (lb_set m k b') x.
Proof.
  intro H. destruct (bits_mark_get _ _ _ H) as [H1 H2]. split.
  - unfold marked, query, lb_at. cbn [fst snd]. rewrite lb_find_set, Nat.eqb_refl. cbn. exact H1.
  - intros [k' j]. unfold marked, query, lb_at. cbn [fst snd]. rewrite lb_find_set.
    destruct (Nat.eqb_spec k k') as [<-|]; [|auto].
    unfold lb_get_or_default in *. destruct (lb_find m k) as [v|]; cbn; [apply H2|discriminate].
Qed.

Lemma mark_both_spec ms l li g gi ms' : mark_both ms l li g gi = Ok ms' ->
  marked (ms_local ms') (l, li) /\ marked (ms_global ms') (g, gi)
  /\ (forall x, marked (ms_local ms) x -> marked (ms_local ms') x)
  /\ (forall x, marked (ms_global ms) x -> marked (ms_global ms') x).
Proof.
  unfold mark_both.
  destruct (bits_mark (lb_get_or_default (ms_local ms) l) li) as [lb| |] eqn:E1; cbn [rbind]; try discriminate.
  destruct (bits_mark (lb_get_or_default (ms_global ms) g) gi) as [gb| |] eqn:E2; cbn [rbind]; try discriminate.
  intros [= <-]. cbn. apply marked_set in E1 as [A1 A2]. apply marked_set in E2 as [B1 B2]. auto.
Qed.

Lemma bits_mark_get_conv b i b' j : bits_mark b i = Ok b' -> bits_get b' j = Ok true ->
  j = i \/ bits_get b j = Ok true.
Proof.
  unfold bits_mark, bits_get. destruct (dense_ b) as [v|] eqn:E.
  - destruct (Nat.ltb_spec i (length v)) as [Hi|]; [|discriminate]. intros [= <-]. cbn.
    rewrite nth_error_upd by assumption. destruct (Nat.eqb_spec j i); auto.
  - intros [= <-]. cbn. intros [= H]. apply orb_true_iff in H as [H|H]; [apply Nat.eqb_eq in H; auto|].
    right. rewrite H. reflexivity.
Qed.

Lemma marked_set_conv m k i b' x : bits_mark (lb_get_or_default m k) i = Ok b' ->
  marked (lb_set m k b') x -> x = (k, i) \/ marked m x.
Proof.
  destruct x as [k' j]. unfold marked, query, lb_at. cbn [fst snd]. rewrite lb_find_set. intros H.
  destruct (Nat.eqb_spec k k') as [<-|]; [|auto]. cbn [rbind]. intro HG.
  destruct (bits_mark_get_conv _ _ _ _ H HG) as [->|X]; [auto|]. right.
  unfold lb_get_or_default in X. destruct (lb_find m k) as [v|]; [exact X|discriminate X].
Qed.

Lemma mark_both_conv ms l li g gi ms' x : mark_both ms l li g gi = Ok ms' ->
  marked (ms_global ms') x -> x = (g, gi) \/ marked (ms_global ms) x.
Proof.
  unfold mark_both.
  destruct (bits_mark (lb_get_or_default (ms_local ms) l) li) as [lb| |] eqn:E1; cbn [rbind]; try discriminate.
  destruct (bits_mark (lb_get_or_default (ms_global ms) g) gi) as [gb| |] eqn:E2; cbn [rbind]; try discriminate.
  intros [= <-]. cbn. apply marked_set_conv. exact E2.
Qed.

(** What a piece of matching code does to (state, output). *)
Record Ext (aG marks : bool) (G : Pair -> Prop) (s s' : MatchState * ptpairings) (new : list Pair) : Prop := {
  e_app : paired_pt2pt (snd s') = paired_pt2pt (snd s) ++ new;
  e_l : forall x, marked (ms_local (fst s)) x -> marked (ms_local (fst s')) x;
  e_g : forall x, marked (ms_global (fst s)) x -> marked (ms_global (fst s')) x;
  e_good : Forall G new;
  e_gfree : aG = false -> NoDup (map gkey new)
     /\ Forall (fun p => ~ marked (ms_global (fst s)) (gkey p)) new
     /\ Forall (fun p => marked (ms_global (fst s')) (gkey p)) new;
  e_lmark : marks = true -> Forall (fun p => marked (ms_local (fst s')) (lkey p)) new }.

Definition lfree (aL : bool) (s : MatchState * ptpairings) (new : list Pair) : Prop :=
  aL = false -> Forall (fun p => ~ marked (ms_local (fst s)) (lkey p)) new.

Lemma Ext_nil aG mk G ms out out' : paired_pt2pt out' = paired_pt2pt out -> Ext aG mk G (ms, out) (ms, out') [].
Proof. intro H. constructor; cbn; auto; [rewrite app_nil_r; exact H|]. intros _. repeat constructor. Qed.

Lemma Ext_trans aG mk G s s1 s2 n1 n2 : Ext aG mk G s s1 n1 -> Ext aG mk G s1 s2 n2 -> Ext aG mk G s s2 (n1 ++ n2).
Proof.
  intros [A1 L1 G1 F1 GF1 M1] [A2 L2 G2 F2 GF2 M2]. constructor; auto.
  - rewrite A2, A1, app_assoc. reflexivity.
  - apply Forall_app; auto.
  - intro Ha. destruct (GF1 Ha) as [N1 [U1 K1]]. destruct (GF2 Ha) as [N2 [U2 K2]].
    split; [|split].
    + rewrite map_app. apply NoDup_app_disjoint; auto.
      intros x H1 H2. apply in_map_iff in H1 as [p1 [<- H1]]. apply in_map_iff in H2 as [p2 [E2 H2]].
      rewrite Forall_forall in K1, U2. apply (U2 p2 H2). rewrite E2. apply K1. exact H1.
    + apply Forall_app. split; [exact U1|]. eapply Forall_impl; [|exact U2]. cbn. auto.
    + apply Forall_app. split; [|exact K2]. eapply Forall_impl; [|exact K1]. cbn. auto.
  - intro Hm. apply Forall_app. split; auto. eapply Forall_impl; [|exact (M1 Hm)]. cbn. auto.
Qed.

Lemma lfree_trans aG mk G aL s s1 n1 n2 : Ext aG mk G s s1 n1 -> lfree aL s n1 -> lfree aL s1 n2 -> lfree aL s (n1 ++ n2).
Proof.
  intros H H1 H2 Ha. apply Forall_app. split; [auto|]. eapply Forall_impl; [|exact (H2 Ha)].
  cbn. intros p Hp X. apply Hp. apply (e_l _ _ _ _ _ _ H). exact X.
Qed.

(** ** transform_local_to_global *)
Lemma gather_spec pc is : forall ps, gather pc is = Ok ps -> map Some ps = map (nth_error pc) is.
Proof.
  induction is as [|i is IH]; intros ps H; cbn in H.
  - injection H as <-. reflexivity.
  - destruct (nth_error pc i) as [p|] eqn:E; [|discriminate].
    destruct (gather pc is) as [ps'| |]; cbn [rbind] in H; try discriminate.
    injection H as <-. cbn. rewrite E, (IH ps' eq_refl). reflexivity.
Qed.

Lemma map_some_nth {A} (l : list (option A)) (ps : list A) : map Some ps = l ->
  forall i x, nth_error ps i = Some x -> nth_error l i = Some (Some x).
Proof. intros <- i x H. rewrite nth_error_map, H. reflexivity. Qed.

Lemma tl_spec fMax sh tf lpts mx tl : transform_local_to_global fMax sh tf lpts mx = Ok tl ->
  forall i l q, local_index tl i = Ok l -> nth_error (tl_pts tl) i = Some q ->
  exists lp, nth_error lpts l = Some lp /\ q = tf lp.
Proof.
  unfold transform_local_to_global. intros H i l q Hl Hq.
  destruct (Nat.eqb mx 0 || Nat.leb (length lpts) mx).
  - injection H as <-. unfold local_index in Hl. cbn in Hl, Hq. injection Hl as <-.
    rewrite nth_error_map in Hq. destruct (nth_error lpts i) as [lp|]; [|discriminate].
    injection Hq as <-. eauto.
  - destruct (gather lpts (sh (seq 0 mx))) as [sel| |] eqn:E; cbn [rbind] in H; try discriminate.
    injection H as <-. unfold local_index in Hl. cbn in Hl, Hq.
    destruct (nth_error (sh (seq 0 mx)) i) as [l'|] eqn:El; [|discriminate]. injection Hl as ->.
    rewrite nth_error_map in Hq. destruct (nth_error sel i) as [lp|] eqn:Es; [|discriminate].
    injection Hq as <-. apply gather_spec in E. pose proof (map_some_nth _ _ E i lp Es) as X.
    rewrite nth_error_map, El in X. injection X as X. eauto.
Qed.

Lemma kmin_le a b : (kmin a b <= a /\ kmin a b <= b)%Q.
Proof. unfold kmin. destruct (Qltb b a) eqn:E; [apply Qltb_lt in E|apply Qltb_ge in E]; split; lra. Qed.
Lemma kmax_ge a b : (a <= kmax a b /\ b <= kmax a b)%Q.
Proof. unfold kmax. destruct (Qltb a b) eqn:E; [apply Qltb_lt in E|apply Qltb_ge in E]; split; lra. Qed.

Lemma keep_bbox_grows pts : forall bb,
  (px (fst (fold_left keep_bbox pts bb)) <= px (fst bb) /\ px (snd bb) <= px (snd (fold_left keep_bbox pts bb))
   /\ py (fst (fold_left keep_bbox pts bb)) <= py (fst bb) /\ py (snd bb) <= py (snd (fold_left keep_bbox pts bb))
   /\ pz (fst (fold_left keep_bbox pts bb)) <= pz (fst bb) /\ pz (snd bb) <= pz (snd (fold_left keep_bbox pts bb)))%Q.
Proof.
  induction pts as [|p pts IH]; intro bb; cbn [fold_left]; [repeat split; lra|].
  specialize (IH (keep_bbox bb p)).
  set (r := fold_left keep_bbox pts (keep_bbox bb p)) in *. unfold keep_bbox in IH. cbn [fst snd px py pz] in IH.
  pose proof (kmin_le (px (fst bb)) (px p)). pose proof (kmin_le (py (fst bb)) (py p)).
  pose proof (kmin_le (pz (fst bb)) (pz p)).
  pose proof (kmax_ge (px (snd bb)) (px p)). pose proof (kmax_ge (py (snd bb)) (py p)).
  pose proof (kmax_ge (pz (snd bb)) (pz p)).
  repeat split; lra.
Qed.

Lemma keep_bbox_contains pts : forall bb p, In p pts -> inside (fold_left keep_bbox pts bb) p.
Proof.
  induction pts as [|x pts IH]; intros bb p H; [destruct H|]. cbn [fold_left].
  destruct H as [->|H]; [|apply IH; exact H].
  pose proof (keep_bbox_grows pts (keep_bbox bb p)) as G.
  set (r := fold_left keep_bbox pts (keep_bbox bb p)) in *. unfold keep_bbox in G. cbn [fst snd px py pz] in G.
  pose proof (kmin_le (px (fst bb)) (px p)). pose proof (kmin_le (py (fst bb)) (py p)).
  pose proof (kmin_le (pz (fst bb)) (pz p)).
  pose proof (kmax_ge (px (snd bb)) (px p)). pose proof (kmax_ge (py (snd bb)) (py p)).
  pose proof (kmax_ge (pz (snd bb)) (pz p)).
  unfold inside. repeat split; lra.
Qed.

Lemma tl_bbox fMax sh tf lpts mx tl : transform_local_to_global fMax sh tf lpts mx = Ok tl ->
  forall p, In p (tl_pts tl) -> inside (tl_min tl, tl_max tl) p.
Proof.
  unfold transform_local_to_global. intros H p Hp.
  destruct (Nat.eqb mx 0 || Nat.leb (length lpts) mx).
  - injection H as <-. cbn in *. rewrite <- surjective_pairing. apply keep_bbox_contains. exact Hp.
  - destruct (gather lpts (sh (seq 0 mx))) as [sel| |] eqn:E; cbn [rbind] in H; try discriminate.
    injection H as <-. cbn in *. rewrite <- surjective_pairing. apply keep_bbox_contains. exact Hp.
Qed.

(** ** Distance threshold *)
Definition same_rest (o o' : ptpairings) : Prop :=
  paired_pt2ln o' = paired_pt2ln o /\ paired_pt2pl o' = paired_pt2pl o /\ paired_ln2ln o' = paired_ln2ln o
  /\ paired_pl2pl o' = paired_pl2pl o /\ point_weights o' = point_weights o
  /\ potential_pairings o' = potential_pairings o.
Lemma same_rest_refl o : same_rest o o. Proof. repeat split. Qed.
Lemma same_rest_trans a b c : same_rest a b -> same_rest b c -> same_rest a c.
Proof. unfold same_rest. intuition congruence. Qed.

Section DTProofs.
Variable b : BaseParams.
Notation aG := (allowMatchAlreadyMatchedGlobalPoints b).
Notation aL := (allowMatchAlreadyMatchedPoints b).

Lemma dt_add_pair_ext (G : Pair -> Prop) lpts g l li gpt gi err s s' :
  dt_add_pair b lpts g l li gpt gi err s = Ok s' ->
  (forall lp, nth_error lpts li = Some lp -> G (mkPair gi li gpt lp err g l)) ->
  exists new, Ext aG (negb aG) G s s' new /\ Forall (fun p => lkey p = (l, li)) new
    /\ same_rest (snd s) (snd s') /\ length new <= 1.
Proof.
  destruct s as [ms out]. unfold dt_add_pair. intros H HG.
  destruct aG eqn:Ea.
  - cbn [rbind] in H. destruct (nth_error lpts li) as [lp|]; [|discriminate]. injection H as <-.
    exists [mkPair gi li gpt lp err g l]. split; [|split; [repeat constructor|split; [repeat split|cbn; lia]]].
    constructor; cbn; auto; discriminate.
  - destruct (query (ms_global ms) g gi) as [taken| |] eqn:Eq; cbn [rbind] in H; try discriminate.
    destruct taken.
    + injection H as <-. exists []. split; [apply Ext_nil; reflexivity|]. split; [constructor|].
      split; [apply same_rest_refl|cbn; lia].
    + destruct (nth_error lpts li) as [lp|]; [|discriminate].
      destruct (mark_both ms l li g gi) as [ms'| |] eqn:Em; cbn [rbind] in H; try discriminate.
      injection H as <-. apply mark_both_spec in Em as [M1 [M2 [M3 M4]]].
      exists [mkPair gi li gpt lp err g l]. split; [|split; [repeat constructor|split; [repeat split|cbn; lia]]].
      constructor; cbn; auto.
      intros _. repeat constructor; auto.
      unfold marked, gkey. cbn. rewrite Eq. discriminate.
Qed.

Lemma dt_neighbours_ext (G : Pair -> Prop) lpts g l li thr ns : forall s s',
  dt_neighbours b lpts g l li thr ns s = Ok s' ->
  (forall gi gpt err lp, In (gi, gpt, err) ns -> (err < thr)%Q -> nth_error lpts li = Some lp ->
     G (mkPair gi li gpt lp err g l)) ->
  exists new, Ext aG (negb aG) G s s' new /\ Forall (fun p => lkey p = (l, li)) new
    /\ same_rest (snd s) (snd s') /\ length new <= length ns.
Proof.
  induction ns as [|[[gi gpt] err] ns IH]; intros s s' H HG; cbn [dt_neighbours] in H.
  - injection H as <-. exists []. destruct s as [ms out]. split; [apply Ext_nil; reflexivity|].
    split; [constructor|]. split; [apply same_rest_refl|cbn; lia].
  - destruct (Qle_bool thr err) eqn:Et.
    + injection H as <-. exists []. destruct s as [ms out]. split; [apply Ext_nil; reflexivity|].
      split; [constructor|]. split; [apply same_rest_refl|cbn; lia].
    + assert (err < thr)%Q as Hlt.
      { apply Qnot_le_lt. intro X. apply Qle_bool_iff in X. congruence. }
      destruct (dt_add_pair b lpts g l li gpt gi err s) as [s1| |] eqn:E1; cbn [rbind] in H; try discriminate.
      apply (dt_add_pair_ext G) in E1.
      * destruct E1 as [n1 [X1 [K1 [R1 L1]]]]. apply IH in H.
        -- destruct H as [n2 [X2 [K2 [R2 L2]]]]. exists (n1 ++ n2). split; [eapply Ext_trans; eassumption|].
           split; [apply Forall_app; auto|]. split; [eapply same_rest_trans; eassumption|].
           rewrite app_length. cbn. lia.
        -- intros. apply HG; auto. right. assumption.
      * intros lp Hlp. apply HG; auto. left. reflexivity.
Qed.

Lemma dt_loop_ext (G : Pair -> Prop) threshold ang k nn lpts tl g l is : forall s s',
  dt_loop b threshold ang k nn lpts tl g l is s = Ok s' ->
  (forall i li q gi gpt err lp, local_index tl i = Ok li -> nth_error (tl_pts tl) i = Some q ->
     In (gi, gpt, err) (nn_search nn q k) -> (err < qsq threshold + ang * normSqr q)%Q ->
     nth_error lpts li = Some lp -> G (mkPair gi li gpt lp err g l)) ->
  (forall q, length (nn_search nn q k) <= k) ->
  exists new, Ext aG (negb aG) G s s' new /\ lfree aL s new
    /\ Forall (fun p => p_llayer p = l) new
    /\ same_rest (snd s) (snd s') /\ length new <= length is * k.
Proof.
  induction is as [|i is IH]; intros s s' H HG HK; cbn [dt_loop] in H.
  - injection H as <-. exists []. destruct s as [ms out]. split; [apply Ext_nil; reflexivity|].
    split; [intros _; constructor|]. split; [constructor|]. split; [apply same_rest_refl|cbn; lia].
  - destruct (local_index tl i) as [li| |] eqn:El; cbn [rbind] in H; try discriminate.
    destruct (if aL then Ok false else query (ms_local (fst s)) l li) as [taken| |] eqn:Et;
      cbn [rbind] in H; try discriminate.
    destruct taken.
    + apply IH in H; auto. destruct H as [new [X1 [X2 [X3 [X4 X5]]]]]. exists new.
      repeat (split; [assumption|]). cbn. lia.
    + destruct (nth_error (tl_pts tl) i) as [q|] eqn:Eq; [|discriminate].
      destruct (dt_neighbours b lpts g l li _ (nn_search nn q k) s) as [s1| |] eqn:E1; cbn [rbind] in H; try discriminate.
      apply (dt_neighbours_ext G) in E1; [|intros; eapply HG; eauto].
      destruct E1 as [n1 [X1 [K1 [R1 L1]]]]. apply IH in H; auto.
      destruct H as [n2 [X2 [F2 [K2 [R2 L2]]]]]. exists (n1 ++ n2).
      split; [eapply Ext_trans; eassumption|]. split.
      * eapply lfree_trans; [exact X1| |exact F2].
        intro Ha. rewrite Ha in Et. rewrite Forall_forall in *. intros p Hp.
        rewrite (K1 p Hp). unfold marked. cbn. rewrite Et. discriminate.
      * split.
        -- apply Forall_app. split; [|exact K2]. eapply Forall_impl; [|exact K1]. cbn.
           unfold lkey. intros p [= ? ?]. assumption.
        -- split; [eapply same_rest_trans; eassumption|]. rewrite app_length. cbn.
           specialize (HK q). lia.
Qed.
End DTProofs.

(** ** One layer, both matchers *)
Definition pair_ok (tf : P3 -> P3) (nn : NNMap) (lpts : list P3) (g l : nat) (p : Pair) : Prop :=
  p_glayer p = g /\ p_llayer p = l
  /\ nth_error (nn_points nn) (p_globalIdx p) = Some (p_global p)
  /\ nth_error lpts (p_localIdx p) = Some (p_local p)
  /\ (p_err p == sqd (tf (p_local p)) (p_global p))%Q.

Definition same_but_potential (o o' : ptpairings) : Prop :=
  paired_pt2ln o' = paired_pt2ln o /\ paired_pt2pl o' = paired_pt2pl o /\ paired_ln2ln o' = paired_ln2ln o
  /\ paired_pl2pl o' = paired_pl2pl o /\ point_weights o' = point_weights o.
Lemma same_rest_potential o o' n : same_rest (add_potential o n) o' ->
  same_but_potential o o' /\ potential_pairings o' = potential_pairings o + n.
Proof. unfold same_rest, same_but_potential, add_potential. cbn. tauto. Qed.

Lemma Ext_start aG mk G ms out n s' new :
  Ext aG mk G (ms, add_potential out n) s' new -> Ext aG mk G (ms, out) s' new.
Proof. intros [A B C D E F]. constructor; auto. Qed.

Lemma Qle_bool_false a b : Qle_bool a b = false <-> (b < a)%Q.
Proof.
  split; intro H.
  - apply Qnot_le_lt. intro X. apply Qle_bool_iff in X. congruence.
  - destruct (Qle_bool a b) eqn:E; [|reflexivity]. apply Qle_bool_iff in E. lra.
Qed.

Definition dt_bound (tf : P3 -> P3) (threshold ang : Q) (p : Pair) : Prop :=
  (p_err p < qsq threshold + ang * normSqr (tf (p_local p)))%Q.

Lemma dt_one_layer_ext fMax sh tf b threshold ang k gl lpts g l ms out s' :
  dt_one_layer fMax sh tf b threshold ang k gl lpts g l ms out = Ok s' ->
  (forall nn, ly_nn gl = Some nn -> nn_correct nn) ->
  exists nn new, ly_nn gl = Some nn
    /\ Ext (allowMatchAlreadyMatchedGlobalPoints b) (negb (allowMatchAlreadyMatchedGlobalPoints b))
         (fun p => pair_ok tf nn lpts g l p /\ dt_bound tf threshold ang p) (ms, out) s' new
    /\ lfree (allowMatchAlreadyMatchedPoints b) (ms, out) new
    /\ same_but_potential out (snd s')
    /\ potential_pairings (snd s') = potential_pairings out + length lpts * k
    /\ length new <= length lpts * k.
Proof.
  unfold dt_one_layer. intros H HN.
  destruct (Nat.ltb k 1 || Qle_bool threshold 0 || Qltb ang 0); [discriminate|].
  destruct (ly_nn gl) as [nn|] eqn:En; [|discriminate]. specialize (HN nn eq_refl).
  exists nn.
  assert (Hnil : exists new, Some nn = Some nn
    /\ Ext (allowMatchAlreadyMatchedGlobalPoints b) (negb (allowMatchAlreadyMatchedGlobalPoints b))
         (fun p => pair_ok tf nn lpts g l p /\ dt_bound tf threshold ang p) (ms, out)
         (ms, add_potential out (length lpts * k)) new
    /\ lfree (allowMatchAlreadyMatchedPoints b) (ms, out) new
    /\ same_but_potential out (add_potential out (length lpts * k))
    /\ potential_pairings (add_potential out (length lpts * k)) = potential_pairings out + length lpts * k
    /\ length new <= length lpts * k).
  { exists []. split; [reflexivity|]. split; [apply Ext_nil; reflexivity|]. split; [intros _; constructor|].
    repeat split. cbn. lia. }
  destruct (isNil (nn_points nn) || isNil lpts); [injection H as <-; exact Hnil|].
  destruct (transform_local_to_global fMax sh tf lpts (maxLocalPointsPerLayer b)) as [tl| |] eqn:Et;
    cbn [rbind] in H; try discriminate.
  destruct (negb (bb_intersects _ _ _)); [injection H as <-; exact Hnil|].
  apply (dt_loop_ext b (fun p => pair_ok tf nn lpts g l p /\ dt_bound tf threshold ang p)) in H.
  - destruct H as [new [X1 [X2 [X3 [X4 X5]]]]]. rewrite seq_length in X5.
    exists new. split; [reflexivity|]. split; [eapply Ext_start; exact X1|]. split; [exact X2|].
    apply same_rest_potential in X4 as [X4 X6]. auto.
  - intros i li q gi gpt err lp Hli Hq Hin Hlt Hlp.
    destruct (tl_spec _ _ _ _ _ _ Et i li q Hli Hq) as [lp' [E1 ->]].
    rewrite Hlp in E1. injection E1 as <-.
    destruct (HN (tf lp) k) as [HA _]. destruct (HA _ _ _ Hin) as [HA1 HA2].
    split; [repeat split; cbn; auto|]. unfold dt_bound. cbn. exact Hlt.
  - intro q. apply (HN q k).
Qed.

(** Inlier ratio *)
From Coq Require Import Permutation Sorted.
Lemma mm_insert_perm p l : Permutation (mm_insert p l) (p :: l).
Proof.
  induction l as [|x l IH]; cbn; [reflexivity|].
  destruct (Qltb (p_err x) (p_err p)); [|reflexivity].
  rewrite IH. apply perm_swap.
Qed.
Definition err_le (a b : Pair) : Prop := (p_err a <= p_err b)%Q.
Lemma mm_insert_sorted p l : StronglySorted err_le l -> StronglySorted err_le (mm_insert p l).
Proof.
  induction 1 as [|x l Hs IH HF]; cbn; [repeat constructor|].
  destruct (Qltb (p_err x) (p_err p)) eqn:E.
  - apply Qltb_lt in E. constructor; [exact IH|].
    rewrite Forall_forall in *. intros y Hy. apply (Permutation_in _ (mm_insert_perm p l)) in Hy.
    destruct Hy as [<-|Hy]; [unfold err_le; lra|apply HF; exact Hy].
  - apply Qltb_ge in E. constructor; [constructor; assumption|].
    constructor; [exact E|]. eapply Forall_impl; [|exact HF]. unfold err_le. intros y Hy. lra.
Qed.

Section IRProofs.
Variable b : BaseParams.
Notation aG := (allowMatchAlreadyMatchedGlobalPoints b).
Notation aL := (allowMatchAlreadyMatchedPoints b).

(** [li] may be paired in state [ms]. *)
Definition eligible (ms : MatchState) (l li : nat) : bool :=
  aL || negb (match query (ms_local ms) l li with Ok true => true | _ => false end).

Lemma ir_candidates_spec tf nn lpts tl g l ms is : forall acc r,
  ir_candidates b nn lpts tl g l ms is acc = Ok r ->
  (forall i li q, local_index tl i = Ok li -> nth_error (tl_pts tl) i = Some q ->
     exists lp, nth_error lpts li = Some lp /\ q = tf lp) ->
  nn_correct nn -> nn_points nn <> [] -> StronglySorted err_le acc ->
  exists cands lis, Permutation r (acc ++ cands) /\ StronglySorted err_le r
    /\ Forall2 (fun i li => local_index tl i = Ok li) is lis
    /\ map p_localIdx cands = filter (eligible ms l) lis
    /\ Forall (fun p => pair_ok tf nn lpts g l p
         /\ forall j h, nth_error (nn_points nn) j = Some h -> (p_err p <= sqd (tf (p_local p)) h)%Q) cands.
Proof.
  induction is as [|i is IH]; intros acc r H HT HN HP HS; cbn [ir_candidates] in H.
  - injection H as <-. exists [], []. rewrite app_nil_r. repeat split; auto.
  - destruct (local_index tl i) as [li| |] eqn:El; cbn [rbind] in H; try discriminate.
    destruct (if aL then Ok false else query (ms_local ms) l li) as [taken| |] eqn:Et;
      cbn [rbind] in H; try discriminate.
    assert (Helig : eligible ms l li = negb taken).
    { unfold eligible. destruct aL; [injection Et as <-; reflexivity|]. rewrite Et. destruct taken; reflexivity. }
    destruct taken.
    + apply IH in H; auto. destruct H as [cands [lis [P1 [P2 [P3 [P4 P5]]]]]].
      exists cands, (li :: lis). repeat (split; [assumption || (constructor; assumption)|]).
      split; [|exact P5]. cbn [filter]. rewrite Helig. exact P4.
    + destruct (nth_error (tl_pts tl) i) as [q|] eqn:Eq; [|discriminate].
      destruct (nth_error lpts li) as [lp|] eqn:Ep; [|discriminate].
      destruct (HT i li q El Eq) as [lp' [Ep' ->]]. rewrite Ep in Ep'. injection Ep' as <-.
      destruct (HN (tf lp) 1) as [N1 [N2 [N3 [N4 N5]]]].
      destruct (nn_search nn (tf lp) 1) as [|[[gi gpt] err] rest] eqn:Er.
      { exfalso. destruct (nn_points nn) as [|h pts] eqn:Epts; [congruence|].
        destruct (N5 0 h eq_refl) as [[d []]|[X _]]. discriminate. }
      assert (rest = []) as -> by (destruct rest; [reflexivity|cbn in N3; lia]).
      apply IH in H; auto; [|apply mm_insert_sorted; exact HS].
      destruct H as [cands [lis [P1 [P2 [P3 [P4 P5]]]]]].
      set (p := mkPair gi li gpt lp err g l) in *.
      exists (p :: cands), (li :: lis). split.
      * rewrite P1. rewrite (mm_insert_perm p acc). cbn. apply Permutation_middle.
      * split; [exact P2|]. split; [constructor; assumption|]. split.
        -- cbn [map filter]. rewrite Helig. cbn. rewrite P4. reflexivity.
        -- constructor; [|exact P5]. destruct (N1 gi gpt err (or_introl eq_refl)) as [A1 A2].
           split; [repeat split; cbn; auto|]. cbn. intros j h Hj.
           destruct (N5 j h Hj) as [[d [[= <- <- <-]|[]]]|[_ X]].
           ++ rewrite A2. lra.
           ++ apply (X gi gpt err). left. reflexivity.
Qed.

Lemma ir_emit_spec (G : Pair -> Prop) ps g l : forall s s',
  ir_emit b ps g l s = Ok s' ->
  Forall (fun p => G p /\ p_glayer p = g /\ p_llayer p = l) ps ->
  exists new, Ext aG true G s s' new /\ same_rest (snd s) (snd s') /\ length new <= length ps
    /\ (aG = true -> new = ps)
    /\ (forall p, In p new -> In p ps)
    /\ (forall p, In p ps -> In p new \/ (aG = false /\ (marked (ms_global (fst s)) (gkey p)
            \/ exists p', In p' new /\ gkey p' = gkey p)))
    /\ (NoDup (map p_localIdx ps) -> NoDup (map p_localIdx new)).
Proof.
  induction ps as [|p ps IH]; intros s s' H HF; cbn [ir_emit] in H.
  - injection H as <-. exists []. destruct s as [ms out]. split; [apply Ext_nil; reflexivity|].
    split; [apply same_rest_refl|]. repeat split; auto.
  - inversion HF as [|? ? [Hg [Hgl Hll]] HF']; subst. destruct s as [ms out].
    destruct (if aG then Ok false else query (ms_global ms) (p_glayer p) (p_globalIdx p)) as [taken| |] eqn:Et;
      cbn [rbind] in H; try discriminate.
    destruct taken.
    + apply IH in H; auto. destruct H as [new [X1 [X2 [X3 [X4 [X5 [X6 X7]]]]]]]. exists new.
      destruct aG eqn:Ea; [discriminate|].
      split; [exact X1|]. split; [exact X2|]. split; [cbn; lia|]. split; [discriminate|].
      split; [intros; right; auto|]. split; [|intro HD; inversion HD; auto]. intros p' [<-|Hp'].
      * right. split; [reflexivity|]. left. exact Et.
      * apply X6. exact Hp'.
    + destruct (mark_both ms (p_llayer p) (p_localIdx p) (p_glayer p) (p_globalIdx p)) as [ms'| |] eqn:Em;
        cbn [rbind] in H; try discriminate.
      pose proof Em as Em'. apply mark_both_spec in Em as [M1 [M2 [M3 M4]]].
      apply IH in H; auto. destruct H as [new [X1 [X2 [X3 [X4 [X5 [X6 X7]]]]]]].
      exists (p :: new). split.
      * change (p :: new) with ([p] ++ new). eapply Ext_trans; [|exact X1].
        constructor; cbn; auto.
        intro Ha. rewrite Ha in Et. repeat constructor; auto.
        unfold marked, gkey. cbn. rewrite Et. discriminate.
      * split; [eapply same_rest_trans; [|exact X2]; repeat split|]. split; [cbn; lia|].
        split; [intro Ha; rewrite (X4 Ha); reflexivity|].
        split; [intros p' [<-|Hp']; [left; reflexivity|right; auto]|].
        split; [|cbn; intro HD; inversion HD as [|? ? Hn HD']; subst; constructor; [|apply X7; exact HD'];
                 intro Hi; apply Hn; apply in_map_iff in Hi as [p2 [E2 Hi]]; rewrite <- E2; apply in_map, X5; exact Hi].
        intros p' [<-|Hp']; [left; left; reflexivity|].
        destruct (X6 p' Hp') as [Y|[Ha [Y|[p2 [Y1 Y2]]]]].
        -- left. right. exact Y.
        -- right. split; [exact Ha|]. cbn [fst] in Y.
           destruct (mark_both_conv _ _ _ _ _ _ _ Em' Y) as [D|D]; [|left; exact D].
           right. exists p. split; [left; reflexivity|symmetry; exact D].
        -- right. split; [exact Ha|]. right. exists p2. split; [right; exact Y1|exact Y2].
Qed.
End IRProofs.

Lemma ir_keep_range mround N ratio : rounds_to_nearest mround -> (0 < ratio)%Q -> (ratio < 1)%Q ->
  let nKeep := mround (inject_Z (Z.of_nat N) * ratio)%Q in
  (0 <= nKeep <= Z.of_nat N)%Z.
Proof.
  intros HR H0 H1 nKeep. subst nKeep.
  set (x := (inject_Z (Z.of_nat N) * ratio)%Q).
  destruct (HR x) as [A B].
  assert (HN : (0 <= inject_Z (Z.of_nat N))%Q) by (rewrite <- (Zle_Qle 0); lia).
  assert (X0 : (0 <= x)%Q) by (unfold x; apply Qmult_le_0_compat; lra).
  assert (X1 : (x <= inject_Z (Z.of_nat N))%Q).
  { unfold x. rewrite <- (Qmult_1_r (inject_Z (Z.of_nat N))) at 2.
    rewrite (Qmult_comm _ ratio), (Qmult_comm _ 1). apply Qmult_le_compat_r; lra. }
  split.
  - assert (Y : (inject_Z (-1) < inject_Z (mround x))%Q) by (change (inject_Z (-1)) with (-1 # 1)%Q; lra).
    rewrite <- Zlt_Qlt in Y. lia.
  - assert (Y : (inject_Z (mround x) < inject_Z (Z.of_nat N + 1))%Q).
    { rewrite inject_Z_plus. change (inject_Z 1) with (1#1)%Q. lra. }
    rewrite <- Zlt_Qlt in Y. lia.
Qed.
