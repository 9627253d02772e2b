(** The same scene seen from other frames: one iteration. *)
From Coq Require Import Reals Qreals List Lra Lia.
From Verif Require Import Base PairingsModel MatcherModel BitfieldModel BitfieldProofs PointMatcherModel PointMatcherSpec PointMatcherProofs PointMatcherProofs3
  SolverModel QualityModel IcpModel GeomModel VisitModel VisitSpec VisitProps RotProofs
  HornModel HornProofs NoiselessProofs HornProps HornUniqueProps SmCliModel EndToEndModel EndToEndProps MonotoneProps FixpointProofs FrameProofs.
Import ListNotations.
Open Scope nat_scope.

Lemma Forall2_len {A B} (R : A -> B -> Prop) l l' : Forall2 R l l' -> length l = length l'.
Proof. induction 1; cbn; congruence. Qed.
Lemma Q2R_eq a c : Q2R a = Q2R c -> (a == c)%Q.
Proof. apply eqR_Qeq. Qed.

(** ** The pairs *)
Section Pairs.
Variables (S M T T' : Pose) (tf_of : Pose -> P3 -> P3) (thr : Q) (nnG nnG' : NNMap) (name : nat).
Hypothesis RS : is_rotation S.
Hypothesis SEEN : seen_as S M T T'.
Hypothesis NC : nn_correct nnG.
Hypothesis NC' : nn_correct nnG'.
Hypothesis GS : moved_points S (nn_points nnG) (nn_points nnG').

Lemma moved_nth ps ps' : moved_points S ps ps' -> forall i p', nth_error ps' i = Some p' -> exists p, nth_error ps i = Some p /\ to_v p' = compose S (to_v p).
Proof.
  induction 1 as [|p q ps qs E F IH]; intros [|i] p' H; cbn in *; try discriminate.
  - injection H as <-. exists p. split; [reflexivity|exact E].
  - apply IH, H.
Qed.
Lemma moved_nth2 ps ps' : moved_points S ps ps' -> forall i p, nth_error ps i = Some p -> exists p', nth_error ps' i = Some p' /\ to_v p' = compose S (to_v p).
Proof.
  induction 1 as [|p q ps qs E F IH]; intros [|i] p' H; cbn in *; try discriminate.
  - injection H as <-. exists q. split; [reflexivity|exact E].
  - apply IH, H.
Qed.

Lemma same_dist l l' g g' : to_v (tf_of T l) = compose T (to_v l) -> to_v (tf_of T' l') = compose T' (to_v l') ->
  to_v l' = compose M (to_v l) -> to_v g' = compose S (to_v g) -> (sqd (tf_of T' l') g' == sqd (tf_of T l) g)%Q.
Proof.
  intros A A' B C. apply Q2R_eq. rewrite !Q2R_sqd, A, A', B, C, SEEN. apply compose_dist. exact RS.
Qed.

Lemma pair_same Ls i l l' : exact_on tf_of T Ls -> In l Ls -> to_v (tf_of T' l') = compose T' (to_v l') ->
  one_nearest thr (nn_points nnG) (tf_of T) Ls -> to_v l' = compose M (to_v l) ->
  Forall2 (same_pair S M) (pair_of thr nnG (tf_of T) name name i l) (pair_of thr nnG' (tf_of T') name name i l').
Proof.
  intros EX IN EX' ONE ML. specialize (EX l IN). unfold pair_of.
  assert (CS : nn_points nnG = [] \/ nn_points nnG <> []) by (destruct (nn_points nnG); [left; reflexivity|right; discriminate]).
  assert (LEN := Forall2_len _ _ _ GS).
  destruct CS as [EP|NE].
  { assert (EP' : nn_points nnG' = []) by (rewrite EP in LEN; destruct (nn_points nnG'); [reflexivity|discriminate LEN]).
    assert (X : nn_search nnG (tf_of T l) 1 = []).
    { destruct (nn_search nnG (tf_of T l) 1) as [|[[j g] d] r] eqn:E; [reflexivity|]. destruct (NC (tf_of T l) 1) as (A & _).
      destruct (A j g d) as [B _]; [rewrite E; left; reflexivity|]. rewrite EP in B. destruct j; discriminate B. }
    assert (X' : nn_search nnG' (tf_of T' l') 1 = []).
    { destruct (nn_search nnG' (tf_of T' l') 1) as [|[[j g] d] r] eqn:E; [reflexivity|]. destruct (NC' (tf_of T' l') 1) as (A & _).
      destruct (A j g d) as [B _]; [rewrite E; left; reflexivity|]. rewrite EP' in B. destruct j; discriminate B. }
    rewrite X, X'. constructor. }
  assert (NE' : nn_points nnG' <> []) by (intro Z; rewrite Z in LEN; destruct (nn_points nnG); [apply NE; reflexivity|discriminate LEN]).
  destruct (search_one nnG (tf_of T l) NC NE) as (j & g & d & S1 & G1 & D1 & N1).
  destruct (search_one nnG' (tf_of T' l') NC' NE') as (j' & g' & d' & S2 & G2 & D2 & N2). rewrite S1, S2.
  destruct (moved_nth _ _ GS j' g' G2) as (h & GH & EH). destruct (moved_nth2 _ _ GS j g G1) as (h' & GH' & EH').
  assert (A := same_dist l l' h g' EX EX' ML EH). assert (B := same_dist l l' g h' EX EX' ML EH').
  assert (C : (sqd (tf_of T l) g == sqd (tf_of T' l') g')%Q).
  { apply Qle_antisym; [rewrite A; apply N1; eapply nth_error_In; exact GH|rewrite <- B; apply N2; eapply nth_error_In; exact GH']. }
  assert (DD : (d' == d)%Q) by (rewrite D1, D2, C; reflexivity).
  assert (QQ : Qle_bool (qsq thr) d' = Qle_bool (qsq thr) d).
  { destruct (Qle_bool (qsq thr) d) eqn:E.
    - apply Qle_bool_iff in E. apply Qle_bool_iff. rewrite DD. exact E.
    - destruct (Qle_bool (qsq thr) d') eqn:E'; [|reflexivity]. apply Qle_bool_iff in E'. rewrite DD in E'. apply Qle_bool_iff in E'. congruence. }
  rewrite QQ. destruct (Qle_bool (qsq thr) d) eqn:E; [constructor|]. constructor; [|constructor].
  assert (LT : (sqd (tf_of T l) g < qsq thr)%Q).
  { rewrite <- D1. apply Qnot_le_lt. intro X. apply Qle_bool_iff in X. congruence. }
  assert (J : j = j') by (apply (ONE l j j' g h IN G1 GH N1); [rewrite <- A, C; reflexivity|exact LT]).
  subst j'. rewrite G1 in GH. injection GH as <-.
  unfold same_pair. cbn [p_globalIdx p_localIdx p_err p_global p_local]. split; [reflexivity|]. split; [reflexivity|]. split; [exact DD|]. split; [exact EH|exact ML].
Qed.

Lemma pairs_same Ls Ls' : moved_points M Ls Ls' -> forall AL AL', exact_on tf_of T AL -> exact_on tf_of T' AL' -> incl Ls AL -> incl Ls' AL' ->
  one_nearest thr (nn_points nnG) (tf_of T) AL -> forall i,
  Forall2 (same_pair S M) (pairs_from thr nnG (tf_of T) name name i Ls) (pairs_from thr nnG' (tf_of T') name name i Ls').
Proof.
  induction 1 as [|l l' Ls Ls' E F IH]; intros AL AL' EX EX' I I' ONE i; cbn [pairs_from]; [constructor|].
  apply Forall2_app.
  - apply (pair_same AL); [exact EX|apply I; left; reflexivity|apply EX', I'; left; reflexivity|exact ONE|exact E].
  - apply (IH AL AL' EX EX'); [intros x X; apply I; right; exact X|intros x X; apply I'; right; exact X|exact ONE].
Qed.
End Pairs.

(** ** The matcher *)
Section Matching.
Variables (fMax : Q) (shuffle : list nat -> list nat) (mround : Q -> Z) (tf_of : Pose -> P3 -> P3).
Variables (name : nat) (gpts : option (list P3)) (nnG nnL : NNMap) (Ls : list P3).
Variables (b : BaseParams) (thr : Q) (T : Pose).
Hypothesis NC : nn_correct nnG.
Hypothesis BB : bbox_correct nnG.
Hypothesis EPS : (0 <= bbox_epsilon b)%Q.
Hypothesis LL : length (nn_points nnL) = length Ls.
Hypothesis TP : (0 < thr)%Q.
Hypothesis AG : sharing_ok b thr nnG (tf_of T) Ls.
Hypothesis TBL : weight_pt2pt_layers b = [].
Hypothesis LIM : maxLocalPointsPerLayer b = 0 \/ length Ls <= maxLocalPointsPerLayer b.

Lemma no_points_no_pairs i : nn_points nnG = [] -> forall ls, pairs_from thr nnG (tf_of T) name name i ls = [].
Proof.
  intros Z ls. revert i. induction ls as [|l ls IH]; intro i; cbn [pairs_from]; [reflexivity|]. rewrite IH, app_nil_r. unfold pair_of.
  destruct (nn_search nnG (tf_of T l) 1) as [|[[j g] d] r] eqn:E; [reflexivity|]. destruct (NC (tf_of T l) 1) as (A & _).
  destruct (A j g d) as [B _]; [rewrite E; left; reflexivity|]. rewrite Z in B. destruct j; discriminate B.
Qed.

(** the search finds exactly these pairs *)
Lemma match_exactly it env :
  exists ms' found, run_matchers [pose_matcher fMax shuffle mround (gmap name gpts nnG) (lmap name nnL Ls) tf_of (DT b thr 0 1) 0 0] it T
      (new_match_state (gmap name gpts nnG) (lmap name nnL Ls) env) = Ok (ms', found) /\
    exists pot, found = mkPairings (pairs_from thr nnG (tf_of T) name name 0 Ls) [] [] [] [] [] pot.
Proof.
  destruct (fresh_state name gpts nnG nnL Ls) as (ms & EF & ML & MG). unfold new_match_state. rewrite EF.
  unfold run_matchers, run_matchers_loop, matcher_match, matcher_gate, pose_matcher, pm_matcher.
  cbn [m_enabled m_runFromIteration m_runUpToIteration m_impl_match negb].
  replace (Nat.ltb it 0) with false by (symmetry; apply Nat.ltb_ge; lia). cbn [Nat.ltb Nat.leb andb].
  unfold base_impl_match. cbn [pm_base pm_one_layer]. unfold gmap at 1. cbn [match_globals].
  unfold local_layers. rewrite TBL. cbn [match_locals]. unfold lmap at 1. cbn [find_layer]. rewrite Nat.eqb_refl. cbn [ly_points].
  unfold dt_one_layer.
  assert (C1 : (1 <? 1)%nat || Qle_bool thr 0 || Qltb 0 0 = false).
  { cbn [Nat.ltb Nat.leb orb]. apply Bool.orb_false_iff. split; [|reflexivity].
    destruct (Qle_bool thr 0) eqn:E; [|reflexivity]. apply Qle_bool_iff in E. exfalso. apply (Qlt_not_le _ _ TP E). }
  rewrite C1. cbn [ly_nn].
  destruct (isNil (nn_points nnG) || isNil Ls) eqn:EN.
  { assert (Z : pairs_from thr nnG (tf_of T) name name 0 Ls = []).
    { apply Bool.orb_true_iff in EN. destruct EN as [EN|EN].
      - apply no_points_no_pairs. destruct (nn_points nnG); [reflexivity|discriminate EN].
      - destruct Ls; [reflexivity|discriminate EN]. }
    rewrite Z. cbn [rbind match_globals match_locals]. do 2 eexists. split; [reflexivity|]. eexists. reflexivity. }
  apply Bool.orb_false_iff in EN. destruct EN as [NG NL].
  assert (TL : exists mn mx, transform_local_to_global fMax shuffle (tf_of T) Ls (maxLocalPointsPerLayer b)
     = Ok (mkTL mn mx None (map (tf_of T) Ls))).
  { unfold transform_local_to_global. replace (Nat.eqb (maxLocalPointsPerLayer b) 0 || Nat.leb (length Ls) (maxLocalPointsPerLayer b)) with true; [eauto|].
    symmetry. destruct LIM as [->|X]; [reflexivity|]. apply Nat.leb_le in X. rewrite X. apply Bool.orb_true_r. }
  destruct TL as (mn & mx & TL). rewrite TL. cbn [rbind tl_min tl_max].
  destruct (bb_intersects (nn_bbox nnG) (mn, mx) (thr + bbox_epsilon b)) eqn:EB; cbn [negb].
  2:{ assert (Z : forall i ls, incl ls Ls -> pairs_from thr nnG (tf_of T) name name i ls = []).
      { intros i ls. revert i. induction ls as [|l ls IH]; intros i INC; cbn [pairs_from]; [reflexivity|].
        rewrite IH by (intros x X; apply INC; right; exact X). rewrite app_nil_r. unfold pair_of.
        destruct (nn_search nnG (tf_of T l) 1) as [|[[j g] d] r] eqn:E; [reflexivity|]. destruct (NC (tf_of T l) 1) as (A & _).
        destruct (A j g d) as [B D]; [rewrite E; left; reflexivity|].
        assert (Y : (thr * thr < sqd (tf_of T l) g)%Q).
        { apply (bb_miss (nn_bbox nnG) (mn, mx) (thr + bbox_epsilon b)); [exact EB|apply BB; eapply nth_error_In; exact B| |apply Qlt_le_weak; exact TP|].
          - apply (tl_bbox _ _ _ _ _ _ TL). cbn [tl_pts]. apply in_map, INC. left. reflexivity.
          - rewrite <- (Qplus_0_r thr) at 1. apply Qplus_le_compat; [apply Qle_refl|exact EPS]. }
        replace (Qle_bool (qsq thr) d) with true; [reflexivity|]. symmetry. apply Qle_bool_iff. rewrite D. apply Qlt_le_weak. exact Y. }
      rewrite (Z 0 Ls (incl_refl Ls)). cbn [rbind match_globals match_locals]. do 2 eexists. split; [reflexivity|]. eexists. reflexivity. }
  assert (NE : nn_points nnG <> []) by (destruct (nn_points nnG); [discriminate NG|discriminate]).
  destruct (mono_loop b (tf_of T) thr nnG Ls name name NC NE AG mn mx (length Ls) 0 ms (add_potential pairings_empty_ctor (length Ls * 1))) as [ms' EL].
  - reflexivity.
  - rewrite ML. apply fresh_unmarked. rewrite LL. apply Nat.le_refl.
  - rewrite MG. apply fresh_unmarked. apply Nat.le_refl.
  - rewrite EL. cbn [rbind match_globals match_locals skipn]. do 2 eexists. split; [reflexivity|]. eexists.
    unfold push_back_copy, with_pairs, add_potential, pairings_empty_ctor.
    cbn [paired_pt2pt paired_pt2ln paired_pt2pl paired_ln2ln paired_pl2pl point_weights potential_pairings app Nat.add]. reflexivity.
Qed.
End Matching.

(** ** The solver *)
Definition moved_vpairs (S M : Pose) (ps ps' : list (V3 * V3)) : Prop :=
  Forall2 (fun x x' => fst x' = compose S (fst x) /\ snd x' = compose M (snd x)) ps ps'.

Lemma lsq_moved S M ps ps' T T' : is_rotation S -> seen_as S M T T' -> moved_vpairs S M ps ps' -> lsq ps' T' = lsq ps T.
Proof.
  intros RS SE. induction 1 as [|[g l] [g' l'] ps ps' [A B] F IH]; [reflexivity|]. cbn [fst snd] in A, B. cbn [lsq]. rewrite IH, A, B, SE, compose_dist by exact RS. reflexivity.
Qed.
Lemma best_moved S M ps ps' T T' : is_rotation S -> is_rotation M -> moved_vpairs S M ps ps' ->
  best_fit ps T -> one_best_fit ps -> best_fit ps' T' -> seen_as S M T T'.
Proof.
  intros RS RM F [RT BT] ONE [RT' BT'].
  set (T1 := pose_mul (pinv S) (pose_mul T' M)). set (T2 := pose_mul S (pose_mul T (pinv M))).
  assert (R1 : is_rotation T1) by (repeat apply pose_mul_rotation; try assumption; apply pinv_rotation; assumption).
  assert (R2 : is_rotation T2) by (repeat apply pose_mul_rotation; try assumption; apply pinv_rotation; assumption).
  assert (S1 : seen_as S M T1 T') by (intro u; unfold T1; rewrite !compose_pose_mul, pinv_right by exact RS; reflexivity).
  assert (S2 : seen_as S M T T2) by (intro u; unfold T2; rewrite !compose_pose_mul, pinv_left by exact RM; reflexivity).
  assert (E : T = T1).
  { apply ONE; [split; assumption|]. split; [exact R1|]. intros T3 R3. specialize (BT T3 R3). specialize (BT' T2 R2).
    rewrite (lsq_moved S M ps ps' T1 T' RS S1 F) in BT'. rewrite (lsq_moved S M ps ps' T T2 RS S2 F) in BT'. lra. }
  rewrite E. exact S1.
Qed.
