(** C359: the unit of length in which the two maps are given. *)
From Coq Require Import Reals Qreals QArith.Qpower List Lra Lia.
From Verif Require Import Base PairingsModel MatcherModel BitfieldModel BitfieldProofs PointMatcherModel PointMatcherSpec BruteNN
  SolverModel QualityModel IcpModel GeomModel VisitModel VisitSpec VisitProps RotProofs
  HornModel HornProofs NoiselessProofs HornProps HornUniqueProps OlaeModel SmCliModel EndToEndModel EndToEndProps MonotoneProps FixpointProofs FrameProofs FrameStep FrameProps FrameCaseProps.
Import ListNotations.
Open Scope nat_scope.

(** ** Specification *)
(** the same rotation, and the translation in the other unit *)
Definition rescaled (c : R) (T T' : Pose) : Prop := c0 T' = c0 T /\ c1 T' = c1 T /\ c2 T' = c2 T /\ tr T' = vscale c (tr T).
Definition scaled_points (c : R) (ps ps' : list P3) : Prop := Forall2 (fun p p' => to_v p' = vscale c (to_v p)) ps ps'.
(** the same pair in the two units *)
Definition scaled_pair (c : Q) (x x' : Pair) : Prop :=
  p_globalIdx x' = p_globalIdx x /\ p_localIdx x' = p_localIdx x /\ (p_err x' == c * c * p_err x)%Q /\
  to_v (p_global x') = vscale (Q2R c) (to_v (p_global x)) /\ to_v (p_local x') = vscale (Q2R c) (to_v (p_local x)).
Definition scaled_search (c : Q) (a a' : Pose * ptpairings) : Prop :=
  rescaled (Q2R c) (fst a) (fst a') /\ Forall2 (scaled_pair c) (paired_pt2pt (snd a)) (paired_pt2pt (snd a')).
(** the first of the sizes of a motion is a length, the second is an angle *)
Definition length_and_angle (c : Q) (log_norms : Pose -> Q * Q) : Prop :=
  forall D D', rescaled (Q2R c) D D' -> (fst (log_norms D') == c * fst (log_norms D))%Q /\ (snd (log_norms D') == snd (log_norms D))%Q.
(** the same parameters, with the smallest step in the other unit *)
Definition same_params (c : Q) (p p' : IcpParams) : Prop :=
  maxIterations p' = maxIterations p /\ (minAbsStep_trans p' == c * minAbsStep_trans p)%Q /\ (minAbsStep_rot p' == minAbsStep_rot p)%Q.

(** ** Proofs *)
Lemma rescaled_seen c T T' u : rescaled c T T' -> compose T' (vscale c u) = vscale c (compose T u).
Proof.
  intros (A & B & C & D). destruct T as [a b d t], T' as [a' b' d' t']. cbn [c0 c1 c2 tr] in *. subst. punf. f_equal; ring.
Qed.
Lemma rescaled_rotation c T T' : rescaled c T T' -> is_rotation T -> is_rotation T'.
Proof. intros (A & B & C & D) R. unfold is_rotation in *. rewrite A, B, C. exact R. Qed.
Definition rescale (c : R) (T : Pose) : Pose := mkPose (c0 T) (c1 T) (c2 T) (vscale c (tr T)).
Lemma rescale_ok c T : rescaled c T (rescale c T).
Proof. unfold rescaled, rescale. cbn [c0 c1 c2 tr]. repeat split. Qed.
Lemma rescale_back c T : c <> 0%R -> rescaled c (rescale (/ c) T) T.
Proof.
  intro H. unfold rescaled, rescale. cbn [c0 c1 c2 tr]. repeat split. destruct T as [a b d [x y z]]. cbn [tr]. unfold vscale. cbn [vx vy vz]. f_equal; field; exact H.
Qed.
Lemma rescaled_minus c A A' B B' : rescaled c A A' -> rescaled c B B' -> rescaled c (pose_mul (pinv B) A) (pose_mul (pinv B') A').
Proof.
  intros (A0 & A1 & A2 & A3) (B0 & B1 & B2 & B3).
  destruct A as [a0 a1 a2 a3], A' as [a0' a1' a2' a3'], B as [b0 b1 b2 b3], B' as [b0' b1' b2' b3']. cbn [c0 c1 c2 tr] in *. subst.
  unfold rescaled, pose_mul, pinv. cbn [c0 c1 c2 tr]. split; [reflexivity|]. split; [reflexivity|]. split; [reflexivity|].
  punf. f_equal; ring.
Qed.
Lemma scaled_dist c a g : vnorm2 (vsub (vscale c a) (vscale c g)) = (c * c * vnorm2 (vsub a g))%R.
Proof. destruct a, g. punf. ring. Qed.

(** *** The pairs *)
Section Pairs.
Variables (c : Q) (T T' : Pose) (tf_of : Pose -> P3 -> P3) (thr : Q) (nnG nnG' : NNMap) (name : nat).
Hypothesis CP : (0 < c)%Q.
Hypothesis SEEN : rescaled (Q2R c) T T'.
Hypothesis NC : nn_correct nnG.
Hypothesis NC' : nn_correct nnG'.
Hypothesis GS : scaled_points (Q2R c) (nn_points nnG) (nn_points nnG').
Lemma cc_pos : (0 < c * c)%Q.
Proof. rewrite <- (Qmult_0_l c). apply Qmult_lt_compat_r; exact CP. Qed.

Lemma scaled_nth ps ps' : scaled_points (Q2R c) ps ps' -> forall i p', nth_error ps' i = Some p' -> exists p, nth_error ps i = Some p /\ to_v p' = vscale (Q2R c) (to_v p).
Proof.
  induction 1 as [|p q ps qs E F IH]; intros [|i] p' H; cbn in *; try discriminate.
  - injection H as <-. exists p. split; [reflexivity|exact E].
  - apply IH, H.
Qed.
Lemma scaled_nth2 ps ps' : scaled_points (Q2R c) ps ps' -> forall i p, nth_error ps i = Some p -> exists p', nth_error ps' i = Some p' /\ to_v p' = vscale (Q2R c) (to_v p).
Proof.
  induction 1 as [|p q ps qs E F IH]; intros [|i] p' H; cbn in *; try discriminate.
  - injection H as <-. exists q. split; [reflexivity|exact E].
  - apply IH, H.
Qed.
Lemma scaled_sqd l l' g g' : to_v (tf_of T l) = compose T (to_v l) -> to_v (tf_of T' l') = compose T' (to_v l') ->
  to_v l' = vscale (Q2R c) (to_v l) -> to_v g' = vscale (Q2R c) (to_v g) -> (sqd (tf_of T' l') g' == c * c * sqd (tf_of T l) g)%Q.
Proof.
  intros A A' B C. apply Q2R_eq. rewrite !Q2R_mult, !Q2R_sqd, A, A', B, C, (rescaled_seen _ _ _ _ SEEN). apply scaled_dist.
Qed.
Lemma cc_le a d : (c * c * a <= c * c * d)%Q <-> (a <= d)%Q.
Proof. apply Qmult_le_l. exact cc_pos. Qed.
Lemma thr_scaled : (qsq (c * thr) == c * c * qsq thr)%Q.
Proof. unfold qsq. ring. Qed.

Lemma pair_scaled Ls i l l' : exact_on tf_of T Ls -> In l Ls -> to_v (tf_of T' l') = compose T' (to_v l') ->
  one_nearest thr (nn_points nnG) (tf_of T) Ls -> to_v l' = vscale (Q2R c) (to_v l) ->
  Forall2 (scaled_pair c) (pair_of thr nnG (tf_of T) name name i l) (pair_of (c * thr) nnG' (tf_of T') name name i l').
Proof.
  intros EX IN EX' ONE ML. specialize (EX l IN). unfold pair_of.
  assert (CS : nn_points nnG = [] \/ nn_points nnG <> []) by (destruct (nn_points nnG); [left; reflexivity|right; discriminate]).
  assert (LEN := Forall2_len _ _ _ GS).
  destruct CS as [EP|NE].
  { assert (EP' : nn_points nnG' = []) by (rewrite EP in LEN; destruct (nn_points nnG'); [reflexivity|discriminate LEN]).
    assert (X : nn_search nnG (tf_of T l) 1 = []).
    { destruct (nn_search nnG (tf_of T l) 1) as [|[[j g] d] r] eqn:E; [reflexivity|]. destruct (NC (tf_of T l) 1) as (A & _).
      destruct (A j g d) as [B _]; [rewrite E; left; reflexivity|]. rewrite EP in B. destruct j; discriminate B. }
    assert (X' : nn_search nnG' (tf_of T' l') 1 = []).
    { destruct (nn_search nnG' (tf_of T' l') 1) as [|[[j g] d] r] eqn:E; [reflexivity|]. destruct (NC' (tf_of T' l') 1) as (A & _).
      destruct (A j g d) as [B _]; [rewrite E; left; reflexivity|]. rewrite EP' in B. destruct j; discriminate B. }
    rewrite X, X'. constructor. }
  assert (NE' : nn_points nnG' <> []) by (intro Z; rewrite Z in LEN; destruct (nn_points nnG); [apply NE; reflexivity|discriminate LEN]).
  destruct (search_one nnG (tf_of T l) NC NE) as (j & g & d & S1 & G1 & D1 & N1).
  destruct (search_one nnG' (tf_of T' l') NC' NE') as (j' & g' & d' & S2 & G2 & D2 & N2). rewrite S1, S2.
  destruct (scaled_nth _ _ GS j' g' G2) as (h & GH & EH). destruct (scaled_nth2 _ _ GS j g G1) as (h' & GH' & EH').
  assert (A := scaled_sqd l l' h g' EX EX' ML EH). assert (B := scaled_sqd l l' g h' EX EX' ML EH').
  assert (C : (sqd (tf_of T l) h == sqd (tf_of T l) g)%Q).
  { apply Qle_antisym; [|apply N1; eapply nth_error_In; exact GH]. apply cc_le. rewrite <- A, <- B. apply N2. eapply nth_error_In; exact GH'. }
  assert (DD : (d' == c * c * d)%Q) by (rewrite D1, D2, A, C; reflexivity).
  assert (QQ : Qle_bool (qsq (c * thr)) d' = Qle_bool (qsq thr) d).
  { assert (K : (qsq (c * thr) <= d')%Q <-> (qsq thr <= d)%Q) by (rewrite DD, thr_scaled; apply cc_le).
    destruct (Qle_bool (qsq thr) d) eqn:E.
    - apply Qle_bool_iff in E. apply Qle_bool_iff. apply K. exact E.
    - destruct (Qle_bool (qsq (c * thr)) d') eqn:E'; [|reflexivity]. apply Qle_bool_iff, K, Qle_bool_iff in E'. congruence. }
  rewrite QQ. destruct (Qle_bool (qsq thr) d) eqn:E; [constructor|]. constructor; [|constructor].
  assert (LT : (sqd (tf_of T l) g < qsq thr)%Q).
  { rewrite <- D1. apply Qnot_le_lt. intro X. apply Qle_bool_iff in X. congruence. }
  assert (J : j = j') by (apply (ONE l j j' g h IN G1 GH N1); [exact C|exact LT]).
  subst j'. rewrite G1 in GH. injection GH as <-.
  unfold scaled_pair. cbn [p_globalIdx p_localIdx p_err p_global p_local]. split; [reflexivity|]. split; [reflexivity|]. split; [exact DD|]. split; [exact EH|exact ML].
Qed.

Lemma pairs_scaled Ls Ls' : scaled_points (Q2R c) Ls Ls' -> forall AL AL', exact_on tf_of T AL -> exact_on tf_of T' AL' -> incl Ls AL -> incl Ls' AL' ->
  one_nearest thr (nn_points nnG) (tf_of T) AL -> forall i,
  Forall2 (scaled_pair c) (pairs_from thr nnG (tf_of T) name name i Ls) (pairs_from (c * thr) nnG' (tf_of T') name name i Ls').
Proof.
  induction 1 as [|l l' Ls Ls' E F IH]; intros AL AL' EX EX' I I' ONE i; cbn [pairs_from]; [constructor|].
  apply Forall2_app.
  - apply (pair_scaled AL); [exact EX|apply I; left; reflexivity|apply EX', I'; left; reflexivity|exact ONE|exact E].
  - apply (IH AL AL' EX EX'); [intros x X; apply I; right; exact X|intros x X; apply I'; right; exact X|exact ONE].
Qed.
End Pairs.

(** *** The solver *)
Definition scaled_vpairs (c : R) (ps ps' : list (V3 * V3)) : Prop :=
  Forall2 (fun x x' => fst x' = vscale c (fst x) /\ snd x' = vscale c (snd x)) ps ps'.
Lemma lsq_scaled c ps ps' T T' : rescaled c T T' -> scaled_vpairs c ps ps' -> lsq ps' T' = (c * c * lsq ps T)%R.
Proof.
  intro SE. induction 1 as [|[g l] [g' l'] ps ps' [A B] F IH]; [cbn [lsq]; ring|]. cbn [fst snd] in A, B. cbn [lsq].
  rewrite IH, A, B, (rescaled_seen _ _ _ _ SE), scaled_dist. ring.
Qed.
Lemma best_scaled c ps ps' T T' : (0 < c)%R -> scaled_vpairs c ps ps' -> best_fit ps T -> one_best_fit ps -> best_fit ps' T' -> rescaled c T T'.
Proof.
  intros CP F [RT BT] ONE [RT' BT']. assert (CN : c <> 0%R) by lra.
  assert (E : T = rescale (/ c) T').
  { apply ONE; [split; assumption|]. split; [exact RT'|]. intros T3 R3. specialize (BT T3 R3). specialize (BT' (rescale c T) RT).
    rewrite (lsq_scaled c ps ps' _ _ (rescale_back c T' CN) F), (lsq_scaled c ps ps' _ _ (rescale_ok c T) F) in BT'.
    assert (0 < c * c)%R by (apply Rmult_lt_0_compat; exact CP). apply Rmult_le_reg_l in BT'; [|assumption]. lra. }
  rewrite E. apply rescale_back. exact CN.
Qed.

(** *** The stalling test *)
Lemma qle_bool_scaled c a b a' b' : (0 < c)%Q -> (a' == c * a)%Q -> (b' == c * b)%Q -> Qle_bool a' b' = Qle_bool a b.
Proof.
  intros CP A B. assert (K : (a' <= b')%Q <-> (a <= b)%Q) by (rewrite A, B; apply Qmult_le_l; exact CP).
  destruct (Qle_bool a b) eqn:E.
  - apply Qle_bool_iff, K, Qle_bool_iff in E. exact E.
  - destruct (Qle_bool a' b') eqn:E'; [|reflexivity]. apply Qle_bool_iff, K, Qle_bool_iff in E'. congruence.
Qed.
Lemma qmin_scaled c a b a' b' : (0 < c)%Q -> (a' == c * a)%Q -> (b' == c * b)%Q -> (qmin a' b' == c * qmin a b)%Q.
Proof.
  intros CP A B. unfold qmin, Qltb. rewrite (qle_bool_scaled c a b a' b' CP A B). destruct (Qle_bool a b); cbn [negb]; assumption.
Qed.
Lemma qabs_scaled c a a' : (0 < c)%Q -> (a' == c * a)%Q -> (qabs a' == c * qabs a)%Q.
Proof.
  intros CP A. unfold qabs, Qltb. assert (Z : (0 == c * 0)%Q) by ring. rewrite (qle_bool_scaled c 0 a 0 a' CP Z A). destruct (Qle_bool 0 a); cbn [negb]; [exact A|].
  rewrite A. ring.
Qed.
Lemma below_scaled c a a' m m' : (0 < c)%Q -> (a' == c * a)%Q -> (m' == c * m)%Q -> Qltb (qabs a') m' = Qltb (qabs a) m.
Proof.
  intros CP A B. unfold Qltb. rewrite (qle_bool_scaled c m (qabs a) m' (qabs a') CP B (qabs_scaled c a a' CP A)). reflexivity.
Qed.

Section Two.
Variables (c : Q) (fMax : Q) (shuffle : list nat -> list nat) (mround : Q -> Z) (tf_of : Pose -> P3 -> P3)
  (eig : Sym4 -> Eig) (convert : VPairs -> option VPairs) (name : nat) (gpts gpts' : option (list P3)) (nnG nnL nnG' nnL' : NNMap) (Ls Ls' : list P3)
  (pose_minus : Pose -> Pose -> Pose) (log_norms : Pose -> Q * Q) (b : BaseParams) (thr : Q) (wp : VWeights) (p p' : IcpParams).
Hypothesis CP : (0 < c)%Q.
Hypothesis NC : nn_correct nnG.
Hypothesis BB : bbox_correct nnG.
Hypothesis NC' : nn_correct nnG'.
Hypothesis BB' : bbox_correct nnG'.
Hypothesis GS : scaled_points (Q2R c) (nn_points nnG) (nn_points nnG').
Hypothesis LS : scaled_points (Q2R c) Ls Ls'.
Hypothesis LL : length (nn_points nnL) = length Ls.
Hypothesis LL' : length (nn_points nnL') = length Ls'.
Hypothesis TP : (0 < thr)%Q.
Hypothesis EPS : (0 <= bbox_epsilon b)%Q.
Hypothesis TBL : weight_pt2pt_layers b = [].
Hypothesis LIM : maxLocalPointsPerLayer b = 0 \/ length Ls <= maxLocalPointsPerLayer b.
Hypothesis PW : plain_weights wp.
Hypothesis QC : quality_checkpoints p = [].
Hypothesis QC' : quality_checkpoints p' = [].
Hypothesis SP : same_params c p p'.
Hypothesis RP : relative_pose pose_minus.
Hypothesis LA : length_and_angle c log_norms.
Let G := gmap name gpts nnG.
Let L := lmap name nnL Ls.
Let G' := gmap name gpts' nnG'.
Let L' := lmap name nnL' Ls'.
Let algo := horn_algo eig convert wp.
Let ms := [pose_matcher fMax shuffle mround G L tf_of (DT b thr 0 1) 0 0].
Let ms' := [pose_matcher fMax shuffle mround G' L' tf_of (DT b (c * thr) 0 1) 0 0].
Notation run1 := (course algo pose_minus log_norms (new_match_state G L) ms p None).
Notation run2 := (course algo pose_minus log_norms (new_match_state G' L') ms' p' None).
Let clear1 := clear_search tf_of eig wp b thr nnG Ls.
Let exact2 := exact_search tf_of eig wp b (c * thr) nnG' Ls'.
Lemma cR_pos : (0 < Q2R c)%R.
Proof. rewrite <- RMicromega.Q2R_0. apply Qlt_Rlt. exact CP. Qed.
Lemma cthr_pos : (0 < c * thr)%Q.
Proof. rewrite <- (Qmult_0_l thr). apply Qmult_lt_compat_r; assumption. Qed.

Lemma scaled_step it T f T' f' :
  found_with (new_match_state G L) ms it T f -> found_with (new_match_state G' L') ms' it T' f' -> rescaled (Q2R c) T T' -> clear1 T f -> exact2 T' f' ->
  scaled_search c (T, f) (T', f') /\ pairings_empty f' = pairings_empty f /\
  (pairings_empty f = false -> exists s s', algo (to_vpairs f) = Ok (true, s) /\ algo (to_vpairs f') = Ok (true, s') /\ rescaled (Q2R c) (hr_pose s) (hr_pose s')).
Proof.
  intros (env & m1 & FW) (env' & m2 & FW') SEEN (EX & SO & ONE & RD) (EX' & SO' & RD').
  assert (LIM' : maxLocalPointsPerLayer b = 0 \/ length Ls' <= maxLocalPointsPerLayer b) by (rewrite <- (Forall2_len _ _ _ LS); exact LIM).
  destruct (match_exactly fMax shuffle mround tf_of name gpts nnG nnL Ls b thr T NC BB EPS LL TP SO TBL LIM it env) as (x1 & y1 & E1 & pot & F1).
  destruct (match_exactly fMax shuffle mround tf_of name gpts' nnG' nnL' Ls' b (c * thr) T' NC' BB' EPS LL' cthr_pos SO' TBL LIM' it env') as (x2 & y2 & E2 & pot' & F2).
  unfold ms, G, L in FW. rewrite E1 in FW. injection FW as _ <-. unfold ms', G', L' in FW'. rewrite E2 in FW'. injection FW' as _ <-.
  assert (PS := pairs_scaled c T T' tf_of thr nnG nnG' name CP SEEN NC NC' GS Ls Ls' LS Ls Ls' EX EX' (incl_refl _) (incl_refl _) ONE 0).
  rewrite F1, F2. rewrite F1 in RD. rewrite F2 in RD'. set (ps := pairs_from thr nnG (tf_of T) name name 0 Ls) in *. set (ps' := pairs_from (c * thr) nnG' (tf_of T') name name 0 Ls') in *.
  split; [split; [exact SEEN|exact PS]|]. assert (EQ : pairings_empty (mkPairings ps' [] [] [] [] [] pot' : ptpairings) = pairings_empty (mkPairings ps [] [] [] [] [] pot : ptpairings)).
  { unfold pairings_empty. cbn [paired_pt2pt]. inversion PS; reflexivity. }
  split; [exact EQ|]. intro NE. destruct (RD NE) as [HR UN]. assert (HR' := RD' (eq_trans EQ NE)).
  destruct (horn_fit eig convert wp PW _ (ex_intro _ ps (ex_intro _ pot eq_refl)) HR) as (s & A1 & B1).
  destruct (horn_fit eig convert wp PW _ (ex_intro _ ps' (ex_intro _ pot' eq_refl)) HR') as (s' & A2 & B2).
  exists s, s'. split; [exact A1|]. split; [exact A2|].
  apply (best_scaled (Q2R c) (vp_pts (to_vpairs (mkPairings ps [] [] [] [] [] pot))) (vp_pts (to_vpairs (mkPairings ps' [] [] [] [] [] pot')))); try assumption; [exact cR_pos|].
  rewrite !vpts_map. cbn [vp_pts]. clear - PS. induction PS as [|x x' ps ps' (_ & _ & _ & A & B) F IH]; constructor; [split; assumption|exact IH].
Qed.

Definition before_scaled (p2 p2' : option Pose) : Prop :=
  match p2, p2' with None, None => True | Some A, Some A' => rescaled (Q2R c) A A' | _, _ => False end.
Lemma sizes_scaled A A' B B' : rescaled (Q2R c) A A' -> rescaled (Q2R c) B B' ->
  (fst (log_norms (pose_minus A' B')) == c * fst (log_norms (pose_minus A B)))%Q /\ (snd (log_norms (pose_minus A' B')) == snd (log_norms (pose_minus A B)))%Q.
Proof. intros SA SB. rewrite !RP. apply LA. apply rescaled_minus; assumption. Qed.
Lemma stalls_scaled A A' B B' p2 p2' : rescaled (Q2R c) A A' -> rescaled (Q2R c) B B' -> before_scaled p2 p2' ->
  stalls pose_minus log_norms p' A' B' p2' = stalls pose_minus log_norms p A B p2.
Proof.
  intros SA SB PB. destruct SP as (_ & MT & MR). destruct (sizes_scaled A A' B B' SA SB) as [X Y].
  assert (ONE1 : (0 < 1)%Q) by reflexivity.
  assert (MR1 : (minAbsStep_rot p' == 1 * minAbsStep_rot p)%Q) by (rewrite MR; ring).
  unfold stalls, increments, is_stalled. destruct (log_norms (pose_minus A B)) as [dx dr]. destruct (log_norms (pose_minus A' B')) as [dx' dr']. cbn [fst snd] in X, Y.
  assert (Y1 : (dr' == 1 * dr)%Q) by (rewrite Y; ring).
  destruct p2 as [C|], p2' as [C'|]; try contradiction.
  - destruct (sizes_scaled A A' C C' SA PB) as [U V]. destruct (log_norms (pose_minus A C)) as [ex er]. destruct (log_norms (pose_minus A' C')) as [ex' er']. cbn [fst snd] in U, V |- *.
    assert (V1 : (er' == 1 * er)%Q) by (rewrite V; ring).
    rewrite (below_scaled c (qmin dx ex) (qmin dx' ex') _ _ CP (qmin_scaled c dx ex dx' ex' CP X U) MT).
    rewrite (below_scaled 1 (qmin dr er) (qmin dr' er') _ _ ONE1 (qmin_scaled 1 dr er dr' er' ONE1 Y1 V1) MR1). reflexivity.
  - cbn [fst snd]. rewrite (below_scaled c dx dx' _ _ CP X MT), (below_scaled 1 dr dr' _ _ ONE1 Y1 MR1). reflexivity.
Qed.

Lemma scaled_run l : forall it fuel T p2 n reason Tend, run1 it fuel T p2 l n reason Tend ->
  forall T' p2' l' n' reason' Tend', run2 it fuel T' p2' l' n' reason' Tend' -> rescaled (Q2R c) T T' -> before_scaled p2 p2' ->
  (forall a, In a l -> clear1 (fst a) (snd a)) -> (forall a, In a l' -> exact2 (fst a) (snd a)) ->
  Forall2 (scaled_search c) l l' /\ n' = n /\ reason' = reason /\ rescaled (Q2R c) Tend Tend'.
Proof.
  induction l as [|[T1 f1] l IH]; intros * C1 * C2 SEEN PB K1 K2.
  - inversion C1; subst. inversion C2; subst. split; [constructor|]. split; [reflexivity|]. split; [reflexivity|exact SEEN].
  - destruct l' as [|[T2 f2] l']; [inversion C2; subst; inversion C1|].
    assert (CL := K1 _ (or_introl eq_refl)). assert (EX := K2 _ (or_introl eq_refl)). cbn [fst snd] in CL, EX.
    assert (T1 = T) by (inversion C1; reflexivity). assert (T2 = T') by (inversion C2; reflexivity). subst T1 T2.
    assert (FW1 : found_with (new_match_state G L) ms it T f1) by (inversion C1; assumption).
    assert (FW2 : found_with (new_match_state G' L') ms' it T' f2) by (inversion C2; assumption).
    destruct (scaled_step it T f1 T' f2 FW1 FW2 SEEN CL EX) as (A & B & D).
    assert (ST : forall s s', algo (to_vpairs f1) = Ok (true, s) -> algo (to_vpairs f2) = Ok (true, s') -> pairings_empty f1 = false ->
      rescaled (Q2R c) (hr_pose s) (hr_pose s') /\ stalls pose_minus log_norms p' (hr_pose s') T' p2' = stalls pose_minus log_norms p (hr_pose s) T p2).
    { intros s s' X X' NE. destruct (D NE) as (s1 & s2 & D1 & D2 & D4). rewrite X in D1. rewrite X' in D2. injection D1 as ->. injection D2 as ->.
      split; [exact D4|]. apply stalls_scaled; assumption. }
    assert (NOERR : forall s, pairings_empty f1 = false -> algo (to_vpairs f1) <> Ok (false, s) /\ algo (to_vpairs f2) <> Ok (false, s)).
    { intros s NE. destruct (D NE) as (s1 & s2 & D1 & D2 & _). rewrite D1, D2. split; discriminate. }
    assert (ENDS : forall o Te o' Te', ending algo pose_minus log_norms p None T p2 f1 o Te -> ending algo pose_minus log_norms p' None T' p2' f2 o' Te' ->
      o' = o /\ rescaled (Q2R c) Te Te').
    { intros o Te o' Te' X Y. inversion X; subst; inversion Y; subst; try congruence;
        try (exfalso; match goal with H : algo _ = Ok (false, ?s) |- _ => destruct (NOERR s ltac:(congruence)); congruence end).
      - split; [reflexivity|exact SEEN].
      - split; [reflexivity|]. match goal with H : algo (to_vpairs f1) = Ok (true, ?s), H' : algo (to_vpairs f2) = Ok (true, ?s') |- _ => apply (ST s s' H H') end. assumption. }
    inversion C1; subst; inversion C2; subst.
    + match goal with X : ending _ _ _ _ _ T _ _ _ _, Y : ending _ _ _ _ _ T' _ _ _ _ |- _ => destruct (ENDS _ _ _ _ X Y) as [-> Z] end.
      split; [constructor; [exact A|constructor]|]. split; [reflexivity|]. split; [reflexivity|exact Z].
    + exfalso. match goal with X : ending _ _ _ _ _ T _ _ _ _ |- _ => inversion X; subst end; try congruence;
        try (match goal with H : algo (to_vpairs f1) = Ok (false, ?s) |- _ => destruct (NOERR s ltac:(congruence)); congruence end).
      match goal with H : algo (to_vpairs f1) = Ok (true, ?s), H' : algo (to_vpairs f2) = Ok (true, ?s') |- _ => destruct (ST s s' H H' ltac:(congruence)) as (_ & Z) end. congruence.
    + exfalso. match goal with X : ending _ _ _ _ _ T' _ _ _ _ |- _ => inversion X; subst end; try congruence;
        try (match goal with H : algo (to_vpairs f2) = Ok (false, ?s) |- _ => destruct (NOERR s ltac:(congruence)); congruence end).
      match goal with H : algo (to_vpairs f1) = Ok (true, ?s), H' : algo (to_vpairs f2) = Ok (true, ?s') |- _ => destruct (ST s s' H H' ltac:(congruence)) as (_ & Z) end. congruence.
    + match goal with H : algo (to_vpairs f1) = Ok (true, ?s), H' : algo (to_vpairs f2) = Ok (true, ?s') |- _ => destruct (ST s s' H H' ltac:(congruence)) as (Z2 & Z3) end.
      match goal with X : run1 (Datatypes.S it) _ _ _ _ _ _ _, Y : run2 (Datatypes.S it) _ _ _ _ _ _ _ |- _ =>
        destruct (IH _ _ _ _ _ _ _ X _ _ _ _ _ _ Y Z2 ltac:(exact SEEN) ltac:(intros; apply K1; right; assumption) ltac:(intros; apply K2; right; assumption)) as (E1 & E2 & E3 & E4) end.
      split; [constructor; assumption|]. split; [exact E2|]. split; [exact E3|exact E4].
Qed.
End Two.

(** C359: with both maps, the guess, the matching threshold and the smallest step given in another unit of length, the result is the same
    pose in that unit. *)
Theorem C359_unit_of_length :
  forall c fMax shuffle mround tf_of eig convert name gpts gpts' nnG nnG' nnL nnL' Ls Ls' pose_minus log_norms tnorm realize realize' b thr wp evals evals' p p' ge le ge' le' wd wd' guess guess' env env' env2 env2' r r',
  (0 < c)%Q ->
  (* the libraries *)
  nn_correct nnG -> bbox_correct nnG -> nn_correct nnG' -> bbox_correct nnG' -> length (nn_points nnL) = length Ls -> length (nn_points nnL') = length Ls' ->
  relative_pose pose_minus -> length_and_angle c log_norms ->
  (* parameters *)
  (0 < thr)%Q -> (0 <= bbox_epsilon b)%Q -> weight_pt2pt_layers b = [] ->
  maxLocalPointsPerLayer b = 0 \/ length Ls <= maxLocalPointsPerLayer b -> plain_weights wp -> quality_checkpoints p = [] -> quality_checkpoints p' = [] ->
  (* the other unit *)
  same_params c p p' -> scaled_points (Q2R c) (nn_points nnG) (nn_points nnG') -> scaled_points (Q2R c) Ls Ls' -> rescaled (Q2R c) guess guess' ->
  align pose_minus log_norms tnorm realize (new_match_state (gmap name gpts nnG) (lmap name nnL Ls))
    (mkComponents [pose_matcher fMax shuffle mround (gmap name gpts nnG) (lmap name nnL Ls) tf_of (DT b thr 0 1) 0 0]
                  [closed_solver 0 (horn_algo eig convert wp)] evals None)
    p ge le wd guess env = Ok (env2, r) ->
  align pose_minus log_norms tnorm realize' (new_match_state (gmap name gpts' nnG') (lmap name nnL' Ls'))
    (mkComponents [pose_matcher fMax shuffle mround (gmap name gpts' nnG') (lmap name nnL' Ls') tf_of (DT b (c * thr) 0 1) 0 0]
                  [closed_solver 0 (horn_algo eig convert wp)] evals' None)
    p' ge' le' wd' guess' env' = Ok (env2', r') ->
  (forall T f, In (T, f) (searches (r_loopTrace r)) -> clear_search tf_of eig wp b thr nnG Ls T f) ->
  (forall T f, In (T, f) (searches (r_loopTrace r')) -> exact_search tf_of eig wp b (c * thr) nnG' Ls' T f) ->
  rescaled (Q2R c) (r_optimal_tf r) (r_optimal_tf r') /\
  r_nIterations r' = r_nIterations r /\ r_terminationReason r' = r_terminationReason r /\
  Forall2 (scaled_search c) (searches (r_loopTrace r)) (searches (r_loopTrace r')).
Proof.
  intros * CP NC BB NC' BB' LL LL' RP LA TP EPS TBL LIM PW QC QC' SP GS LS SG A1 A2 K1 K2.
  destruct (align_course _ _ _ _ _ _ _ _ _ _ _ _ _ _ _ _ _ A1) as (o & C1 & R1).
  destruct (align_course _ _ _ _ _ _ _ _ _ _ _ _ _ _ _ _ _ A2) as (o' & C2 & R2).
  assert (MI := proj1 SP). rewrite MI in C2, R2.
  destruct (scaled_run c fMax shuffle mround tf_of eig convert name gpts gpts' nnG nnL nnG' nnL' Ls Ls' pose_minus log_norms b thr wp p p'
    CP NC BB NC' BB' GS LS LL LL' TP EPS TBL LIM PW QC QC' SP RP LA _ _ _ _ _ _ _ _ C1 _ _ _ _ _ _ C2 SG) as (X & Y & Z & W).
  - exact I.
  - intros [T f] IN. apply K1, IN.
  - intros [T f] IN. apply K2, IN.
  - split; [exact W|]. split; [exact Y|]. split; [|exact X]. rewrite R1, R2, Y, Z. reflexivity.
Qed.

(** ** The six points in two units *)
(** the length up to a factor of two: a power of two, or 0 *)
Definition coarse_length (x : R) : Q := if Req_EM_T x 0 then 0%Q else Qpower 2 (up (ln x / ln 2)).
Definition un_norms (D : Pose) : Q * Q :=
  (coarse_length (vnorm (tr D)), if pose_dec (turn_of D) id_pose then 0%Q else 28 # 100).
Lemma un_length : length_and_angle 2 un_norms.
Proof.
  intros D D' (A & B & C & E). unfold un_norms. cbn [fst snd]. assert (Q2 : Q2R 2 = 2%R) by (unfold Q2R; cbn; lra). rewrite Q2 in E.
  split.
  - assert (V : vnorm (tr D') = (2 * vnorm (tr D))%R).
    { rewrite E. unfold vnorm. replace (vnorm2 (vscale 2 (tr D))) with (2 * 2 * vnorm2 (tr D))%R by (punf; ring).
      rewrite sqrt_mult_alt by lra. rewrite sqrt_square by lra. reflexivity. }
    rewrite V. assert (N := LpmProps.vnorm_nonneg (tr D)). set (x := vnorm (tr D)) in *. unfold coarse_length.
    destruct (Req_EM_T x 0) as [Z|Z]; destruct (Req_EM_T (2 * x) 0) as [Z'|Z']; try (exfalso; lra); [reflexivity|].
    assert (L2 : (ln 2 <> 0)%R) by (assert (X := ln_lt_2); lra).
    assert (U : (ln (2 * x) / ln 2 = 1 + ln x / ln 2)%R) by (rewrite ln_mult by lra; field; exact L2). rewrite U.
    assert (UP : up (1 + ln x / ln 2) = (1 + up (ln x / ln 2))%Z).
    { symmetry. apply tech_up; rewrite plus_IZR; destruct (archimed (ln x / ln 2)); lra. }
    rewrite UP, Qpower_plus by discriminate. reflexivity.
  - unfold turn_of. rewrite A, B, C. destruct (pose_dec _ _); reflexivity.
Qed.
Lemma coarse_nonneg x : (0 <= coarse_length x)%Q.
Proof. unfold coarse_length. destruct (Req_EM_T x 0); [discriminate|]. apply Qpower_0_le. discriminate. Qed.
Lemma un_norms_nonneg D : (0 <= fst (un_norms D) /\ 0 <= snd (un_norms D))%Q.
Proof. unfold un_norms. cbn [fst snd]. split; [apply coarse_nonneg|]. destruct (pose_dec (turn_of D) id_pose); discriminate. Qed.

Section Scaled.
Variable m : Q.
Hypothesis M1 : (1 <= Q2R m)%R.
Let k := Q2R m.
Definition un_glo (q : P3) : P3 := mkP3 (m * (- py q + 1)) (m * (px q + 2)) (m * (pz q + 3)).
Definition un_loc (q : P3) : P3 := mkP3 (m * px q) (m * py q) (m * pz q).
Definition un_globals := rev (map un_glo sixQ) ++ [un_glo (mkP3 9 9 9)].
Definition un_locals := map un_loc sixQ.
Definition un_solQ (q : P3) : P3 := mkP3 (- py q + m) (px q + m * 2) (pz q + m * 3).
Definition un_gueQ (q : P3) : P3 := mkP3 (- (7 # 25) * px q - (24 # 25) * py q + m * (11 # 10)) ((24 # 25) * px q - (7 # 25) * py q + m * 2) (pz q + m * 3).
Definition un_sol : Pose := mkPose (mkV 0 1 0) (mkV (-1) 0 0) (mkV 0 0 1) (mkV k (k * 2) (k * 3)).
Definition un_gue : Pose := mkPose (mkV (- (7 / 25)) (24 / 25) 0) (mkV (- (24 / 25)) (- (7 / 25)) 0) (mkV 0 0 1) (mkV (k * (11 / 10)) (k * 2) (k * 3)).
Lemma un_sol_rotation : is_rotation un_sol.
Proof. unfold is_rotation, un_sol. punf. repeat split; try lra. f_equal; lra. Qed.
Lemma un_gue_rotation : is_rotation un_gue.
Proof. unfold is_rotation, un_gue. punf. repeat split; try lra. f_equal; lra. Qed.
Lemma un_sol_exact q : to_v (un_solQ q) = compose un_sol (to_v q).
Proof. unfold un_solQ, un_sol, to_v, k. punf. cbn [px py pz]. repeat rewrite ?Q2R_plus, ?Q2R_mult, ?Q2R_opp. rewrite ?QR2, ?QR3. f_equal; ring. Qed.
Lemma QR11 : Q2R (11 # 10) = (11 / 10)%R. Proof. unfold Q2R. cbn. lra. Qed.
Lemma un_gue_exact q : to_v (un_gueQ q) = compose un_gue (to_v q).
Proof.
  unfold un_gueQ, un_gue, to_v, k. punf. cbn [px py pz]. repeat rewrite ?Q2R_plus, ?Q2R_mult, ?Q2R_minus, ?Q2R_opp. rewrite ?QR2, ?QR3, ?QR11, ?Q7, ?Q24. f_equal; field.
Qed.
Definition un_pairs : list (V3 * V3) := map (fun q => (to_v (un_glo q), to_v (un_loc q))) sixQ.
Definition un_vp : VPairs := mkVP un_pairs [] [] 0 0 [].
Lemma un_glo_v q : to_v (un_glo q) = mkV (k * (- vy (to_v q) + 1)) (k * (vx (to_v q) + 2)) (k * (vz (to_v q) + 3)).
Proof. unfold un_glo, to_v, k. cbn [px py pz vx vy vz]. repeat rewrite ?Q2R_plus, ?Q2R_mult, ?Q2R_opp. rewrite ?QR1, ?QR2, ?QR3. reflexivity. Qed.
Lemma un_loc_v q : to_v (un_loc q) = vscale k (to_v q).
Proof. unfold un_loc, to_v, vscale, k. cbn [px py pz vx vy vz]. rewrite !Q2R_mult. reflexivity. Qed.
Lemma un_pairs_v : un_pairs = map (fun v => (mkV (k * (- vy v + 1)) (k * (vx v + 2)) (k * (vz v + 3)), vscale k v)) six.
Proof. unfold un_pairs. rewrite <- to_v_six, map_map. apply map_ext. intro q. rewrite un_glo_v, un_loc_v. reflexivity. Qed.
Lemma un_noiseless : noiseless un_sol un_vp.
Proof.
  split; [|split; constructor]. unfold un_vp, un_pairs. cbn [vp_pts]. apply Forall_forall. intros x I. apply in_map_iff in I. destruct I as (q & <- & _). cbn [fst snd].
  rewrite un_glo_v, un_loc_v. unfold un_sol. punf. f_equal; ring.
Qed.
Lemma un_centroids : centroid (map fst un_pairs) = mkV k (k * 2) (k * 3) /\ centroid (map snd un_pairs) = mkV 0 0 0.
Proof.
  rewrite un_pairs_v, !map_map. unfold six, centroid, vsum. cbn [map fst snd vx vy vz]. split; cbn [fold_right length]; unfold vadd, vscale, vzero3; cbn [vx vy vz INR]; f_equal; field.
Qed.
Lemma un_far : off_centroid un_pairs.
Proof.
  unfold off_centroid. destruct un_centroids as [-> ->]. rewrite un_pairs_v. apply Forall_forall. intros x I. apply in_map_iff in I. destruct I as (v & <- & I). cbn [fst snd].
  assert (N : vnorm2 v = 1%R) by (unfold six in I; repeat (destruct I as [<-|I]; [unfold vnorm2, vdot; cbn [vx vy vz]; ring|]); destruct I).
  unfold vnorm2, vdot in N. assert (KK : (1 <= k * k)%R) by (unfold k; nra).
  split; apply vnorm_far; unfold vnorm2, vdot, vsub, vscale; cbn [vx vy vz].
  - replace (_ + _)%R with (k * k * (vx v * vx v + vy v * vy v + vz v * vz v))%R by ring. rewrite N. lra.
  - replace (_ + _)%R with (k * k * (vx v * vx v + vy v * vy v + vz v * vz v))%R by ring. rewrite N. lra.
Qed.
Lemma un_calls : horn_pairs un_vp wp_default = plain_calls un_vp wp_default (mkV 0 0 0) (mkV k (k * 2) (k * 3)) 0 un_pairs.
Proof.
  unfold horn_pairs. assert (F := un_far). unfold off_centroid in F. change (vp_pts un_vp) with un_pairs. destruct un_centroids as [E1 E2]. rewrite E1, E2 in F |- *.
  unfold items. change (vp_lns un_vp) with (@nil (V3 * V3)). change (vp_pls un_vp) with (@nil (V3 * V3)). change (vp_pts un_vp) with un_pairs. cbn [map app]. rewrite app_nil_r.
  apply used_plain; [reflexivity|reflexivity|exact F].
Qed.
Lemma un_matrix : horn_matrix un_vp wp_default = mkS4 (k * k / 3) 0 0 (k * k * (2 / 3)) (- (k * k / 3)) 0 0 (- (k * k / 3)) 0 (k * k / 3).
Proof.
  unfold horn_matrix. rewrite un_calls.
  assert (CT : class_total un_vp wp_default = 6%R).
  { unfold class_total, un_vp. cbn [vp_pts vp_lns vp_pls map length wp_default wp_pt2pt wp_ln2ln wp_pl2pl]. unfold un_pairs. rewrite map_length.
    unfold sixQ. cbn [length]. rewrite !INR_IZR_INZ. simpl. ring. }
  rewrite un_pairs_v. unfold six. cbn [map plain_calls]. rewrite CT. change (wp_pt2pt wp_default) with 1%R.
  assert (PB : forall i, pair_block_weight un_vp i = 1%R) by reflexivity. rewrite !PB.
  unfold S_of. cbn [sum_w c_w]. destruct (Rlt_dec 0 _) as [|X]; [|exfalso; lra].
  unfold S_scale, S_add, S_zero, N_of. cbn [fold_left m00 m01 m02 m10 m11 m12 m20 m21 m22 c_w c_b c_r].
  unfold vsub, vscale. cbn [vx vy vz]. clear. f_equal; field.
Qed.
Definition un_eig (a : Sym4) : Eig :=
  mkEig (mkQ h2 0 0 (- h2)) (mkQ 0 1 0 0) (mkQ 0 0 1 0) (mkQ h2 0 0 h2) (- n00 a) (- n00 a) (- n00 a) (3 * n00 a).
Lemma un_spectral : spectral (horn_matrix un_vp wp_default) (un_eig (horn_matrix un_vp wp_default)).
Proof.
  rewrite un_matrix. unfold un_eig. cbn [n00]. assert (HH := h2_sq). assert (KK : (1 <= k * k)%R) by (unfold k; nra). set (j := (k * k)%R) in *.
  unfold spectral, qdot, qnorm2, quad4; cbn [z0 z1 z2 z3 lam0 lam1 lam2 lam3 qr qx qy qz n00 n01 n02 n03 n11 n12 n13 n22 n23 n33];
    (repeat split; try lra; try (rewrite <- (Rmult_1_r 1); nra)); intros [r x y z]; cbn [qr qx qy qz].
  - transitivity ((h2 * h2) * ((r - z) * (r - z)) + x * x + y * y + (h2 * h2) * ((r + z) * (r + z)))%R; [ring|]. rewrite HH. field.
  - transitivity (- (j / 3) * ((h2 * h2) * ((r - z) * (r - z))) + - (j / 3) * (x * x) + - (j / 3) * (y * y) + j * ((h2 * h2) * ((r + z) * (r + z))))%R; [rewrite HH; field|field].
Qed.
Lemma un_ready f : to_vpairs f = un_vp -> horn_ready un_eig wp_default (to_vpairs f) /\ one_best_fit (vp_pts (to_vpairs f)).
Proof.
  intros ->. assert (H : horn_ready un_eig wp_default un_vp) by (split; [cbn; lia|]; split; [exact un_far|exact un_spectral]).
  split; [exact H|]. destruct H as (N3 & OFF & SP).
  apply (C353_one_best_fit_iff un_eig un_vp wp_default); try reflexivity; try assumption; try (cbn; lra).
  rewrite un_matrix. unfold un_eig. cbn [lam0 lam1 lam2 lam3 n00]. assert (KK : (1 <= k * k)%R) by (unfold k; nra). lra.
Qed.
Lemma un_solved f : to_vpairs f = un_vp -> horn_algo un_eig (fun _ => None) wp_default (to_vpairs f) = Ok (true, mkHR un_sol []).
Proof.
  intros ->. unfold horn_algo, solver_horn. cbn [un_vp vp_nPt2Ln vp_nPt2Pl Nat.eqb andb]. apply C86_horn_recovers_the_pose.
  - apply un_sol_rotation.
  - apply un_noiseless.
  - apply default_positive. reflexivity.
  - intros X. exfalso. apply X. reflexivity.
  - discriminate.
  - unfold at_least_three. simpl. lia.
  - reflexivity.
  - reflexivity.
  - discriminate.
  - rewrite un_calls, un_pairs_v. unfold six. cbn [map plain_calls]. do 2 eexists.
    split; [left; reflexivity|]. split; [right; right; left; reflexivity|]. cbn [c_r]. unfold vsub, vcross, vscale. cbn [vx vy vz].
    intros E. injection E as _ _ E. unfold k in E. nra.
  - exact un_spectral.
Qed.

(** *** The run *)
Definition un_params : IcpParams := mkIcpParams 10 (m * (1 # 100)) (1 # 100) false false 0 [].
Variable tf_of : Pose -> P3 -> P3.
Hypothesis TG : tf_of un_gue = un_gueQ.
Hypothesis TS : tf_of un_sol = un_solQ.
Notation G := (gmap 7 None (brute un_globals)).
Notation L := (lmap 7 (brute un_locals) un_locals).
Definition un_found (tf : P3 -> P3) (it : nat) : res (MatchState * ptpairings) :=
  run_matchers [pm_matcher 1000000 (fun l => l) (fun _ => 0%Z) G L (DT (mono_base true) (m * (1 # 2)) 0 1) 0 0] it tf (new_match_state G L (mkMS [] [])).
Definition un_right (f : ptpairings) : Prop :=
  map p_local (paired_pt2pt f) = un_locals /\ map p_global (paired_pt2pt f) = map un_glo sixQ /\
  paired_pt2ln f = [] /\ paired_pt2pl f = [] /\ point_weights f = [].
Lemma un_vpairs f : un_right f -> to_vpairs f = un_vp.
Proof.
  intros (A & B & C & D & E). unfold to_vpairs, un_vp, un_pairs. rewrite C, D, E. cbn [map length]. f_equal.
  unfold un_locals in A. revert A B. generalize sixQ. induction (paired_pt2pt f) as [|x l IH]; intros [|q qs] A B; cbn [map] in *; try discriminate; [reflexivity|].
  injection A as A1 A2. injection B as B1 B2. rewrite A1, B1. f_equal. apply IH; assumption.
Qed.
Lemma un_some f : un_right f -> pairings_empty f = false.
Proof. intros (A & _). unfold pairings_empty. destruct (paired_pt2pt f); [discriminate A|reflexivity]. Qed.
Lemma un_fresh env : new_match_state G L env = new_match_state G L (mkMS [] []).
Proof. destruct (fresh_state 7 None (brute un_globals) (brute un_locals) un_locals) as (ms & E & _). unfold new_match_state. rewrite E. reflexivity. Qed.
Lemma un_run_found T tf it m1 f1 env : tf_of T = tf -> un_found tf it = Ok (m1, f1) ->
  run_matchers [pose_matcher 1000000 (fun l => l) (fun _ => 0%Z) G L tf_of (DT (mono_base true) (m * (1 # 2)) 0 1) 0 0] it T (new_match_state G L env) = Ok (m1, f1).
Proof. intros <- F. rewrite un_fresh. unfold un_found in F. rewrite <- pose_matcher_run in F. exact F. Qed.

Lemma un_stall1 : is_stalled un_params (increments fc_minus un_norms un_sol un_gue None) = false.
Proof.
  unfold increments, un_norms. destruct (pose_dec _ _) as [X|_].
  - exfalso. apply (f_equal (fun T => vx (c0 T))) in X. unfold turn_of, fc_minus, pose_mul, pinv, un_gue, un_sol, id_pose in X. revert X. punf. lra.
  - unfold is_stalled. cbn [fst snd]. apply Bool.andb_false_r.
Qed.
Lemma un_self : un_norms (fc_minus un_sol un_sol) = (0, 0)%Q.
Proof.
  rewrite (minus_self _ un_sol_rotation). unfold un_norms. destruct (pose_dec _ _) as [_|X]; [|contradiction X; reflexivity]. f_equal.
  unfold coarse_length. destruct (Req_EM_T _ 0) as [_|X]; [reflexivity|]. exfalso. apply X. unfold id_pose, vnorm. cbn [tr].
  replace (vnorm2 _) with 0%R by (punf; ring). apply sqrt_0.
Qed.
Lemma un_stall2 : (0 < m)%Q -> is_stalled un_params (increments fc_minus un_norms un_sol un_sol (Some un_gue)) = true.
Proof.
  intro MP. unfold increments. rewrite un_self. destruct (un_norms (fc_minus un_sol un_gue)) as [x y] eqn:E.
  assert (XY := un_norms_nonneg (fc_minus un_sol un_gue)). rewrite E in XY. destruct XY as [X Y]. cbn [fst snd] in X, Y.
  assert (QM : forall a, (0 <= a)%Q -> qmin 0 a = 0%Q).
  { intros a H. unfold qmin, Qltb. apply Qle_bool_iff in H. rewrite H. reflexivity. }
  rewrite (QM x X), (QM y Y). unfold is_stalled. cbn [fst snd minAbsStep_trans minAbsStep_rot un_params]. change (qabs 0) with 0%Q.
  apply Bool.andb_true_iff. split; [|reflexivity]. unfold Qltb. apply Bool.negb_true_iff. destruct (Qle_bool _ 0) eqn:F; [|reflexivity].
  apply Qle_bool_iff in F. exfalso. apply (Qlt_not_le 0 (m * (1 # 100))); [|exact F]. rewrite <- (Qmult_0_l (1 # 100)). apply Qmult_lt_compat_r; [reflexivity|exact MP].
Qed.
Lemma un_near tf : forallb (fun l => forallb (fun i => forallb (fun j =>
     match nth_error un_globals i, nth_error un_globals j with
     | Some g, Some h => (i =? j)%nat || negb (Qeq_bool (sqd (tf l) h) (sqd (tf l) g)) || Qle_bool (qsq (m * (1 # 2))) (sqd (tf l) g)
     | _, _ => true end) (seq 0 7)) (seq 0 7)) un_locals = true -> one_nearest (m * (1 # 2)) (nn_points (brute un_globals)) tf un_locals.
Proof.
  intros H l i j g h Il Gi Gj _ Q1 Q2. rewrite forallb_forall in H. specialize (H l Il). rewrite forallb_forall in H.
  assert (LEN : length un_globals = 7) by reflexivity.
  change (nn_points (brute un_globals)) with un_globals in Gi, Gj.
  assert (Hi : i < 7) by (rewrite <- LEN; apply nth_error_Some; congruence). assert (Hj : j < 7) by (rewrite <- LEN; apply nth_error_Some; congruence).
  specialize (H i ltac:(apply in_seq; lia)). rewrite forallb_forall in H. specialize (H j ltac:(apply in_seq; lia)). rewrite Gi, Gj in H.
  apply Bool.orb_prop in H. destruct H as [H|H]; [apply Bool.orb_prop in H; destruct H as [H|H]|].
  - apply Nat.eqb_eq. exact H.
  - apply Qeq_eq_bool in Q1. rewrite Q1 in H. discriminate.
  - apply Qle_bool_iff in H. exfalso. exact (Qlt_not_le _ _ Q2 H).
Qed.
Lemma un_exact T tf f : tf_of T = tf -> (forall q, to_v (tf q) = compose T (to_v q)) -> un_right f ->
  exact_search tf_of un_eig wp_default (mono_base true) (m * (1 # 2)) (brute un_globals) un_locals T f.
Proof.
  intros TE EX RP. split; [intros l _; rewrite TE; apply EX|]. split; [left; reflexivity|]. intros _. apply (un_ready f (un_vpairs f RP)).
Qed.
End Scaled.

(** two iterations, with any norms *)
Section Twice.
Variables (matchers : list (@Matcher Pair Datatypes.unit Datatypes.unit Datatypes.unit Datatypes.unit Q MatchState Pose)) (p : IcpParams)
  (pm : Pose -> Pose -> Pose) (ln : Pose -> Q * Q) (reset : MatchState -> MatchState) (env0 : MatchState) (algo : VPairs -> res (bool * HResult)) (guess found : Pose).
Definition tw_align := align pm ln (fun _ => 0%Q) (fun _ e => Ok e) reset
    (mkComponents matchers [closed_solver 0 algo] [ratio_evaluator 1 (1 # 5)] None) p false false false guess env0.
Hypothesis P1 : exists n, maxIterations p = Datatypes.S (Datatypes.S n).
Hypothesis P2 : quality_checkpoints p = [].
Hypothesis P3 : generateDebugFiles p = false.
Hypothesis P4 : saveIterationDetails p = false.
Hypothesis HM : matchers <> [].
Variables (f1 f2 : ptpairings) (m1 m2 : MatchState).
Hypothesis F1 : run_matchers matchers 0 guess (reset env0) = Ok (m1, f1).
Hypothesis E1 : pairings_empty f1 = false.
Hypothesis A1 : algo (to_vpairs f1) = Ok (true, mkHR found []).
Hypothesis F2 : run_matchers matchers 1 found (reset m1) = Ok (m2, f2).
Hypothesis E2 : pairings_empty f2 = false.
Hypothesis A2 : algo (to_vpairs f2) = Ok (true, mkHR found []).
Hypothesis ST1 : is_stalled p (increments pm ln found guess None) = false.
Hypothesis ST2 : is_stalled p (increments pm ln found found (Some guess)) = true.
Lemma tw_run : exists r, tw_align = Ok (m2, r) /\ r_optimal_tf r = found /\ r_nIterations r = 1 /\ searches (r_loopTrace r) = [(guess, f1); (found, f2)].
Proof.
  destruct P1 as [n PN].
  unfold tw_align, align. cbn [c_matchers c_solvers c_evaluators]. destruct matchers as [|mt0 mts]; [contradiction HM; reflexivity|]. cbn [isNil orb]. rewrite PN, P3. cbn [orb icp_loop].
  unfold iter_body at 1. cbn [rbind l_env c_matchers l_sol optimalPose].
  rewrite F1. cbn [rbind]. rewrite E1. cbn [c_solvers].
  unfold run_solvers, solver_optimal_pose, solver_iter_gate, solver_latch_gate, closed_solver.
  cbn [s_enabled negb sc_icpIteration s_runFromIteration s_runUpToIteration s_runUntilTranslationCorrectionSmallerThan s_impl].
  change (Nat.ltb 0 0) with false. change (Qltb 0 0) with false. cbn [andb]. rewrite A1. cbn [rbind fst snd hr_pose negb optimalPose l_prev l_prev2].
  rewrite ST1. unfold want_details. rewrite P4. cbn [andb].
  unfold iter_tail at 1. rewrite P2. change (find_checkpoint [] 0) with (@None Q). cbn [c_hook rbind l_env l_sol l_pairings l_prev l_prev2 l_lastCorrection l_latched l_details l_trace].
  unfold iter_body at 1. cbn [rbind l_env c_matchers l_sol optimalPose].
  rewrite F2. cbn [rbind]. rewrite E2. cbn [c_solvers].
  unfold run_solvers, solver_optimal_pose, solver_iter_gate, solver_latch_gate.
  cbn [s_enabled negb sc_icpIteration s_runFromIteration s_runUpToIteration s_runUntilTranslationCorrectionSmallerThan s_impl].
  change (Nat.ltb 1 0) with false. change (Nat.ltb 0 0) with false. change (Qltb 0 0) with false. cbn [andb]. rewrite A2. cbn [rbind fst snd hr_pose negb optimalPose l_prev l_prev2].
  rewrite ST2. unfold want_details. rewrite P4. cbn [andb rbind l_env l_sol l_pairings optimalPose].
  destruct (quality_any found f2 m2) as [q Eq]. rewrite Eq. cbn [rbind]. eexists. split; [reflexivity|]. split; [reflexivity|]. split; reflexivity.
Qed.
End Twice.

(** the run in the unit [m] *)
Definition un_align (m : Q) (tf_of : Pose -> P3 -> P3) :=
  tw_align [pose_matcher 1000000 (fun l => l) (fun _ => 0%Z) (gmap 7 None (brute (un_globals m))) (lmap 7 (brute (un_locals m)) (un_locals m)) tf_of (DT (mono_base true) (m * (1 # 2)) 0 1) 0 0]
    (un_params m) fc_minus un_norms (new_match_state (gmap 7 None (brute (un_globals m))) (lmap 7 (brute (un_locals m)) (un_locals m)))
    (mkMS [] []) (horn_algo un_eig (fun _ => None) wp_default) (un_gue m).
Lemma un_align_eq m tf_of : un_align m tf_of = align fc_minus un_norms (fun _ => 0%Q) (fun _ e => Ok e)
    (new_match_state (gmap 7 None (brute (un_globals m))) (lmap 7 (brute (un_locals m)) (un_locals m)))
    (mkComponents [pose_matcher 1000000 (fun l => l) (fun _ => 0%Z) (gmap 7 None (brute (un_globals m))) (lmap 7 (brute (un_locals m)) (un_locals m)) tf_of (DT (mono_base true) (m * (1 # 2)) 0 1) 0 0]
                  [closed_solver 0 (horn_algo un_eig (fun _ => None) wp_default)] [ratio_evaluator 1 (1 # 5)] None)
    (un_params m) false false false (un_gue m) (mkMS [] []).
Proof. unfold un_align, tw_align. reflexivity. Qed.
Lemma un_runs m tf_of : (1 <= Q2R m)%R -> (0 < m)%Q -> tf_of (un_gue m) = un_gueQ m -> tf_of (un_sol m) = un_solQ m ->
  forall m1 f1 m2 f2, un_found m (un_gueQ m) 0 = Ok (m1, f1) -> un_found m (un_solQ m) 1 = Ok (m2, f2) -> un_right m f1 -> un_right m f2 ->
  exists r, un_align m tf_of = Ok (m2, r) /\ r_optimal_tf r = un_sol m /\ r_nIterations r = 1 /\ searches (r_loopTrace r) = [(un_gue m, f1); (un_sol m, f2)].
Proof.
  intros M1 MP TG TS m1 f1 m2 f2 F1 F2 R1 R2. unfold un_align. apply tw_run with (m1 := m1).
  - exists 8. reflexivity.
  - reflexivity.
  - reflexivity.
  - reflexivity.
  - discriminate.
  - apply (un_run_found m tf_of (un_gue m) _ 0 m1 f1 _ TG F1).
  - apply (un_some m f1 R1).
  - apply un_solved; [exact M1|apply un_vpairs; exact R1].
  - apply (un_run_found m tf_of (un_sol m) _ 1 m2 f2 _ TS F2).
  - apply (un_some m f2 R2).
  - apply un_solved; [exact M1|apply un_vpairs; exact R2].
  - apply un_stall1.
  - apply un_stall2; assumption.
Qed.
Tactic Notation "un_pairs_of" constr(m) constr(tf) constr(it) ident(m1) ident(f) ident(F) ident(R) :=
  destruct (un_found m tf it) as [[m1 f]| | ] eqn:F; [|vm_compute in F; discriminate|vm_compute in F; discriminate];
  assert (R : un_right m f) by
    (let X := fresh in assert (X : match un_found m tf it with Ok (_, g) => un_right m g | _ => False end) by (vm_compute; repeat split); rewrite F in X; exact X).
Definition un_tf := tf_four (un_gue 1) (un_sol 1) (un_gue 2) (un_gueQ 1) (un_solQ 1) (un_gueQ 2) (un_solQ 2).

(** metres, and half metres, two iterations each *)
Example C359_case : exists m r m' r',
  un_align 1 un_tf = Ok (m, r) /\ un_align 2 un_tf = Ok (m', r') /\
  rescaled 2 (r_optimal_tf r) (r_optimal_tf r') /\ r_nIterations r = 1 /\ r_nIterations r' = 1 /\
  Forall2 (scaled_search 2) (searches (r_loopTrace r)) (searches (r_loopTrace r')).
Proof.
  destruct (tf_four_ok (un_gue 1) (un_sol 1) (un_gue 2) (un_sol 2) (un_gueQ 1) (un_solQ 1) (un_gueQ 2) (un_solQ 2)) as (TGA & TSA & TGB & TSB);
    try (intro X; first [apply (f_equal (fun T => vx (c0 T))) in X; unfold un_gue, un_sol in X; cbn [vx c0] in X; lra
      |apply (f_equal (fun T => vx (tr T))) in X; unfold un_gue, un_sol in X; cbn [vx tr] in X; rewrite ?QR1, ?QR2 in X; lra]).
  fold un_tf in TGA, TSA, TGB, TSB.
  un_pairs_of 1%Q (un_gueQ 1) 0 m1 f1 F1 R1.
  un_pairs_of 1%Q (un_solQ 1) 1 m2 f2 F2 R2.
  un_pairs_of 2%Q (un_gueQ 2) 0 m3 f3 F3 R3.
  un_pairs_of 2%Q (un_solQ 2) 1 m4 f4 F4 R4.
  assert (K1 : (1 <= Q2R 1)%R) by (rewrite QR1; lra). assert (K2 : (1 <= Q2R 2)%R) by (rewrite QR2; lra).
  destruct (un_runs 1 un_tf K1 ltac:(reflexivity) TGA TSA m1 f1 m2 f2 F1 F2 R1 R2) as (r & E & O & N & SE).
  destruct (un_runs 2 un_tf K2 ltac:(reflexivity) TGB TSB m3 f3 m4 f4 F3 F4 R3 R4) as (r' & E' & O' & N' & SE').
  exists m2, r, m4, r'. split; [exact E|]. split; [exact E'|].
  assert (X : rescaled (Q2R 2) (r_optimal_tf r) (r_optimal_tf r') /\ r_nIterations r' = r_nIterations r /\ r_terminationReason r' = r_terminationReason r /\
    Forall2 (scaled_search 2) (searches (r_loopTrace r)) (searches (r_loopTrace r'))).
  { rewrite un_align_eq in E, E'. 
    change (2 * (1 # 2))%Q with (2 * (1 * (1 # 2)))%Q in E'.
    eapply (C359_unit_of_length 2); [..|exact E|exact E'| |].
    - reflexivity.
    - apply brute_correct.
    - apply brute_bbox.
    - apply brute_correct.
    - apply brute_bbox.
    - reflexivity.
    - reflexivity.
    - exact fc_relative.
    - exact un_length.
    - reflexivity.
    - discriminate.
    - reflexivity.
    - left. reflexivity.
    - unfold plain_weights, wp_default. cbn. repeat split; lra.
    - reflexivity.
    - reflexivity.
    - repeat split.
    - unfold scaled_points, un_globals, sixQ. cbn [map rev app nn_points brute]. repeat constructor;
        unfold un_glo, to_v, vscale; cbn [px py pz vx vy vz]; repeat rewrite ?Q2R_plus, ?Q2R_mult, ?Q2R_opp; qnum; f_equal; lra.
    - unfold scaled_points, un_locals, sixQ. cbn [map]. repeat constructor;
        unfold un_loc, to_v, vscale; cbn [px py pz vx vy vz]; repeat rewrite ?Q2R_plus, ?Q2R_mult, ?Q2R_opp; qnum; f_equal; lra.
    - unfold rescaled, un_gue. cbn [c0 c1 c2 tr]. repeat split. unfold vscale. cbn [vx vy vz]. rewrite QR1. f_equal; lra.
    - rewrite SE. intros T f [Y|[Y|[]]]; injection Y as <- <-.
      + assert (X := un_exact 1 K1 un_tf (un_gue 1) (un_gueQ 1) f1 TGA (fun q => un_gue_exact 1 q) R1).
        destruct X as (X1 & X2 & X3). split; [exact X1|]. split; [exact X2|]. split; [rewrite TGA; apply un_near; vm_compute; reflexivity|intros _; apply (un_ready 1 K1); apply un_vpairs; assumption].
      + assert (X := un_exact 1 K1 un_tf (un_sol 1) (un_solQ 1) f2 TSA (fun q => un_sol_exact 1 q) R2).
        destruct X as (X1 & X2 & X3). split; [exact X1|]. split; [exact X2|]. split; [rewrite TSA; apply un_near; vm_compute; reflexivity|intros _; apply (un_ready 1 K1); apply un_vpairs; assumption].
    - rewrite SE'. intros T f [Y|[Y|[]]]; injection Y as <- <-.
      + exact (un_exact 2 K2 un_tf (un_gue 2) (un_gueQ 2) f3 TGB (fun q => un_gue_exact 2 q) R3).
      + exact (un_exact 2 K2 un_tf (un_sol 2) (un_solQ 2) f4 TSB (fun q => un_sol_exact 2 q) R4). }
  destruct X as (X & Y & _ & Z). rewrite QR2 in X. split; [exact X|]. split; [exact N|]. split; [exact N'|exact Z].
Qed.
