(** C356, C357: the frames in which the two maps are given. *)
From Coq Require Import Reals Qreals List Lra Lia.
From Verif Require Import Base PairingsModel MatcherModel BitfieldModel BitfieldProofs PointMatcherModel PointMatcherSpec BruteNN
  SolverModel QualityModel IcpModel GeomModel VisitModel VisitSpec VisitProps RotProofs
  HornModel HornProofs NoiselessProofs HornProps HornUniqueProps OlaeModel SmCliModel EndToEndModel EndToEndProps MonotoneProps FixpointProofs FrameProofs FrameStep.
Import ListNotations.
Open Scope nat_scope.

Definition id_pose : Pose := mkPose (mkV 1 0 0) (mkV 0 1 0) (mkV 0 0 1) (mkV 0 0 0).
(** the same search in the two frames: the pose seen from them, and the same pairs *)
Definition same_search (S M : Pose) (a a' : Pose * ptpairings) : Prop :=
  seen_as S M (fst a) (fst a') /\ Forall2 (same_pair S M) (paired_pt2pt (snd a)) (paired_pt2pt (snd a')).
(** CPose3D's A - B: the pose A as seen from B *)
Definition relative_pose (pose_minus : Pose -> Pose -> Pose) : Prop := forall A B, pose_minus A B = pose_mul (pinv B) A.
(** the sizes of a motion do not depend on the orientation of the frame in which it is described *)
Definition no_preferred_axes (log_norms : Pose -> Q * Q) : Prop :=
  forall M D, is_rotation M -> tr M = mkV 0 0 0 -> log_norms (pose_mul M (pose_mul D (pinv M))) = log_norms D.

(** what C356 asks of a search: exact transformed points, global points that may be shared, no ties, pairs with one best fit *)
Definition clear_search (tf_of : Pose -> P3 -> P3) (eig : Sym4 -> Eig) (wp : VWeights) (b : BaseParams) (thr : Q) (nn : NNMap) (Ls : list P3) (T : Pose) (f : ptpairings) : Prop :=
  exact_on tf_of T Ls /\ sharing_ok b thr nn (tf_of T) Ls /\ one_nearest thr (nn_points nn) (tf_of T) Ls /\
  (pairings_empty f = false -> horn_ready eig wp (to_vpairs f) /\ one_best_fit (vp_pts (to_vpairs f))).
Definition exact_search (tf_of : Pose -> P3 -> P3) (eig : Sym4 -> Eig) (wp : VWeights) (b : BaseParams) (thr : Q) (nn : NNMap) (Ls : list P3) (T : Pose) (f : ptpairings) : Prop :=
  exact_on tf_of T Ls /\ sharing_ok b thr nn (tf_of T) Ls /\ (pairings_empty f = false -> horn_ready eig wp (to_vpairs f)).

(** ** Proofs *)
Lemma pose_ext A B : (forall u, compose A u = compose B u) -> A = B.
Proof.
  intro H. assert (H0 := H (mkV 0 0 0)). assert (H1 := H (mkV 1 0 0)). assert (H2 := H (mkV 0 1 0)). assert (H3 := H (mkV 0 0 1)). clear H.
  destruct A as [[a0 a1 a2] [b0 b1 b2] [d0 d1 d2] [t0 t1 t2]], B as [[p0 p1 p2] [q0 q1 q2] [r0 r1 r2] [s0 s1 s2]].
  unfold compose, rotate, vadd, vscale in *. cbn [c0 c1 c2 tr vx vy vz] in *.
  injection H0 as A0 A1 A2. injection H1 as B0 B1 B2. injection H2 as D0 D1 D2. injection H3 as E0 E1 E2.
  f_equal; f_equal; lra.
Qed.
Lemma id_rotation : is_rotation id_pose.
Proof. unfold is_rotation, id_pose. punf. repeat split; try ring. f_equal; ring. Qed.
Lemma compose_id u : compose id_pose u = u.
Proof. destruct u as [x y z]. unfold id_pose. punf. f_equal; ring. Qed.
Lemma moved_id Ls : moved_points id_pose Ls Ls.
Proof. induction Ls as [|l Ls IH]; constructor; [rewrite compose_id; reflexivity|exact IH]. Qed.
Lemma seen_global S T T' : seen_as S id_pose T T' <-> T' = pose_mul S T.
Proof.
  split.
  - intro H. apply pose_ext. intro u. rewrite compose_pose_mul, <- H, compose_id. reflexivity.
  - intros -> u. rewrite compose_pose_mul, compose_id. reflexivity.
Qed.
Lemma seen_formula S M T T' : is_rotation M -> seen_as S M T T' <-> T' = pose_mul S (pose_mul T (pinv M)).
Proof.
  intro RM. split.
  - intro H. apply pose_ext. intro u. rewrite !compose_pose_mul, <- H, pinv_right by exact RM. reflexivity.
  - intros -> u. rewrite !compose_pose_mul, pinv_left by exact RM. reflexivity.
Qed.
(** a step seen from the other frames *)
Lemma step_seen S M A B A' B' : is_rotation S -> is_rotation M -> is_rotation B -> seen_as S M A A' -> seen_as S M B B' ->
  pose_mul (pinv B') A' = pose_mul M (pose_mul (pose_mul (pinv B) A) (pinv M)).
Proof.
  intros RS RM RB SA SB. assert (RB' : is_rotation B').
  { apply (seen_formula S M B B' RM) in SB. rewrite SB. repeat apply pose_mul_rotation; try assumption. apply pinv_rotation. exact RM. }
  apply pose_ext. intro u. rewrite !compose_pose_mul.
  set (w := compose (pinv M) u). assert (U : u = compose M w) by (unfold w; rewrite pinv_right by exact RM; reflexivity). rewrite U, SA.
  set (v := compose (pinv B) (compose A w)). assert (V : compose A w = compose B v) by (unfold v; rewrite pinv_right by exact RB; reflexivity).
  rewrite V, <- SB. rewrite pinv_left by exact RB'. reflexivity.
Qed.

Section Two.
Variables (S M : Pose).
Variables (fMax : Q) (shuffle : list nat -> list nat) (mround : Q -> Z) (tf_of : Pose -> P3 -> P3)
  (eig : Sym4 -> Eig) (convert : VPairs -> option VPairs) (name : nat) (gpts gpts' : option (list P3)) (nnG nnL nnG' nnL' : NNMap) (Ls Ls' : list P3)
  (pose_minus : Pose -> Pose -> Pose) (log_norms : Pose -> Q * Q) (b : BaseParams) (thr : Q) (wp : VWeights) (p : IcpParams).
Hypothesis RS : is_rotation S.
Hypothesis RM : is_rotation M.
Hypothesis NC : nn_correct nnG.
Hypothesis BB : bbox_correct nnG.
Hypothesis NC' : nn_correct nnG'.
Hypothesis BB' : bbox_correct nnG'.
Hypothesis GS : moved_points S (nn_points nnG) (nn_points nnG').
Hypothesis LS : moved_points M Ls Ls'.
Hypothesis LL : length (nn_points nnL) = length Ls.
Hypothesis LL' : length (nn_points nnL') = length Ls'.
Hypothesis TP : (0 < thr)%Q.
Hypothesis EPS : (0 <= bbox_epsilon b)%Q.
Hypothesis TBL : weight_pt2pt_layers b = [].
Hypothesis LIM : maxLocalPointsPerLayer b = 0 \/ length Ls <= maxLocalPointsPerLayer b.
Hypothesis PW : plain_weights wp.
Hypothesis QC : quality_checkpoints p = [].
Let G := gmap name gpts nnG.
Let L := lmap name nnL Ls.
Let G' := gmap name gpts' nnG'.
Let L' := lmap name nnL' Ls'.
Let algo := horn_algo eig convert wp.
Let ms := [pose_matcher fMax shuffle mround G L tf_of (DT b thr 0 1) 0 0].
Let ms' := [pose_matcher fMax shuffle mround G' L' tf_of (DT b thr 0 1) 0 0].
Notation run1 := (course algo pose_minus log_norms (new_match_state G L) ms p None).
Notation run2 := (course algo pose_minus log_norms (new_match_state G' L') ms' p None).
Let clear1 := clear_search tf_of eig wp b thr nnG Ls.
Let exact2 := exact_search tf_of eig wp b thr nnG' Ls'.

Lemma vpts_map ps pot : to_vpairs (mkPairings ps [] [] [] [] [] pot) = mkVP (map vpair ps) [] [] 0 0 [].
Proof. reflexivity. Qed.
Lemma horn_fit f : (exists ps pot, f = mkPairings ps [] [] [] [] [] pot) -> horn_ready eig wp (to_vpairs f) ->
  exists s, algo (to_vpairs f) = Ok (true, s) /\ best_fit (vp_pts (to_vpairs f)) (hr_pose s).
Proof.
  intros (ps & pot & ->) (N3 & OFF & SP). destruct PW as (W1 & W2 & W3 & W4 & W5). rewrite vpts_map in *.
  destruct (C85_horn_is_least_squares eig (mkVP (map vpair ps) [] [] 0 0 []) wp) as (s & E & R & BST); try reflexivity; try assumption.
  exists s. split; [|split; assumption]. unfold algo, horn_algo, solver_horn. exact E.
Qed.

Lemma same_step it T f T' f' :
  found_with (new_match_state G L) ms it T f -> found_with (new_match_state G' L') ms' it T' f' -> seen_as S M T T' -> clear1 T f -> exact2 T' f' ->
  same_search S M (T, f) (T', f') /\ pairings_empty f' = pairings_empty f /\
  (pairings_empty f = false -> exists s s', algo (to_vpairs f) = Ok (true, s) /\ algo (to_vpairs f') = Ok (true, s') /\ is_rotation (hr_pose s) /\ seen_as S M (hr_pose s) (hr_pose s')).
Proof.
  intros (env & m1 & FW) (env' & m2 & FW') SEEN (EX & SO & ONE & RD) (EX' & SO' & RD').
  assert (LIM' : maxLocalPointsPerLayer b = 0 \/ length Ls' <= maxLocalPointsPerLayer b) by (rewrite <- (Forall2_len _ _ _ LS); exact LIM).
  destruct (match_exactly fMax shuffle mround tf_of name gpts nnG nnL Ls b thr T NC BB EPS LL TP SO TBL LIM it env) as (x1 & y1 & E1 & pot & F1).
  destruct (match_exactly fMax shuffle mround tf_of name gpts' nnG' nnL' Ls' b thr T' NC' BB' EPS LL' TP SO' TBL LIM' it env') as (x2 & y2 & E2 & pot' & F2).
  unfold ms, G, L in FW. rewrite E1 in FW. injection FW as _ <-. unfold ms', G', L' in FW'. rewrite E2 in FW'. injection FW' as _ <-.
  assert (PS := pairs_same S M T T' tf_of thr nnG nnG' name RS SEEN NC NC' GS Ls Ls' LS Ls Ls' EX EX' (incl_refl _) (incl_refl _) ONE 0).
  rewrite F1, F2. rewrite F1 in RD. rewrite F2 in RD'. set (ps := pairs_from thr nnG (tf_of T) name name 0 Ls) in *. set (ps' := pairs_from thr nnG' (tf_of T') name name 0 Ls') in *.
  split; [split; [exact SEEN|exact PS]|]. assert (EQ : pairings_empty (mkPairings ps' [] [] [] [] [] pot' : ptpairings) = pairings_empty (mkPairings ps [] [] [] [] [] pot : ptpairings)).
  { unfold pairings_empty. cbn [paired_pt2pt]. inversion PS; reflexivity. }
  split; [exact EQ|]. intro NE. destruct (RD NE) as [HR UN]. assert (HR' := RD' (eq_trans EQ NE)).
  destruct (horn_fit _ (ex_intro _ ps (ex_intro _ pot eq_refl)) HR) as (s & A1 & B1).
  destruct (horn_fit _ (ex_intro _ ps' (ex_intro _ pot' eq_refl)) HR') as (s' & A2 & B2).
  exists s, s'. split; [exact A1|]. split; [exact A2|]. split; [apply B1|].
  apply (best_moved S M (vp_pts (to_vpairs (mkPairings ps [] [] [] [] [] pot))) (vp_pts (to_vpairs (mkPairings ps' [] [] [] [] [] pot')))); try assumption.
  rewrite !vpts_map. cbn [vp_pts]. clear - PS. induction PS as [|x x' ps ps' (_ & _ & _ & A & B) F IH]; constructor; [split; assumption|exact IH].
Qed.

(** the part the two runs have in common *)
Lemma common_part l : forall it fuel T p2 n reason Tend, run1 it fuel T p2 l n reason Tend ->
  forall fuel' T' p2' l' n' reason' Tend', run2 it fuel' T' p2' l' n' reason' Tend' -> seen_as S M T T' ->
  (forall a, In a l -> clear1 (fst a) (snd a)) -> (forall a, In a l' -> exact2 (fst a) (snd a)) ->
  forall k a a', nth_error l k = Some a -> nth_error l' k = Some a' -> same_search S M a a'.
Proof.
  induction l as [|[T1 f1] l IH]; intros * C1 * C2 SEEN K1 K2 k a a' N1 N2; [destruct k; discriminate|].
  destruct l' as [|[T2 f2] l']; [destruct k; discriminate|].
  assert (CL := K1 _ (or_introl eq_refl)). assert (EX := K2 _ (or_introl eq_refl)). cbn [fst snd] in CL, EX.
  assert (T1 = T) by (inversion C1; reflexivity). assert (T2 = T') by (inversion C2; reflexivity). subst T1 T2.
  assert (FW1 : found_with (new_match_state G L) ms it T f1) by (inversion C1; assumption).
  assert (FW2 : found_with (new_match_state G' L') ms' it T' f2) by (inversion C2; assumption).
  destruct (same_step it T f1 T' f2 FW1 FW2 SEEN CL EX) as (A & B & D).
  destruct k as [|k]; [injection N1 as <-; injection N2 as <-; exact A|].
  inversion C1; subst; [destruct k; discriminate|]. inversion C2; subst; [destruct k; discriminate|].
  destruct (D ltac:(assumption)) as (s1 & s2 & D1 & D2 & D3 & D4).
  repeat match goal with X : algo (to_vpairs ?f) = Ok (true, ?s), Y : algo (to_vpairs ?f) = Ok (true, ?s') |- _ => rewrite X in Y; injection Y as -> end.
  eapply IH; [eassumption|eassumption|exact D4|intros; apply K1; right; assumption|intros; apply K2; right; assumption|exact N1|exact N2].
Qed.

Hypothesis KEEPS : forall A B A' B', is_rotation A -> is_rotation B -> seen_as S M A A' -> seen_as S M B B' ->
  log_norms (pose_minus A' B') = log_norms (pose_minus A B).
Definition before_seen (p2 p2' : option Pose) : Prop :=
  match p2, p2' with None, None => True | Some A, Some A' => is_rotation A /\ seen_as S M A A' | _, _ => False end.

Lemma stalls_same A A' B B' p2 p2' : is_rotation A -> is_rotation B -> seen_as S M A A' -> seen_as S M B B' -> before_seen p2 p2' ->
  stalls pose_minus log_norms p A' B' p2' = stalls pose_minus log_norms p A B p2.
Proof.
  intros RA RB SA SB PB. unfold stalls, increments. rewrite (KEEPS A B A' B' RA RB SA SB).
  destruct p2 as [C|], p2' as [C'|]; try contradiction; [|reflexivity]. destruct PB as [RC SC]. rewrite (KEEPS A C A' C' RA RC SA SC). reflexivity.
Qed.

Lemma whole_run l : forall it fuel T p2 n reason Tend, run1 it fuel T p2 l n reason Tend ->
  forall T' p2' l' n' reason' Tend', run2 it fuel T' p2' l' n' reason' Tend' -> is_rotation T -> seen_as S M T T' -> before_seen p2 p2' ->
  (forall a, In a l -> clear1 (fst a) (snd a)) -> (forall a, In a l' -> exact2 (fst a) (snd a)) ->
  Forall2 (same_search S M) l l' /\ n' = n /\ reason' = reason /\ seen_as S M Tend Tend'.
Proof.
  induction l as [|[T1 f1] l IH]; intros * C1 * C2 RT SEEN PB K1 K2.
  - inversion C1; subst. inversion C2; subst. split; [constructor|]. split; [reflexivity|]. split; [reflexivity|exact SEEN].
  - destruct l' as [|[T2 f2] l']; [inversion C2; subst; inversion C1|].
    assert (CL := K1 _ (or_introl eq_refl)). assert (EX := K2 _ (or_introl eq_refl)). cbn [fst snd] in CL, EX.
    assert (T1 = T) by (inversion C1; reflexivity). assert (T2 = T') by (inversion C2; reflexivity). subst T1 T2.
    assert (FW1 : found_with (new_match_state G L) ms it T f1) by (inversion C1; assumption).
    assert (FW2 : found_with (new_match_state G' L') ms' it T' f2) by (inversion C2; assumption).
    destruct (same_step it T f1 T' f2 FW1 FW2 SEEN CL EX) as (A & B & D).
    assert (ST : forall s s', algo (to_vpairs f1) = Ok (true, s) -> algo (to_vpairs f2) = Ok (true, s') -> pairings_empty f1 = false ->
      is_rotation (hr_pose s) /\ seen_as S M (hr_pose s) (hr_pose s') /\ stalls pose_minus log_norms p (hr_pose s') T' p2' = stalls pose_minus log_norms p (hr_pose s) T p2).
    { intros s s' X X' NE. destruct (D NE) as (s1 & s2 & D1 & D2 & D3 & D4). rewrite X in D1. rewrite X' in D2. injection D1 as ->. injection D2 as ->.
      split; [exact D3|]. split; [exact D4|]. apply stalls_same; assumption. }
    assert (NOERR : forall s, pairings_empty f1 = false -> algo (to_vpairs f1) <> Ok (false, s) /\ algo (to_vpairs f2) <> Ok (false, s)).
    { intros s NE. destruct (D NE) as (s1 & s2 & D1 & D2 & _). rewrite D1, D2. split; discriminate. }
    assert (ENDS : forall o Te o' Te', ending algo pose_minus log_norms p None T p2 f1 o Te -> ending algo pose_minus log_norms p None T' p2' f2 o' Te' ->
      o' = o /\ seen_as S M Te Te').
    { intros o Te o' Te' X Y. inversion X; subst; inversion Y; subst; try congruence;
        try (exfalso; match goal with H : algo _ = Ok (false, ?s) |- _ => destruct (NOERR s ltac:(congruence)); congruence end).
      - split; [reflexivity|exact SEEN].
      - split; [reflexivity|]. match goal with H : algo (to_vpairs f1) = Ok (true, ?s), H' : algo (to_vpairs f2) = Ok (true, ?s') |- _ => apply (ST s s' H H') end. assumption. }
    inversion C1; subst; inversion C2; subst.
    + match goal with X : ending _ _ _ _ _ T _ _ _ _, Y : ending _ _ _ _ _ T' _ _ _ _ |- _ => destruct (ENDS _ _ _ _ X Y) as [-> Z] end.
      split; [constructor; [exact A|constructor]|]. split; [reflexivity|]. split; [reflexivity|exact Z].
    + exfalso. match goal with X : ending _ _ _ _ _ T _ _ _ _ |- _ => inversion X; subst end; try congruence;
        try (match goal with H : algo (to_vpairs f1) = Ok (false, ?s) |- _ => destruct (NOERR s ltac:(congruence)); congruence end).
      match goal with H : algo (to_vpairs f1) = Ok (true, ?s), H' : algo (to_vpairs f2) = Ok (true, ?s') |- _ => destruct (ST s s' H H' ltac:(congruence)) as (_ & _ & Z) end. congruence.
    + exfalso. match goal with X : ending _ _ _ _ _ T' _ _ _ _ |- _ => inversion X; subst end; try congruence;
        try (match goal with H : algo (to_vpairs f2) = Ok (false, ?s) |- _ => destruct (NOERR s ltac:(congruence)); congruence end).
      match goal with H : algo (to_vpairs f1) = Ok (true, ?s), H' : algo (to_vpairs f2) = Ok (true, ?s') |- _ => destruct (ST s s' H H' ltac:(congruence)) as (_ & _ & Z) end. congruence.
    + match goal with H : algo (to_vpairs f1) = Ok (true, ?s), H' : algo (to_vpairs f2) = Ok (true, ?s') |- _ => destruct (ST s s' H H' ltac:(congruence)) as (Z1 & Z2 & Z3) end.
      match goal with X : run1 (Datatypes.S it) _ _ _ _ _ _ _, Y : run2 (Datatypes.S it) _ _ _ _ _ _ _ |- _ =>
        destruct (IH _ _ _ _ _ _ _ X _ _ _ _ _ _ Y Z1 Z2 ltac:(split; [exact RT|exact SEEN]) ltac:(intros; apply K1; right; assumption) ltac:(intros; apply K2; right; assumption)) as (E1 & E2 & E3 & E4) end.
      split; [constructor; assumption|]. split; [exact E2|]. split; [exact E3|exact E4].
Qed.
End Two.

(** C356: the global map and the guess seen from another frame. *)
Theorem C356_frame_of_the_global_map :
  forall S fMax shuffle mround tf_of eig convert name gpts gpts' nnG nnG' nnL Ls pose_minus log_norms tnorm realize realize' b thr wp evals evals' p ge le ge' le' wd wd' guess env env' env2 env2' r r',
  (* the libraries *)
  nn_correct nnG -> bbox_correct nnG -> nn_correct nnG' -> bbox_correct nnG' -> length (nn_points nnL) = length Ls -> relative_pose pose_minus ->
  (* parameters *)
  (0 < thr)%Q -> (0 <= bbox_epsilon b)%Q -> weight_pt2pt_layers b = [] ->
  maxLocalPointsPerLayer b = 0 \/ length Ls <= maxLocalPointsPerLayer b -> plain_weights wp -> quality_checkpoints p = [] ->
  (* the other frame *)
  is_rotation S -> moved_points S (nn_points nnG) (nn_points nnG') -> is_rotation guess ->
  align pose_minus log_norms tnorm realize (new_match_state (gmap name gpts nnG) (lmap name nnL Ls))
    (mkComponents [pose_matcher fMax shuffle mround (gmap name gpts nnG) (lmap name nnL Ls) tf_of (DT b thr 0 1) 0 0]
                  [closed_solver 0 (horn_algo eig convert wp)] evals None)
    p ge le wd guess env = Ok (env2, r) ->
  align pose_minus log_norms tnorm realize' (new_match_state (gmap name gpts' nnG') (lmap name nnL Ls))
    (mkComponents [pose_matcher fMax shuffle mround (gmap name gpts' nnG') (lmap name nnL Ls) tf_of (DT b thr 0 1) 0 0]
                  [closed_solver 0 (horn_algo eig convert wp)] evals' None)
    p ge' le' wd' (pose_mul S guess) env' = Ok (env2', r') ->
  (forall T f, In (T, f) (searches (r_loopTrace r)) -> clear_search tf_of eig wp b thr nnG Ls T f) ->
  (forall T f, In (T, f) (searches (r_loopTrace r')) -> exact_search tf_of eig wp b thr nnG' Ls T f) ->
  r_optimal_tf r' = pose_mul S (r_optimal_tf r) /\
  r_nIterations r' = r_nIterations r /\ r_terminationReason r' = r_terminationReason r /\
  Forall2 (same_search S id_pose) (searches (r_loopTrace r)) (searches (r_loopTrace r')).
Proof.
  intros * NC BB NC' BB' LL RP TP EPS TBL LIM PW QC RS GS RG A1 A2 K1 K2.
  destruct (align_course _ _ _ _ _ _ _ _ _ _ _ _ _ _ _ _ _ A1) as (o & C1 & R1).
  destruct (align_course _ _ _ _ _ _ _ _ _ _ _ _ _ _ _ _ _ A2) as (o' & C2 & R2).
  assert (KEEPS : forall A B A' B', is_rotation A -> is_rotation B -> seen_as S id_pose A A' -> seen_as S id_pose B B' ->
    log_norms (pose_minus A' B') = log_norms (pose_minus A B)).
  { intros A B A' B' RA RB SA SB. rewrite !RP. f_equal. rewrite (step_seen S id_pose A B A' B' RS id_rotation RB SA SB).
    apply pose_ext. intro u. rewrite !compose_pose_mul, compose_id.
    rewrite <- (compose_id (compose (pinv id_pose) u)), pinv_right by exact id_rotation. reflexivity. }
  destruct (whole_run S id_pose fMax shuffle mround tf_of eig convert name gpts gpts' nnG nnL nnG' nnL Ls Ls pose_minus log_norms b thr wp p
    RS id_rotation NC BB NC' BB' GS (moved_id Ls) LL LL TP EPS TBL LIM PW QC KEEPS _ _ _ _ _ _ _ _ C1 _ _ _ _ _ _ C2 RG) as (X & Y & Z & W).
  - apply seen_global. reflexivity.
  - exact I.
  - intros [T f] IN. apply K1, IN.
  - intros [T f] IN. apply K2, IN.
  - split; [apply seen_global; exact W|]. split; [exact Y|]. split; [|exact X]. rewrite R1, R2, Y, Z. reflexivity.
Qed.

(** C357: the local map in a frame with other axes; the result is the pose of that frame. *)
Theorem C357_axes_of_the_local_map :
  forall M fMax shuffle mround tf_of eig convert name gpts nnG nnL nnL' Ls Ls' pose_minus log_norms tnorm realize realize' b thr wp evals evals' p ge le ge' le' wd wd' guess env env' env2 env2' r r',
  nn_correct nnG -> bbox_correct nnG -> length (nn_points nnL) = length Ls -> length (nn_points nnL') = length Ls' ->
  relative_pose pose_minus -> no_preferred_axes log_norms ->
  (0 < thr)%Q -> (0 <= bbox_epsilon b)%Q -> weight_pt2pt_layers b = [] ->
  maxLocalPointsPerLayer b = 0 \/ length Ls <= maxLocalPointsPerLayer b -> plain_weights wp -> quality_checkpoints p = [] ->
  is_rotation M -> tr M = mkV 0 0 0 -> moved_points M Ls Ls' -> is_rotation guess ->
  align pose_minus log_norms tnorm realize (new_match_state (gmap name gpts nnG) (lmap name nnL Ls))
    (mkComponents [pose_matcher fMax shuffle mround (gmap name gpts nnG) (lmap name nnL Ls) tf_of (DT b thr 0 1) 0 0]
                  [closed_solver 0 (horn_algo eig convert wp)] evals None)
    p ge le wd guess env = Ok (env2, r) ->
  align pose_minus log_norms tnorm realize' (new_match_state (gmap name gpts nnG) (lmap name nnL' Ls'))
    (mkComponents [pose_matcher fMax shuffle mround (gmap name gpts nnG) (lmap name nnL' Ls') tf_of (DT b thr 0 1) 0 0]
                  [closed_solver 0 (horn_algo eig convert wp)] evals' None)
    p ge' le' wd' (pose_mul guess (pinv M)) env' = Ok (env2', r') ->
  (forall T f, In (T, f) (searches (r_loopTrace r)) -> clear_search tf_of eig wp b thr nnG Ls T f) ->
  (forall T f, In (T, f) (searches (r_loopTrace r')) -> exact_search tf_of eig wp b thr nnG Ls' T f) ->
  r_optimal_tf r' = pose_mul (r_optimal_tf r) (pinv M) /\
  r_nIterations r' = r_nIterations r /\ r_terminationReason r' = r_terminationReason r /\
  Forall2 (same_search id_pose M) (searches (r_loopTrace r)) (searches (r_loopTrace r')).
Proof.
  intros * NC BB LL LL' RP NA TP EPS TBL LIM PW QC RM TM LS RG A1 A2 K1 K2.
  destruct (align_course _ _ _ _ _ _ _ _ _ _ _ _ _ _ _ _ _ A1) as (o & C1 & R1).
  destruct (align_course _ _ _ _ _ _ _ _ _ _ _ _ _ _ _ _ _ A2) as (o' & C2 & R2).
  assert (KEEPS : forall A B A' B', is_rotation A -> is_rotation B -> seen_as id_pose M A A' -> seen_as id_pose M B B' ->
    log_norms (pose_minus A' B') = log_norms (pose_minus A B)).
  { intros A B A' B' RA RB SA SB. rewrite !RP. rewrite (step_seen id_pose M A B A' B' id_rotation RM RB SA SB). apply NA; assumption. }
  assert (SEEN : forall A A', seen_as id_pose M A A' <-> A' = pose_mul A (pinv M)).
  { intros A A'. rewrite (seen_formula id_pose M A A' RM). assert (E : pose_mul id_pose (pose_mul A (pinv M)) = pose_mul A (pinv M)) by (apply pose_ext; intro u; rewrite compose_pose_mul, compose_id; reflexivity).
    rewrite E. tauto. }
  destruct (whole_run id_pose M fMax shuffle mround tf_of eig convert name gpts gpts nnG nnL nnG nnL' Ls Ls' pose_minus log_norms b thr wp p
    id_rotation RM NC BB NC BB (moved_id _) LS LL LL' TP EPS TBL LIM PW QC KEEPS _ _ _ _ _ _ _ _ C1 _ _ _ _ _ _ C2 RG) as (X & Y & Z & W).
  - apply SEEN. reflexivity.
  - exact I.
  - intros [T f] IN. apply K1, IN.
  - intros [T f] IN. apply K2, IN.
  - split; [apply SEEN; exact W|]. split; [exact Y|]. split; [|exact X]. rewrite R1, R2, Y, Z. reflexivity.
Qed.
