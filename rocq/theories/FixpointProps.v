(** C352, C354: ICP stops when the pairs stay the same, and it always gets there. *)
From Coq Require Import Reals Qreals List Lra Lia.
From Verif Require Import Base PairingsModel MatcherModel BitfieldModel BitfieldProofs PointMatcherModel PointMatcherSpec BruteNN
  SolverModel QualityModel IcpModel GeomModel VisitModel VisitSpec VisitProps RotProofs
  HornModel HornProofs NoiselessProofs HornProps HornUniqueProps OlaeModel EndToEndModel EndToEndProps MonotoneProps FixpointProofs.
Import ListNotations.
Open Scope nat_scope.

Lemma course_bound algo pm ln rs ms p hook it fuel T p2 l n reason Tend :
  course algo pm ln rs ms p hook it fuel T p2 l n reason Tend -> n <= it + fuel /\ (reason <> Undefined -> n < it + fuel).
Proof.
  induction 1 as [|? ? ? ? ? ? ? ? E|? ? ? ? ? ? ? ? ? ? ? ? ? ? ? [IH1 IH2]]; (split; [lia|]); intro U; try congruence; try lia.
  specialize (IH2 U). lia.
Qed.

(** C352: the iteration that finds the pairs of the iteration before is the last one: it computes the same pose again, so the run ends as
    stalled, with that pose. *)
Theorem C352_same_pairs_stop :
  forall algo pose_minus log_norms tnorm realize reset_ms matchers evals hook p ge le wantDebug guess env env' r,
  measures pose_minus log_norms -> (0 < minAbsStep_trans p)%Q -> (0 < minAbsStep_rot p)%Q ->
  align pose_minus log_norms tnorm realize reset_ms (mkComponents matchers [closed_solver 0 algo] evals hook) p ge le wantDebug guess env = Ok (env', r) ->
  forall k T f T' f',
  nth_error (searches (r_loopTrace r)) k = Some (T, f) -> nth_error (searches (r_loopTrace r)) (S k) = Some (T', f') ->
  to_vpairs f' = to_vpairs f -> pairings_empty f' = false ->
  length (searches (r_loopTrace r)) = S (S k) /\ r_nIterations r = S k /\ r_terminationReason r = Stalled /\ r_optimal_tf r = T'.
Proof.
  intros * MEAS MT MR AL k T f T' f' K1 K2 SAME NE.
  destruct (align_course _ _ _ _ _ _ _ _ _ _ _ _ _ _ _ _ _ AL) as (reason & C & TR).
  destruct (course_same algo pose_minus log_norms reset_ms matchers p hook MEAS MT MR _ _ _ _ _ _ _ _ C k T f T' f' K1 K2 SAME NE) as (A & B & D & E).
  destruct (course_bound _ _ _ _ _ _ _ _ _ _ _ _ _ _ _ C) as [_ BD]. assert (X := BD ltac:(congruence)).
  split; [congruence|]. split; [exact B|]. split; [|exact E]. rewrite TR. destruct (Nat.leb_spec (maxIterations p) (r_nIterations r)); [lia|exact D].
Qed.

(** ** All the ways to pair the local points *)
Fixpoint choices (Gs ls : list P3) : list (list (V3 * V3)) :=
  match ls with
  | [] => [[]]
  | l :: r => flat_map (fun c => map (fun x => x ++ c) ([] :: map (fun g => [(to_v g, to_v l)]) Gs)) (choices Gs r)
  end.
Lemma choices_length Gs ls : length (choices Gs ls) = (S (length Gs)) ^ (length ls).
Proof.
  induction ls as [|l ls IH]; [reflexivity|]. cbn [choices length Nat.pow]. rewrite <- IH. generalize (choices Gs ls). intro cs.
  induction cs as [|c cs IHc]; [cbn; lia|]. cbn [flat_map]. rewrite app_length, IHc, map_length. cbn [length]. rewrite map_length. lia.
Qed.
Lemma choices_in thr nn tf gname lname ls : nn_correct nn -> nn_points nn <> [] -> forall i,
  In (map vpair (pairs_from thr nn tf gname lname i ls)) (choices (nn_points nn) ls).
Proof.
  intros NC NE. induction ls as [|l ls IH]; intro i; cbn [pairs_from choices]; [left; reflexivity|].
  apply in_flat_map. exists (map vpair (pairs_from thr nn tf gname lname (S i) ls)). split; [apply IH|].
  rewrite map_app. apply in_map_iff. exists (map vpair (pair_of thr nn tf gname lname i l)). split; [reflexivity|].
  destruct (search_one nn (tf l) NC NE) as (j & g & d & S1 & G & _). unfold pair_of. rewrite S1.
  destruct (Qle_bool (qsq thr) d); cbn [map]; [left; reflexivity|]. right. apply in_map_iff. exists g. split; [reflexivity|exact (nth_error_In _ _ G)].
Qed.

Section Descent.
Variables (fMax : Q) (shuffle : list nat -> list nat) (mround : Q -> Z) (tf_of : Pose -> P3 -> P3)
  (eig : Sym4 -> Eig) (convert : VPairs -> option VPairs) (name : nat) (gpts : option (list P3)) (nnG nnL : NNMap) (Ls : list P3)
  (pose_minus : Pose -> Pose -> Pose) (log_norms : Pose -> Q * Q) (b : BaseParams) (thr : Q) (wp : VWeights) (p : IcpParams)
  (hook : option (@hook_t Pair Datatypes.unit Datatypes.unit Datatypes.unit Datatypes.unit Q MatchState Pose)).
Hypothesis NC : nn_correct nnG.
Hypothesis LL : length (nn_points nnL) = length Ls.
Hypothesis TP : (0 < thr)%Q.
Hypothesis TBL : weight_pt2pt_layers b = [].
Hypothesis LIM : maxLocalPointsPerLayer b = 0 \/ length Ls <= maxLocalPointsPerLayer b.
Hypothesis PW : plain_weights wp.
Hypothesis MEAS : measures pose_minus log_norms.
Hypothesis MINT : (0 < minAbsStep_trans p)%Q.
Hypothesis MINR : (0 < minAbsStep_rot p)%Q.
Let G := gmap name gpts nnG.
Let L := lmap name nnL Ls.
Let algo := horn_algo eig convert wp.
Let ms := [pose_matcher fMax shuffle mround G L tf_of (DT b thr 0 1) 0 0].
Let cost := truncated_cost (Q2R thr) (nn_points nnG) Ls.

(** in this run: exact transformed points, global points that may be shared, and pairs with one best fit *)
Definition sound_search (T : Pose) (f : ptpairings) : Prop :=
  exact_on tf_of T Ls /\ sharing_ok b thr nnG (tf_of T) Ls /\
  (pairings_empty f = false -> horn_ready eig wp (to_vpairs f) /\ (lam2 (eig (horn_matrix (to_vpairs f) wp)) < lam3 (eig (horn_matrix (to_vpairs f) wp)))%R).

Lemma one_step it T f s : found_with (new_match_state G L) ms it T f -> pairings_empty f = false -> sound_search T f -> is_rotation T ->
  algo (to_vpairs f) = Ok (true, s) ->
  is_rotation (hr_pose s) /\ (hr_pose s = T \/ (cost (hr_pose s) < cost T)%R) /\
  (exists ps, In ps (choices (nn_points nnG) Ls) /\ ps <> [] /\ to_vpairs f = mkVP ps [] [] 0 0 []).
Proof.
  intros (env & ms' & FW) PE (EX & SO & RD) RT EA.
  destruct (RD PE) as ((N3 & OFF & SP) & GAP). destruct PW as (W1 & W2 & W3 & W4 & W5).
  assert (NEAR : accurate_on 0 tf_of T Ls).
  { intros l Hl. rewrite (EX l Hl). assert (Z : vsub (compose T (to_v l)) (compose T (to_v l)) = mkV 0 0 0) by (unfold vsub; f_equal; ring). rewrite Z.
    unfold vnorm, vnorm2, vdot. cbn [vx vy vz]. replace (0 * 0 + 0 * 0 + 0 * 0)%R with 0%R by ring. rewrite sqrt_0. lra. }
  destruct (mono_match fMax shuffle mround tf_of name gpts nnG nnL Ls b thr T NC LL TP SO TBL LIM it env) as (ms2 & f2 & E2 & CASE).
  unfold ms, G, L in FW. rewrite E2 in FW. injection FW as _ ->. destruct CASE as [X|(NEg & F)]; [congruence|].
  assert (VP : to_vpairs f = mkVP (map vpair (pairs_from thr nnG (tf_of T) name name 0 Ls)) [] [] 0 0 []).
  { rewrite F. unfold to_vpairs. cbn [paired_pt2pt paired_pt2ln paired_pt2pl point_weights length map]. reflexivity. }
  assert (ALGO : algo (to_vpairs f) = optimal_tf_horn eig (to_vpairs f) wp).
  { unfold algo, horn_algo, solver_horn. rewrite VP. reflexivity. }
  destruct (C353_one_best_fit_iff eig (to_vpairs f) wp) as ((res & ER & BF) & UN); try (rewrite VP; reflexivity); try assumption.
  rewrite ALGO, ER in EA. injection EA as ->. destruct BF as [RS BEST]. split; [exact RS|]. split.
  - destruct (Rlt_le_dec (lsq (vp_pts (to_vpairs f)) (hr_pose s)) (lsq (vp_pts (to_vpairs f)) T)) as [LT|GE].
    + right. rewrite VP in LT. cbn [vp_pts] in LT.
      destruct (step_bounds thr nnG tf_of T 0 name name NC NEg TP (Rle_refl 0) (hr_pose s) Ls NEAR 0) as [SA SB].
      unfold slack in SB. replace (INR (length Ls) * (4 * 0 * (Q2R thr + 0)))%R with 0%R in SB by ring. unfold cost. lra.
    + left. apply (proj2 UN GAP); split; try assumption. intros T' RT'. specialize (BEST T' RT'). lra.
  - exists (map vpair (pairs_from thr nnG (tf_of T) name name 0 Ls)). split; [apply choices_in; assumption|]. split; [|exact VP].
    intro Z. rewrite VP, Z in N3. cbn in N3. lia.
Qed.

(** the searches after which the run went on: their pairs are all different *)
Lemma course_descends l : forall it fuel T p2 n reason Tend,
  course algo pose_minus log_norms (new_match_state G L) ms p hook it fuel T p2 l n reason Tend ->
  is_rotation T -> (forall T' f, In (T', f) l -> sound_search T' f) ->
  exists pss, n = it + length pss /\ NoDup pss /\ Forall (fun ps => In ps (choices (nn_points nnG) Ls) /\ ps <> []) pss /\
    Forall (fun ps => exists s, algo (mkVP ps [] [] 0 0 []) = Ok (true, s) /\ (cost (hr_pose s) < cost T)%R) pss /\
    (reason = Undefined -> length pss = fuel) /\ reason <> SolverError.
Proof.
  induction l as [|[T1 f1] l IH]; intros it fuel T p2 n reason Tend C RT SS.
  - inversion C; subst. exists []. cbn. repeat split; try lia; try constructor; discriminate.
  - inversion C; subst.
    + exists []. cbn. split; [lia|]. split; [constructor|]. split; [constructor|]. split; [constructor|].
      match goal with E : ending _ _ _ _ _ _ _ _ _ _ |- _ => inversion E; subst end; split; try discriminate.
      exfalso. destruct (SS T1 f1 (or_introl eq_refl)) as (EX & SO & RD).
      match goal with FW : found_with _ _ _ _ _ |- _ => destruct FW as (env & ms' & FW2) end.
      match goal with PE : pairings_empty f1 = false |- _ => destruct (RD PE) as ((N3 & OFF & SP) & GAP) end. destruct PW as (W1 & W2 & W3 & W4 & W5).
      destruct (mono_match fMax shuffle mround tf_of name gpts nnG nnL Ls b thr T1 NC LL TP SO TBL LIM n env) as (ms2 & f2 & E2 & CASE).
      unfold ms, G, L in FW2. rewrite E2 in FW2. injection FW2 as _ ->. destruct CASE as [X|(NEg & F)]; [congruence|].
      destruct (C85_horn_is_least_squares eig (to_vpairs f1) wp) as (res & ER & _); try (rewrite F; reflexivity); try assumption.
      match goal with EA : algo (to_vpairs f1) = _ |- _ => unfold algo, horn_algo, solver_horn in EA;
        replace (Nat.eqb (vp_nPt2Ln (to_vpairs f1)) 0 && Nat.eqb (vp_nPt2Pl (to_vpairs f1)) 0)%bool with true in EA by (rewrite F; reflexivity); rewrite ER in EA; discriminate EA end.
    + match goal with FW : found_with _ _ _ _ _, PE : pairings_empty f1 = false, EA : algo (to_vpairs f1) = _ |- _ =>
        destruct (one_step it T1 f1 s FW PE (SS T1 f1 (or_introl eq_refl)) RT EA) as (RS & ST & ps & PI & PN & PV) end.
      destruct ST as [ST|ST].
      { exfalso. match goal with X : stalls _ _ _ (hr_pose s) T1 _ = false |- _ => rewrite ST, no_motion_stalls in X by assumption; discriminate X end. }
      match goal with X : course _ _ _ _ _ _ _ (S it) _ _ _ _ _ _ _ |- _ => destruct (IH _ _ _ _ _ _ _ X RS (fun T' f I => SS T' f (or_intror I))) as (pss & A & B & D & E & F & H') end.
      assert (EA' : algo (to_vpairs f1) = Ok (true, s)) by assumption.
      exists (ps :: pss). cbn [length]. split; [lia|]. split.
      * constructor; [|exact B]. intro I. rewrite Forall_forall in E. destruct (E ps I) as (s' & E1 & E2). rewrite <- PV, EA' in E1. injection E1 as <-. lra.
      * split; [constructor; [split; assumption|exact D]|]. split.
        -- constructor.
           ++ exists s. rewrite <- PV. split; assumption.
           ++ rewrite Forall_forall in E |- *. intros q I. destruct (E q I) as (s' & E1 & E2). exists s'. split; [exact E1|lra].
        -- split; [intro U; rewrite (F U); reflexivity|exact H'].
Qed.
End Descent.

(** C354: in exact arithmetic, when the pairs found have one best fit each, point-to-point ICP with Horn's solver and without hook or
    checkpoints ends by itself, with an iteration that moves the pose by less than the limits or with no pairs, in fewer iterations than
    there are ways to pair the local points with global ones or with none. *)
Theorem C354_ends_by_itself :
  forall fMax shuffle mround tf_of eig convert name gpts nnG nnL Ls pose_minus log_norms tnorm realize b thr wp evals hook p ge le wantDebug guess env env' r,
  (* the libraries *)
  nn_correct nnG -> length (nn_points nnL) = length Ls -> measures pose_minus log_norms ->
  (* parameters *)
  (0 < thr)%Q -> weight_pt2pt_layers b = [] ->
  maxLocalPointsPerLayer b = 0 \/ length Ls <= maxLocalPointsPerLayer b -> plain_weights wp ->
  (0 < minAbsStep_trans p)%Q -> (0 < minAbsStep_rot p)%Q -> is_rotation guess ->
  align pose_minus log_norms tnorm realize (new_match_state (gmap name gpts nnG) (lmap name nnL Ls))
    (mkComponents [pose_matcher fMax shuffle mround (gmap name gpts nnG) (lmap name nnL Ls) tf_of (DT b thr 0 1) 0 0]
                  [closed_solver 0 (horn_algo eig convert wp)] evals hook)
    p ge le wantDebug guess env = Ok (env', r) ->
  (* in this run: exact transformed points, global points that may be shared, and pairs with one best fit *)
  (forall T f, In (T, f) (searches (r_loopTrace r)) ->
     exact_on tf_of T Ls /\ sharing_ok b thr nnG (tf_of T) Ls /\
     (pairings_empty f = false -> horn_ready eig wp (to_vpairs f) /\
        (lam2 (eig (horn_matrix (to_vpairs f) wp)) < lam3 (eig (horn_matrix (to_vpairs f) wp)))%R)) ->
  let ways := (S (length (nn_points nnG))) ^ (length Ls) in
  r_nIterations r < ways /\
  (ways <= maxIterations p -> r_terminationReason r <> MaxIterations /\
     (hook = None -> quality_checkpoints p = [] -> r_terminationReason r = Stalled \/ r_terminationReason r = NoPairings)).
Proof.
  intros * NC LL MEAS TP TBL LIM PW MT MR RT AL SS ways.
  destruct (align_course _ _ _ _ _ _ _ _ _ _ _ _ _ _ _ _ _ AL) as (reason & C & TR).
  destruct (course_descends fMax shuffle mround tf_of eig convert name gpts nnG nnL Ls pose_minus log_norms b thr wp p hook NC LL TP TBL LIM PW MEAS MT MR
    _ _ _ _ _ _ _ _ C RT SS) as (pss & A & B & D & _ & F & NSE).
  assert (LT : length pss < ways).
  { assert (X : length ([] :: pss) <= length (choices (nn_points nnG) Ls)).
    { apply NoDup_incl_length.
      - constructor; [|exact B]. intro I. rewrite Forall_forall in D. destruct (D _ I) as [_ Z]. apply Z. reflexivity.
      - intros q [<-|I].
        + clear. induction Ls as [|l ls IH]; [left; reflexivity|]. cbn [choices]. apply in_flat_map. exists []. split; [exact IH|]. left. reflexivity.
        + rewrite Forall_forall in D. apply D. exact I. }
    rewrite choices_length in X. cbn [length] in X. unfold ways. lia. }
  cbn [Nat.add] in A. split; [lia|]. intro BIG.
  assert (RR : r_terminationReason r = reason) by (rewrite TR; destruct (Nat.leb_spec (maxIterations p) (r_nIterations r)); [lia|reflexivity]).
  assert (NU : reason <> Undefined) by (intro U; specialize (F U); lia).
  assert (KIND : forall it fuel T p2 l n o Te, course (horn_algo eig convert wp) pose_minus log_norms (new_match_state (gmap name gpts nnG) (lmap name nnL Ls))
      [pose_matcher fMax shuffle mround (gmap name gpts nnG) (lmap name nnL Ls) tf_of (DT b thr 0 1) 0 0] p hook it fuel T p2 l n o Te ->
      o <> Undefined -> o <> MaxIterations /\ (o <> SolverError -> hook = None -> quality_checkpoints p = [] -> o = Stalled \/ o = NoPairings)).
  { clear. induction 1 as [|? ? ? ? ? ? ? ? E|? ? ? ? ? ? ? ? ? ? ? ? ? ? ? IH]; [congruence| |exact IH].
    intros _. inversion E; subst; split; try discriminate; intros; try congruence; auto. }
  destruct (KIND _ _ _ _ _ _ _ _ C NU) as [K1 K2]. rewrite RR. split; [exact K1|]. intros H1 H2. apply K2; assumption.
Qed.

(** ** The scene of C323: two searches with the same six pairs *)
Lemma ex_measures : measures ex_minus ex_norms.
Proof.
  split.
  - intro D. unfold ex_norms. destruct (Req_EM_T _ 0); cbn; split; discriminate.
  - intro T. unfold ex_norms, ex_minus. cbn [tr]. destruct (Req_EM_T _ 0) as [_|X]; [split; reflexivity|].
    exfalso. apply X. unfold vnorm2, vdot, vsub. cbn [vx vy vz]. ring.
Qed.
Lemma six_scene : exists m r f1 f2, six_pairs f1 /\ six_pairs f2 /\
  align ex_minus ex_norms (fun _ => 0%Q) (fun _ e => Ok e) (new_match_state (gmap 7 None (brute ex_globals)) (lmap 7 (brute sixQ) sixQ))
    (mkComponents [pose_matcher 1000000 (fun l => l) (fun _ => 0%Z) (gmap 7 None (brute ex_globals)) (lmap 7 (brute sixQ) sixQ) ex_tf_of (DT (mono_base true) (1 # 2) 0 1) 0 0]
                  [closed_solver 0 (horn_algo quarter_eig (fun _ => None) wp_default)] [ratio_evaluator 1 (1 # 5)] None)
    mono_params false false false off_guess (mkMS [] []) = Ok (m, r) /\
  searches (r_loopTrace r) = [(off_guess, f1); (quarter, f2)].
Proof.
  destruct (found_by true sixQ guessQ 0) as [[m1 f1]| | ] eqn:F1; [|vm_compute in F1; discriminate|vm_compute in F1; discriminate].
  destruct (found_by true sixQ quarterQ 1) as [[m2 f2]| | ] eqn:F2; [|vm_compute in F2; discriminate|vm_compute in F2; discriminate].
  assert (S1 : six_pairs f1).
  { assert (X : match found_by true sixQ guessQ 0 with Ok (_, f) => six_pairs f | _ => False end) by (vm_compute; repeat split). rewrite F1 in X. exact X. }
  assert (S2 : six_pairs f2).
  { assert (X : match found_by true sixQ quarterQ 1 with Ok (_, f) => six_pairs f | _ => False end) by (vm_compute; repeat split). rewrite F2 in X. exact X. }
  destruct (two_steps true sixQ f1 m1 f2 m2 F1 F2 S1 S2) as (r & E & A & B). exists m2, r, f1, f2.
  split; [exact S1|]. split; [exact S2|]. split; [exact E|]. rewrite B. reflexivity.
Qed.
Lemma six_nonempty f : six_pairs f -> pairings_empty f = false.
Proof. intros (A & _). unfold pairings_empty. destruct (paired_pt2pt f); [discriminate A|reflexivity]. Qed.

Lemma mono_trans : (0 < minAbsStep_trans mono_params)%Q.
Proof. reflexivity. Qed.
Lemma mono_rot : (0 < minAbsStep_rot mono_params)%Q.
Proof. reflexivity. Qed.
Lemma half_pos : (0 < 1 # 2)%Q.
Proof. reflexivity. Qed.

Example C352_case : exists m r,
  align ex_minus ex_norms (fun _ => 0%Q) (fun _ e => Ok e) (new_match_state (gmap 7 None (brute ex_globals)) (lmap 7 (brute sixQ) sixQ))
    (mkComponents [pose_matcher 1000000 (fun l => l) (fun _ => 0%Z) (gmap 7 None (brute ex_globals)) (lmap 7 (brute sixQ) sixQ) ex_tf_of (DT (mono_base true) (1 # 2) 0 1) 0 0]
                  [closed_solver 0 (horn_algo quarter_eig (fun _ => None) wp_default)] [ratio_evaluator 1 (1 # 5)] None)
    mono_params false false false off_guess (mkMS [] []) = Ok (m, r) /\
  r_nIterations r = 1 /\ r_terminationReason r = Stalled /\ r_optimal_tf r = quarter.
Proof.
  destruct six_scene as (m & r & f1 & f2 & S1 & S2 & E & SE). exists m, r. split; [exact E|].
  destruct (C352_same_pairs_stop _ _ _ _ _ _ _ _ _ _ _ _ _ _ _ _ _ ex_measures mono_trans mono_rot E 0 off_guess f1 quarter f2) as (_ & A & B & C).
  - rewrite SE. reflexivity.
  - rewrite SE. reflexivity.
  - rewrite (six_pairs_vpairs f1 S1), (six_pairs_vpairs f2 S2). reflexivity.
  - apply six_nonempty. exact S2.
  - split; [exact A|]. split; [exact B|exact C].
Qed.

Example C354_case : exists m r,
  align ex_minus ex_norms (fun _ => 0%Q) (fun _ e => Ok e) (new_match_state (gmap 7 None (brute ex_globals)) (lmap 7 (brute sixQ) sixQ))
    (mkComponents [pose_matcher 1000000 (fun l => l) (fun _ => 0%Z) (gmap 7 None (brute ex_globals)) (lmap 7 (brute sixQ) sixQ) ex_tf_of (DT (mono_base true) (1 # 2) 0 1) 0 0]
                  [closed_solver 0 (horn_algo quarter_eig (fun _ => None) wp_default)] [ratio_evaluator 1 (1 # 5)] None)
    mono_params false false false off_guess (mkMS [] []) = Ok (m, r) /\
  r_nIterations r < (S (length ex_globals)) ^ (length sixQ).
Proof.
  destruct six_scene as (m & r & f1 & f2 & S1 & S2 & E & SE). exists m, r. split; [exact E|].
  assert (SIMPLE : (lam2 (quarter_eig (horn_matrix quarter_pairs wp_default)) < lam3 (quarter_eig (horn_matrix quarter_pairs wp_default)))%R).
  { rewrite quarter_matrix. cbn. lra. }
  change (length ex_globals) with (length (nn_points (brute ex_globals))).
  eapply proj1. eapply C354_ends_by_itself; [..|exact E|].
  - apply brute_correct.
  - reflexivity.
  - exact ex_measures.
  - reflexivity.
  - reflexivity.
  - left. reflexivity.
  - unfold plain_weights, wp_default. cbn. repeat split; lra.
  - reflexivity.
  - reflexivity.
  - unfold is_rotation, off_guess; vunf. repeat split; try lra. f_equal; lra.
  - rewrite SE. intros T f [X|[X|[]]]; injection X as <- <-.
    + split; [intros l _; rewrite tf_guess; apply guessQ_exact|]. split; [left; reflexivity|]. intros _. split; [apply six_pairs_ready; exact S1|].
      rewrite (six_pairs_vpairs f1 S1). exact SIMPLE.
    + split; [intros l _; rewrite tf_quarter; apply quarterQ_exact|]. split; [left; reflexivity|]. intros _. split; [apply six_pairs_ready; exact S2|].
      rewrite (six_pairs_vpairs f2 S2). exact SIMPLE.
Qed.
