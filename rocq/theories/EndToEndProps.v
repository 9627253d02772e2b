(** C323: the default registration recovers the exact pose from any guess in the basin. *)
From Coq Require Import Reals Qreals List Lra Lia.
From Verif Require Import Base PairingsModel MatcherModel BitfieldModel BitfieldProofs PointMatcherModel PointMatcherSpec
  PointMatcherProofs PointMatcherProofs3 BruteNN SolverModel QualityModel IcpModel GeomModel VisitModel VisitSpec VisitProps RotProofs
  HornModel HornProofs NoiselessProofs HornProps OlaeModel OlaeProofs OlaeProps EndToEndModel.
Import ListNotations.
Open Scope nat_scope.

(** ** Specification *)
(** Every local point is the image, in the local frame, of the global point number [c i]: the
    sensor is at [T0]. *)
Definition seen_from (T0 : Pose) (Ls Gs : list P3) (c : nat -> nat) : Prop :=
  forall i l, nth_error Ls i = Some l ->
  exists g, nth_error Gs (c i) = Some g /\ to_v g = compose T0 (to_v l).

(** With the pose [T], each local point lands nearer than the threshold to its own global point,
    and nearer to it than to any other. *)
Definition in_basin (T : Pose) (thr : Q) (Ls Gs : list P3) (c : nat -> nat) : Prop :=
  forall i l g, nth_error Ls i = Some l -> nth_error Gs (c i) = Some g ->
  let d (h : P3) := vnorm2 (vsub (compose T (to_v l)) (to_v h)) in
  (d g < Q2R thr * Q2R thr)%R /\
  forall j h, nth_error Gs j = Some h -> j <> c i -> (d g < d h)%R.

(** composePoint is exact on these points *)
Definition exact_on (tf_of : Pose -> P3 -> P3) (T : Pose) (Ls : list P3) : Prop :=
  forall l, In l Ls -> to_v (tf_of T l) = compose T (to_v l).

(** the noiseless correspondences *)
Definition true_pairs (T0 : Pose) (Ls : list P3) : VPairs :=
  mkVP (map (fun l => (compose T0 (to_v l), to_v l)) Ls) [] [] 0 0 [].

(** the local points do not all lie on one line through their centroid, leaving out the points less than 0.1 mm away from it *)
Definition not_aligned (Ls : list P3) : Prop :=
  let m := centroid (map to_v Ls) in
  exists a b, In a Ls /\ In b Ls /\
    (1 / 10000 <= vnorm (vsub (to_v a) m))%R /\ (1 / 10000 <= vnorm (vsub (to_v b) m))%R /\
    vcross (vsub (to_v a) m) (vsub (to_v b) m) <> mkV 0 0 0.

(** ** From rationals to reals *)
Lemma Q2R_sqd a b : Q2R (sqd a b) = vnorm2 (vsub (to_v a) (to_v b)).
Proof.
  unfold sqd, qsq, vnorm2, vdot, vsub, to_v. cbn [vx vy vz]. rewrite !Q2R_plus, !Q2R_mult, !Q2R_minus. reflexivity.
Qed.

(** ** The matcher *)
(** What the search answers for each local point. *)
Definition finds (tf : P3 -> P3) (nn : NNMap) (thr ang : Q) (Ls : list P3) (c : nat -> nat) : Prop :=
  forall i l, nth_error Ls i = Some l ->
  exists g d, nn_search nn (tf l) 1 = [(c i, g, d)] /\ nth_error (nn_points nn) (c i) = Some g /\
    (d < qsq thr + ang * normSqr (tf l))%Q /\ (sqd (tf l) g < thr * thr)%Q.

Lemma basin_finds tf_of T nn thr ang Ls c : nn_correct nn -> (0 <= ang)%Q ->
  (forall i, i < length Ls -> c i < length (nn_points nn)) ->
  exact_on tf_of T Ls -> in_basin T thr Ls (nn_points nn) c -> finds (tf_of T) nn thr ang Ls c.
Proof.
  intros NC ANG CR EX BA i l Hi.
  assert (Li : i < length Ls) by (apply nth_error_Some; congruence).
  destruct (nth_error (nn_points nn) (c i)) as [g|] eqn:Hg; [|apply nth_error_None in Hg; specialize (CR i Li); lia].
  destruct (BA i l g Hi Hg) as [NEAR FAR]. cbv zeta in NEAR, FAR.
  assert (EL : to_v (tf_of T l) = compose T (to_v l)) by (apply EX; eapply nth_error_In; exact Hi).
  assert (FARQ : forall j h, nth_error (nn_points nn) j = Some h -> j <> c i -> (sqd (tf_of T l) g < sqd (tf_of T l) h)%Q).
  { intros j h Hj Nj. apply Rlt_Qlt. rewrite !Q2R_sqd, EL. apply (FAR j h Hj Nj). }
  assert (NEARQ : (sqd (tf_of T l) g < thr * thr)%Q).
  { apply Rlt_Qlt. rewrite Q2R_sqd, EL, Q2R_mult. exact NEAR. }
  destruct (NC (tf_of T l) 1) as (A & B & C & D & E).
  destruct (nn_search nn (tf_of T l) 1) as [|[[j h] d] r] eqn:ES.
  - exfalso. destruct (E (c i) g Hg) as [[d []]|[X _]]. cbn in X. lia.
  - assert (r = []) by (destruct r; [reflexivity|cbn in C; lia]). subst r.
    destruct (A j h d (or_introl eq_refl)) as [Hj Dj].
    destruct (Nat.eq_dec j (c i)) as [->|NE].
    + rewrite Hg in Hj. injection Hj as <-. exists g, d. split; [reflexivity|]. split; [reflexivity|].
      split; [|exact NEARQ]. rewrite Dj. unfold qsq.
      assert (0 <= ang * normSqr (tf_of T l))%Q.
      { apply Qmult_le_0_compat; [exact ANG|]. unfold normSqr, qsq.
        assert (SQ : forall x : Q, (0 <= x * x)%Q) by (intro x; destruct x as [n dd]; unfold Qle; cbn; rewrite Z.mul_1_r; nia).
        pose proof (SQ (px (tf_of T l))). pose proof (SQ (py (tf_of T l))). pose proof (SQ (pz (tf_of T l))).
        rewrite <- (Qplus_0_r 0). apply Qplus_le_compat; [|assumption]. rewrite <- (Qplus_0_r 0). apply Qplus_le_compat; assumption. }
      apply Qlt_le_trans with (thr * thr)%Q; [exact NEARQ|]. rewrite <- (Qplus_0_r (thr * thr)) at 1. apply Qplus_le_compat; [apply Qle_refl|exact H].
    + exfalso. specialize (FARQ j h Hj NE). destruct (E (c i) g Hg) as [[d' [X|[]]]|[_ X]].
      * injection X as X _ _. congruence.
      * specialize (X j h d (or_introl eq_refl)). rewrite Dj in X. apply (Qlt_not_le _ _ FARQ X).
Qed.

(** the pair made for the local point [i] *)
Definition right_pair (Ls Gs : list P3) (c : nat -> nat) (i : nat) (x : Pair) : Prop :=
  p_localIdx x = i /\ p_globalIdx x = c i /\ nth_error Ls i = Some (p_local x) /\ nth_error Gs (c i) = Some (p_global x).

(** a bit field without marks at the given places *)
Definition unmarked (m : LayerBits) (k : nat) (P : nat -> Prop) (Cap : nat) : Prop :=
  exists b cap s, lb_find m k = Some b /\ rep b cap s /\ (forall n, cap = Some n -> Cap <= n) /\ forall i, P i -> ~ In i s.

Lemma unmarked_query m k P C i : unmarked m k P C -> i < C -> P i -> query m k i = Ok false.
Proof.
  intros (b & cap & s & F & R & CP & U) L HP. unfold query, lb_at. rewrite F. cbn [rbind].
  destruct (rep_get b cap s i R) as [x [E X]].
  - intros n E. specialize (CP n E). lia.
  - rewrite E. destruct x; [|reflexivity]. exfalso. apply (U i HP). apply X. reflexivity.
Qed.

Lemma unmarked_mark m k P C i : unmarked m k P C -> i < C ->
  exists b', bits_mark (lb_get_or_default m k) i = Ok b' /\ unmarked (lb_set m k b') k (fun j => P j /\ j <> i) C.
Proof.
  intros (b & cap & s & F & R & CP & U) L. unfold lb_get_or_default. rewrite F.
  destruct (rep_mark b cap s i R) as [b' [E R']].
  - intros n E. specialize (CP n E). lia.
  - exists b'. split; [exact E|]. exists b', cap, (i :: s). split; [rewrite lb_find_set, Nat.eqb_refl; reflexivity|].
    split; [exact R'|]. split; [exact CP|]. intros j [HP NE] [X|X]; [congruence|apply (U j HP X)].
Qed.

Lemma unmarked_weaken m k (P Q : nat -> Prop) C : (forall i, Q i -> P i) -> unmarked m k P C -> unmarked m k Q C.
Proof. intros H (b & cap & s & F & R & CP & U). exists b, cap, s. split; [exact F|]. split; [exact R|]. split; [exact CP|]. intros i HQ. apply U, H, HQ. Qed.

Definition with_pairs (out : ptpairings) (ps : list Pair) : ptpairings :=
  mkPairings (paired_pt2pt out ++ ps) (paired_pt2ln out) (paired_pt2pl out) (paired_ln2ln out) (paired_pl2pl out)
    (point_weights out) (potential_pairings out).

Section Loop.
Variables (b : BaseParams) (tf : P3 -> P3) (thr ang : Q) (nn : NNMap) (Ls : list P3) (c : nat -> nat) (gname lname : nat).
Hypothesis FI : finds tf nn thr ang Ls c.
Hypothesis INJ : forall i j, i < length Ls -> j < length Ls -> c i = c j -> i = j.
Variables mn mx : P3.
Let tl := mkTL mn mx None (map tf Ls).
Let n := length Ls.
Let NG := length (nn_points nn).

Lemma c_range i : i < n -> c i < NG.
Proof.
  intro H. destruct (nth_error Ls i) as [l|] eqn:E; [|apply nth_error_None in E; unfold n in H; lia].
  destruct (FI i l E) as (g & d & _ & G & _). apply nth_error_Some. congruence.
Qed.

Lemma loop_pairs m : forall i ms out, i + m = n ->
  unmarked (ms_local ms) lname (fun j => i <= j < n) n ->
  unmarked (ms_global ms) gname (fun j => exists k, i <= k < n /\ j = c k) NG ->
  exists ms' ps, dt_loop b thr ang 1 nn Ls tl gname lname (seq i m) (ms, out) = Ok (ms', with_pairs out ps) /\
    Forall2 (right_pair Ls (nn_points nn) c) (seq i m) ps.
Proof.
  induction m as [|m IH]; intros i ms out IM UL UG.
  - exists ms, []. split; [|constructor]. cbn. unfold with_pairs. rewrite app_nil_r. destruct out; reflexivity.
  - cbn [seq dt_loop]. unfold tl at 1. cbn [local_index tl_idxs rbind fst].
    assert (Li : i < n) by lia.
    destruct (nth_error Ls i) as [l|] eqn:El; [|apply nth_error_None in El; unfold n in Li; lia].
    destruct (FI i l El) as (g & d & SR & G & D & _).
    assert (Q1 : (if allowMatchAlreadyMatchedPoints b then Ok false else query (ms_local ms) lname i) = Ok false).
    { destruct (allowMatchAlreadyMatchedPoints b); [reflexivity|]. apply (unmarked_query _ _ _ _ _ UL Li). lia. }
    rewrite Q1. cbn [rbind]. unfold tl at 1. cbn [tl_pts]. rewrite nth_error_map, El. cbn [option_map].
    rewrite SR. cbn [dt_neighbours].
    destruct (Qle_bool (qsq thr + ang * normSqr (tf l)) d) eqn:EQ.
    { exfalso. apply Qle_bool_iff in EQ. apply (Qlt_not_le _ _ D EQ). }
    unfold dt_add_pair. rewrite El.
    assert (Q2 : (if allowMatchAlreadyMatchedGlobalPoints b then Ok false else query (ms_global ms) gname (c i)) = Ok false).
    { destruct (allowMatchAlreadyMatchedGlobalPoints b); [reflexivity|].
      apply (unmarked_query _ _ _ _ _ UG (c_range i Li)). exists i. split; [lia|reflexivity]. }
    rewrite Q2. cbn [rbind].
    set (x := mkPair (c i) i g l d gname lname).
    assert (RX : right_pair Ls (nn_points nn) c i x) by (unfold right_pair, x; cbn; repeat split; assumption).
    assert (AP : forall ps, with_pairs (add_pt2pt out x) ps = with_pairs out (x :: ps)).
    { intro ps. unfold with_pairs, add_pt2pt. cbn. rewrite <- app_assoc. reflexivity. }
    destruct (allowMatchAlreadyMatchedGlobalPoints b) eqn:EA.
    + cbn [rbind dt_neighbours]. destruct (IH (S i) ms (add_pt2pt out x)) as (ms' & ps & E & F); [lia| | |].
      * eapply unmarked_weaken; [|exact UL]. cbn. intros j Hj. lia.
      * eapply unmarked_weaken; [|exact UG]. cbn. intros j (k & Hk & ->). exists k. split; [lia|reflexivity].
      * exists ms', (x :: ps). rewrite E, AP. split; [reflexivity|constructor; assumption].
    + unfold mark_both.
      destruct (unmarked_mark _ _ _ _ i UL Li) as [lb [EL' UL']].
      destruct (unmarked_mark _ _ _ _ (c i) UG (c_range i Li)) as [gb [EG' UG']].
      rewrite EL'. cbn [rbind]. rewrite EG'. cbn [rbind dt_neighbours].
      destruct (IH (S i) (mkMS (lb_set (ms_local ms) lname lb) (lb_set (ms_global ms) gname gb)) (add_pt2pt out x)) as (ms' & ps & E & F); [lia| | |].
      * cbn [ms_local]. eapply unmarked_weaken; [|exact UL']. cbn. intros j Hj. split; lia.
      * cbn [ms_global]. eapply unmarked_weaken; [|exact UG']. cbn. intros j (k & Hk & ->). split.
        -- exists k. split; [lia|reflexivity].
        -- intro X. apply INJ in X; unfold n in *; lia.
      * exists ms', (x :: ps). rewrite E, AP. split; [reflexivity|constructor; assumption].
Qed.
End Loop.

Section Matching.
Variables (fMax : Q) (shuffle : list nat -> list nat) (mround : Q -> Z) (tf_of : Pose -> P3 -> P3).
Variables (name : nat) (gpts : option (list P3)) (nnG nnL : NNMap) (Ls : list P3) (c : nat -> nat).
Definition gmap : Layers := [(name, mkLayer gpts (Some nnG))].
Definition lmap : Layers := [(name, mkLayer (Some Ls) (Some nnL))].

Lemma fresh_state : exists ms, fresh_ms gmap lmap = Ok ms /\
  ms_local ms = [(name, bits_assign (length (nn_points nnL)) (nn_dense nnL) bits_default)] /\
  ms_global ms = [(name, bits_assign (length (nn_points nnG)) (nn_dense nnG) bits_default)].
Proof.
  unfold fresh_ms, gmap, lmap, layer_info, bits_initialize_from. cbn [map fst snd ly_nn option_map init_layers lb_set lb_get_or_default lb_find rbind filter existsb].
  rewrite !Nat.eqb_refl. cbn [orb rbind]. eexists. split; [reflexivity|]. split; reflexivity.
Qed.

Lemma fresh_unmarked m d C (P : nat -> Prop) : C <= m ->
  unmarked [(name, bits_assign m d bits_default)] name P C.
Proof.
  intro H. exists (bits_assign m d bits_default), (if d then Some m else None), [].
  split; [cbn; rewrite Nat.eqb_refl; reflexivity|]. split; [apply rep_assign|]. split; [|intros i _ []].
  intros k E. destruct d; [injection E as <-; exact H|discriminate].
Qed.

Variables (b : BaseParams) (thr ang : Q) (T : Pose).
Hypothesis FI : finds (tf_of T) nnG thr ang Ls c.
Hypothesis INJ : forall i j, i < length Ls -> j < length Ls -> c i = c j -> i = j.
Hypothesis BB : bbox_correct nnG.
Hypothesis NE : Ls <> [].
Hypothesis LL : length (nn_points nnL) = length Ls.
Hypothesis PAR : (0 < thr)%Q /\ (0 <= ang)%Q /\ (0 <= bbox_epsilon b)%Q.
Hypothesis TBL : weight_pt2pt_layers b = [].
Hypothesis LIM : maxLocalPointsPerLayer b = 0 \/ length Ls <= maxLocalPointsPerLayer b.

Lemma one_match it env : exists ms' ps,
  run_matchers [pose_matcher fMax shuffle mround gmap lmap tf_of (DT b thr ang 1) 0 0] it T (new_match_state gmap lmap env)
    = Ok (ms', mkPairings ps [] [] [] [] [] (length Ls)) /\
  Forall2 (right_pair Ls (nn_points nnG) c) (seq 0 (length Ls)) ps.
Proof.
  destruct fresh_state as (ms & EF & ML & MG). unfold new_match_state. rewrite EF.
  unfold run_matchers, run_matchers_loop, matcher_match, matcher_gate, pose_matcher, pm_matcher.
  cbn [m_enabled m_runFromIteration m_runUpToIteration m_impl_match negb].
  replace (Nat.ltb it 0) with false by (symmetry; apply Nat.ltb_ge; lia). cbn [Nat.ltb Nat.leb andb].
  unfold base_impl_match. cbn [pm_base pm_one_layer]. unfold gmap at 1. cbn [match_globals].
  unfold local_layers. rewrite TBL. cbn [match_locals]. unfold lmap at 1. cbn [find_layer]. rewrite Nat.eqb_refl. cbn [ly_points].
  unfold dt_one_layer. destruct PAR as (P1 & P2 & P3').
  assert (C1 : (1 <? 1)%nat || Qle_bool thr 0 || Qltb ang 0 = false).
  { cbn [Nat.ltb Nat.leb orb]. apply Bool.orb_false_iff. split.
    - destruct (Qle_bool thr 0) eqn:E; [|reflexivity]. apply Qle_bool_iff in E. exfalso. apply (Qlt_not_le _ _ P1 E).
    - unfold Qltb. apply Bool.negb_false_iff. apply Qle_bool_iff. exact P2. }
  rewrite C1. cbn [ly_nn].
  destruct Ls as [|l0 Lr] eqn:ELs; [contradiction|]. rewrite <- ELs in *.
  destruct (FI 0 l0) as (g0 & d0 & S0 & G0 & D0 & N0); [rewrite ELs; reflexivity|].
  assert (NG : isNil (nn_points nnG) = false).
  { destruct (nn_points nnG); [destruct (c 0); discriminate G0|reflexivity]. }
  rewrite NG. replace (isNil Ls) with false by (rewrite ELs; reflexivity). cbn [orb].
  assert (TL : exists mn mx, transform_local_to_global fMax shuffle (tf_of T) Ls (maxLocalPointsPerLayer b)
     = Ok (mkTL mn mx None (map (tf_of T) Ls))).
  { unfold transform_local_to_global. replace (Nat.eqb (maxLocalPointsPerLayer b) 0 || Nat.leb (length Ls) (maxLocalPointsPerLayer b)) with true; [eauto|].
    symmetry. destruct LIM as [->|X]; [reflexivity|]. apply Nat.leb_le in X. rewrite X. apply Bool.orb_true_r. }
  destruct TL as (mn & mx & TL). rewrite TL. cbn [rbind tl_min tl_max].
  assert (I : inside (mn, mx) (tf_of T l0)).
  { apply (tl_bbox _ _ _ _ _ _ TL). cbn [tl_pts]. rewrite ELs. left. reflexivity. }
  destruct (bb_intersects (nn_bbox nnG) (mn, mx) (thr + bbox_epsilon b)) eqn:EB.
  2:{ exfalso. assert (X := bb_miss _ _ _ thr (tf_of T l0) g0 EB).
      assert (Y : (thr * thr < sqd (tf_of T l0) g0)%Q).
      { apply X; [apply BB; eapply nth_error_In; exact G0|exact I|apply Qlt_le_weak; exact P1|].
        rewrite <- (Qplus_0_r thr) at 1. apply Qplus_le_compat; [apply Qle_refl|exact P3']. }
      apply (Qlt_irrefl (thr * thr)). eapply Qlt_trans; [exact Y|exact N0]. }
  cbn [negb].
  destruct (loop_pairs b (tf_of T) thr ang nnG Ls c name name FI INJ mn mx (length Ls) 0 ms (add_potential pairings_empty_ctor (length Ls * 1))) as (ms' & ps & E & F).
  - reflexivity.
  - rewrite ML. apply fresh_unmarked. rewrite LL. apply Nat.le_refl.
  - rewrite MG. apply fresh_unmarked. apply Nat.le_refl.
  - rewrite E. cbn [rbind match_globals match_locals]. exists ms', ps. split; [|exact F].
    unfold push_back_copy, with_pairs, add_potential, pairings_empty_ctor.
    cbn [paired_pt2pt paired_pt2ln paired_pt2pl paired_ln2ln paired_pl2pl point_weights potential_pairings app Nat.add].
    rewrite Nat.mul_1_r. reflexivity.
Qed.
End Matching.

Lemma right_pairs_true T0 Ls Gs c : seen_from T0 Ls Gs c -> forall ps i m, Forall2 (right_pair Ls Gs c) (seq i m) ps -> i + m = length Ls ->
  map (fun x => (to_v (p_global x), to_v (p_local x))) ps = map (fun l => (compose T0 (to_v l), to_v l)) (skipn i Ls).
Proof.
  intros SF ps. induction ps as [|x ps IH]; intros i m F IM.
  - inversion F as [E|]. destruct m; [|discriminate]. rewrite skipn_all2 by lia. reflexivity.
  - destruct m as [|m]; [inversion F|]. cbn [seq] in F. inversion F as [|? ? ? ? RX F']; subst. destruct RX as (A & B & CL & CG).
    destruct (SF i (p_local x) CL) as (g & G & EG). rewrite CG in G. injection G as <-.
    assert (SK : skipn i Ls = p_local x :: skipn (S i) Ls).
    { clear - CL. revert i CL. induction Ls as [|y r IHl]; intros [|i] CL; cbn in CL; try discriminate.
      - injection CL as ->. reflexivity.
      - cbn [skipn]. apply IHl. exact CL. }
    rewrite SK. cbn [map]. rewrite EG. f_equal. apply (IH (S i) m F'). lia.
Qed.

Lemma right_pairs_idx Ls Gs c : forall is ps, Forall2 (right_pair Ls Gs c) is ps ->
  map (fun x => (p_localIdx x, p_globalIdx x)) ps = map (fun i => (i, c i)) is.
Proof.
  intros is ps F. induction F as [|i x is ps (A & B & _) F IH]; [reflexivity|]. cbn [map]. rewrite IH, A, B. reflexivity.
Qed.

(** ** The solver *)
Lemma in_used p wp ctl ctg outl nz cl its : forall i k it, nth_error its k = Some it ->
  fate_of p wp ctl ctg outl nz (i + k) it = Used cl -> In cl (used_from p wp ctl ctg outl nz i its).
Proof.
  induction its as [|x its IH]; intros i [|k] it H F; cbn in H; try discriminate; cbn [used_from]; apply in_or_app.
  - left. injection H as ->. rewrite Nat.add_0_r in F. rewrite F. left. reflexivity.
  - right. apply (IH (S i) k it H). replace (S i + k) with (i + S k) by lia. exact F.
Qed.

Lemma true_pair_used T0 Ls wp a : is_rotation T0 -> In a Ls -> (wp_use_scale wp = true -> (1 <= wp_scale_thr wp)%R) ->
  (1 / 10000 <= vnorm (vsub (to_v a) (centroid (map to_v Ls))))%R ->
  exists cl, In cl (horn_pairs (true_pairs T0 Ls) wp) /\ c_r cl = vsub (to_v a) (centroid (map to_v Ls)).
Proof.
  intros RT IA THR FAR. destruct (In_nth_error _ _ IA) as [k Hk].
  assert (NE : vp_pts (true_pairs T0 Ls) <> []) by (cbn; destruct Ls; [destruct IA|discriminate]).
  assert (NL : Forall (fun x : V3 * V3 => fst x = compose T0 (snd x)) (vp_pts (true_pairs T0 Ls))).
  { cbn. apply Forall_forall. intros x X. apply in_map_iff in X. destruct X as (l & <- & _). reflexivity. }
  assert (MS : map snd (vp_pts (true_pairs T0 Ls)) = map to_v Ls) by (cbn; rewrite map_map; reflexivity).
  assert (CG := centroid_noiseless T0 _ NE NL).
  unfold horn_pairs. rewrite CG, MS.
  set (m := centroid (map to_v Ls)) in *.
  assert (EB : vsub (compose T0 (to_v a)) (compose T0 m) = rotate T0 (vsub (to_v a) m)) by apply sub_compose.
  assert (NB : vnorm (vsub (compose T0 (to_v a)) (compose T0 m)) = vnorm (vsub (to_v a) m)) by (rewrite EB; apply rotate_norm; exact RT).
  eexists. split.
  - apply (in_used _ _ _ _ _ _ _ _ 0 k (IPt (compose T0 (to_v a)) (to_v a))).
    + unfold items, true_pairs. cbn [vp_pts vp_lns vp_pls map app]. rewrite app_nil_r, map_map. rewrite nth_error_map, Hk. reflexivity.
    + unfold fate_of. destruct (in_dec Nat.eq_dec (0 + k) []) as [[]|_]. cbv zeta.
      rewrite !NB. destruct (Rlt_dec (vnorm (vsub (to_v a) m)) (1 / 10000)) as [X|_]; [exfalso; lra|].
      replace (Rmax (vnorm (vsub (to_v a) m)) (vnorm (vsub (to_v a) m)) / Rmin (vnorm (vsub (to_v a) m)) (vnorm (vsub (to_v a) m)))%R with 1%R.
      2:{ rewrite Rmax_left, Rmin_left by apply Rle_refl. field. lra. }
      destruct (wp_use_scale wp).
      * destruct (Rlt_dec (wp_scale_thr wp) 1) as [X|_]; [exfalso; specialize (THR eq_refl); lra|]. reflexivity.
      * reflexivity.
  - reflexivity.
Qed.

Definition solver_weights_ok (wp : VWeights) : Prop :=
  (0 < wp_pt2pt wp)%R /\ (0 <= wp_ln2ln wp)%R /\ (0 <= wp_pl2pl wp)%R /\ wp_kernel wp = None /\
  (wp_use_scale wp = true -> (1 <= wp_scale_thr wp)%R).

Lemma solve_true eig T0 Ls wp : is_rotation T0 -> 3 <= length Ls -> solver_weights_ok wp -> not_aligned Ls ->
  spectral (horn_matrix (true_pairs T0 Ls) wp) (eig (horn_matrix (true_pairs T0 Ls) wp)) ->
  optimal_tf_horn eig (true_pairs T0 Ls) wp = Ok (true, mkHR T0 []).
Proof.
  intros RT N3 (W1 & W2 & W3 & W4 & W5) (a & b & IA & IB & FA & FB & CR) SP.
  apply C86_horn_recovers_the_pose; try assumption; try reflexivity.
  - split; [|split; constructor]. cbn. apply Forall_forall. intros x X. apply in_map_iff in X. destruct X as (l & <- & _). reflexivity.
  - unfold positive_weights. rewrite W4. cbn [true_pairs vp_lns vp_pls vp_weights]. repeat split; try assumption; try constructor; intros X; exfalso; apply X; reflexivity.
  - intros X. exfalso. apply X. reflexivity.
  - cbn. destruct Ls; [cbn in N3; lia|discriminate].
  - unfold at_least_three. cbn [true_pairs vp_pts vp_lns vp_pls length]. rewrite map_length. lia.
  - destruct (true_pair_used T0 Ls wp a RT IA W5 FA) as (ca & Ia & Ea).
    destruct (true_pair_used T0 Ls wp b RT IB W5 FB) as (cb & Ib & Eb).
    exists ca, cb. split; [exact Ia|]. split; [exact Ib|]. rewrite Ea, Eb. exact CR.
Qed.

Lemma Forall2_same_length {A B} (R : A -> B -> Prop) l l' : Forall2 R l l' -> length l = length l'.
Proof. induction 1; cbn; congruence. Qed.

(** ** The whole run *)
(** a solver without activation limits *)
Definition always_runs (sv : Solver MatchState Pose ptpairings) : Prop :=
  s_enabled sv = true /\ s_runFromIteration sv = 0 /\ s_runUpToIteration sv = 0 /\ s_runUntilTranslationCorrectionSmallerThan sv = 0%Q.
(** started at the initial guess or at [T0], it finds [T0] from the true pairs *)
Definition solves_from (sv : Solver MatchState Pose ptpairings) (guess T0 : Pose) (Ls : list P3) : Prop :=
  forall sc T ps n env o, sc_guess sc = Some T -> T = guess \/ T = T0 ->
  map (fun x => (to_v (p_global x), to_v (p_local x))) ps = map (fun l => (compose T0 (to_v l), to_v l)) Ls ->
  s_impl sv sc (mkPairings ps [] [] [] [] [] n) env o = Ok (env, true, mkSol T0 1%Q).
Section Run.
Variables (fMax : Q) (shuffle : list nat -> list nat) (mround : Q -> Z) (tf_of : Pose -> P3 -> P3)
  (sv : Solver MatchState Pose ptpairings)
  (name : nat) (gpts : option (list P3)) (nnG nnL : NNMap) (Ls : list P3) (c : nat -> nat)
  (pose_minus : Pose -> Pose -> Pose) (log_norms : Pose -> Q * Q) (tnorm : Pose -> Q)
  (b : BaseParams) (thr ang : Q) (w amin : Q) (p : IcpParams) (T0 guess0 : Pose).
Hypothesis SEEN : seen_from T0 Ls (nn_points nnG) c.
Hypothesis INJ : forall i j, i < length Ls -> j < length Ls -> c i = c j -> i = j.
Hypothesis BB : bbox_correct nnG.
Hypothesis N3 : 1 <= length Ls.
Hypothesis LL : length (nn_points nnL) = length Ls.
Hypothesis PAR : (0 < thr)%Q /\ (0 <= ang)%Q /\ (0 <= bbox_epsilon b)%Q.
Hypothesis TBL : weight_pt2pt_layers b = [].
Hypothesis LIM : maxLocalPointsPerLayer b = 0 \/ length Ls <= maxLocalPointsPerLayer b.
Hypothesis ALWAYS : always_runs sv.
Hypothesis SOLVES : solves_from sv guess0 T0 Ls.
Hypothesis QW : (0 < w)%Q.
Hypothesis AMIN : (amin <= 1)%Q.
Hypothesis CHK : Forall (fun kv => (snd kv <= 1)%Q) (quality_checkpoints p).
Let G := gmap name gpts nnG.
Let L := lmap name nnL Ls.
Let comps := mkComponents [pose_matcher fMax shuffle mround G L tf_of (DT b thr ang 1) 0 0] [sv]
  [ratio_evaluator w amin] None.

Definition right_pairings (P : ptpairings) : Prop := exists ps, P = mkPairings ps [] [] [] [] [] (length Ls) /\
  Forall2 (right_pair Ls (nn_points nnG) c) (seq 0 (length Ls)) ps.

Lemma right_quality P pose env : right_pairings P -> exists q, (q == 1)%Q /\
  evaluate_quality (c_evaluators comps) pose P env = Ok (env, q).
Proof.
  intros (ps & -> & F). assert (LP : length ps = length Ls) by (rewrite <- (Forall2_same_length _ _ _ F), seq_length; reflexivity).
  assert (NZ : ~ (inject_Z (Z.of_nat (length Ls)) == 0)%Q).
  { intro X. unfold Qeq, inject_Z in X. cbn in X. lia. }
  unfold comps, evaluate_quality. cbn [c_evaluators evaluate_loop ratio_evaluator relativeWeight e_evaluate rbind].
  assert (QWb : Qltb 0 w = true).
  { unfold Qltb. apply Bool.negb_true_iff. destruct (Qle_bool w 0) eqn:E; [|reflexivity]. apply Qle_bool_iff in E. exfalso. apply (Qlt_not_le _ _ QW E). }
  rewrite QWb. unfold paired_ratio_evaluate, paired_ratio_of, pairings_size. cbn [paired_pt2pt paired_pt2ln paired_pt2pl paired_ln2ln paired_pl2pl potential_pairings length].
  rewrite LP, !Nat.add_0_r. destruct (Nat.eqb_spec (length Ls) 0) as [X|_]; [lia|]. cbn [hard_discard quality].
  set (q := (inject_Z (Z.of_nat (length Ls)) / inject_Z (Z.of_nat (length Ls)))%Q).
  assert (EQ1 : (q == 1)%Q) by (unfold q, Qdiv; apply Qmult_inv_r; exact NZ).
  assert (H : Qltb q amin = false).
  { unfold Qltb. apply Bool.negb_false_iff. apply Qle_bool_iff. rewrite EQ1. exact AMIN. }
  rewrite H. cbn [rbind].
  assert (SW : Qltb 0 (0 + w) = true).
  { unfold Qltb. apply Bool.negb_true_iff. destruct (Qle_bool (0 + w) 0) eqn:E; [|reflexivity]. apply Qle_bool_iff in E. rewrite Qplus_0_l in E. exfalso. apply (Qlt_not_le _ _ QW E). }
  rewrite SW. eexists. split; [|reflexivity]. rewrite EQ1. field. intro X. rewrite X in QW. apply (Qlt_irrefl 0 QW).
Qed.

Lemma body hasLog guess it st : optimalPose (l_sol st) = guess0 \/ optimalPose (l_sol st) = T0 -> finds (tf_of (optimalPose (l_sol st))) nnG thr ang Ls c ->
  (saveIterationDetails p = true -> hasLog = true) ->
  exists st', l_sol st' = mkSol T0 1%Q /\ right_pairings (l_pairings st') /\ l_prev st' = l_prev st /\ l_prev2 st' = l_prev2 st /\
  iter_body pose_minus log_norms tnorm (fun _ e => Ok e) (new_match_state G L) comps p hasLog guess it st =
    if is_stalled p (increments pose_minus log_norms T0 (l_prev st) (l_prev2 st)) then Ok (st', Some Stalled)
    else iter_tail (fun _ e => Ok e) comps p it st'.
Proof.
  intros START FI HL. unfold iter_body. cbn [rbind comps c_matchers c_solvers].
  assert (NE : Ls <> []) by (destruct Ls; [cbn in N3; lia|discriminate]).
  destruct (one_match fMax shuffle mround tf_of name gpts nnG nnL Ls c b thr ang (optimalPose (l_sol st)) FI INJ BB NE LL PAR TBL LIM it (l_env st)) as (ms' & ps & E & F).
  unfold G, L. rewrite E. cbn [rbind]. fold G L.
  assert (LP : length ps = length Ls) by (rewrite <- (Forall2_same_length _ _ _ F), seq_length; reflexivity).
  assert (PE : pairings_empty (mkPairings ps (@nil Datatypes.unit) (@nil Datatypes.unit) (@nil Datatypes.unit) (@nil Datatypes.unit) (@nil (nat * Q)) (length Ls)) = false).
  { unfold pairings_empty. cbn [paired_pt2pt]. destruct ps; [cbn in LP; lia|reflexivity]. }
  destruct ALWAYS as (S1 & S2 & S3 & S4).
  rewrite PE. unfold run_solvers, solver_optimal_pose, solver_iter_gate, solver_latch_gate.
  rewrite S1, S2, S3, S4. cbn [negb sc_icpIteration].
  replace (Nat.ltb it 0) with false by (symmetry; apply Nat.ltb_ge; lia).
  change (Nat.ltb 0 0) with false. change (Qltb 0 0) with false. cbn [andb].
  assert (PT : map (fun x => (to_v (p_global x), to_v (p_local x))) ps = map (fun l => (compose T0 (to_v l), to_v l)) Ls).
  { rewrite (right_pairs_true T0 Ls (nn_points nnG) c SEEN ps 0 (length Ls) F eq_refl). reflexivity. }
  match goal with |- context [s_impl sv ?sc _ ?e ?o] =>
    rewrite (SOLVES sc (optimalPose (l_sol st)) ps (length Ls) e o eq_refl START PT) end.
  cbn [rbind fst snd negb optimalPose].
  set (stalled := is_stalled p (increments pose_minus log_norms T0 (l_prev st) (l_prev2 st))).
  assert (UBf : want_details p it stalled && negb hasLog = false).
  { unfold want_details. destruct (saveIterationDetails p); [rewrite HL by reflexivity; apply Bool.andb_false_r|reflexivity]. }
  rewrite UBf. eexists. split; [|split; [|split; [|split; [|reflexivity]]]]; cbn; try reflexivity.
  exists ps. split; [reflexivity|exact F].
Qed.

Lemma find_checkpoint_in m k v : find_checkpoint m k = Some v -> In (k, v) m.
Proof.
  induction m as [|[k' v'] m IH]; cbn; [discriminate|]. destruct (Nat.eqb_spec k' k) as [->|]; [intros [= ->]; left; reflexivity|intro H; right; apply IH; exact H].
Qed.

Lemma tail_goes_on it st : right_pairings (l_pairings st) ->
  exists st', iter_tail (fun _ e => Ok e) comps p it st = Ok (st', None) /\
    l_sol st' = l_sol st /\ l_pairings st' = l_pairings st /\ l_prev st' = optimalPose (l_sol st) /\ l_prev2 st' = Some (l_prev st).
Proof.
  intro RP. unfold iter_tail. change (c_hook comps) with (@None (@hook_t Pair Datatypes.unit Datatypes.unit Datatypes.unit Datatypes.unit Q MatchState Pose)). cbv iota.
  destruct (find_checkpoint (quality_checkpoints p) it) as [mq|] eqn:FC.
  - cbn [rbind]. destruct (right_quality (l_pairings st) (optimalPose (l_sol st)) (l_env st) RP) as (q & Q1 & E). rewrite E. cbn [rbind].
    assert (X : Qltb q mq = false).
    { unfold Qltb. apply Bool.negb_false_iff. apply Qle_bool_iff. rewrite Q1. rewrite Forall_forall in CHK. apply (CHK (it, mq)). apply find_checkpoint_in. exact FC. }
    rewrite X. eexists. split; [reflexivity|]. repeat split.
  - eexists. split; [reflexivity|]. repeat split.
Qed.
End Run.

Lemma run_recovers :
  forall fMax shuffle mround tf_of sv name gpts nnG nnL Ls c pose_minus log_norms tnorm b thr ang w amin p wantDebug guess T0 env,
  (* geometry *)
  seen_from T0 Ls (nn_points nnG) c ->
  (forall i j, i < length Ls -> j < length Ls -> c i = c j -> i = j) ->
  1 <= length Ls ->
  in_basin guess thr Ls (nn_points nnG) c ->
  exact_on tf_of guess Ls -> exact_on tf_of T0 Ls ->
  (* the libraries: nearest neighbours, bounding box, eigenvectors, norm of a pose difference *)
  nn_correct nnG -> bbox_correct nnG -> length (nn_points nnL) = length Ls ->
  always_runs sv -> solves_from sv guess T0 Ls ->
  (fst (log_norms (pose_minus T0 T0)) == 0)%Q -> (snd (log_norms (pose_minus T0 T0)) == 0)%Q ->
  (forall T, 0 <= fst (log_norms T) /\ 0 <= snd (log_norms T))%Q ->
  (* parameters *)
  (0 < thr)%Q -> (0 <= ang)%Q -> (0 <= bbox_epsilon b)%Q ->
  weight_pt2pt_layers b = [] -> maxLocalPointsPerLayer b = 0 \/ length Ls <= maxLocalPointsPerLayer b ->
  (0 < w)%Q -> (amin <= 1)%Q ->
  1 <= maxIterations p -> (0 < minAbsStep_trans p)%Q -> (0 < minAbsStep_rot p)%Q ->
  Forall (fun kv => (snd kv <= 1)%Q) (quality_checkpoints p) ->
  (saveIterationDetails p = true -> wantDebug || generateDebugFiles p = true) ->
  exists env' r,
    registration_with fMax shuffle mround (gmap name gpts nnG) (lmap name nnL Ls) tf_of pose_minus log_norms tnorm
      (DT b thr ang 1) sv w amin p wantDebug guess env = Ok (env', r) /\
    r_optimal_tf r = T0 /\ r_optimalScale r = 1%Q /\ (r_quality r == 1)%Q /\
    map (fun x => (p_localIdx x, p_globalIdx x)) (paired_pt2pt (r_finalPairings r)) = map (fun i => (i, c i)) (seq 0 (length Ls)) /\
    r_nIterations r <= 1 /\ (2 <= maxIterations p -> r_terminationReason r = Stalled) /\
    (guess = T0 -> r_nIterations r = 0 /\ r_terminationReason r = Stalled).
Proof.
  intros * SEEN INJ N3 BAS EXG EX0 NC BB LLn ALW SPE LN1 LN2 LNP TH ANG EPS TBL LIM QW AMIN MI MT MR CHK DBG.
  assert (CR : forall i, i < length Ls -> c i < length (nn_points nnG)).
  { intros i Hi. destruct (nth_error Ls i) as [l|] eqn:E; [|apply nth_error_None in E; lia]. destruct (SEEN i l E) as (g & Gg & _). apply nth_error_Some. congruence. }
  assert (FG := basin_finds tf_of guess nnG thr ang Ls c NC ANG CR EXG BAS).
  assert (B0 : in_basin T0 thr Ls (nn_points nnG) c).
  { intros i l g Hl Hg. cbv zeta. destruct (SEEN i l Hl) as (g' & Hg' & Eg). rewrite Hg in Hg'. injection Hg' as <-.
    assert (Z : vnorm2 (vsub (compose T0 (to_v l)) (to_v g)) = 0%R).
    { rewrite Eg. unfold vnorm2, vdot, vsub. cbn [vx vy vz]. ring. }
    rewrite Z. assert (TR : (0 < Q2R thr)%R) by (rewrite <- RMicromega.Q2R_0; apply Qlt_Rlt; exact TH).
    split; [nra|]. intros j h Hj NJ. destruct (BAS i l g Hl Hg) as [_ FAR]. specialize (FAR j h Hj NJ). cbv zeta in FAR.
    rewrite <- Eg. destruct (Rle_lt_or_eq_dec 0 (vnorm2 (vsub (to_v g) (to_v h)))) as [P|P]; [|exact P|].
    - unfold vnorm2, vdot. nra.
    - exfalso. assert (SAME : to_v g = to_v h).
      { unfold vnorm2, vdot, vsub in P. cbn [vx vy vz] in P. destruct (to_v g) as [gx gy gz], (to_v h) as [hx hy hz]. cbn [vx vy vz] in P.
        assert (SQ : forall x, (0 <= x * x)%R) by (intro x; nra).
        assert (S1 := SQ (gx - hx)%R). assert (S2 := SQ (gy - hy)%R). assert (S3 := SQ (gz - hz)%R).
        assert (ZX : (gx - hx = 0)%R) by (apply Rsqr_0_uniq; unfold Rsqr; lra).
        assert (ZY : (gy - hy = 0)%R) by (apply Rsqr_0_uniq; unfold Rsqr; lra).
        assert (ZZ : (gz - hz = 0)%R) by (apply Rsqr_0_uniq; unfold Rsqr; lra).
        f_equal; lra. }
      rewrite SAME in FAR. lra. }
  assert (F0 := basin_finds tf_of T0 nnG thr ang Ls c NC ANG CR EX0 B0).
  assert (PAR : (0 < thr)%Q /\ (0 <= ang)%Q /\ (0 <= bbox_epsilon b)%Q) by (split; [exact TH|split; assumption]).
  unfold registration_with, align.
  cbn [c_matchers c_solvers isNil c_evaluators orb].
  set (hasLog := wantDebug || generateDebugFiles p) in *.
  set (st0 := mkLoop env (mkSol guess 1%Q) pairings_empty_ctor guess None None [] [] []).
  assert (FIN : forall (st : @LoopState Pair Datatypes.unit Datatypes.unit Datatypes.unit Datatypes.unit Q MatchState Pose) (it : nat) (reason : IterTermReason),
     l_sol st = mkSol T0 1%Q -> right_pairings nnG Ls c (l_pairings st) -> it <= 1 -> (2 <= maxIterations p -> reason = Stalled) -> (guess = T0 -> it = 0 /\ reason = Stalled) ->
     exists env' r,
       (let reason' := if Nat.leb (maxIterations p) it then MaxIterations else reason in
        let* env1 := Ok (l_env st) in
        let* rq := evaluate_quality [ratio_evaluator w amin] (optimalPose (l_sol st)) (l_pairings st) env1 in
        let '(env2, q) := rq in
        Ok (env2, mkIcpResults (optimalPose (l_sol st)) (optimalScale (l_sol st)) it reason' q (l_pairings st) (l_details st) (l_trace st))) = Ok (env', r) /\
       r_optimal_tf r = T0 /\ r_optimalScale r = 1%Q /\ (r_quality r == 1)%Q /\
       map (fun x => (p_localIdx x, p_globalIdx x)) (paired_pt2pt (r_finalPairings r)) = map (fun i => (i, c i)) (seq 0 (length Ls)) /\
       r_nIterations r <= 1 /\ (2 <= maxIterations p -> r_terminationReason r = Stalled) /\
    (guess = T0 -> r_nIterations r = 0 /\ r_terminationReason r = Stalled)).
  { intros st it reason ES RP IT RS R0. cbn [rbind].
    destruct (right_quality fMax shuffle mround tf_of sv name gpts nnG nnL Ls c b thr ang w amin N3 LLn LIM QW AMIN (l_pairings st) (optimalPose (l_sol st)) (l_env st) RP) as (q & Q1 & E).
    cbn [c_evaluators] in E. rewrite E. cbn [rbind]. do 2 eexists. split; [reflexivity|].
    cbn [r_optimal_tf r_optimalScale r_quality r_finalPairings r_nIterations r_terminationReason]. rewrite ES. cbn [optimalPose optimalScale].
    split; [reflexivity|]. split; [reflexivity|]. split; [exact Q1|]. split.
    - destruct RP as (ps & -> & F). cbn [paired_pt2pt]. apply (right_pairs_idx Ls (nn_points nnG) c _ _ F).
    - split; [exact IT|]. split; [intro M2; destruct (Nat.leb_spec (maxIterations p) it); [lia|]; apply RS; exact M2|].
      intro G0. destruct (R0 G0) as [-> ->]. destruct (Nat.leb_spec (maxIterations p) 0); [lia|]. split; reflexivity. }
  destruct (maxIterations p) as [|m] eqn:EM; [lia|]. cbn [icp_loop].
  destruct (body fMax shuffle mround tf_of sv name gpts nnG nnL Ls c pose_minus log_norms tnorm b thr ang w amin p T0 guess
     SEEN INJ BB N3 LLn PAR TBL LIM ALW SPE hasLog guess 0 st0 (or_introl eq_refl) FG DBG) as (s1 & S1 & P1 & V1 & V2 & E1).
  assert (QA : forall x s, (x == 0)%Q -> (0 < s)%Q -> Qltb (qabs x) s = true).
  { intros x s Hx Hs. assert (A0 : (qabs x == 0)%Q) by (unfold qabs; destruct (Qltb x 0); rewrite Hx; reflexivity).
    unfold Qltb. apply Bool.negb_true_iff. destruct (Qle_bool s (qabs x)) eqn:E; [|reflexivity]. apply Qle_bool_iff in E. rewrite A0 in E. exfalso. apply (Qlt_not_le _ _ Hs E). }
  assert (AT0 : guess = T0 -> is_stalled p (increments pose_minus log_norms T0 (l_prev st0) (l_prev2 st0)) = true).
  { intros ->. unfold increments. cbn [l_prev l_prev2 st0]. destruct (log_norms (pose_minus T0 T0)) as [dx dr]. cbn [fst snd] in LN1, LN2.
    unfold is_stalled. cbn [fst snd]. rewrite !QA by assumption. reflexivity. }
  rewrite E1. clear E1. destruct (is_stalled p _).
  - cbn [rbind]. apply (FIN s1 0 Stalled S1 P1); [lia|reflexivity|split; reflexivity].
  - destruct (tail_goes_on fMax shuffle mround tf_of sv name gpts nnG nnL Ls c b thr ang w amin p N3 LLn LIM QW AMIN CHK 0 s1 P1) as (s2 & E2 & S2 & P2 & V3' & V4).
    rewrite E2. cbn [rbind]. rewrite S1 in S2, V3'. rewrite V1 in V4. cbn [optimalPose] in V3'. cbn in V4. rewrite <- P2 in P1.
    destruct m as [|m].
    + cbn [icp_loop rbind]. apply (FIN s2 1 Undefined S2 P1); [lia|intros; lia|intro G0; discriminate (AT0 G0)].
    + cbn [icp_loop].
      assert (S2p : optimalPose (l_sol s2) = T0) by (rewrite S2; reflexivity).
      assert (F2 : finds (tf_of (optimalPose (l_sol s2))) nnG thr ang Ls c) by (rewrite S2; exact F0).
      destruct (body fMax shuffle mround tf_of sv name gpts nnG nnL Ls c pose_minus log_norms tnorm b thr ang w amin p T0 guess
        SEEN INJ BB N3 LLn PAR TBL LIM ALW SPE hasLog guess 1 s2 (or_intror S2p) F2 DBG) as (s3 & S3 & P3' & V5 & V6 & E3).
      rewrite E3. clear E3.
      assert (ST : is_stalled p (increments pose_minus log_norms T0 (l_prev s2) (l_prev2 s2)) = true).
      { rewrite V3', V4. unfold increments. destruct (log_norms (pose_minus T0 T0)) as [dx dr] eqn:EL. cbn [fst snd] in LN1, LN2.
        destruct (LNP (pose_minus T0 guess)) as [H1 H2]. destruct (log_norms (pose_minus T0 guess)) as [dx2 dr2]. cbn [fst snd] in H1, H2.
        assert (QM : forall x y, (x == 0)%Q -> (0 <= y)%Q -> qmin x y = x).
        { intros x y Hx Hy. unfold qmin, Qltb. replace (Qle_bool x y) with true; [reflexivity|]. symmetry. apply Qle_bool_iff. rewrite Hx. exact Hy. }
        rewrite !QM by assumption. unfold is_stalled. cbn [fst snd].
        rewrite !QA by assumption. reflexivity. }
      rewrite ST. cbn [rbind]. apply (FIN s3 1 Stalled S3 P3'); [lia|reflexivity|intro G0; discriminate (AT0 G0)].
Qed.

Lemma closed_recovers algo guess T0 Ls : algo (true_pairs T0 Ls) = Ok (true, mkHR T0 []) ->
  always_runs (closed_solver 0 algo) /\ solves_from (closed_solver 0 algo) guess T0 Ls.
Proof.
  intro H. split; [repeat split|]. intros sc T ps n env o _ _ PT. unfold closed_solver. cbn [s_impl].
  assert (SV : algo (to_vpairs (mkPairings ps [] [] [] [] [] n)) = Ok (true, mkHR T0 [])).
  { rewrite <- H. f_equal. unfold to_vpairs, true_pairs. cbn [paired_pt2pt paired_pt2ln paired_pt2pl point_weights length map]. rewrite PT. reflexivity. }
  rewrite SV. reflexivity.
Qed.

(** C323: points of the global map seen, without noise, from the pose [T0]; an initial guess from which each transformed local
    point lies within the threshold of its own global point and nearer to it than to any other.  Then the alignment with the
    distance-threshold matcher, Horn's solver and the paired-ratio quality returns exactly [T0], with exactly the true pairings
    and quality 1, after at most two iterations (at once when the guess is [T0] itself).  The map may hold further points, in any order. *)
Theorem C323_registration_recovers_the_pose :
  forall fMax shuffle mround tf_of eig convert name gpts nnG nnL Ls c pose_minus log_norms tnorm b thr ang wp w amin p wantDebug guess T0 env,
  (* geometry *)
  is_rotation T0 -> seen_from T0 Ls (nn_points nnG) c ->
  (forall i j, i < length Ls -> j < length Ls -> c i = c j -> i = j) ->
  3 <= length Ls -> not_aligned Ls ->
  in_basin guess thr Ls (nn_points nnG) c ->
  exact_on tf_of guess Ls -> exact_on tf_of T0 Ls ->
  (* the libraries: nearest neighbours, bounding box, eigenvectors, norm of a pose difference *)
  nn_correct nnG -> bbox_correct nnG -> length (nn_points nnL) = length Ls ->
  spectral (horn_matrix (true_pairs T0 Ls) wp) (eig (horn_matrix (true_pairs T0 Ls) wp)) ->
  (fst (log_norms (pose_minus T0 T0)) == 0)%Q -> (snd (log_norms (pose_minus T0 T0)) == 0)%Q ->
  (forall T, 0 <= fst (log_norms T) /\ 0 <= snd (log_norms T))%Q ->
  (* parameters *)
  (0 < thr)%Q -> (0 <= ang)%Q -> (0 <= bbox_epsilon b)%Q ->
  weight_pt2pt_layers b = [] -> maxLocalPointsPerLayer b = 0 \/ length Ls <= maxLocalPointsPerLayer b ->
  solver_weights_ok wp -> (0 < w)%Q -> (amin <= 1)%Q ->
  1 <= maxIterations p -> (0 < minAbsStep_trans p)%Q -> (0 < minAbsStep_rot p)%Q ->
  Forall (fun kv => (snd kv <= 1)%Q) (quality_checkpoints p) ->
  (saveIterationDetails p = true -> wantDebug || generateDebugFiles p = true) ->
  exists env' r,
    registration fMax shuffle mround (gmap name gpts nnG) (lmap name nnL Ls) tf_of pose_minus log_norms tnorm
      (DT b thr ang 1) (horn_algo eig convert wp) w amin p wantDebug guess env = Ok (env', r) /\
    r_optimal_tf r = T0 /\ r_optimalScale r = 1%Q /\ (r_quality r == 1)%Q /\
    map (fun x => (p_localIdx x, p_globalIdx x)) (paired_pt2pt (r_finalPairings r)) = map (fun i => (i, c i)) (seq 0 (length Ls)) /\
    r_nIterations r <= 1 /\ (2 <= maxIterations p -> r_terminationReason r = Stalled) /\
    (guess = T0 -> r_nIterations r = 0 /\ r_terminationReason r = Stalled).
Proof.
  intros * RT SEEN INJ N3 NAL BAS EXG EX0 NC BB LLn SPE LN1 LN2 LNP TH ANG EPS TBL LIM WOK QW AMIN MI MT MR CHK DBG.
  assert (CL : horn_algo eig convert wp (true_pairs T0 Ls) = Ok (true, mkHR T0 [])); [|destruct (closed_recovers _ guess T0 Ls CL) as [CA CS];
    apply (run_recovers fMax shuffle mround tf_of (closed_solver 0 (horn_algo eig convert wp)) name gpts nnG nnL Ls c); try assumption; lia].
  unfold horn_algo, solver_horn. cbn [true_pairs vp_nPt2Ln vp_nPt2Pl Nat.eqb andb].
  apply solve_true; assumption.
Qed.
(** C324: the same with the OLAE solver, when one of its four determinants is the largest one (C91: otherwise the pose is wrong). *)
Theorem C324_registration_with_olae_recovers_the_pose :
  forall fMax shuffle mround tf_of solve convert name gpts nnG nnL Ls c pose_minus log_norms tnorm b thr ang wp w amin p wantDebug guess T0 env,
  (* geometry *)
  is_rotation T0 -> seen_from T0 Ls (nn_points nnG) c ->
  (forall i j, i < length Ls -> j < length Ls -> c i = c j -> i = j) ->
  3 <= length Ls ->
  in_basin guess thr Ls (nn_points nnG) c ->
  exact_on tf_of guess Ls -> exact_on tf_of T0 Ls ->
  (* the libraries: nearest neighbours, bounding box, eigenvectors, norm of a pose difference *)
  nn_correct nnG -> bbox_correct nnG -> length (nn_points nnL) = length Ls ->
  linear_solver solve -> one_largest (olae_problem (true_pairs T0 Ls) wp) ->
  (fst (log_norms (pose_minus T0 T0)) == 0)%Q -> (snd (log_norms (pose_minus T0 T0)) == 0)%Q ->
  (forall T, 0 <= fst (log_norms T) /\ 0 <= snd (log_norms T))%Q ->
  (* parameters *)
  (0 < thr)%Q -> (0 <= ang)%Q -> (0 <= bbox_epsilon b)%Q ->
  weight_pt2pt_layers b = [] -> maxLocalPointsPerLayer b = 0 \/ length Ls <= maxLocalPointsPerLayer b ->
  solver_weights_ok wp -> (0 < w)%Q -> (amin <= 1)%Q ->
  1 <= maxIterations p -> (0 < minAbsStep_trans p)%Q -> (0 < minAbsStep_rot p)%Q ->
  Forall (fun kv => (snd kv <= 1)%Q) (quality_checkpoints p) ->
  (saveIterationDetails p = true -> wantDebug || generateDebugFiles p = true) ->
  exists env' r,
    registration fMax shuffle mround (gmap name gpts nnG) (lmap name nnL Ls) tf_of pose_minus log_norms tnorm
      (DT b thr ang 1) (olae_algo solve convert wp) w amin p wantDebug guess env = Ok (env', r) /\
    r_optimal_tf r = T0 /\ r_optimalScale r = 1%Q /\ (r_quality r == 1)%Q /\
    map (fun x => (p_localIdx x, p_globalIdx x)) (paired_pt2pt (r_finalPairings r)) = map (fun i => (i, c i)) (seq 0 (length Ls)) /\
    r_nIterations r <= 1 /\ (2 <= maxIterations p -> r_terminationReason r = Stalled) /\
    (guess = T0 -> r_nIterations r = 0 /\ r_terminationReason r = Stalled).
Proof.
  intros * RT SEEN INJ N3 BAS EXG EX0 NC BB LLn LS ONE LN1 LN2 LNP TH ANG EPS TBL LIM WOK QW AMIN MI MT MR CHK DBG.
  assert (CL : olae_algo solve convert wp (true_pairs T0 Ls) = Ok (true, mkHR T0 [])); [|destruct (closed_recovers _ guess T0 Ls CL) as [CA CS];
    apply (run_recovers fMax shuffle mround tf_of (closed_solver 0 (olae_algo solve convert wp)) name gpts nnG nnL Ls c); try assumption; lia].
  unfold olae_algo. cbn [true_pairs vp_nPt2Ln vp_nPt2Pl Nat.eqb andb].
  destruct WOK as (W1 & W2 & W3 & W4 & W5).
  apply C90_olae_recovers_the_pose; try assumption; try reflexivity.
  - split; [|split; constructor]. cbn. apply Forall_forall. intros x X. apply in_map_iff in X. destruct X as (l & <- & _). reflexivity.
  - split; constructor.
  - unfold positive_weights. rewrite W4. cbn [true_pairs vp_lns vp_pls vp_weights]. repeat split; try assumption; try constructor; intros X; exfalso; apply X; reflexivity.
  - intros X. exfalso. apply X. reflexivity.
  - cbn. destruct Ls; [cbn in N3; lia|discriminate].
Qed.
Print Assumptions C324_registration_with_olae_recovers_the_pose.
Print Assumptions C323_registration_recovers_the_pose.

(** ** A scene that meets the hypotheses *)
Definition sixQ : list P3 := [mkP3 1 0 0; mkP3 (-1) 0 0; mkP3 0 1 0; mkP3 0 (-1) 0; mkP3 0 0 1; mkP3 0 0 (-1)].
(** the quarter turn of HornProps, and a guess that is 16 degrees and 10 cm away *)
Definition quarterQ (p : P3) : P3 := mkP3 (- py p + 1) (px p + 2) (pz p + 3).
Definition guessQ (p : P3) : P3 := mkP3 (- (7 # 25) * px p - (24 # 25) * py p + (11 # 10)) ((24 # 25) * px p - (7 # 25) * py p + 2) (pz p + 3).
Definition off_guess : Pose := mkPose (mkV (- (7 / 25)) (24 / 25) 0) (mkV (- (24 / 25)) (- (7 / 25)) 0) (mkV 0 0 1) (mkV (11 / 10) 2 3).
Definition ex_tf_of (T : Pose) : P3 -> P3 := if Rle_dec (vx (tr T)) 1 then quarterQ else guessQ.
(** the global map: the six points in the opposite order, and one more *)
Definition ex_globals : list P3 := rev (map quarterQ sixQ) ++ [mkP3 5 5 5].
Definition ex_minus (A B : Pose) : Pose := mkPose (mkV 1 0 0) (mkV 0 1 0) (mkV 0 0 1) (vsub (tr A) (tr B)).
Definition ex_norms (T : Pose) : Q * Q := if Req_EM_T (vnorm2 (tr T)) 0 then (0, 0)%Q else (1, 1)%Q.
Definition ex_params : IcpParams := mkIcpParams 10 (1 # 100) (1 # 100) false false 0 [(0, 9 # 10)].

Ltac q2r := unfold Q2R; cbn [Qnum Qden Qplus Qminus Qmult Qopp Z.add Z.mul Z.opp Pos.mul Z.pos_sub].

Lemma to_v_six : map to_v sixQ = six.
Proof. unfold sixQ, six, to_v. cbn [map px py pz]. repeat (f_equal; try (unfold Q2R; cbn; lra)). Qed.

Lemma ex_true_pairs : true_pairs quarter sixQ = quarter_pairs.
Proof.
  unfold true_pairs, quarter_pairs, pairs_of. f_equal.
  rewrite <- (map_map to_v (fun l => (compose quarter l, l))), to_v_six. reflexivity.
Qed.

Lemma quarterQ_exact l : to_v (quarterQ l) = compose quarter (to_v l).
Proof.
  unfold quarterQ, quarter, to_v. cbn [px py pz]. rewrite !Q2R_plus, Q2R_opp. unfold compose, rotate, vadd, vscale. cbn [vx vy vz c0 c1 c2 tr]. f_equal; unfold Q2R at 2; cbn [Qnum Qden]; lra.
Qed.
Lemma guessQ_exact l : to_v (guessQ l) = compose off_guess (to_v l).
Proof.
  unfold guessQ, off_guess, to_v. cbn [px py pz]. rewrite !Q2R_plus, !Q2R_minus, !Q2R_mult. unfold compose, rotate, vadd, vscale. cbn [vx vy vz c0 c1 c2 tr].
  assert (A : Q2R (- (7 # 25)) = (- (7 / 25))%R) by (unfold Q2R; cbn; lra). assert (B : Q2R (24 # 25) = (24 / 25)%R) by (unfold Q2R; cbn; lra).
  assert (C : Q2R (7 # 25) = (7 / 25)%R) by (unfold Q2R; cbn; lra). assert (D : Q2R (11 # 10) = (11 / 10)%R) by (unfold Q2R; cbn; lra).
  assert (E : Q2R 2 = 2%R) by (unfold Q2R; cbn; lra). assert (F : Q2R 3 = 3%R) by (unfold Q2R; cbn; lra).
  rewrite A, B, C, D, E, F. f_equal; lra.
Qed.

Lemma nth_lt {A} (l : list A) i x : nth_error l i = Some x -> i < length l.
Proof. intro H. apply nth_error_Some. congruence. Qed.

(** the basin, checked on the rationals *)
Definition in_basinQ (tf : P3 -> P3) (thr : Q) (Ls Gs : list P3) (c : nat -> nat) : bool :=
  forallb (fun il => match nth_error Gs (c (fst il)) with
     | None => true
     | Some g => Qltb (sqd (tf (snd il)) g) (thr * thr) &&
         forallb (fun jh => Nat.eqb (fst jh) (c (fst il)) || Qltb (sqd (tf (snd il)) g) (sqd (tf (snd il)) (snd jh))) (combine (seq 0 (length Gs)) Gs)
     end) (combine (seq 0 (length Ls)) Ls).

Lemma combine_seq_nth {A} (l : list A) : forall s i x, nth_error l i = Some x -> In (s + i, x) (combine (seq s (length l)) l).
Proof.
  induction l as [|y l IH]; intros s [|i] x H; cbn in H; try discriminate; cbn [length seq combine].
  - injection H as ->. rewrite Nat.add_0_r. left. reflexivity.
  - right. replace (s + S i) with (S s + i) by lia. apply IH. exact H.
Qed.
Lemma Qltb_lt a b : Qltb a b = true -> (a < b)%Q.
Proof. unfold Qltb. intro H. apply Bool.negb_true_iff in H. apply Qnot_le_lt. intro X. apply Qle_bool_iff in X. congruence. Qed.

Lemma in_basinQ_spec tf T thr Ls Gs c : (forall l, to_v (tf l) = compose T (to_v l)) ->
  in_basinQ tf thr Ls Gs c = true -> in_basin T thr Ls Gs c.
Proof.
  intros EX H i l g Hl Hg. cbv zeta. unfold in_basinQ in H. rewrite forallb_forall in H.
  specialize (H (i, l) (combine_seq_nth Ls 0 i l Hl)). cbn [fst snd] in H. rewrite Hg in H. apply Bool.andb_true_iff in H. destruct H as [H1 H2].
  rewrite <- !EX. split.
  - rewrite <- Q2R_sqd, <- Q2R_mult. apply Qlt_Rlt. apply Qltb_lt. exact H1.
  - intros j h Hj NJ. rewrite <- !Q2R_sqd. apply Qlt_Rlt. rewrite forallb_forall in H2. specialize (H2 (j, h) (combine_seq_nth Gs 0 j h Hj)). cbn [fst snd] in H2.
    apply Bool.orb_true_iff in H2. destruct H2 as [H2|H2]; [apply Nat.eqb_eq in H2; contradiction|apply Qltb_lt; exact H2].
Qed.

Example C323_case : exists env' r,
  registration 1000000 (fun l => l) (fun _ => 0%Z) (gmap 7 None (brute ex_globals)) (lmap 7 (brute sixQ) sixQ) ex_tf_of
    ex_minus ex_norms (fun _ => 0%Q) (DT (mkBase [] 0 false false 0) (1 # 2) 0 1) (horn_algo quarter_eig (fun _ => None) wp_default) 1 (1 # 2) ex_params false
    off_guess (mkMS [] []) = Ok (env', r) /\
  r_optimal_tf r = quarter /\ r_optimalScale r = 1%Q /\ (r_quality r == 1)%Q /\
  map (fun x => (p_localIdx x, p_globalIdx x)) (paired_pt2pt (r_finalPairings r)) = [(0, 5); (1, 4); (2, 3); (3, 2); (4, 1); (5, 0)] /\
  r_nIterations r <= 1 /\ r_terminationReason r = Stalled.
Proof.
  assert (G0 : vx (tr off_guess) = (11 / 10)%R) by reflexivity. assert (T0x : vx (tr quarter) = 1%R) by reflexivity.
  assert (TG : ex_tf_of off_guess = guessQ) by (unfold ex_tf_of; rewrite G0; destruct (Rle_dec (11 / 10) 1); [exfalso; lra|reflexivity]).
  assert (TQ : ex_tf_of quarter = quarterQ) by (unfold ex_tf_of; rewrite T0x; destruct (Rle_dec 1 1); [reflexivity|exfalso; lra]).
  destruct (C323_registration_recovers_the_pose 1000000 (fun l => l) (fun _ => 0%Z) ex_tf_of quarter_eig (fun _ => None) 7 None (brute ex_globals)
    (brute sixQ) sixQ (fun i => 5 - i) ex_minus ex_norms (fun _ => 0%Q) (mkBase [] 0 false false 0) (1 # 2) 0 wp_default 1 (1 # 2) ex_params false
    off_guess quarter (mkMS [] [])) as (env' & r & E & A & B & C & D & F & H).
  - exact quarter_rotation.
  - intros i l Hl. exists (quarterQ l). split; [|apply quarterQ_exact].
    assert (X := nth_lt _ _ _ Hl). cbn in X.
    do 6 (destruct i as [|i]; [injection Hl as <-; reflexivity|]). lia.
  - cbn [sixQ length]. intros i j Hi Hj X. lia.
  - cbn. lia.
  - unfold not_aligned. cbv zeta. rewrite to_v_six, centroid_six. exists (mkP3 1 0 0), (mkP3 0 1 0).
    split; [left; reflexivity|]. split; [right; right; left; reflexivity|].
    assert (V1 : to_v (mkP3 1 0 0) = mkV 1 0 0) by (unfold to_v, Q2R; cbn; f_equal; lra).
    assert (V2 : to_v (mkP3 0 1 0) = mkV 0 1 0) by (unfold to_v, Q2R; cbn; f_equal; lra). rewrite V1, V2.
    split; [apply vnorm_far; unfold vzero3; vunf; lra|]. split; [apply vnorm_far; unfold vzero3; vunf; lra|].
    unfold vzero3. vunf. intro X. injection X as _ _ X. lra.
  - apply (in_basinQ_spec guessQ); [exact guessQ_exact|]. vm_compute. reflexivity.
  - intros l _. rewrite TG. apply guessQ_exact.
  - intros l _. rewrite TQ. apply quarterQ_exact.
  - apply brute_correct.
  - apply brute_bbox.
  - reflexivity.
  - rewrite ex_true_pairs. exact quarter_spectral.
  - unfold ex_norms, ex_minus. cbn [tr]. destruct (Req_EM_T _ 0) as [_|X]; [reflexivity|]. exfalso. apply X. unfold vnorm2, vdot, vsub. cbn [vx vy vz]. ring.
  - unfold ex_norms, ex_minus. cbn [tr]. destruct (Req_EM_T _ 0) as [_|X]; [reflexivity|]. exfalso. apply X. unfold vnorm2, vdot, vsub. cbn [vx vy vz]. ring.
  - intro T. unfold ex_norms. destruct (Req_EM_T _ 0); cbn [fst snd]; split; discriminate.
  - reflexivity.
  - discriminate.
  - discriminate.
  - reflexivity.
  - left. reflexivity.
  - unfold solver_weights_ok, wp_default. cbn. repeat split; try lra; try discriminate.
  - reflexivity.
  - discriminate.
  - cbn. lia.
  - reflexivity.
  - reflexivity.
  - repeat constructor. discriminate.
  - discriminate.
  - exists env', r. split; [exact E|]. split; [exact A|]. split; [exact B|]. split; [exact C|]. split; [exact D|]. split; [exact F|]. apply (proj1 H). cbn. lia.
Qed.

(** OLAE: a turn by atan2(3,4), with the guess 10 cm away *)
Definition turnQ (x : Q) (p : P3) : P3 := mkP3 ((4 # 5) * px p - (3 # 5) * py p + x) ((3 # 5) * px p + (4 # 5) * py p + 2) (pz p + 3).
Definition near34 : Pose := mkPose (mkV (4/5) (3/5) 0) (mkV (-(3/5)) (4/5) 0) (mkV 0 0 1) (mkV (11 / 10) 2 3).
Definition ex_tf_of2 (T : Pose) : P3 -> P3 := if Rle_dec (vx (tr T)) 1 then turnQ 1 else turnQ (11 # 10).
Lemma turnQ_exact x xr T l : Q2R x = xr -> T = mkPose (mkV (4/5) (3/5) 0) (mkV (-(3/5)) (4/5) 0) (mkV 0 0 1) (mkV xr 2 3) ->
  to_v (turnQ x l) = compose T (to_v l).
Proof.
  intros EX ->. unfold turnQ, to_v. cbn [px py pz]. rewrite !Q2R_plus, !Q2R_minus, !Q2R_mult, EX. unfold compose, rotate, vadd, vscale. cbn [vx vy vz c0 c1 c2 tr].
  assert (A : Q2R (4 # 5) = (4 / 5)%R) by (unfold Q2R; cbn; lra). assert (B : Q2R (3 # 5) = (3 / 5)%R) by (unfold Q2R; cbn; lra).
  assert (E : Q2R 2 = 2%R) by (unfold Q2R; cbn; lra). assert (F : Q2R 3 = 3%R) by (unfold Q2R; cbn; lra).
  rewrite A, B, E, F. f_equal; lra.
Qed.

Example C324_case : exists env' r,
  registration 1000000 (fun l => l) (fun _ => 0%Z) (gmap 7 None (brute (rev (map (turnQ 1) sixQ)))) (lmap 7 (brute sixQ) sixQ) ex_tf_of2
    ex_minus ex_norms (fun _ => 0%Q) (DT (mkBase [] 0 true false 0) (1 # 2) 0 1) (olae_algo cramer (fun _ => None) wp_default) 1 (1 # 2) ex_params false
    near34 (mkMS [] []) = Ok (env', r) /\
  r_optimal_tf r = turn34 /\ r_optimalScale r = 1%Q /\ (r_quality r == 1)%Q /\
  map (fun x => (p_localIdx x, p_globalIdx x)) (paired_pt2pt (r_finalPairings r)) = [(0, 5); (1, 4); (2, 3); (3, 2); (4, 1); (5, 0)] /\
  r_nIterations r <= 1 /\ r_terminationReason r = Stalled.
Proof.
  assert (G0 : vx (tr near34) = (11 / 10)%R) by reflexivity. assert (T0x : vx (tr turn34) = 1%R) by reflexivity.
  assert (TG : ex_tf_of2 near34 = turnQ (11 # 10)) by (unfold ex_tf_of2; rewrite G0; destruct (Rle_dec (11 / 10) 1); [exfalso; lra|reflexivity]).
  assert (TQ : ex_tf_of2 turn34 = turnQ 1) by (unfold ex_tf_of2; rewrite T0x; destruct (Rle_dec 1 1); [reflexivity|exfalso; lra]).
  assert (X1 : forall l, to_v (turnQ 1 l) = compose turn34 (to_v l)) by (intro l; apply (turnQ_exact 1 1%R); [unfold Q2R; cbn; lra|reflexivity]).
  assert (X2 : forall l, to_v (turnQ (11 # 10) l) = compose near34 (to_v l)) by (intro l; apply (turnQ_exact (11 # 10) (11 / 10)%R); [unfold Q2R; cbn; lra|reflexivity]).
  destruct (C324_registration_with_olae_recovers_the_pose 1000000 (fun l => l) (fun _ => 0%Z) ex_tf_of2 cramer (fun _ => None) 7 None (brute (rev (map (turnQ 1) sixQ)))
    (brute sixQ) sixQ (fun i => 5 - i) ex_minus ex_norms (fun _ => 0%Q) (mkBase [] 0 true false 0) (1 # 2) 0 wp_default 1 (1 # 2) ex_params false
    near34 turn34 (mkMS [] [])) as (env' & r & E & A & B & C & D & F & H).
  - exact turn34_rotation.
  - intros i l Hl. exists (turnQ 1 l). split; [|apply X1].
    assert (X := nth_lt _ _ _ Hl). cbn in X.
    do 6 (destruct i as [|i]; [injection Hl as <-; reflexivity|]). lia.
  - cbn [sixQ length]. intros i j Hi Hj X. lia.
  - cbn. lia.
  - apply (in_basinQ_spec (turnQ (11 # 10))); [exact X2|]. vm_compute. reflexivity.
  - intros l _. rewrite TG. apply X2.
  - intros l _. rewrite TQ. apply X1.
  - apply brute_correct.
  - apply brute_bbox.
  - reflexivity.
  - exact cramer_solves.
  - assert (TP : true_pairs turn34 sixQ = pairs_of (compose turn34) []).
    { unfold true_pairs, pairs_of. f_equal. rewrite <- (map_map to_v (fun l => (compose turn34 l, l))), to_v_six. reflexivity. }
    rewrite TP. exact turn34_one_largest.
  - unfold ex_norms, ex_minus. cbn [tr]. destruct (Req_EM_T _ 0) as [_|X]; [reflexivity|]. exfalso. apply X. unfold vnorm2, vdot, vsub. cbn [vx vy vz]. ring.
  - unfold ex_norms, ex_minus. cbn [tr]. destruct (Req_EM_T _ 0) as [_|X]; [reflexivity|]. exfalso. apply X. unfold vnorm2, vdot, vsub. cbn [vx vy vz]. ring.
  - intro T. unfold ex_norms. destruct (Req_EM_T _ 0); cbn [fst snd]; split; discriminate.
  - reflexivity.
  - discriminate.
  - discriminate.
  - reflexivity.
  - left. reflexivity.
  - unfold solver_weights_ok, wp_default. cbn. repeat split; try lra; try discriminate.
  - reflexivity.
  - discriminate.
  - cbn. lia.
  - reflexivity.
  - reflexivity.
  - repeat constructor. discriminate.
  - discriminate.
  - exists env', r. split; [exact E|]. split; [exact A|]. split; [exact B|]. split; [exact C|]. split; [exact D|]. split; [exact F|]. apply (proj1 H). cbn. lia.
Qed.
