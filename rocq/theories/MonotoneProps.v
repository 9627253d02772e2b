(** C334: point-to-point ICP never makes the truncated cost worse. *)
From Coq Require Import Reals Qreals List Lra Lia.
From Verif Require Import Base PairingsModel MatcherModel BitfieldModel BitfieldProofs PointMatcherModel PointMatcherSpec BruteNN
  SolverModel QualityModel IcpModel GeomModel VisitModel VisitSpec VisitProps RotProofs
  HornModel HornProofs NoiselessProofs HornProps OlaeModel EndToEndModel EndToEndProps.
From Verif Require LpmProps.
Import ListNotations.
Open Scope nat_scope.

(** ** Specification *)
(** The cost of one local point with the pose [T]: its squared distance to the nearest global
    point, at most the squared threshold. *)
Definition point_cost (tau : R) (Gs : list P3) (T : Pose) (l : P3) : R :=
  fold_right (fun g a => Rmin (vnorm2 (vsub (compose T (to_v l)) (to_v g))) a) (tau * tau)%R Gs.
(** The cost of a pose: the sum over the local points. *)
Definition truncated_cost (tau : R) (Gs Ls : list P3) (T : Pose) : R :=
  fold_right (fun l a => (point_cost tau Gs T l + a)%R) 0%R Ls.

(** composePoint is exact up to [eps] on these points *)
Definition accurate_on (eps : R) (tf_of : Pose -> P3 -> P3) (T : Pose) (Ls : list P3) : Prop :=
  forall l, In l Ls -> (vnorm (vsub (to_v (tf_of T l)) (compose T (to_v l))) <= eps)%R.

(** What the rounding of composePoint may cost in one iteration. *)
Definition slack (eps tau : R) (n : nat) : R := (INR n * (4 * eps * (tau + eps)))%R.

(** the poses computed by the solver, in order *)
Definition solved_poses {PP PL PN LL NN W} (tr : list (@Event PP PL PN LL NN W Pose)) : list Pose :=
  flat_map (fun e => match e with EvSolve _ _ _ out => [optimalPose out] | _ => [] end) tr.

(** the solver returns a least-squares rigid motion for these pairs *)
Definition least_squares_on (algo : VPairs -> res (bool * HResult)) (p : VPairs) : Prop :=
  exists s, algo p = Ok (true, s) /\ is_rotation (hr_pose s) /\
    forall T, is_rotation T -> (lsq (vp_pts p) (hr_pose s) <= lsq (vp_pts p) T)%R.

(** ** The cost of one point *)
Lemma point_cost_cap tau Gs T l : (point_cost tau Gs T l <= tau * tau)%R.
Proof.
  unfold point_cost. induction Gs as [|g Gs IH]; cbn [fold_right]; [lra|].
  eapply Rle_trans; [apply Rmin_r|exact IH].
Qed.
Lemma point_cost_le tau Gs T l g : In g Gs -> (point_cost tau Gs T l <= vnorm2 (vsub (compose T (to_v l)) (to_v g)))%R.
Proof.
  unfold point_cost. induction Gs as [|h Gs IH]; intros []; cbn [fold_right].
  - subst h. apply Rmin_l.
  - eapply Rle_trans; [apply Rmin_r|apply IH; assumption].
Qed.
Lemma point_cost_case tau Gs T l : point_cost tau Gs T l = (tau * tau)%R \/
  exists g, In g Gs /\ point_cost tau Gs T l = vnorm2 (vsub (compose T (to_v l)) (to_v g)).
Proof.
  unfold point_cost. induction Gs as [|h Gs IH]; cbn [fold_right]; [left; reflexivity|].
  unfold Rmin. destruct (Rle_dec _ _) as [H|H].
  - right. exists h. split; [left; reflexivity|reflexivity].
  - destruct IH as [E|(g & I & E)]; [left; exact E|right; exists g; split; [right; exact I|exact E]].
Qed.

(** a square root of the cost: [m] is the distance to the nearest global point of the point [q] the
    matcher searched from, at most [eps] away from the exact one *)
Lemma vnorm_sub_tri a b c : (vnorm (vsub a c) <= vnorm (vsub a b) + vnorm (vsub b c))%R.
Proof.
  replace (vsub a c) with (vadd (vsub a b) (vsub b c)); [apply LpmProps.vnorm_add|].
  destruct a as [a1 a2 a3], b as [b1 b2 b3], c as [d1 d2 d3]. unfold vadd, vsub. cbn [vx vy vz]. f_equal; ring.
Qed.
Lemma vnorm_sub_comm a b : vnorm (vsub a b) = vnorm (vsub b a).
Proof. unfold vnorm. f_equal. destruct a as [a1 a2 a3], b as [b1 b2 b3]. unfold vnorm2, vdot, vsub. cbn [vx vy vz]. ring. Qed.
Lemma sq_le a b : (0 <= a)%R -> (0 <= b)%R -> (a * a <= b * b)%R -> (a <= b)%R.
Proof. intros A B H. destruct (Rle_lt_dec a b) as [X|X]; [exact X|]. exfalso. nra. Qed.

Lemma cost_from_below tau Gs T l (q : V3) m eps : (0 < tau)%R -> (0 <= m)%R -> (0 <= eps)%R ->
  (vnorm (vsub q (compose T (to_v l))) <= eps)%R ->
  (forall g, In g Gs -> (m <= vnorm (vsub q (to_v g)))%R) ->
  exists A, (0 <= A <= tau)%R /\ point_cost tau Gs T l = (A * A)%R /\ (m <= A + eps \/ tau <= m /\ A = tau)%R.
Proof.
  intros TP M0 E0 NEAR LOW. destruct (point_cost_case tau Gs T l) as [E|(g & I & E)].
  - exists tau. split; [lra|]. split; [exact E|]. destruct (Rle_lt_dec tau m); [right; split; [assumption|reflexivity]|left; lra].
  - exists (vnorm (vsub (compose T (to_v l)) (to_v g))). assert (V0 := LpmProps.vnorm_nonneg (vsub (compose T (to_v l)) (to_v g))).
    rewrite LpmProps.vnorm_sq. split; [|split; [exact E|]].
    + split; [exact V0|]. apply sq_le; [exact V0|lra|]. rewrite LpmProps.vnorm_sq, <- E. apply point_cost_cap.
    + left. specialize (LOW g I). assert (TR := vnorm_sub_tri q (compose T (to_v l)) (to_v g)). lra.
Qed.

(** ** What the matcher does with one local point *)
Definition pair_of (thr : Q) (nn : NNMap) (tf : P3 -> P3) (gname lname : nat) (i : nat) (l : P3) : list Pair :=
  match nn_search nn (tf l) 1 with
  | [] => []
  | (gi, g, d) :: _ => if Qle_bool (qsq thr) d then [] else [mkPair gi i g l d gname lname]
  end.
Fixpoint pairs_from (thr : Q) (nn : NNMap) (tf : P3 -> P3) (gname lname : nat) (i : nat) (ls : list P3) : list Pair :=
  match ls with
  | [] => []
  | l :: r => pair_of thr nn tf gname lname i l ++ pairs_from thr nn tf gname lname (S i) r
  end.

Definition vpair (x : Pair) : V3 * V3 := (to_v (p_global x), to_v (p_local x)).

(** The bound before and after the solver, point by point: the paired points count with their
    pairs, the others with the squared threshold. *)
Fixpoint left_out (thr : Q) (nn : NNMap) (tf : P3 -> P3) (ls : list P3) : R :=
  match ls with
  | [] => 0%R
  | l :: r => ((match pair_of thr nn tf 0 0 0 l with [] => Q2R thr * Q2R thr | _ => 0 end) + left_out thr nn tf r)%R
  end.

Lemma lsq_app ps qs T : lsq (ps ++ qs) T = (lsq ps T + lsq qs T)%R.
Proof. induction ps as [|[g l] ps IH]; cbn [lsq app]; [ring|]. rewrite IH. ring. Qed.

Lemma search_one nn q : nn_correct nn -> nn_points nn <> [] ->
  exists j g d, nn_search nn q 1 = [(j, g, d)] /\ nth_error (nn_points nn) j = Some g /\ (d == sqd q g)%Q /\
    forall h, In h (nn_points nn) -> (sqd q g <= sqd q h)%Q.
Proof.
  intros NC NE. destruct (NC q 1) as (A & B & C & D & E).
  destruct (nn_points nn) as [|g0 gr] eqn:EP; [contradiction|].
  destruct (nn_search nn q 1) as [|[[j h] d] r] eqn:ES.
  - exfalso. destruct (E 0 g0 eq_refl) as [[d []]|[X _]]. cbn in X. lia.
  - assert (r = []) by (destruct r; [reflexivity|cbn in C; lia]). subst r.
    destruct (A j h d (or_introl eq_refl)) as [Hj Dj]. exists j, h, d. split; [reflexivity|]. split; [exact Hj|]. split; [exact Dj|].
    intros k Hk. destruct (In_nth_error _ _ Hk) as [i Hi]. destruct (E i k Hi) as [[d' [X|[]]]|[_ X]].
    + injection X as -> -> ->. destruct (A i k d' (or_introl eq_refl)) as [_ X]. apply Qle_refl.
    + specialize (X j h d (or_introl eq_refl)). rewrite <- Dj. exact X.
Qed.

Section Step.
Variables (thr : Q) (nn : NNMap) (tf_of : Pose -> P3 -> P3) (T : Pose) (eps : R) (gname lname : nat).
Hypothesis NC : nn_correct nn.
Hypothesis NE : nn_points nn <> [].
Hypothesis TP : (0 < thr)%Q.
Hypothesis E0 : (0 <= eps)%R.
Let tau := Q2R thr.
Let Gs := nn_points nn.
Lemma tau_pos : (0 < tau)%R.
Proof. unfold tau. rewrite <- RMicromega.Q2R_0. apply Qlt_Rlt. exact TP. Qed.

(** one point, before: its pair (or the squared threshold) costs at most a little more than the point *)
Lemma point_before i l : (vnorm (vsub (to_v (tf_of T l)) (compose T (to_v l))) <= eps)%R ->
  (lsq (map vpair (pair_of thr nn (tf_of T) gname lname i l)) T +
     (match pair_of thr nn (tf_of T) 0 0 0 l with [] => tau * tau | _ => 0 end)
   <= point_cost tau Gs T l + 4 * eps * (tau + eps))%R.
Proof.
  intro NEAR. assert (TR := tau_pos).
  destruct (search_one nn (tf_of T l) NC NE) as (j & g & d & S1 & G & D & LOW).
  set (q := to_v (tf_of T l)) in *. set (m := vnorm (vsub q (to_v g))).
  assert (M0 : (0 <= m)%R) by apply LpmProps.vnorm_nonneg.
  assert (LOWR : forall h, In h Gs -> (m <= vnorm (vsub q (to_v h)))%R).
  { intros h Hh. apply sq_le; [exact M0|apply LpmProps.vnorm_nonneg|]. unfold m. rewrite !LpmProps.vnorm_sq. unfold q. rewrite <- !Q2R_sqd. apply Qle_Rle. apply LOW. exact Hh. }
  destruct (cost_from_below tau Gs T l q m eps TR M0 E0 NEAR LOWR) as (A & A0 & EA & CASE). rewrite EA.
  assert (DM : Q2R d = (m * m)%R) by (unfold m; rewrite LpmProps.vnorm_sq; unfold q; rewrite <- Q2R_sqd; apply Qeq_eqR; exact D).
  unfold pair_of. rewrite S1. destruct (Qle_bool (qsq thr) d) eqn:EQ.
  - apply Qle_bool_iff in EQ. apply Qle_Rle in EQ. rewrite DM in EQ. unfold qsq in EQ. rewrite Q2R_mult in EQ. fold tau in EQ.
    assert (MT : (tau <= m)%R) by (apply sq_le; lra). cbn [map lsq]. destruct CASE as [C|[_ C]]; [|subst A; nra].
    assert (tau - eps <= A)%R by lra. nra.
  - assert (X : (m * m < tau * tau)%R).
    { rewrite <- DM. unfold tau. rewrite <- Q2R_mult. apply Qlt_Rlt. apply Qnot_le_lt. intro X. apply Qle_bool_iff in X. unfold qsq in EQ. congruence. }
    assert (MT : (m < tau)%R) by nra.
    destruct CASE as [C|[C _]]; [|lra]. cbn [map lsq vpair p_global p_local].
    assert (B : (vnorm (vsub (to_v g) (compose T (to_v l))) <= A + 2 * eps)%R).
    { assert (TRI := vnorm_sub_tri (to_v g) q (compose T (to_v l))). rewrite (vnorm_sub_comm (to_v g) q) in TRI. fold m in TRI. lra. }
    rewrite <- LpmProps.vnorm_sq. assert (B0 := LpmProps.vnorm_nonneg (vsub (to_v g) (compose T (to_v l)))).
    set (B' := vnorm (vsub (to_v g) (compose T (to_v l)))) in *.
    assert (B' * B' <= (A + 2 * eps) * (A + 2 * eps))%R by nra. nra.
Qed.

(** one point, with any other pose: the point costs at most its pair, or the squared threshold *)
Lemma point_after i l T' :
  (point_cost tau Gs T' l <= lsq (map vpair (pair_of thr nn (tf_of T) gname lname i l)) T' +
     (match pair_of thr nn (tf_of T) 0 0 0 l with [] => tau * tau | _ => 0 end))%R.
Proof.
  destruct (search_one nn (tf_of T l) NC NE) as (j & g & d & S1 & G & D & _).
  unfold pair_of. rewrite S1. destruct (Qle_bool (qsq thr) d).
  - cbn [map lsq]. assert (X := point_cost_cap tau Gs T' l). lra.
  - cbn [map lsq vpair p_global p_local]. assert (X := point_cost_le tau Gs T' l g (nth_error_In _ _ G)).
    rewrite <- LpmProps.vnorm_sq in X |- *. rewrite (vnorm_sub_comm (to_v g)). lra.
Qed.

Lemma step_bounds T' ls : accurate_on eps tf_of T ls -> forall i,
  (truncated_cost tau Gs ls T' <= lsq (map vpair (pairs_from thr nn (tf_of T) gname lname i ls)) T' + left_out thr nn (tf_of T) ls)%R /\
  (lsq (map vpair (pairs_from thr nn (tf_of T) gname lname i ls)) T + left_out thr nn (tf_of T) ls <= truncated_cost tau Gs ls T + slack eps tau (length ls))%R.
Proof.
  unfold slack. induction ls as [|l ls IH]; intros AC i.
  - cbn. lra.
  - destruct (IH (fun x Hx => AC x (or_intror Hx)) (S i)) as [I1 I2].
    assert (P1 := point_after i l T'). assert (P2 := point_before i l (AC l (or_introl eq_refl))).
    cbn [pairs_from left_out truncated_cost fold_right length]. rewrite map_app, !lsq_app, S_INR.
    fold (truncated_cost tau Gs ls T'). fold (truncated_cost tau Gs ls T). fold tau. split; lra.
Qed.

(** One iteration: a least-squares pose for the pairs found with [T] costs at most as much as [T]. *)
Lemma step_descends T' ls i : accurate_on eps tf_of T ls ->
  (lsq (map vpair (pairs_from thr nn (tf_of T) gname lname i ls)) T' <= lsq (map vpair (pairs_from thr nn (tf_of T) gname lname i ls)) T)%R ->
  (truncated_cost tau Gs ls T' <= truncated_cost tau Gs ls T + slack eps tau (length ls))%R.
Proof. intros AC H. destruct (step_bounds T' ls AC i) as [A B]. lra. Qed.
End Step.

(** ** The matcher's pairs *)
(** No two local points, both nearer than the threshold, are answered with the same global point. *)
Definition no_rivals (thr : Q) (nn : NNMap) (tf : P3 -> P3) (Ls : list P3) : Prop :=
  forall i j li lj k g d g' d', nth_error Ls i = Some li -> nth_error Ls j = Some lj ->
  nn_search nn (tf li) 1 = [(k, g, d)] -> nn_search nn (tf lj) 1 = [(k, g', d')] ->
  (d < qsq thr)%Q -> (d' < qsq thr)%Q -> i = j.

(** Global points may be shared, or nobody wants to share one. *)
Definition sharing_ok (b : BaseParams) (thr : Q) (nn : NNMap) (tf : P3 -> P3) (Ls : list P3) : Prop :=
  allowMatchAlreadyMatchedGlobalPoints b = true \/ no_rivals thr nn tf Ls.

Section Loop.
Variables (b : BaseParams) (tf : P3 -> P3) (thr : Q) (nn : NNMap) (Ls : list P3) (gname lname : nat).
Hypothesis NC : nn_correct nn.
Hypothesis NE : nn_points nn <> [].
Hypothesis AG : sharing_ok b thr nn tf Ls.
Variables mn mx : P3.
Let tl := mkTL mn mx None (map tf Ls).
(** the global points wanted by the local points from [i] on *)
Let wanted i k := exists j l g d, i <= j /\ nth_error Ls j = Some l /\ nn_search nn (tf l) 1 = [(k, g, d)] /\ (d < qsq thr)%Q.

Lemma mono_loop m : forall i ms out, i + m = length Ls ->
  unmarked (ms_local ms) lname (fun j => i <= j) (length Ls) ->
  unmarked (ms_global ms) gname (wanted i) (length (nn_points nn)) ->
  exists ms', dt_loop b thr 0 1 nn Ls tl gname lname (seq i m) (ms, out)
    = Ok (ms', with_pairs out (pairs_from thr nn tf gname lname i (skipn i Ls))).
Proof.
  induction m as [|m IH]; intros i ms out IM UL UG.
  - exists ms. cbn [seq dt_loop]. rewrite skipn_all2 by lia. cbn [pairs_from]. unfold with_pairs. rewrite app_nil_r. destruct out; reflexivity.
  - cbn [seq dt_loop]. unfold tl at 1. cbn [local_index tl_idxs rbind fst].
    assert (Li : i < length Ls) by lia.
    destruct (nth_error Ls i) as [l|] eqn:El; [|apply nth_error_None in El; lia].
    assert (Q1 : (if allowMatchAlreadyMatchedPoints b then Ok false else query (ms_local ms) lname i) = Ok false).
    { destruct (allowMatchAlreadyMatchedPoints b); [reflexivity|]. apply (unmarked_query _ _ _ _ _ UL Li (Nat.le_refl i)). }
    rewrite Q1. cbn [rbind]. unfold tl at 1. cbn [tl_pts]. rewrite nth_error_map, El. cbn [option_map].
    destruct (search_one nn (tf l) NC NE) as (j & g & d & S1 & G & D & _).
    assert (SK : skipn i Ls = l :: skipn (S i) Ls).
    { clear - El. revert i El. induction Ls as [|y r IHl]; intros [|i] El; cbn in El; try discriminate.
      - injection El as ->. reflexivity.
      - cbn [skipn]. apply IHl. exact El. }
    rewrite SK. cbn [pairs_from]. unfold pair_of at 1. rewrite S1. cbn [dt_neighbours].
    assert (TQ : Qle_bool (qsq thr + 0 * normSqr (tf l)) d = Qle_bool (qsq thr) d).
    { assert (X : (qsq thr + 0 * normSqr (tf l) == qsq thr)%Q) by ring.
      destruct (Qle_bool (qsq thr) d) eqn:EQ.
      - apply Qle_bool_iff in EQ. apply Qle_bool_iff. rewrite X. exact EQ.
      - destruct (Qle_bool (qsq thr + 0 * normSqr (tf l)) d) eqn:EQ2; [|reflexivity]. apply Qle_bool_iff in EQ2. rewrite X in EQ2. apply Qle_bool_iff in EQ2. congruence. }
    rewrite TQ.
    assert (UL' : unmarked (ms_local ms) lname (fun j => S i <= j) (length Ls)) by (eapply unmarked_weaken; [|exact UL]; cbn; intros; lia).
    assert (UG' : unmarked (ms_global ms) gname (wanted (S i)) (length (nn_points nn))).
    { eapply unmarked_weaken; [|exact UG]. intros k (j' & l' & g' & d' & A & B). exists j', l', g', d'. split; [lia|exact B]. }
    destruct (Qle_bool (qsq thr) d) eqn:EQ.
    + cbn [rbind app]. apply IH; [lia|exact UL'|exact UG'].
    + assert (DL : (d < qsq thr)%Q).
      { apply Qnot_le_lt. intro X. apply Qle_bool_iff in X. congruence. }
      assert (LJ : j < length (nn_points nn)) by (apply nth_error_Some; congruence).
      unfold dt_add_pair. rewrite El.
      assert (Q2 : (if allowMatchAlreadyMatchedGlobalPoints b then Ok false else query (ms_global ms) gname j) = Ok false).
      { destruct (allowMatchAlreadyMatchedGlobalPoints b); [reflexivity|]. apply (unmarked_query _ _ _ _ _ UG LJ).
        exists i, l, g, d. split; [lia|]. split; [exact El|]. split; [exact S1|exact DL]. }
      rewrite Q2. cbn [rbind].
      set (x := mkPair j i g l d gname lname).
      assert (AP : forall ps, with_pairs (add_pt2pt out x) ps = with_pairs out ([x] ++ ps)).
      { intro ps. unfold with_pairs, add_pt2pt. cbn. rewrite <- app_assoc. reflexivity. }
      destruct (allowMatchAlreadyMatchedGlobalPoints b) eqn:EA.
      * cbn [rbind dt_neighbours]. destruct (IH (S i) ms (add_pt2pt out x)) as [ms' E]; [lia|exact UL'|exact UG'|].
        exists ms'. rewrite E, AP. reflexivity.
      * assert (NR : no_rivals thr nn tf Ls) by (destruct AG as [X|X]; [congruence|exact X]).
        unfold mark_both.
        destruct (unmarked_mark _ _ _ _ i UL' Li) as [lb [EL' UL2]].
        destruct (unmarked_mark _ _ _ _ j UG' LJ) as [gb [EG' UG2]].
        rewrite EL'. cbn [rbind]. rewrite EG'. cbn [rbind dt_neighbours].
        destruct (IH (S i) (mkMS (lb_set (ms_local ms) lname lb) (lb_set (ms_global ms) gname gb)) (add_pt2pt out x)) as [ms' E].
        -- lia.
        -- cbn [ms_local]. eapply unmarked_weaken; [|exact UL2]. cbn. intros k Hk. split; lia.
        -- cbn [ms_global]. eapply unmarked_weaken; [|exact UG2]. intros k W. split; [exact W|]. intros ->.
           destruct W as (j' & l' & g' & d' & A & B & C & F). assert (X := NR i j' l l' j g d g' d' El B S1 C DL F). lia.
        -- exists ms'. rewrite E, AP. reflexivity.
Qed.
End Loop.

Section Matching.
Variables (fMax : Q) (shuffle : list nat -> list nat) (mround : Q -> Z) (tf_of : Pose -> P3 -> P3).
Variables (name : nat) (gpts : option (list P3)) (nnG nnL : NNMap) (Ls : list P3).
Variables (b : BaseParams) (thr : Q) (T : Pose).
Hypothesis NC : nn_correct nnG.
Hypothesis LL : length (nn_points nnL) = length Ls.
Hypothesis TP : (0 < thr)%Q.
Hypothesis AG : sharing_ok b thr nnG (tf_of T) Ls.
Hypothesis TBL : weight_pt2pt_layers b = [].
Hypothesis LIM : maxLocalPointsPerLayer b = 0 \/ length Ls <= maxLocalPointsPerLayer b.

(** Either nothing is found, or every local point was looked up. *)
Lemma mono_match it env :
  exists ms' found, run_matchers [pose_matcher fMax shuffle mround (gmap name gpts nnG) (lmap name nnL Ls) tf_of (DT b thr 0 1) 0 0] it T
      (new_match_state (gmap name gpts nnG) (lmap name nnL Ls) env) = Ok (ms', found) /\
    (pairings_empty found = true \/
     nn_points nnG <> [] /\ found = mkPairings (pairs_from thr nnG (tf_of T) name name 0 Ls) [] [] [] [] [] (length Ls)).
Proof.
  destruct (fresh_state name gpts nnG nnL Ls) as (ms & EF & ML & MG). unfold new_match_state. rewrite EF.
  unfold run_matchers, run_matchers_loop, matcher_match, matcher_gate, pose_matcher, pm_matcher.
  cbn [m_enabled m_runFromIteration m_runUpToIteration m_impl_match negb].
  replace (Nat.ltb it 0) with false by (symmetry; apply Nat.ltb_ge; lia). cbn [Nat.ltb Nat.leb andb].
  unfold base_impl_match. cbn [pm_base pm_one_layer]. unfold gmap at 1. cbn [match_globals].
  unfold local_layers. rewrite TBL. cbn [match_locals]. unfold lmap at 1. cbn [find_layer]. rewrite Nat.eqb_refl. cbn [ly_points].
  unfold dt_one_layer.
  assert (C1 : (1 <? 1)%nat || Qle_bool thr 0 || Qltb 0 0 = false).
  { cbn [Nat.ltb Nat.leb orb]. apply Bool.orb_false_iff. split; [|reflexivity].
    destruct (Qle_bool thr 0) eqn:E; [|reflexivity]. apply Qle_bool_iff in E. exfalso. apply (Qlt_not_le _ _ TP E). }
  rewrite C1. cbn [ly_nn].
  destruct (isNil (nn_points nnG) || isNil Ls) eqn:EN.
  { cbn [rbind match_globals match_locals]. do 2 eexists. split; [reflexivity|]. left. reflexivity. }
  apply Bool.orb_false_iff in EN. destruct EN as [NG NL].
  assert (TL : exists mn mx, transform_local_to_global fMax shuffle (tf_of T) Ls (maxLocalPointsPerLayer b)
     = Ok (mkTL mn mx None (map (tf_of T) Ls))).
  { unfold transform_local_to_global. replace (Nat.eqb (maxLocalPointsPerLayer b) 0 || Nat.leb (length Ls) (maxLocalPointsPerLayer b)) with true; [eauto|].
    symmetry. destruct LIM as [->|X]; [reflexivity|]. apply Nat.leb_le in X. rewrite X. apply Bool.orb_true_r. }
  destruct TL as (mn & mx & TL). rewrite TL. cbn [rbind tl_min tl_max].
  destruct (bb_intersects (nn_bbox nnG) (mn, mx) (thr + bbox_epsilon b)); cbn [negb].
  2:{ cbn [rbind match_globals match_locals]. do 2 eexists. split; [reflexivity|]. left. reflexivity. }
  assert (NE : nn_points nnG <> []) by (destruct (nn_points nnG); [discriminate NG|discriminate]).
  destruct (mono_loop b (tf_of T) thr nnG Ls name name NC NE AG mn mx (length Ls) 0 ms (add_potential pairings_empty_ctor (length Ls * 1))) as [ms' EL].
  - reflexivity.
  - rewrite ML. apply fresh_unmarked. rewrite LL. apply Nat.le_refl.
  - rewrite MG. apply fresh_unmarked. apply Nat.le_refl.
  - rewrite EL. cbn [rbind match_globals match_locals skipn]. do 2 eexists. split; [reflexivity|]. right. split; [exact NE|].
    unfold push_back_copy, with_pairs, add_potential, pairings_empty_ctor.
    cbn [paired_pt2pt paired_pt2ln paired_pt2pl paired_ln2ln paired_pl2pl point_weights potential_pairings app Nat.add].
    rewrite Nat.mul_1_r. reflexivity.
Qed.
End Matching.

(** ** The whole run *)
Section Run.
Variables (fMax : Q) (shuffle : list nat -> list nat) (mround : Q -> Z) (tf_of : Pose -> P3 -> P3)
  (algo : VPairs -> res (bool * HResult))
  (name : nat) (gpts : option (list P3)) (nnG nnL : NNMap) (Ls : list P3)
  (pose_minus : Pose -> Pose -> Pose) (log_norms : Pose -> Q * Q) (tnorm : Pose -> Q) (realize : nat -> MatchState -> res MatchState)
  (b : BaseParams) (thr : Q) (eps : R) (p : IcpParams) (hasLog : bool) (guess : Pose)
  (evals : list (@Evaluator MatchState Pose ptpairings)) (hook : option (@hook_t Pair Datatypes.unit Datatypes.unit Datatypes.unit Datatypes.unit Q MatchState Pose)).
Hypothesis NC : nn_correct nnG.
Hypothesis LL : length (nn_points nnL) = length Ls.
Hypothesis TP : (0 < thr)%Q.
Hypothesis E0 : (0 <= eps)%R.
Hypothesis TBL : weight_pt2pt_layers b = [].
Hypothesis LIM : maxLocalPointsPerLayer b = 0 \/ length Ls <= maxLocalPointsPerLayer b.
Let G := gmap name gpts nnG.
Let L := lmap name nnL Ls.
Let comps := mkComponents [pose_matcher fMax shuffle mround G L tf_of (DT b thr 0 1) 0 0] [closed_solver 0 algo] evals hook.
Let cost := truncated_cost (Q2R thr) (nn_points nnG) Ls.
Let delta := slack eps (Q2R thr) (length Ls).
Notation event := (@Event Pair Datatypes.unit Datatypes.unit Datatypes.unit Datatypes.unit Q Pose).

(** what the libraries do in this run *)
Definition good_event (e : event) : Prop :=
  match e with
  | EvMatch _ T found => accurate_on eps tf_of T Ls /\ sharing_ok b thr nnG (tf_of T) Ls /\ (pairings_empty found = false ->
      paired_pt2ln found = [] -> paired_pt2pl found = [] -> point_weights found = [] -> least_squares_on algo (to_vpairs found))
  | _ => True
  end.

(** each pose costs at most [delta] more than the one before *)
Fixpoint descending (T : Pose) (l : list Pose) : Prop :=
  match l with [] => True | T' :: r => (cost T' <= cost T + delta)%R /\ descending T' r end.

Lemma descending_app T l m : descending T l -> descending (last l T) m -> descending T (l ++ m).
Proof.
  revert T. induction l as [|x l IH]; intros T A B; cbn [app]; [exact B|]. destruct A as [A1 A2]. split; [exact A1|].
  apply IH; [exact A2|]. destruct l as [|y l]; [exact B|]. clear - B.
  assert (X : forall (l : list Pose) y T T', last (y :: l) T = last (y :: l) T').
  { clear. induction l as [|z l IH]; intros y T T'; [reflexivity|]. change (last (z :: l) T = last (z :: l) T'). apply IH. }
  change (descending (last (y :: l) T) m) in B. rewrite (X l y x T). exact B.
Qed.

Lemma tail_keeps it st st' o : iter_tail realize comps p it st = Ok (st', o) ->
  l_sol st' = l_sol st /\ exists tr, l_trace st' = l_trace st ++ tr /\ solved_poses tr = [].
Proof.
  unfold iter_tail. intro H.
  assert (HK : forall s, (match c_hook comps with
      | None => Ok (mkLoop (l_env s) (l_sol s) (l_pairings s) (optimalPose (l_sol st)) (Some (l_prev s)) (l_lastCorrection s) (l_latched s) (l_details s) (l_trace s), None)
      | Some h => let* r := h it (l_pairings s) (l_sol s) (l_env s) in let '(env', stop) := r in
          let s' := mkLoop env' (l_sol s) (l_pairings s) (l_prev s) (l_prev2 s) (l_lastCorrection s) (l_latched s) (l_details s)
               (l_trace s ++ [EvHook it (optimalPose (l_sol s)) (l_pairings s) stop]) in
          if stop then Ok (s', Some HookRequest) else Ok (mkLoop (l_env s') (l_sol s') (l_pairings s') (optimalPose (l_sol st)) (Some (l_prev s')) (l_lastCorrection s') (l_latched s') (l_details s') (l_trace s'), None)
      end) = Ok (st', o) -> l_sol st' = l_sol s /\ exists tr, l_trace st' = l_trace s ++ tr /\ solved_poses tr = []).
  { intros s X. destruct (c_hook comps) as [h|].
    - destruct (h it (l_pairings s) (l_sol s) (l_env s)) as [[env' stop]| | ]; cbn [rbind] in X; try discriminate.
      destruct stop; injection X as <- _; cbn; (split; [reflexivity|eexists; split; reflexivity]).
    - injection X as <- _. cbn. split; [reflexivity|]. exists []. rewrite app_nil_r. split; reflexivity. }
  destruct (find_checkpoint (quality_checkpoints p) it) as [mq|].
  - destruct (realize it (l_env st)) as [env1| | ]; cbn [rbind] in H; try discriminate.
    destruct (evaluate_quality (c_evaluators comps) (optimalPose (l_sol st)) (l_pairings st) env1) as [[env2 q]| | ]; cbn [rbind] in H; try discriminate.
    destruct (Qltb q mq).
    + injection H as <- _. cbn. split; [reflexivity|]. eexists. split; reflexivity.
    + apply HK in H. cbn in H. destruct H as (A & tr & B & C). split; [exact A|]. rewrite B, <- app_assoc. eexists. split; [reflexivity|]. cbn. exact C.
  - apply HK in H. exact H.
Qed.

Lemma body_descends it st st' o :
  iter_body pose_minus log_norms tnorm realize (new_match_state G L) comps p hasLog guess it st = Ok (st', o) ->
  is_rotation (optimalPose (l_sol st)) ->
  exists tr, l_trace st' = l_trace st ++ tr /\
    (Forall good_event tr -> is_rotation (optimalPose (l_sol st')) /\ length (solved_poses tr) <= 1 /\
       optimalPose (l_sol st') = last (solved_poses tr) (optimalPose (l_sol st)) /\ descending (optimalPose (l_sol st)) (solved_poses tr)).
Proof.
  intros H RT. unfold iter_body in H.
  destruct (realize it (l_env st)) as [env1| | ]; cbn [rbind] in H; try discriminate.
  set (T := optimalPose (l_sol st)) in *.
  change (c_matchers comps) with [pose_matcher fMax shuffle mround G L tf_of (DT b thr 0 1) 0 0] in H.
  destruct (run_matchers [pose_matcher fMax shuffle mround G L tf_of (DT b thr 0 1) 0 0] it T (new_match_state G L env1)) as [[ms' found]| | ] eqn:EM; cbn [rbind] in H; try discriminate.
  destruct (pairings_empty found) eqn:PE.
  - injection H as <- _. cbn. exists [EvMatch it T found]. split; [reflexivity|]. intros _. cbn. split; [exact RT|]. split; [lia|]. split; [reflexivity|exact I].
  - change (c_solvers comps) with [closed_solver 0 algo] in H.
    unfold run_solvers, solver_optimal_pose, solver_iter_gate, solver_latch_gate, closed_solver in H.
    cbn [s_enabled negb sc_icpIteration s_runFromIteration s_runUpToIteration s_runUntilTranslationCorrectionSmallerThan s_impl] in H.
    replace (Nat.ltb it 0) with false in H by (symmetry; apply Nat.ltb_ge; lia).
    change (Nat.ltb 0 0) with false in H. change (Qltb 0 0) with false in H. cbn [andb] in H.
    destruct (algo (to_vpairs found)) as [[ok s]| | ] eqn:EA; cbn [rbind fst snd] in H; try discriminate.
    (* the events of this iteration *)
    assert (EV : exists ok', exists sol', optimalPose sol' = hr_pose s /\ exists tr,
        l_sol st' = sol' /\ l_trace st' = l_trace st ++ (EvMatch it T found :: EvSolve it found ok' sol' :: tr) /\ solved_poses tr = []).
    { destruct ok.
      - cbn [rbind negb optimalPose] in H. destruct (want_details p it _ && negb hasLog); [discriminate|].
        destruct (is_stalled p _).
        + injection H as <- _. cbn. exists true, (mkSol (hr_pose s) 1%Q). split; [reflexivity|]. exists []. split; [reflexivity|]. rewrite <- app_assoc. split; reflexivity.
        + apply tail_keeps in H. cbn in H. destruct H as (A & tr & B & C). exists true, (mkSol (hr_pose s) 1%Q). split; [reflexivity|]. exists tr. split; [exact A|].
          rewrite B, <- !app_assoc. split; [reflexivity|exact C].
      - cbn [rbind negb] in H. injection H as <- _. cbn. exists false, (mkSol (hr_pose s) 1%Q). split; [reflexivity|]. exists []. split; [reflexivity|]. rewrite <- app_assoc. split; reflexivity. }
    destruct EV as (ok' & sol' & EP & tr & ES & ET & SP). rewrite ET. eexists. split; [reflexivity|]. intro GE.
    inversion GE as [|? ? GM _]; subst. destruct GM as (AC & SO & LS).
    destruct (mono_match fMax shuffle mround tf_of name gpts nnG nnL Ls b thr T NC LL TP SO TBL LIM it env1) as (ms2 & found2 & EM2 & CASE).
    fold G L in EM2. rewrite EM in EM2. injection EM2 as <- <-.
    destruct CASE as [X|[NE ->]]; [congruence|]. destruct (LS PE eq_refl eq_refl eq_refl) as (s0 & E1 & RS & OPT). rewrite EA in E1. injection E1 as -> ->.
    assert (SPe : solved_poses (EvMatch it T (mkPairings (pairs_from thr nnG (tf_of T) name name 0 Ls) [] [] [] [] [] (length Ls)) ::
        EvSolve it (mkPairings (pairs_from thr nnG (tf_of T) name name 0 Ls) [] [] [] [] [] (length Ls)) ok' (l_sol st') :: tr) = [hr_pose s0]).
    { cbn. fold (solved_poses tr). change (optimalPose (l_sol st') :: solved_poses tr = [hr_pose s0]). rewrite SP, EP. reflexivity. }
    rewrite SPe. cbn [last length descending]. rewrite EP. split; [exact RS|]. split; [lia|]. split; [reflexivity|]. split; [|exact I].
    unfold cost, delta. apply (step_descends thr nnG tf_of T eps name name NC NE TP E0 (hr_pose s0) Ls 0 AC).
    assert (VP : vp_pts (to_vpairs (mkPairings (pairs_from thr nnG (tf_of T) name name 0 Ls) [] [] [] [] [] (length Ls))) = map vpair (pairs_from thr nnG (tf_of T) name name 0 Ls)) by reflexivity.
    rewrite VP in OPT. apply OPT. exact RT.
Qed.

(** the events only grow *)
Lemma body_trace it st st' o :
  iter_body pose_minus log_norms tnorm realize (new_match_state G L) comps p hasLog guess it st = Ok (st', o) ->
  exists tr, l_trace st' = l_trace st ++ tr.
Proof.
  unfold iter_body. intro H.
  destruct (realize it (l_env st)) as [env1| | ]; cbn [rbind] in H; try discriminate.
  destruct (run_matchers _ _ _ _) as [[env2 found]| | ]; cbn [rbind] in H; try discriminate.
  destruct (pairings_empty found); [injection H as <- _; cbn; eexists; reflexivity|].
  destruct (run_solvers _ _ _ _ _ _ _) as [[[[env3 lt] ok] sol']| | ]; cbn [rbind] in H; try discriminate.
  destruct ok; cbn [negb] in H; [|injection H as <- _; cbn; rewrite <- app_assoc; eexists; reflexivity].
  destruct (want_details _ _ _ && _); [discriminate|]. destruct (is_stalled _ _).
  - injection H as <- _. cbn. rewrite <- app_assoc. eexists. reflexivity.
  - apply tail_keeps in H. destruct H as (_ & tr & E & _). cbn in E. rewrite E, <- !app_assoc. eexists. reflexivity.
Qed.

Lemma solved_app (a c : list event) : solved_poses (a ++ c) = solved_poses a ++ solved_poses c.
Proof. apply flat_map_app. Qed.

Lemma last_app (l m : list Pose) T : last (l ++ m) T = last m (last l T).
Proof.
  revert T. induction m as [|x m IH] using rev_ind; intro T; [rewrite app_nil_r; reflexivity|].
  rewrite app_assoc, !last_last. reflexivity.
Qed.

Lemma loop_descends fuel : forall it st st' n o,
  icp_loop pose_minus log_norms tnorm realize (new_match_state G L) comps p hasLog guess fuel it st = Ok (st', n, o) ->
  is_rotation (optimalPose (l_sol st)) ->
  exists tr, l_trace st' = l_trace st ++ tr /\
    (Forall good_event tr -> length (solved_poses tr) <= fuel /\ length (solved_poses tr) <= S n - it /\
       optimalPose (l_sol st') = last (solved_poses tr) (optimalPose (l_sol st)) /\ descending (optimalPose (l_sol st)) (solved_poses tr)).
Proof.
  induction fuel as [|fuel IH]; intros it st st' n o H RT; cbn [icp_loop] in H.
  - injection H as <- _ _. exists []. rewrite app_nil_r. split; [reflexivity|]. intros _. cbn. split; [lia|]. split; [lia|]. split; [reflexivity|exact I].
  - destruct (iter_body pose_minus log_norms tnorm realize (new_match_state G L) comps p hasLog guess it st) as [[s1 [reason|]]| | ] eqn:EB; cbn [rbind] in H; try discriminate.
    + injection H as <- <- _. destruct (body_descends it st s1 _ EB RT) as (tr & ET & K). exists tr. split; [exact ET|]. intro GE.
      destruct (K GE) as (_ & A & B & D). split; [lia|]. split; [lia|]. split; [exact B|exact D].
    + destruct (body_descends it st s1 _ EB RT) as (tr & ET & K).
      assert (NIT : S it <= n).
      { clear - H. revert H. generalize (S it). clear. intros m H. revert m s1 H. induction fuel as [|fuel IH]; intros m s1 H; cbn [icp_loop] in H.
        - injection H as _ <- _. lia.
        - destruct (iter_body pose_minus log_norms tnorm realize (new_match_state G L) comps p hasLog guess m s1) as [[s2 [r|]]| | ]; cbn [rbind] in H; try discriminate.
          + injection H as _ <- _. lia.
          + apply IH in H. lia. }
      assert (PRE : exists tr2, l_trace st' = l_trace s1 ++ tr2).
      { clear - H. revert H. generalize (S it). intros m H. revert m s1 H. induction fuel as [|fuel IH]; intros m s1 H; cbn [icp_loop] in H.
        - injection H as <- _ _. exists []. rewrite app_nil_r. reflexivity.
        - destruct (iter_body pose_minus log_norms tnorm realize (new_match_state G L) comps p hasLog guess m s1) as [[s2 o2]| | ] eqn:EB; cbn [rbind] in H; try discriminate.
          destruct (body_trace m s1 s2 o2 EB) as [t2 E2]. destruct o2 as [r|].
          + injection H as <- _ _. exists t2. exact E2.
          + apply IH in H. destruct H as [t3 E3]. exists (t2 ++ t3). rewrite E3, E2, app_assoc. reflexivity. }
      destruct PRE as [tr2 E2]. exists (tr ++ tr2). split; [rewrite E2, ET, app_assoc; reflexivity|]. intro GE2.
      apply Forall_app in GE2. destruct GE2 as [GE GE2]. destruct (K GE) as (R1 & A & B & D).
      destruct (IH (S it) s1 st' n o H R1) as (tr3 & ET3 & K2). rewrite E2 in ET3. apply app_inv_head in ET3. subst tr3.
      destruct (K2 GE2) as (A2 & A3 & B2 & D2). rewrite solved_app, app_length, last_app, <- B. split; [lia|]. split; [lia|]. split; [exact B2|].
      apply descending_app; [exact D|]. rewrite <- B. exact D2.
Qed.

Lemma descending_nth T l : descending T l -> forall k x y, nth_error (T :: l) k = Some x -> nth_error (T :: l) (S k) = Some y -> (cost y <= cost x + delta)%R.
Proof.
  revert T. induction l as [|z l IH]; intros T D [|k] x y X Y; cbn in X, Y; try discriminate.
  - injection X as ->. injection Y as ->. apply D.
  - destruct D as [_ D]. apply (IH z D k x y); [exact X|exact Y].
Qed.
Lemma descending_last T l : descending T l -> (cost (last l T) <= cost T + INR (length l) * delta)%R.
Proof.
  revert T. induction l as [|z l IH]; intros T D; [cbn; lra|]. destruct D as [D1 D2]. specialize (IH z D2).
  assert (X : last (z :: l) T = last l z) by (change (z :: l) with ([z] ++ l); rewrite last_app; reflexivity).
  rewrite X. cbn [length]. rewrite S_INR. lra.
Qed.
End Run.

(** What Horn's solver needs to be a least-squares solver on these pairs: at least three pairs, none
    within 0.1 mm of the centroids, and correct eigenvectors. *)
Definition horn_ready (eig : Sym4 -> Eig) (wp : VWeights) (p : VPairs) : Prop :=
  3 <= length (vp_pts p) /\ off_centroid (vp_pts p) /\ spectral (horn_matrix p wp) (eig (horn_matrix p wp)).

(** The solver parameters: no scale detector, no robust kernel. *)
Definition plain_weights (wp : VWeights) : Prop :=
  wp_kernel wp = None /\ wp_use_scale wp = false /\ (0 < wp_pt2pt wp)%R /\ (0 <= wp_ln2ln wp)%R /\ (0 <= wp_pl2pl wp)%R.

(** C334: with the nearest-neighbour matcher, one pair per point and global points that may be
    paired several times (or for which no two local points compete), followed by Horn's solver, no iteration makes the truncated cost worse,
    up to the rounding of the transformed points; so the result is at least as good as the guess.
    The quality evaluators, the hook and the parameter formulas are arbitrary. *)
Theorem C334_run_descends :
  forall fMax shuffle mround tf_of eig convert name gpts nnG nnL Ls pose_minus log_norms tnorm realize b thr eps wp evals hook p ge le wantDebug guess env env' r,
  (* the libraries: nearest neighbours *)
  nn_correct nnG -> length (nn_points nnL) = length Ls ->
  (* parameters *)
  (0 < thr)%Q -> weight_pt2pt_layers b = [] ->
  maxLocalPointsPerLayer b = 0 \/ length Ls <= maxLocalPointsPerLayer b -> plain_weights wp ->
  is_rotation guess -> (0 <= eps)%R ->
  align pose_minus log_norms tnorm realize (new_match_state (gmap name gpts nnG) (lmap name nnL Ls))
    (mkComponents [pose_matcher fMax shuffle mround (gmap name gpts nnG) (lmap name nnL Ls) tf_of (DT b thr 0 1) 0 0]
                  [closed_solver 0 (horn_algo eig convert wp)] evals hook)
    p ge le wantDebug guess env = Ok (env', r) ->
  (* in this run: accurate transformed points, sharing as above, and solvable pairs *)
  (forall it T found, In (EvMatch it T found) (r_loopTrace r) ->
     accurate_on eps tf_of T Ls /\ sharing_ok b thr nnG (tf_of T) Ls /\
     (pairings_empty found = false -> horn_ready eig wp (to_vpairs found))) ->
  let cost := truncated_cost (Q2R thr) (nn_points nnG) Ls in
  let poses := guess :: solved_poses (r_loopTrace r) in
  let delta := slack eps (Q2R thr) (length Ls) in
  (forall k x y, nth_error poses k = Some x -> nth_error poses (S k) = Some y -> (cost y <= cost x + delta)%R) /\
  r_optimal_tf r = last poses guess /\
  length poses <= S (maxIterations p) /\
  (cost (r_optimal_tf r) <= cost guess + INR (maxIterations p) * delta)%R.
Proof.
  intros * NC LL TP TBL LIM (W1 & W2 & W3 & W4 & W5) RT E0 AL EV cost poses delta.
  unfold align in AL. destruct (_ || le); [discriminate|].
  destruct (icp_loop _ _ _ _ _ _ _ _ _ _ _ _) as [[[st n] reason]| | ] eqn:EL; cbn [rbind] in AL; try discriminate.
  destruct (realize n (l_env st)) as [env1| | ]; cbn [rbind] in AL; try discriminate.
  destruct (evaluate_quality _ _ _ env1) as [[env2 q]| | ]; cbn [rbind] in AL; try discriminate.
  injection AL as <- <-. cbn [r_loopTrace r_optimal_tf] in *.
  apply (loop_descends fMax shuffle mround tf_of (horn_algo eig convert wp) name gpts nnG nnL Ls pose_minus log_norms tnorm realize b thr eps p _ guess evals hook NC LL TP E0 TBL LIM) in EL; [|exact RT].
  cbn [l_trace l_sol optimalPose app] in EL. destruct EL as (tr & ET & K).
  assert (GE : Forall (good_event tf_of (horn_algo eig convert wp) nnG Ls b thr eps) tr).
  { apply Forall_forall. intros [it T found|? ? ? ?|? ? ? ?|? ? ? ?] I; cbn [good_event]; try exact Logic.I.
    rewrite ET in EV. destruct (EV it T found I) as (A & SO & B). split; [exact A|]. split; [exact SO|]. intros NEm H1 H2 H3. destruct (B NEm) as (N3 & OFF & SP).
    unfold least_squares_on, horn_algo, solver_horn.
    assert (V1 : vp_nPt2Ln (to_vpairs found) = 0) by (unfold to_vpairs; cbn [vp_nPt2Ln]; rewrite H1; reflexivity). assert (V2 : vp_nPt2Pl (to_vpairs found) = 0) by (unfold to_vpairs; cbn [vp_nPt2Pl]; rewrite H2; reflexivity).
    rewrite V1, V2. cbn [Nat.eqb andb]. apply C85_horn_is_least_squares; try assumption; try reflexivity.
    unfold to_vpairs. cbn [vp_weights]. rewrite H3. reflexivity. }
  destruct (K GE) as (A & _ & B & D). unfold poses. rewrite ET. split; [|split; [|split]].
  - intros k x y X Y. exact (descending_nth nnG Ls thr eps guess _ D k x y X Y).
  - change (guess :: solved_poses tr) with ([guess] ++ solved_poses tr). rewrite last_app. exact B.
  - cbn [length]. lia.
  - rewrite B. assert (X := descending_last nnG Ls thr eps guess _ D). fold cost delta in X.
    assert (DP : (0 <= delta)%R).
    { unfold delta, slack. assert (I0 := pos_INR (length Ls)). assert (TR : (0 < Q2R thr)%R) by (rewrite <- RMicromega.Q2R_0; apply Qlt_Rlt; exact TP).
      apply Rmult_le_pos; [exact I0|]. nra. }
    apply le_INR in A. unfold cost, delta in *. nra.
Qed.

(** With global points that may be shared. *)
Theorem C334_icp_never_gets_worse :
  forall fMax shuffle mround tf_of eig convert name gpts nnG nnL Ls pose_minus log_norms tnorm realize b thr eps wp evals hook p ge le wantDebug guess env env' r,
  nn_correct nnG -> length (nn_points nnL) = length Ls ->
  (0 < thr)%Q -> weight_pt2pt_layers b = [] ->
  allowMatchAlreadyMatchedGlobalPoints b = true ->
  maxLocalPointsPerLayer b = 0 \/ length Ls <= maxLocalPointsPerLayer b -> plain_weights wp ->
  is_rotation guess -> (0 <= eps)%R ->
  align pose_minus log_norms tnorm realize (new_match_state (gmap name gpts nnG) (lmap name nnL Ls))
    (mkComponents [pose_matcher fMax shuffle mround (gmap name gpts nnG) (lmap name nnL Ls) tf_of (DT b thr 0 1) 0 0]
                  [closed_solver 0 (horn_algo eig convert wp)] evals hook)
    p ge le wantDebug guess env = Ok (env', r) ->
  (forall it T found, In (EvMatch it T found) (r_loopTrace r) ->
     accurate_on eps tf_of T Ls /\ (pairings_empty found = false -> horn_ready eig wp (to_vpairs found))) ->
  let cost := truncated_cost (Q2R thr) (nn_points nnG) Ls in
  let poses := guess :: solved_poses (r_loopTrace r) in
  let delta := slack eps (Q2R thr) (length Ls) in
  (forall k x y, nth_error poses k = Some x -> nth_error poses (S k) = Some y -> (cost y <= cost x + delta)%R) /\
  r_optimal_tf r = last poses guess /\
  length poses <= S (maxIterations p) /\
  (cost (r_optimal_tf r) <= cost guess + INR (maxIterations p) * delta)%R.
Proof.
  intros * NC LL TP TBL AG LIM PW RT E0 AL EV.
  apply (C334_run_descends fMax shuffle mround tf_of eig convert name gpts nnG nnL Ls pose_minus log_norms tnorm realize b thr eps wp evals hook p ge le wantDebug guess env env' r); try assumption.
  intros it T found I. destruct (EV it T found I) as [A B]. split; [exact A|]. split; [left; exact AG|exact B].
Qed.

(** With exact transformed points: the result is not worse than the guess. *)
Theorem C334_exact :
  forall fMax shuffle mround tf_of eig convert name gpts nnG nnL Ls pose_minus log_norms tnorm realize b thr wp evals hook p ge le wantDebug guess env env' r,
  nn_correct nnG -> length (nn_points nnL) = length Ls ->
  (0 < thr)%Q -> weight_pt2pt_layers b = [] ->
  allowMatchAlreadyMatchedGlobalPoints b = true ->
  maxLocalPointsPerLayer b = 0 \/ length Ls <= maxLocalPointsPerLayer b -> plain_weights wp ->
  is_rotation guess ->
  align pose_minus log_norms tnorm realize (new_match_state (gmap name gpts nnG) (lmap name nnL Ls))
    (mkComponents [pose_matcher fMax shuffle mround (gmap name gpts nnG) (lmap name nnL Ls) tf_of (DT b thr 0 1) 0 0]
                  [closed_solver 0 (horn_algo eig convert wp)] evals hook)
    p ge le wantDebug guess env = Ok (env', r) ->
  (forall it T found, In (EvMatch it T found) (r_loopTrace r) ->
     exact_on tf_of T Ls /\ (pairings_empty found = false -> horn_ready eig wp (to_vpairs found))) ->
  (truncated_cost (Q2R thr) (nn_points nnG) Ls (r_optimal_tf r) <= truncated_cost (Q2R thr) (nn_points nnG) Ls guess)%R.
Proof.
  intros * NC LL TP TBL AG LIM PW RT AL EV.
  destruct (C334_icp_never_gets_worse fMax shuffle mround tf_of eig convert name gpts nnG nnL Ls pose_minus log_norms tnorm realize b thr 0 wp evals hook p ge le wantDebug guess env env' r)
    as (_ & _ & _ & X); try assumption; [lra| |].
  - intros it T found I. destruct (EV it T found I) as [A B]. split; [|exact B]. intros l Hl. rewrite (A l Hl).
    assert (Z : vsub (compose T (to_v l)) (compose T (to_v l)) = mkV 0 0 0) by (unfold vsub; f_equal; ring). rewrite Z.
    unfold vnorm, vnorm2, vdot. cbn [vx vy vz]. replace (0 * 0 + 0 * 0 + 0 * 0)%R with 0%R by ring. rewrite sqrt_0. lra.
  - unfold slack in X. replace (4 * 0 * (Q2R thr + 0))%R with 0%R in X by ring. lra.
Qed.

(** C335: with the default options (a global point is paired once), where no two local points
    compete for a global point in the run. *)
Theorem C335_default_options_where :
  forall fMax shuffle mround tf_of eig convert name gpts nnG nnL Ls pose_minus log_norms tnorm realize b thr eps wp evals hook p ge le wantDebug guess env env' r,
  nn_correct nnG -> length (nn_points nnL) = length Ls ->
  (0 < thr)%Q -> weight_pt2pt_layers b = [] ->
  maxLocalPointsPerLayer b = 0 \/ length Ls <= maxLocalPointsPerLayer b -> plain_weights wp ->
  is_rotation guess -> (0 <= eps)%R ->
  align pose_minus log_norms tnorm realize (new_match_state (gmap name gpts nnG) (lmap name nnL Ls))
    (mkComponents [pose_matcher fMax shuffle mround (gmap name gpts nnG) (lmap name nnL Ls) tf_of (DT b thr 0 1) 0 0]
                  [closed_solver 0 (horn_algo eig convert wp)] evals hook)
    p ge le wantDebug guess env = Ok (env', r) ->
  (forall it T found, In (EvMatch it T found) (r_loopTrace r) ->
     accurate_on eps tf_of T Ls /\ no_rivals thr nnG (tf_of T) Ls /\
     (pairings_empty found = false -> horn_ready eig wp (to_vpairs found))) ->
  (truncated_cost (Q2R thr) (nn_points nnG) Ls (r_optimal_tf r) <=
   truncated_cost (Q2R thr) (nn_points nnG) Ls guess + INR (maxIterations p) * slack eps (Q2R thr) (length Ls))%R.
Proof.
  intros * NC LL TP TBL LIM PW RT E0 AL EV.
  apply (C334_run_descends fMax shuffle mround tf_of eig convert name gpts nnG nnL Ls pose_minus log_norms tnorm realize b thr eps wp evals hook p ge le wantDebug guess env env' r); try assumption.
  intros it T found I. destruct (EV it T found I) as (A & B & C). split; [exact A|]. split; [right; exact B|exact C].
Qed.

(** ** Two runs, one with each option *)
Definition mono_params : IcpParams := mkIcpParams 10 (1 # 100) (1 # 100) false false 0 [].
Definition mono_base (share : bool) : BaseParams := mkBase [] 0 false share 0.

(** the matcher on rationals *)
Definition found_by (share : bool) (Ls : list P3) (tf : P3 -> P3) (it : nat) : res (MatchState * ptpairings) :=
  run_matchers [pm_matcher 1000000 (fun l => l) (fun _ => 0%Z) (gmap 7 None (brute ex_globals)) (lmap 7 (brute Ls) Ls) (DT (mono_base share) (1 # 2) 0 1) 0 0] it tf
    (new_match_state (gmap 7 None (brute ex_globals)) (lmap 7 (brute Ls) Ls) (mkMS [] [])).

Lemma pose_matcher_run fMax shuffle mround G L tf_of m it T ms :
  run_matchers [pose_matcher fMax shuffle mround G L tf_of m 0 0] it T ms = run_matchers [pm_matcher fMax shuffle mround G L m 0 0] it (tf_of T) ms.
Proof. reflexivity. Qed.

(** the six pairs of the quarter turn *)
Definition six_pairs (f : ptpairings) : Prop :=
  map p_local (paired_pt2pt f) = sixQ /\ map p_global (paired_pt2pt f) = map quarterQ sixQ /\
  paired_pt2ln f = [] /\ paired_pt2pl f = [] /\ point_weights f = [].

Lemma six_pairs_vpairs f : six_pairs f -> to_vpairs f = quarter_pairs.
Proof.
  intros (A & B & C & D & E). rewrite <- ex_true_pairs. unfold to_vpairs, true_pairs. rewrite C, D, E. cbn [map length]. f_equal.
  rewrite <- A. rewrite <- A in B. clear - B. induction (paired_pt2pt f) as [|x l IH]; [reflexivity|]. cbn [map] in *. injection B as B1 B2.
  rewrite B1, quarterQ_exact. f_equal. apply IH. exact B2.
Qed.

Lemma six_pairs_ready f : six_pairs f -> horn_ready quarter_eig wp_default (to_vpairs f).
Proof. intro H. rewrite (six_pairs_vpairs f H). split; [cbn; lia|]. split; [exact quarter_far|exact quarter_spectral]. Qed.

Lemma tf_guess : ex_tf_of off_guess = guessQ.
Proof. unfold ex_tf_of, off_guess. cbn [tr vx]. destruct (Rle_dec (11 / 10) 1); [exfalso; lra|reflexivity]. Qed.
Lemma tf_quarter : ex_tf_of quarter = quarterQ.
Proof. unfold ex_tf_of, quarter. cbn [tr vx]. destruct (Rle_dec 1 1); [reflexivity|exfalso; lra]. Qed.

Lemma new_state_any env : forall Ls, new_match_state (gmap 7 None (brute ex_globals)) (lmap 7 (brute Ls) Ls) env
  = new_match_state (gmap 7 None (brute ex_globals)) (lmap 7 (brute Ls) Ls) (mkMS [] []).
Proof. intro Ls. destruct (fresh_state 7 None (brute ex_globals) (brute Ls) Ls) as (ms & EF & _). unfold new_match_state. rewrite EF. reflexivity. Qed.

Lemma two_steps share Ls f1 m1 f2 m2 :
  found_by share Ls guessQ 0 = Ok (m1, f1) -> found_by share Ls quarterQ 1 = Ok (m2, f2) -> six_pairs f1 -> six_pairs f2 ->
  exists r, align ex_minus ex_norms (fun _ => 0%Q) (fun _ e => Ok e) (new_match_state (gmap 7 None (brute ex_globals)) (lmap 7 (brute Ls) Ls))
    (mkComponents [pose_matcher 1000000 (fun l => l) (fun _ => 0%Z) (gmap 7 None (brute ex_globals)) (lmap 7 (brute Ls) Ls) ex_tf_of (DT (mono_base share) (1 # 2) 0 1) 0 0]
                  [closed_solver 0 (horn_algo quarter_eig (fun _ => None) wp_default)] [ratio_evaluator 1 (1 # 5)] None)
    mono_params false false false off_guess (mkMS [] []) = Ok (m2, r) /\
   r_optimal_tf r = quarter /\
   r_loopTrace r = [EvMatch 0 off_guess f1; EvSolve 0 f1 true (mkSol quarter 1%Q); EvMatch 1 quarter f2; EvSolve 1 f2 true (mkSol quarter 1%Q)].
Proof.
  intros F1 F2 S1 S2.
  assert (E1 : pairings_empty f1 = false) by (unfold pairings_empty; destruct S1 as (A & _); destruct (paired_pt2pt f1); [discriminate A|reflexivity]).
  assert (E2 : pairings_empty f2 = false) by (unfold pairings_empty; destruct S2 as (A & _); destruct (paired_pt2pt f2); [discriminate A|reflexivity]).
  assert (A1 : horn_algo quarter_eig (fun _ => None) wp_default (to_vpairs f1) = Ok (true, mkHR quarter [])).
  { rewrite (six_pairs_vpairs f1 S1). exact quarter_recovered. }
  assert (A2 : horn_algo quarter_eig (fun _ => None) wp_default (to_vpairs f2) = Ok (true, mkHR quarter [])).
  { rewrite (six_pairs_vpairs f2 S2). exact quarter_recovered. }
  assert (N1 : ex_norms (ex_minus quarter off_guess) = (1, 1)%Q).
  { unfold ex_norms, ex_minus, quarter, off_guess. cbn [tr]. destruct (Req_EM_T _ 0) as [X|_]; [|reflexivity]. exfalso. unfold vnorm2, vdot, vsub in X. cbn [vx vy vz] in X. nra. }
  assert (N2 : ex_norms (ex_minus quarter quarter) = (0, 0)%Q).
  { unfold ex_norms, ex_minus. cbn [tr]. destruct (Req_EM_T _ 0) as [_|X]; [reflexivity|]. exfalso. apply X. unfold vnorm2, vdot, vsub. cbn [vx vy vz]. ring. }
  assert (ST1 : is_stalled mono_params (increments ex_minus ex_norms quarter off_guess None) = false) by (unfold increments; rewrite N1; reflexivity).
  assert (ST2 : is_stalled mono_params (increments ex_minus ex_norms quarter quarter (Some off_guess)) = true) by (unfold increments; rewrite N2, N1; reflexivity).
  unfold found_by in F1, F2. rewrite <- tf_guess in F1. rewrite <- tf_quarter in F2. rewrite <- pose_matcher_run in F1, F2.
  assert (Q1 : forall env, exists q, evaluate_quality [ratio_evaluator 1 (1 # 5)] quarter f2 env = Ok (env, q)).
  { intro env. unfold evaluate_quality. cbn [evaluate_loop ratio_evaluator relativeWeight e_evaluate rbind].
    change (Qltb 0 1) with true. cbv iota. destruct (hard_discard _); cbn [rbind].
    - eexists. reflexivity.
    - change (Qltb 0 (0 + 1)) with true. cbv iota. eexists. reflexivity. }
  unfold align. cbn [c_matchers c_solvers c_evaluators isNil orb maxIterations mono_params]. cbn [icp_loop].
  unfold iter_body at 1. cbn [rbind l_env c_matchers l_sol optimalPose].
  rewrite F1. cbn [rbind]. rewrite E1. cbn [c_solvers].
  unfold run_solvers, solver_optimal_pose, solver_iter_gate, solver_latch_gate, closed_solver.
  cbn [s_enabled negb sc_icpIteration s_runFromIteration s_runUpToIteration s_runUntilTranslationCorrectionSmallerThan s_impl].
  change (Nat.ltb 0 0) with false. change (Qltb 0 0) with false. cbn [andb]. rewrite A1. cbn [rbind fst snd hr_pose negb optimalPose l_prev l_prev2].
  rewrite ST1. cbn [want_details mono_params saveIterationDetails andb].
  unfold iter_tail at 1. change (find_checkpoint (quality_checkpoints mono_params) 0) with (@None Q). cbn [c_hook rbind l_env l_sol l_pairings l_prev l_prev2 l_lastCorrection l_latched l_details l_trace].
  unfold iter_body at 1. cbn [rbind l_env c_matchers l_sol optimalPose].
  rewrite new_state_any, F2. cbn [rbind]. rewrite E2. cbn [c_solvers].
  unfold run_solvers, solver_optimal_pose, solver_iter_gate, solver_latch_gate.
  cbn [s_enabled negb sc_icpIteration s_runFromIteration s_runUpToIteration s_runUntilTranslationCorrectionSmallerThan s_impl].
  change (Nat.ltb 1 0) with false. change (Nat.ltb 0 0) with false. change (Qltb 0 0) with false. cbn [andb]. rewrite A2. cbn [rbind fst snd hr_pose negb optimalPose l_prev l_prev2].
  rewrite ST2. cbn [want_details mono_params saveIterationDetails andb rbind l_env l_sol l_pairings optimalPose].
  destruct (Q1 m2) as [q Eq]. rewrite Eq. cbn [rbind]. eexists. split; [reflexivity|]. split; reflexivity.
Qed.

(** C334 on the scene of C323 *)
Example C334_case : exists m r, align ex_minus ex_norms (fun _ => 0%Q) (fun _ e => Ok e) (new_match_state (gmap 7 None (brute ex_globals)) (lmap 7 (brute sixQ) sixQ))
    (mkComponents [pose_matcher 1000000 (fun l => l) (fun _ => 0%Z) (gmap 7 None (brute ex_globals)) (lmap 7 (brute sixQ) sixQ) ex_tf_of (DT (mono_base true) (1 # 2) 0 1) 0 0]
                  [closed_solver 0 (horn_algo quarter_eig (fun _ => None) wp_default)] [ratio_evaluator 1 (1 # 5)] None)
    mono_params false false false off_guess (mkMS [] []) = Ok (m, r) /\
  (truncated_cost (Q2R (1 # 2)) ex_globals sixQ (r_optimal_tf r) <= truncated_cost (Q2R (1 # 2)) ex_globals sixQ off_guess)%R.
Proof.
  destruct (found_by true sixQ guessQ 0) as [[m1 f1]| | ] eqn:F1; [|vm_compute in F1; discriminate|vm_compute in F1; discriminate].
  destruct (found_by true sixQ quarterQ 1) as [[m2 f2]| | ] eqn:F2; [|vm_compute in F2; discriminate|vm_compute in F2; discriminate].
  assert (S1 : six_pairs f1).
  { assert (X : match found_by true sixQ guessQ 0 with Ok (_, f) => six_pairs f | _ => False end) by (vm_compute; repeat split). rewrite F1 in X. exact X. }
  assert (S2 : six_pairs f2).
  { assert (X : match found_by true sixQ quarterQ 1 with Ok (_, f) => six_pairs f | _ => False end) by (vm_compute; repeat split). rewrite F2 in X. exact X. }
  destruct (two_steps true sixQ f1 m1 f2 m2 F1 F2 S1 S2) as (r & E & A & B). exists m2, r. split; [exact E|].
  change ex_globals with (nn_points (brute ex_globals)) at 1 2. eapply C334_exact; [..|exact E|].
  - apply brute_correct.
  - reflexivity.
  - reflexivity.
  - reflexivity.
  - reflexivity.
  - left. reflexivity.
  - unfold plain_weights, wp_default. cbn. repeat split; lra.
  - unfold is_rotation, off_guess; vunf. repeat split; try lra. f_equal; lra.
  - rewrite B. intros it T found [X|[X|[X|[X|[]]]]]; [inversion X; subst; clear X|discriminate X|inversion X; subst; clear X|discriminate X].
    + split; [intros l _; rewrite tf_guess; apply guessQ_exact|]. intros _. apply six_pairs_ready. exact S1.
    + split; [intros l _; rewrite tf_quarter; apply quarterQ_exact|]. intros _. apply six_pairs_ready. exact S2.
Qed.

(** ** The default options *)
(** the cost on rationals *)
Definition pcostQ (tau2 : Q) (Gs : list P3) (q : P3) : Q :=
  fold_right (fun g a => if Qle_bool (sqd q g) a then sqd q g else a) tau2 Gs.
Definition tcostQ (tau2 : Q) (Gs : list P3) (qs : list P3) : Q := fold_right (fun q a => (pcostQ tau2 Gs q + a)%Q) 0%Q qs.

Lemma pcostQ_real thr Gs q l T : to_v q = compose T (to_v l) -> point_cost (Q2R thr) Gs T l = Q2R (pcostQ (thr * thr) Gs q).
Proof.
  intro EX. unfold point_cost, pcostQ. rewrite <- EX. induction Gs as [|g Gs IH]; cbn [fold_right]; [rewrite Q2R_mult; reflexivity|].
  rewrite IH, <- Q2R_sqd. set (a := fold_right _ _ Gs). unfold Rmin. destruct (Rle_dec (Q2R (sqd q g)) (Q2R a)) as [X|X]; destruct (Qle_bool (sqd q g) a) eqn:E; try reflexivity; exfalso.
  - apply Rle_Qle in X. apply Qle_bool_iff in X. congruence.
  - apply X. apply Qle_Rle. apply Qle_bool_iff. exact E.
Qed.
Lemma tcostQ_real thr Gs tf T Ls : (forall l, to_v (tf l) = compose T (to_v l)) ->
  truncated_cost (Q2R thr) Gs Ls T = Q2R (tcostQ (thr * thr) Gs (map tf Ls)).
Proof.
  intro EX. induction Ls as [|l Ls IH]; cbn [truncated_cost tcostQ fold_right map]; [rewrite RMicromega.Q2R_0; reflexivity|].
  fold (truncated_cost (Q2R thr) Gs Ls T). fold (tcostQ (thr * thr) Gs (map tf Ls)). rewrite IH, Q2R_plus. f_equal.
  apply pcostQ_real. apply EX.
Qed.

(** the six points, and fifteen more that the guess puts exactly on a global point *)
Definition dense_scan : list P3 := sixQ ++ repeat (mkP3 (988 # 1000) (- (184 # 1000)) 0) 15.

(** C335: with the default options the result may be worse than the guess: fifteen of the twenty-one
    local points, which the guess puts exactly on a global point, are moved away from it. *)
Theorem C335_default_options_refuted :
  exists Ls nnG nnL b thr tf_of eig wp p guess env env' r,
    nn_correct nnG /\ bbox_correct nnG /\ length (nn_points nnL) = length Ls /\
    (0 < thr)%Q /\ weight_pt2pt_layers b = [] /\ maxLocalPointsPerLayer b = 0 /\
    allowMatchAlreadyMatchedPoints b = false /\ allowMatchAlreadyMatchedGlobalPoints b = false /\
    plain_weights wp /\ is_rotation guess /\
    registration 1000000 (fun l => l) (fun _ => 0%Z) (gmap 7 None nnG) (lmap 7 nnL Ls) tf_of ex_minus ex_norms (fun _ => 0%Q)
      (DT b thr 0 1) (horn_algo eig (fun _ => None) wp) 1 (1 # 5) p false guess env = Ok (env', r) /\
    (forall it T found, In (EvMatch it T found) (r_loopTrace r) ->
       exact_on tf_of T Ls /\ pairings_empty found = false /\ horn_ready eig wp (to_vpairs found)) /\
    (truncated_cost (Q2R thr) (nn_points nnG) Ls guess < truncated_cost (Q2R thr) (nn_points nnG) Ls (r_optimal_tf r))%R.
Proof.
  exists dense_scan, (brute ex_globals), (brute dense_scan), (mono_base false), (1 # 2)%Q, ex_tf_of, quarter_eig, wp_default, mono_params, off_guess, (mkMS [] []).
  destruct (found_by false dense_scan guessQ 0) as [[m1 f1]| | ] eqn:F1; [|vm_compute in F1; discriminate|vm_compute in F1; discriminate].
  destruct (found_by false dense_scan quarterQ 1) as [[m2 f2]| | ] eqn:F2; [|vm_compute in F2; discriminate|vm_compute in F2; discriminate].
  assert (S1 : six_pairs f1).
  { assert (X : match found_by false dense_scan guessQ 0 with Ok (_, f) => six_pairs f | _ => False end) by (vm_compute; repeat split). rewrite F1 in X. exact X. }
  assert (S2 : six_pairs f2).
  { assert (X : match found_by false dense_scan quarterQ 1 with Ok (_, f) => six_pairs f | _ => False end) by (vm_compute; repeat split). rewrite F2 in X. exact X. }
  assert (NEM : forall f, six_pairs f -> pairings_empty f = false) by (intros f (A & _); unfold pairings_empty; destruct (paired_pt2pt f); [discriminate A|reflexivity]).
  destruct (two_steps false dense_scan f1 m1 f2 m2 F1 F2 S1 S2) as (r & E & A & B). exists m2, r.
  split; [apply brute_correct|]. split; [apply brute_bbox|]. do 6 (split; [reflexivity|]).
  split; [unfold plain_weights, wp_default; cbn; repeat split; lra|].
  split; [unfold is_rotation, off_guess; vunf; repeat split; try lra; f_equal; lra|].
  split; [exact E|]. split.
  - rewrite B. intros it T found [X|[X|[X|[X|[]]]]]; [inversion X; subst; clear X|discriminate X|inversion X; subst; clear X|discriminate X].
    + split; [intros l _; rewrite tf_guess; apply guessQ_exact|]. split; [apply NEM|apply six_pairs_ready]; exact S1.
    + split; [intros l _; rewrite tf_quarter; apply quarterQ_exact|]. split; [apply NEM|apply six_pairs_ready]; exact S2.
  - rewrite A, (tcostQ_real (1 # 2) _ guessQ off_guess _ guessQ_exact), (tcostQ_real (1 # 2) _ quarterQ quarter _ quarterQ_exact).
    apply Qlt_Rlt. vm_compute. reflexivity.
Qed.

(** C335_default_options_where on the scene of C323 *)
Example C335_case : exists m r, align ex_minus ex_norms (fun _ => 0%Q) (fun _ e => Ok e) (new_match_state (gmap 7 None (brute ex_globals)) (lmap 7 (brute sixQ) sixQ))
    (mkComponents [pose_matcher 1000000 (fun l => l) (fun _ => 0%Z) (gmap 7 None (brute ex_globals)) (lmap 7 (brute sixQ) sixQ) ex_tf_of (DT (mono_base false) (1 # 2) 0 1) 0 0]
                  [closed_solver 0 (horn_algo quarter_eig (fun _ => None) wp_default)] [ratio_evaluator 1 (1 # 5)] None)
    mono_params false false false off_guess (mkMS [] []) = Ok (m, r) /\
  (forall it T found, In (EvMatch it T found) (r_loopTrace r) -> accurate_on 0 ex_tf_of T sixQ /\ no_rivals (1 # 2) (brute ex_globals) (ex_tf_of T) sixQ /\
     (pairings_empty found = false -> horn_ready quarter_eig wp_default (to_vpairs found))).
Proof.
  destruct (found_by false sixQ guessQ 0) as [[m1 f1]| | ] eqn:F1; [|vm_compute in F1; discriminate|vm_compute in F1; discriminate].
  destruct (found_by false sixQ quarterQ 1) as [[m2 f2]| | ] eqn:F2; [|vm_compute in F2; discriminate|vm_compute in F2; discriminate].
  assert (S1 : six_pairs f1).
  { assert (X : match found_by false sixQ guessQ 0 with Ok (_, f) => six_pairs f | _ => False end) by (vm_compute; repeat split). rewrite F1 in X. exact X. }
  assert (S2 : six_pairs f2).
  { assert (X : match found_by false sixQ quarterQ 1 with Ok (_, f) => six_pairs f | _ => False end) by (vm_compute; repeat split). rewrite F2 in X. exact X. }
  destruct (two_steps false sixQ f1 m1 f2 m2 F1 F2 S1 S2) as (r & E & A & B). exists m2, r. split; [exact E|].
  assert (EXA : forall T f, (forall l, to_v (f l) = compose T (to_v l)) -> ex_tf_of T = f -> accurate_on 0 ex_tf_of T sixQ).
  { intros T f EX TE l _. rewrite TE, EX. assert (Z : vsub (compose T (to_v l)) (compose T (to_v l)) = mkV 0 0 0) by (unfold vsub; f_equal; ring). rewrite Z.
    unfold vnorm, vnorm2, vdot. cbn [vx vy vz]. replace (0 * 0 + 0 * 0 + 0 * 0)%R with 0%R by ring. rewrite sqrt_0. lra. }
  assert (NRV : forall f, map (fun l => map (fun x => fst (fst x)) (nn_search (brute ex_globals) (f l) 1)) sixQ = [[5]; [4]; [3]; [2]; [1]; [0]] ->
     no_rivals (1 # 2) (brute ex_globals) f sixQ).
  { intros f M i j li lj k g d g' d' Hi Hj Si Sj _ _.
    assert (K : forall i l k g d, nth_error sixQ i = Some l -> nn_search (brute ex_globals) (f l) 1 = [(k, g, d)] -> i < 6 /\ k = 5 - i).
    { clear - M. intros i l k g d H S. assert (L := nth_lt _ _ _ H). cbn [sixQ length] in L. split; [exact L|].
      assert (X := map_nth_error (fun l => map (fun x => fst (fst x)) (nn_search (brute ex_globals) (f l) 1)) i sixQ H). rewrite M, S in X. cbn [map fst] in X.
      do 6 (destruct i as [|i]; [cbn in X; injection X as X; lia|]). lia. }
    destruct (K i li k g d Hi Si) as [A1 A2]. destruct (K j lj k g' d' Hj Sj) as [B1 B2]. lia. }
  rewrite B. intros it T found [X|[X|[X|[X|[]]]]]; [inversion X; subst; clear X|discriminate X|inversion X; subst; clear X|discriminate X].
  - split; [apply (EXA _ _ guessQ_exact tf_guess)|]. split; [|intros _; apply six_pairs_ready; exact S1].
    rewrite tf_guess. apply NRV. vm_compute. reflexivity.
  - split; [apply (EXA _ _ quarterQ_exact tf_quarter)|]. split; [|intros _; apply six_pairs_ready; exact S2].
    rewrite tf_quarter. apply NRV. vm_compute. reflexivity.
Qed.
Print Assumptions C334_exact.
Print Assumptions C335_default_options_refuted.
