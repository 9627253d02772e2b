(** C340-C342: the order of the pairs and of the local points does not matter. *)
From Coq Require Import Reals Qreals List Lia Lqa Permutation.
From Verif Require Import Base PairingsModel MatcherModel BitfieldModel BitfieldProofs PointMatcherModel PointMatcherSpec SolverModel
  QualityModel IcpModel GeomModel VisitModel RotProofs HornModel OlaeModel EndToEndModel EndToEndProps HornProps MonotoneProps OrderProofs.
Import ListNotations.
Open Scope nat_scope.

(** ** Specification *)
(** the pairs at the given positions *)
Definition pairs_at {A} (ps : list A) (is : list nat) : list A :=
  flat_map (fun i => match nth_error ps i with Some x => [x] | None => [] end) is.

(** Two runs of a solver, on pairs [p] and [p']: both fail, or both give the same flag and the same
    pose, and leave out the same pairs. *)
Definition same_solution (p p' : VPairs) (a a' : res (bool * HResult)) : Prop :=
  match a, a' with
  | Throw, Throw => True
  | Ok (ok, r), Ok (ok', r') => ok = ok' /\ hr_pose r = hr_pose r' /\ length (hr_outliers r) = length (hr_outliers r') /\
      Permutation (pairs_at (vp_pts p) (hr_outliers r)) (pairs_at (vp_pts p') (hr_outliers r'))
  | _, _ => False
  end.

(** a pair without the index of the local point *)
Definition no_index (x : Pair) := (p_globalIdx x, p_global x, p_local x, p_err x, p_glayer x, p_llayer x).
(** point-to-point pairs only, without weights *)
Definition only_points (f : ptpairings) : Prop :=
  paired_pt2ln f = [] /\ paired_pt2pl f = [] /\ paired_ln2ln f = [] /\ paired_pl2pl f = [] /\ point_weights f = [].
(** the same pairs in another order, the local points being at other places *)
Definition same_found (f f' : ptpairings) : Prop :=
  Permutation (map no_index (paired_pt2pt f)) (map no_index (paired_pt2pt f')) /\
  only_points f /\ only_points f' /\ potential_pairings f = potential_pairings f'.

(** Two local maps with the same layers, each with the same points, maybe in another order. *)
Definition same_points (L L' : Layers) : Prop :=
  Forall2 (fun kv kv' => fst kv = fst kv' /\ exists ps ps' nn nn',
     snd kv = mkLayer (Some ps) (Some nn) /\ snd kv' = mkLayer (Some ps') (Some nn') /\ Permutation ps ps' /\
     length (nn_points nn) = length ps /\ length (nn_points nn') = length ps' /\ nn_dense nn = nn_dense nn') L L'.

(** Components whose answer does not depend on the order of the pairs. *)
Definition order_free_solver (s : Solver MatchState Pose ptpairings) : Prop :=
  forall sc f f' env out, same_found f f' -> s_impl s sc f env out = s_impl s sc f' env out.
Definition order_free_evaluator (e : @Evaluator MatchState Pose ptpairings) : Prop :=
  forall T f f' env, same_found f f' -> e_evaluate e T f env = e_evaluate e T f' env.
Definition order_free_hook (h : option (@hook_t Pair unit unit unit unit Q MatchState Pose)) : Prop :=
  match h with None => True | Some h => forall it f f' sol env, same_found f f' -> h it f sol env = h it f' sol env end.

(** Results of two runs of ICP::align. *)
Definition same_results (r r' : @IcpResults Pair unit unit unit unit Q Pose) : Prop :=
  r_optimal_tf r = r_optimal_tf r' /\ r_optimalScale r = r_optimalScale r' /\ r_nIterations r = r_nIterations r' /\
  r_terminationReason r = r_terminationReason r' /\ r_quality r = r_quality r' /\ same_found (r_finalPairings r) (r_finalPairings r') /\
  Forall2 (fun d d' => fst d = fst d' /\ fst (snd d) = fst (snd d') /\ same_found (snd (snd d)) (snd (snd d'))) (r_iterationDetails r) (r_iterationDetails r').
Definition same_outcome (a a' : res (MatchState * @IcpResults Pair unit unit unit unit Q Pose)) : Prop :=
  match a, a' with
  | Ok (e, r), Ok (e', r') => e = e' /\ same_results r r'
  | Throw, Throw => True
  | UB, UB => True
  | _, _ => False
  end.

(** ** C340: the solvers *)
Lemma pairs_at_positions {A} (bad : A -> bool) l : pairs_at l (positions 0 bad l) = filter bad l.
Proof.
  assert (G : forall m i, skipn i l = m -> pairs_at l (positions i bad m) = filter bad m).
  { induction m as [|x m IH]; intros i SK; [reflexivity|]. cbn [positions filter].
    assert (NT : nth_error l i = Some x).
    { clear - SK. revert i SK. induction l as [|y l IHl]; intros [|i] SK; cbn in *; try discriminate; [injection SK as -> _; reflexivity|]. apply IHl. exact SK. }
    assert (SK' : skipn (S i) l = m).
    { clear - SK. revert i SK. induction l as [|y l IHl]; intros [|i] SK; cbn [skipn] in *; try discriminate; [injection SK as _ SK; exact SK|]. apply IHl. exact SK. }
    destruct (bad x); [|apply IH; exact SK']. unfold pairs_at in *. cbn [flat_map]. rewrite NT. cbn [app]. f_equal. apply IH; exact SK'. }
  apply G. reflexivity.
Qed.

Lemma answer_solution p p' a a' : Permutation (vp_pts p) (vp_pts p') -> same_answer p p' a a' -> same_solution p p' a a'.
Proof.
  intros P [[-> ->]|(ok & T & bad & -> & ->)]; [exact I|]. unfold same_solution. cbn [hr_pose hr_outliers]. split; [reflexivity|]. split; [reflexivity|]. split.
  - rewrite (positions_count bad _ _ P). reflexivity.
  - rewrite !pairs_at_positions. apply filter_perm. exact P.
Qed.

(** C340: reordering the pairs of each kind changes nothing in the answer of the two closed-form
    solvers, for any weights, robust kernel and outlier detection by scale.  (No per-layer point
    weights: [reordered] asks for none.) *)
Theorem C340_solvers_ignore_the_order :
  forall eig convert solve p p' wp, reordered p p' -> vp_nPt2Ln p = 0 -> vp_nPt2Pl p = 0 ->
  same_solution p p' (horn_algo eig convert wp p) (horn_algo eig convert wp p') /\
  same_solution p p' (olae_algo solve convert wp p) (olae_algo solve convert wp p').
Proof.
  intros eig convert solve p p' wp RO N1 N2. assert (M := RO). destruct M as (PP & _ & _ & M1 & M2 & _).
  unfold horn_algo, olae_algo, solver_horn. rewrite <- M1, <- M2, N1, N2. cbn [Nat.eqb andb].
  split; apply answer_solution; try exact PP; [apply horn_reordered|apply olae_reordered]; exact RO.
Qed.

(** ** C341: the matcher *)
Lemma Qltb_iff a b : Qltb a b = true <-> (a < b)%Q.
Proof.
  unfold Qltb. split; intro H.
  - apply Qltb_lt. exact H.
  - apply Bool.negb_true_iff. destruct (Qle_bool b a) eqn:E; [|reflexivity]. apply Qle_bool_iff in E. exfalso. apply (Qlt_not_le _ _ H E).
Qed.
Lemma Qltb_false a b : Qltb a b = false <-> (b <= a)%Q.
Proof.
  unfold Qltb. split; intro H.
  - apply Bool.negb_false_iff in H. apply Qle_bool_iff. exact H.
  - apply Bool.negb_false_iff. apply Qle_bool_iff. exact H.
Qed.
Ltac qcases := repeat match goal with |- context [Qltb ?a ?b] => is_var a; is_var b; let E := fresh in destruct (Qltb a b) eqn:E; [apply Qltb_iff in E|apply Qltb_false in E] end; lra.

Lemma kmin_comp a a' x : (a == a')%Q -> (kmin a x == kmin a' x)%Q.
Proof. intro H. unfold kmin. qcases. Qed.
Lemma kmax_comp a a' x : (a == a')%Q -> (kmax a x == kmax a' x)%Q.
Proof. intro H. unfold kmax. qcases. Qed.
Lemma kmin_swap a x y : (kmin (kmin a x) y == kmin (kmin a y) x)%Q.
Proof. unfold kmin. qcases. Qed.
Lemma kmax_swap a x y : (kmax (kmax a x) y == kmax (kmax a y) x)%Q.
Proof. unfold kmax. qcases. Qed.

Definition p3eq (a b : P3) : Prop := (px a == px b)%Q /\ (py a == py b)%Q /\ (pz a == pz b)%Q.
Definition bbeq (a b : P3 * P3) : Prop := p3eq (fst a) (fst b) /\ p3eq (snd a) (snd b).

Lemma p3eq_trans a b c : p3eq a b -> p3eq b c -> p3eq a c.
Proof. intros (A & B & C) (D & E & F). repeat split; etransitivity; eassumption. Qed.
Lemma p3eq_refl a : p3eq a a.
Proof. repeat split; reflexivity. Qed.

Lemma keep_comp bb bb' p : bbeq bb bb' -> bbeq (keep_bbox bb p) (keep_bbox bb' p).
Proof. intros ((A & B & C) & (D & E & F)). repeat split; cbn; first [apply kmin_comp|apply kmax_comp]; assumption. Qed.
Lemma fold_comp ps : forall bb bb', bbeq bb bb' -> bbeq (fold_left keep_bbox ps bb) (fold_left keep_bbox ps bb').
Proof. induction ps as [|p ps IH]; intros bb bb' H; cbn; [exact H|]. apply IH, keep_comp, H. Qed.

Lemma bbox_perm ps ps' : Permutation ps ps' -> forall bb, bbeq (fold_left keep_bbox ps bb) (fold_left keep_bbox ps' bb).
Proof.
  induction 1 as [|x l l' P IH|x y l|l l' l'' P1 IH1 P2 IH2]; intro bb; cbn [fold_left].
  - split; apply p3eq_refl.
  - apply IH.
  - apply fold_comp. repeat split; cbn; first [apply kmin_swap|apply kmax_swap].
  - destruct (IH1 bb) as [A B], (IH2 bb) as [C D]. split; eapply p3eq_trans; eassumption.
Qed.

Lemma intersects_comp a bb bb' eps : bbeq bb bb' -> bb_intersects a bb eps = bb_intersects a bb' eps.
Proof.
  intros ((A & B & C) & (D & E & F)). unfold bb_intersects. rewrite A, B, C, D, E, F. reflexivity.
Qed.

(** the neighbours nearer than the threshold, the nearest first *)
Fixpoint near (t : Q) (ns : list (nat * P3 * Q)) : list (nat * P3 * Q) :=
  match ns with
  | [] => []
  | (g, p, e) :: r => if Qle_bool t e then [] else (g, p, e) :: near t r
  end.

(** before the pairs of the matchers are put together: the weights are dropped when the pairs are put together (C54, C124) *)
Definition no_shapes (f : ptpairings) : Prop := paired_pt2ln f = [] /\ paired_pt2pl f = [] /\ paired_ln2ln f = [] /\ paired_pl2pl f = [].
Definition same_inner (f f' : ptpairings) : Prop :=
  Permutation (map no_index (paired_pt2pt f)) (map no_index (paired_pt2pt f')) /\ no_shapes f /\ no_shapes f' /\ potential_pairings f = potential_pairings f'.

Section Matching.
Variables (fMax : Q) (shuffle : list nat -> list nat) (tf : P3 -> P3) (b : BaseParams) (thr ang : Q) (k : nat).
Hypothesis AG : allowMatchAlreadyMatchedGlobalPoints b = true.

Definition point_pairs (nn : NNMap) (gname lname i : nat) (l : P3) : list Pair :=
  map (fun n => mkPair (fst (fst n)) i (snd (fst n)) l (snd n) gname lname)
      (near (qsq thr + ang * normSqr (tf l)) (nn_search nn (tf l) k)).
Fixpoint all_pairs (nn : NNMap) (gname lname i : nat) (ls : list P3) : list Pair :=
  match ls with [] => [] | l :: r => point_pairs nn gname lname i l ++ all_pairs nn gname lname (S i) r end.
(** the same without index *)
Definition point_found (nn : NNMap) (gname lname : nat) (l : P3) := map no_index (point_pairs nn gname lname 0 l).

Lemma all_pairs_found nn gname lname ls : forall i, map no_index (all_pairs nn gname lname i ls) = flat_map (point_found nn gname lname) ls.
Proof.
  induction ls as [|l ls IH]; intro i; cbn [all_pairs flat_map]; [reflexivity|]. rewrite map_app, IH. f_equal.
  unfold point_found, point_pairs. rewrite !map_map. reflexivity.
Qed.

Lemma neighbours lpts gname lname i l t ns : nth_error lpts i = Some l -> forall ms out,
  dt_neighbours b lpts gname lname i t ns (ms, out) =
  Ok (ms, with_pairs out (map (fun n => mkPair (fst (fst n)) i (snd (fst n)) l (snd n) gname lname) (near t ns))).
Proof.
  intro NL. induction ns as [|[[g p] e] ns IH]; intros ms out; cbn [dt_neighbours near].
  - unfold with_pairs. cbn [map]. rewrite app_nil_r. destruct out; reflexivity.
  - destruct (Qle_bool t e).
    + unfold with_pairs. cbn [map]. rewrite app_nil_r. destruct out; reflexivity.
    + unfold dt_add_pair. rewrite AG, NL. cbn [rbind]. rewrite IH. f_equal. f_equal. unfold with_pairs, add_pt2pt. cbn [paired_pt2pt paired_pt2ln paired_pt2pl paired_ln2ln paired_pl2pl point_weights potential_pairings map fst snd].
      rewrite <- app_assoc. reflexivity.
Qed.

Lemma loop_all nn lpts mn mx gname lname ms : (forall i, i < length lpts -> query (ms_local ms) lname i = Ok false) ->
  forall m i out, i + m = length lpts ->
  dt_loop b thr ang k nn lpts (mkTL mn mx None (map tf lpts)) gname lname (seq i m) (ms, out)
  = Ok (ms, with_pairs out (all_pairs nn gname lname i (skipn i lpts))).
Proof.
  intro FR. induction m as [|m IH]; intros i out IM.
  - cbn [seq dt_loop]. rewrite skipn_all2 by lia. cbn [all_pairs]. unfold with_pairs. rewrite app_nil_r. destruct out; reflexivity.
  - cbn [seq dt_loop]. cbn [local_index tl_idxs rbind fst tl_pts].
    destruct (nth_error lpts i) as [l|] eqn:El; [|apply nth_error_None in El; lia].
    assert (Q1 : (if allowMatchAlreadyMatchedPoints b then Ok false else query (ms_local ms) lname i) = Ok false).
    { destruct (allowMatchAlreadyMatchedPoints b); [reflexivity|]. apply FR. lia. }
    rewrite Q1. cbn [rbind]. rewrite nth_error_map, El. cbn [option_map]. rewrite (neighbours lpts gname lname i l _ _ El). cbn [rbind].
    rewrite IH by lia.
    assert (SK : skipn i lpts = l :: skipn (S i) lpts).
    { clear - El. revert i El. induction lpts as [|y r IHl]; intros [|i] El; cbn in El; try discriminate.
      - injection El as ->. reflexivity.
      - cbn [skipn]. apply IHl. exact El. }
    rewrite SK. cbn [all_pairs]. f_equal. f_equal. unfold with_pairs, point_pairs. cbn [paired_pt2pt paired_pt2ln paired_pt2pl paired_ln2ln paired_pl2pl point_weights potential_pairings].
    rewrite <- app_assoc. reflexivity.
Qed.

(** results of one layer or of the whole matcher: same state, same pairs *)
Definition rel_inner (ms : MatchState) (a a' : res (MatchState * ptpairings)) : Prop :=
  (a = Throw /\ a' = Throw) \/ exists f f', a = Ok (ms, f) /\ a' = Ok (ms, f') /\ same_inner f f'.

Lemma same_potential f f' n : same_inner f f' -> same_inner (add_potential f n) (add_potential f' n).
Proof. intros (A & B & C & H). unfold same_inner, no_shapes, add_potential in *. cbn. rewrite H. tauto. Qed.

Lemma same_with f f' ps ps' : same_inner f f' -> Permutation (map no_index ps) (map no_index ps') -> same_inner (with_pairs f ps) (with_pairs f' ps').
Proof. intros (A & B & C & H) P. unfold same_inner, no_shapes, with_pairs in *. cbn. rewrite !map_app. split; [apply Permutation_app; assumption|tauto]. Qed.

Lemma one_layer_same gl lpts lpts' gname lname ms out out' : Permutation lpts lpts' ->
  maxLocalPointsPerLayer b = 0 \/ length lpts <= maxLocalPointsPerLayer b ->
  (forall i, i < length lpts -> query (ms_local ms) lname i = Ok false) -> same_inner out out' ->
  rel_inner ms (dt_one_layer fMax shuffle tf b thr ang k gl lpts gname lname ms out) (dt_one_layer fMax shuffle tf b thr ang k gl lpts' gname lname ms out').
Proof.
  intros P LIM FR SF. unfold rel_inner, dt_one_layer. destruct (_ || _ || _); [left; split; reflexivity|]. destruct (ly_nn gl) as [nn|]; [|left; split; reflexivity].
  right. assert (LP := Permutation_length P). rewrite <- LP. assert (SP := same_potential _ _ (length lpts * k) SF).
  assert (NI : isNil lpts' = isNil lpts) by (destruct lpts, lpts'; cbn in LP; try discriminate; reflexivity). rewrite NI.
  destruct (isNil (nn_points nn) || isNil lpts); [do 2 eexists; split; [reflexivity|split; [reflexivity|exact SP]]|].
  assert (TL : forall l, length l = length lpts -> transform_local_to_global fMax shuffle tf l (maxLocalPointsPerLayer b) =
     Ok (mkTL (fst (fold_left keep_bbox (map tf l) (mkP3 fMax fMax fMax, mkP3 (- fMax) (- fMax) (- fMax))%Q))
              (snd (fold_left keep_bbox (map tf l) (mkP3 fMax fMax fMax, mkP3 (- fMax) (- fMax) (- fMax))%Q)) None (map tf l))).
  { intros l E. unfold transform_local_to_global. rewrite E. replace (Nat.eqb (maxLocalPointsPerLayer b) 0 || Nat.leb (length lpts) (maxLocalPointsPerLayer b)) with true; [reflexivity|].
    symmetry. destruct LIM as [->|X]; [reflexivity|]. apply Nat.leb_le in X. rewrite X. apply Bool.orb_true_r. }
  rewrite (TL lpts eq_refl), (TL lpts' (eq_sym LP)). cbn [rbind tl_min tl_max].
  assert (BB := bbox_perm _ _ (Permutation_map tf P) (mkP3 fMax fMax fMax, mkP3 (- fMax) (- fMax) (- fMax))%Q).
  rewrite <- !surjective_pairing. rewrite <- (intersects_comp _ _ _ _ BB).
  destruct (bb_intersects _ _ _); cbn [negb]; [|do 2 eexists; split; [reflexivity|split; [reflexivity|exact SP]]].
  do 2 eexists. split; [apply (loop_all nn lpts); [exact FR|reflexivity]|].
  split; [apply (loop_all nn lpts'); [rewrite <- LP; exact FR|exact LP]|]. cbn [skipn]. apply same_with; [exact SP|].
  rewrite !all_pairs_found. apply Permutation_flat_map. exact P.
Qed.

Variables (G L L' : Layers).
Hypothesis SP : same_points L L'.
Hypothesis UL : unique_names L.
Hypothesis LIM : forall name ps nn, In (name, mkLayer (Some ps) nn) L -> maxLocalPointsPerLayer b = 0 \/ length ps <= maxLocalPointsPerLayer b.

Definition fresh_locals (ms : MatchState) : Prop :=
  forall name ps nn, In (name, mkLayer (Some ps) nn) L -> forall i, i < length ps -> query (ms_local ms) name i = Ok false.

Lemma find_same name : match find_layer L name, find_layer L' name with
  | None, None => True
  | Some l, Some l' => In (name, l) L /\ exists ps ps' nn nn', l = mkLayer (Some ps) (Some nn) /\ l' = mkLayer (Some ps') (Some nn') /\ Permutation ps ps'
  | _, _ => False end.
Proof.
  assert (X := SP). clear LIM UL SP. induction X as [|[n l] [n' l'] r r' H F IH]; cbn [find_layer]; [exact I|].
  destruct H as (E & ps & ps' & nn & nn' & E1 & E2 & P & _). cbn [fst snd] in E, E1, E2. subst n'.
  destruct (Nat.eqb_spec n name) as [->|NE].
  - split; [left; reflexivity|]. exists ps, ps', nn, nn'. auto.
  - revert IH. destruct (find_layer r name), (find_layer r' name); intro IH; try exact IH. destruct IH as [A B]. split; [right; exact A|exact B].
Qed.

Lemma locals_same gname gl ms : fresh_locals ms -> forall locals out out', same_inner out out' ->
  rel_inner ms (match_locals (dt_one_layer fMax shuffle tf b thr ang k) L gname gl locals (ms, out))
               (match_locals (dt_one_layer fMax shuffle tf b thr ang k) L' gname gl locals (ms, out')).
Proof.
  intro FR. induction locals as [|[lname w] r IH]; intros out out' SF; cbn [match_locals].
  - right. do 2 eexists. split; [reflexivity|]. split; [reflexivity|exact SF].
  - assert (FS := find_same lname). destruct (find_layer L lname) as [l|], (find_layer L' lname) as [l'|]; try contradiction.
    + destruct FS as (IN & ps & ps' & nn & nn' & -> & -> & P). cbn [ly_points].
      destruct (one_layer_same gl ps ps' gname lname ms out out' P (LIM _ _ _ IN) (FR _ _ _ IN) SF) as [[-> ->]|(f & f' & -> & -> & S2)]; cbn [rbind].
      * left. split; reflexivity.
      * apply IH. destruct w as [w|]; [|exact S2].
        assert (K : forall g, no_shapes g -> no_shapes (if Nat.eqb (length (paired_pt2pt g)) (length (paired_pt2pt out)) then g else add_weight g (length (paired_pt2pt g) - length (paired_pt2pt out)) w))
          by (intros g Z; destruct (Nat.eqb _ _); exact Z).
        destruct S2 as (A & B & C & D). split; [|split; [|split]].
        -- destruct (Nat.eqb (length (paired_pt2pt f)) _), (Nat.eqb (length (paired_pt2pt f')) _); exact A.
        -- destruct (Nat.eqb (length (paired_pt2pt f)) _); exact B.
        -- destruct (Nat.eqb (length (paired_pt2pt f')) _); exact C.
        -- destruct (Nat.eqb (length (paired_pt2pt f)) _), (Nat.eqb (length (paired_pt2pt f')) _); exact D.
    + destruct w; [left; split; reflexivity|]. apply IH. exact SF.
Qed.

Lemma globals_same gs ms : fresh_locals ms -> forall out out', same_inner out out' ->
  rel_inner ms (match_globals (dt_one_layer fMax shuffle tf b thr ang k) b L gs (ms, out)) (match_globals (dt_one_layer fMax shuffle tf b thr ang k) b L' gs (ms, out')).
Proof.
  intro FR. induction gs as [|[gname gl] gs IH]; intros out out' SF; cbn [match_globals].
  - right. do 2 eexists. split; [reflexivity|]. split; [reflexivity|exact SF].
  - destruct (local_layers b gname) as [ls|]; [|apply IH; exact SF].
    destruct (locals_same gname gl ms FR ls out out' SF) as [[-> ->]|(f & f' & -> & -> & S2)]; cbn [rbind].
    + left. split; reflexivity.
    + apply IH. exact S2.
Qed.
End Matching.

(** results of the matchers together: same state, same pairs *)
Definition rel_match (ms : MatchState) (a a' : res (MatchState * ptpairings)) : Prop :=
  (a = Throw /\ a' = Throw) \/ exists f f', a = Ok (ms, f) /\ a' = Ok (ms, f') /\ same_found f f'.

(** the fresh state is the same for both maps, and has no marks *)
Lemma layer_info_same L L' : same_points L L' -> layer_info L = layer_info L'.
Proof.
  induction 1 as [|[n l] [n' l'] r r' H F IH]; [reflexivity|]. cbn [layer_info map]. unfold layer_info in IH. rewrite IH. f_equal.
  destruct H as (E & ps & ps' & nn & nn' & E1 & E2 & P & A & B & C). cbn [fst snd] in *. subst. cbn [ly_nn option_map]. rewrite A, B, C, (Permutation_length P). reflexivity.
Qed.

Lemma same_points_in L L' name ps nn : same_points L L' -> In (name, mkLayer (Some ps) nn) L -> exists n0, nn = Some n0 /\ length (nn_points n0) = length ps.
Proof.
  intro H. induction H as [|[n l] [n' l'] r r' H F IH]; intros []; [|apply IH; assumption].
  destruct H as (E & ps' & ps'' & n1 & n2 & E1 & E2 & P & A & B & C). injection H0 as -> ->. cbn [snd] in E1. injection E1 as -> ->. exists n1. split; [reflexivity|exact A].
Qed.

Lemma fresh_state_unmarked G L L' ms : same_points L L' -> unique_names L -> fresh_ms G L = Ok ms -> fresh_locals L ms.
Proof.
  intros SP U H name ps nn IN i LI. destruct (same_points_in _ _ _ _ _ SP IN) as (n0 & -> & LN).
  unfold fresh_ms in H. destruct (bits_initialize_from (layer_info L) []) as [lb| | ] eqn:E1; cbn [rbind] in H; try discriminate.
  destruct (bits_initialize_from (layer_info G) []) as [gb| | ] eqn:E2; cbn [rbind] in H; try discriminate. injection H as <-. cbn [ms_local].
  assert (ND : NoDup (map fst (layer_info L))) by (unfold layer_info; rewrite map_map; cbn [fst]; exact U).
  assert (E : find (fun kl : nat * LayerInfo => Nat.eqb (fst kl) name) (layer_info L) = Some (name, Some (Some (length (nn_points n0), nn_dense n0)))).
  { clear - IN U. induction L as [|[k0 l0] ls IH]; [destruct IN|]. inversion U as [|? ? Hn Hd]; subst.
    cbn [layer_info map find fst]. destruct IN as [E|IN].
    - injection E as <- ->. rewrite Nat.eqb_refl. cbn [snd ly_nn option_map]. reflexivity.
    - destruct (Nat.eqb_spec k0 name) as [->|]; [exfalso; apply Hn; apply (in_map fst) in IN; exact IN|]. apply IH; assumption. }
  unfold query, lb_at. rewrite (bits_init_find _ _ _ ND E1 name), E. cbn [rbind]. unfold bits_get, bits_assign.
  destruct (nn_dense n0); cbn [dense_ sparse_ existsb]; [|reflexivity].
  destruct (nth_error (repeat false (length (nn_points n0))) i) as [x|] eqn:EX.
  - apply nth_error_In, repeat_spec in EX. subst x. reflexivity.
  - apply nth_error_None in EX. rewrite repeat_length in EX. lia.
Qed.

Lemma fresh_exists G L : exists ms, fresh_ms G L = Ok ms.
Proof.
  assert (X : forall ls m, exists m', init_layers (layer_info ls) m = Ok m').
  { induction ls as [|[n l] ls IH]; intro m; [cbn; eauto|]. cbn [layer_info map init_layers]. destruct (ly_nn (snd (n, l))); cbn [option_map]; apply IH. }
  unfold fresh_ms, bits_initialize_from. destruct (X L []) as [m1 ->]. destruct (X G []) as [m2 ->]. cbn [rbind]. eauto.
Qed.

Lemma same_push a a' f f' : same_found a a' -> same_inner f f' -> same_found (push_back_copy a f) (push_back_copy a' f').
Proof.
  intros (A & B & C & H) (A' & B' & C' & H'). unfold same_found, push_back_copy. cbn [paired_pt2pt potential_pairings]. rewrite !map_app, H, H'.
  split; [apply Permutation_app; assumption|]. unfold only_points, no_shapes in *. cbn [paired_pt2ln paired_pt2pl paired_ln2ln paired_pl2pl point_weights].
  destruct B as (B1 & B2 & B3 & B4 & B5), C as (C1 & C2 & C3 & C4 & C5), B' as (E1 & E2 & E3 & E4), C' as (F1 & F2 & F3 & F4).
  rewrite ?B1, ?B2, ?B3, ?B4, ?B5, ?C1, ?C2, ?C3, ?C4, ?C5, ?E1, ?E2, ?E3, ?E4, ?F1, ?F2, ?F3, ?F4. repeat split.
Qed.

Lemma inner_ctor : same_inner pairings_empty_ctor pairings_empty_ctor.
Proof. repeat split. cbn. constructor. Qed.
Lemma same_ctor : same_found pairings_empty_ctor pairings_empty_ctor.
Proof. repeat split. cbn. constructor. Qed.

(** one distance-threshold matcher with its window of iterations *)
Record DtMatcher := mkDt { dt_base : BaseParams; dt_thr : Q; dt_ang : Q; dt_k : nat; dt_from : nat; dt_upTo : nat }.
Definition dt_matcher (m : DtMatcher) : PointMatcher := DT (dt_base m) (dt_thr m) (dt_ang m) (dt_k m).
(** global points may be shared; no limit of local points that acts on [L] *)
Definition sharing_matcher (L : Layers) (m : DtMatcher) : Prop :=
  allowMatchAlreadyMatchedGlobalPoints (dt_base m) = true /\
  forall name ps nn, In (name, mkLayer (Some ps) nn) L -> maxLocalPointsPerLayer (dt_base m) = 0 \/ length ps <= maxLocalPointsPerLayer (dt_base m).
Definition dt_objects fMax shuffle mround G L tf_of (ms : list DtMatcher) :=
  map (fun m => pose_matcher fMax shuffle mround G L tf_of (dt_matcher m) (dt_from m) (dt_upTo m)) ms.

Section Runs.
Variables (fMax : Q) (shuffle : list nat -> list nat) (mround : Q -> Z) (tf_of : Pose -> P3 -> P3) (G L L' : Layers) (dts : list DtMatcher).
Hypothesis SP : same_points L L'.
Hypothesis UL : unique_names L.
Hypothesis SM : Forall (sharing_matcher L) dts.

Lemma loop_same it T ms : fresh_locals L ms -> forall acc acc', same_found acc acc' ->
  rel_match ms (run_matchers_loop (dt_objects fMax shuffle mround G L tf_of dts) it T ms acc)
               (run_matchers_loop (dt_objects fMax shuffle mround G L' tf_of dts) it T ms acc').
Proof.
  intro FR. assert (X := SM). clear SM. induction X as [|m ms' HM F IH]; intros acc acc' SF; cbn [dt_objects map run_matchers_loop].
  - right. do 2 eexists. split; [reflexivity|]. split; [reflexivity|exact SF].
  - unfold matcher_match, matcher_gate. cbn [pose_matcher m_enabled m_runFromIteration m_runUpToIteration m_impl_match negb].
    assert (SK : rel_match ms (run_matchers_loop (dt_objects fMax shuffle mround G L tf_of ms') it T ms (push_back_copy acc pairings_empty_ctor))
               (run_matchers_loop (dt_objects fMax shuffle mround G L' tf_of ms') it T ms (push_back_copy acc' pairings_empty_ctor)))
      by (apply IH; apply same_push; [exact SF|exact inner_ctor]).
    destruct (Nat.ltb it (dt_from m)); [exact SK|]. destruct (Nat.ltb 0 (dt_upTo m) && Nat.ltb (dt_upTo m) it); [exact SK|].
    unfold pm_matcher. cbn [m_impl_match]. unfold base_impl_match, dt_matcher. cbn [pm_one_layer pm_base]. destruct HM as (A & C).
    destruct (globals_same fMax shuffle (tf_of T) (dt_base m) (dt_thr m) (dt_ang m) (dt_k m) A L L' SP C G ms FR _ _ inner_ctor) as [[-> ->]|(f & f' & -> & -> & S2)]; cbn [rbind].
    + left; split; reflexivity.
    + apply IH. apply same_push; assumption.
Qed.

Lemma matchers_same it T env : exists ms, new_match_state G L env = ms /\ new_match_state G L' env = ms /\
  rel_match ms (run_matchers (dt_objects fMax shuffle mround G L tf_of dts) it T (new_match_state G L env))
               (run_matchers (dt_objects fMax shuffle mround G L' tf_of dts) it T (new_match_state G L' env)).
Proof.
  destruct (fresh_exists G L) as [ms E].
  assert (E' : fresh_ms G L' = Ok ms) by (rewrite <- E; unfold fresh_ms; rewrite (layer_info_same _ _ SP); reflexivity).
  exists ms. unfold new_match_state. rewrite E, E'. split; [reflexivity|]. split; [reflexivity|].
  apply loop_same; [|exact same_ctor]. apply (fresh_state_unmarked G L L'); assumption.
Qed.

(** ** The registration *)
Variables (pose_minus : Pose -> Pose -> Pose) (log_norms : Pose -> Q * Q) (tnorm : Pose -> Q) (realize : nat -> MatchState -> res MatchState)
  (solvers : list (Solver MatchState Pose ptpairings)) (evals : list (@Evaluator MatchState Pose ptpairings))
  (hook : option (@hook_t Pair unit unit unit unit Q MatchState Pose)) (p : IcpParams).
Hypothesis OS : Forall order_free_solver solvers.
Hypothesis OE : Forall order_free_evaluator evals.
Hypothesis OH : order_free_hook hook.
Let comps l := mkComponents (dt_objects fMax shuffle mround G l tf_of dts) solvers evals hook.
Notation state := (@LoopState Pair unit unit unit unit Q MatchState Pose).
Notation event := (@Event Pair unit unit unit unit Q Pose).

Definition rel_detail (d d' : nat * (Pose * ptpairings)) : Prop := fst d = fst d' /\ fst (snd d) = fst (snd d') /\ same_found (snd (snd d)) (snd (snd d')).
Definition rel_state (s s' : state) : Prop :=
  l_env s = l_env s' /\ l_sol s = l_sol s' /\ same_found (l_pairings s) (l_pairings s') /\ l_prev s = l_prev s' /\ l_prev2 s = l_prev2 s' /\
  l_lastCorrection s = l_lastCorrection s' /\ l_latched s = l_latched s' /\ Forall2 rel_detail (l_details s) (l_details s').
Definition rel_step {A} (a a' : res (state * A)) : Prop :=
  match a, a' with
  | Ok (s, o), Ok (s', o') => rel_state s s' /\ o = o'
  | Throw, Throw => True
  | UB, UB => True
  | _, _ => False
  end.

Lemma solvers_same f f' sol sc lat env : same_found f f' -> run_solvers tnorm solvers f sol sc lat env = run_solvers tnorm solvers f' sol sc lat env.
Proof.
  intro SF. revert sol lat env. assert (X := OS). clear OS. induction X as [|s ss H F IH]; intros sol lat env; cbn [run_solvers]; [reflexivity|].
  assert (E : solver_optimal_pose tnorm s f sol sc lat env = solver_optimal_pose tnorm s f' sol sc lat env).
  { unfold solver_optimal_pose. rewrite (H sc f f' env sol SF). reflexivity. }
  rewrite E. destruct (solver_optimal_pose tnorm s f' sol sc lat env) as [[[[e l] ok] o]| | ]; cbn [rbind]; try reflexivity. destruct ok; [reflexivity|apply IH].
Qed.

Lemma evals_same f f' T env : same_found f f' -> evaluate_quality evals T f env = evaluate_quality evals T f' env.
Proof.
  intro SF. assert (E : forall sw se env, evaluate_loop evals T f env sw se = evaluate_loop evals T f' env sw se).
  { assert (X := OE). clear OE. induction X as [|e es H F IH]; intros sw se env0; cbn [evaluate_loop]; [reflexivity|]. destruct (Qltb 0 (relativeWeight e)); [|reflexivity].
    rewrite (H T f f' env0 SF). destruct (e_evaluate e T f' env0) as [[e1 er]| | ]; cbn [rbind]; try reflexivity. destruct (hard_discard er); [reflexivity|apply IH]. }
  unfold evaluate_quality. rewrite E. reflexivity.
Qed.

Lemma empty_same f f' : same_found f f' -> pairings_empty f = pairings_empty f'.
Proof.
  intros (A & (B & C & D & E & _) & (B' & C' & D' & E' & _) & _). unfold pairings_empty. rewrite B, C, D, E, B', C', D', E'. apply Permutation_length in A. rewrite !map_length in A.
  destruct (paired_pt2pt f), (paired_pt2pt f'); cbn in A; try discriminate; reflexivity.
Qed.

Lemma tail_same it s s' : rel_state s s' -> rel_step (iter_tail realize (comps L) p it s) (iter_tail realize (comps L') p it s').
Proof.
  destruct s as [env sol pr pv pv2 lc la de tr], s' as [env' sol' pr' pv' pv2' lc' la' de' tr'].
  intros (A & B & C & D & E & F & H & I0). cbn [l_env l_sol l_pairings l_prev l_prev2 l_lastCorrection l_latched l_details] in *. subst.
  assert (HK : forall env tr tr',
    rel_step (match hook with
     | None => Ok (mkLoop env sol' pr (optimalPose sol') (Some pv') lc' la' de tr, None)
     | Some h => let* r := h it pr sol' env in let '(e', stop) := r in
        if (stop : bool) then Ok (mkLoop e' sol' pr pv' pv2' lc' la' de (tr ++ [EvHook it (optimalPose sol') pr stop]), Some HookRequest)
        else Ok (mkLoop e' sol' pr (optimalPose sol') (Some pv') lc' la' de (tr ++ [EvHook it (optimalPose sol') pr stop]), None) end)
     (match hook with
     | None => Ok (mkLoop env sol' pr' (optimalPose sol') (Some pv') lc' la' de' tr', None)
     | Some h => let* r := h it pr' sol' env in let '(e', stop) := r in
        if (stop : bool) then Ok (mkLoop e' sol' pr' pv' pv2' lc' la' de' (tr' ++ [EvHook it (optimalPose sol') pr' stop]), Some HookRequest)
        else Ok (mkLoop e' sol' pr' (optimalPose sol') (Some pv') lc' la' de' (tr' ++ [EvHook it (optimalPose sol') pr' stop]), None) end)).
  { intros env t t'. destruct hook as [h|].
    - cbn in OH. rewrite (OH it pr pr' sol' env C). destruct (h it pr' sol' env) as [[e1 st]| | ]; cbn [rbind]; try exact I.
      destruct st; cbn; (split; [|reflexivity]); repeat split; try assumption; apply C.
    - cbn. split; [|reflexivity]. repeat split; try assumption; apply C. }
  unfold iter_tail. cbn [l_env l_sol l_pairings l_prev l_prev2 l_lastCorrection l_latched l_details l_trace comps c_hook c_evaluators].
  destruct (find_checkpoint (quality_checkpoints p) it) as [q0|]; [|apply HK].
  destruct (realize it env') as [e1| | ]; cbn [rbind]; try exact I. rewrite (evals_same pr pr' _ e1 C).
  destruct (evaluate_quality evals (optimalPose sol') pr' e1) as [[e2 q]| | ]; cbn [rbind]; try exact I.
  destruct (Qltb q q0); [|apply HK]. cbn. split; [|reflexivity]. repeat split; try assumption; apply C.
Qed.

Lemma body_same hl guess it s s' : rel_state s s' ->
  rel_step (iter_body pose_minus log_norms tnorm realize (new_match_state G L) (comps L) p hl guess it s)
           (iter_body pose_minus log_norms tnorm realize (new_match_state G L') (comps L') p hl guess it s').
Proof.
  destruct s as [env sol pr pv pv2 lc la de tr], s' as [env' sol' pr' pv' pv2' lc' la' de' tr'].
  intros (A & B & C & D & E & F & H & I0). cbn [l_env l_sol l_pairings l_prev l_prev2 l_lastCorrection l_latched l_details] in *. subst.
  unfold iter_body. cbn [l_env l_sol l_pairings l_prev l_prev2 l_lastCorrection l_latched l_details l_trace c_matchers c_solvers comps].
  destruct (realize it env') as [e1| | ]; cbn [rbind]; try exact I.
  destruct (matchers_same it (optimalPose sol') e1) as (ms & N1 & N2 & RM).
  destruct RM as [[-> ->]|(f & f' & -> & -> & SF)]; cbn [rbind]; [exact I|].
  rewrite <- (empty_same _ _ SF). destruct (pairings_empty f).
  { cbn. split; [|reflexivity]. repeat split; try assumption; apply SF. }
  rewrite (solvers_same f f' _ _ _ _ SF).
  destruct (run_solvers tnorm solvers f' sol' _ la' ms) as [[[[e3 lat] ok] sol2]| | ]; cbn [rbind]; try exact I.
  destruct ok; cbn [negb].
  2:{ cbn. split; [|reflexivity]. repeat split; try assumption; apply SF. }
  set (stl := is_stalled p _). destruct (want_details p it stl && negb hl); [exact I|].
  assert (DT : Forall2 rel_detail (if want_details p it stl then de ++ [(it, (optimalPose sol2, f))] else de)
                                  (if want_details p it stl then de' ++ [(it, (optimalPose sol2, f'))] else de')).
  { destruct (want_details p it stl); [|exact I0]. apply Forall2_app; [exact I0|]. constructor; [|constructor]. repeat split; cbn; apply SF. }
  destruct stl.
  - cbn. split; [|reflexivity]. repeat split; try assumption; apply SF.
  - apply tail_same. repeat split; try assumption; apply SF.
Qed.

Lemma icp_loop_same hl guess fuel : forall it s s', rel_state s s' ->
  match icp_loop pose_minus log_norms tnorm realize (new_match_state G L) (comps L) p hl guess fuel it s,
        icp_loop pose_minus log_norms tnorm realize (new_match_state G L') (comps L') p hl guess fuel it s' with
  | Ok (s1, n, r), Ok (s2, n', r') => rel_state s1 s2 /\ n = n' /\ r = r'
  | Throw, Throw => True | UB, UB => True | _, _ => False end.
Proof.
  induction fuel as [|fuel IH]; intros it s s' RS; cbn [icp_loop]; [auto|].
  assert (B := body_same hl guess it s s' RS). unfold rel_step in B.
  destruct (iter_body _ _ _ _ (new_match_state G L) (comps L) p hl guess it s) as [[s1 o]| | ], (iter_body _ _ _ _ (new_match_state G L') (comps L') p hl guess it s') as [[s2 o']| | ]; cbn [rbind]; try contradiction; try exact I.
  destruct B as [R ->]. destruct o' as [o'|]; [auto|]. apply IH. exact R.
Qed.

Lemma align_same wantDebug guess env : same_outcome
  (align pose_minus log_norms tnorm realize (new_match_state G L) (comps L) p false false wantDebug guess env)
  (align pose_minus log_norms tnorm realize (new_match_state G L') (comps L') p false false wantDebug guess env).
Proof.
  unfold align. cbn [comps c_matchers c_solvers c_evaluators].
  assert (NM : isNil (dt_objects fMax shuffle mround G L' tf_of dts) = isNil (dt_objects fMax shuffle mround G L tf_of dts)) by (unfold dt_objects; destruct dts; reflexivity).
  rewrite NM. destruct (_ || _ || _ || _ || _); [exact I|].
  assert (R0 : rel_state (mkLoop env (mkSol guess 1%Q) pairings_empty_ctor guess None None [] [] []) (mkLoop env (mkSol guess 1%Q) pairings_empty_ctor guess None None [] [] [])).
  { repeat split; cbn; constructor. }
  assert (K := icp_loop_same (wantDebug || generateDebugFiles p) guess (maxIterations p) 0 _ _ R0). unfold comps in K.
  destruct (icp_loop _ _ _ _ (new_match_state G L) _ _ _ _ _ _ _) as [[[s1 n] r]| | ], (icp_loop _ _ _ _ (new_match_state G L') _ _ _ _ _ _ _) as [[[s2 n'] r']| | ]; cbn [rbind]; try contradiction; try exact I.
  destruct K as (RS & <- & <-). destruct RS as (A & B & C & D & E & F & H & I0). rewrite <- A, <- B.
  destruct (realize n (l_env s1)) as [e1| | ]; cbn [rbind]; try exact I. rewrite (evals_same _ _ _ _ C).
  destruct (evaluate_quality evals _ _ e1) as [[e2 q]| | ]; cbn [rbind]; try exact I.
  cbn. split; [reflexivity|]. unfold same_results. cbn. split; [reflexivity|]. split; [reflexivity|]. split; [reflexivity|]. split; [reflexivity|]. split; [reflexivity|]. split; [exact C|exact I0].
Qed.
End Runs.

(** The solvers and the quality evaluator of the library are order-free. *)
Lemma found_reordered f f' : same_found f f' -> reordered (to_vpairs f) (to_vpairs f').
Proof.
  intros (A & (B & C & D & E & F) & (B' & C' & D' & E' & F') & H). unfold reordered, to_vpairs. cbn [vp_pts vp_lns vp_pls vp_nPt2Ln vp_nPt2Pl vp_weights]. rewrite B, C, F, B', C', F'. split.
  - assert (K : forall l, map (fun x => (to_v (p_global x), to_v (p_local x))) l = map (fun y => let '(_, g, l, _, _, _) := y in (to_v g, to_v l)) (map no_index l)).
    { intro l. rewrite map_map. reflexivity. }
    rewrite !K. apply Permutation_map. exact A.
  - repeat split; constructor.
Qed.

Lemma closed_order_free id algo : (forall p p', reordered p p' -> vp_nPt2Ln p = 0 -> vp_nPt2Pl p = 0 -> same_solution p p' (algo p) (algo p')) ->
  order_free_solver (closed_solver id algo).
Proof.
  intros H sc f f' env out SF. cbn [closed_solver s_impl].
  assert (Z : vp_nPt2Ln (to_vpairs f) = 0 /\ vp_nPt2Pl (to_vpairs f) = 0).
  { destruct SF as (_ & (B & C & _) & _). unfold to_vpairs. cbn [vp_nPt2Ln vp_nPt2Pl]. rewrite B, C. split; reflexivity. }
  specialize (H _ _ (found_reordered _ _ SF) (proj1 Z) (proj2 Z)). unfold same_solution in H.
  destruct (algo (to_vpairs f)) as [[ok r]| | ], (algo (to_vpairs f')) as [[ok' r']| | ]; cbn [rbind]; try contradiction; try reflexivity.
  destruct H as (-> & E & _). cbn [fst snd]. rewrite E. reflexivity.
Qed.

Theorem C341_library_components_ignore_the_order :
  forall eig solve convert wp id w amin,
  order_free_solver (closed_solver id (horn_algo eig convert wp)) /\ order_free_solver (closed_solver id (olae_algo solve convert wp)) /\
  order_free_evaluator (ratio_evaluator w amin).
Proof.
  intros eig solve convert wp id w amin. split; [|split].
  - apply closed_order_free. intros p p' RO A B. apply (C340_solvers_ignore_the_order eig convert solve p p' wp RO A B).
  - apply closed_order_free. intros p p' RO A B. apply (C340_solvers_ignore_the_order eig convert solve p p' wp RO A B).
  - intros T f f' env (A & (B & C & D & E & _) & (B' & C' & D' & E' & _) & H). cbn [ratio_evaluator e_evaluate]. unfold paired_ratio_evaluate, paired_ratio_of, pairings_size.
    rewrite H, B, C, D, E, B', C', D', E'. apply Permutation_length in A. rewrite !map_length in A. rewrite A. reflexivity.
Qed.

(** C341: two local maps with the same layers and points, in whatever order: ICP::align gives the same
    pose, scale, quality, number of iterations and reason to stop, and the same pairs up to their order
    and the local indices; or it fails for both. *)
Theorem C341_order_of_the_local_points :
  forall fMax shuffle mround tf_of G L L' dts pose_minus log_norms tnorm realize solvers evals hook p wantDebug guess env,
  same_points L L' -> unique_names L -> Forall (sharing_matcher L) dts ->
  Forall order_free_solver solvers -> Forall order_free_evaluator evals -> order_free_hook hook ->
  same_outcome
    (align pose_minus log_norms tnorm realize (new_match_state G L)
       (mkComponents (dt_objects fMax shuffle mround G L tf_of dts) solvers evals hook) p false false wantDebug guess env)
    (align pose_minus log_norms tnorm realize (new_match_state G L')
       (mkComponents (dt_objects fMax shuffle mround G L' tf_of dts) solvers evals hook) p false false wantDebug guess env).
Proof. intros. apply align_same; assumption. Qed.

(** The default pipeline: one matcher, Horn's solver, the ratio of paired points. *)
Theorem C341_default_pipeline :
  forall fMax shuffle mround tf_of G L L' m eig convert wp w amin pose_minus log_norms tnorm p wantDebug guess env,
  same_points L L' -> unique_names L -> sharing_matcher L m -> dt_from m = 0 -> dt_upTo m = 0 ->
  same_outcome
    (registration fMax shuffle mround G L tf_of pose_minus log_norms tnorm (dt_matcher m) (horn_algo eig convert wp) w amin p wantDebug guess env)
    (registration fMax shuffle mround G L' tf_of pose_minus log_norms tnorm (dt_matcher m) (horn_algo eig convert wp) w amin p wantDebug guess env).
Proof.
  intros * SP UL SM F0 U0. unfold registration, registration_with.
  assert (K := C341_order_of_the_local_points fMax shuffle mround tf_of G L L' [m] pose_minus log_norms tnorm (fun _ e => Ok e) [closed_solver 0 (horn_algo eig convert wp)] [ratio_evaluator w amin] None p wantDebug guess env SP UL).
  destruct (C341_library_components_ignore_the_order eig (fun _ v => v) convert wp 0 w amin) as (A & _ & B).
  specialize (K ltac:(constructor; [exact SM|constructor]) ltac:(constructor; [exact A|constructor]) ltac:(constructor; [exact B|constructor]) I).
  unfold dt_objects in K. cbn [map] in K. rewrite F0, U0 in K. exact K.
Qed.
