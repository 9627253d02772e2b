(** C93-C97: the Gauss-Newton solver, exact starting points and concrete runs. *)
From Coq Require Import Reals List Lra Lia Psatz.
From Verif Require Import Base GeomModel VisitModel VisitSpec VisitProps GnModel GnSpec GnProps.
Import ListNotations.
Open Scope R_scope.

(** ** C97: an exact starting point is returned unchanged *)

(** every pairing is satisfied by the pose: points on their points, lines and planes, equal normals.
    Line pairs are left out: error_line2line leaves components unset for them (C77). *)
Definition exact_at (T : Pose) (p : GPairs) : Prop :=
  Forall (fun x => compose T (snd x) = fst x) (gp_pt2pt p) /\
  Forall (fun x => exists t, compose T (snd x) = vadd (l_base (fst x)) (vscale t (l_dir (fst x))) /\ vnorm2 (l_dir (fst x)) = 1) (gp_pt2ln p) /\
  Forall (fun x => vdot (n_ (fst x)) (compose T (snd x)) + d_ (fst x) = 0) (gp_pt2pl p) /\
  Forall (fun x => rotate T (n_ (snd x)) = n_ (fst x)) (gp_pl2pl p) /\
  gp_ln2ln p = [].

Lemma sq_rows_of e J : e = mkV 0 0 0 -> sq_norm (rows_of e J) = 0.
Proof. intros ->. unfold rows_of, l3. cbn [vx vy vz]. destruct J as [|a [|b [|c J]]]; simpl; ring. Qed.

Lemma fold_err {A} T par w (f : Pose -> A -> rows) xs : Forall (fun x => sq_norm (f T x) = 0) xs ->
  forall a, a_err (fold_left (fun a x => add_term T true par w a (f T x)) xs a) = a_err a.
Proof.
  induction 1 as [|x xs E F IH]; intros a; cbn [fold_left]; [reflexivity|]. rewrite IH. cbn [add_term a_err]. rewrite E. ring.
Qed.

Lemma exact_rows T p : exact_at T p ->
  Forall (fun x => sq_norm (rows_pt2pt T x) = 0) (gp_pt2pt p) /\ Forall (fun x => sq_norm (rows_pt2ln T x) = 0) (gp_pt2ln p) /\
  Forall (fun x => sq_norm (rows_pt2pl T x) = 0) (gp_pt2pl p) /\ Forall (fun x => sq_norm (rows_pl2pl T x) = 0) (gp_pl2pl p).
Proof.
  intros (P & L & F & N & _). repeat split; (eapply Forall_impl; [|eassumption]); intros [g l] E; cbn [fst snd] in E; apply sq_rows_of; cbn [fst snd].
  - unfold error_point2point. rewrite E. f_equal; ring.
  - destruct E as [t [E U]]. unfold error_point2line. rewrite E. destruct g as [[b0 b1 b2] [u0 u1 u2]]. cbn [l_base l_dir] in *. clear E.
    unfold vnorm2, vdot in U. cbn [vx vy vz] in U. unfold vsub, vadd, vscale, vdot. cbn [vx vy vz].
    assert (Q : u0 * (b0 + t * u0 - b0) + u1 * (b1 + t * u1 - b1) + u2 * (b2 + t * u2 - b2) = t) by (transitivity (t * (u0 * u0 + u1 * u1 + u2 * u2)); [ring|rewrite U; ring]).
    rewrite Q. f_equal; ring.
  - unfold error_point2plane. cbv zeta. unfold vdot in E. rewrite E. f_equal; ring.
  - unfold error_plane2plane. cbv zeta. rewrite E. f_equal; ring.
Qed.

Lemma last_err par p T a : exact_at T p -> a_err (last_terms par p T a) = a_err a.
Proof.
  intros X. destruct (exact_rows T p X) as (_ & _ & _ & N). unfold last_terms.
  assert (E := fold_err T par (g_w_pl2pl par) rows_pl2pl _ N a).
  destruct (g_prior par) as [f|]; [|exact E]. destruct (f T). exact E.
Qed.
Lemma middle_err par p T a : exact_at T p -> exists a', middle_terms par p T a = Ok a' /\ a_err a' = a_err a.
Proof.
  intros X. destruct (exact_rows T p X) as (_ & L & _ & _). destruct X as (_ & _ & _ & _ & NL). unfold middle_terms. rewrite NL. cbn [seq_lines].
  eexists. split; [reflexivity|]. apply fold_err. exact L.
Qed.

Lemma seq_points_err par p T ps : Forall (fun x => sq_norm (rows_pt2pt T x) = 0) ps -> (gp_weights p = [] \/ gp_weights p <> []) ->
  forall i c a, (weighted p = true -> cursor_at (gp_weights p) c i /\ (i + length ps <= block_total (gp_weights p))%nat) ->
  exists a' c', seq_points par p T i ps c a = Ok (a', c') /\ a_err a' = a_err a.
Proof.
  intros F _. induction F as [|x ps E F IH]; intros i c a H; cbn [seq_points].
  - do 2 eexists. split; reflexivity.
  - assert (S : exists w c', next_weight (weighted p) par i c = Ok (w, c') /\ (weighted p = true -> cursor_at (gp_weights p) c' (S i))).
    { destruct (weighted p) eqn:W.
      - destruct (H eq_refl) as [CA LE]. cbn [length] in LE. destruct (cursor_step par _ _ _ CA ltac:(lia)) as [w [c' [A [_ B]]]]. exists w, c'. auto.
      - exists (g_w_pt2pt par), c. split; [reflexivity|discriminate]. }
    destruct S as [w [c' [-> CA']]]. cbn [rbind].
    destruct (IH (S i) c' (add_term T false par w a (rows_pt2pt T x))) as [a' [c2 [R R2]]].
    { intros W. split; [apply CA'; exact W|]. destruct (H W) as [_ LE]. cbn [length] in LE. lia. }
    exists a', c2. split; [exact R|]. rewrite R2. cbn [add_term a_err]. rewrite E. ring.
Qed.

(** C97: if every pairing is satisfied exactly by the linearisation point, it is returned
    unchanged by both builds, with any weights, kernel and prior; the racing additions of zeros
    of the TBB build leave a zero. *)
Theorem C97_exact_start_is_returned : forall ldlt exp6 par p T0 build,
  g_point par = Some T0 -> exact_at T0 p -> 0 <= g_max_cost par ->
  (gp_weights p = [] \/ (good_blocks p /\ build 0%nat = None)) ->
  (forall s l, build 0%nat = Some s -> Forall (fun e => e = 0) l -> s_race s l = 0) ->
  exists log, optimal_tf_gauss_newton ldlt exp6 par p build = Ok (true, T0, log).
Proof.
  intros ldlt exp6 par p T0 build GP X MC WB RC. unfold optimal_tf_gauss_newton. rewrite GP.
  destruct (g_max_inner par) as [|fuel]; cbn [gn_loop rbind]; [eexists; reflexivity|].
  assert (Z : sqrt 0 <= g_max_cost par) by (rewrite sqrt_0; exact MC).
  destruct (exact_rows T0 p X) as (FP & FL & FF & FN).
  assert (IT : exists a c, match build 0%nat with None => iter_seq par p T0 ne_zero (mkCur (gp_weights p) 0)
     | Some s => iter_tbb par p T0 s (mkCur (gp_weights p) 0) end = Ok (a, c) /\ a_err a = 0).
  { destruct (build 0%nat) as [s|] eqn:B.
    - destruct WB as [NW|[_ Q]]; [|discriminate Q]. unfold iter_tbb. rewrite unweighted_cursor by exact NW. cbn [rbind].
      set (wt := assigned _ _). 
      assert (R1 : s_race s (map (point_err par p T0 wt) (seq 0 (length (gp_pt2pt p)))) = 0).
      { apply (RC s); [reflexivity|]. rewrite Forall_map. apply Forall_forall. intros i _. unfold point_err. destruct (nth_error (gp_pt2pt p) i) eqn:E; [|reflexivity].
        apply nth_error_In in E. rewrite Forall_forall in FP. rewrite (FP _ E). ring. }
      assert (R2 : s_race s (map (plane_err par p T0) (seq 0 (length (gp_pt2pl p)))) = 0).
      { apply (RC s); [reflexivity|]. rewrite Forall_map. apply Forall_forall. intros i _. unfold plane_err. destruct (nth_error (gp_pt2pl p) i) eqn:E; [|reflexivity].
        apply nth_error_In in E. rewrite Forall_forall in FF. rewrite (FF _ E). ring. }
      rewrite R1, R2. destruct (middle_err par p T0 (mkAcc (reduce (point_ne par p T0 wt) (s_pt s)) 0) X) as [a' [-> EA]]. cbn [rbind].
      do 2 eexists. split; [reflexivity|]. rewrite last_err by exact X. cbn [a_err]. rewrite EA. cbn [a_err]. ring.
    - unfold iter_seq. destruct (seq_points_err par p T0 (gp_pt2pt p) FP ltac:(destruct (gp_weights p); [left; reflexivity|right; discriminate]) 0 (mkCur (gp_weights p) 0) (mkAcc ne_zero 0)) as [a [c [-> EA]]].
      { intros W. unfold weighted in W. destruct WB as [NW|[[PB TB] _]]; [rewrite NW in W; discriminate W|]. split; [|rewrite TB; lia].
        destruct (gp_weights p) as [|[n w] bs]; [discriminate W|]. unfold cursor_at. cbn [cur_start cur_blocks]. split; [lia|].
        assert (P1 := Forall_inv PB). assert (P2 := Forall_inv_tail PB). cbn [fst] in P1.
        split; [|intros j _; rewrite Nat.sub_0_r; reflexivity]. exists n, w, bs. repeat split; try assumption; lia. }
      cbn [rbind]. destruct (middle_err par p T0 a X) as [a' [-> EA']]. cbn [rbind]. do 2 eexists. split; [reflexivity|].
      rewrite last_err by exact X. rewrite (fold_err T0 par (g_w_pt2pl par) rows_pt2pl _ FF). rewrite EA', EA. reflexivity. }
  destruct IT as [a [c [-> EA]]]. cbn [rbind]. rewrite EA. destruct (Rle_dec (sqrt 0) (g_max_cost par)); [|contradiction]. eexists. reflexivity.
Qed.

(** ** Concrete runs: the local point is the origin, so that only the translation matters *)
Definition Tv (v : V3) : Pose := mkPose (mkV 1 0 0) (mkV 0 1 0) (mkV 0 0 1) v.
Definition diag (w : R) : M66 := mkM6 (mk6 w 0 0 0 0 0) (mk6 0 w 0 0 0 0) (mk6 0 0 w 0 0 0) zero6 zero6 zero6.
Definition NEt (w gx gy gz : R) : NE := mkNE (diag w) (mk6 gx gy gz 0 0 0).
Lemma NEt_add w gx gy gz w' gx' gy' gz' : ne_add (NEt w gx gy gz) (NEt w' gx' gy' gz') = NEt (w + w') (gx + gx') (gy + gy') (gz + gz').
Proof. unfold NEt, diag. d6. f_equal; f_equal; try (f_equal; ring); ring. Qed.
Lemma NEt_0 : ne_zero = NEt 0 0 0 0.
Proof. reflexivity. Qed.
Lemma row_Tv v :
  row6 (Tv v) [0; 0; 0; 0; 0; 0; 0; 0; 0; 1; 0; 0] = mk6 1 0 0 0 0 0 /\
  row6 (Tv v) [0; 0; 0; 0; 0; 0; 0; 0; 0; 0; 1; 0] = mk6 0 1 0 0 0 0 /\
  row6 (Tv v) [0; 0; 0; 0; 0; 0; 0; 0; 0; 0; 0; 1] = mk6 0 0 1 0 0 0.
Proof.
  destruct v as [v0 v1 v2]. unfold row6, dDexpe_de, vec, vscale, vzero3, Tv. cbn [nth dotl vx vy vz c0 c1 c2 tr].
  split; [|split]; f_equal; ring.
Qed.
Lemma rows_Tv v g : rows_pt2pt (Tv v) (g, vzero3) =
  [(vx v - vx g, [0; 0; 0; 0; 0; 0; 0; 0; 0; 1; 0; 0]); (vy v - vy g, [0; 0; 0; 0; 0; 0; 0; 0; 0; 0; 1; 0]); (vz v - vz g, [0; 0; 0; 0; 0; 0; 0; 0; 0; 0; 0; 1])].
Proof.
  destruct v as [v0 v1 v2], g as [g0 g1 g2]. unfold rows_pt2pt, rows_of, error_point2point, jac_point2point, Jpoint, compose, rotate, vadd, vscale, Tv, vzero3, l3.
  cbn [fst snd vx vy vz c0 c1 c2 tr combine]. repeat (f_equal; try ring).
Qed.
Definition NE3 (p q r gx gy gz : R) : NE := mkNE (mkM6 (mk6 p 0 0 0 0 0) (mk6 0 q 0 0 0 0) (mk6 0 0 r 0 0 0) zero6 zero6 zero6) (mk6 gx gy gz 0 0 0).
Lemma NE3_add p q r x y z p' q' r' x' y' z' : ne_add (NE3 p q r x y z) (NE3 p' q' r' x' y' z') = NE3 (p + p') (q + q') (r + r') (x + x') (y + y') (z + z').
Proof. unfold NE3. d6. f_equal; f_equal; try (f_equal; ring); ring. Qed.
Lemma NE3_ext p q r x y z p' q' r' x' y' z' : p = p' -> q = q' -> r = r' -> x = x' -> y = y' -> z = z' -> NE3 p q r x y z = NE3 p' q' r' x' y' z'.
Proof. intros -> -> -> -> -> ->. reflexivity. Qed.
Lemma unit_ne w e : mkNE (outer6 w (mk6 1 0 0 0 0 0)) (scale6 (w * e) (mk6 1 0 0 0 0 0)) = NE3 w 0 0 (w * e) 0 0 /\
  mkNE (outer6 w (mk6 0 1 0 0 0 0)) (scale6 (w * e) (mk6 0 1 0 0 0 0)) = NE3 0 w 0 0 (w * e) 0 /\
  mkNE (outer6 w (mk6 0 0 1 0 0 0)) (scale6 (w * e) (mk6 0 0 1 0 0 0)) = NE3 0 0 w 0 0 (w * e).
Proof.
  unfold outer6, scale6, NE3, zero6. cbn [x0 x1 x2 x3 x4 x5].
  split; [|split]; f_equal; f_equal; try (f_equal; ring); ring.
Qed.
Lemma term_Tv v g w : term_ne (Tv v) w (rows_pt2pt (Tv v) (g, vzero3)) = NEt w (w * (vx v - vx g)) (w * (vy v - vy g)) (w * (vz v - vz g)).
Proof.
  rewrite rows_Tv. unfold term_ne. cbn [fold_left fst snd]. destruct (row_Tv v) as (-> & -> & ->).
  destruct (unit_ne w (vx v - vx g)) as (-> & _). destruct (unit_ne w (vy v - vy g)) as (_ & -> & _). destruct (unit_ne w (vz v - vz g)) as (_ & _ & ->).
  change ne_zero with (NE3 0 0 0 0 0 0). rewrite !NE3_add. change (NEt w) with (NE3 w w w). apply NE3_ext; ring.
Qed.
Lemma sq_Tv v g : sq_norm (rows_pt2pt (Tv v) (g, vzero3)) =
  (vx v - vx g) * (vx v - vx g) + (vy v - vy g) * (vy v - vy g) + (vz v - vz g) * (vz v - vz g).
Proof.
  destruct v as [v0 v1 v2], g as [g0 g1 g2]. unfold rows_pt2pt, rows_of, error_point2point, jac_point2point, Jpoint, compose, rotate, vadd, vscale, Tv, vzero3, l3.
  cbn [fst snd vx vy vz c0 c1 c2 tr combine]. unfold sq_norm. cbn [fold_right fst]. ring.
Qed.
(** a solver of these diagonal systems, and the exponential of a pure translation *)
Definition ldlt_t (H : M66) (g : V6) : V6 := mk6 (x0 g / x0 (r0 H)) (x1 g / x1 (r1 H)) (x2 g / x2 (r2 H)) 0 0 0.
Definition exp_t (d : V6) : Pose := Tv (mkV (x0 d) (x1 d) (x2 d)).
Lemma ldlt_t_solves w gx gy gz : w <> 0 -> mulMV (diag w) (ldlt_t (diag w) (mk6 gx gy gz 0 0 0)) = mk6 gx gy gz 0 0 0.
Proof. intros W. unfold ldlt_t, diag. d6. f_equal; field; exact W. Qed.
Definition move (v : V3) (w gx gy gz : R) : V3 := mkV (vx v - gx / w) (vy v - gy / w) (vz v - gz / w).
Lemma padd_Tv v w gx gy gz : padd_pose (Tv v) (exp_t (scale6 (-1) (ldlt_t (ne_H (NEt w gx gy gz)) (ne_g (NEt w gx gy gz))))) = Tv (move v w gx gy gz).
Proof.
  destruct v as [v0 v1 v2]. unfold NEt, diag, ldlt_t, exp_t, move, padd_pose, compose, rotate, vadd, vscale, Tv, scale6.
  cbn [ne_H ne_g r0 r1 r2 x0 x1 x2 c0 c1 c2 tr vx vy vz]. f_equal; f_equal; unfold Rdiv; ring.
Qed.

Definition tpar (n : nat) : GParams := mkGPar (Some (Tv vzero3)) n 0 0 None 1 1 1 1 1 None.
Definition tpairs (gs : list V3) (ws : list (nat * R)) : GPairs := mkGP (map (fun g => (g, vzero3)) gs) [] [] [] [] ws.

(** weighted squared distance of the global points to the translation *)
Definition cost_t (l : list (R * V3)) (v : V3) : R := rsum (fun x => fst x * vnorm2 (vsub v (snd x))) l.

Lemma loop_step build fuel k v prev c log w gx gy gz e c' n p :
  match build k with None => iter_seq (tpar n) p (Tv v) prev c | Some s => iter_tbb (tpar n) p (Tv v) s c end = Ok (mkAcc (NEt w gx gy gz) e, c') ->
  0 < e ->
  gn_loop ldlt_t exp_t (tpar n) p build (S fuel) k (Tv v) prev c log =
  gn_loop ldlt_t exp_t (tpar n) p build fuel (S k) (Tv (move v w gx gy gz)) (NEt w gx gy gz) c' (log ++ [mkStep (Tv v) (NEt w gx gy gz) e]).
Proof.
  intros E P. cbn [gn_loop]. rewrite E. cbn [rbind a_err a_ne]. change (g_max_cost (tpar n)) with 0. change (g_min_delta (tpar n)) with 0.
  destruct (Rle_dec (sqrt e) 0) as [L|_]; [exfalso; assert (Q := sqrt_lt_R0 e P); lra|].
  destruct (Rlt_dec _ 0) as [L|_]; [exfalso; revert L; apply Rle_not_lt, sqrt_pos|].
  rewrite padd_Tv. reflexivity.
Qed.

Lemma NEt_ext w gx gy gz w' gx' gy' gz' : w = w' -> gx = gx' -> gy = gy' -> gz = gz' -> NEt w gx gy gz = NEt w' gx' gy' gz'.
Proof. congruence. Qed.
Lemma Acc_ext n n' e e' : n = n' -> e = e' -> mkAcc n e = mkAcc n' e'.
Proof. congruence. Qed.

(** Finding: the build without TBB overshoots.  Two points that pull the translation to (1,+-1,0): the first step
    reaches the optimum (1,0,0); the second one adds the old gradient to the (null) new one, moves to
    (3/2,0,0), and that pose is returned. *)
Theorem C93_sequential_build_overshoots_refuted :
  exists par p T1 T2 s1 s2, g_max_inner par = 2%nat /\ gp_weights p = [] /\
    optimal_tf_gauss_newton ldlt_t exp_t par p (fun _ => None) = Ok (true, T2, [s1; s2]) /\
    st_pose s2 = T1 /\
    (* T1 is stationary and optimal *)
    rsum (fun r => w_w r * w_e r * x0 (w_j r)) (all_rows par p T1) = 0 /\
    (forall v, cost_t [(1, mkV 1 1 0); (1, mkV 1 (-1) 0)] (tr T1) <= cost_t [(1, mkV 1 1 0); (1, mkV 1 (-1) 0)] v) /\
    cost_t [(1, mkV 1 1 0); (1, mkV 1 (-1) 0)] (tr T1) < cost_t [(1, mkV 1 1 0); (1, mkV 1 (-1) 0)] (tr T2).
Proof.
  exists (tpar 2), (tpairs [mkV 1 1 0; mkV 1 (-1) 0] []), (Tv (mkV 1 0 0)), (Tv (mkV (3/2) 0 0)).
  exists (mkStep (Tv vzero3) (NEt 2 (-2) 0 0) 4), (mkStep (Tv (mkV 1 0 0)) (NEt 4 (-2) 0 0) 2).
  split; [reflexivity|]. split; [reflexivity|]. split; [|split; [reflexivity|]].
  - unfold optimal_tf_gauss_newton. change (g_point (tpar 2)) with (Some (Tv vzero3)). cbn iota. change (g_max_inner (tpar 2)) with 2%nat.
    set (p := tpairs _ _). set (c := mkCur _ _).
    assert (I : forall v prev, iter_seq (tpar 2) p (Tv v) prev c =
      Ok (mkAcc (ne_add (ne_add prev (NEt 1 (vx v - 1) (vy v - 1) (vz v))) (NEt 1 (vx v - 1) (vy v + 1) (vz v)))
        (((vx v - 1) * (vx v - 1) + (vy v - 1) * (vy v - 1) + vz v * vz v) + ((vx v - 1) * (vx v - 1) + (vy v + 1) * (vy v + 1) + vz v * vz v)), c)).
    { intros v prev. unfold iter_seq. change (gp_pt2pt p) with [(mkV 1 1 0, vzero3); (mkV 1 (-1) 0, vzero3)]. cbn [seq_points next_weight].
      change (weighted p) with false. cbn [next_weight rbind]. unfold middle_terms. change (gp_ln2ln p) with (@nil (Line * Line)). change (gp_pt2ln p) with (@nil (Line * V3)).
      cbn [seq_lines fold_left rbind]. change (gp_pt2pl p) with (@nil (Plane * V3)). cbn [fold_left]. unfold last_terms. change (gp_pl2pl p) with (@nil (Plane * Plane)).
      cbn [fold_left]. change (g_prior (tpar 2)) with (@None (Pose -> M66 * V6)). cbn iota. unfold add_term, kernel_w. change (g_kernel (tpar 2)) with (@None (R -> R)). cbn iota. cbn [a_ne a_err].
      change (g_w_pt2pt (tpar 2)) with 1. rewrite !term_Tv, !sq_Tv. cbn [vx vy vz]. do 2 f_equal. apply Acc_ext; [|ring].
      f_equal; [f_equal|]; apply NEt_ext; ring. }
    erewrite (loop_step (fun _ => None) 1 0 vzero3 ne_zero c [] 2 (-2) 0 0 4 c 2 p); [| |lra].
    2:{ rewrite I, NEt_0, !NEt_add. unfold vzero3. cbn [vx vy vz]. do 2 f_equal. apply Acc_ext; [apply NEt_ext; ring|ring]. }
    replace (move vzero3 2 (-2) 0 0) with (mkV 1 0 0) by (unfold move, vzero3; cbn [vx vy vz]; f_equal; field).
    erewrite (loop_step (fun _ => None) 0 1 (mkV 1 0 0) _ c _ 4 (-2) 0 0 2 c 2 p); [| |lra].
    2:{ rewrite I, !NEt_add. cbn [vx vy vz]. do 2 f_equal. apply Acc_ext; [apply NEt_ext; ring|ring]. }
    cbn [gn_loop rbind app]. do 3 f_equal. unfold move. cbn [vx vy vz]. f_equal. f_equal; field.
  - split; [|split].
    + unfold all_rows, all_rows_with, tpairs. cbn [gp_pt2pt gp_pt2ln gp_ln2ln gp_pt2pl gp_pl2pl class_rows flat_map map point_rows app].
      unfold robust. change (g_kernel (tpar 2)) with (@None (R -> R)). cbn iota. unfold point_weight. cbn [gp_weights]. change (g_w_pt2pt (tpar 2)) with 1.
      unfold rows_pt2pt, rows_of, error_point2point, jac_point2point, Jpoint, compose, rotate, vadd, vscale, Tv, vzero3, l3. cbn [fst snd vx vy vz c0 c1 c2 tr combine].
      unfold wrows. cbn [map fst snd app rsum w_w w_e w_j]. unfold row6, dDexpe_de, vec, vzero3, vscale. cbn [nth dotl vx vy vz c0 c1 c2 tr x0]. ring.
    + intros [a b c]. unfold cost_t, Tv. cbn [rsum fst snd tr]. unfold vnorm2, vdot, vsub. cbn [vx vy vz].
      assert (0 <= (a - 1) * (a - 1)) by apply Rle_0_sqr. assert (0 <= b * b) by apply Rle_0_sqr. assert (0 <= c * c) by apply Rle_0_sqr. lra.
    + unfold cost_t, Tv. cbn [rsum fst snd tr]. unfold vnorm2, vdot, vsub. cbn [vx vy vz]. lra.
Qed.

(** ** The TBB build with individual weights *)
Definition plus_all (l : list R) : R := fold_right Rplus 0 l.
Definition sched_of (order : list nat) (race : list R -> R) : Sched := mkSched (RBody 0 2) (RBody 0 0) order race.

Lemma tbb_two par_n a b ws order c l c' v race :
  let p := tpairs [a; b] ws in
  cursor_weights (tpar par_n) p order c = Ok (l, c') ->
  let wa := assigned (tpar par_n) l 0 in let wb := assigned (tpar par_n) l 1 in
  iter_tbb (tpar par_n) p (Tv v) (sched_of order race) c =
    Ok (mkAcc (NEt (wa + wb) (wa * (vx v - vx a) + wb * (vx v - vx b)) (wa * (vy v - vy a) + wb * (vy v - vy b)) (wa * (vz v - vz a) + wb * (vz v - vz b)))
      (race [wa * vnorm2 (vsub v a); wb * vnorm2 (vsub v b)] + race []), c').
Proof.
  intros p CW wa wb. unfold iter_tbb. cbn [sched_of s_order s_pt s_pl s_race]. rewrite CW. cbn [rbind].
  unfold middle_terms. change (gp_ln2ln p) with (@nil (Line * Line)). change (gp_pt2ln p) with (@nil (Line * V3)). cbn [seq_lines fold_left rbind].
  change (gp_pt2pl p) with (@nil (Plane * V3)). unfold last_terms. change (gp_pl2pl p) with (@nil (Plane * Plane)). cbn [fold_left].
  change (g_prior (tpar par_n)) with (@None (Pose -> M66 * V6)). cbn iota. cbn [length seq map reduce a_ne a_err].
  change (length (gp_pt2pt p)) with 2%nat. cbn [seq map].
  unfold body. cbn [Nat.sub seq fold_left]. unfold point_ne, point_err. change (gp_pt2pt p) with [(a, vzero3); (b, vzero3)]. cbn [nth_error].
  unfold kernel_w. change (g_kernel (tpar par_n)) with (@None (R -> R)). cbn iota. rewrite !term_Tv, !sq_Tv, NEt_0, !NEt_add. fold wa. fold wb.
  do 2 f_equal; try reflexivity. apply Acc_ext; [apply NEt_ext; ring|].
  unfold vnorm2, vdot, vsub. cbn [vx vy vz]. reflexivity.
Qed.

Definition pull : GPairs := tpairs [mkV 1 0 0; mkV (-1) 0 0] [(1%nat, 1); (1%nat, 3)].
Definition pull_cost : V3 -> R := cost_t [(1, mkV 1 0 0); (3, mkV (-1) 0 0)].
Lemma pull_best v : pull_cost (mkV (-1/2) 0 0) <= pull_cost v.
Proof.
  destruct v as [a b c]. unfold pull_cost, cost_t. cbn [rsum fst snd]. unfold vnorm2, vdot, vsub. cbn [vx vy vz].
  assert (0 <= (a + 1/2) * (a + 1/2)) by apply Rle_0_sqr. assert (0 <= b * b) by apply Rle_0_sqr. assert (0 <= c * c) by apply Rle_0_sqr. lra.
Qed.
Lemma pull_fair order race : fair pull (sched_of order race).
Proof. split; constructor; simpl; lia. Qed.

(** Finding: the cursor over the weight blocks is not reset between inner iterations: from the second one on
    every point has the weight of the last block.  Even when TBB runs the loop in order on a single thread the
    solver reaches the weighted optimum (-1/2,0,0) in the first step and leaves it in the second. *)
Theorem C94_second_iteration_uses_last_weight_refuted :
  exists s T2 s1 s2, s = sched_of [0%nat; 1%nat] plus_all /\ fair pull s /\ good_blocks pull /\
    optimal_tf_gauss_newton ldlt_t exp_t (tpar 2) pull (tbb (fun _ => s)) = Ok (true, T2, [s1; s2]) /\
    normal_equations (all_rows (tpar 2) pull (st_pose s1)) (st_ne s1) /\
    ~ normal_equations (all_rows (tpar 2) pull (st_pose s2)) (st_ne s2) /\
    (forall v, pull_cost (tr (st_pose s2)) <= pull_cost v) /\
    pull_cost (tr (st_pose s2)) < pull_cost (tr T2).
Proof.
  exists (sched_of [0%nat; 1%nat] plus_all), (Tv vzero3).
  exists (mkStep (Tv vzero3) (NEt 4 2 0 0) 4), (mkStep (Tv (mkV (-1/2) 0 0)) (NEt 6 (-3) 0 0) (15/2)).
  split; [reflexivity|]. split; [apply pull_fair|]. split; [split; [repeat constructor|reflexivity]|].
  assert (I1 : forall v, iter_tbb (tpar 2) pull (Tv v) (sched_of [0%nat; 1%nat] plus_all) (mkCur [(1%nat, 1); (1%nat, 3)] 0) =
    Ok (mkAcc (NEt 4 (1 * (vx v - 1) + 3 * (vx v + 1)) (1 * vy v + 3 * vy v) (1 * vz v + 3 * vz v))
      (1 * vnorm2 (vsub v (mkV 1 0 0)) + 3 * vnorm2 (vsub v (mkV (-1) 0 0))), mkCur [(1%nat, 3)] 1)).
  { intros v. unfold pull. rewrite (tbb_two 2 _ _ _ [0%nat; 1%nat] _ [(0%nat, 1); (1%nat, 3)] (mkCur [(1%nat, 3)] 1)) by reflexivity.
    unfold assigned. cbn [find fst Nat.eqb vx vy vz]. do 2 f_equal. apply Acc_ext; [apply NEt_ext; ring|]. unfold plus_all. cbn [fold_right]. ring. }
  assert (I2 : forall v, iter_tbb (tpar 2) pull (Tv v) (sched_of [0%nat; 1%nat] plus_all) (mkCur [(1%nat, 3)] 1) =
    Ok (mkAcc (NEt 6 (3 * (vx v - 1) + 3 * (vx v + 1)) (3 * vy v + 3 * vy v) (3 * vz v + 3 * vz v))
      (3 * vnorm2 (vsub v (mkV 1 0 0)) + 3 * vnorm2 (vsub v (mkV (-1) 0 0))), mkCur [(1%nat, 3)] 1)).
  { intros v. unfold pull. rewrite (tbb_two 2 _ _ _ [0%nat; 1%nat] _ [(0%nat, 3); (1%nat, 3)] (mkCur [(1%nat, 3)] 1)) by reflexivity.
    unfold assigned. cbn [find fst Nat.eqb vx vy vz]. do 2 f_equal. apply Acc_ext; [apply NEt_ext; ring|]. unfold plus_all. cbn [fold_right]. ring. }
  assert (RUN : optimal_tf_gauss_newton ldlt_t exp_t (tpar 2) pull (tbb (fun _ => sched_of [0%nat; 1%nat] plus_all)) =
    Ok (true, Tv vzero3, [mkStep (Tv vzero3) (NEt 4 2 0 0) 4; mkStep (Tv (mkV (-1/2) 0 0)) (NEt 6 (-3) 0 0) (15/2)])).
  { unfold optimal_tf_gauss_newton. change (g_point (tpar 2)) with (Some (Tv vzero3)). cbn iota. change (g_max_inner (tpar 2)) with 2%nat.
    change (gp_weights pull) with [(1%nat, 1); (1%nat, 3)].
    erewrite (loop_step _ 1 0 vzero3 ne_zero _ [] 4 2 0 0 4 _ 2 pull); [| |lra].
    2:{ cbn [tbb]. rewrite I1. unfold vnorm2, vdot, vsub, vzero3. cbn [vx vy vz]. do 2 f_equal. apply Acc_ext; [apply NEt_ext; ring|ring]. }
    replace (move vzero3 4 2 0 0) with (mkV (-1/2) 0 0) by (unfold move, vzero3; cbn [vx vy vz]; f_equal; field).
    erewrite (loop_step _ 0 1 (mkV (-1/2) 0 0) _ _ _ 6 (-3) 0 0 (15/2) _ 2 pull); [| |lra].
    2:{ cbn [tbb]. rewrite I2. unfold vnorm2, vdot, vsub. cbn [vx vy vz]. do 2 f_equal. apply Acc_ext; [apply NEt_ext; field|field]. }
    cbn [gn_loop rbind app]. do 3 f_equal. unfold move, vzero3. cbn [vx vy vz]. f_equal. f_equal; field. }
  split; [exact RUN|]. cbn [st_pose st_ne tr Tv].
  assert (ROWS : forall v a, rsum (fun r => w_w r * (w_e r * dot6 (w_j r) a)) (all_rows (tpar 2) pull (Tv v)) =
     (vx v - 1 + 3 * (vx v + 1)) * x0 a + (4 * vy v) * x1 a + (4 * vz v) * x2 a).
  { intros [v0 v1 v2] [a0 a1 a2 a3 a4 a5]. unfold all_rows, all_rows_with, pull, tpairs. cbn [gp_pt2pt gp_pt2ln gp_ln2ln gp_pt2pl gp_pl2pl class_rows flat_map map point_rows app].
    unfold robust. change (g_kernel (tpar 2)) with (@None (R -> R)). cbn iota. unfold point_weight. cbn [gp_weights block_weight Nat.ltb Nat.leb Nat.sub].
    unfold rows_pt2pt, rows_of, error_point2point, jac_point2point, Jpoint, compose, rotate, vadd, vscale, Tv, vzero3, l3. cbn [fst snd vx vy vz c0 c1 c2 tr combine].
    unfold wrows. cbn [map fst snd app rsum w_w w_e w_j]. unfold row6, dDexpe_de, vec, vzero3, vscale, dot6. cbn [nth dotl vx vy vz c0 c1 c2 tr x0 x1 x2 x3 x4 x5]. ring. }
  split; [|split; [|split]].
  - change (NEt 4 2 0 0) with (mkNE (diag 4) (mk6 2 0 0 0 0 0)). split; intros; cbn [ne_H ne_g].
    + unfold all_rows, all_rows_with, pull, tpairs. cbn [gp_pt2pt gp_pt2ln gp_ln2ln gp_pt2pl gp_pl2pl class_rows flat_map map point_rows app].
      unfold robust. change (g_kernel (tpar 2)) with (@None (R -> R)). cbn iota. unfold point_weight. cbn [gp_weights block_weight Nat.ltb Nat.leb Nat.sub].
      unfold rows_pt2pt, rows_of, error_point2point, jac_point2point, Jpoint, compose, rotate, vadd, vscale, Tv, vzero3, l3. cbn [fst snd vx vy vz c0 c1 c2 tr combine].
      unfold wrows. cbn [map fst snd app rsum w_w w_e w_j]. destruct a as [a0 a1 a2 a3 a4 a5], b as [b0 b1 b2 b3 b4 b5].
      unfold row6, dDexpe_de, vec, vzero3, vscale, mulMV, diag, zero6, dot6. cbn [nth dotl vx vy vz c0 c1 c2 tr x0 x1 x2 x3 x4 x5 r0 r1 r2 r3 r4 r5]. ring.
    + change (Tv vzero3) with (Tv (mkV 0 0 0)). rewrite ROWS. destruct a as [a0 a1 a2 a3 a4 a5]. unfold dot6. cbn [vx vy vz x0 x1 x2 x3 x4 x5]. ring.
  - intros [_ NG]. specialize (NG (mk6 1 0 0 0 0 0)). rewrite ROWS in NG. unfold NEt, dot6 in NG. cbn [ne_g vx vy vz x0 x1 x2 x3 x4 x5] in NG. lra.
  - exact pull_best.
  - unfold pull_cost, cost_t, vzero3. cbn [rsum fst snd]. unfold vnorm2, vdot, vsub. cbn [vx vy vz]. lra.
Qed.

(** Finding: the threads of the TBB build share the cursor, so the weights depend on the order the loop
    iterations happen to run in, and so does the result: (-1/2,0,0) or (0,0,0). *)
Theorem C95_result_depends_on_the_schedule_refuted :
  exists s s' T T' log log', fair pull s /\ fair pull s' /\ s_race s = plus_all /\ s_race s' = plus_all /\
    s_order s = [0%nat; 1%nat] /\ s_order s' = [1%nat; 0%nat] /\
    optimal_tf_gauss_newton ldlt_t exp_t (tpar 1) pull (tbb (fun _ => s)) = Ok (true, T, log) /\
    optimal_tf_gauss_newton ldlt_t exp_t (tpar 1) pull (tbb (fun _ => s')) = Ok (true, T', log') /\
    T <> T'.
Proof.
  assert (RUN : forall order w c' l, cursor_weights (tpar 1) pull order (mkCur [(1%nat, 1); (1%nat, 3)] 0) = Ok (l, c') ->
     assigned (tpar 1) l 0 = w -> assigned (tpar 1) l 1 = 3 -> 0 < w ->
     exists log, optimal_tf_gauss_newton ldlt_t exp_t (tpar 1) pull (tbb (fun _ => sched_of order plus_all)) = Ok (true, Tv (mkV ((w - 3) / (w + 3)) 0 0), log)).
  { intros order w c' l CW W0 W1 P. unfold optimal_tf_gauss_newton. change (g_point (tpar 1)) with (Some (Tv vzero3)). cbn iota. change (g_max_inner (tpar 1)) with 1%nat.
    change (gp_weights pull) with [(1%nat, 1); (1%nat, 3)].
    assert (I := tbb_two 1 (mkV 1 0 0) (mkV (-1) 0 0) [(1%nat, 1); (1%nat, 3)] order _ l c' vzero3 plus_all CW). cbv zeta in I. rewrite W0, W1 in I. cbn [vx vy vz vzero3] in I.
    erewrite (loop_step _ 0 0 vzero3 ne_zero _ [] (w + 3) (3 - w) 0 0 (w + 3) c' 1 pull); [| |lra].
    - cbn [gn_loop rbind app]. eexists. do 3 f_equal. unfold move, vzero3. cbn [vx vy vz]. f_equal. f_equal; field; lra.
    - cbn [tbb]. unfold pull at 1. rewrite I. do 2 f_equal. apply Acc_ext; [apply NEt_ext; ring|]. unfold plus_all, vnorm2, vdot, vsub, vzero3. cbn [fold_right vx vy vz]. ring. }
  destruct (RUN [0%nat; 1%nat] 1 _ _ eq_refl eq_refl eq_refl ltac:(lra)) as [log L].
  destruct (RUN [1%nat; 0%nat] 3 _ _ eq_refl eq_refl eq_refl ltac:(lra)) as [log' L'].
  exists (sched_of [0%nat; 1%nat] plus_all), (sched_of [1%nat; 0%nat] plus_all). do 4 eexists.
  split; [apply pull_fair|]. split; [apply pull_fair|]. do 4 (split; [reflexivity|]). split; [exact L|]. split; [exact L'|].
  intros E. injection E as E. lra.
Qed.

(** ** The race on errNormSqr: lines 124 and 242 add to a variable shared by all the threads, without
    synchronisation: a load and a store.  Two threads, each with a range of the contributions. *)
Record Thread := mkTh { th_todo : list R; th_reg : option R }.
Inductive rstep : R * Thread * Thread -> R * Thread * Thread -> Prop :=
| load1 : forall m x l t, rstep (m, mkTh (x :: l) None, t) (m, mkTh (x :: l) (Some m), t)
| store1 : forall m x l r t, rstep (m, mkTh (x :: l) (Some r), t) (r + x, mkTh l None, t)
| load2 : forall m x l t, rstep (m, t, mkTh (x :: l) None) (m, t, mkTh (x :: l) (Some m))
| store2 : forall m x l r t, rstep (m, t, mkTh (x :: l) (Some r)) (r + x, t, mkTh l None).
Inductive rsteps : R * Thread * Thread -> R * Thread * Thread -> Prop :=
| rs_refl : forall s, rsteps s s
| rs_cons : forall a b c, rstep a b -> rsteps b c -> rsteps a c.
(** [v] may be left in the variable by the additions of [l] *)
Definition racing (l : list R) (v : R) : Prop :=
  exists a b, l = a ++ b /\ rsteps (0, mkTh a None, mkTh b None) (v, mkTh [] None, mkTh [] None).

Definition lost (l : list R) : R := match l with [a; b] => b | _ => fold_left Rplus l 0 end.
Lemma lost_racing l : racing l (lost l).
Proof.
  assert (SEQ : forall l m, rsteps (m, mkTh l None, mkTh [] None) (fold_left Rplus l m, mkTh [] None, mkTh [] None)).
  { clear l. induction l as [|x l IH]; intros m; cbn [fold_left]; [constructor|].
    eapply rs_cons; [apply load1|]. eapply rs_cons; [apply store1|]. apply IH. }
  assert (G : racing l (fold_left Rplus l 0)) by (exists l, []; split; [rewrite app_nil_r; reflexivity|apply SEQ]).
  destruct l as [|a [|b [|c l]]]; try exact G. clear G.
  exists [a], [b]. split; [reflexivity|]. unfold lost.
  eapply rs_cons; [apply load1|]. eapply rs_cons; [apply load2|]. eapply rs_cons; [apply store1|]. eapply rs_cons; [apply store2|].
  rewrite Rplus_0_l. constructor.
Qed.

(** Finding: a lost update makes the solver stop at its starting pose, although the error there is 10. *)
Theorem C96_lost_update_stops_too_early_refuted :
  exists p s s1, fair p s /\ (forall l, racing l (s_race s l)) /\ gp_weights p = [] /\
    optimal_tf_gauss_newton ldlt_t exp_t (tpar 5) p (tbb (fun _ => s)) = Ok (true, Tv vzero3, [s1]) /\
    g_max_cost (tpar 5) < sqrt (rsum (fun r => w_w r * (w_e r * w_e r)) (all_rows (tpar 5) p (st_pose s1))).
Proof.
  exists (tpairs [mkV 10 0 0; vzero3] []), (sched_of [0%nat; 1%nat] lost), (mkStep (Tv vzero3) (NEt 2 (-10) 0 0) 0).
  split; [split; constructor; simpl; lia|]. split; [exact lost_racing|]. split; [reflexivity|]. split.
  - unfold optimal_tf_gauss_newton. change (g_point (tpar 5)) with (Some (Tv vzero3)). cbn iota. change (g_max_inner (tpar 5)) with 5%nat. cbn [gn_loop tbb].
    rewrite (tbb_two 5 (mkV 10 0 0) vzero3 [] [0%nat; 1%nat] _ [(0%nat, 1); (1%nat, 1)] (mkCur [] 0)) by reflexivity.
    unfold assigned. cbn [find fst Nat.eqb rbind a_err a_ne]. unfold lost. cbn [fold_left].
    replace (1 * vnorm2 (vsub vzero3 vzero3) + 0) with 0 by (unfold vnorm2, vdot, vsub, vzero3; cbn [vx vy vz]; ring).
    rewrite sqrt_0. change (g_max_cost (tpar 5)) with 0. destruct (Rle_dec 0 0) as [_|X]; [|exfalso; lra]. cbn [rbind app]. do 4 f_equal.
    apply NEt_ext; unfold vzero3; cbn [vx vy vz]; ring.
  - change (g_max_cost (tpar 5)) with 0. apply sqrt_lt_R0. cbn [st_pose].
    unfold all_rows, all_rows_with, tpairs. cbn [gp_pt2pt gp_pt2ln gp_ln2ln gp_pt2pl gp_pl2pl class_rows flat_map map point_rows app].
    unfold robust. change (g_kernel (tpar 5)) with (@None (R -> R)). cbn iota. unfold point_weight. cbn [gp_weights]. change (g_w_pt2pt (tpar 5)) with 1.
    unfold rows_pt2pt, rows_of, error_point2point, jac_point2point, Jpoint, compose, rotate, vadd, vscale, Tv, vzero3, l3. cbn [fst snd vx vy vz c0 c1 c2 tr combine].
    unfold wrows. cbn [map fst snd app rsum w_w w_e w_j]. lra.
Qed.

(** ** A run that meets the hypotheses of C30 and C98: two pairs, two threads joined out of a tree,
    two inner iterations *)
Definition two : GPairs := tpairs [mkV 1 1 0; mkV 1 (-1) 0] [].
Definition two_sched : Sched := mkSched (RJoin (RBody 0 1) (RBody 1 2)) (RBody 0 0) [1%nat; 0%nat] plus_all.
Lemma two_run : optimal_tf_gauss_newton ldlt_t exp_t (tpar 2) two (tbb (fun _ => two_sched)) =
  Ok (true, Tv (mkV 1 0 0), [mkStep (Tv vzero3) (NEt 2 (-2) 0 0) 4; mkStep (Tv (mkV 1 0 0)) (NEt 2 0 0 0) 2]).
Proof.
  assert (I : forall v c, iter_tbb (tpar 2) two (Tv v) two_sched c =
    Ok (mkAcc (NEt 2 (2 * (vx v - 1)) (2 * vy v) (2 * vz v)) (vnorm2 (vsub v (mkV 1 1 0)) + vnorm2 (vsub v (mkV 1 (-1) 0))), c)).
  { intros v c. unfold iter_tbb. rewrite unweighted_cursor by reflexivity. cbn [rbind two_sched s_order s_pt s_pl s_race].
    unfold middle_terms. change (gp_ln2ln two) with (@nil (Line * Line)). change (gp_pt2ln two) with (@nil (Line * V3)). cbn [seq_lines fold_left rbind].
    change (gp_pt2pl two) with (@nil (Plane * V3)). unfold last_terms. change (gp_pl2pl two) with (@nil (Plane * Plane)). cbn [fold_left].
    change (g_prior (tpar 2)) with (@None (Pose -> M66 * V6)). cbn iota. cbn [length seq map reduce a_ne a_err].
    change (length (gp_pt2pt two)) with 2%nat. cbn [seq map]. unfold body. cbn [Nat.sub seq fold_left]. unfold point_ne, point_err.
    change (gp_pt2pt two) with [(mkV 1 1 0, vzero3); (mkV 1 (-1) 0, vzero3)]. cbn [nth_error].
    change [(1%nat, g_w_pt2pt (tpar 2)); (0%nat, g_w_pt2pt (tpar 2))] with (map (fun i => (i, g_w_pt2pt (tpar 2))) [1%nat; 0%nat]). rewrite !unweighted_assigned.
    unfold kernel_w. change (g_kernel (tpar 2)) with (@None (R -> R)). cbn iota. change (g_w_pt2pt (tpar 2)) with 1. rewrite !term_Tv, !sq_Tv, NEt_0, !NEt_add. cbn [vx vy vz].
    do 2 f_equal. apply Acc_ext; [apply NEt_ext; ring|]. unfold plus_all, vnorm2, vdot, vsub. cbn [fold_right vx vy vz]. ring. }
  unfold optimal_tf_gauss_newton. change (g_point (tpar 2)) with (Some (Tv vzero3)). cbn iota. change (g_max_inner (tpar 2)) with 2%nat.
  erewrite (loop_step _ 1 0 vzero3 ne_zero _ [] 2 (-2) 0 0 4 _ 2 two); [| |lra].
  2:{ cbn [tbb]. rewrite I. unfold vnorm2, vdot, vsub, vzero3. cbn [vx vy vz]. do 2 f_equal. apply Acc_ext; [apply NEt_ext; ring|ring]. }
  replace (move vzero3 2 (-2) 0 0) with (mkV 1 0 0) by (unfold move, vzero3; cbn [vx vy vz]; f_equal; field).
  erewrite (loop_step _ 0 1 (mkV 1 0 0) _ _ _ 2 0 0 0 2 _ 2 two); [| |lra].
  2:{ cbn [tbb]. rewrite I. unfold vnorm2, vdot, vsub. cbn [vx vy vz]. do 2 f_equal. apply Acc_ext; [apply NEt_ext; ring|ring]. }
  cbn [gn_loop rbind app]. do 3 f_equal. unfold move. cbn [vx vy vz]. f_equal. f_equal; field.
Qed.
Example two_meets_C98 : trajectory exp_t (all_rows (tpar 2) two) (Tv vzero3) [mkStep (Tv vzero3) (NEt 2 (-2) 0 0) 4; mkStep (Tv (mkV 1 0 0)) (NEt 2 0 0 0) 2] (Tv (mkV 1 0 0)).
Proof.
  eapply (C98_steps_minimise_the_linearised_error ldlt_t exp_t (tpar 2) two (fun _ => two_sched)).
  - reflexivity.
  - reflexivity.
  - intros _. split; [change (covers (RJoin (RBody 0 1) (RBody 1 2)) 0 2); apply (cv_join _ _ 0 1 2)%nat; apply cv_body; lia|change (covers (RBody 0 0) 0 0); apply cv_body; lia].
  - reflexivity.
  - exact two_run.
  - repeat constructor; cbn [st_ne NEt ne_H ne_g]; apply ldlt_t_solves; lra.
  - repeat constructor; cbn; lra.
Qed.
