(** C209, C210: the second pass of Horn's solver, once scale outliers were found. *)
From Coq Require Import Reals List Lra Lia Psatz.
From Verif Require Import Base GeomModel VisitModel VisitSpec VisitProps RotProofs HornModel HornProofs NoiselessProofs HornProps.
Import ListNotations.
Open Scope R_scope.

(** ** Specification *)
(** the pairs, numbered from [i], whose number is not in [outl] *)
Fixpoint inliers_from (i : nat) (outl : list nat) (ps : list (V3 * V3)) : list (V3 * V3) :=
  match ps with
  | [] => []
  | x :: r => (if in_dec Nat.eq_dec i outl then [] else [x]) ++ inliers_from (S i) outl r
  end.
Definition inliers (p : VPairs) (outl : list nat) : list (V3 * V3) := inliers_from 0 outl (vp_pts p).

(** what the scale test says with the centroids of all the pairs *)
Definition first_outliers (p : VPairs) (wp : VWeights) : list nat :=
  outliers_from p wp (centroid (map snd (vp_pts p))) (centroid (map fst (vp_pts p))) [] false 0 (items p).
(** the centroids of the pairs that passed, local and global *)
Definition ctl2 (p : VPairs) (wp : VWeights) : V3 := centroid (map snd (inliers p (first_outliers p wp))).
Definition ctg2 (p : VPairs) (wp : VWeights) : V3 := centroid (map fst (inliers p (first_outliers p wp))).
(** the pairs used the second time: neither first time outliers, nor outliers with the new centroids *)
Definition second_pairs (p : VPairs) (wp : VWeights) : list call :=
  used_from p wp (ctl2 p wp) (ctg2 p wp) (first_outliers p wp) false 0 (items p).
Definition second_outliers (p : VPairs) (wp : VWeights) : list nat :=
  outliers_from p wp (ctl2 p wp) (ctg2 p wp) (first_outliers p wp) false 0 (items p).
Definition second_matrix (p : VPairs) (wp : VWeights) : Sym4 :=
  N_of (S_of (second_pairs p wp) (sum_w (second_pairs p wp))).

(** ** The centroids skip the outliers *)
Lemma centroid_loop_spec outl ps : forall i nx cl cg cnt, next_ok outl i nx ->
  vcentroid_loop i ps nx cl cg cnt =
    (vadd cl (vsum (map snd (inliers_from i outl ps))), vadd cg (vsum (map fst (inliers_from i outl ps))),
     (cnt + length (inliers_from i outl ps))%nat).
Proof.
  induction ps as [|[g l] ps IH]; intros i nx cl cg cnt NX; cbn [vcentroid_loop inliers_from].
  - cbn [map vsum fold_right length]. rewrite !vadd_0_r, Nat.add_0_r. reflexivity.
  - destruct (in_dec Nat.eq_dec i outl) as [II|NI].
    + assert (HD := proj2 (next_head outl i nx NX) II). destruct nx as [|o os]; [discriminate|].
      rewrite HD. apply Nat.eqb_eq in HD. subst o. cbn [app]. apply IH. apply next_ok_skip. exact NX.
    + assert (HD : match nx with o :: _ => Nat.eqb i o | [] => false end = false).
      { destruct (match nx with o :: _ => Nat.eqb i o | [] => false end) eqn:Q; [|reflexivity].
        apply (proj1 (next_head outl i nx NX)) in Q. contradiction. }
      assert (K := IH (S i) nx (vadd cl l) (vadd cg g) (S cnt) (next_ok_keep outl i nx NX NI)).
      assert (RW : vcentroid_loop (S i) ps nx (vadd cl l) (vadd cg g) (S cnt) =
        (vadd cl (vsum (map snd ([(g, l)] ++ inliers_from (S i) outl ps))), vadd cg (vsum (map fst ([(g, l)] ++ inliers_from (S i) outl ps))),
         (cnt + length ([(g, l)] ++ inliers_from (S i) outl ps))%nat)).
      { rewrite K. cbn [app map vsum fold_right fst snd length]. rewrite !vadd_assoc. unfold vsum. f_equal. lia. }
      destruct nx as [|o os]; [exact RW|]. rewrite HD. exact RW.
Qed.

Lemma inliers_length outl ps : forall i nx, next_ok outl i nx -> (forall x, In x outl -> (x < i + length ps)%nat) ->
  (length (inliers_from i outl ps) + length nx = length ps)%nat.
Proof.
  induction ps as [|x ps IH]; intros i nx NX B; cbn [inliers_from length].
  - destruct nx as [|o os]; [reflexivity|]. destruct NX as [_ NX].
    destruct (proj1 (NX o) (or_introl eq_refl)) as [IO LE]. specialize (B o IO). cbn [length] in B. lia.
  - assert (B' : forall x0, In x0 outl -> (x0 < S i + length ps)%nat).
    { intros y Y. specialize (B y Y). cbn [length] in B. lia. }
    destruct (in_dec Nat.eq_dec i outl) as [II|NI].
    + assert (HD := proj2 (next_head outl i nx NX) II). destruct nx as [|o os]; [discriminate|].
      apply Nat.eqb_eq in HD. subst o. cbn [app length].
      assert (K := IH (S i) os (next_ok_skip outl i os NX) B'). lia.
    + cbn [app length]. assert (K := IH (S i) nx (next_ok_keep outl i nx NX NI) B'). lia.
Qed.

Lemma eval_centroids_inliers p outl : sorted_outliers p outl ->
  eval_centroids (vp_pts p) outl =
    (match inliers p outl with [] => Throw
     | _ => Ok (centroid (map snd (inliers p outl)), centroid (map fst (inliers p outl))) end).
Proof.
  intros [SO SB]. assert (NX : next_ok outl 0 outl).
  { split; [exact SO|]. intro x. split; [intro I; split; [exact I|lia]|intros [I _]; exact I]. }
  assert (L := inliers_length outl (vp_pts p) 0 outl NX SB). fold (inliers p outl) in L. unfold eval_centroids.
  rewrite (centroid_loop_spec outl (vp_pts p) 0 outl _ _ _ NX), !vadd_0_l, Nat.add_0_l. fold (inliers p outl).
  destruct (inliers p outl) as [|x r] eqn:E.
  - cbn [length] in L. destruct (Nat.ltb_spec (length outl) (length (vp_pts p))); [lia|reflexivity].
  - cbn [length] in L. destruct (Nat.ltb_spec (length outl) (length (vp_pts p))); [|lia].
    replace (length (vp_pts p) - length outl)%nat with (length (x :: r)) by (cbn [length]; lia).
    rewrite Nat.eqb_refl. unfold centroid. rewrite !map_length. reflexivity.
Qed.

Lemma outliers_from_bounds p wp a b outl nz its : forall i x, In x (outliers_from p wp a b outl nz i its) -> (i <= x < i + length its)%nat.
Proof.
  induction its as [|it its IH]; intros i x H; cbn [outliers_from length] in *; [destruct H|].
  apply in_app_or in H. destruct H as [H|H].
  - destruct (fate_of p wp a b outl nz i it); try destruct H as [<-|[]]; try destruct H. lia.
  - apply IH in H. lia.
Qed.
Lemma outliers_increasing p wp a b outl nz its : forall i, increasing (outliers_from p wp a b outl nz i its).
Proof.
  induction its as [|it its IH]; intro i; cbn [outliers_from]; [exact I|].
  destruct (fate_of p wp a b outl nz i it); cbn [app]; try apply IH.
  specialize (IH (S i)). destruct (outliers_from p wp a b outl nz (S i) its) as [|y ys] eqn:E; [exact I|].
  cbn [increasing]. split; [|exact IH].
  assert (Y := outliers_from_bounds p wp a b outl nz its (S i) y). rewrite E in Y. specialize (Y (or_introl eq_refl)). lia.
Qed.
Lemma outliers_are_points p wp a b nz its : forall i x, In x (outliers_from p wp a b [] nz i its) ->
  exists g l, nth_error its (x - i) = Some (IPt g l).
Proof.
  induction its as [|it its IH]; intros i x H; cbn [outliers_from] in H; [destruct H|].
  apply in_app_or in H. destruct H as [H|H].
  - assert (Q : x = i /\ fate_of p wp a b [] nz i it = Outlier).
    { destruct (fate_of p wp a b [] nz i it); try destruct H as [<-|[]]; try destruct H. split; reflexivity. }
    destruct Q as [-> Q]. rewrite Nat.sub_diag. cbn [nth_error].
    destruct it as [g l|g l|g l]; [exists g, l; reflexivity| |];
      unfold fate_of in Q; destruct (in_dec Nat.eq_dec i []) as [[]|]; discriminate.
  - assert (B := outliers_from_bounds _ _ _ _ _ _ _ _ _ H). destruct (IH _ _ H) as [g [l E]]. exists g, l.
    replace (x - i)%nat with (S (x - S i)) by lia. exact E.
Qed.

Lemma first_outliers_sorted p wp : sorted_outliers p (first_outliers p wp).
Proof.
  split; [apply outliers_increasing|]. intros x H. destruct (outliers_are_points _ _ _ _ _ _ _ _ H) as [g [l E]].
  rewrite Nat.sub_0_r in E. destruct (items_first p x _ E) as [Q _]. apply Q. exact I.
Qed.

(** a pass with known outliers succeeds *)
Lemma pass_ok p wp a b outl nz : positive_weights p wp -> blocks_cover p -> starts_not_outliers p outl -> sorted_outliers p outl ->
  vp_pts p <> [] -> vp_nPt2Ln p = 0%nat -> vp_nPt2Pl p = 0%nat ->
  exists r, visit p wp a b outl nz = Ok r /\
    vr_calls r = used_from p wp a b outl nz 0 (items p) /\
    vr_outliers r = outliers_from p wp a b outl nz 0 (items p) /\ vr_sum r = sum_w (vr_calls r).
Proof.
  intros PW CV ST SO NE H1 H2. assert (UP := used_positive p wp a b outl nz PW CV NE).
  destruct PW as (A & B & C & D & E & F & K).
  destruct (C26_no_spurious_failure p wp a b outl nz CV ST SO H1 H2) as [r V]; [lra| |exact UP|].
  - destruct (wp_kernel wp); [intros _; apply K|intros X; exfalso; apply X; reflexivity].
  - exists r. split; [exact V|]. destruct (C26_weights_of_every_pair p wp a b outl nz CV ST SO) as [_ Q].
    destruct (Q r V) as (X & Y & Z & _). split; [exact X|]. split; [exact Y|exact Z].
Qed.

Lemma horn_run2 eig p wp : positive_weights p wp -> blocks_cover p -> starts_not_outliers p (first_outliers p wp) ->
  vp_pts p <> [] -> at_least_three p -> vp_nPt2Ln p = 0%nat -> vp_nPt2Pl p = 0%nat ->
  wp_use_scale wp = true -> first_outliers p wp <> [] ->
  optimal_tf_horn eig p wp =
    match inliers p (first_outliers p wp) with
    | [] => Throw
    | _ => Ok (true, mkHR (pose_of (best_quat eig (second_matrix p wp)) (ctl2 p wp) (ctg2 p wp)) (second_outliers p wp))
    end.
Proof.
  intros PW CV ST NE N3 H1 H2 US NO. unfold optimal_tf_horn.
  destruct (first_pass_ok p wp (centroid (map snd (vp_pts p))) (centroid (map fst (vp_pts p))) false PW CV NE H1 H2) as [r [V [VC [VO [VS _]]]]].
  destruct (pass_ok p wp (ctl2 p wp) (ctg2 p wp) (first_outliers p wp) false PW CV ST (first_outliers_sorted p wp) NE H1 H2) as [r2 [V2 [VC2 [VO2 VS2]]]].
  destruct PW as (A & B & C & _).
  destruct (Rle_dec 0 (wp_pt2pt wp)); [|exfalso; lra]. destruct (Rle_dec 0 (wp_ln2ln wp)); [|exfalso; lra].
  destruct (Rle_dec 0 (wp_pl2pl wp)); [|exfalso; lra].
  rewrite eval_centroids_nil by exact NE. cbn [rbind]. unfold se3_l2_internal. rewrite H1, H2. cbn [Nat.eqb andb].
  unfold at_least_three in N3. destruct (Nat.ltb_spec (length (vp_pts p) + length (vp_lns p) + length (vp_pls p)) 3); [lia|].
  rewrite V. cbn [rbind]. fold (first_outliers p wp) in VO. rewrite VO, US. cbn [andb].
  destruct (first_outliers p wp) as [|o os] eqn:EO; [contradiction|]. rewrite <- EO in *. clear NO.
  assert (Z : negb (Nat.eqb (length (first_outliers p wp)) 0) = true) by (rewrite EO; reflexivity). rewrite Z.
  rewrite (eval_centroids_inliers p _ (first_outliers_sorted p wp)).
  destruct (inliers p (first_outliers p wp)) as [|y ys] eqn:EI; [reflexivity|]. rewrite <- EI. cbn [rbind].
  fold (ctl2 p wp). fold (ctg2 p wp). rewrite V2. cbn [rbind].
  unfold second_matrix, second_outliers, second_pairs. rewrite VS2, VC2, VO2. reflexivity.
Qed.

(** C209: once the scale test rejected some pairs, the returned rotation is the best one for the
    pairs it kept, taken relative to the centroids of the kept pairs, and the translation maps the
    local centroid of the kept pairs to the global one.  The rejected pairs are reported, together
    with those the second test rejects.  If no pair is kept, an exception is thrown. *)
Theorem C209_second_pass_uses_only_the_inliers : forall eig p wp,
  positive_weights p wp -> blocks_cover p -> starts_not_outliers p (first_outliers p wp) ->
  vp_pts p <> [] -> at_least_three p -> vp_nPt2Ln p = 0%nat -> vp_nPt2Pl p = 0%nat ->
  wp_use_scale wp = true -> first_outliers p wp <> [] ->
  (inliers p (first_outliers p wp) = [] -> optimal_tf_horn eig p wp = Throw) /\
  (inliers p (first_outliers p wp) <> [] -> second_pairs p wp <> [] ->
   spectral (second_matrix p wp) (eig (second_matrix p wp)) ->
   exists res, optimal_tf_horn eig p wp = Ok (true, res) /\
     is_rotation (hr_pose res) /\
     (forall T, is_rotation T -> rot_cost (second_pairs p wp) (hr_pose res) <= rot_cost (second_pairs p wp) T) /\
     compose (hr_pose res) (ctl2 p wp) = ctg2 p wp /\
     hr_outliers res = second_outliers p wp /\
     (forall i, In i (first_outliers p wp) -> In i (hr_outliers res))).
Proof.
  intros eig p wp PW CV ST NE N3 H1 H2 US NO. assert (E := horn_run2 eig p wp PW CV ST NE N3 H1 H2 US NO). split.
  - intro Z. rewrite Z in E. exact E.
  - intros NI NC SP. destruct (inliers p (first_outliers p wp)) as [|y ys]; [contradiction|]. clear NI y ys.
    eexists. split; [exact E|]. cbn [hr_pose hr_outliers].
    assert (UP := used_positive p wp (ctl2 p wp) (ctg2 p wp) (first_outliers p wp) false PW CV NE). fold (second_pairs p wp) in UP.
    assert (W := sum_w_pos _ NC UP).
    destruct (horn_rotation_optimal eig (second_pairs p wp) _ W SP) as [RQ OPT]. fold (second_matrix p wp) in RQ, OPT.
    set (q := best_quat eig (second_matrix p wp)) in *.
    assert (CO : forall v, rotate (pose_of q (ctl2 p wp) (ctg2 p wp)) v = rotate (quat_rot q) v) by (intros v; apply rotate_cols; reflexivity).
    split; [exact RQ|]. split; [|split; [|split; [reflexivity|]]].
    + intros T RT. assert (X : rot_cost (second_pairs p wp) (pose_of q (ctl2 p wp) (ctg2 p wp)) = rot_cost (second_pairs p wp) (quat_rot q)).
      { generalize (second_pairs p wp). intro cs. induction cs as [|c l IH]; [reflexivity|]. simpl. rewrite CO, IH. reflexivity. }
      rewrite X. apply OPT. exact RT.
    + unfold compose. rewrite CO. unfold pose_of. cbn [tr]. unfold compose.
      assert (TZ : tr (quat_rot q) = mkV 0 0 0) by (destruct q; reflexivity). rewrite TZ.
      destruct (rotate (quat_rot q) (ctl2 p wp)), (ctg2 p wp). vunf. f_equal; ring.
    + intros i I. assert (B := proj2 (first_outliers_sorted p wp) i I). unfold second_outliers.
      assert (G : forall its k j, In j (first_outliers p wp) -> (k <= j < k + length its)%nat ->
        In j (outliers_from p wp (ctl2 p wp) (ctg2 p wp) (first_outliers p wp) false k its)).
      { clear. induction its as [|it its IH]; intros k j J L; cbn [length outliers_from] in *; [lia|]. apply in_or_app.
        destruct (Nat.eq_dec j k) as [->|N]; [left|right; apply IH; [exact J|lia]].
        unfold fate_of. destruct (in_dec Nat.eq_dec k (first_outliers p wp)); [left; reflexivity|contradiction]. }
      apply G; [exact I|]. unfold items. rewrite !app_length, !map_length. lia.
Qed.

(** ** C210 *)
(** Two sets of pairs that differ at most in the point pairs numbered [outl] *)
Definition same_but (outl : list nat) (p p' : VPairs) : Prop :=
  vp_lns p = vp_lns p' /\ vp_pls p = vp_pls p' /\ vp_weights p = vp_weights p' /\
  length (vp_pts p) = length (vp_pts p') /\
  forall i, ~ In i outl -> nth_error (vp_pts p) i = nth_error (vp_pts p') i.

Definition wp_scale : VWeights := mkVW true (6 / 5) 1 1 1 None None.
Definition x5 (g : R) : VPairs :=
  mkVP [(e1 (-7), e1 (-5)); (e1 4, e1 4); (e1 0, e1 0); (e1 g, e1 (-1)); (e1 (-3), e1 (-3))] [] [] 0 0 [].

Lemma norm_line x c : vnorm (vsub (e1 x) (e1 c)) = Rabs (x - c).
Proof.
  unfold vnorm, vnorm2, vdot, vsub, e1; simpl.
  replace ((x - c) * (x - c) + (0 - 0) * (0 - 0) + (0 - 0) * (0 - 0)) with (Rsqr (x - c)) by (unfold Rsqr; ring).
  apply sqrt_Rsqr_abs.
Qed.

(** fate of a pair on the x axis *)
Lemma fate_line p cl cg outl i g l : 
  fate_of p wp_scale (e1 cl) (e1 cg) outl false i (IPt (e1 g) (e1 l)) =
  if in_dec Nat.eq_dec i outl then Outlier
  else if Rlt_dec (Rabs (g - cg)) (1 / 10000) then Dropped
  else if Rlt_dec (Rabs (l - cl)) (1 / 10000) then Dropped
  else if Rlt_dec (6 / 5) (Rmax (Rabs (g - cg)) (Rabs (l - cl)) / Rmin (Rabs (g - cg)) (Rabs (l - cl))) then Outlier
  else fate_of p wp_scale (e1 cl) (e1 cg) outl false i (IPt (e1 g) (e1 l)).
Proof.
  unfold fate_of. rewrite !norm_line. cbn [wp_scale wp_use_scale wp_scale_thr].
  destruct (in_dec Nat.eq_dec i outl); [reflexivity|].
  destruct (Rlt_dec (Rabs (g - cg)) (1 / 10000)); [reflexivity|].
  destruct (Rlt_dec (Rabs (l - cl)) (1 / 10000)); [reflexivity|].
  destruct (Rlt_dec (6 / 5) _); reflexivity.
Qed.

Definition is_outlier (f : fate) : bool := match f with Outlier => true | _ => false end.
(** a pair on the axis is an outlier exactly if its distances [a], [b] to the centroids differ by more than the threshold *)
Lemma outlier_line p cl cg outl i g l a b : ~ In i outl -> Rabs (g - cg) = b -> Rabs (l - cl) = a -> 1 / 10000 <= a -> 1 / 10000 <= b ->
  (6 / 5 < Rmax b a / Rmin b a) -> is_outlier (fate_of p wp_scale (e1 cl) (e1 cg) outl false i (IPt (e1 g) (e1 l))) = true.
Proof.
  intros NI B A PA PB H. rewrite fate_line, A, B. destruct (in_dec Nat.eq_dec i outl); [contradiction|].
  destruct (Rlt_dec b (1 / 10000)); [exfalso; lra|]. destruct (Rlt_dec a (1 / 10000)); [exfalso; lra|].
  destruct (Rlt_dec (6 / 5) _); [reflexivity|contradiction].
Qed.
Lemma inlier_line p cl cg outl i g l a b : ~ In i outl -> Rabs (g - cg) = b -> Rabs (l - cl) = a -> 0 < a -> 0 < b ->
  (a <= 6 / 5 * b /\ b <= 6 / 5 * a) -> is_outlier (fate_of p wp_scale (e1 cl) (e1 cg) outl false i (IPt (e1 g) (e1 l))) = false.
Proof.
  intros NI B A PA PB [H1 H2]. unfold fate_of. rewrite !norm_line, A, B. destruct (in_dec Nat.eq_dec i outl); [contradiction|].
  destruct (Rlt_dec b (1 / 10000)); [reflexivity|]. destruct (Rlt_dec a (1 / 10000)); [reflexivity|].
  cbn [wp_scale wp_use_scale wp_scale_thr]. destruct (Rlt_dec (6 / 5) (Rmax b a / Rmin b a)) as [X|]; [|reflexivity]. exfalso.
  assert (PM : 0 < Rmin b a) by (unfold Rmin; destruct (Rle_dec b a); lra).
  assert (Y : Rmax b a <= 6 / 5 * Rmin b a) by (unfold Rmin, Rmax; destruct (Rle_dec b a); lra).
  assert (Z : Rmax b a / Rmin b a <= 6 / 5).
  { apply (Rmult_le_reg_r (Rmin b a)); [exact PM|]. unfold Rdiv. rewrite Rmult_assoc, Rinv_l by lra. lra. }
  lra.
Qed.
Lemma dropped_line p cl cg outl i g l : ~ In i outl -> Rabs (l - cl) < 1 / 10000 ->
  is_outlier (fate_of p wp_scale (e1 cl) (e1 cg) outl false i (IPt (e1 g) (e1 l))) = false.
Proof.
  intros NI H. rewrite fate_line. destruct (in_dec Nat.eq_dec i outl); [contradiction|].
  destruct (Rlt_dec _ _); [reflexivity|]. destruct (Rlt_dec (Rabs (l - cl)) _); [reflexivity|contradiction].
Qed.
Lemma known_line p cl cg outl i it : In i outl -> is_outlier (fate_of p wp_scale cl cg outl false i it) = true.
Proof. intros I. unfold fate_of. destruct (in_dec Nat.eq_dec i outl); [reflexivity|contradiction]. Qed.

Lemma outliers_bool p wp cl cg outl its : forall i,
  outliers_from p wp cl cg outl false i its =
  (fix go (i : nat) (its : list item) := match its with [] => [] | it :: r => (if is_outlier (fate_of p wp cl cg outl false i it) then [i] else []) ++ go (S i) r end) i its.
Proof.
  induction its as [|it its IH]; intro i; [reflexivity|]. cbn [outliers_from]. rewrite IH.
  destruct (fate_of p wp cl cg outl false i it); reflexivity.
Qed.

Lemma e1_centroid l : l <> [] -> centroid (map e1 l) = e1 (/ INR (length l) * fold_right Rplus 0 l).
Proof.
  intros _. unfold centroid. rewrite map_length.
  assert (S : vsum (map e1 l) = e1 (fold_right Rplus 0 l)).
  { induction l as [|x l IH]; [reflexivity|]. cbn [map vsum fold_right]. fold (vsum (map e1 l)). rewrite IH.
    unfold vadd, e1. cbn [vx vy vz]. f_equal; ring. }
  rewrite S. unfold vscale, e1. cbn [vx vy vz]. f_equal; ring.
Qed.

Lemma x5_first g : 0 <= g <= 1 -> first_outliers (x5 g) wp_scale = [0%nat].
Proof.
  intros G. unfold first_outliers, x5. cbn [vp_pts map fst snd].
  change [e1 (-5); e1 4; e1 0; e1 (-1); e1 (-3)] with (map e1 [-5; 4; 0; -1; -3]).
  change [e1 (-7); e1 4; e1 0; e1 g; e1 (-3)] with (map e1 [-7; 4; 0; g; -3]).
  rewrite !e1_centroid by discriminate. rewrite outliers_bool. unfold items. cbn [vp_pts vp_lns vp_pls map fst snd app length].
  replace (/ INR 5 * fold_right Rplus 0 [-5; 4; 0; -1; -3]) with (-1) by (rewrite INR_IZR_INZ; simpl; field).
  set (cg := / INR 5 * fold_right Rplus 0 [-7; 4; 0; g; -3]).
  assert (CG : cg = (g - 6) / 5) by (unfold cg; rewrite INR_IZR_INZ; simpl; field).
  set (p := mkVP _ _ _ _ _ _).
  rewrite (outlier_line p _ _ _ 0 _ _ 4 (cg + 7)); try (intros []); try lra.
  2: { rewrite Rabs_left by lra. ring. }
  2: { rewrite Rabs_left by lra. ring. }
  2: { rewrite Rmax_left, Rmin_right by lra. lra. }
  rewrite (inlier_line p _ _ _ 1 _ _ 5 (4 - cg)); try (intros []); try lra.
  2: { rewrite Rabs_right by lra. ring. }
  2: { rewrite Rabs_right by lra. ring. }
  rewrite (inlier_line p _ _ _ 2 _ _ 1 (- cg)); try (intros []); try lra.
  2: { rewrite Rabs_right by lra. ring. }
  2: { rewrite Rabs_right by lra. ring. }
  rewrite (dropped_line p _ _ _ 3); try (intros []).
  2: { rewrite Rabs_right by lra. lra. }
  rewrite (inlier_line p _ _ _ 4 _ _ 2 (cg + 3)); try (intros []); try lra.
  2: { rewrite Rabs_left by lra. ring. }
  2: { rewrite Rabs_left by lra. ring. }
  reflexivity.
Qed.

Lemma x5_ct2 g : 0 <= g <= 1 -> ctl2 (x5 g) wp_scale = e1 0 /\ ctg2 (x5 g) wp_scale = e1 ((1 + g) / 4).
Proof.
  intros G. unfold ctl2, ctg2. rewrite (x5_first g G). unfold inliers, x5. cbn [vp_pts inliers_from].
  repeat match goal with |- context [in_dec Nat.eq_dec ?i ?o] => destruct (in_dec Nat.eq_dec i o) as [Q|Q]; [try (exfalso; destruct Q as [Q|[]]; discriminate)|try (exfalso; apply Q; left; reflexivity)]; clear Q end.
  cbn [app map fst snd].
  change [e1 4; e1 0; e1 (-1); e1 (-3)] with (map e1 [4; 0; -1; -3]).
  change [e1 4; e1 0; e1 g; e1 (-3)] with (map e1 [4; 0; g; -3]).
  rewrite !e1_centroid by discriminate. split; f_equal; rewrite INR_IZR_INZ; simpl; field.
Qed.

Lemma x5_second g : g = 0 \/ g = 1 -> second_outliers (x5 g) wp_scale = [0%nat; 3%nat].
Proof.
  intros GG. assert (G : 0 <= g <= 1) by (destruct GG; lra).
  unfold second_outliers. destruct (x5_ct2 g G) as [-> ->]. rewrite (x5_first g G).
  rewrite outliers_bool. set (cg := (1 + g) / 4). unfold items. cbn [x5 vp_pts vp_lns vp_pls map fst snd app].
  assert (NI : forall i, (0 < i)%nat -> ~ In i [0%nat]) by (intros i I [Q|[]]; lia).
  rewrite known_line by (left; reflexivity).
  rewrite (inlier_line (x5 g) _ _ _ 1 _ _ 4 (4 - cg)); try (apply NI; lia); try (unfold cg; lra).
  2: { rewrite Rabs_right by (unfold cg; lra). ring. }
  2: { rewrite Rabs_right by lra. ring. }
  rewrite (dropped_line (x5 g) _ _ _ 2); try (apply NI; lia).
  2: { rewrite Rabs_right by lra. lra. }
  assert (O3 : is_outlier (fate_of (x5 g) wp_scale (e1 0) (e1 cg) [0%nat] false 3 (IPt (e1 g) (e1 (-1)))) = true).
  { destruct GG as [-> | ->].
    - apply (outlier_line _ _ _ _ _ _ _ 1 (1 / 4)); try (apply NI; lia); try lra.
      + unfold cg. rewrite Rabs_left by lra. field.
      + rewrite Rabs_left by lra. ring.
      + rewrite Rmax_right, Rmin_left by lra. lra.
    - apply (outlier_line _ _ _ _ _ _ _ 1 (1 / 2)); try (apply NI; lia); try lra.
      + unfold cg. rewrite Rabs_right by lra. field.
      + rewrite Rabs_left by lra. ring.
      + rewrite Rmax_right, Rmin_left by lra. lra. }
  rewrite O3.
  rewrite (inlier_line (x5 g) _ _ _ 4 _ _ 3 (3 + cg)); try (apply NI; lia); try (unfold cg; lra).
  2: { rewrite Rabs_left by (unfold cg; lra). ring. }
  2: { rewrite Rabs_left by lra. ring. }
  reflexivity.
Qed.

Lemma x5_hyps g : g = 0 \/ g = 1 ->
  positive_weights (x5 g) wp_scale /\ blocks_cover (x5 g) /\ starts_not_outliers (x5 g) (first_outliers (x5 g) wp_scale) /\
  vp_pts (x5 g) <> [] /\ at_least_three (x5 g) /\ first_outliers (x5 g) wp_scale <> [] /\
  inliers (x5 g) (first_outliers (x5 g) wp_scale) <> [].
Proof.
  intros GG. assert (G : 0 <= g <= 1) by (destruct GG; lra). rewrite (x5_first g G).
  split; [|split; [|split; [|split; [|split; [|split]]]]]; try discriminate.
  - unfold positive_weights, wp_scale, x5; simpl. repeat split; try lra; constructor.
  - intros X. exfalso. apply X. reflexivity.
  - intros c [].
  - unfold at_least_three. simpl. lia.
Qed.

(** Finding: the pair the second test rejects is reported as an outlier and is not used for the
    rotation, but it did enter the centroids, which are not computed again: moving it moves the
    result.  Here pair 3 is reported in both runs, whose other pairs are the same. *)
Theorem C210_reported_outlier_moves_the_pose_refuted : forall eig,
  same_but [3%nat] (x5 0) (x5 1) /\
  exists r r', optimal_tf_horn eig (x5 0) wp_scale = Ok (true, r) /\ optimal_tf_horn eig (x5 1) wp_scale = Ok (true, r') /\
    In 3%nat (hr_outliers r) /\ In 3%nat (hr_outliers r') /\ hr_outliers r = hr_outliers r' /\
    hr_pose r <> hr_pose r'.
Proof.
  intros eig. split.
  - split; [reflexivity|]. split; [reflexivity|]. split; [reflexivity|]. split; [reflexivity|].
    intros [|[|[|[|[|i]]]]] N; try reflexivity. exfalso. apply N. left. reflexivity.
  - destruct (x5_hyps 0 (or_introl eq_refl)) as (A & B & C & D & E & F & G).
    destruct (x5_hyps 1 (or_intror eq_refl)) as (A' & B' & C' & D' & E' & F' & G').
    assert (R := horn_run2 eig (x5 0) wp_scale A B C D E eq_refl eq_refl eq_refl F).
    assert (R' := horn_run2 eig (x5 1) wp_scale A' B' C' D' E' eq_refl eq_refl eq_refl F').
    destruct (inliers (x5 0) (first_outliers (x5 0) wp_scale)); [contradiction|].
    destruct (inliers (x5 1) (first_outliers (x5 1) wp_scale)); [contradiction|].
    eexists. eexists. split; [exact R|]. split; [exact R'|]. cbn [hr_outliers hr_pose].
    rewrite (x5_second 0), (x5_second 1) by (auto).
    split; [right; left; reflexivity|]. split; [right; left; reflexivity|]. split; [reflexivity|].
    destruct (x5_ct2 0 ltac:(lra)) as [-> ->]. destruct (x5_ct2 1 ltac:(lra)) as [-> ->].
    generalize (best_quat eig (second_matrix (x5 0) wp_scale)). generalize (best_quat eig (second_matrix (x5 1) wp_scale)).
    intros q q' H. apply (f_equal (fun T => vx (tr T))) in H.
    destruct q, q'. cbn [pose_of tr] in H. unfold compose, rotate, quat_rot, e1, vsub, vadd, vscale in H.
    cbn [vx vy vz c0 c1 c2 tr] in H. lra.
Qed.

(** Pairs that fail the first test have no influence: if two sets of pairs differ only in pairs that
    fail the first test in both, the results are the same. *)
Lemma inliers_ext outl ps : forall ps' i, length ps = length ps' ->
  (forall k, ~ In (i + k)%nat outl -> nth_error ps k = nth_error ps' k) -> inliers_from i outl ps = inliers_from i outl ps'.
Proof.
  induction ps as [|x ps IH]; intros [|x' ps'] i L H; try discriminate; [reflexivity|]. cbn [inliers_from].
  rewrite (IH ps' (S i)); [|injection L as L; exact L|intros k N; apply (H (S k)); replace (i + S k)%nat with (S i + k)%nat by lia; exact N].
  destruct (in_dec Nat.eq_dec i outl) as [|N]; [reflexivity|].
  specialize (H 0%nat). rewrite Nat.add_0_r in H. specialize (H N). cbn [nth_error] in H. injection H as ->. reflexivity.
Qed.

Lemma items_ext outl p p' : same_but outl p p' -> length (items p) = length (items p') /\
  forall k, ~ In k outl -> nth_error (items p) k = nth_error (items p') k.
Proof.
  intros (L & P & _ & N & H). unfold items. rewrite L, P. split.
  - rewrite !app_length, !map_length, N. reflexivity.
  - intros k NI. destruct (Nat.ltb_spec k (length (vp_pts p))) as [Q|Q].
    + rewrite nth_error_app1 by (rewrite map_length; lia).
      rewrite (nth_error_app1 (map (fun x : V3 * V3 => IPt (fst x) (snd x)) (vp_pts p'))) by (rewrite map_length; lia).
      rewrite !nth_error_map, (H k NI). reflexivity.
    + rewrite nth_error_app2 by (rewrite map_length; lia).
      rewrite (nth_error_app2 (map (fun x : V3 * V3 => IPt (fst x) (snd x)) (vp_pts p'))) by (rewrite map_length; lia).
      rewrite !map_length, N. reflexivity.
Qed.

Lemma fate_ext p p' wp a b outl nz i it : vp_weights p = vp_weights p' -> class_total p wp = class_total p' wp ->
  fate_of p wp a b outl nz i it = fate_of p' wp a b outl nz i it.
Proof. intros W C. unfold fate_of, pair_block_weight. rewrite W, C. reflexivity. Qed.

Lemma walk_ext p p' wp a b outl nz : vp_weights p = vp_weights p' -> class_total p wp = class_total p' wp ->
  forall its its' i, length its = length its' -> (forall k, ~ In (i + k)%nat outl -> nth_error its k = nth_error its' k) ->
  used_from p wp a b outl nz i its = used_from p' wp a b outl nz i its' /\
  outliers_from p wp a b outl nz i its = outliers_from p' wp a b outl nz i its'.
Proof.
  intros W C. induction its as [|x ps IH]; intros [|x' ps'] i L H; try discriminate; [split; reflexivity|]. cbn [used_from outliers_from].
  destruct (IH ps' (S i)) as [E1 E2]; [injection L as L; exact L|intros k N; apply (H (S k)); replace (i + S k)%nat with (S i + k)%nat by lia; exact N|].
  rewrite E1, E2.
  assert (F : fate_of p wp a b outl nz i x = fate_of p' wp a b outl nz i x').
  { destruct (in_dec Nat.eq_dec i outl) as [I|N].
    - unfold fate_of. destruct (in_dec Nat.eq_dec i outl); [reflexivity|contradiction].
    - specialize (H 0%nat). rewrite Nat.add_0_r in H. specialize (H N). cbn [nth_error] in H. injection H as ->. apply fate_ext; assumption. }
  rewrite F. split; reflexivity.
Qed.

Theorem C210_first_pass_outliers_have_no_influence_where : forall eig p p' wp,
  positive_weights p wp -> positive_weights p' wp -> blocks_cover p -> blocks_cover p' ->
  first_outliers p wp = first_outliers p' wp -> first_outliers p wp <> [] ->
  starts_not_outliers p (first_outliers p wp) ->
  at_least_three p -> vp_nPt2Ln p = 0%nat -> vp_nPt2Pl p = 0%nat -> vp_nPt2Ln p' = 0%nat -> vp_nPt2Pl p' = 0%nat ->
  wp_use_scale wp = true ->
  same_but (first_outliers p wp) p p' ->
  optimal_tf_horn eig p wp = optimal_tf_horn eig p' wp.
Proof.
  intros eig p p' wp PW PW' CV CV' EO NO ST N3 H1 H2 H1' H2' US SB.
  assert (NE : vp_pts p <> []).
  { intro Z. destruct (first_outliers p wp) as [|o os] eqn:E; [contradiction|].
    assert (B := proj2 (first_outliers_sorted p wp) o). rewrite E in B. specialize (B (or_introl eq_refl)). rewrite Z in B. cbn [length] in B. lia. }
  assert (NE' : vp_pts p' <> []).
  { intro Z. destruct SB as (_ & _ & _ & L & _). rewrite Z in L. destruct (vp_pts p); [contradiction|discriminate]. }
  assert (N3' : at_least_three p') by (unfold at_least_three in *; destruct SB as (<- & <- & _ & <- & _); exact N3).
  assert (ST' : starts_not_outliers p' (first_outliers p' wp)).
  { rewrite <- EO. unfold starts_not_outliers in *. destruct SB as (_ & _ & <- & <- & _). exact ST. }
  rewrite (horn_run2 eig p wp), (horn_run2 eig p' wp); try assumption; [|rewrite <- EO; exact NO].
  assert (EI : inliers p (first_outliers p wp) = inliers p' (first_outliers p' wp)).
  { rewrite <- EO. unfold inliers. destruct SB as (_ & _ & _ & L & H). apply inliers_ext; [exact L|]. intros k N. apply H. exact N. }
  assert (C1 : ctl2 p wp = ctl2 p' wp) by (unfold ctl2; rewrite EI; reflexivity).
  assert (C2 : ctg2 p wp = ctg2 p' wp) by (unfold ctg2; rewrite EI; reflexivity).
  assert (CT : class_total p wp = class_total p' wp).
  { unfold class_total. destruct SB as (-> & -> & _ & -> & _). reflexivity. }
  destruct (items_ext _ _ _ SB) as [IL IH].
  destruct (walk_ext p p' wp (ctl2 p wp) (ctg2 p wp) (first_outliers p wp) false (proj1 (proj2 (proj2 SB))) CT (items p) (items p') 0 IL IH) as [W1 W2].
  assert (SP : second_pairs p wp = second_pairs p' wp).
  { unfold second_pairs. rewrite <- C1, <- C2, <- EO. exact W1. }
  assert (SO : second_outliers p wp = second_outliers p' wp).
  { unfold second_outliers. rewrite <- C1, <- C2, <- EO. exact W2. }
  unfold second_matrix. rewrite EI, SP, SO, C1, C2. reflexivity.
Qed.

(** The hypotheses of C209 hold for the pairs [x5]. *)
Example C209_example : positive_weights (x5 0) wp_scale /\ blocks_cover (x5 0) /\
  first_outliers (x5 0) wp_scale = [0%nat] /\ second_outliers (x5 0) wp_scale = [0%nat; 3%nat] /\
  inliers (x5 0) (first_outliers (x5 0) wp_scale) <> [] /\ second_pairs (x5 0) wp_scale <> [].
Proof.
  destruct (x5_hyps 0 (or_introl eq_refl)) as (A & B & C & D & E & F & G).
  split; [exact A|]. split; [exact B|]. split; [apply x5_first; lra|]. split; [apply x5_second; left; reflexivity|].
  split; [exact G|]. unfold second_pairs. destruct (x5_ct2 0 ltac:(lra)) as [-> ->]. rewrite (x5_first 0) by lra.
  unfold items. cbn [x5 vp_pts vp_lns vp_pls map fst snd app used_from].
  assert (U : exists c, fate_of (x5 0) wp_scale (e1 0) (e1 ((1 + 0) / 4)) [0%nat] false 1%nat (IPt (e1 4) (e1 4)) = Used c).
  { unfold fate_of. rewrite !norm_line. destruct (in_dec Nat.eq_dec 1%nat [0%nat]) as [[Q|[]]|_]; [discriminate|].
    rewrite (Rabs_right (4 - (1 + 0) / 4)), (Rabs_right (4 - 0)) by lra.
    destruct (Rlt_dec (4 - (1 + 0) / 4) (1 / 10000)); [exfalso; lra|]. destruct (Rlt_dec (4 - 0) (1 / 10000)); [exfalso; lra|].
    cbn [wp_scale wp_use_scale wp_scale_thr]. rewrite Rmax_right, Rmin_left by lra.
    destruct (Rlt_dec (6 / 5) ((4 - 0) / (4 - (1 + 0) / 4))) as [X|]; [exfalso; lra|]. eexists. reflexivity. }
  destruct U as [c ->]. intro X. apply (f_equal (@length call)) in X. rewrite !app_length in X. cbn [length] in X. lia.
Qed.
