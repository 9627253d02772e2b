(** C320, C321: the closed-form solvers recover the exact pose although some pairs are wrong, if the scale test rejects those. *)
From Coq Require Import Reals List Lra Lia Psatz.
From Verif Require Import Base GeomModel VisitModel VisitSpec VisitProps RotProofs HornModel HornProofs NoiselessProofs HornProps
  OlaeModel OlaeProofs OlaeProps HornOutlierProps.
Import ListNotations.
Open Scope R_scope.

(** ** Specification *)
(** every pair is exactly related by the pose, except for the point pairs numbered in [o], which are arbitrary *)
Definition exact_but (o : list nat) (T0 : Pose) (p : VPairs) : Prop :=
  (forall i g l, nth_error (vp_pts p) i = Some (g, l) -> ~ In i o -> g = compose T0 l) /\
  Forall (fun x => fst x = rotate T0 (snd x)) (vp_lns p) /\
  Forall (fun x => fst x = rotate T0 (snd x)) (vp_pls p).
(** the linear systems of OLAE built from a list of pairs *)
Definition systems_of (cs : list call) : OlaeSys := olae_systems (B_of cs (sum_w cs)) (v_of cs (sum_w cs)).
(** the pairs OLAE uses the second time *)
Definition olae_second (p : VPairs) (wp : VWeights) : list call :=
  used_from p wp (ctl2 p wp) (ctg2 p wp) (first_outliers p wp) true 0 (items p).

(** ** The walk *)
Lemma inliers_exact o T0 ps : forall i, (forall k g l, nth_error ps k = Some (g, l) -> ~ In (i + k)%nat o -> g = compose T0 l) ->
  Forall (fun x : V3 * V3 => fst x = compose T0 (snd x)) (inliers_from i o ps).
Proof.
  induction ps as [|[g l] ps IH]; intros i H; cbn [inliers_from]; [constructor|]. apply Forall_app. split.
  - destruct (in_dec Nat.eq_dec i o) as [|N]; [constructor|]. constructor; [|constructor]. cbn [fst snd].
    apply (H 0%nat); [reflexivity | rewrite Nat.add_0_r; exact N].
  - apply IH. intros k g' l' E N. apply (H (S k)); [exact E|]. rewrite Nat.add_succ_r. exact N.
Qed.

Section Walk.
Variables (T0 : Pose) (p : VPairs) (wp : VWeights) (nz : bool).
Hypothesis RT : is_rotation T0.
Hypothesis EB : exact_but (first_outliers p wp) T0 p.
Hypothesis IN : inliers p (first_outliers p wp) <> [].
Hypothesis THR : 1 <= wp_scale_thr wp.
Let o := first_outliers p wp.

Lemma centroids_exact : ctg2 p wp = compose T0 (ctl2 p wp).
Proof. unfold ctg2, ctl2. apply centroid_noiseless; [exact IN|]. apply inliers_exact. intros k g l E N. exact (proj1 EB k g l E N). Qed.

Lemma kept_fate i it : ~ In i o -> good_item T0 it ->
  match fate_of p wp (ctl2 p wp) (ctg2 p wp) o nz i it with
  | Used c => c_b c = rotate T0 (c_r c)
  | Outlier => False
  | Dropped => True
  end.
Proof.
  intros N G. unfold fate_of. destruct (in_dec Nat.eq_dec i o) as [|_]; [contradiction|].
  destruct it as [g l|g l|g l]; simpl in G; [|simpl; exact G|simpl; exact G].
  assert (E : vsub g (ctg2 p wp) = rotate T0 (vsub l (ctl2 p wp))).
  { rewrite centroids_exact, G. apply sub_compose. }
  rewrite E. rewrite (rotate_norm T0 _ RT). set (n := vnorm (vsub l (ctl2 p wp))).
  destruct (Rlt_dec n (1 / 10000)) as [|X]; [exact I|].
  assert (Q : (if wp_use_scale wp then if Rlt_dec (wp_scale_thr wp) (Rmax n n / Rmin n n) then true else false else false) = false).
  { destruct (wp_use_scale wp) eqn:US; [|reflexivity].
    destruct (Rlt_dec _ _) as [L|]; [|reflexivity]. exfalso.
    assert (V : Rmax n n / Rmin n n = 1).
    { unfold Rmax, Rmin. destruct (Rle_dec n n) as [|K]; [|exfalso; apply K; lra]. field. lra. }
    lra. }
  rewrite Q. simpl. destruct nz; [|reflexivity].
  unfold unit. rewrite (rotate_norm T0 _ RT), rotate_scale. reflexivity.
Qed.

Lemma good_items_but : forall i it, nth_error (items p) i = Some it -> ~ In i o -> good_item T0 it.
Proof.
  destruct EB as (A & B & C). intros i it E N. unfold items in E.
  destruct (Nat.ltb_spec i (length (vp_pts p))) as [L|L].
  - rewrite nth_error_app1 in E by (rewrite map_length; exact L). rewrite nth_error_map in E.
    destruct (nth_error (vp_pts p) i) as [[g l]|] eqn:X; [|discriminate E]. injection E as <-. exact (A i g l X N).
  - rewrite nth_error_app2 in E by (rewrite map_length; exact L). apply nth_error_In in E. apply in_app_or in E.
    rewrite Forall_forall in B, C.
    destruct E as [E | E]; apply in_map_iff in E; destruct E as ([g l] & <- & I); [exact (B _ I) | exact (C _ I)].
Qed.

Lemma second_walk : outliers_from p wp (ctl2 p wp) (ctg2 p wp) o nz 0 (items p) = o /\
  Forall (fun c => c_b c = rotate T0 (c_r c)) (used_from p wp (ctl2 p wp) (ctg2 p wp) o nz 0 (items p)).
Proof.
  assert (SO := first_outliers_sorted p wp). fold o in SO. destruct SO as [SO SB].
  assert (G : forall its i nx, next_ok o i nx -> (forall x, In x o -> (x < i + length its)%nat) ->
    (forall k it, nth_error its k = Some it -> ~ In (i + k)%nat o -> good_item T0 it) ->
    outliers_from p wp (ctl2 p wp) (ctg2 p wp) o nz i its = nx /\
    Forall (fun c => c_b c = rotate T0 (c_r c)) (used_from p wp (ctl2 p wp) (ctg2 p wp) o nz i its)).
  { induction its as [|it its IH]; intros i nx NX B H.
    - cbn [outliers_from used_from]. split; [|constructor]. destruct nx as [|x nx]; [reflexivity|]. exfalso. destruct NX as [_ NX].
      destruct (proj1 (NX x) (or_introl eq_refl)) as [IO LE]. specialize (B x IO). cbn [length] in B. lia.
    - assert (B' : forall x, In x o -> (x < S i + length its)%nat) by (intros y Y; specialize (B y Y); cbn [length] in B; lia).
      assert (H' : forall k it, nth_error its k = Some it -> ~ In (S i + k)%nat o -> good_item T0 it).
      { intros k x E N. apply (H (S k)); [exact E|]. replace (i + S k)%nat with (S i + k)%nat by lia. exact N. }
      cbn [outliers_from used_from]. destruct (in_dec Nat.eq_dec i o) as [II | NI].
      + assert (F : fate_of p wp (ctl2 p wp) (ctg2 p wp) o nz i it = Outlier).
        { unfold fate_of. destruct (in_dec Nat.eq_dec i o); [reflexivity | contradiction]. }
        rewrite F. assert (HD := proj2 (next_head o i nx NX) II). destruct nx as [|x nx]; [discriminate|].
        apply Nat.eqb_eq in HD. subst x. destruct (IH (S i) nx (next_ok_skip o i nx NX) B' H') as [E1 E2].
        cbn [app]. rewrite E1. split; [reflexivity | exact E2].
      + assert (F := kept_fate i it NI). specialize (F (H 0%nat it eq_refl ltac:(rewrite Nat.add_0_r; exact NI))).
        destruct (IH (S i) nx (next_ok_keep o i nx NX NI) B' H') as [E1 E2].
        destruct (fate_of p wp (ctl2 p wp) (ctg2 p wp) o nz i it) as [c| |]; cbn [app].
        * split; [exact E1|]. constructor; assumption.
        * destruct F.
        * split; assumption. }
  apply G.
  - split; [exact SO|]. intro x. split; [intro I; split; [exact I | lia] | intros [I _]; exact I].
  - intros x I. specialize (SB x I). unfold items. rewrite !app_length, !map_length. lia.
  - intros k it E N. exact (good_items_but k it E N).
Qed.
End Walk.

Lemma compose_exact T0 Q cl cg : tr Q = mkV 0 0 0 -> (forall v, rotate Q v = rotate T0 v) -> cg = compose T0 cl ->
  vsub cg (compose Q cl) = tr T0.
Proof.
  intros TZ EQ ->. unfold compose. rewrite EQ, TZ. destruct (rotate T0 cl), (tr T0). vunf. f_equal; ring.
Qed.

(** C320: Horn's solver recovers the exact pose if the pairs the scale test rejects are the wrong ones, however wrong, and reports
    exactly those. *)
Theorem C320_horn_despite_outliers : forall eig p wp T0,
  is_rotation T0 -> exact_but (first_outliers p wp) T0 p ->
  positive_weights p wp -> blocks_cover p -> starts_not_outliers p (first_outliers p wp) ->
  vp_pts p <> [] -> at_least_three p -> vp_nPt2Ln p = 0%nat -> vp_nPt2Pl p = 0%nat ->
  wp_use_scale wp = true -> 1 <= wp_scale_thr wp -> first_outliers p wp <> [] ->
  inliers p (first_outliers p wp) <> [] ->
  (exists a b, In a (second_pairs p wp) /\ In b (second_pairs p wp) /\ vcross (c_r a) (c_r b) <> mkV 0 0 0) ->
  spectral (second_matrix p wp) (eig (second_matrix p wp)) ->
  optimal_tf_horn eig p wp = Ok (true, mkHR T0 (first_outliers p wp)).
Proof.
  intros eig p wp T0 RT EB PW CV ST NE N3 H1 H2 US THR NO NI [a [b [IA [IB IND]]]] SP.
  rewrite (horn_run2 eig p wp PW CV ST NE N3 H1 H2 US NO).
  destruct (second_walk T0 p wp false RT EB NI THR) as [SO GC]. fold (second_pairs p wp) in GC. fold (second_outliers p wp) in SO.
  destruct (inliers p (first_outliers p wp)) as [|y ys] eqn:EI; [contradiction|]. rewrite <- EI in NI. clear EI y ys.
  rewrite SO. do 3 f_equal.
  assert (UP := used_positive p wp (ctl2 p wp) (ctg2 p wp) (first_outliers p wp) false PW CV NE). fold (second_pairs p wp) in UP.
  assert (NC : second_pairs p wp <> []) by (intros Z; rewrite Z in IA; destruct IA).
  assert (W := sum_w_pos _ NC UP).
  destruct (horn_rotation_optimal eig (second_pairs p wp) _ W SP) as [RQ OPT].
  fold (second_matrix p wp) in RQ, OPT. set (q := best_quat eig (second_matrix p wp)) in *.
  assert (LE := OPT T0 RT). rewrite (rot_cost_zero _ _ GC) in LE.
  assert (GQ := rot_cost_nonpos _ _ UP LE). rewrite Forall_forall in GQ, GC.
  assert (EQ : forall v, rotate (quat_rot q) v = rotate T0 v).
  { apply (rotation_determined _ _ (c_r a) (c_r b)); try assumption.
    - rewrite <- (GQ a IA), <- (GC a IA). reflexivity.
    - rewrite <- (GQ b IB), <- (GC b IB). reflexivity. }
  destruct (cols_from_rotate _ _ EQ) as [E0 [E1 E2]]. unfold pose_of. rewrite E0, E1, E2.
  rewrite (compose_exact T0 (quat_rot q) (ctl2 p wp) (ctg2 p wp)); [destruct T0; reflexivity | destruct q; reflexivity | exact EQ|].
  apply centroids_exact; assumption.
Qed.

(** ** OLAE *)
Lemma outliers_nz p wp a b outl its : forall i, outliers_from p wp a b outl true i its = outliers_from p wp a b outl false i its.
Proof.
  induction its as [|it its IH]; intro i; [reflexivity|]. cbn [outliers_from]. rewrite IH. f_equal. unfold fate_of.
  destruct (in_dec Nat.eq_dec i outl); [reflexivity|]. destruct it as [g l|g l|g l]; try reflexivity.
  destruct (Rlt_dec _ _); [reflexivity|]. destruct (Rlt_dec _ _); [reflexivity|]. destruct (if wp_use_scale wp then _ else _); reflexivity.
Qed.

Lemma olae_run2 solve p wp : positive_weights p wp -> blocks_cover p -> starts_not_outliers p (first_outliers p wp) ->
  vp_pts p <> [] -> vp_nPt2Ln p = 0%nat -> vp_nPt2Pl p = 0%nat -> first_outliers p wp <> [] ->
  optimal_tf_olae solve p wp =
    match inliers p (first_outliers p wp) with
    | [] => Throw
    | _ => Ok (true, mkHR (olae_pose (olae_attitude solve (systems_of (olae_second p wp))) (ctl2 p wp) (ctg2 p wp))
                          (outliers_from p wp (ctl2 p wp) (ctg2 p wp) (first_outliers p wp) true 0 (items p)))
    end.
Proof.
  intros PW CV ST NE H1 H2 NO. unfold optimal_tf_olae.
  destruct (first_pass_ok p wp (centroid (map snd (vp_pts p))) (centroid (map fst (vp_pts p))) true PW CV NE H1 H2) as [r [V [VC [VO [VS _]]]]].
  destruct (pass_ok p wp (ctl2 p wp) (ctg2 p wp) (first_outliers p wp) true PW CV ST (first_outliers_sorted p wp) NE H1 H2) as [r2 [V2 [VC2 [VO2 VS2]]]].
  destruct PW as (A & B & C & _).
  destruct (Rle_dec 0 (wp_pt2pt wp)); [|exfalso; lra]. destruct (Rle_dec 0 (wp_ln2ln wp)); [|exfalso; lra].
  destruct (Rle_dec 0 (wp_pl2pl wp)); [|exfalso; lra].
  rewrite eval_centroids_nil by exact NE. cbn [rbind]. unfold olae_build at 1. rewrite V. cbn [rbind].
  rewrite outliers_nz in VO. fold (first_outliers p wp) in VO. rewrite VO.
  assert (Z : Nat.eqb (length (first_outliers p wp)) 0 = false) by (destruct (first_outliers p wp); [contradiction | reflexivity]). rewrite Z.
  rewrite (eval_centroids_inliers p _ (first_outliers_sorted p wp)).
  destruct (inliers p (first_outliers p wp)) as [|y ys] eqn:EI; [reflexivity|]. rewrite <- EI. cbn [rbind].
  fold (ctl2 p wp). fold (ctg2 p wp). unfold olae_build. rewrite V2. cbn [rbind].
  unfold systems_of, olae_second. rewrite VS2, VC2, VO2. reflexivity.
Qed.

Lemma used_unit_any p wp ctl ctg o : unit_directions p ->
  Forall (fun c => vnorm2 (c_r c) = 1) (used_from p wp ctl ctg o true 0 (items p)).
Proof.
  intros [UL UP].
  assert (GI : Forall (fun it => match it with IPt _ _ => True | ILn _ l => vnorm2 l = 1 | IPl _ l => vnorm2 l = 1 end) (items p)).
  { unfold items. rewrite !Forall_app, !Forall_map. split; [apply Forall_forall; intros; exact I|].
    split; (eapply Forall_impl; [|eassumption]); intros [g l]; simpl; auto. }
  generalize 0%nat. induction GI as [|it its G F IH]; intros i; [constructor|]. cbn [used_from]. apply Forall_app. split; [|apply IH].
  unfold fate_of. destruct (in_dec Nat.eq_dec i o) as [_|_]; [constructor|]. destruct it as [g l|g l|g l].
  - destruct (Rlt_dec (vnorm (vsub g ctg)) (1 / 10000)); [constructor|]. destruct (Rlt_dec (vnorm (vsub l ctl)) (1 / 10000)); [constructor|].
    destruct (if wp_use_scale wp then _ else _); [constructor|]. constructor; [|constructor]. cbn [c_r]. apply unit_norm; assumption.
  - constructor; [exact G|constructor].
  - constructor; [exact G|constructor].
Qed.

(** the attitude of exact unit pairs *)
Lemma olae_exact solve T0 cs : linear_solver solve -> is_rotation T0 -> exact_calls T0 cs -> Forall (fun c => 0 < c_w c) cs ->
  one_largest (systems_of cs) -> forall x, rotate (olae_attitude solve (systems_of cs)) x = rotate T0 x.
Proof.
  intros LS RT EX UP ONE.
  destruct cs as [|c cs'] eqn:EC.
  { exfalso. unfold one_largest, systems_of in ONE.
    cbv zeta in ONE. unfold B_of, v_of in ONE. cbn [sum_w] in ONE. destruct (Rlt_dec 0 0) as [X|_]; [exfalso; lra|].
    unfold olae_systems, det in ONE. cbn [fold_left oM oMx oMy oMz S_zero vzero3 m00 m01 m02 m10 m11 m12 m20 m21 m22 vx vy vz] in ONE.
    ring_simplify (0 + 0) in ONE.
    repeat match type of ONE with context [Rabs ?e] => progress replace e with (-1) in ONE by ring end. lra. }
  assert (NC : cs <> []) by (rewrite EC; discriminate). rewrite <- EC in *. clear EC c cs'.
  assert (W := sum_w_pos _ NC UP).
  assert (D0 : forall d x : R, Rabs d < Rabs x -> x <> 0).
  { intros d x L ->. rewrite Rabs_R0 in L. assert (Q := Rabs_pos d). lra. }
  destruct half_rotations as [RX [RY RZ]]. destruct half_twice as [TX [TY TZ]].
  set (B := B_of cs (sum_w cs)).
  assert (PS : systems_of cs = olae_systems B (v_from_B B)) by (unfold systems_of; rewrite v_of_B; reflexivity).
  unfold one_largest in ONE. unfold olae_attitude. set (s := systems_of cs) in *.
  set (d := Rabs (det (oM s))) in *. set (dx := Rabs (det (oMx s))) in *. set (dy := Rabs (det (oMy s))) in *. set (dz := Rabs (det (oMz s))) in *.
  intros x. destruct ONE as [(L1 & L2 & L3)|[(L1 & L2 & L3)|[(L1 & L2 & L3)|(L1 & L2 & L3)]]].
  - destruct (Rlt_dec (max3 dx dy dz) d) as [_|N]; [|exfalso; apply N, max3_lt; assumption].
    apply (olae_plain solve T0 cs RT EX W).
    + apply (D0 _ _ L1). + apply LS. apply (D0 _ _ L1).
  - destruct (Rlt_dec (max3 dx dy dz) d) as [N|_]; [exfalso; revert N; apply max3_nlt; lra|].
    destruct (Rlt_dec (max3 d dy dz) dx) as [_|N]; [|exfalso; apply N, max3_lt; assumption].
    destruct (system_x B) as [EM EV]. rewrite <- PS in EM, EV.
    assert (DD : det (oMx s) <> 0) by apply (D0 _ _ L1). rewrite EM in DD |- *. rewrite EV.
    apply (olae_turned solve T0 cs half_x 1 (-1) (-1) RT EX W RX TX half_x_rot DD). apply LS. exact DD.
  - destruct (Rlt_dec (max3 dx dy dz) d) as [N|_]; [exfalso; revert N; apply max3_nlt; lra|].
    destruct (Rlt_dec (max3 d dy dz) dx) as [N|_]; [exfalso; revert N; apply max3_nlt; lra|].
    destruct (Rlt_dec (max3 d dx dz) dy) as [_|N]; [|exfalso; apply N, max3_lt; assumption].
    destruct (system_y B) as [EM EV]. rewrite <- PS in EM, EV.
    assert (DD : det (oMy s) <> 0) by apply (D0 _ _ L1). rewrite EM in DD |- *. rewrite EV.
    apply (olae_turned solve T0 cs half_y (-1) 1 (-1) RT EX W RY TY half_y_rot DD). apply LS. exact DD.
  - destruct (Rlt_dec (max3 dx dy dz) d) as [N|_]; [exfalso; revert N; apply max3_nlt; lra|].
    destruct (Rlt_dec (max3 d dy dz) dx) as [N|_]; [exfalso; revert N; apply max3_nlt; lra|].
    destruct (Rlt_dec (max3 d dx dz) dy) as [N|_]; [exfalso; revert N; apply max3_nlt; lra|].
    destruct (system_z B) as [EM EV]. rewrite <- PS in EM, EV.
    assert (DD : det (oMz s) <> 0) by apply (D0 _ _ L1). rewrite EM in DD |- *. rewrite EV.
    apply (olae_turned solve T0 cs half_z (-1) (-1) 1 RT EX W RZ TZ half_z_rot DD). apply LS. exact DD.
Qed.

(** C321: so does OLAE. *)
Theorem C321_olae_despite_outliers : forall solve p wp T0,
  linear_solver solve ->
  is_rotation T0 -> exact_but (first_outliers p wp) T0 p -> unit_directions p ->
  positive_weights p wp -> blocks_cover p -> starts_not_outliers p (first_outliers p wp) ->
  vp_pts p <> [] -> vp_nPt2Ln p = 0%nat -> vp_nPt2Pl p = 0%nat ->
  1 <= wp_scale_thr wp -> first_outliers p wp <> [] -> inliers p (first_outliers p wp) <> [] ->
  one_largest (systems_of (olae_second p wp)) ->
  optimal_tf_olae solve p wp = Ok (true, mkHR T0 (first_outliers p wp)).
Proof.
  intros solve p wp T0 LS RT EB UD PW CV ST NE H1 H2 THR NO NI ONE.
  rewrite (olae_run2 solve p wp PW CV ST NE H1 H2 NO).
  destruct (second_walk T0 p wp true RT EB NI THR) as [SO GC].
  destruct (inliers p (first_outliers p wp)) as [|y ys] eqn:EI; [contradiction|]. rewrite <- EI in NI. clear EI y ys.
  rewrite SO. do 3 f_equal. fold (olae_second p wp) in GC.
  assert (UP := used_positive p wp (ctl2 p wp) (ctg2 p wp) (first_outliers p wp) true PW CV NE). fold (olae_second p wp) in UP.
  assert (UU := used_unit_any p wp (ctl2 p wp) (ctg2 p wp) (first_outliers p wp) UD). fold (olae_second p wp) in UU.
  assert (EX : exact_calls T0 (olae_second p wp)).
  { apply Forall_forall. rewrite Forall_forall in GC, UU. intros c I. split; [apply GC|apply UU]; exact I. }
  assert (EQ := olae_exact solve T0 _ LS RT EX UP ONE).
  destruct (cols_from_rotate _ _ EQ) as [E0 [E1 E2]]. unfold olae_pose. rewrite E0, E1, E2.
  rewrite (compose_exact T0 _ (ctl2 p wp) (ctg2 p wp)); [destruct T0; reflexivity | | exact EQ|].
  - unfold olae_attitude. cbv zeta. repeat (destruct (Rlt_dec _ _); [reflexivity|]). reflexivity.
  - apply centroids_exact; assumption.
Qed.

(** ** The hypotheses are met: the six points along the axes seen after any pose, and two pairs three times too far. *)
Section Case.
Variable T : Pose.
Hypothesis RT : is_rotation T.
Definition far2 : list (V3 * V3) := [(mkV 3 0 0, mkV 1 0 0); (mkV (-3) 0 0, mkV (-1) 0 0)].
Definition p8 : VPairs := mkVP (map (fun l => (compose T l, l)) six ++ map (fun x => (compose T (fst x), snd x)) far2) [] [] 0 0 [].
Definition wp2 : VWeights := mkVW true 2 1 1 1 None None.

Lemma p8_centroids : centroid (map snd (vp_pts p8)) = vzero3 /\ centroid (map fst (vp_pts p8)) = compose T vzero3.
Proof.
  split.
  - unfold centroid, vsum, vzero3, p8, six, far2. cbn [vp_pts map app fst snd fold_right length]. rewrite INR_IZR_INZ. vunf. f_equal; simpl; field.
  - transitivity (compose T (centroid (map fst (map (fun l => (l, l)) six ++ far2)))).
    + set (q := map (fun x : V3 * V3 => (compose T (fst x), fst x)) (map (fun l => (l, l)) six ++ far2)).
      change (centroid (map fst q) = compose T (centroid (map snd q))). apply centroid_noiseless; [discriminate|].
      apply Forall_forall. intros x I. apply in_map_iff in I. destruct I as (y & <- & _). reflexivity.
    + f_equal. unfold centroid, vsum, vzero3, six, far2. cbn [map app fst snd fold_right length]. rewrite INR_IZR_INZ. vunf. f_equal; simpl; field.
Qed.
Lemma p8_norm n x y z : 0 <= n -> x * x + y * y + z * z = n * n ->
  vnorm (vsub (compose T (mkV x y z)) (compose T vzero3)) = n /\ vnorm (vsub (mkV x y z) vzero3) = n.
Proof.
  intros N E. rewrite sub_compose, (rotate_norm T _ RT).
  assert (X : vnorm (vsub (mkV x y z) vzero3) = n).
  { unfold vnorm. replace (vnorm2 (vsub (mkV x y z) vzero3)) with (n * n) by (rewrite <- E; unfold vzero3; vunf; ring). apply sqrt_square. exact N. }
  split; exact X.
Qed.
Lemma p8_fate nz o i g l : 
  fate_of p8 wp2 vzero3 (compose T vzero3) o nz i (IPt g l) =
  if in_dec Nat.eq_dec i o then Outlier
  else if Rlt_dec (vnorm (vsub g (compose T vzero3))) (1 / 10000) then Dropped
  else if Rlt_dec (vnorm (vsub l vzero3)) (1 / 10000) then Dropped
  else if Rlt_dec 2 (Rmax (vnorm (vsub g (compose T vzero3))) (vnorm (vsub l vzero3)) / Rmin (vnorm (vsub g (compose T vzero3))) (vnorm (vsub l vzero3))) then Outlier
  else Used (mkCall i (if nz then unit (vsub g (compose T vzero3)) else vsub g (compose T vzero3)) (if nz then unit (vsub l vzero3) else vsub l vzero3) (1 / 8)).
Proof.
  unfold fate_of. destruct (in_dec Nat.eq_dec i o); [reflexivity|]. destruct (Rlt_dec _ _); [reflexivity|]. destruct (Rlt_dec _ _); [reflexivity|].
  cbn [wp2 wp_use_scale wp_scale_thr]. destruct (Rlt_dec 2 _); [reflexivity|]. f_equal. f_equal.
  unfold kernel_factor, class_total. cbn [wp2 wp_kernel wp_pt2pt wp_ln2ln wp_pl2pl p8 vp_lns vp_pls].
  replace (length (vp_pts p8)) with 8%nat by reflexivity. change (pair_block_weight p8 i) with 1. rewrite INR_IZR_INZ. simpl. field.
Qed.
Lemma p8_six nz o i x y z : ~ In i o -> x * x + y * y + z * z = 1 ->
  fate_of p8 wp2 vzero3 (compose T vzero3) o nz i (IPt (compose T (mkV x y z)) (mkV x y z)) = Used (mkCall i (rotate T (mkV x y z)) (mkV x y z) (1 / 8)).
Proof.
  intros N E. rewrite p8_fate. destruct (in_dec Nat.eq_dec i o) as [|_]; [contradiction|].
  destruct (p8_norm 1 x y z ltac:(lra) ltac:(lra)) as [A B]. rewrite A, B. destruct (Rlt_dec 1 (1 / 10000)); [exfalso; lra|].
  rewrite Rmax_left, Rmin_left by lra. destruct (Rlt_dec 2 (1 / 1)); [exfalso; lra|].
  assert (U : forall v, vnorm v = 1 -> unit v = v) by (intros v V; unfold unit; rewrite V; destruct v; vunf; f_equal; field).
  rewrite (U _ A), (U _ B). assert (Z : vsub (mkV x y z) vzero3 = mkV x y z) by (unfold vzero3; vunf; f_equal; ring).
  rewrite sub_compose, Z. destruct nz; reflexivity.
Qed.
Lemma p8_far nz i x : x * x = 1 -> fate_of p8 wp2 vzero3 (compose T vzero3) [] nz i (IPt (compose T (mkV (3 * x) 0 0)) (mkV x 0 0)) = Outlier.
Proof.
  intros E. rewrite p8_fate. destruct (in_dec Nat.eq_dec i []) as [[]|_].
  destruct (p8_norm 3 (3 * x) 0 0 ltac:(lra) ltac:(nra)) as [A _]. destruct (p8_norm 1 x 0 0 ltac:(lra) ltac:(nra)) as [_ B]. rewrite A, B.
  destruct (Rlt_dec 3 (1 / 10000)); [exfalso; lra|]. destruct (Rlt_dec 1 (1 / 10000)); [exfalso; lra|].
  rewrite Rmax_left, Rmin_right by lra. destruct (Rlt_dec 2 (3 / 1)); [reflexivity | exfalso; lra].
Qed.
Lemma p8_known nz o i it : In i o -> fate_of p8 wp2 vzero3 (compose T vzero3) o nz i it = Outlier.
Proof. intro I. unfold fate_of. destruct (in_dec Nat.eq_dec i o); [reflexivity | contradiction]. Qed.

Lemma p8_items : items p8 = map (fun l => IPt (compose T l) l) six ++
  [IPt (compose T (mkV (3 * 1) 0 0)) (mkV 1 0 0); IPt (compose T (mkV (3 * (-1)) 0 0)) (mkV (-1) 0 0)].
Proof.
  replace (3 * 1) with 3 by ring. replace (3 * -1) with (-3) by ring. reflexivity.
Qed.
Lemma p8_first : first_outliers p8 wp2 = [6%nat; 7%nat].
Proof.
  unfold first_outliers. destruct p8_centroids as [-> ->]. rewrite p8_items. cbn [map six app outliers_from].
  rewrite !p8_six by (try (intros []); lra). rewrite !p8_far by lra. reflexivity.
Qed.
Lemma p8_inliers : inliers p8 (first_outliers p8 wp2) = map (fun l => (compose T l, l)) six.
Proof. rewrite p8_first. reflexivity. Qed.
Lemma p8_ct2 : ctl2 p8 wp2 = vzero3 /\ ctg2 p8 wp2 = compose T vzero3.
Proof.
  unfold ctl2, ctg2. rewrite p8_inliers.
  rewrite (centroid_noiseless T (map (fun l => (compose T l, l)) six)); [|discriminate|].
  - replace (map snd (map (fun l => (compose T l, l)) six)) with six by reflexivity. rewrite centroid_six. auto.
  - apply Forall_forall. intros x I. apply in_map_iff in I. destruct I as (y & <- & _). reflexivity.
Qed.
Definition six_used : list call := map (fun il => mkCall (fst il) (rotate T (snd il)) (snd il) (1 / 8)) (combine (seq 0 6) six).
Lemma p8_second nz : used_from p8 wp2 (ctl2 p8 wp2) (ctg2 p8 wp2) (first_outliers p8 wp2) nz 0 (items p8) = six_used.
Proof.
  destruct p8_ct2 as [-> ->]. rewrite p8_first, p8_items. cbn [map six app used_from].
  rewrite !p8_six by (try (intros [X | [X | []]]; discriminate); lra). rewrite !p8_known by (simpl; auto). reflexivity.
Qed.
Lemma p8_hyps : exact_but (first_outliers p8 wp2) T p8 /\ unit_directions p8 /\ positive_weights p8 wp2 /\ blocks_cover p8 /\
  starts_not_outliers p8 (first_outliers p8 wp2) /\ at_least_three p8 /\ first_outliers p8 wp2 <> [] /\ inliers p8 (first_outliers p8 wp2) <> [].
Proof.
  rewrite p8_inliers, p8_first. split; [|split; [split; constructor|split; [|split; [|split; [|split; [|split; discriminate]]]]]].
  - split; [|split; constructor]. intros i g l E N. destruct i as [|[|[|[|[|[|[|[|i]]]]]]]]; cbn [nth_error p8 vp_pts map six app far2] in E; try (injection E as <- <-; reflexivity).
    + exfalso. apply N. left. reflexivity.
    + exfalso. apply N. right. left. reflexivity.
    + destruct i; discriminate E.
  - unfold positive_weights, wp2, p8; simpl. repeat split; try lra; constructor.
  - intros X. exfalso. apply X. reflexivity.
  - intros c [].
  - unfold at_least_three. cbn [p8 vp_pts vp_lns vp_pls]. rewrite app_length, !map_length. cbn [six far2 length]. lia.
Qed.
Lemma p8_B : B_of six_used (sum_w six_used) =
  mkM (vx (c0 T) / 3) (vx (c1 T) / 3) (vx (c2 T) / 3) (vy (c0 T) / 3) (vy (c1 T) / 3) (vy (c2 T) / 3)
      (vz (c0 T) / 3) (vz (c1 T) / 3) (vz (c2 T) / 3).
Proof.
  clear RT. unfold B_of, six_used. cbn [sum_w c_w combine seq six map fst snd]. destruct (Rlt_dec 0 _) as [|X]; [|exfalso; lra].
  destruct T as [[a00 a10 a20] [a01 a11 a21] [a02 a12 a22] t]. unfold B_add, S_zero. cbn [fold_left m00 m01 m02 m10 m11 m12 m20 m21 m22 c_w c_b c_r].
  unfold rotate, vadd, vscale, S_scale. cbn [vx vy vz c0 c1 c2 HornModel.m00 HornModel.m01 HornModel.m02 HornModel.m10 HornModel.m11 HornModel.m12 HornModel.m20 HornModel.m21 HornModel.m22]. f_equal; field.
Qed.
End Case.

Example C321_case : optimal_tf_olae cramer (p8 turn34) wp2 = Ok (true, mkHR turn34 [6%nat; 7%nat]).
Proof.
  rewrite <- (p8_first turn34 turn34_rotation). destruct (p8_hyps turn34 turn34_rotation) as (A & B & C & D & E & F & G & H).
  apply C321_olae_despite_outliers; try assumption; try reflexivity; try discriminate.
  - exact cramer_solves.
  - exact turn34_rotation.
  - cbn [wp2 wp_scale_thr]. lra.
  - unfold olae_second. rewrite (p8_second turn34 turn34_rotation). unfold systems_of. rewrite v_of_B, (p8_B turn34). left.
    unfold olae_systems, v_from_B, det, turn34.
    cbn [oM oMx oMy oMz vx vy vz c0 c1 c2 HornModel.m00 HornModel.m01 HornModel.m02 HornModel.m10 HornModel.m11 HornModel.m12 HornModel.m20 HornModel.m21 HornModel.m22].
    repeat split; rabs_solve.
Qed.

Lemma p8_matrix : second_matrix (p8 quarter) wp2 = horn_matrix quarter_pairs wp_default.
Proof.
  rewrite quarter_matrix. unfold second_matrix, second_pairs. rewrite (p8_second quarter quarter_rotation).
  unfold S_of, six_used. cbn [sum_w c_w combine seq six map fst snd]. destruct (Rlt_dec 0 _) as [|X]; [|exfalso; lra].
  unfold S_scale, S_add, S_zero, N_of, quarter. cbn [fold_left m00 m01 m02 m10 m11 m12 m20 m21 m22 c_w c_b c_r].
  unfold rotate, vadd, vscale. cbn [vx vy vz c0 c1 c2 tr]. f_equal; field.
Qed.
Example C320_case : optimal_tf_horn quarter_eig (p8 quarter) wp2 = Ok (true, mkHR quarter [6%nat; 7%nat]).
Proof.
  rewrite <- (p8_first quarter quarter_rotation). destruct (p8_hyps quarter quarter_rotation) as (A & B & C & D & E & F & G & H).
  apply C320_horn_despite_outliers; try assumption; try reflexivity; try discriminate.
  - exact quarter_rotation.
  - cbn [wp2 wp_scale_thr]. lra.
  - unfold second_pairs. rewrite (p8_second quarter quarter_rotation). do 2 eexists. split; [left; reflexivity|]. split; [right; right; left; reflexivity|].
    cbn [c_r snd six]. vunf. intro X. injection X as _ _ X. lra.
  - rewrite p8_matrix. exact quarter_spectral.
Qed.

(** C322 refuted: as with Horn's solver, a pair rejected by the second test is reported but entered the centroids: moving it
    moves the result. *)
Theorem C322_reported_outlier_moves_the_pose_refuted : forall solve,
  same_but [3%nat] (x5 0) (x5 1) /\
  exists r r', optimal_tf_olae solve (x5 0) wp_scale = Ok (true, r) /\ optimal_tf_olae solve (x5 1) wp_scale = Ok (true, r') /\
    hr_outliers r = [0%nat; 3%nat] /\ hr_outliers r' = [0%nat; 3%nat] /\ hr_pose r <> hr_pose r'.
Proof.
  intros solve. split; [exact (proj1 (C210_reported_outlier_moves_the_pose_refuted (fun _ => quarter_eig (mkS4 0 0 0 0 0 0 0 0 0 0))))|].
  destruct (x5_hyps 0 (or_introl eq_refl)) as (A & B & C & D & E & F & G).
  destruct (x5_hyps 1 (or_intror eq_refl)) as (A' & B' & C' & D' & E' & F' & G').
  assert (R := olae_run2 solve (x5 0) wp_scale A B C D eq_refl eq_refl F).
  assert (R' := olae_run2 solve (x5 1) wp_scale A' B' C' D' eq_refl eq_refl F').
  destruct (inliers (x5 0) (first_outliers (x5 0) wp_scale)); [contradiction|].
  destruct (inliers (x5 1) (first_outliers (x5 1) wp_scale)); [contradiction|].
  eexists. eexists. split; [exact R|]. split; [exact R'|]. cbn [hr_outliers hr_pose]. rewrite !outliers_nz.
  fold (second_outliers (x5 0) wp_scale). fold (second_outliers (x5 1) wp_scale). rewrite (x5_second 0), (x5_second 1) by auto.
  split; [reflexivity|]. split; [reflexivity|].
  destruct (x5_ct2 0 ltac:(lra)) as [-> ->]. destruct (x5_ct2 1 ltac:(lra)) as [-> ->].
  assert (K : forall s cg, tr (olae_pose (olae_attitude solve s) (e1 0) cg) = cg).
  { intros s cg. unfold olae_pose. cbn [tr]. assert (TZ : tr (olae_attitude solve s) = mkV 0 0 0).
    { unfold olae_attitude. cbv zeta. repeat (destruct (Rlt_dec _ _); [reflexivity|]). reflexivity. }
    unfold compose. rewrite TZ. destruct (olae_attitude solve s) as [[a1 a2 a3] [b1 b2 b3] [d1 d2 d3] t0]. destruct cg as [g1 g2 g3]. unfold rotate, e1, vadd, vscale, vsub. cbn [vx vy vz c0 c1 c2 tr].
    f_equal; ring. }
  intro H. apply (f_equal tr) in H. rewrite !K in H. apply (f_equal vx) in H. cbn [e1 vx] in H. unfold e1 in H. cbn [vx] in H. lra.
Qed.
(** C322, what holds: pairs rejected by the first test have no influence. *)
Theorem C322_first_pass_outliers_have_no_influence_where : forall solve p p' wp,
  positive_weights p wp -> positive_weights p' wp -> blocks_cover p -> blocks_cover p' ->
  first_outliers p wp = first_outliers p' wp -> first_outliers p wp <> [] ->
  starts_not_outliers p (first_outliers p wp) ->
  vp_nPt2Ln p = 0%nat -> vp_nPt2Pl p = 0%nat -> vp_nPt2Ln p' = 0%nat -> vp_nPt2Pl p' = 0%nat ->
  same_but (first_outliers p wp) p p' ->
  optimal_tf_olae solve p wp = optimal_tf_olae solve p' wp.
Proof.
  intros solve p p' wp PW PW' CV CV' EO NO ST H1 H2 H1' H2' SB.
  assert (NE : vp_pts p <> []).
  { intro Z. destruct (first_outliers p wp) as [|o os] eqn:E; [contradiction|].
    assert (B := proj2 (first_outliers_sorted p wp) o). rewrite E in B. specialize (B (or_introl eq_refl)). rewrite Z in B. cbn [length] in B. lia. }
  assert (NE' : vp_pts p' <> []).
  { intro Z. destruct SB as (_ & _ & _ & L & _). rewrite Z in L. destruct (vp_pts p); [contradiction|discriminate]. }
  assert (ST' : starts_not_outliers p' (first_outliers p' wp)).
  { rewrite <- EO. unfold starts_not_outliers in *. destruct SB as (_ & _ & <- & <- & _). exact ST. }
  rewrite (olae_run2 solve p wp), (olae_run2 solve p' wp); try assumption; [|rewrite <- EO; exact NO].
  assert (EI : inliers p (first_outliers p wp) = inliers p' (first_outliers p' wp)).
  { rewrite <- EO. unfold inliers. destruct SB as (_ & _ & _ & L & H). apply inliers_ext; [exact L|]. intros k N. apply H. exact N. }
  assert (C1 : ctl2 p wp = ctl2 p' wp) by (unfold ctl2; rewrite EI; reflexivity).
  assert (C2 : ctg2 p wp = ctg2 p' wp) by (unfold ctg2; rewrite EI; reflexivity).
  assert (CT : class_total p wp = class_total p' wp).
  { unfold class_total. destruct SB as (-> & -> & _ & -> & _). reflexivity. }
  destruct (items_ext _ _ _ SB) as [IL IH].
  destruct (walk_ext p p' wp (ctl2 p wp) (ctg2 p wp) (first_outliers p wp) true (proj1 (proj2 (proj2 SB))) CT (items p) (items p') 0 IL IH) as [W1 W2].
  unfold olae_second. rewrite EI, <- C1, <- C2, <- EO, W1, W2. reflexivity.
Qed.
