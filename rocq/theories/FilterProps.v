(** C40, C41, C45, C48 and C63: routing filters, layer deletion and pipelines. *)
From Coq Require Import String Permutation Reals Qreals Lra.
From Verif Require Import Base FilterModel FilterSpec FilterProofs FilterProofs2.
Open Scope string_scope.
Open Scope Q_scope.
Open Scope list_scope.

(** ** C40: bounding box *)

(** The point is inside the closed box, on the three axes. *)
Definition InsideBox (c : BBoxCfg) (p : Pt) : Prop :=
  let '(x0, y0, z0) := bb_min c in
  let '(x1, y1, z1) := bb_max c in
  (x0 <= px p <= x1) /\ (y0 <= py p <= y1) /\ (z0 <= pz p <= z1).

Lemma in_box_iff c p : in_box c p = true <-> InsideBox c p.
Proof.
  unfold in_box, InsideBox. destruct (bb_min c) as [[x0 y0] z0], (bb_max c) as [[x1 y1] z1].
  rewrite !andb_true_iff, !Qle_bool_iff. tauto.
Qed.

(** Every input point inside the box goes to the inside layer, every other to the
    outside layer, in order, after what those layers already had; nothing else changes.
    The call ends after as many steps as there are points. *)
Theorem C40_bounding_box_routes : forall c m src,
  lfind m (bb_in c) = Some (LPts src) -> wf_cloud src ->
  usable m (bb_inside c) -> usable m (bb_outside c) ->
  bb_in c <> bb_inside c -> bb_in c <> bb_outside c ->
  exists m', (forall fuel, (List.length (cl_pts src) <= fuel)%nat ->
                filter_bbox fuel c m = (m', Val tt)) /\
    exists dest, Routed m m' src dest [bb_inside c; bb_outside c] /\
      (forall p, InsideBox c p -> dest p = bb_inside c) /\
      (forall p, ~ InsideBox c p -> dest p = bb_outside c).
Proof.
  intros c m src H W U1 U2 N1 N2.
  destruct (routed_spec m [bb_inside c; bb_outside c] src (bbox_dest c)) as [m' [R S]].
  - intros n [<-|[<-|[]]]; assumption.
  - intros p. right. unfold bbox_dest. destruct (in_box c p); simpl; tauto.
  - exact W.
  - exists m'. split.
    + intros fuel F. unfold filter_bbox, bnd. rewrite (input_ok _ _ _ H).
      rewrite (goc_usable _ _ _ U1).
      rewrite (goc_usable _ _ _ (usable_created _ _ _ _ U2)).
      rewrite created_app. simpl app.
      rewrite <- R. eapply route_live_list with (pre := []).
      * apply created_keeps. exact H.
      * reflexivity.
      * reflexivity.
      * exact F.
      * intros p _ Np. apply is_pts_created.
        -- intros k [<-|[<-|[]]]; assumption.
        -- unfold bbox_dest. destruct (in_box c p); simpl; tauto.
        -- exact Np.
      * intros p _. unfold bbox_dest. destruct (in_box c p); congruence.
    + exists (bbox_dest c). split; [exact S|]. split; intros p Hp; unfold bbox_dest.
      * apply in_box_iff in Hp. rewrite Hp. reflexivity.
      * destruct (in_box c p) eqn:E; [apply in_box_iff in E; contradiction|reflexivity].
Qed.

(** Two new output layers: together they hold each input point exactly once. *)
Theorem C40_partition : forall c m src,
  lfind m (bb_in c) = Some (LPts src) -> wf_cloud src ->
  bb_inside c <> "" -> bb_outside c <> "" -> bb_inside c <> bb_outside c ->
  lfind m (bb_inside c) = None -> lfind m (bb_outside c) = None ->
  exists m' i o, (forall fuel, (List.length (cl_pts src) <= fuel)%nat ->
                    filter_bbox fuel c m = (m', Val tt)) /\
    lfind m' (bb_inside c) = Some (LPts (mkCloud (cl_cls src) i)) /\
    lfind m' (bb_outside c) = Some (LPts (mkCloud (cl_cls src) o)) /\
    Permutation (i ++ o) (cl_pts src) /\
    Forall (InsideBox c) i /\ Forall (fun p => ~ InsideBox c p) o /\
    lfind m' (bb_in c) = Some (LPts src).
Proof.
  intros c m src H W Ni No Nio Fi Fo.
  assert (A1 : bb_in c <> bb_inside c) by (intros E; rewrite E in H; congruence).
  assert (A2 : bb_in c <> bb_outside c) by (intros E; rewrite E in H; congruence).
  destruct (C40_bounding_box_routes c m src H W) as [m' [R [dest [S [DI DO]]]]]; try assumption.
  - right; left; exact Fi.
  - right; left; exact Fo.
  - exists m', (sent dest (bb_inside c) (cl_pts src)), (sent dest (bb_outside c) (cl_pts src)).
    split; [exact R|].
    destruct (S (bb_inside c)) as [S1 _]. rewrite Fi in S1.
    destruct (S (bb_outside c)) as [S2 _]. rewrite Fo in S2.
    destruct (S (bb_in c)) as [_ S3]. rewrite H in S3.
    split; [apply S1; split; [left; reflexivity|exact Ni]|].
    split; [apply S2; split; [right; left; reflexivity|exact No]|].
    assert (ID : forall p, dest p = bb_inside c <-> InsideBox c p).
    { intros p. split; [|apply DI]. intros E.
      destruct (in_box c p) eqn:B; [apply in_box_iff; exact B|].
      rewrite DO in E; [congruence|]. intros X. apply in_box_iff in X. congruence. }
    assert (OD : forall p, dest p = bb_outside c <-> ~ InsideBox c p).
    { intros p. split; [|apply DO]. intros E X. apply DI in X. congruence. }
    split; [|split; [|split]].
    + clear - ID OD Nio. induction (cl_pts src) as [|p l IH]; [constructor|]. unfold sent in *. simpl.
      destruct (String.eqb (dest p) (bb_inside c)) eqn:E.
      * apply String.eqb_eq in E. rewrite E, (seqb_neq _ _ Nio). simpl. constructor. exact IH.
      * assert (F : dest p = bb_outside c).
        { apply OD. intros X. apply ID in X. rewrite X, seqb_refl in E. discriminate. }
        rewrite F, seqb_refl. etransitivity; [symmetry; apply Permutation_middle|].
        constructor. exact IH.
    + apply Forall_forall. intros p Hp. apply filter_In in Hp. apply ID.
      apply String.eqb_eq. tauto.
    + apply Forall_forall. intros p Hp. apply filter_In in Hp. apply OD.
      apply String.eqb_eq. tauto.
    + apply S3. left. simpl. intros [E|[E|[]]]; congruence.
Qed.

(** A missing (or not a point cloud) input, or an output that names a layer of another
    kind, is an error. *)
Theorem C40_rejects : forall c m fuel,
  ~ (exists src, lfind m (bb_in c) = Some (LPts src)) \/
  ~ usable m (bb_inside c) \/ ~ usable m (bb_outside c) ->
  snd (filter_bbox fuel c m) = Exc.
Proof.
  intros c m fuel H.
  assert (D : is_pts m (bb_in c) \/ ~ is_pts m (bb_in c)).
  { unfold is_pts. destruct (lfind m (bb_in c)) as [[d|x|]|];
      [left; eexists; reflexivity|right|right|right]; intros [? E]; discriminate. }
  unfold filter_bbox, bnd. destruct D as [[src E]|D].
  2:{ rewrite (input_bad _ _ D). reflexivity. }
  rewrite (input_ok _ _ _ E).
  destruct (usable_dec m (bb_inside c)) as [U|U].
  2:{ rewrite (goc_bad _ _ _ U). reflexivity. }
  rewrite (goc_usable _ _ _ U).
  destruct H as [H|[H|H]]; [exfalso; apply H; exists src; exact E|contradiction|].
  rewrite goc_bad; [reflexivity|]. apply unusable_created. exact H.
Qed.

(** When the call throws, every layer that existed still has its contents. *)
Theorem C66_bbox_error_keeps_layers : forall c m m' fuel,
  filter_bbox fuel c m = (m', Exc) ->
  forall n l, lfind m n = Some l -> lfind m' n = Some l.
Proof.
  intros c m m' fuel. revert m m'. change (ExcSafe (filter_bbox fuel c)). unfold filter_bbox.
  apply excsafe_bnd; [apply safe_input|]. intros pc.
  apply excsafe_bnd; [apply safe_goc|]. intros _.
  apply excsafe_bnd; [apply safe_goc|]. intros _.
  apply excsafe_noexc. apply noexc_live.
Qed.

(** In-place use (input layer = inside layer): as soon as one input point is inside the
    box, the call never returns, however many steps are granted.  The claim of C64
    therefore fails for this configuration, which load_from_yaml accepts. *)
Theorem C64_in_place_never_ends_refuted : forall c m src p,
  lfind m (bb_in c) = Some (LPts src) -> bb_in c <> "" -> bb_inside c = bb_in c ->
  usable m (bb_outside c) -> In p (cl_pts src) -> InsideBox c p ->
  bbox_accepts c = true /\
  forall fuel, snd (filter_bbox fuel c m) = Spin.
Proof.
  intros c m src p H N E U I B. split.
  { unfold bbox_accepts. rewrite E, (seqb_neq _ _ N). reflexivity. }
  intros fuel.
  assert (U1 : usable m (bb_inside c)) by (right; right; exists src; rewrite E; exact H).
  unfold filter_bbox, bnd. rewrite (input_ok _ _ _ H).
  rewrite (goc_usable _ _ _ U1).
  rewrite (goc_usable _ _ _ (usable_created _ _ _ _ U)). rewrite created_app. simpl app.
  destruct (In_nth_error _ _ I) as [j Hj].
  destruct (live_in_place_spins fuel (bb_in c) (bbox_dest c) 0
              (created m [bb_inside c; bb_outside c] (cl_cls src)) src) as [m' R].
  - exact N.
  - intros k q. unfold bbox_dest, in_box. destruct (bb_min c) as [[? ?] ?], (bb_max c) as [[? ?] ?]. reflexivity.
  - intros q Nq. apply is_pts_created.
    + intros k [<-|[<-|[]]]; assumption.
    + unfold bbox_dest. destruct (in_box c q); simpl; tauto.
    + exact Nq.
  - apply created_keeps. exact H.
  - exists j, p. split; [lia|]. split; [exact Hj|]. unfold bbox_dest.
    apply in_box_iff in B. rewrite B, E. reflexivity.
  - rewrite R. reflexivity.
Qed.

(** The configurations accepted are those with an output. *)
Theorem C65_bbox_accepts : forall c,
  bbox_accepts c = true <-> (bb_inside c <> "" \/ bb_outside c <> "").
Proof.
  intros c. unfold bbox_accepts. rewrite orb_true_iff, !negb_true_iff, !String.eqb_neq. tauto.
Qed.

Definition XYZ : Cls := SimplePoints.
Definition XYZI : Cls := mkCls "mrpt::maps::CPointsMapXYZI" true false false.
Definition XYZIRT : Cls := mkCls "mrpt::maps::CPointsMapXYZIRT" true true true.
Definition ex_pts : list Pt :=
  [mkPt 0 0 0 5 1 0; mkPt 3 0 0 (1#2) 2 1; mkPt 1 1 1 2 1 2; mkPt (-4) 0 0 9 7 3].
Definition ex_map : Layers :=
  [("raw", LPts (mkCloud XYZIRT ex_pts)); ("in", LPts (mkCloud XYZ [mkPt 9 9 9 0 0 0]))].
Definition ex_box : BBoxCfg := mkBB "raw" "in" "out" (-1, -1, -1) (2, 2, 2) true.

Example C40_example :
  filter_bbox 4 ex_box ex_map =
  ([("raw", LPts (mkCloud XYZIRT ex_pts));
    ("in", LPts (mkCloud XYZ [mkPt 9 9 9 0 0 0; mkPt 0 0 0 0 0 0; mkPt 1 1 1 0 0 0]));
    ("out", LPts (mkCloud XYZIRT [mkPt 3 0 0 (1#2) 2 1; mkPt (-4) 0 0 9 7 3]))], Val tt)
  /\ wf_cloud (mkCloud XYZIRT ex_pts)
  /\ usable ex_map "in" /\ usable ex_map "out".
Proof.
  split; [reflexivity|]. split.
  - repeat constructor; intros X; discriminate.
  - split; right; [right; eexists; reflexivity|left; reflexivity].
Qed.

Example C64_example : forall fuel,
  snd (filter_bbox fuel (mkBB "raw" "raw" "" (-1, -1, -1) (2, 2, 2) true) ex_map) = Spin.
Proof.
  eapply C64_in_place_never_ends_refuted with (p := mkPt 0 0 0 5 1 0).
  - reflexivity.
  - discriminate.
  - reflexivity.
  - left; reflexivity.
  - left; reflexivity.
  - unfold InsideBox; simpl. repeat split; discriminate.
Qed.

(** ** C41: range, intensity and ring *)

(** Euclidean distance of a point to the configured centre. *)
Definition distR (c : RangeCfg) (p : Pt) : R := sqrt (Q2R (sq_norm_from (rg_center c) p)).
Definition BetweenRange (c : RangeCfg) (p : Pt) : Prop :=
  (Q2R (rg_min c) <= distR c p <= Q2R (rg_max c))%R.

Lemma sq_le_sqrt a s : 0 <= a -> 0 <= s -> (a * a <= s <-> (Q2R a <= sqrt (Q2R s))%R).
Proof.
  intros A S. assert (A' : (0 <= Q2R a)%R) by (rewrite <- RMicromega.Q2R_0; apply Qle_Rle; exact A).
  assert (S' : (0 <= Q2R s)%R) by (rewrite <- RMicromega.Q2R_0; apply Qle_Rle; exact S).
  split; intros H.
  - apply Qle_Rle in H. rewrite Q2R_mult in H. rewrite <- (sqrt_square (Q2R a) A').
    apply sqrt_le_1_alt. exact H.
  - apply Rle_Qle. rewrite Q2R_mult. rewrite <- (sqrt_sqrt (Q2R s) S').
    apply Rmult_le_compat; assumption.
Qed.

Lemma sqrt_le_sq a s : 0 <= a -> 0 <= s -> (s <= a * a <-> (sqrt (Q2R s) <= Q2R a)%R).
Proof.
  intros A S. assert (A' : (0 <= Q2R a)%R) by (rewrite <- RMicromega.Q2R_0; apply Qle_Rle; exact A).
  assert (S' : (0 <= Q2R s)%R) by (rewrite <- RMicromega.Q2R_0; apply Qle_Rle; exact S).
  split; intros H.
  - apply Qle_Rle in H. rewrite Q2R_mult in H. rewrite <- (sqrt_square (Q2R a) A').
    apply sqrt_le_1_alt. exact H.
  - apply Rle_Qle. rewrite Q2R_mult. rewrite <- (sqrt_sqrt (Q2R s) S').
    apply Rmult_le_compat; try assumption; apply sqrt_pos.
Qed.

Lemma sq_nonneg x : 0 <= sq x.
Proof. unfold sq. destruct x as [n d]. unfold Qle, Qmult; simpl. nia. Qed.

Lemma sq_norm_nonneg o p : 0 <= sq_norm_from o p.
Proof.
  unfold sq_norm_from. destruct o as [[a b] d].
  assert (H1 := sq_nonneg (px p - a)). assert (H2 := sq_nonneg (py p - b)).
  assert (H3 := sq_nonneg (pz p - d)).
  assert (X : 0 <= sq (px p - a) + sq (py p - b)).
  { rewrite <- (Qplus_0_l 0). apply Qplus_le_compat; assumption. }
  rewrite <- (Qplus_0_l 0). apply Qplus_le_compat; assumption.
Qed.

Theorem C41_range_routes : forall c m src,
  0 <= rg_min c -> 0 <= rg_max c -> rg_realized c = true ->
  lfind m (rg_in c) = Some (LPts src) -> wf_cloud src ->
  usable m (rg_between c) -> usable m (rg_outside c) ->
  rg_in c <> rg_between c -> rg_in c <> rg_outside c ->
  exists m', (forall fuel, (List.length (cl_pts src) <= fuel)%nat ->
                filter_range fuel c m = (m', Val tt)) /\
    exists dest, Routed m m' src dest [rg_between c; rg_outside c] /\
      (forall p, BetweenRange c p -> dest p = rg_between c) /\
      (forall p, ~ BetweenRange c p -> dest p = rg_outside c).
Proof.
  intros c m src Mn Mx RL H W U1 U2 N1 N2.
  destruct (routed_spec m [rg_between c; rg_outside c] src (range_dest c)) as [m' [R S]].
  - intros n [<-|[<-|[]]]; assumption.
  - intros p. right. unfold range_dest. destruct (_ && _); simpl; tauto.
  - exact W.
  - exists m'. split.
    + intros fuel F. unfold filter_range. rewrite RL. unfold bnd, massert, ret. rewrite (input_ok _ _ _ H).
      rewrite (goc_usable _ _ _ U1).
      rewrite (goc_usable _ _ _ (usable_created _ _ _ _ U2)).
      rewrite created_app. simpl app.
      rewrite <- R. eapply route_live_list with (pre := []).
      * apply created_keeps. exact H.
      * reflexivity.
      * reflexivity.
      * exact F.
      * intros p _ Np. apply is_pts_created.
        -- intros k [<-|[<-|[]]]; assumption.
        -- unfold range_dest. destruct (_ && _); simpl; tauto.
        -- exact Np.
      * intros p _. unfold range_dest. destruct (_ && _); congruence.
    + exists (range_dest c). split; [exact S|].
      assert (B : forall p, (Qle_bool (sq (rg_min c)) (sq_norm_from (rg_center c) p)
               && Qle_bool (sq_norm_from (rg_center c) p) (sq (rg_max c)))%bool = true
               <-> BetweenRange c p).
      { intros p. rewrite andb_true_iff, !Qle_bool_iff. unfold sq, BetweenRange, distR.
        assert (P := sq_norm_nonneg (rg_center c) p).
        rewrite (sq_le_sqrt _ _ Mn P), (sqrt_le_sq _ _ Mx P). tauto. }
      split; intros p Hp; unfold range_dest.
      * apply B in Hp. rewrite Hp. reflexivity.
      * destruct (_ && _) eqn:E; [apply B in E; contradiction|reflexivity].
Qed.

Theorem C41_range_unrealized_rejected : forall c m fuel,
  rg_realized c = false -> filter_range fuel c m = (m, Exc).
Proof. intros c m fuel H. unfold filter_range, bnd. rewrite H. reflexivity. Qed.

Theorem C66_range_error_keeps_layers : forall c m m' fuel,
  filter_range fuel c m = (m', Exc) ->
  forall n l, lfind m n = Some l -> lfind m' n = Some l.
Proof.
  intros c m m' fuel. revert m m'. change (ExcSafe (filter_range fuel c)). unfold filter_range.
  apply excsafe_bnd; [apply safe_assert|]. intros _.
  apply excsafe_bnd; [apply safe_input|]. intros pc.
  apply excsafe_bnd; [apply safe_goc|]. intros _.
  apply excsafe_bnd; [apply safe_goc|]. intros _.
  apply excsafe_noexc. apply noexc_live.
Qed.

(** Intensity: also when an output layer is the input layer (the points are appended). *)
Theorem C41_intensity_routes : forall c m src,
  lfind m (in_in c) = Some (LPts src) -> wf_cloud src ->
  has_I (cl_cls src) = true -> cl_pts src <> [] ->
  usable m (in_low c) -> usable m (in_mid c) -> usable m (in_high c) ->
  (in_low c <> "" \/ in_mid c <> "" \/ in_high c <> "") ->
  exists m', filter_intensity c m = (m', Val tt) /\
    exists dest, Routed m m' src dest [in_low c; in_high c; in_mid c] /\
      (forall p, p_int p < in_lowT c -> dest p = in_low c) /\
      (forall p, in_lowT c <= p_int p -> in_highT c < p_int p -> dest p = in_high c) /\
      (forall p, in_lowT c <= p_int p -> p_int p <= in_highT c -> dest p = in_mid c).
Proof.
  intros c m src H W HI NE U1 U2 U3 AO.
  destruct (routed_spec m [in_low c; in_high c; in_mid c] src (intensity_dest c)) as [m' [R S]].
  - intros n [<-|[<-|[<-|[]]]]; assumption.
  - intros p. right. unfold intensity_dest. destruct (Qltb _ _); [|destruct (Qltb _ _)]; simpl; tauto.
  - exact W.
  - exists m'. split.
    + unfold filter_intensity, bnd. rewrite (input_ok _ _ _ H).
      rewrite (goc_usable _ _ _ U1).
      rewrite (goc_usable _ _ _ (usable_created _ _ _ _ U3)). rewrite created_app.
      rewrite (goc_usable _ _ _ (usable_created _ _ _ _ U2)). rewrite created_app. simpl app.
      assert (A : (negb (String.eqb (in_low c) "") || negb (String.eqb (in_high c) "")
                  || negb (String.eqb (in_mid c) ""))%bool = true).
      { rewrite !orb_true_iff, !negb_true_iff, !String.eqb_neq. tauto. }
      rewrite A. unfold massert, ret. unfold channel_ok. rewrite HI.
      destruct (cl_pts src) as [|p0 l0] eqn:EP; [congruence|]. simpl andb. cbv iota.
      rewrite <- R, <- EP. eapply route_n_list with (pre := []) (post := []).
      * apply created_keeps. exact H.
      * rewrite app_nil_r. reflexivity.
      * reflexivity.
      * intros p _ Np. apply is_pts_created.
        -- intros k [<-|[<-|[<-|[]]]]; assumption.
        -- unfold intensity_dest. destruct (Qltb _ _); [|destruct (Qltb _ _)]; simpl; tauto.
        -- exact Np.
    + exists (intensity_dest c). split; [exact S|].
      unfold intensity_dest, Qltb.
      assert (X : forall a b, a < b -> Qle_bool b a = false).
      { intros a b L. destruct (Qle_bool b a) eqn:E; [|reflexivity].
        apply Qle_bool_iff in E. exfalso. exact (Qlt_not_le _ _ L E). }
      assert (Y : forall a b, a <= b -> Qle_bool a b = true).
      { intros a b L. apply Qle_bool_iff. exact L. }
      split; [|split].
      * intros p L. rewrite (X _ _ L). reflexivity.
      * intros p L1 L2. rewrite (Y _ _ L1), (X _ _ L2). reflexivity.
      * intros p L1 L2. rewrite (Y _ _ L1), (Y _ _ L2). reflexivity.
Qed.

Theorem C41_ring_routes : forall c m src,
  lfind m (ri_in c) = Some (LPts src) -> wf_cloud src ->
  has_R (cl_cls src) = true -> cl_pts src <> [] ->
  usable m (ri_sel c) -> usable m (ri_non c) -> (ri_sel c <> "" \/ ri_non c <> "") ->
  exists m', filter_ring c m = (m', Val tt) /\
    exists dest, Routed m m' src dest [ri_sel c; ri_non c] /\
      (forall p, In (p_ring p) (ri_ids c) -> dest p = ri_sel c) /\
      (forall p, ~ In (p_ring p) (ri_ids c) -> dest p = ri_non c).
Proof.
  intros c m src H W HR NE U1 U2 AO.
  destruct (routed_spec m [ri_sel c; ri_non c] src (ring_dest c)) as [m' [R S]].
  - intros n [<-|[<-|[]]]; assumption.
  - intros p. right. unfold ring_dest. destruct (existsb _ _); simpl; tauto.
  - exact W.
  - exists m'. split.
    + unfold filter_ring, bnd. rewrite (input_ok _ _ _ H).
      rewrite (goc_usable _ _ _ U1).
      rewrite (goc_usable _ _ _ (usable_created _ _ _ _ U2)). rewrite created_app. simpl app.
      assert (A : (negb (String.eqb (ri_sel c) "") || negb (String.eqb (ri_non c) ""))%bool = true).
      { rewrite !orb_true_iff, !negb_true_iff, !String.eqb_neq. tauto. }
      rewrite A. unfold massert, ret. unfold channel_ok. rewrite HR.
      destruct (cl_pts src) as [|p0 l0] eqn:EP; [congruence|]. simpl andb. cbv iota.
      rewrite <- R, <- EP. eapply route_n_list with (pre := []) (post := []).
      * apply created_keeps. exact H.
      * rewrite app_nil_r. reflexivity.
      * reflexivity.
      * intros p _ Np. apply is_pts_created.
        -- intros k [<-|[<-|[]]]; assumption.
        -- unfold ring_dest. destruct (existsb _ _); simpl; tauto.
        -- exact Np.
    + exists (ring_dest c). split; [exact S|].
      assert (X : forall p, existsb (Z.eqb (p_ring p)) (ri_ids c) = true <-> In (p_ring p) (ri_ids c)).
      { intros p. rewrite existsb_exists. split.
        - intros [x [I E]]. apply Z.eqb_eq in E. subst x. exact I.
        - intros I. exists (p_ring p). split; [exact I|apply Z.eqb_refl]. }
      split; intros p Hp; unfold ring_dest.
      * apply X in Hp. rewrite Hp. reflexivity.
      * destruct (existsb _ _) eqn:E; [apply X in E; contradiction|reflexivity].
Qed.

(** Range: exactly the configurations with an output are accepted. *)
Theorem C65_range_accepts : forall c,
  range_accepts c = true <-> (rg_between c <> "" \/ rg_outside c <> "").
Proof.
  intros c. unfold range_accepts. rewrite orb_true_iff, !negb_true_iff, !String.eqb_neq. tauto.
Qed.

(** Intensity: a configuration that only asks for the high-intensity points is rejected,
    although it has an output. *)
Theorem C141_only_high_rejected_refuted : forall c,
  in_low c = "" -> in_mid c = "" -> intensity_accepts c = false.
Proof. intros c H K. unfold intensity_accepts. rewrite H, K. reflexivity. Qed.

(** Intensity: an empty input cloud is an error, instead of giving empty outputs. *)
Theorem C141_empty_cloud_throws_refuted : forall c m cls,
  lfind m (in_in c) = Some (LPts (mkCloud cls [])) ->
  snd (filter_intensity c m) = Exc.
Proof.
  intros c m cls H. unfold filter_intensity, bnd. rewrite (input_ok _ _ _ H). simpl cl_cls.
  destruct (get_or_create (in_low c) true cls m) as [m1 o1] eqn:E1.
  destruct (goc_shape _ _ _ _ _ E1) as [->|[a ->]]; [reflexivity|].
  destruct (get_or_create (in_high c) true cls m1) as [m2 o2] eqn:E2.
  destruct (goc_shape _ _ _ _ _ E2) as [->|[b ->]]; [reflexivity|].
  destruct (get_or_create (in_mid c) true cls m2) as [m3 o3] eqn:E3.
  destruct (goc_shape _ _ _ _ _ E3) as [->|[d ->]]; [reflexivity|].
  unfold massert. destruct (a || b || d)%bool; [|reflexivity].
  unfold ret, channel_ok. simpl. rewrite andb_false_r. reflexivity.
Qed.

Definition ex_range : RangeCfg := mkRg "raw" "near" "far" 0 2 (0, 0, 0) true.
Definition ex_int : IntCfg := mkIn "raw" "low" "" "high" 1 4.
Definition ex_ring : RingCfg := mkRi "raw" "sel" "" [1; 2]%Z.
Example C41_example :
  filter_range 4 ex_range ex_map =
    (ex_map ++ [("near", LPts (mkCloud XYZIRT [mkPt 0 0 0 5 1 0; mkPt 1 1 1 2 1 2]));
                ("far", LPts (mkCloud XYZIRT [mkPt 3 0 0 (1#2) 2 1; mkPt (-4) 0 0 9 7 3]))], Val tt)
  /\ filter_intensity ex_int ex_map =
    (ex_map ++ [("low", LPts (mkCloud XYZIRT [mkPt 3 0 0 (1#2) 2 1]));
                ("high", LPts (mkCloud XYZIRT [mkPt 0 0 0 5 1 0; mkPt (-4) 0 0 9 7 3]))], Val tt)
  /\ filter_ring ex_ring ex_map =
    (ex_map ++ [("sel", LPts (mkCloud XYZIRT [mkPt 0 0 0 5 1 0; mkPt 3 0 0 (1#2) 2 1; mkPt 1 1 1 2 1 2]))], Val tt).
Proof. split; [reflexivity|split; reflexivity]. Qed.

(** ** C63: static/dynamic separation by voxel occupancy *)

(** Occupancy [v] is beyond the threshold on the occupied (free) side: with the
    configured threshold [t] folded to [0,1/2], occupied means above 1-t', free below t'. *)
Theorem C63_occupancy_routes : forall c m l src o occ,
  oc_realized c = true -> 0 <= oc_thres c <= 1 ->
  lfind m (oc_in c) = Some l -> l <> LNull -> map_to_points l = Some src -> wf_cloud src ->
  lfind m (oc_vox c) = Some (LOther o) -> ot_occ o = Some occ ->
  usable m (oc_static c) -> usable m (oc_dynamic c) ->
  (oc_static c <> "" \/ oc_dynamic c <> "") ->
  exists m', filter_occupancy c m = (m', Val tt) /\
    exists dest t, (t == oc_thres c \/ t == 1 - oc_thres c) /\ 0 <= t <= 1 # 2 /\
      Routed m m' src dest [oc_static c; oc_dynamic c] /\
      (forall p, occ (px p) (py p) (pz p) = None -> dest p = "") /\
      (forall p v, occ (px p) (py p) (pz p) = Some v -> 1 - t < v -> dest p = oc_static c) /\
      (forall p v, occ (px p) (py p) (pz p) = Some v -> v < t -> dest p = oc_dynamic c) /\
      (forall p v, occ (px p) (py p) (pz p) = Some v -> t <= v <= 1 - t -> dest p = "").
Proof.
  intros c m l src o occ RL [T0 T1] H NL MP W HV HO U1 U2 AO.
  destruct (routed_spec m [oc_static c; oc_dynamic c] src (occ_dest c occ)) as [m' [R S]].
  - intros n [<-|[<-|[]]]; assumption.
  - intros p. unfold occ_dest. destruct (occ (px p) (py p) (pz p)) as [v|]; [|left; reflexivity].
    destruct (Qltb _ _); [right; simpl; tauto|].
    destruct (Qltb _ _); [right; simpl; tauto|left; reflexivity].
  - exact W.
  - exists m'. split.
    + unfold filter_occupancy.
      rewrite (bnd_val _ _ _ _ _ (assert_true _ m RL)).
      apply Qle_bool_iff in T0, T1.
      rewrite (bnd_val _ _ _ _ _ (assert_true _ m (proj2 (andb_true_iff _ _) (conj T1 T0)))).
      assert (A : (negb (String.eqb (oc_static c) "") || negb (String.eqb (oc_dynamic c) ""))%bool = true)
        by (rewrite !orb_true_iff, !negb_true_iff, !String.eqb_neq; tauto).
      rewrite H. destruct l as [d|x|]; [| |congruence]; rewrite MP, HV, HO;
      rewrite (bnd_val _ _ _ _ _ (goc_usable _ _ _ U1));
      rewrite (bnd_val _ _ _ _ _ (goc_usable _ _ _ (usable_created _ _ _ _ U2)));
      rewrite (bnd_val _ _ _ _ _ (assert_true _ _ A)); rewrite created_app; exact R.
    + exists (occ_dest c occ), (occ_free c).
      assert (X : forall a b, a < b -> Qltb a b = true).
      { intros a b L. unfold Qltb. destruct (Qle_bool b a) eqn:E; [|reflexivity].
        apply Qle_bool_iff in E. exfalso. exact (Qlt_not_le _ _ L E). }
      assert (Y : forall a b, a <= b -> Qltb b a = false).
      { intros a b L. unfold Qltb. apply Qle_bool_iff in L. rewrite L. reflexivity. }
      assert (B : 0 <= occ_free c <= 1 # 2).
      { unfold occ_free, Qltb. destruct (Qle_bool (oc_thres c) (1 # 2)) eqn:E; cbv [negb].
        - apply Qle_bool_iff in E. split; assumption.
        - assert (L : (1 # 2) < oc_thres c).
          { apply Qnot_le_lt. intros Z. apply Qle_bool_iff in Z. congruence. }
          split; unfold Qminus.
          + setoid_replace 0 with (1 + - (1)) by reflexivity.
            apply Qplus_le_compat; [apply Qle_refl|apply Qopp_le_compat; exact T1].
          + setoid_replace (1 # 2) with (1 + - (1 # 2)) by reflexivity.
            apply Qplus_le_compat; [apply Qle_refl|apply Qopp_le_compat, Qlt_le_weak; exact L]. }
      split.
      { unfold occ_free. destruct (Qltb _ _); [right|left]; reflexivity. }
      split; [exact B|]. split; [exact S|].
      assert (FO : occ_free c <= 1 - occ_free c).
      { destruct B as [_ B]. apply Qle_trans with (1 # 2); [exact B|].
        setoid_replace (1 # 2) with (1 + - (1 # 2)) by reflexivity.
        apply Qplus_le_compat; [apply Qle_refl|apply Qopp_le_compat; exact B]. }
      split; [|split; [|split]]; intros p; unfold occ_dest.
      * intros ->. reflexivity.
      * intros v -> L. rewrite (X _ _ L : Qltb (occ_occ c) v = true). reflexivity.
      * intros v -> L. rewrite (Y v (occ_occ c)), (X _ _ L); [reflexivity|].
        unfold occ_occ. apply Qle_trans with (occ_free c); [apply Qlt_le_weak; exact L|exact FO].
      * intros v -> [L1 L2]. rewrite (Y _ _ L2 : Qltb (occ_occ c) v = false), (Y _ _ L1). reflexivity.
Qed.

Example C63_example :
  let o := mkOther 0 None (Some (fun x _ _ => if Qle_bool x 0 then Some (1#10) else if Qle_bool x 2 then Some (9#10) else None)) in
  let c := mkOcc "raw" "vox" "st" "dy" (1#4) true in
  filter_occupancy c (ex_map ++ [("vox", LOther o)]) =
  (ex_map ++ [("vox", LOther o); ("st", LPts (mkCloud XYZIRT [mkPt 1 1 1 2 1 2]));
    ("dy", LPts (mkCloud XYZIRT [mkPt 0 0 0 5 1 0; mkPt (-4) 0 0 9 7 3]))], Val tt).
Proof. reflexivity. Qed.

(** ** C45: deleting layers *)

(** Without the error flag: exactly the listed layers are gone. *)
Theorem C45_delete_exact : forall names m,
  exists m', filter_delete names false m = (m', Val tt) /\
    forall n, lfind m' n = if existsb (String.eqb n) names then None else lfind m n.
Proof.
  induction names as [|k t IH]; intros m.
  - exists m. split; reflexivity.
  - simpl. destruct (IH (ldel m k)) as [m' [R F]]. exists m'. split; [exact R|].
    intros n. rewrite F, lfind_ldel, (String.eqb_sym k n).
    destruct (String.eqb n k); simpl; destruct (existsb (String.eqb n) t); reflexivity.
Qed.

(** With the flag: success iff every listed layer exists (and is listed once), and then
    exactly the listed layers are gone. *)
Theorem C45_delete_checked : forall names m,
  (exists m', filter_delete names true m = (m', Val tt)) <->
  NoDup names /\ (forall n, In n names -> exists l, lfind m n = Some l).
Proof.
  induction names as [|k t IH]; intros m.
  - split; [intros _; split; [constructor|intros n []]|intros _; exists m; reflexivity].
  - simpl. destruct (lfind m k) as [l|] eqn:E; simpl.
    + rewrite IH. split.
      * intros [ND Fd]. assert (NI : ~ In k t).
        { intros I. destruct (Fd k I) as [l' L]. rewrite lfind_ldel, seqb_refl in L. discriminate. }
        split; [constructor; assumption|]. intros n [<-|I]; [exists l; exact E|].
        destruct (Fd n I) as [l' L]. exists l'. rewrite lfind_ldel in L.
        destruct (String.eqb k n); [discriminate|exact L].
      * intros [ND Fd]. inversion ND as [|? ? NI ND']; subst. split; [exact ND'|].
        intros n I. destruct (Fd n (or_intror I)) as [l' L]. exists l'.
        rewrite lfind_ldel. destruct (String.eqb k n) eqn:Q; [|exact L].
        apply String.eqb_eq in Q. subst n. contradiction.
    + split; [intros [m' X]; discriminate|]. intros [_ Fd].
      destruct (Fd k (or_introl eq_refl)) as [l L]. congruence.
Qed.

Theorem C45_delete_checked_result : forall names m m',
  filter_delete names true m = (m', Val tt) ->
  forall n, lfind m' n = if existsb (String.eqb n) names then None else lfind m n.
Proof.
  induction names as [|k t IH]; intros m m' H n.
  - injection H as <-. reflexivity.
  - simpl in H. destruct (lfind m k) as [l|] eqn:E; simpl in H; [|discriminate].
    rewrite (IH _ _ H n), lfind_ldel, (String.eqb_sym k n). simpl.
    destruct (String.eqb n k); simpl; destruct (existsb (String.eqb n) t); reflexivity.
Qed.

(** In every case (also when it throws) the layers not listed are untouched. *)
Theorem C45_others_untouched : forall names e m m' o n,
  filter_delete names e m = (m', o) -> ~ In n names -> lfind m' n = lfind m n.
Proof.
  induction names as [|k t IH]; intros e m m' o n H N.
  - injection H as <- _. reflexivity.
  - simpl in H. assert (K : lfind (ldel m k) n = lfind m n).
    { rewrite lfind_ldel. destruct (String.eqb k n) eqn:Q; [|reflexivity].
      apply String.eqb_eq in Q. subst k. exfalso. apply N. left; reflexivity. }
    destruct (e && _)%bool.
    + injection H as <- _. exact K.
    + rewrite (IH _ _ _ _ _ H); [exact K|]. intros I. apply N. right; exact I.
Qed.

(** "All or error" does not hold: when it throws, the layers listed before the missing
    one are already gone. *)
Theorem C142_error_after_partial_deletion_refuted : forall a b m l,
  a <> b -> lfind m a = Some l -> lfind m b = None ->
  exists m', filter_delete [a; b] true m = (m', Exc) /\ lfind m' a = None.
Proof.
  intros a b m l N A B. simpl. rewrite A. simpl.
  rewrite lfind_ldel, (seqb_neq _ _ N), B. simpl. eexists. split; [reflexivity|].
  rewrite lfind_ldel. destruct (String.eqb b a); [reflexivity|].
  rewrite lfind_ldel, seqb_refl. reflexivity.
Qed.

Example C45_example :
  filter_delete ["in"; "nope"] false ex_map = ([("raw", LPts (mkCloud XYZIRT ex_pts))], Val tt) /\
  filter_delete ["in"; "raw"] true ex_map = ([], Val tt) /\
  snd (filter_delete ["in"; "nope"] true ex_map) = Exc.
Proof. split; [reflexivity|split; reflexivity]. Qed.

(** ** C48: pipelines *)

(** Running a pipeline is running its filters one after the other on the same map. *)
Inductive RunsTo : list (M unit) -> Layers -> Layers -> Prop :=
| runs_nil m : RunsTo [] m m
| runs_cons f fs m m1 m2 : f m = (m1, Val tt) -> RunsTo fs m1 m2 -> RunsTo (f :: fs) m m2.

Theorem C48_pipeline_in_order : forall fs m m',
  run_pipeline (map Some fs) m = (m', Val tt) <-> RunsTo fs m m'.
Proof.
  induction fs as [|f fs IH]; intros m m'.
  - simpl. unfold ret. split; intros H; [injection H as <-; constructor|inversion H; reflexivity].
  - simpl. unfold bnd. destruct (f m) as [m1 o] eqn:E. split.
    + intros H. destruct o as [[]| | |]; try discriminate.
      econstructor; [exact E|]. apply IH. exact H.
    + intros H. inversion H as [|? ? ? m2 ? Ef Rf]; subst.
      rewrite E in Ef. injection Ef as -> ->. apply IH. exact Rf.
Qed.

(** It stops at the first filter that fails, leaving the map as that filter left it;
    the filters after it have no effect. *)
Theorem C48_stops_at_first_failure : forall fs f rest m m1 m2 o,
  RunsTo fs m m1 -> f m1 = (m2, o) -> o <> Val tt ->
  run_pipeline (map Some fs ++ Some f :: rest) m = (m2, o).
Proof.
  induction fs as [|g fs IH]; intros f rest m m1 m2 o R F N.
  - inversion R; subst. simpl. unfold bnd. rewrite F.
    destruct o as [[]| | |]; [congruence|reflexivity|reflexivity|reflexivity].
  - inversion R as [|? ? ? mm ? Eg Rg]; subst. simpl. unfold bnd at 1. rewrite Eg.
    eapply IH; eassumption.
Qed.

(** A null entry is an error, after the filters before it have run. *)
Theorem C48_null_entry : forall fs rest m m1,
  RunsTo fs m m1 -> run_pipeline (map Some fs ++ None :: rest) m = (m1, Exc).
Proof.
  induction fs as [|g fs IH]; intros rest m m1 R.
  - inversion R; subst. reflexivity.
  - inversion R as [|? ? ? mm ? Eg Rg]; subst. simpl. unfold bnd. rewrite Eg. apply IH. exact Rg.
Qed.

Example C48_example :
  exists m', RunsTo [filter_bbox 9 ex_box; filter_delete ["raw"] true;
                     filter_ring (mkRi "out" "sel" "" [7]%Z)] ex_map m' /\
   lfind m' "sel" = Some (LPts (mkCloud XYZIRT [mkPt (-4) 0 0 9 7 3])) /\ lfind m' "raw" = None.
Proof.
  eexists. split.
  - econstructor; [reflexivity|]. econstructor; [reflexivity|]. econstructor; [reflexivity|]. constructor.
  - split; reflexivity.
Qed.
