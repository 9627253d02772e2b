(** C159-C164: FilterDecimateVoxelsQuadratic. *)
From Coq Require Import String Permutation Reals Qreals Qround Lra Lia Lqa.
From Verif Require Import Base FilterModel FilterSpec FilterProofs FilterProofs2 VoxelModel VoxelSpec VoxelProofs
  VoxelProofs2 DecimateProps QuadModel QuadSpec QuadProofs PoleSpec PoleProofs.
Open Scope string_scope.
Open Scope Q_scope.
Open Scope list_scope.

(** The grid as initialize() and any number of earlier calls leave it. *)
Definition grid_ready (c : QuadCfg) (g : Grid) : Prop :=
  g_robin g = true /\ g_res g = qd_res c /\ g_min_dist g == 0.
Example grid_ready_init : forall c g0, g_min_dist g0 == 0 -> grid_ready c (quad_grid g0 c).
Proof. intros c g0 H. repeat split; exact H. Qed.
Example grid_ready_after : forall c g l, grid_ready c g -> grid_ready c (g_process (g_clear g) l).
Proof. intros c g l (A & B & C). unfold g_clear. rewrite A. repeat split; assumption. Qed.

(** C159. The output (created as a plain cloud if missing, and allowed to be the input
    itself) grows by exactly one point per occupied voxel of the quadratic lattice, the
    representative the flags ask for; nothing else changes. *)
Theorem C159_one_point_per_voxel : forall c ord rnd g m src,
  (forall l, Permutation (ord l) l) -> grid_ready c g -> 0 < qd_radius c ->
  qd_out c <> "" -> usable m (qd_out c) ->
  (lfind m (qd_in c) = Some (LPts src)
   \/ exists o, lfind m (qd_in c) = Some (LOther o) /\ ot_points o = Some src) ->
  exists m' vox kr,
    filter_quadratic c ord rnd g m = (m', Val tt)
    /\ Voxels (qd_radius c) (qd_res c) vox
    /\ OnePer vox (cl_pts src) (Promise (asked c)) kr
    /\ Grew m m' (qd_out c) SimplePoints (map bare (map snd kr)).
Proof.
  intros c ord rnd g m src P (G1 & G2 & G3) R NE U H.
  assert (OUT1 : exists d, lfind (created m [qd_out c] SimplePoints) (qd_out c) = Some (LPts d)).
  { rewrite (created_find [qd_out c] m SimplePoints (qd_out c)).
    destruct U as [U|[U|[d U]]]; [contradiction| |].
    - rewrite U. simpl. rewrite seqb_refl, (seqb_neq _ _ NE). simpl. eexists; reflexivity.
    - rewrite U. exists d. reflexivity. }
  destruct OUT1 as [d OUT1].
  destruct (quad_run_ok c ord rnd g (created m [qd_out c] SimplePoints) (cl_pts src) d G1 G2 G3 P OUT1)
    as (m' & kr & E1 & E2 & E3).
  exists m', (qkey c), kr. split; [|split; [|split; [exact E2|]]].
  - unfold filter_quadratic, bnd. rewrite (seqb_neq _ _ NE). cbn [negb massert]. unfold ret at 1.
    rewrite (goc_usable _ _ _ U). rewrite (created_find [qd_out c] m SimplePoints (qd_in c)).
    destruct H as [H|(o & H & H2)]; rewrite H; [|rewrite H2]; exact E1.
  - intro p. exists (real2grid c (px p)), (real2grid c (py p)), (real2grid c (pz p)).
    split; [apply mapped_iff; exact R|]. split; [apply mapped_iff; exact R|]. split; [apply mapped_iff; exact R|].
    reflexivity.
  - eapply appended_grew; [exact NE|exact U|reflexivity|exact E3].
Qed.
Print Assumptions C159_one_point_per_voxel.

(** What is refused, and the silent case. *)
Theorem C159_rejects : forall c ord rnd g m,
  (qd_out c = "" \/ ~ usable m (qd_out c)
   \/ (qd_in c <> qd_out c /\ lfind m (qd_in c) = None /\ qd_error_missing c = true)
   \/ (exists o, lfind m (qd_in c) = Some (LOther o) /\ ot_points o = None)) ->
  snd (filter_quadratic c ord rnd g m) = Exc.
Proof.
  intros c ord rnd g m H. unfold filter_quadratic, bnd.
  destruct (string_dec (qd_out c) "") as [E|E].
  { rewrite E. reflexivity. }
  rewrite (seqb_neq _ _ E). cbn [negb massert]. unfold ret at 1.
  assert (D : usable m (qd_out c) \/ ~ usable m (qd_out c)).
  { unfold usable. destruct (lfind m (qd_out c)) as [[x|x|]|] eqn:F; [left; eauto| | |left; auto];
      right; intros [X|[X|[x' X]]]; congruence. }
  destruct D as [U|U]; [|rewrite (goc_bad _ _ _ U); reflexivity].
  rewrite (goc_usable _ _ _ U). rewrite (created_find [qd_out c] m SimplePoints (qd_in c)).
  destruct H as [H|[H|[(N & H & F)|(o & H & F)]]]; [contradiction|contradiction| |].
  - rewrite H. cbn. rewrite (seqb_neq _ _ N). cbn. rewrite F. reflexivity.
  - rewrite H, F. reflexivity.
Qed.
Print Assumptions C159_rejects.
Theorem C159_missing_input_ignored : forall c ord rnd g m,
  qd_out c <> "" -> usable m (qd_out c) -> qd_in c <> qd_out c -> lfind m (qd_in c) = None ->
  qd_error_missing c = false ->
  exists m', filter_quadratic c ord rnd g m = (m', Val tt) /\ Grew m m' (qd_out c) SimplePoints [].
Proof.
  intros c ord rnd g m E U N H F. exists (created m [qd_out c] SimplePoints). split.
  - unfold filter_quadratic, bnd. rewrite (seqb_neq _ _ E). cbn [negb massert]. unfold ret at 1.
    rewrite (goc_usable _ _ _ U). rewrite (created_find [qd_out c] m SimplePoints (qd_in c)), H.
    cbn. rewrite (seqb_neq _ _ N). cbn. rewrite F. reflexivity.
  - eapply appended_grew; [exact E|exact U|reflexivity|].
    assert (exists d, lfind (created m [qd_out c] SimplePoints) (qd_out c) = Some (LPts d)) as [d D].
    { rewrite (created_find [qd_out c] m SimplePoints (qd_out c)).
      destruct U as [U|[U|[d U]]]; [contradiction| |].
      - rewrite U. simpl. rewrite seqb_refl, (seqb_neq _ _ E). simpl. eexists; reflexivity.
      - rewrite U. exists d. reflexivity. }
    eapply Appended_nil. exact D.
Qed.
Print Assumptions C159_missing_input_ignored.

(** ** Examples: radius 20, voxels of 1: near the origin 3 and 4 share a voxel, far away
    30 and 31 do not. *)
Definition q3 (x : Q) : Pt := mkPt x 0 0 7 0%Z 0.
Definition qpts : list Pt := [q3 3; q3 4; q3 30; q3 31; q3 (-3)].
Definition qmap : Layers := [("raw", LPts (mkCloud XYZI qpts)); ("old", LPts (mkCloud XYZI [q3 9]))].
Definition qcfg (inl out : Name) (avg clo rnd : bool) : QuadCfg := mkQuad inl true out 1 20 avg clo rnd.
Definition qg : Grid := mkGrid 1 true 0 [] [].
Example C159_ex_first :
  lfind (fst (filter_quadratic (qcfg "raw" "out" false false false) (fun l => l) rnd0 qg qmap)) "out"
  = Some (LPts (mkCloud SimplePoints [bare (q3 3); bare (q3 30); bare (q3 31)])).
Proof. vm_compute. reflexivity. Qed.
Example C159_ex_same_layer :
  lfind (fst (filter_quadratic (qcfg "old" "old" false true false) (fun l => l) rnd0 qg qmap)) "old"
  = Some (LPts (mkCloud XYZI [q3 9; bare (q3 9)])).
Proof. vm_compute. reflexivity. Qed.

(** C160: without averaging, the points written are the chosen input points with the
    channels the output layer has (as with FilterDecimateVoxels).  False: the channels are
    set to 0. *)
Definition C160_channels_kept : Prop := forall c ord rnd g m src m',
  (forall l, Permutation (ord l) l) -> grid_ready c g -> 0 < qd_radius c ->
  qd_out c <> "" -> usable m (qd_out c) -> lfind m (qd_in c) = Some (LPts src) -> wf_cloud src ->
  asked c <> VoxelAverage ->
  filter_quadratic c ord rnd g m = (m', Val tt) ->
  exists vox kr, Voxels (qd_radius c) (qd_res c) vox /\ OnePer vox (cl_pts src) (Promise (asked c)) kr
    /\ Grew m m' (qd_out c) SimplePoints (map snd kr).
Theorem C160_channels_kept_refuted : ~ C160_channels_kept.
Proof.
  intro H. set (m := [("raw", LPts (mkCloud XYZI [q3 3])); ("old", LPts (mkCloud XYZI []))]).
  set (c := qcfg "raw" "old" false false false).
  destruct (filter_quadratic c (fun l => l) rnd0 qg m) as [m' o] eqn:E.
  assert (o = Val tt) as -> by (change o with (snd (m', o)); rewrite <- E; vm_compute; reflexivity).
  destruct (H c (fun l => l) rnd0 qg m (mkCloud XYZI [q3 3]) m') as (vox & kr & _ & K & G).
  - intro; reflexivity.
  - repeat split; reflexivity.
  - reflexivity.
  - discriminate.
  - right. right. eexists. reflexivity.
  - reflexivity.
  - constructor; [|constructor]. unfold pt_of_class. cbn. intuition congruence.
  - discriminate.
  - exact E.
  - destruct G as [G _]. cbn in G.
    change m' with (fst (m', Val tt)) in G. rewrite <- E in G. vm_compute in G.
    destruct kr as [|[k p] kr]; [discriminate|].
    destruct K as (_ & _ & K). specialize (K k p (or_introl eq_refl)). cbn in K.
    destruct K as [t K]. unfold pts_at in K. cbn in K. destruct (key_eqb (vox (q3 3)) k); [|discriminate].
    injection K as <- _. discriminate.
Qed.
Print Assumptions C160_channels_kept_refuted.

(** What does hold: an output without channels loses nothing. *)
Theorem C160_plain_output : forall c ord rnd g m src,
  (forall l, Permutation (ord l) l) -> grid_ready c g -> 0 < qd_radius c ->
  qd_out c <> "" -> lfind m (qd_in c) = Some (LPts src) ->
  (lfind m (qd_out c) = None \/ exists d, lfind m (qd_out c) = Some (LPts d)
     /\ has_I (cl_cls d) = false /\ has_R (cl_cls d) = false /\ has_T (cl_cls d) = false) ->
  exists m' vox kr, filter_quadratic c ord rnd g m = (m', Val tt)
    /\ Voxels (qd_radius c) (qd_res c) vox /\ OnePer vox (cl_pts src) (Promise (asked c)) kr
    /\ Grew m m' (qd_out c) SimplePoints (map snd kr).
Proof.
  intros c ord rnd g m src P G R NE H O.
  destruct (C159_one_point_per_voxel c ord rnd g m src P G R NE) as (m' & vox & kr & E1 & E2 & E3 & E4).
  - destruct O as [O|(d & O & _)]; [right; left; exact O|right; right; eauto].
  - left. exact H.
  - exists m', vox, kr. split; [exact E1|]. split; [exact E2|]. split; [exact E3|].
    assert (B : forall cls, has_I cls = false -> has_R cls = false -> has_T cls = false ->
              forall l, map (conv cls) (map bare l) = map (conv cls) l).
    { intros cls A1 A2 A3 l. rewrite map_map. apply map_ext. intro p. unfold conv, bare. rewrite A1, A2, A3. reflexivity. }
    unfold Grew in *. destruct O as [O|(d & O & O1 & O2 & O3)]; rewrite O in *.
    + rewrite B in E4 by reflexivity. exact E4.
    + rewrite B in E4 by assumption. exact E4.
Qed.
Print Assumptions C160_plain_output.

(** C161: grid2real() undoes real2grid().  False for negative coordinates within the
    radius: the square root of a negative number. *)
Definition C161_inverse : Prop := forall c x, 0 < qd_radius c ->
  grid2real c (real2grid c x) = Some (Q2R x).
Theorem C161_inverse_refuted : ~ C161_inverse.
Proof. intro H. specialize (H (qcfg "a" "b" false false false) (-3) eq_refl). vm_compute in H. discriminate. Qed.
Print Assumptions C161_inverse_refuted.

Lemma Qltb_false a b : b <= a -> Qltb a b = false.
Proof. intro H. destruct (Qltb_spec a b) as [[E L]|[E L]]; [lra|exact E]. Qed.
Lemma Qltb_true a b : a < b -> Qltb a b = true.
Proof. intro H. destruct (Qltb_spec a b) as [[E L]|[E L]]; [exact E|lra]. Qed.

Theorem C161_inverse_where : forall c x, 0 < qd_radius c -> (0 <= x \/ x < - qd_radius c) ->
  grid2real c (real2grid c x) = Some (Q2R x).
Proof.
  intros c x R H. pose proof (mapped_iff c x R) as (M1 & M2 & M3). unfold grid2real.
  destruct (Qlt_le_dec (qd_radius c) (Qabs' x)) as [L|L].
  - unfold real2grid. rewrite (Qltb_true _ _ L). rewrite (Qltb_true _ _ L). reflexivity.
  - destruct (Qabs'_cases x) as [[A B]|[A B]]; rewrite B in L; [|lra].
    specialize (M2 (conj A L)). set (y := real2grid c x) in *.
    assert (Y0 : 0 <= y).
    { apply Qnot_lt_le. intro N. assert (y * qd_radius c < 0) by nra. nra. }
    assert (Y1 : y <= qd_radius c).
    { apply Qnot_lt_le. intro N. assert (qd_radius c * qd_radius c < y * qd_radius c) by nra. nra. }
    rewrite (Qltb_false (qd_radius c) (Qabs' y)).
    2:{ destruct (Qabs'_cases y) as [[_ ->]|[Z _]]; [exact Y1|lra]. }
    rewrite Qltb_false by nra. f_equal.
    assert (sgn y = 1) as -> by (destruct (sgn_cases y) as [[_ S]|[S _]]; [exact S|lra]).
    rewrite (Qeq_eqR _ _ M2), Q2R_mult. rewrite R_sqrt.sqrt_square.
    + unfold Q2R at 2. cbn. Lra.lra.
    + replace 0%R with (Q2R 0) by (unfold Q2R; cbn; Lra.lra). apply Qle_Rle. exact A.
Qed.
Print Assumptions C161_inverse_where.

(** C162. The lattice coordinate is odd, strictly increasing (so voxels are boxes and no
    two coordinates collapse), agrees with the coordinate at and beyond the radius and at
    the origin, and never exceeds it. *)
Theorem C162_lattice_coordinate : forall c, 0 < qd_radius c ->
  (forall x, real2grid c (- x) == - real2grid c x)
  /\ (forall x y, x < y -> real2grid c x < real2grid c y)
  /\ (forall x, qd_radius c <= x -> real2grid c x == x)
  /\ real2grid c 0 == 0
  /\ (forall x, 0 <= x -> 0 <= real2grid c x <= x).
Proof.
  intros c R.
  assert (M : forall x, Mapped (qd_radius c) x (real2grid c x)) by (intro; apply mapped_iff; exact R).
  assert (CANCEL : forall a b, a * qd_radius c == b * qd_radius c -> a == b).
  { intros a b E. apply (Qmult_inj_r a b (qd_radius c)); [lra|exact E]. }
  assert (F1 : forall x, qd_radius c <= x -> real2grid c x == x).
  { intros x X. destruct (M x) as (A & B & _). destruct (Qlt_le_dec (qd_radius c) x) as [L|L]; [apply A; auto|].
    apply CANCEL. rewrite B by lra. assert (E : x == qd_radius c) by lra. rewrite E. ring. }
  assert (F2 : real2grid c 0 == 0).
  { apply CANCEL. destruct (M 0) as (_ & B & _). rewrite B by lra. ring. }
  assert (F3 : forall x, 0 <= x -> 0 <= real2grid c x <= x).
  { intros x X. destruct (Qlt_le_dec (qd_radius c) x) as [L|L].
    - rewrite F1 by lra. lra.
    - destruct (M x) as (_ & B & _). specialize (B (conj X L)). split.
      + apply Qnot_lt_le. intro N. assert (real2grid c x * qd_radius c < 0) by nra. nra.
      + apply Qnot_lt_le. intro N. assert (x * qd_radius c < real2grid c x * qd_radius c) by nra. nra. }
  assert (O : forall x, real2grid c (- x) == - real2grid c x).
  { assert (O1 : forall x, 0 <= x -> real2grid c (- x) == - real2grid c x).
    { intros x X. destruct (M x) as (A & B & _). destruct (M (- x)) as (A' & _ & B').
      destruct (Qlt_le_dec (qd_radius c) x) as [L|L].
      - rewrite A, A' by (auto; right; lra). reflexivity.
      - apply CANCEL. rewrite B' by lra. setoid_replace (- real2grid c x * qd_radius c) with (- (real2grid c x * qd_radius c)) by ring.
        rewrite B by lra. ring. }
    intro x. destruct (Qlt_le_dec x 0) as [L|L]; [|apply O1; exact L].
    assert (Z : real2grid c (- - x) == - real2grid c (- x)) by (apply O1; lra).
    assert (E : real2grid c (- - x) == real2grid c x).
    { apply CANCEL. destruct (M x) as (A1 & A2 & A3). destruct (M (- - x)) as (B1 & B2 & B3).
      destruct (Qlt_le_dec x (- qd_radius c)) as [K|K].
      - rewrite A1, B1 by (right; lra). ring.
      - rewrite A3, B3 by lra. ring. }
    rewrite <- E, Z. ring. }
  assert (I0 : forall x y, 0 <= x -> x < y -> real2grid c x < real2grid c y).
  { intros x y X XY. destruct (Qlt_le_dec (qd_radius c) y) as [L|L].
    - rewrite (F1 y) by lra. destruct (F3 x X). lra.
    - destruct (M x) as (_ & B & _). destruct (M y) as (_ & B' & _).
      specialize (B ltac:(lra)). specialize (B' ltac:(lra)).
      apply Qnot_le_lt. intro N. assert (real2grid c y * qd_radius c <= real2grid c x * qd_radius c) by nra. nra. }
  split; [exact O|]. split; [|split; [exact F1|split; [exact F2|exact F3]]].
  intros x y XY. destruct (Qlt_le_dec x 0) as [X|X]; [|apply I0; assumption].
  destruct (Qlt_le_dec 0 y) as [Y|Y].
  - assert (A : 0 < real2grid c y) by (rewrite <- F2; apply I0; lra).
    assert (B : 0 < real2grid c (- x)) by (rewrite <- F2; apply I0; lra).
    rewrite O in B. lra.
  - assert (A : real2grid c (- y) < real2grid c (- x)) by (apply I0; lra).
    rewrite !O in A. lra.
Qed.
Print Assumptions C162_lattice_coordinate.

(** C163: voxels are never narrower than voxel_filter_resolution: a span shorter than it
    touches at most two voxels in a row.  False between half the radius and the radius,
    where they are down to half as wide. *)
Definition voxel_of (c : QuadCfg) (x : Q) : Z := coord2idx (qd_res c) (real2grid c x).
Definition C163_width : Prop := forall c x y z, 0 < qd_radius c -> 0 < qd_res c ->
  x <= y <= z -> z - x < qd_res c ->
  voxel_of c x = voxel_of c y \/ voxel_of c y = voxel_of c z.
Theorem C163_width_refuted : ~ C163_width.
Proof.
  intro H. specialize (H (qcfg "a" "b" false false false) (1897#100) (194#10) (195#10) eq_refl eq_refl).
  assert (A : 1897 # 100 <= 194 # 10 <= 195 # 10) by (split; discriminate).
  specialize (H A eq_refl). vm_compute in H. destruct H; discriminate.
Qed.
Print Assumptions C163_width_refuted.

Lemma coord2idx_tz res x : coord2idx res x = towards_zero (x / res).
Proof. apply quot_towards_zero. Qed.

Lemma cells_near res a b d : 0 < res -> 0 <= a -> a <= b -> b <= d -> d - a < res ->
  coord2idx res a = coord2idx res b \/ coord2idx res b = coord2idx res d.
Proof.
  intros R A AB BD D. rewrite !coord2idx_tz. unfold towards_zero.
  assert (P : forall u, 0 <= u -> Qle_bool 0 (u / res) = true).
  { intros u U. apply Qle_bool_iff. apply Qle_shift_div_l; [exact R|]. lra. }
  rewrite (P a), (P b), (P d) by lra.
  assert (L1 : a / res <= b / res) by (apply Qle_shift_div_l; [exact R|]; setoid_replace (a / res * res) with a by (field; lra); exact AB).
  assert (L2 : b / res <= d / res) by (apply Qle_shift_div_l; [exact R|]; setoid_replace (b / res * res) with b by (field; lra); exact BD).
  assert (L3 : d / res < a / res + 1).
  { apply Qlt_shift_div_r; [exact R|]. setoid_replace ((a / res + 1) * res) with (a + res) by (field; lra). lra. }
  apply Qfloor_resp_le in L1 as F1. apply Qfloor_resp_le in L2 as F2.
  assert (F3 : (Qfloor (d / res) <= Qfloor (a / res) + 1)%Z).
  { pose proof (Qfloor_le (d / res)) as X. pose proof (Qlt_floor (a / res)) as Y.
    rewrite inject_Z_plus in Y. change (inject_Z 1) with 1 in Y.
    assert (Z : inject_Z (Qfloor (d / res)) < inject_Z (Qfloor (a / res) + 2)).
    { rewrite inject_Z_plus. change (inject_Z 2) with 2. lra. }
    rewrite <- Zlt_Qlt in Z. lia. }
  lia.
Qed.

(** What does hold: within half the radius and beyond the radius (on one side). *)
Theorem C163_width_where : forall c x y z, 0 < qd_radius c -> 0 < qd_res c ->
  x <= y <= z -> z - x < qd_res c -> 0 <= x -> (2 * z <= qd_radius c \/ qd_radius c <= x) ->
  voxel_of c x = voxel_of c y \/ voxel_of c y = voxel_of c z.
Proof.
  intros c x y z R RS [XY YZ] W X H. unfold voxel_of.
  destruct (C162_lattice_coordinate c R) as (_ & MO & F1 & _ & F3).
  assert (MO' : forall u v, 0 <= u -> u <= v -> real2grid c u <= real2grid c v).
  { intros u v U UV. destruct (Qlt_le_dec u v) as [L|L]; [apply Qlt_le_weak, MO, L|].
    assert (E : v == u) by lra. destruct (Qlt_le_dec (qd_radius c) u) as [K|K].
    - rewrite (F1 u), (F1 v) by lra. lra.
    - apply Qnot_lt_le. intro N.
      pose proof (mapped_iff c u R) as (_ & B & _). pose proof (mapped_iff c v R) as (_ & B' & _).
      specialize (B ltac:(lra)). specialize (B' ltac:(lra)).
      assert (real2grid c v * qd_radius c < real2grid c u * qd_radius c) by nra.
      rewrite B, B', E in H0. lra. }
  apply cells_near; [exact RS|apply F3; exact X|apply MO'; lra|apply MO'; lra|].
  destruct H as [H|H].
  - pose proof (mapped_iff c x R) as (_ & B & _). pose proof (mapped_iff c z R) as (_ & B' & _).
    specialize (B ltac:(lra)). specialize (B' ltac:(lra)).
    assert (K : (real2grid c z - real2grid c x) * qd_radius c <= (z - x) * qd_radius c).
    { setoid_replace ((real2grid c z - real2grid c x) * qd_radius c)
        with (real2grid c z * qd_radius c - real2grid c x * qd_radius c) by ring.
      rewrite B, B'. setoid_replace (z * z - x * x) with ((z - x) * (z + x)) by ring.
      assert (0 <= z - x) by lra. assert (z + x <= qd_radius c) by lra. nra. }
    assert (real2grid c z - real2grid c x <= z - x); [|lra].
    apply Qnot_lt_le. intro N. assert ((z - x) * qd_radius c < (real2grid c z - real2grid c x) * qd_radius c) by nra. lra.
  - rewrite (F1 x), (F1 z) by lra. exact W.
Qed.
Print Assumptions C163_width_where.

(** C164: with error_on_missing_input_layer, a missing input is an error.  False if the
    output has the same name: it is created before the input is looked up. *)
Definition C164_missing_input_is_an_error : Prop := forall c ord rnd g m,
  lfind m (qd_in c) = None -> qd_error_missing c = true ->
  snd (filter_quadratic c ord rnd g m) = Exc.
Theorem C164_missing_input_is_an_error_refuted : ~ C164_missing_input_is_an_error.
Proof.
  intro H. specialize (H (qcfg "a" "a" false false false) (fun l => l) rnd0 qg [] eq_refl eq_refl).
  vm_compute in H. discriminate.
Qed.
Print Assumptions C164_missing_input_is_an_error_refuted.
Theorem C164_missing_input_other_output : forall c ord rnd g m,
  lfind m (qd_in c) = None -> qd_error_missing c = true -> qd_in c <> qd_out c ->
  snd (filter_quadratic c ord rnd g m) = Exc.
Proof. intros c ord rnd g m A B C. apply C159_rejects. right. right. left. auto. Qed.
