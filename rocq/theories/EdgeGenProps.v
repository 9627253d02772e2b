(** C176-C184: the generators of edges. *)
From Coq Require Import String Sorted Lia Reals Qreals Lra.
From Verif Require Import Base FilterModel FilterProofs FMergeModel EdgeGenModel EdgeGenSpec EdgeGenProofs.
From Verif Require CurvModel CurvSpec CurvProofs.
Open Scope string_scope.
Open Scope Z_scope.
Open Scope list_scope.

(** ** GeneratorEdgesFromCurvature *)
Lemma shorter_iff a b cl : shorter (q3_sub b a) cl = false <-> (Q2R cl <= rdist b a)%R.
Proof.
  unfold shorter, rdist, CurvSpec.rdist, CurvSpec.rnorm.
  assert (D : Q2R (dot3 (q3_sub b a) (q3_sub b a))
              = CurvSpec.rdot (CurvSpec.rvec (pt_of b) (pt_of a)) (CurvSpec.rvec (pt_of b) (pt_of a)))
    by (rewrite <- CurvProofs.dot_R; reflexivity).
  set (n := CurvSpec.rdot _ _) in *.
  assert (N : (0 <= n)%R) by apply CurvProofs.rdot_nonneg.
  pose proof (sqrt_pos n) as SP. pose proof (sqrt_sqrt n N) as SS.
  rewrite andb_false_iff, <- !not_true_iff_false, !CurvProofs.Qltb_R, D, Q2R_mult.
  replace (Q2R 0) with 0%R by (unfold Q2R; cbn; lra). split.
  - intros [H|H]; [lra|]. destruct (Rle_dec (Q2R cl) (sqrt n)) as [X|X]; [exact X|]. exfalso. apply H. nra.
  - intro H. destruct (Rle_dec (Q2R cl) 0) as [X|X]; [left; lra|right]. nra.
Qed.

Lemma wide_iff a b c mc (cl : Q) : wide_angle mc (q3_sub b a) (q3_sub c b) = true
  <-> (Rabs (rcos_prod a b c) < Q2R mc * rdist b a * rdist c b)%R.
Proof.
  pose proof (CurvProofs.sharp_iff (CurvModel.mkCv "" "" "" "" mc cl 0%Q) (pt_of a) (pt_of b) (pt_of c)) as H.
  unfold CurvSpec.sharp in H. cbn [CurvModel.cv_max_cosine] in H.
  unfold rcos_prod, rdist, CurvSpec.rdist. rewrite <- H. reflexivity.
Qed.

Definition cornerb (g : CurvGen) (s : RScan) (r i : nat) : bool :=
  let rng := m_at (rs_range s) r in let pt := m_at (rs_pts s) r in
  negb (Z.eqb (rng (i - 1)%nat) 0 || Z.eqb (rng i) 0 || Z.eqb (rng (i + 1)%nat) 0)
  && negb (shorter (q3_sub (pt i) (pt (i - 1)%nat)) (cg_clearance g)
           || shorter (q3_sub (pt (i + 1)%nat) (pt i)) (cg_clearance g))
  && wide_angle (cg_max_cosine g) (q3_sub (pt i) (pt (i - 1)%nat)) (q3_sub (pt (i + 1)%nat) (pt i)).

Lemma curv_pixel_eq g robot s r i :
  curv_pixel g robot s r i = if cornerb g s r i then [at_robot robot (m_at (rs_pts s) r i)] else [].
Proof.
  unfold curv_pixel, cornerb. destruct (_ || _ || _); [reflexivity|]. cbn [negb andb].
  destruct (shorter _ _ || shorter _ _); [reflexivity|]. reflexivity.
Qed.

Lemma scan_ok_iff s : scan_ok s = true <-> Sized s.
Proof.
  unfold scan_ok, Sized. rewrite !andb_true_iff, !Nat.eqb_eq, negb_true_iff, orb_false_iff, !Nat.eqb_neq. lia.
Qed.

Lemma corner_iff g s r i : (r < rs_rows s)%nat -> (1 <= i < 1 + (rs_cols s - 2))%nat ->
  cornerb g s r i = true <-> Corner g s r i.
Proof.
  intros R I. unfold cornerb, Corner.
  rewrite !andb_true_iff, !negb_true_iff, !orb_false_iff, !Z.eqb_neq, !shorter_iff, (wide_iff _ _ _ _ 0%Q).
  cbn zeta. split.
  - intro H.
    split; [exact R|]. split; [lia|]. split; [lia|]. tauto.
  - tauto.
Qed.

Lemma placed_at robot s ri : pt_of (at_robot robot (m_at (rs_pts s) (fst ri) (snd ri)))
  = placed robot (m_at (rs_pts s) (fst ri) (snd ri)).
Proof. destruct robot; reflexivity. Qed.

(** Exactly the corners, in reading order, placed by the robot pose, replace the target layer;
    the other layers stay. *)
Theorem C176_corners : forall g o s robot m,
  cg_init g = true -> cg_realized g = true -> cg_no_ini g = true ->
  cg_class_ok g (go_class o) = true -> cg_label_ok g (go_label o) = true ->
  go_scan o = Some s -> Sized s ->
  exists m' l, curv_process g o robot m = (m', Val true)
    /\ Lists (Corner g s) l
    /\ lfind m' (cg_target g) = Some (LPts (mkCloud SimplePoints (pixel_pts robot s l)))
    /\ forall n, n <> cg_target g -> lfind m' n = lfind m n.
Proof.
  intros g o s robot m A B C D E F S. unfold curv_process, bnd, massert. rewrite A, B, C, D, E, F. cbn [negb orb].
  unfold ret, curv_rotating, bnd, massert. rewrite (proj2 (scan_ok_iff s) S). unfold ret.
  eexists _, _. split; [reflexivity|]. split.
  - apply (pixels_lists (rs_rows s) 1 (rs_cols s - 2) (cornerb g s) (Corner g s)).
    + intros r i R I. apply corner_iff; assumption.
    + intros r i (R & I & J & _). split; [exact R|lia].
  - split.
    + rewrite lfind_lset, String.eqb_refl. do 3 f_equal. unfold pixel_pts.
      rewrite (flat_map_ext _ _ (fun r => flat_map_ext _ _ (fun i => curv_pixel_eq g robot s r i) (seq 1 (rs_cols s - 2)))).
      rewrite flat_pixels, map_map. apply map_ext. intro ri. apply placed_at.
    + intros n N. rewrite lfind_lset. destruct (String.eqb_spec (cg_target g) n); [congruence|reflexivity].
Qed.

(** Anything else is rejected before the map changes. *)
Theorem C176_rejects : forall g o robot m,
  (cg_init g = false \/ cg_realized g = false \/ cg_no_ini g = false
   \/ cg_class_ok g (go_class o) = true /\ cg_label_ok g (go_label o) = true
      /\ exists s, go_scan o = Some s /\ ~ Sized s) ->
  curv_process g o robot m = (m, Exc).
Proof.
  intros g o robot m H. unfold curv_process, bnd, massert, ret, throw.
  destruct (cg_init g); [|reflexivity]. destruct (cg_realized g); [|reflexivity]. destruct (cg_no_ini g); [|reflexivity].
  destruct H as [H|[H|[H|(H1 & H2 & s & H3 & H4)]]]; try discriminate. rewrite H1, H2, H3. cbn [negb orb].
  unfold curv_rotating, bnd, massert, throw. rewrite <- scan_ok_iff in H4. destruct (scan_ok s); [congruence|reflexivity].
Qed.

Definition ex_pts (r i : nat) : Q3 :=
  match i with O => mkQ3 0 0 0 | 1%nat => mkQ3 1 0 0 | 2%nat => mkQ3 1 1 0 | _ => mkQ3 1 2 0 end.
Definition ex_scan : RScan := mkRScan 1 4 (mkMat 1 4 (fun _ _ => 7)) (mkMat 1 4 ex_pts).
Definition ex_cg : CurvGen := mkCurvGen "edges" (1#2) (1#10) (String.eqb "CObservationRotatingScan") (fun _ => true) true true true.
Definition ex_obs (s : option RScan) : GObs := mkGObs "CObservationRotatingScan" "lidar" s.
Definition ex_pose : QPose := mkQPose (mkQ3 0 (-1) 0) (mkQ3 1 0 0) (mkQ3 0 0 1) (mkQ3 10 0 0).
Definition layer_pts (m : Layers) (n : Name) : option (list (Q * Q * Q)) :=
  match lfind m n with
  | Some (LPts c) => Some (map (fun p => (Qred (px p), Qred (py p), Qred (pz p))) (cl_pts c))
  | _ => None
  end.

Example C176_example :
  Sized ex_scan /\ Corner ex_cg ex_scan 0 1 /\ ~ Corner ex_cg ex_scan 0 2 /\
  (let '(m, r) := curv_process ex_cg (ex_obs (Some ex_scan)) (Some ex_pose) [] in
   (layer_pts m "edges", r)) = (Some [(10, 1, 0)%Q], Val true).
Proof.
  split; [apply scan_ok_iff; reflexivity|]. split; [apply corner_iff; [cbn; lia..|reflexivity]|]. split; [|reflexivity].
  intro H. apply corner_iff in H; [discriminate|cbn; lia..].
Qed.

(** ** C177: earlier points of the target layer *)
(** Finding: a second scan replaces the points of the first one, although the code says it
    appends to an existing layer (and the default generator does append). *)
Theorem C177_earlier_points_kept_refuted : exists g o1 o2 robot m m1 m2 c1 c2 p,
  curv_process g o1 robot m = (m1, Val true) /\ curv_process g o2 robot m1 = (m2, Val true)
  /\ lfind m1 (cg_target g) = Some (LPts c1) /\ lfind m2 (cg_target g) = Some (LPts c2)
  /\ In p (cl_pts c1) /\ ~ In p (cl_pts c2).
Proof.
  exists ex_cg, (ex_obs (Some ex_scan)), (ex_obs (Some (mkRScan 1 4 (mkMat 1 4 (fun _ _ => 0)) (mkMat 1 4 ex_pts)))), None, [].
  eexists _, _, _, _, _. split; [reflexivity|]. split; [reflexivity|]. split; [reflexivity|]. split; [reflexivity|].
  split; [left; reflexivity|]. intros [].
Qed.

(** Exactly: the layer after the call does not depend on the layer before it. *)
Theorem C177_where : forall g o s robot ma mb ma' mb',
  cg_class_ok g (go_class o) = true -> cg_label_ok g (go_label o) = true -> go_scan o = Some s ->
  curv_process g o robot ma = (ma', Val true) -> curv_process g o robot mb = (mb', Val true) ->
  lfind ma' (cg_target g) = lfind mb' (cg_target g).
Proof.
  intros g o s robot ma mb ma' mb' D E F. unfold curv_process, bnd, massert, ret, throw.
  destruct (cg_init g); [|discriminate]. destruct (cg_realized g); [|discriminate]. destruct (cg_no_ini g); [|discriminate].
  rewrite D, E, F. cbn [negb orb]. unfold curv_rotating, bnd, massert, ret, throw.
  destruct (scan_ok s); [|discriminate]. intros X Y. injection X as <-. injection Y as <-.
  rewrite !lfind_lset, String.eqb_refl. reflexivity.
Qed.

(** ** C178: the other observations *)
Theorem C178_other_observations : forall g o robot m,
  cg_init g = true -> cg_realized g = true -> cg_no_ini g = true ->
  (cg_class_ok g (go_class o) = false \/ cg_label_ok g (go_label o) = false ->
     curv_process g o robot m = (m, Val false))
  /\ (cg_class_ok g (go_class o) = true -> cg_label_ok g (go_label o) = true -> go_scan o = None ->
      match lfind m (cg_target g) with
      | Some (LPts _) => curv_process g o robot m = (m, Val false)
      | Some _ => curv_process g o robot m = (m, Exc)
      | None => exists m', curv_process g o robot m = (m', Val false)
          /\ lfind m' (cg_target g) = Some (LPts (mkCloud SimplePoints []))
          /\ forall n, n <> cg_target g -> lfind m' n = lfind m n
      end).
Proof.
  intros g o robot m A B C. unfold curv_process, bnd, massert. rewrite A, B, C. unfold ret. split.
  - intros [H|H]; rewrite H; [reflexivity|]. cbn [negb]. rewrite orb_true_r. reflexivity.
  - intros D E F. rewrite D, E, F. cbn [negb orb]. destruct (lfind m (cg_target g)) as [[]|] eqn:L; try reflexivity.
    eexists. split; [reflexivity|]. split.
    + rewrite lfind_lset, String.eqb_refl. reflexivity.
    + intros n N. rewrite lfind_lset. destruct (String.eqb_spec (cg_target g) n); [congruence|reflexivity].
Qed.

Example C178_example :
  curv_process ex_cg (mkGObs "CObservationGPS" "gps" None) None [] = ([], Val false)
  /\ curv_process ex_cg (ex_obs None) None [] = ([("edges", LPts (mkCloud SimplePoints []))], Val false)
  /\ curv_process ex_cg (ex_obs None) None [("edges", LNull)] = ([("edges", LNull)], Exc).
Proof. repeat split. Qed.

(** ** GeneratorEdgesFromRangeImage, rotating scans *)
Lemma sig_iff g s r i : (r < rs_rows s)%nat -> (9 <= i < 9 + (rs_cols s - 17))%nat ->
  sigb g s r i = true <-> Significant g s r i.
Proof.
  intros R I. unfold sigb, Significant. rewrite andb_true_iff, negb_true_iff, Z.eqb_neq, Z.ltb_lt. split.
  - intros [A B]. cbn zeta. split; [exact R|]. split; [lia|]. split; [lia|].
    exists (ri_mean s r i), (ri_var s r i). split; [reflexivity|]. split; [reflexivity|]. split; assumption.
  - intros (_ & _ & _ & mean & var & -> & -> & A & B). split; [exact A|exact B].
Qed.

(** On a scan of at least 8 columns whose range never falls over a window, the target layer
    becomes exactly the significant pixels in reading order. *)
Theorem C179_significant_pixels : forall g s robot m,
  Sized s -> U16 (rs_range s) -> (8 <= rs_cols s)%nat -> Z.of_nat (rs_cols s) < 65536 -> ~ Falls s ->
  exists m' l, ri_rotating g robot s m = (m', Val true)
    /\ Lists (Significant g s) l
    /\ lfind m' (ri_target g) = Some (LPts (mkCloud SimplePoints (pixel_pts robot s l)))
    /\ forall n, n <> ri_target g -> lfind m' n = lfind m n.
Proof.
  intros g s robot m S U C8 C16 NF. unfold ri_rotating, bnd, massert. rewrite (proj2 (scan_ok_iff s) S). unfold ret.
  rewrite (ri_rows_ok g robot s C8 ltac:(lia)).
  2:{ intros r i R I J. apply ri_pixel_ok; try assumption. apply Z.nlt_ge. intro X. apply NF.
      exists r, i. split; [lia|]. split; [exact I|]. split; [exact J|exact X]. }
  eexists _, _. split; [reflexivity|]. split.
  - apply (pixels_lists (rs_rows s) 9 (rs_cols s - 17) (sigb g s) (Significant g s)).
    + intros r i R I. apply sig_iff; assumption.
    + intros r i (R & I & J & _). split; [exact R|lia].
  - split.
    + rewrite lfind_lset, String.eqb_refl. do 3 f_equal. unfold pixel_pts.
      rewrite flat_pixels, map_map. apply map_ext. intro ri. apply placed_at.
    + intros n N. rewrite lfind_lset. destruct (String.eqb_spec (ri_target g) n); [congruence|reflexivity].
Qed.

(** Two rows of 18 ranges: constant; with one small step at column 14. *)
Definition ex_row (r i : nat) : Z := if (Nat.eqb r 0 || (i <? 14)%nat)%bool then 60000 else 60001.
Definition ex_ri : RScan :=
  mkRScan 2 18 (mkMat 2 18 ex_row)
    (mkMat 2 18 (fun r i => mkQ3 (inject_Z (Z.of_nat i)) (inject_Z (Z.of_nat r)) 0)).
Definition ex_rg : RiGen := mkRiGen "edges" "planes" 900000.

Lemma ex_ri_rises : ~ Falls ex_ri.
Proof.
  intros (r & i & _ & I & J & H). cbn [ex_ri rs_range m_at rs_cols] in *. unfold ex_row in H.
  destruct (Nat.eqb r 0); cbn [orb] in H; [lia|].
  destruct (i + 8 <? 14)%nat eqn:A, (i - 9 <? 14)%nat eqn:B;
    try apply Nat.ltb_lt in A; try apply Nat.ltb_ge in A; try apply Nat.ltb_lt in B; try apply Nat.ltb_ge in B; lia.
Qed.
Lemma ex_ri_u16 : U16 (rs_range ex_ri).
Proof. intros r c. cbn [ex_ri rs_range m_at]. unfold ex_row. destruct (_ || _)%bool; lia. Qed.

Example C179_example :
  Sized ex_ri /\ U16 (rs_range ex_ri) /\ ~ Falls ex_ri /\
  (let '(m, r) := ri_rotating ex_rg None ex_ri [] in (layer_pts m "edges", r)) = (Some [(9, 1, 0)%Q], Val true).
Proof.
  split; [apply scan_ok_iff; reflexivity|]. split; [exact ex_ri_u16|]. split; [exact ex_ri_rises|]. vm_compute. reflexivity.
Qed.

(** ** C180: undefined behaviour *)
(** Finding: if the range falls over a window, the (negative) sum of differences is divided as
    an unsigned number, and squaring the huge quotient overflows; on a scan of fewer than 8
    columns the row is read out of bounds.  Otherwise the call is defined. *)
Theorem C180_defined_refuted : exists g s robot m,
  Sized s /\ U16 (rs_range s) /\ snd (ri_rotating g robot s m) = Undef.
Proof.
  exists ex_rg, (mkRScan 1 18 (mkMat 1 18 (fun _ i => if (i <? 5)%nat then 2000 else 1000)) (mkMat 1 18 ex_pts)), None, [].
  split; [apply scan_ok_iff; reflexivity|]. split; [|vm_compute; reflexivity].
  intros r c. cbn. destruct (c <=? 4)%nat; lia.
Qed.

Theorem C180_where : forall g s robot m,
  Sized s -> U16 (rs_range s) -> Z.of_nat (rs_cols s) < 65536 ->
  (snd (ri_rotating g robot s m) = Undef <-> (rs_cols s < 8)%nat \/ Falls s)
  /\ (snd (ri_rotating g robot s m) = Undef \/ snd (ri_rotating g robot s m) = Val true).
Proof.
  intros g s robot m S U C16. assert (SS := S). destruct S as (R0 & C0 & _).
  assert (D : ri_rotating g robot s m = match ri_rows g robot s (rs_rows s) 0 with
    | None => (m, Undef)
    | Some pts => (lset m (ri_target g) (LPts (mkCloud SimplePoints (map pt_of pts))), Val true) end).
  { unfold ri_rotating, bnd, massert. rewrite (proj2 (scan_ok_iff s) SS). reflexivity. }
  split; [|rewrite D; destruct (ri_rows _ _ _ _ _); [right|left]; reflexivity].
  destruct (Nat.lt_ge_cases (rs_cols s) 8) as [N|N].
  - split; [left; exact N|]. intros _. rewrite D, ri_rows_narrow by lia. reflexivity.
  - split.
    + intro H. right. destruct (existsb (fun ri => m_at (rs_range s) (fst ri) (snd ri + 8)%nat <? m_at (rs_range s) (fst ri) (snd ri - 9)%nat)
         (pixels (rs_rows s) 9 (rs_cols s - 17))) eqn:E.
      * apply existsb_exists in E as [[r i] [I J]]. apply pixels_in in I. apply Z.ltb_lt in J. cbn in J.
        exists r, i. split; [lia|]. split; [lia|]. split; [lia|exact J].
      * exfalso. destruct (C179_significant_pixels g s robot m SS U N C16) as (m' & l & A & _).
        -- intros (r & i & R & I & J & K). rewrite <- not_true_iff_false in E. apply E. apply existsb_exists.
           exists (r, i). split; [apply pixels_in; lia|]. apply Z.ltb_lt. exact K.
        -- rewrite A in H. discriminate.
    + intros [X|(r & i & R & I & J & K)]; [lia|]. rewrite D.
      rewrite (ri_rows_none g robot s N ltac:(lia)); [reflexivity|]. exists r, i. split; [lia|]. split; [exact I|]. split; [exact J|].
      apply ri_pixel_falls; assumption.
Qed.

(** ** C181: earlier points of the target layer *)
(** Finding: as in C177. *)
Theorem C181_earlier_points_kept_refuted : exists g s1 s2 robot m m1 m2 c1 c2 p,
  ri_rotating g robot s1 m = (m1, Val true) /\ ri_rotating g robot s2 m1 = (m2, Val true)
  /\ lfind m1 (ri_target g) = Some (LPts c1) /\ lfind m2 (ri_target g) = Some (LPts c2)
  /\ In p (cl_pts c1) /\ ~ In p (cl_pts c2).
Proof.
  exists ex_rg, ex_ri, (mkRScan 1 8 (mkMat 1 8 (fun _ _ => 0)) (mkMat 1 8 ex_pts)), None, [].
  eexists _, _, _, _, _. split; [vm_compute; reflexivity|]. split; [vm_compute; reflexivity|].
  split; [vm_compute; reflexivity|]. split; [vm_compute; reflexivity|].
  split; [left; reflexivity|]. intros [].
Qed.

Theorem C181_where : forall g s robot ma mb ma' mb',
  ri_rotating g robot s ma = (ma', Val true) -> ri_rotating g robot s mb = (mb', Val true) ->
  lfind ma' (ri_target g) = lfind mb' (ri_target g).
Proof.
  intros g s robot ma mb ma' mb'. unfold ri_rotating, bnd, massert, ret, throw.
  destruct (scan_ok s); [|discriminate]. destruct (ri_rows g robot s (rs_rows s) 0); [|discriminate].
  intros X Y. injection X as <-. injection Y as <-. rewrite !lfind_lset, String.eqb_refl. reflexivity.
Qed.

(** ** GeneratorEdgesFromRangeImage, 3D cameras *)
Lemma goc_ready m n c : Ready m n c -> exists m1, get_or_create n true SimplePoints m = (m1, Val true)
  /\ lfind m1 n = Some (LPts c) /\ (forall k, k <> n -> lfind m1 k = lfind m k).
Proof.
  intros [N H]. unfold get_or_create. destruct (String.eqb_spec n ""); [congruence|].
  destruct H as [H|[H ->]]; rewrite H.
  - exists m. split; [reflexivity|]. split; [exact H|reflexivity].
  - eexists. split; [reflexivity|]. split.
    + rewrite lfind_lset, String.eqb_refl. reflexivity.
    + intros k K. rewrite lfind_lset. destruct (String.eqb_spec n k); [congruence|reflexivity].
Qed.

Lemma scan3d_run g robot o m ce cp : Ready m (ri_target g) ce -> Ready m (ri_planes g) cp -> rg_has_range o = true ->
  exists m1, (forall k, k <> ri_target g -> k <> ri_planes g -> lfind m1 k = lfind m k) /\
  let '(evs, oc) := scan_rows g o robot true true (m_rows (rg_image o) / 8) 0 [] in
  let edges := grown ce (if String.eqb (ri_target g) (ri_planes g) then map snd evs else map snd (filter fst evs)) in
  ri_scan3d g robot o m
  = (lset (lset m1 (ri_target g) edges) (ri_planes g) edges,
     match oc with Val _ => Val true | Exc => Exc | Undef => Undef | Spin => Spin end).
Proof.
  intros RE RP HR. destruct (goc_ready m (ri_target g) ce RE) as (m1 & A1 & B1 & C1).
  assert (RP1 : exists cp', Ready m1 (ri_planes g) cp').
  { destruct RP as [N H]. destruct (String.eqb_spec (ri_planes g) (ri_target g)) as [E|E].
    - exists ce. split; [exact N|]. left. rewrite E. exact B1.
    - exists cp. split; [exact N|]. rewrite C1 by exact E. exact H. }
  destruct RP1 as [cp' RP1]. destruct (goc_ready m1 (ri_planes g) cp' RP1) as (m2 & A2 & B2 & C2).
  assert (CE : cloud_at m2 (ri_target g) = ce).
  { unfold cloud_at. destruct (String.eqb_spec (ri_target g) (ri_planes g)) as [E|E].
    - rewrite E, B2. rewrite E in B1. destruct RP1 as [_ [X|[X _]]]; congruence.
    - rewrite C2, B1 by exact E. reflexivity. }
  exists m2. split; [intros k K1 K2; rewrite C2, C1 by assumption; reflexivity|].
  destruct (scan_rows _ _ _ _ _ _ _ _) as [evs oc] eqn:SR.
  unfold ri_scan3d. unfold bnd. rewrite A1, A2, HR. cbn [orb negb]. rewrite SR, CE. reflexivity.
Qed.

Lemma edge_iff g o R nc rd cd : (forall a b, BlockMean o a b (R a b)) ->
  (rd < m_rows (rg_image o) / 8)%nat -> (1 <= cd < 1 + (nc - 1))%nat ->
  edgeb g o nc rd cd = true <-> EdgeBlock g R (m_rows (rg_image o) / 8) nc rd cd.
Proof.
  intros HR A B. assert (E : forall c, R rd c = decimated o rd c)
    by (intro c; apply (block_mean_unique o rd c); [apply HR|apply decimated_mean]).
  unfold edgeb, EdgeBlock. rewrite andb_true_iff, negb_true_iff, Z.eqb_neq, Z.ltb_lt, E, (diff2_d2 o rd cd (R rd) E).
  assert (M : d1 (R rd) (nc - 1) / (Z.of_nat nc - 1) = row_mean o rd nc)
    by (unfold row_mean; rewrite (diff1_d1 o rd _ (R rd) E); reflexivity).
  assert (V : sum_from (fun j => (d2 (R rd) j - row_mean o rd nc) ^ 2) 0 nc / (Z.of_nat nc - 1) = row_var o rd nc).
  { unfold row_var. f_equal. apply sum_from_ext. intros j _. rewrite (diff2_d2 o rd j (R rd) E). reflexivity. }
  split.
  - intros [X Y]. split; [exact A|]. split; [lia|]. split; [lia|]. split; [exact X|].
    exists (row_mean o rd nc), (row_var o rd nc). split; [symmetry; exact M|]. split; [symmetry; exact V|].
    destruct (Z.eqb_spec (row_var o rd nc) 0); split; intro; try contradiction; exact Y.
  - intros (_ & _ & _ & X & mean & var & -> & -> & Y & Z). split; [exact X|]. rewrite M, V in *.
    destruct (Z.eqb_spec (row_var o rd nc) 0); auto.
Qed.

(** With both layers usable and different, and no row whose last difference is negative, the
    edges layer grows by exactly the edge blocks in reading order; only the two layers change. *)
Theorem C184_edge_blocks : forall g o robot m R ce cp,
  Ready m (ri_target g) ce -> Ready m (ri_planes g) cp -> ri_target g <> ri_planes g ->
  rg_has_range o = true -> U16 (rg_image o) ->
  let rows := (m_rows (rg_image o) / 8)%nat in let cols := (m_cols (rg_image o) / 8)%nat in
  (2 <= cols <= 2048)%nat -> (forall rd cd, BlockMean o rd cd (R rd cd)) ->
  (forall rd, (rd < rows)%nat -> cols = 2%nat \/ 0 <= d1 (R rd) (cols - 1)) ->
  exists m' l, ri_scan3d g robot o m = (m', Val true)
    /\ Lists (EdgeBlock g R rows cols) l
    /\ lfind m' (ri_target g)
       = Some (LPts (mkCloud (cl_cls ce) (cl_pts ce ++ map (conv (cl_cls ce)) (block_pts robot o R l))))
    /\ forall n, n <> ri_target g -> n <> ri_planes g -> lfind m' n = lfind m n.
Proof.
  intros g o robot m R ce cp RE RP NE HR U rows cols N BM LAST.
  assert (E : forall rd c, R rd c = decimated o rd c)
    by (intros rd c; apply (block_mean_unique o rd c); [apply BM|apply decimated_mean]).
  destruct (scan3d_run g robot o m ce cp RE RP HR) as (m1 & C1 & RUN).
  destruct (scan_rows_ok g o robot cols U eq_refl N rows 0 []) as (evs & A & B).
  { intros rd X. destruct (LAST rd ltac:(lia)) as [Y|Y]; [right; exact Y|left].
    rewrite (diff1_d1 o rd _ (R rd) (E rd)) in Y. exact Y. }
  unfold rows in A. rewrite A in RUN. cbn [app] in RUN.
  destruct (String.eqb_spec (ri_target g) (ri_planes g)) as [X|_]; [contradiction|].
  eexists _, _. split; [exact RUN|]. split.
  - apply (pixels_lists rows 1 (cols - 1) (edgeb g o cols) (EdgeBlock g R rows cols)).
    + intros r i X Y. apply edge_iff; assumption.
    + intros r i (X & Y & Z & _). split; [exact X|lia].
  - split.
    + rewrite lfind_lset. destruct (String.eqb_spec (ri_planes g) (ri_target g)); [congruence|].
      rewrite lfind_lset, String.eqb_refl. unfold grown. do 3 f_equal. f_equal.
      match goal with |- map _ ?X = _ => replace X with (map (fun ri => unproject o robot (fst ri) (snd ri))
        (filter (fun ri => edgeb g o cols (fst ri) (snd ri)) (pixels rows 1 (cols - 1)))) end.
      * unfold block_pts. rewrite !map_map. apply map_ext. intro rc. f_equal. unfold unproject, placed, at_robot.
        rewrite E. rewrite !(Nat.mul_comm 8). destruct robot; reflexivity.
      * symmetry. etransitivity; [exact B|]. apply flat_pixels.
    + intros n X Y. rewrite !lfind_lset.
      destruct (String.eqb_spec (ri_planes g) n); [congruence|]. destruct (String.eqb_spec (ri_target g) n); [congruence|].
      apply C1; assumption.
Qed.

(** Images without a range, or less than 16 columns wide, are rejected. *)
Theorem C184_rejects : forall g o robot m ce cp,
  Ready m (ri_target g) ce -> Ready m (ri_planes g) cp ->
  (rg_has_range o = false \/ (m_cols (rg_image o) < 16)%nat /\ (8 <= m_rows (rg_image o))%nat) ->
  snd (ri_scan3d g robot o m) = Exc.
Proof.
  intros g o robot m ce cp RE RP H. destruct (rg_has_range o) eqn:HR.
  - destruct H as [H|[H1 H2]]; [discriminate|]. destruct (scan3d_run g robot o m ce cp RE RP HR) as (m1 & _ & RUN).
    destruct (m_rows (rg_image o) / 8)%nat as [|k] eqn:K.
    + apply Nat.div_small_iff in K; lia.
    + cbn [scan_rows] in RUN. rewrite (proj2 (Nat.leb_le _ _)) in RUN.
      2:{ assert (m_cols (rg_image o) / 8 < 2)%nat by (apply Nat.div_lt_upper_bound; lia). lia. }
      rewrite RUN. reflexivity.
  - destruct (goc_ready m (ri_target g) ce RE) as (m1 & A1 & B1 & D1).
    assert (RP1 : exists cp', Ready m1 (ri_planes g) cp').
    { destruct RP as [N X]. destruct (String.eqb_spec (ri_planes g) (ri_target g)) as [E|E].
      - exists ce. split; [exact N|]. left. rewrite E. exact B1.
      - exists cp. split; [exact N|]. rewrite D1 by exact E. exact X. }
    destruct RP1 as [cp' RP1]. destruct (goc_ready m1 (ri_planes g) cp' RP1) as (m2 & A2 & _ & _).
    unfold ri_scan3d, bnd. rewrite A1, A2, HR. reflexivity.
Qed.

(** One row of three blocks: 1000, 1000, 3000. *)
Definition ex_img (r c : nat) : Z := if (c <? 16)%nat then 1000 else 3000.
Definition ex_cam (f : nat -> nat -> Z) : Rgbd :=
  mkRgbd true (mkMat 8 24 f) (fun r c d => mkQ3 (inject_Z d) (inject_Z (Z.of_nat r)) (inject_Z (Z.of_nat c))).
Definition ex_r3 : RiGen := mkRiGen "edges" "planes" 1.

Example C184_example :
  (let '(m, r) := ri_scan3d ex_r3 None (ex_cam ex_img) [] in (layer_pts m "edges", r)) = (Some [(3000, 4, 20)%Q], Val true)
  /\ Ready [] "edges" (mkCloud SimplePoints []) /\ (2 <= m_cols (rg_image (ex_cam ex_img)) / 8 <= 2048)%nat
  /\ U16 (rg_image (ex_cam ex_img)) /\ 0 <= d1 (decimated (ex_cam ex_img) 0) 2.
Proof.
  split; [vm_compute; reflexivity|]. split; [split; [discriminate|right; split; reflexivity]|].
  split; [split; [apply Nat.leb_le; reflexivity|change (m_cols (rg_image (ex_cam ex_img)) / 8)%nat with 3%nat; lia]|].
  split; [|vm_compute; discriminate].
  intros r c. cbn [ex_cam rg_image m_at]. unfold ex_img. destruct (_ <? _)%nat; lia.
Qed.

(** ** C182: the planes layer *)
(** Finding: the object that receives the plane points is not stored in the map: the planes
    layer is replaced by the edges layer, and what it held before is lost. *)
Theorem C182_planes_layer_refuted : exists g o robot m m' c c' p,
  ri_target g <> ri_planes g /\ ri_scan3d g robot o m = (m', Val true)
  /\ lfind m (ri_planes g) = Some (LPts c) /\ lfind m' (ri_planes g) = Some (LPts c')
  /\ In p (cl_pts c) /\ cl_pts c' = [].
Proof.
  exists ex_r3, (ex_cam (fun _ _ => 1000)), None,
    [("planes", LPts (mkCloud SimplePoints [pt_of (mkQ3 1 2 3)]))].
  eexists _, _, _, _. split; [discriminate|]. split; [vm_compute; reflexivity|]. split; [reflexivity|].
  split; [reflexivity|]. split; [left; reflexivity|reflexivity].
Qed.

Theorem C182_where : forall g o robot m ce cp,
  Ready m (ri_target g) ce -> Ready m (ri_planes g) cp -> rg_has_range o = true ->
  lfind (fst (ri_scan3d g robot o m)) (ri_planes g) = lfind (fst (ri_scan3d g robot o m)) (ri_target g).
Proof.
  intros g o robot m ce cp RE RP HR. destruct (scan3d_run g robot o m ce cp RE RP HR) as (m1 & _ & RUN).
  destruct (scan_rows _ _ _ _ _ _ _ _) as [evs oc]. rewrite RUN. cbn [fst].
  rewrite !lfind_lset, !String.eqb_refl. destruct (String.eqb (ri_planes g) (ri_target g)); reflexivity.
Qed.

(** ** C183: undefined behaviour on 3D scans *)
(** Finding: without a name for the planes layer, the first plane point goes through a null
    pointer. *)
Theorem C183_no_planes_layer_refuted : exists g o robot m,
  ri_planes g = "" /\ U16 (rg_image o) /\ rg_has_range o = true /\ (m_cols (rg_image o) / 8 = 3)%nat
  /\ snd (ri_scan3d g robot o m) = Undef.
Proof.
  exists (mkRiGen "edges" "" 1), (ex_cam (fun _ _ => 1000)), None, [].
  split; [reflexivity|]. split; [intros r c; cbn; lia|]. split; [reflexivity|]. split; [reflexivity|vm_compute; reflexivity].
Qed.

(** Finding, and exactly when with both layers: a row whose last difference is negative. *)
Theorem C183_where : forall g o robot m R ce cp,
  Ready m (ri_target g) ce -> Ready m (ri_planes g) cp -> ri_target g <> ri_planes g ->
  rg_has_range o = true -> U16 (rg_image o) ->
  let rows := (m_rows (rg_image o) / 8)%nat in let cols := (m_cols (rg_image o) / 8)%nat in
  (2 <= cols <= 2048)%nat -> (forall rd cd, BlockMean o rd cd (R rd cd)) ->
  (snd (ri_scan3d g robot o m) = Undef <-> cols <> 2%nat /\ exists rd, (rd < rows)%nat /\ d1 (R rd) (cols - 1) < 0)
  /\ (snd (ri_scan3d g robot o m) = Undef \/ snd (ri_scan3d g robot o m) = Val true).
Proof.
  intros g o robot m R ce cp RE RP NE HR U rows cols N BM.
  assert (E : forall rd c, R rd c = decimated o rd c)
    by (intros rd c; apply (block_mean_unique o rd c); [apply BM|apply decimated_mean]).
  assert (DEC : (exists rd, (rd < rows)%nat /\ d1 (R rd) (cols - 1) < 0)
                \/ (forall rd, (rd < rows)%nat -> 0 <= d1 (R rd) (cols - 1))).
  { clear. induction rows as [|k IH]; [right; lia|]. destruct IH as [(rd & A & B)|IH].
    - left. exists rd. split; [lia|exact B].
    - destruct (Z_lt_le_dec (d1 (R k) (cols - 1)) 0) as [X|X]; [left; exists k; split; [lia|exact X]|].
      right. intros rd A. destruct (Nat.eq_dec rd k) as [-> | B]; [exact X|apply IH; lia]. }
  destruct (Nat.eq_dec cols 2) as [C2|C2].
  - destruct (C184_edge_blocks g o robot m R ce cp RE RP NE HR U N BM) as (m' & l & A & _).
    { intros rd X. left. exact C2. }
    rewrite A. cbn [snd]. split; [|right; reflexivity]. split; [discriminate|]. intros [X _]. contradiction.
  - destruct DEC as [(rd & X & Y)|DEC].
    + assert (UN : snd (ri_scan3d g robot o m) = Undef).
      { destruct (scan3d_run g robot o m ce cp RE RP HR) as (m1 & _ & RUN).
        pose proof (scan_rows_undef g o robot cols U eq_refl ltac:(lia) (m_rows (rg_image o) / 8) 0 []) as Z.
        destruct (scan_rows _ _ _ _ _ _ _ _) as [evs oc]. rewrite RUN. cbn [snd] in *. rewrite Z; [reflexivity|].
        exists rd. split; [unfold rows in X; lia|]. rewrite (diff1_d1 o rd _ (R rd) (E rd)) in Y. exact Y. }
      rewrite UN. split; [|left; reflexivity]. split; [|reflexivity]. intros _. split; [exact C2|]. exists rd. split; assumption.
    + destruct (C184_edge_blocks g o robot m R ce cp RE RP NE HR U N BM) as (m' & l & A & _).
      { intros rd X. right. apply DEC, X. }
      rewrite A. cbn [snd]. split; [|right; reflexivity]. split; [discriminate|]. intros [_ (rd & X & Y)]. specialize (DEC rd X). lia.
Qed.

Example C183_example :
  snd (ri_scan3d ex_r3 None (ex_cam (fun r c => if (c <? 16)%nat then 3000 else 1000)) []) = Undef.
Proof. vm_compute. reflexivity. Qed.
