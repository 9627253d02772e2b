(** C155-C158: FilterPoleDetector. *)
From Coq Require Import String Permutation Qround Lqa.
From Verif Require Import Base FilterModel FilterSpec FilterProofs FilterProofs2 CurvModel CurvSpec CurvProofs
  PoleModel PoleSpec PoleProofs.
Open Scope string_scope.
Open Scope Q_scope.
Open Scope list_scope.

(** C155. In whatever order the grid is visited, each column with enough points is sent
    whole to the poles layer if it stands out of enough neighbours, else to the no-poles
    layer; each column is visited once; columns with fewer points go nowhere; points of a
    column keep their order; nothing else changes. *)
Theorem C155_pole_classes : forall ord c m src,
  (forall g, Permutation (ord g) g) ->
  lfind m (po_in c) = Some (LPts src) -> wf_cloud src -> po_realized c = true ->
  ~ po_grid c == 0 -> Forall (column_in_range (po_grid c)) (cl_pts src) ->
  usable m (po_poles c) -> usable m (po_nopoles c) ->
  exists m' dest cols,
    filter_pole ord c m = (m', Val tt)
    /\ NoDup cols /\ (forall k, In k cols <-> occupied (po_grid c) (cl_pts src) k)
    /\ (forall p, In p (cl_pts src) ->
          let k := column (po_grid c) p in
          (judged c (cl_pts src) k -> is_pole c (cl_pts src) k -> dest p = po_poles c)
          /\ (judged c (cl_pts src) k -> ~ is_pole c (cl_pts src) k -> dest p = po_nopoles c)
          /\ (~ judged c (cl_pts src) k -> dest p = ""))
    /\ Received m m' (cl_cls src) [po_poles c; po_nopoles c]
         (fun n => flat_map (fun k => filter (fun p => cell_eqb (column (po_grid c) p) k
                                                       && String.eqb (dest p) n) (cl_pts src)) cols).
Proof. exact pole_spec. Qed.
Print Assumptions C155_pole_classes.

(** What is refused, whatever the cloud. *)
Theorem C155_rejects : forall ord c m,
  po_realized c = false \/ (~ exists src, lfind m (po_in c) = Some (LPts src)) ->
  filter_pole ord c m = (m, Exc).
Proof.
  intros ord c m H. unfold filter_pole, bnd, input_layer, point_layer, bnd.
  destruct (po_realized c); [|reflexivity]. destruct H as [H|H]; [discriminate|]. cbn [massert]. unfold ret.
  destruct (lfind m (po_in c)) as [[d|x|]|]; try reflexivity. exfalso. apply H. eauto.
Qed.
Theorem C155_rejects_output : forall ord c m src,
  po_realized c = true -> lfind m (po_in c) = Some (LPts src) ->
  ~ usable m (po_poles c) \/ ~ usable m (po_nopoles c) ->
  snd (filter_pole ord c m) = Exc.
Proof.
  intros ord c m src R H B. unfold filter_pole, bnd. rewrite R. cbn [massert]. unfold ret at 1.
  rewrite (input_ok _ _ _ H).
  assert (usable m (po_poles c) \/ ~ usable m (po_poles c)) as [U|U].
  { unfold usable. destruct (string_dec (po_poles c) "") as [E|E]; [left; auto|].
    destruct (lfind m (po_poles c)) as [[x|x|]|] eqn:F; [left; eauto| | |left; auto];
      right; intros [X|[X|[x' X]]]; congruence. }
  - rewrite (goc_usable _ _ _ U). destruct B as [B|B]; [contradiction|].
    rewrite (goc_bad _ _ _ (unusable_created _ _ _ _ B)). reflexivity.
  - rewrite (goc_bad _ _ _ U). reflexivity.
Qed.
Print Assumptions C155_rejects_output.

(** ** A concrete cloud: a mast of two points over three ground columns and one lonely point. *)
Definition xyz : Cls := mkCls "mrpt::maps::CSimplePointsMap" false false false.
Definition zp (x y z : Q) : Pt := mkPt x y z 0 0 0.
Definition ocloud : Cloud := mkCloud xyz
  [zp 3 3 5; zp 5 3 0; zp 3 5 1; zp (7#2) 3 7; zp 5 (7#2) 0; zp (7#2) 5 (1#2); zp 5 5 0; zp (11#2) 5 0; zp 100 100 9].
Definition ocfg : PoleCfg := mkPole "in" "poles" "rest" 2 3 25 2 3 true.
Definition omap : Layers := [("in", LPts ocloud)].
Example C155_ex :
  match filter_pole (fun g => g) ocfg omap with
  | (m', Val tt) =>
      lfind m' "poles" = Some (LPts (mkCloud xyz [zp 3 3 5; zp (7#2) 3 7])) /\
      lfind m' "rest" = Some (LPts (mkCloud xyz
         [zp 5 3 0; zp 5 (7#2) 0; zp 3 5 1; zp (7#2) 5 (1#2); zp 5 5 0; zp (11#2) 5 0]))
  | _ => False end.
Proof. vm_compute. split; reflexivity. Qed.
Example C155_ex_hyps :
  lfind omap (po_in ocfg) = Some (LPts ocloud) /\ wf_cloud ocloud /\ po_realized ocfg = true
  /\ ~ po_grid ocfg == 0 /\ Forall (column_in_range (po_grid ocfg)) (cl_pts ocloud)
  /\ usable omap (po_poles ocfg) /\ usable omap (po_nopoles ocfg).
Proof.
  split; [reflexivity|]. split.
  { unfold wf_cloud. cbn. repeat (constructor; [unfold pt_of_class; cbn; intuition congruence|]). constructor. }
  split; [reflexivity|]. split; [discriminate|]. split.
  { cbn. repeat (constructor; [split; vm_compute; split; reflexivity|]). constructor. }
  split; right; left; reflexivity.
Qed.

(** C156: the two outputs together hold every input point.  False: columns with fewer
    than minimum_pole_points points reach neither output. *)
Definition C156_outputs_cover : Prop := forall ord c m src m',
  (forall g, Permutation (ord g) g) ->
  lfind m (po_in c) = Some (LPts src) -> wf_cloud src ->
  Forall (column_in_range (po_grid c)) (cl_pts src) -> ~ po_grid c == 0 ->
  NoDup [po_poles c; po_nopoles c; ""] ->
  lfind m (po_poles c) = None -> lfind m (po_nopoles c) = None ->
  filter_pole ord c m = (m', Val tt) ->
  exists a b, lfind m' (po_poles c) = Some (LPts (mkCloud (cl_cls src) a))
    /\ lfind m' (po_nopoles c) = Some (LPts (mkCloud (cl_cls src) b))
    /\ Permutation (a ++ b) (cl_pts src).
Theorem C156_outputs_cover_refuted : ~ C156_outputs_cover.
Proof.
  intro H. destruct C155_ex_hyps as (A1 & A2 & A3 & A4 & A5 & A6 & A7).
  destruct (filter_pole (fun g => g) ocfg omap) as [m' o] eqn:E.
  assert (o = Val tt) as -> by (change o with (snd (m', o)); rewrite <- E; vm_compute; reflexivity).
  destruct (H (fun g => g) ocfg omap ocloud m' (fun g => Permutation_refl g) A1 A2 A5 A4) as (a & b & E1 & E2 & E3).
  - cbn. repeat (constructor; [cbn; intuition congruence|]). constructor.
  - reflexivity.
  - reflexivity.
  - exact E.
  - pose proof C155_ex as X. rewrite E in X. destruct X as [X1 X2].
    change (po_poles ocfg) with "poles" in E1. change (po_nopoles ocfg) with "rest" in E2.
    rewrite X1 in E1. rewrite X2 in E2. injection E1 as <-. injection E2 as <-.
    apply Permutation_length in E3. discriminate.
Qed.
Print Assumptions C156_outputs_cover_refuted.


Lemma flat_map_ext' {A B} (f g : A -> list B) l : (forall x, In x l -> f x = g x) -> flat_map f l = flat_map g l.
Proof.
  induction l as [|x l IH]; [reflexivity|]. intro H. cbn. rewrite (H x (or_introl eq_refl)).
  f_equal. apply IH. intros y Hy. apply H. right. exact Hy.
Qed.

Lemma filter_column_perm res (D : Pt -> bool) cols : forall l,
  NoDup cols -> (forall p, In p l -> In (column res p) cols) ->
  Permutation (flat_map (fun k => filter (fun p => cell_eqb (column res p) k && D p) l) cols) (filter D l).
Proof.
  induction l as [|p l IH]; intros ND HC.
  - cbn. clear. induction cols; [constructor|exact IHcols].
  - specialize (IH ND (fun q hq => HC q (or_intror hq))).
    pose proof (HC p (or_introl eq_refl)) as Hp. apply in_split in Hp as (c1 & c2 & Hc).
    assert (forall k, k <> column res p ->
       filter (fun p => cell_eqb (column res p) k && D p) (p :: l)
       = filter (fun p => cell_eqb (column res p) k && D p) l) as EQ.
    { intros k Nk. cbn [filter]. assert (cell_eqb (column res p) k = false) as -> by (apply cell_eqb_neq; congruence).
      reflexivity. }
    rewrite Hc in *. assert (~ In (column res p) c1 /\ ~ In (column res p) c2) as [N1 N2].
    { apply NoDup_remove_2 in ND. split; intro; apply ND; apply in_or_app; tauto. }
    rewrite flat_map_app in IH |- *. cbn [flat_map] in IH |- *.
    rewrite (flat_map_ext' _ (fun k => filter (fun p => cell_eqb (column res p) k && D p) l) c1)
      by (intros k hk; apply EQ; congruence).
    rewrite (flat_map_ext' _ (fun k => filter (fun p => cell_eqb (column res p) k && D p) l) c2)
      by (intros k hk; apply EQ; congruence).
    cbn [filter]. rewrite cell_eqb_refl. cbn [andb].
    destruct (D p); [|exact IH].
    cbn [app]. etransitivity; [symmetry; apply Permutation_middle|]. constructor. exact IH.
Qed.

(** What does hold: with two different new outputs, they hold exactly the points of the
    columns with at least minimum_pole_points points, the poles in one and the others in
    the other; the input layer is unchanged. *)
Theorem C156_outputs_cover_judged : forall ord c m src,
  (forall g, Permutation (ord g) g) ->
  lfind m (po_in c) = Some (LPts src) -> wf_cloud src -> po_realized c = true ->
  ~ po_grid c == 0 -> Forall (column_in_range (po_grid c)) (cl_pts src) ->
  NoDup [po_poles c; po_nopoles c; ""] ->
  lfind m (po_poles c) = None -> lfind m (po_nopoles c) = None ->
  exists m' a b, filter_pole ord c m = (m', Val tt)
    /\ lfind m' (po_poles c) = Some (LPts (mkCloud (cl_cls src) a))
    /\ lfind m' (po_nopoles c) = Some (LPts (mkCloud (cl_cls src) b))
    /\ Permutation (a ++ b)
         (filter (fun p => (po_minpts c <=? List.length (members (po_grid c) (cl_pts src)
                                              (column (po_grid c) p)))%nat) (cl_pts src))
    /\ (forall p, In p a -> is_pole c (cl_pts src) (column (po_grid c) p))
    /\ (forall p, In p b -> ~ is_pole c (cl_pts src) (column (po_grid c) p))
    /\ lfind m' (po_in c) = Some (LPts src).
Proof.
  intros ord c m src HO H W R G HF ND F1 F2.
  assert (po_poles c <> po_nopoles c /\ po_poles c <> "" /\ po_nopoles c <> "") as (D1 & D2 & D3).
  { apply NoDup_cons_iff in ND as [N1 ND]. apply NoDup_cons_iff in ND as [N2 _]. cbn in N1, N2.
    split; [intro; apply N1; auto|]. split; [intro; apply N1; auto|intro; apply N2; auto]. }
  destruct (C155_pole_classes ord c m src HO H W R G HF) as (m' & dest & cols & E1 & E2 & E3 & E4 & E5);
    [right; left; exact F1|right; left; exact F2|].
  pose proof (proj1 (E5 (po_poles c))) as G1. pose proof (proj1 (E5 (po_nopoles c))) as G2.
  cbv beta in G1, G2. rewrite F1 in G1. rewrite F2 in G2.
  do 3 eexists. split; [exact E1|].
  split; [apply G1; split; [left; reflexivity|exact D2]|].
  split; [apply G2; split; [right; left; reflexivity|exact D3]|].
  set (J := fun p => (po_minpts c <=? List.length (members (po_grid c) (cl_pts src) (column (po_grid c) p)))%nat).
  assert (forall p, In p (cl_pts src) -> In (column (po_grid c) p) cols) as HC.
  { intros p Hp. apply E3. exists p. auto. }
  assert (forall n p, In p (flat_map (fun k => filter (fun p => cell_eqb (column (po_grid c) p) k
            && String.eqb (dest p) n) (cl_pts src)) cols) -> In p (cl_pts src) /\ dest p = n) as HIn.
  { intros n p Hp. apply in_flat_map in Hp as [k [_ Hp]]. apply filter_In in Hp as [A B].
    apply andb_true_iff in B as [_ B]. apply String.eqb_eq in B. auto. }
  assert (forall p, In p (cl_pts src) ->
     is_pole c (cl_pts src) (column (po_grid c) p) \/ ~ is_pole c (cl_pts src) (column (po_grid c) p)) as DEC.
  { intros p Hp. destruct (build_spec (po_grid c) G (cl_pts src) (cl_pts src) [] []) as [g [_ HG]];
      [reflexivity|exact HF|split; [constructor|intro; reflexivity]|].
    pose proof (gfind_final (po_grid c) (cl_pts src) g (column (po_grid c) p) HG) as X.
    destruct (gfind g (column (po_grid c) p)) as [v|]; [|exfalso; apply X; exists p; auto].
    destruct X as (_ & _ & _ & X). pose proof (pole_count c (cl_pts src) g HG _ _ X) as P.
    destruct (_ <=? _)%nat; [left; apply P; reflexivity|right; intro Y; apply P in Y; discriminate]. }
  split; [|split; [|split]].
  - rewrite (filter_column_perm (po_grid c) (fun p => String.eqb (dest p) (po_poles c)) cols (cl_pts src) E2 HC).
    rewrite (filter_column_perm (po_grid c) (fun p => String.eqb (dest p) (po_nopoles c)) cols (cl_pts src) E2 HC).
    assert (forall p, In p (cl_pts src) ->
       (J p = true /\ (dest p = po_poles c \/ dest p = po_nopoles c)) \/ (J p = false /\ dest p = "")) as K.
    { intros p Hp. destruct (E4 p Hp) as (X & Y & Z). unfold J, judged in *.
      destruct (Nat.leb_spec (po_minpts c) (List.length (members (po_grid c) (cl_pts src) (column (po_grid c) p)))) as [L|L].
      - left. split; [reflexivity|]. destruct (DEC p Hp); auto.
      - right. split; [reflexivity|]. apply Z. lia. }
    fold J. revert K. clearbody J. clear - D1 D2 D3. generalize (cl_pts src). intros l K. induction l as [|p l IH]; [constructor|].
    cbn [filter]. specialize (IH (fun q hq => K q (or_intror hq))).
    destruct (K p (or_introl eq_refl)) as [[A [B|B]]|[A B]]; rewrite A, B.
    + rewrite String.eqb_refl, (proj2 (String.eqb_neq (po_poles c) (po_nopoles c)) D1). cbn. constructor. exact IH.
    + rewrite String.eqb_refl, (proj2 (String.eqb_neq (po_nopoles c) (po_poles c))) by congruence.
      etransitivity; [symmetry; apply Permutation_middle|]. constructor. exact IH.
    + rewrite (proj2 (String.eqb_neq "" (po_nopoles c))), (proj2 (String.eqb_neq "" (po_poles c))) by congruence.
      exact IH.
  - intros p Hp. destruct (HIn _ _ Hp) as [A B]. destruct (DEC p A) as [Y|Y]; [exact Y|exfalso].
    destruct (E4 p A) as (_ & X & Z).
    destruct (le_lt_dec (po_minpts c) (List.length (members (po_grid c) (cl_pts src) (column (po_grid c) p)))) as [L|L].
    + specialize (X L Y). congruence.
    + rewrite Z in B by (unfold judged; lia). congruence.
  - intros p Hp Y. destruct (HIn _ _ Hp) as [A B]. destruct (E4 p A) as (X & _ & Z).
    destruct (le_lt_dec (po_minpts c) (List.length (members (po_grid c) (cl_pts src) (column (po_grid c) p)))) as [L|L].
    + specialize (X L Y). congruence.
    + rewrite Z in B by (unfold judged; lia). congruence.
  - destruct (E5 (po_in c)) as [_ X]. rewrite <- H. apply X. left.
    intros [Y|[Y|[]]]; rewrite Y in *; congruence.
Qed.
Print Assumptions C156_outputs_cover_judged.

(** C157: points at least grid_size apart (in x or in y) never share a column: so when
    all points are that far apart and two or more are required per column, both outputs
    stay empty.  False around the axes, where columns are twice as wide. *)
Definition apart (d : Q) (p q : Pt) : Prop :=
  px p + d <= px q \/ px q + d <= px p \/ py p + d <= py q \/ py q + d <= py p.
Definition all_apart (d : Q) (l : list Pt) : Prop :=
  forall i j, (i < j < List.length l)%nat -> apart d (pt_at l i) (pt_at l j).
Definition C157_columns_bounded : Prop := forall ord c m src m',
  (forall g, Permutation (ord g) g) ->
  lfind m (po_in c) = Some (LPts src) -> wf_cloud src ->
  Forall (column_in_range (po_grid c)) (cl_pts src) -> 0 < po_grid c ->
  NoDup [po_poles c; po_nopoles c; ""] ->
  lfind m (po_poles c) = None -> lfind m (po_nopoles c) = None ->
  all_apart (po_grid c) (cl_pts src) -> (2 <= po_minpts c)%nat ->
  filter_pole ord c m = (m', Val tt) ->
  lfind m' (po_poles c) = Some (LPts (mkCloud (cl_cls src) []))
  /\ lfind m' (po_nopoles c) = Some (LPts (mkCloud (cl_cls src) [])).
Definition wcloud : Cloud := mkCloud xyz [zp (-3#2) 1 0; zp (3#2) 1 0].
Theorem C157_columns_bounded_refuted : ~ C157_columns_bounded.
Proof.
  intro H. set (m := [("in", LPts wcloud)]).
  destruct (filter_pole (fun g => g) ocfg m) as [m' o] eqn:E.
  assert (o = Val tt) as -> by (change o with (snd (m', o)); rewrite <- E; vm_compute; reflexivity).
  destruct (H (fun g => g) ocfg m wcloud m' (fun g => Permutation_refl g)) as [_ X].
  - reflexivity.
  - unfold wf_cloud. cbn. repeat (constructor; [unfold pt_of_class; cbn; intuition congruence|]). constructor.
  - cbn. repeat (constructor; [split; vm_compute; split; reflexivity|]). constructor.
  - reflexivity.
  - cbn. repeat (constructor; [cbn; intuition congruence|]). constructor.
  - reflexivity.
  - reflexivity.
  - intros i j Hij. cbn in Hij. destruct i; [|lia]. destruct j as [|[|j]]; [lia| |lia].
    left. vm_compute. discriminate.
  - cbn. lia.
  - exact E.
  - change m' with (fst (m', Val tt)) in X. rewrite <- E in X. vm_compute in X. discriminate.
Qed.
Print Assumptions C157_columns_bounded_refuted.

(** What does hold: away from the axes, e.g. for points with positive coordinates. *)
Lemma same_cell_near d x y : 0 < d -> 0 <= x -> 0 <= y -> towards_zero (x / d) = towards_zero (y / d) ->
  y < x + d.
Proof.
  intros D X Y E. unfold towards_zero in E.
  assert (forall u, 0 <= u -> Qle_bool 0 (u / d) = true) as P.
  { intros u U. apply Qle_bool_iff. apply Qle_shift_div_l; [exact D|]. lra. }
  rewrite (P x X), (P y Y) in E.
  pose proof (Qfloor_le (x / d)) as A. pose proof (Qlt_floor (y / d)) as B. rewrite <- E in B.
  rewrite inject_Z_plus in B. change (inject_Z 1) with 1 in B.
  assert (y / d < x / d + 1) as C by lra.
  apply (Qmult_lt_compat_r _ _ d D) in C.
  rewrite Qmult_plus_distr_l in C. rewrite Qmult_comm in C. rewrite Qmult_div_r in C by lra.
  rewrite (Qmult_comm (x / d)) in C. rewrite Qmult_div_r in C by lra. lra.
Qed.

Theorem C157_columns_bounded_positive : forall ord c m src,
  (forall g, Permutation (ord g) g) ->
  lfind m (po_in c) = Some (LPts src) -> wf_cloud src -> po_realized c = true ->
  Forall (column_in_range (po_grid c)) (cl_pts src) -> 0 < po_grid c ->
  NoDup [po_poles c; po_nopoles c; ""] ->
  lfind m (po_poles c) = None -> lfind m (po_nopoles c) = None ->
  all_apart (po_grid c) (cl_pts src) -> (2 <= po_minpts c)%nat ->
  Forall (fun p => 0 <= px p /\ 0 <= py p) (cl_pts src) ->
  exists m', filter_pole ord c m = (m', Val tt)
  /\ lfind m' (po_poles c) = Some (LPts (mkCloud (cl_cls src) []))
  /\ lfind m' (po_nopoles c) = Some (LPts (mkCloud (cl_cls src) [])).
Proof.
  intros ord c m src HO H W R HF G ND F1 F2 AP MP PO.
  destruct (C156_outputs_cover_judged ord c m src HO H W R) as (m' & a & b & E1 & E2 & E3 & E4 & _);
    [lra|exact HF|exact ND|exact F1|exact F2|].
  exists m'. split; [exact E1|].
  assert (a ++ b = []) as Z.
  { apply Permutation_nil. symmetry. rewrite E4.
    assert (forall k, (List.length (members (po_grid c) (cl_pts src) k) <= 1)%nat) as L.
    { intro k. unfold members. revert AP PO. generalize (cl_pts src). induction l as [|p l IH]; intros AP PO; [cbn; lia|].
      apply Forall_cons_iff in PO as [PP PO]. cbn [filter].
      assert (all_apart (po_grid c) l) as AP'.
      { intros i j Hij. apply (AP (S i) (S j)). cbn. lia. }
      specialize (IH AP' PO). destruct (cell_eqb (column (po_grid c) p) k) eqn:EK; [|exact IH].
      apply cell_eqb_eq in EK. cbn [List.length].
      destruct (filter (fun p => cell_eqb (column (po_grid c) p) k) l) as [|q t] eqn:EF; [cbn; lia|exfalso].
      assert (In q (q :: t)) as Hq by (left; reflexivity). rewrite <- EF in Hq. apply filter_In in Hq as [Q1 Q2].
      apply cell_eqb_eq in Q2. rewrite <- EK in Q2. injection Q2 as X Y.
      rewrite Forall_forall in PO. destruct (PO q Q1) as [QX QY]. destruct PP as [PX PY].
      apply (In_nth _ _ pt0) in Q1 as [j [J1 J2]].
      assert (apart (po_grid c) p q) as A.
      { rewrite <- J2. apply (AP 0%nat (S j)). cbn. lia. }
      pose proof (same_cell_near _ _ _ G PX QX (eq_sym X)). pose proof (same_cell_near _ _ _ G QX PX X).
      pose proof (same_cell_near _ _ _ G PY QY (eq_sym Y)). pose proof (same_cell_near _ _ _ G QY PY Y).
      unfold apart in A. lra. }
    rewrite (filter_ext _ (fun _ => false)).
    - clear. induction (cl_pts src); [constructor|exact IHl].
    - intro p. apply Nat.leb_gt. specialize (L (column (po_grid c) p)). lia. }
  apply app_eq_nil in Z as [-> ->]. auto.
Qed.
Print Assumptions C157_columns_bounded_positive.

(** C158: the filter never has undefined behaviour.  False: far points or a tiny or zero
    grid_size make the column number overflow 32 bits. *)
Definition C158_no_ub : Prop := forall ord c m src,
  (forall g, Permutation (ord g) g) ->
  lfind m (po_in c) = Some (LPts src) -> wf_cloud src -> 0 < po_grid c ->
  snd (filter_pole ord c m) <> Undef.
Theorem C158_no_ub_refuted : ~ C158_no_ub.
Proof.
  intro H. apply (H (fun g => g) (mkPole "in" "poles" "rest" (1#1000000) 3 25 2 3 true)
                    [("in", LPts (mkCloud xyz [zp 3000 0 0]))] (mkCloud xyz [zp 3000 0 0])).
  - intro; reflexivity.
  - reflexivity.
  - unfold wf_cloud. cbn. constructor; [unfold pt_of_class; cbn; intuition congruence|constructor].
  - reflexivity.
  - vm_compute. reflexivity.
Qed.
Print Assumptions C158_no_ub_refuted.

(** Exactly when: some point's column number is not strictly inside the 32-bit range, or
    grid_size is zero and there is a point. *)
Lemma to_int32_val res x t : to_int32 res x = Some t -> t = towards_zero (x / res).
Proof.
  unfold to_int32. destruct (Qeq_bool res 0); [discriminate|]. rewrite quot_towards_zero.
  destruct (_ && _)%bool; [congruence|discriminate].
Qed.
Lemma xy_val res p k : xy_to_index res p = Some k -> k = column res p.
Proof.
  unfold xy_to_index, column. destruct (to_int32 res (px p)) eqn:A; [|discriminate].
  destruct (to_int32 res (py p)) eqn:B; [|discriminate]. intro H. injection H as <-.
  rewrite (to_int32_val _ _ _ A), (to_int32_val _ _ _ B). reflexivity.
Qed.
Lemma to_int32_range res x t : to_int32 res x = Some t -> (-2147483648 <= t <= 2147483647)%Z.
Proof.
  unfold to_int32. destruct (Qeq_bool res 0); [discriminate|].
  cbv zeta. generalize (Z.quot (Qnum (x / res)) (Z.pos (Qden (x / res)))). intro z.
  destruct (_ && _)%bool eqn:E; [|discriminate]. intro H. injection H as <-.
  apply andb_true_iff in E as [E1 E2]. apply Z.leb_le in E1, E2. split; assumption.
Qed.
Lemma build_keys res l : forall i g g', build_grid res l i g = Some g' ->
  (forall k, In k (map fst g) -> In k (map fst g'))
  /\ (forall p, In p l -> In (column res p) (map fst g') /\ exists k, xy_to_index res p = Some k).
Proof.
  induction l as [|p l IH]; intros i g g' H; cbn [build_grid] in H.
  - injection H as <-. split; [auto|intros ? []].
  - destruct (xy_to_index res p) as [k|] eqn:E; [|discriminate]. pose proof (xy_val _ _ _ E) as K.
    destruct (IH _ _ _ H) as [A B].
    assert (forall x, In x (map fst g) \/ x = k -> In x (map fst (gadd g k (pz p) i))) as S.
    { intros x Hx. rewrite gadd_keys. destruct (gfind g k) as [v|] eqn:F.
      - destruct Hx as [Hx | ->]; [exact Hx|]. apply gfind_key in F. apply (in_map fst) in F. exact F.
      - apply in_or_app. destruct Hx as [Hx | ->]; [left; exact Hx|right; left; reflexivity]. }
    split; [intros x Hx; apply A, S; auto|].
    intros q [<-|Hq]; [|apply B, Hq]. split; [apply A, S; auto|eauto].
Qed.

Theorem C158_ub_exactly : forall ord c m src,
  (forall g, Permutation (ord g) g) ->
  lfind m (po_in c) = Some (LPts src) -> wf_cloud src -> po_realized c = true ->
  usable m (po_poles c) -> usable m (po_nopoles c) ->
  (snd (filter_pole ord c m) = Undef <->
   exists p, In p (cl_pts src) /\ (po_grid c == 0 \/ ~ column_in_range (po_grid c) p)).
Proof.
  intros ord c m src HO H W R U1 U2. split.
  - intro E.
    assert ((exists p, In p (cl_pts src) /\ (po_grid c == 0 \/ ~ column_in_range (po_grid c) p))
            \/ (cl_pts src = [] \/ (~ po_grid c == 0 /\ Forall (column_in_range (po_grid c)) (cl_pts src)))) as [X|X].
    { destruct (Qeq_dec (po_grid c) 0) as [Z|Z].
      - destruct (cl_pts src) as [|p l]; [right; auto|]. left. exists p. split; [left; reflexivity|auto].
      - assert (forall p, column_in_range (po_grid c) p \/ ~ column_in_range (po_grid c) p) as D.
        { intro p. unfold column_in_range. generalize (fst (column (po_grid c) p)) (snd (column (po_grid c) p)).
          intros a b. destruct (Z_lt_dec (-2147483648) a), (Z_lt_dec a 2147483647), (Z_lt_dec (-2147483648) b),
            (Z_lt_dec b 2147483647); tauto. }
        clear - D Z. induction (cl_pts src) as [|p l IH]; [right; auto|].
        destruct (D p) as [P|P]; [|left; exists p; split; [left; reflexivity|auto]].
        destruct IH as [(q & A & B)|B]; [left; exists q; split; [right; exact A|exact B]|].
        right. right. split; [exact Z|]. constructor; [exact P|]. destruct B as [->|[_ B]]; [constructor|exact B]. }
    + exact X.
    + exfalso. destruct X as [X|[X1 X2]].
      * revert E. unfold filter_pole, bnd. rewrite R. cbn [massert]. unfold ret at 1.
        rewrite (input_ok _ _ _ H), (goc_usable _ _ _ U1), (goc_usable _ _ _ (usable_created _ _ _ _ U2)), X.
        cbn [build_grid existsb]. 
        assert (ord [] = []) as -> by (apply Permutation_nil; symmetry; apply HO). cbn. discriminate.
      * destruct (C155_pole_classes ord c m src HO H W R X1 X2 U1 U2) as (m' & d & cs & E1 & _).
        rewrite E1 in E. discriminate.
  - intros (p & Hp & B). unfold filter_pole, bnd. rewrite R. cbn [massert]. unfold ret at 1.
    rewrite (input_ok _ _ _ H), (goc_usable _ _ _ U1), (goc_usable _ _ _ (usable_created _ _ _ _ U2)).
    destruct (build_grid (po_grid c) (cl_pts src) 0 []) as [g|] eqn:E; [|reflexivity].
    destruct (build_keys _ _ _ _ _ E) as [_ K]. destruct (K p Hp) as [K1 [k K2]].
    destruct B as [B|B].
    { exfalso. apply Qeq_bool_iff in B. unfold xy_to_index, to_int32 in K2. rewrite B in K2. discriminate. }
    assert (existsb (fun kv => at_edge (fst kv)) g = true) as ->; [|reflexivity].
    apply in_map_iff in K1 as [kv [K1 K3]]. apply existsb_exists. exists kv. split; [exact K3|].
    rewrite K1. pose proof (xy_val _ _ _ K2) as V. unfold xy_to_index in K2.
    destruct (to_int32 (po_grid c) (px p)) eqn:A1; [|discriminate].
    destruct (to_int32 (po_grid c) (py p)) eqn:A2; [|discriminate].
    apply to_int32_range in A1, A2. injection K2 as K2. rewrite <- V in *. subst k. cbn [fst snd] in *.
    unfold column_in_range in B. rewrite <- V in B. cbn [fst snd] in B.
    unfold at_edge. cbn [fst snd]. rewrite !orb_true_iff, !Z.eqb_eq. rewrite <- K2 in *. cbn [fst snd] in *. lia.
Qed.
Print Assumptions C158_ub_exactly.
