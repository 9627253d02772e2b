(** C152-C154: FilterCurvature. *)
From Coq Require Import String Permutation Qabs Reals Qreals Lra.
From Verif Require Import Base FilterModel FilterSpec FilterProofs CurvModel CurvSpec CurvProofs.
Open Scope string_scope.
Open Scope Q_scope.
Open Scope list_scope.

(** C152. For a cloud with ring ids up to 4998: each ring is thinned by the clearance,
    each surviving point gets exactly one class from its two ring neighbours, and each
    output layer receives exactly the surviving points of its class(es), ring by ring in
    their order; nothing else changes. *)
Theorem C152_curvature_classes : forall c m src,
  lfind m (cv_in c) = Some (LPts src) -> wf_cloud src ->
  has_R (cl_cls src) = true -> cl_pts src <> [] ->
  Forall (fun p => (0 <= p_ring p <= 4998)%Z) (cl_pts src) ->
  usable m (cv_large c) -> usable m (cv_small c) -> usable m (cv_other c) ->
  (cv_large c <> "" \/ cv_small c <> "") ->
  exists m' acc kind,
    filter_curvature c m = (m', Val tt)
    /\ thinned (cv_min_clearance c) (cl_pts src) acc
    /\ (forall i, (i < List.length (cl_pts src))%nat -> acc i = true ->
          classified c (cl_pts src) acc i (kind i))
    /\ Received m m' (cl_cls src) [cv_large c; cv_small c; cv_other c]
         (fun n => map (pt_at (cl_pts src))
            (filter (fun i => String.eqb (kind_layer c (kind i)) n)
               (ring_by_ring (cl_pts src) acc 4999))).
Proof. exact curvature_spec. Qed.
Print Assumptions C152_curvature_classes.

(** The thinning is determined by the specification ... *)
Theorem C152_thinning_unique : forall cl pts acc acc',
  thinned cl pts acc -> thinned cl pts acc' ->
  forall i, (i < List.length pts)%nat -> acc i = acc' i.
Proof.
  intros cl pts acc acc' H H' i. induction i as [i IH] using (well_founded_induction lt_wf). intro Hi.
  assert (acc i = false <-> acc' i = false) as X.
  { rewrite (H i Hi), (H' i Hi). split; intros (j & A & B & C & D & E); exists j;
      (split; [exact A|]; split; [exact B|]).
    - rewrite <- IH by lia. split; [exact C|]. split; [|exact E].
      intros k Hk Hr. rewrite <- IH by lia. apply D; assumption.
    - rewrite IH by lia. split; [exact C|]. split; [|exact E].
      intros k Hk Hr. rewrite IH by lia. apply D; assumption. }
  destruct (acc i), (acc' i); try reflexivity; [destruct X as [_ X]|destruct X as [X _]];
    specialize (X eq_refl); discriminate.
Qed.
Print Assumptions C152_thinning_unique.

(** ... and so is the class of each survivor. *)
Lemma follows_fun_r l a b b' : NoDup l -> (2 < List.length l)%nat -> follows l a b -> follows l a b' -> b = b'.
Proof.
  intros ND L.
  assert (forall l1 l2 m, l = l1 ++ a :: b :: l2 -> l = b' :: m ++ [a] -> False) as X.
  { intros l1 l2 m E1 E2.
    assert (l1 ++ a :: b :: l2 = (b' :: m) ++ a :: []) as E by (rewrite <- E1, E2; reflexivity).
    rewrite E1 in ND.
    assert (b :: l2 = []) as Z; [|discriminate].
    assert (~ In a l1 /\ ~ In a (b :: l2)) as [N1 N2].
    { apply NoDup_remove_2 in ND. split; intro; apply ND; apply in_or_app; tauto. }
    assert (~ In a (b' :: m)) as N3.
    { rewrite <- E1, E2 in ND. change (b' :: m ++ [a]) with ((b' :: m) ++ [a]) in ND.
      apply NoDup_remove_2 in ND. rewrite app_nil_r in ND. exact ND. }
    clear - E N1 N2 N3. revert l1 E N1. induction (b' :: m) as [|x t IH]; intros [|y l1] E N1; cbn in E.
    - injection E as E. exact E.
    - injection E as -> E. destruct l1; discriminate.
    - injection E as -> _. exfalso. apply N3. left. reflexivity.
    - injection E as -> E. apply (IH (fun h => N3 (or_intror h)) l1 E). intro h. apply N1. right. exact h. }
  assert (forall l1 l2 m, l = l1 ++ a :: b' :: l2 -> l = b :: m ++ [a] -> False) as X'.
  { intros l1 l2 m E1 E2.
    assert (l1 ++ a :: b' :: l2 = (b :: m) ++ a :: []) as E by (rewrite <- E1, E2; reflexivity).
    rewrite E1 in ND.
    assert (b' :: l2 = []) as Z; [|discriminate].
    assert (~ In a l1 /\ ~ In a (b' :: l2)) as [N1 N2].
    { apply NoDup_remove_2 in ND. split; intro; apply ND; apply in_or_app; tauto. }
    assert (~ In a (b :: m)) as N3.
    { rewrite <- E1, E2 in ND. change (b :: m ++ [a]) with ((b :: m) ++ [a]) in ND.
      apply NoDup_remove_2 in ND. rewrite app_nil_r in ND. exact ND. }
    clear - E N1 N2 N3. revert l1 E N1. induction (b :: m) as [|x t IH]; intros [|y l1] E N1; cbn in E.
    - injection E as E. exact E.
    - injection E as -> E. destruct l1; discriminate.
    - injection E as -> _. exfalso. apply N3. left. reflexivity.
    - injection E as -> E. apply (IH (fun h => N3 (or_intror h)) l1 E). intro h. apply N1. right. exact h. }
  intros [(l1 & l2 & E1)|(l1 & E1)] [(l1' & l2' & E2)|(l1' & E2)].
  - rewrite E1 in E2, ND. clear - E2 ND. revert l1' E2. induction l1 as [|x t IH]; intros [|y t'] E; cbn in E.
    + congruence.
    + injection E as -> E. exfalso. cbn in ND. apply NoDup_cons_iff in ND as [N _]. apply N.
      rewrite E. apply in_or_app. right. left. reflexivity.
    + injection E as -> E. exfalso. cbn in ND. apply NoDup_cons_iff in ND as [N _]. apply N.
      apply in_or_app. right. left. reflexivity.
    + injection E as -> E. cbn in ND. apply NoDup_cons_iff in ND as [_ N]. exact (IH N t' E).
  - exfalso. eauto.
  - exfalso. eauto.
  - congruence.
Qed.

Lemma follows_rev l a b : follows l a b -> follows (rev l) b a.
Proof.
  intros [(l1 & l2 & E)|(l1 & E)]; subst l.
  - left. exists (rev l2), (rev l1). rewrite rev_app_distr. cbn. rewrite <- !app_assoc. reflexivity.
  - right. exists (rev l1). cbn. rewrite rev_app_distr. reflexivity.
Qed.

Theorem C152_class_unique : forall c pts acc i k k',
  classified c pts acc i k -> classified c pts acc i k' -> k = k'.
Proof.
  intros c pts acc i k k' H H'.
  destruct H as [L|h n k L F1 F2 K]; destruct H' as [L'|h' n' k' L' F1' F2' K'];
    try reflexivity; try (exfalso; lia).
  assert (n = n') as <-.
  { eapply follows_fun_r; [apply survivors_nodup| |exact F2|exact F2']. lia. }
  assert (h = h') as <-.
  { apply follows_rev in F1, F1'.
    eapply follows_fun_r; [apply NoDup_rev, survivors_nodup| |exact F1|exact F1'].
    rewrite rev_length. lia. }
  cbv zeta in K, K'. tauto || (destruct K as [K|[K|[K|K]]], K' as [K'|[K'|[K'|K']]];
    decompose [and] K; decompose [and] K'; congruence || (exfalso; tauto)).
Qed.
Print Assumptions C152_class_unique.

(** Three different new output layers: together they hold every surviving point once. *)
Lemma filter_split3 {A} (k : A -> Kind) (l : list A) (eqk : Kind -> Kind -> bool) :
  (forall a b, eqk a b = true <-> a = b) ->
  Permutation (filter (fun i => eqk (k i) Larger) l ++ filter (fun i => eqk (k i) Smaller) l
               ++ filter (fun i => eqk (k i) OtherKind) l) l.
Proof.
  intro E. induction l as [|x l IH]; [constructor|]. cbn [filter].
  assert (forall a b, eqk a b = false <-> a <> b) as E'.
  { intros a b. rewrite <- E. destruct (eqk a b); split; congruence. }
  destruct (k x) eqn:K.
  - rewrite (proj2 (E Larger Larger) eq_refl), (proj2 (E' Larger Smaller)), (proj2 (E' Larger OtherKind)) by discriminate.
    cbn. constructor. exact IH.
  - rewrite (proj2 (E Smaller Smaller) eq_refl), (proj2 (E' Smaller Larger)), (proj2 (E' Smaller OtherKind)) by discriminate.
    cbn. etransitivity; [symmetry; apply Permutation_middle|]. constructor. exact IH.
  - rewrite (proj2 (E OtherKind OtherKind) eq_refl), (proj2 (E' OtherKind Larger)), (proj2 (E' OtherKind Smaller)) by discriminate.
    rewrite app_assoc. etransitivity; [symmetry; apply Permutation_middle|]. constructor. rewrite <- app_assoc. exact IH.
Qed.

Lemma ring_by_ring_perm pts acc nr :
  (forall k, (k < List.length pts)%nat -> (ring_at pts k < nr)%nat) ->
  Permutation (ring_by_ring pts acc nr) (filter acc (seq 0 (List.length pts))).
Proof.
  intro H. unfold ring_by_ring.
  apply NoDup_Permutation.
  - clear H. assert (forall a n, NoDup (flat_map (survivors pts acc) (seq a n))) as X; [|apply X].
    intros a n. revert a. induction n as [|n IH]; intro a; [constructor|]. cbn [seq flat_map].
    rewrite <- (rev_involutive (survivors pts acc a)).
    assert (forall (l1 l2 : list nat), NoDup l1 -> NoDup l2 -> (forall x, In x l1 -> ~ In x l2) -> NoDup (l1 ++ l2)) as NA.
    { induction l1 as [|x l1 IHl]; intros l2 A B C; [exact B|]. cbn. apply NoDup_cons_iff in A as [A1 A2]. constructor.
      - rewrite in_app_iff. intros [D|D]; [contradiction|]. apply (C x); [left; reflexivity|exact D].
      - apply IHl; [exact A2|exact B|]. intros y Hy. apply C. right. exact Hy. }
    apply NA.
    + rewrite rev_involutive. apply survivors_nodup.
    + apply IH.
    + intros x Hx Hy. rewrite rev_involutive in Hx. apply survivors_in in Hx as (_ & _ & R1).
      apply in_flat_map in Hy as [r [Hr Hy]]. apply survivors_in in Hy as (_ & _ & R2).
      apply in_seq in Hr. lia.
  - apply NoDup_filter, seq_NoDup.
  - intro x. rewrite in_flat_map, filter_In, in_seq. split.
    + intros [r [_ Hx]]. apply survivors_in in Hx as (A & B & _). split; [lia|exact B].
    + intros [A B]. exists (ring_at pts x). split; [|apply survivors_in; split; [lia|auto]].
      apply in_seq. specialize (H x ltac:(lia)). lia.
Qed.

Theorem C152_partition : forall c m src,
  lfind m (cv_in c) = Some (LPts src) -> wf_cloud src ->
  has_R (cl_cls src) = true -> cl_pts src <> [] ->
  Forall (fun p => (0 <= p_ring p <= 4998)%Z) (cl_pts src) ->
  NoDup [cv_large c; cv_small c; cv_other c; ""] ->
  lfind m (cv_large c) = None -> lfind m (cv_small c) = None -> lfind m (cv_other c) = None ->
  exists m' acc a b d,
    filter_curvature c m = (m', Val tt)
    /\ thinned (cv_min_clearance c) (cl_pts src) acc
    /\ lfind m' (cv_large c) = Some (LPts (mkCloud (cl_cls src) a))
    /\ lfind m' (cv_small c) = Some (LPts (mkCloud (cl_cls src) b))
    /\ lfind m' (cv_other c) = Some (LPts (mkCloud (cl_cls src) d))
    /\ Permutation (a ++ b ++ d)
         (map (pt_at (cl_pts src)) (filter acc (seq 0 (List.length (cl_pts src)))))
    /\ lfind m' (cv_in c) = Some (LPts src).
Proof.
  intros c m src H W HR NE RG ND F1 F2 F3.
  assert (cv_large c <> cv_small c /\ cv_large c <> cv_other c /\ cv_small c <> cv_other c
          /\ cv_large c <> "" /\ cv_small c <> "" /\ cv_other c <> "") as (D1 & D2 & D3 & D4 & D5 & D6).
  { apply NoDup_cons_iff in ND as [N1 ND]. apply NoDup_cons_iff in ND as [N2 ND].
    apply NoDup_cons_iff in ND as [N3 _]. cbn in N1, N2, N3.
    split; [intro; apply N1; auto|]. split; [intro; apply N1; auto|]. split; [intro; apply N2; auto|].
    split; [intro; apply N1; auto|]. split; [intro; apply N2; auto|]. intro; apply N3; auto. }
  destruct (C152_curvature_classes c m src H W HR NE RG) as (m' & acc & kind & E1 & E2 & _ & E4).
  - right; left; exact F1.
  - right; left; exact F2.
  - right; left; exact F3.
  - left; exact D4.
  - exists m', acc. do 3 eexists. split; [exact E1|]. split; [exact E2|].
    pose proof (proj1 (E4 (cv_large c))) as G1. pose proof (proj1 (E4 (cv_small c))) as G2.
    pose proof (proj1 (E4 (cv_other c))) as G3. cbv beta in G1, G2, G3.
    rewrite F1 in G1. rewrite F2 in G2. rewrite F3 in G3.
    split; [apply G1; split; [left; reflexivity|exact D4]|].
    split; [apply G2; split; [right; left; reflexivity|exact D5]|].
    split; [apply G3; split; [right; right; left; reflexivity|exact D6]|]. split.
    + rewrite <- !map_app. apply Permutation_map.
      etransitivity; [|apply (ring_by_ring_perm (cl_pts src) acc 4999)].
      2:{ intros k Hk. rewrite Forall_forall in RG. specialize (RG (pt_at (cl_pts src) k) (nth_In _ _ Hk)).
          unfold ring_at. pose proof (proj1 (Z2Nat.inj_le (p_ring (pt_at (cl_pts src) k)) 4998 ltac:(lia) ltac:(lia)) ltac:(lia)) as X.
          change (Z.to_nat 4998) with 4998%nat in X. lia. }
      pose (eqk := fun a b : Kind => match a, b with Larger, Larger | Smaller, Smaller | OtherKind, OtherKind => true | _, _ => false end).
      assert (forall a b, eqk a b = true <-> a = b) as EK by (intros [] []; cbn; split; congruence).
      assert (forall k, (kind_layer c k =? cv_large c)%string = eqk k Larger) as K1
        by (intros []; cbn; [apply seqb_refl|apply seqb_neq; congruence|apply seqb_neq; congruence]).
      assert (forall k, (kind_layer c k =? cv_small c)%string = eqk k Smaller) as K2
        by (intros []; cbn; [apply seqb_neq; congruence|apply seqb_refl|apply seqb_neq; congruence]).
      assert (forall k, (kind_layer c k =? cv_other c)%string = eqk k OtherKind) as K3
        by (intros []; cbn; [apply seqb_neq; congruence|apply seqb_neq; congruence|apply seqb_refl]).
      rewrite (filter_ext _ _ (fun i => K1 (kind i))), (filter_ext _ _ (fun i => K2 (kind i))),
        (filter_ext _ _ (fun i => K3 (kind i))).
      apply (filter_split3 kind _ eqk EK).
    + destruct (E4 (cv_in c)) as [_ G4]. rewrite H in G4. apply G4. left.
      intros [X|[X|[X|[]]]]; rewrite X in *; congruence.
Qed.
Print Assumptions C152_partition.

(** The other outcomes: everything the filter refuses. *)
Theorem C152_rejects : forall c m,
  (~ exists src, lfind m (cv_in c) = Some (LPts src)) ->
  snd (filter_curvature c m) = Exc.
Proof.
  intros c m H. unfold filter_curvature, bnd, input_layer, point_layer, bnd.
  destruct (lfind m (cv_in c)) as [[d|x|]|]; try reflexivity. exfalso. apply H. eauto.
Qed.
Theorem C152_rejects_channel : forall c m src,
  lfind m (cv_in c) = Some (LPts src) ->
  usable m (cv_large c) -> usable m (cv_small c) -> usable m (cv_other c) ->
  (cv_large c = "" /\ cv_small c = "") \/ has_R (cl_cls src) = false \/ cl_pts src = [] ->
  snd (filter_curvature c m) = Exc.
Proof.
  intros c m src H U1 U2 U3 B. unfold filter_curvature, bnd, input_layer, point_layer, bnd.
  rewrite H. unfold ret. rewrite (goc_usable _ _ _ U1).
  rewrite (goc_usable _ _ _ (usable_created _ _ _ _ U2)), created_app.
  rewrite (goc_usable _ _ _ (usable_created _ _ _ _ U3)), created_app.
  destruct B as [[B1 B2]|B].
  - rewrite B1, B2. reflexivity.
  - destruct (_ || _); [|reflexivity]. cbn [massert]. unfold ret.
    assert (channel_ok (has_R (cl_cls src)) src = false) as ->; [|reflexivity].
    unfold channel_ok. destruct B as [B|B]; rewrite B; [reflexivity|apply andb_false_r].
Qed.
Print Assumptions C152_rejects_channel.

(** ** A concrete cloud: one ring with a corner and a jump, and a short ring. *)
Definition xyzr : Cls := mkCls "mrpt::maps::CPointsMapXYZIRT" true true true.
Definition kp (x y : Q) (r : Z) : Pt := mkPt x y 0 0 r 0.
Definition kcloud : Cloud := mkCloud xyzr
  [kp 1 0 0; kp 1 (1#100) 0; kp 1 1 0; kp 0 1 0; kp (-1) 1 0; kp (-1) 9 0; kp (-2) 9 0; kp 5 5 2].
Definition kcfg : CurvCfg := mkCv "in" "large" "small" "other" (1#2) (1#10) 3.
Definition kmap : Layers := [("in", LPts kcloud)].
Example C152_ex :
  match filter_curvature kcfg kmap with
  | (m', Val tt) =>
      lfind m' "large" = Some (LPts (mkCloud xyzr [kp 1 0 0; kp 1 1 0; kp 5 5 2])) /\
      lfind m' "small" = Some (LPts (mkCloud xyzr [kp 0 1 0])) /\
      lfind m' "other" = Some (LPts (mkCloud xyzr [kp (-1) 1 0; kp (-1) 9 0; kp (-2) 9 0]))
  | _ => False end.
Proof. vm_compute. repeat split; reflexivity. Qed.
Example C152_ex_hyps :
  lfind kmap (cv_in kcfg) = Some (LPts kcloud) /\ wf_cloud kcloud /\ has_R (cl_cls kcloud) = true
  /\ cl_pts kcloud <> [] /\ Forall (fun p => (0 <= p_ring p <= 4998)%Z) (cl_pts kcloud)
  /\ NoDup [cv_large kcfg; cv_small kcfg; cv_other kcfg; ""].
Proof.
  split; [reflexivity|]. split.
  { unfold wf_cloud. cbn. repeat (constructor; [unfold pt_of_class; cbn; intuition congruence|]). constructor. }
  split; [reflexivity|]. split; [discriminate|]. split.
  { cbn. repeat (constructor; [cbn; lia|]). constructor. }
  cbn. repeat (constructor; [cbn; intuition congruence|]). constructor.
Qed.

(** C153: every cloud with 16-bit ring ids is either processed or refused with an
    exception.  False: with ring id 65535 the code divides by zero. *)
Definition C153_no_ub : Prop := forall c m src,
  lfind m (cv_in c) = Some (LPts src) -> wf_cloud src -> rings_u16 (cl_pts src) ->
  snd (filter_curvature c m) <> Undef.
Theorem C153_no_ub_refuted : ~ C153_no_ub.
Proof.
  intro H. apply (H kcfg [("in", LPts (mkCloud xyzr [kp 1 2 65535]))] (mkCloud xyzr [kp 1 2 65535])).
  - reflexivity.
  - unfold wf_cloud. cbn. constructor; [unfold pt_of_class; cbn; intuition congruence|constructor].
  - constructor; [cbn; lia|constructor].
  - vm_compute. reflexivity.
Qed.
Print Assumptions C153_no_ub_refuted.

(** What does hold: for all other 16-bit ring ids. *)
Theorem C153_no_ub_below_65535 : forall c m src,
  lfind m (cv_in c) = Some (LPts src) -> wf_cloud src ->
  Forall (fun p => (0 <= p_ring p < 65535)%Z) (cl_pts src) ->
  usable m (cv_large c) -> usable m (cv_small c) -> usable m (cv_other c) ->
  snd (filter_curvature c m) = Val tt \/ snd (filter_curvature c m) = Exc.
Proof.
  intros c m src H W RU U1 U2 U3.
  assert (max_ring (cl_pts src) < 65535)%Z as HM.
  { apply (Z.le_lt_trans _ 65534); [|lia]. apply max_ring_le; [lia|].
    eapply Forall_impl; [|exact RU]. intros p Hp. cbn in Hp. lia. }
  destruct (has_R (cl_cls src)) eqn:HR.
  2:{ rewrite (C152_rejects_channel c m src H U1 U2 U3) by tauto. tauto. }
  destruct (cl_pts src) as [|p0 ps] eqn:EP.
  { rewrite (C152_rejects_channel c m src H U1 U2 U3) by tauto. tauto. }
  rewrite <- EP in *.
  destruct (string_dec (cv_large c) "") as [L1|L1]; [destruct (string_dec (cv_small c) "") as [L2|L2]|].
  { rewrite (C152_rejects_channel c m src H U1 U2 U3) by tauto. tauto. }
  all: destruct (Z_le_gt_dec (max_ring (cl_pts src)) 4998) as [M|M].
  1,3: destruct (C152_curvature_classes c m src H W HR) as (m' & acc & k & E & _);
    [rewrite EP; discriminate
    |apply Forall_forall; intros p Hp; pose proof (max_ring_ge _ _ Hp);
     rewrite Forall_forall in RU; specialize (RU p Hp); lia
    |exact U1|exact U2|exact U3|tauto|rewrite E; left; reflexivity].
  all: right; unfold filter_curvature, bnd, input_layer, point_layer, bnd; rewrite H; unfold ret;
    rewrite (goc_usable _ _ _ U1), (goc_usable _ _ _ (usable_created _ _ _ _ U2)), created_app,
      (goc_usable _ _ _ (usable_created _ _ _ _ U3)), created_app;
    destruct (_ || _); [|reflexivity]; cbn [massert]; unfold ret;
    destruct (channel_ok _ _); [|reflexivity]; cbn [massert]; unfold ret; cbv zeta;
    assert (n_rings (cl_pts src) = Z.to_nat (1 + max_ring (cl_pts src))) as EN
      by (unfold n_rings; rewrite Z.mod_small by lia; reflexivity);
    assert ((n_rings (cl_pts src) =? 0)%nat = false) as -> by (apply Nat.eqb_neq; lia);
    assert ((n_rings (cl_pts src) <? 5000)%nat = false) as ->
      by (apply Nat.ltb_ge; rewrite EN;
          pose proof (proj1 (Z2Nat.inj_le 5000 (1 + max_ring (cl_pts src)) ltac:(lia) ltac:(lia)) ltac:(lia)) as X;
          change (Z.to_nat 5000) with 5000%nat in X; exact X);
    reflexivity.
Qed.
Print Assumptions C153_no_ub_below_65535.

(** C154: a point next to a gap, nearer to the sensor than the point across the gap, is
    a border of the near object and goes to the larger-curvature output.  False when the
    gap is after the point: the code only compares with the point before it. *)
Definition C154_near_border : Prop := forall c m src m' acc i n,
  lfind m (cv_in c) = Some (LPts src) -> wf_cloud src ->
  Forall (fun p => (0 <= p_ring p <= 4998)%Z) (cl_pts src) ->
  NoDup [cv_large c; cv_small c; cv_other c; ""] ->
  lfind m (cv_large c) = None -> lfind m (cv_small c) = None -> lfind m (cv_other c) = None ->
  filter_curvature c m = (m', Val tt) ->
  thinned (cv_min_clearance c) (cl_pts src) acc ->
  (i < List.length (cl_pts src))%nat -> acc i = true ->
  (3 < List.length (survivors (cl_pts src) acc (ring_at (cl_pts src) i)))%nat ->
  (follows (survivors (cl_pts src) acc (ring_at (cl_pts src) i)) i n
   \/ follows (survivors (cl_pts src) acc (ring_at (cl_pts src) i)) n i) ->
  gap c (pt_at (cl_pts src) i) (pt_at (cl_pts src) n) ->
  (rdist (pt_at (cl_pts src) i) origin < rdist (pt_at (cl_pts src) n) origin)%R ->
  exists l, lfind m' (cv_large c) = Some (LPts l) /\ In (pt_at (cl_pts src) i) (cl_pts l).

Definition kacc (i : nat) : bool := negb (Nat.eqb i 1).
Example C152_ex_thinned : thinned (cv_min_clearance kcfg) (cl_pts kcloud) kacc.
Proof.
  intros i Hi. cbn in Hi. split.
  - intro H. unfold kacc in H. apply negb_false_iff, Nat.eqb_eq in H. subst i.
    exists 0%nat. split; [lia|]. split; [reflexivity|]. split; [reflexivity|]. split; [intros; lia|].
    vm_compute. auto.
  - intros (j & A & B & C & D & (E1 & E2 & E3)). destruct (kacc i) eqn:K; [exfalso|reflexivity].
    do 8 (destruct i as [|i]; [do 8 (destruct j as [|j];
       [try lia; try discriminate B; try discriminate C; try discriminate K;
        vm_compute in E1, E2, E3; discriminate|]); lia|]).
    lia.
Qed.

Theorem C154_near_border_refuted : ~ C154_near_border.
Proof.
  intro H.
  destruct C152_ex_hyps as (A1 & A2 & A3 & A4 & A5 & A6).
  destruct (filter_curvature kcfg kmap) as [m' o] eqn:E.
  assert (o = Val tt) as -> by (change o with (snd (m', o)); rewrite <- E; vm_compute; reflexivity).
  destruct (H kcfg kmap kcloud m' kacc 4%nat 5%nat A1 A2 A5 A6 eq_refl eq_refl eq_refl E C152_ex_thinned)
    as (l & L1 & L2).
  - cbn. lia.
  - reflexivity.
  - vm_compute. lia.
  - left. left. exists [0; 2; 3]%nat, [6]%nat. reflexivity.
  - apply gap_iff. reflexivity.
  - apply nearer_iff. reflexivity.
  - assert (lfind m' "large" = Some (LPts (mkCloud xyzr [kp 1 0 0; kp 1 1 0; kp 5 5 2]))) as X.
    { change m' with (fst (m', Val tt)). rewrite <- E. vm_compute. reflexivity. }
    change (cv_large kcfg) with "large" in L1. rewrite X in L1. injection L1 as <-.
    cbn in L2. destruct L2 as [L2|[L2|[L2|[]]]]; discriminate.
Qed.
Print Assumptions C154_near_border_refuted.

(** What the code does instead: a border is judged by the point before it only. *)
Theorem C154_near_border_judged_by_previous : forall c m src,
  lfind m (cv_in c) = Some (LPts src) -> wf_cloud src ->
  has_R (cl_cls src) = true -> cl_pts src <> [] ->
  Forall (fun p => (0 <= p_ring p <= 4998)%Z) (cl_pts src) ->
  NoDup [cv_large c; cv_small c; cv_other c; ""] ->
  lfind m (cv_large c) = None -> lfind m (cv_small c) = None -> lfind m (cv_other c) = None ->
  exists m' acc, filter_curvature c m = (m', Val tt)
    /\ thinned (cv_min_clearance c) (cl_pts src) acc
    /\ forall i h,
      (i < List.length (cl_pts src))%nat -> acc i = true ->
      (3 < List.length (survivors (cl_pts src) acc (ring_at (cl_pts src) i)))%nat ->
      follows (survivors (cl_pts src) acc (ring_at (cl_pts src) i)) h i ->
      gap c (pt_at (cl_pts src) i) (pt_at (cl_pts src) h) ->
      (rdist (pt_at (cl_pts src) i) origin < rdist (pt_at (cl_pts src) h) origin)%R ->
      exists l, lfind m' (cv_large c) = Some (LPts l) /\ In (pt_at (cl_pts src) i) (cl_pts l).
Proof.
  intros c m src H W HR NE RG ND F1 F2 F3.
  assert (cv_large c <> "") as D4.
  { apply NoDup_cons_iff in ND as [N1 _]. intro X. apply N1. rewrite X. cbn. auto. }
  destruct (C152_curvature_classes c m src H W HR NE RG) as (m' & acc & kind & E1 & E2 & E3 & E4);
    [right; left; exact F1|right; left; exact F2|right; left; exact F3|left; exact D4|].
  exists m', acc. split; [exact E1|]. split; [exact E2|]. intros i h Hi Ha HL HF HG HD.
  destruct (E4 (cv_large c)) as [G _]. rewrite F1 in G.
  eexists. split; [apply G; split; [left; reflexivity|exact D4]|]. cbn [cl_pts].
  apply in_map. apply filter_In. split.
  - apply in_flat_map. exists (ring_at (cl_pts src) i). split.
    + apply in_seq. rewrite Forall_forall in RG. specialize (RG (pt_at (cl_pts src) i) (nth_In _ _ Hi)).
      unfold ring_at. pose proof (proj1 (Z2Nat.inj_le (p_ring (pt_at (cl_pts src) i)) 4998 ltac:(lia) ltac:(lia)) ltac:(lia)) as X.
      change (Z.to_nat 4998) with 4998%nat in X. lia.
    + apply survivors_in. auto.
  - pose proof (E3 i Hi Ha) as K. assert (classified c (cl_pts src) acc i Larger) as K'.
    { destruct K as [K|h' n k L1 L2 L3 _]; [apply cl_few; exact K|].
      eapply cl_regular; [exact HL|exact HF|exact L3|]. left. auto. }
    rewrite (C152_class_unique _ _ _ _ _ _ K K'). apply seqb_refl.
Qed.
Print Assumptions C154_near_border_judged_by_previous.
