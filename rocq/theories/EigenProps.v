(** Theorems about estimate_points_eigen(). *)
From Verif Require Import Base PairingsModel MatcherModel BitfieldModel PointMatcherModel PointMatcherProofs
  PointMatcherProofs2 FeatModel EigenSpec.
From Coq Require Import Lqa Permutation.

Lemma sum_ext f g pts : (forall p, In p pts -> f p == g p)%Q -> (sum_of f pts == sum_of g pts)%Q.
Proof.
  intro H. induction pts as [|p pts IH]; [reflexivity|]. cbn. rewrite (H p (or_introl eq_refl)).
  rewrite IH by (intros; apply H; right; assumption). reflexivity.
Qed.
Lemma sum_map f g pts : sum_of f (map g pts) = sum_of (fun p => f (g p)) pts.
Proof. induction pts as [|p pts IH]; [reflexivity|]. cbn. rewrite IH. reflexivity. Qed.
Lemma sum_perm f a b : Permutation a b -> (sum_of f a == sum_of f b)%Q.
Proof. induction 1; cbn; [reflexivity|rewrite IHPermutation; reflexivity|ring|etransitivity; eassumption]. Qed.
Lemma sum_add f g pts : (sum_of (fun p => f p + g p) pts == sum_of f pts + sum_of g pts)%Q.
Proof. induction pts as [|p pts IH]; cbn; [ring|]. rewrite IH. ring. Qed.
Lemma sum_scale k f pts : (sum_of (fun p => k * f p) pts == k * sum_of f pts)%Q.
Proof. induction pts as [|p pts IH]; cbn; [ring|]. rewrite IH. ring. Qed.
Lemma sum_nonneg f pts : (forall p, 0 <= f p)%Q -> (0 <= sum_of f pts)%Q.
Proof. intro H. induction pts as [|p pts IH]; cbn; [lra|]. specialize (H p). lra. Qed.
Lemma sum_const k pts : (sum_of (fun _ => k) pts == k * count_of pts)%Q.
Proof.
  unfold count_of. induction pts as [|p pts IH]; cbn [sum_of length]; [change (inject_Z (Z.of_nat 0)) with 0%Q; ring|].
  rewrite IH, Nat2Z.inj_succ, <- Z.add_1_r, inject_Z_plus. change (inject_Z 1) with 1%Q. ring.
Qed.
Lemma count_pos pts : pts <> [] -> (0 < count_of pts)%Q.
Proof. intro H. unfold count_of. change 0%Q with (inject_Z 0). rewrite <- Zlt_Qlt. destruct pts; [congruence|cbn [length]; lia]. Qed.

Open Scope Q_scope.
Lemma fold_mean pts : forall acc,
  same_p3 (fold_left p3add pts acc) (mkP3 (px acc + sum_of px pts) (py acc + sum_of py pts) (pz acc + sum_of pz pts)).
Proof.
  unfold same_p3. induction pts as [|p pts IH]; intro acc; cbn [fold_left px py pz].
  - cbn. repeat split; ring.
  - destruct (IH (p3add acc p)) as [A [B C]]. rewrite A, B, C. cbn. repeat split; ring.
Qed.
Lemma fold_cov m pts : forall acc,
  same_sym (fold_left (fun a p => sym_add a (p3sub p m)) pts acc)
    (mkSym (s00 acc + sum_of (fun p => (px p - px m) * (px p - px m)) pts)
           (s10 acc + sum_of (fun p => (px p - px m) * (py p - py m)) pts)
           (s20 acc + sum_of (fun p => (px p - px m) * (pz p - pz m)) pts)
           (s11 acc + sum_of (fun p => (py p - py m) * (py p - py m)) pts)
           (s21 acc + sum_of (fun p => (py p - py m) * (pz p - pz m)) pts)
           (s22 acc + sum_of (fun p => (pz p - pz m) * (pz p - pz m)) pts)).
Proof.
  unfold same_sym. induction pts as [|p pts IH]; intro acc; cbn [fold_left s00 s10 s20 s11 s21 s22].
  - cbn. repeat match goal with |- _ /\ _ => split end; ring.
  - destruct (IH (sym_add acc (p3sub p m))) as [A [B [C [D [E F]]]]]. rewrite A, B, C, D, E, F. cbn.
    repeat match goal with |- _ /\ _ => split end; ring.
Qed.

Lemma eigen_of_spec eig pts : is_mean_and_cov (eigen_of eig pts) pts.
Proof.
  unfold eigen_of, is_mean_and_cov. cbn [eg_mean eg_cov].
  set (k := (1 / inject_Z (Z.of_nat (length pts)))%Q).
  set (m := p3scale k (fold_left p3add pts (mkP3 0 0 0))).
  assert (M : same_p3 m (mkP3 (mean_of px pts) (mean_of py pts) (mean_of pz pts))).
  { destruct (fold_mean pts (mkP3 0 0 0)) as [A [B C]]. unfold same_p3, m, p3scale. cbn [px py pz] in *. rewrite A, B, C.
    unfold mean_of, k, count_of, Qdiv. repeat match goal with |- _ /\ _ => split end; ring. }
  destruct M as [M1 [M2 M3]]. cbn [px py pz] in *.
  split; [exact M1|]. split; [exact M2|]. split; [exact M3|].
  destruct (fold_cov m pts (mkSym 0 0 0 0 0 0)) as [A [B [C [D [E F]]]]]. cbn [s00 s10 s20 s11 s21 s22] in *.
  unfold sym_scale. cbn [s00 s10 s20 s11 s21 s22]. rewrite A, B, C, D, E, F.
  unfold cov_of. repeat match goal with |- _ /\ _ => split end; (match goal with |- (_ == mean_of ?f pts)%Q => unfold mean_of at 1 end);
  rewrite Qplus_0_l; unfold k, count_of, Qdiv; rewrite Qmult_1_l; apply Qmult_comp; try reflexivity;
  apply sum_ext; intros p _; rewrite ?M1, ?M2, ?M3; reflexivity.
Qed.

(** ** C151 *)
(** With three points or more it returns the mean and covariance of the first [n] points, and the spectrum of that
    covariance; with less it throws. *)
Theorem C151_mean_and_covariance : forall eig xs n,
  (n <= length xs)%nat ->
  match estimate_total eig xs n with
  | Ok e => (3 <= n)%nat /\ is_mean_and_cov e (firstn n xs) /\ eg_spec e = eig (eg_cov e)
  | Throw => (n < 3)%nat
  | UB => False
  end.
Proof.
  intros eig xs n H. unfold estimate_total. destruct (Nat.ltb_spec n 3); [exact H0|].
  destruct (Nat.ltb_spec (length xs) n); [lia|]. split; [exact H0|]. split; [apply eigen_of_spec|reflexivity].
Qed.
Print Assumptions C151_mean_and_covariance.

(** With a list of indices it does the same for the points they select, in that order; an index out of range is read
    without a check. *)
Theorem C151_by_indices : forall eig xs idxs,
  match estimate_indices eig xs idxs with
  | Ok e => (3 <= length idxs)%nat /\ exists pts, map (nth_error xs) idxs = map Some pts
              /\ is_mean_and_cov e pts /\ estimate_total eig pts (length pts) = Ok e
  | Throw => (length idxs < 3)%nat
  | UB => (3 <= length idxs)%nat /\ exists i, In i idxs /\ (length xs <= i)%nat
  end.
Proof.
  intros eig xs idxs. unfold estimate_indices. destruct (Nat.ltb_spec (length idxs) 3) as [H|H]; [exact H|].
  destruct (gather xs idxs) as [pts| |] eqn:E; cbn [rbind].
  - pose proof (gather_spec _ _ _ E) as G. split; [exact H|]. exists pts. split; [symmetry; exact G|]. split; [apply eigen_of_spec|].
    assert (L : length pts = length idxs). { apply (f_equal (@length _)) in G. rewrite !map_length in G. exact G. }
    unfold estimate_total. rewrite Nat.ltb_irrefl, firstn_all. destruct (Nat.ltb_spec (length pts) 3); [lia|reflexivity].
  - exfalso. clear H. revert E. induction idxs as [|i idxs IH]; cbn; [discriminate|]. destruct (nth_error xs i); [|discriminate].
    destruct (gather xs idxs); cbn; try discriminate. intros _. apply IH. reflexivity.
  - split; [exact H|]. clear H. revert E. induction idxs as [|i idxs IH]; cbn; [discriminate|].
    destruct (nth_error xs i) eqn:Ei.
    + destruct (gather xs idxs); cbn; try discriminate. intros _. destruct IH as [j [A B]]; [reflexivity|]. exists j. auto.
    + intros _. exists i. split; [left; reflexivity|]. apply nth_error_None. exact Ei.
Qed.
Print Assumptions C151_by_indices.

(** The covariance is positive semi-definite and does not depend on where the origin is; neither it nor the mean
    depends on the order of the points. *)
Theorem C151_covariance_laws : forall eig pts,
  (forall v, 0 <= quadratic (eg_cov (eigen_of eig pts)) v)%Q
  /\ (forall t, pts <> [] -> same_sym (eg_cov (eigen_of eig (map (p3add t) pts))) (eg_cov (eigen_of eig pts))
        /\ same_p3 (eg_mean (eigen_of eig (map (p3add t) pts))) (p3add t (eg_mean (eigen_of eig pts))))
  /\ (forall pts', Permutation pts pts' -> same_sym (eg_cov (eigen_of eig pts)) (eg_cov (eigen_of eig pts'))
        /\ same_p3 (eg_mean (eigen_of eig pts)) (eg_mean (eigen_of eig pts'))).
Proof.
  intros eig pts. pose proof (eigen_of_spec eig pts) as [S1 [S2 [S3 [C1 [C2 [C3 [C4 [C5 C6]]]]]]]].
  split; [|split].
  - intro v. unfold quadratic. rewrite C1, C2, C3, C4, C5, C6. unfold cov_of.
    set (mx := mean_of px pts). set (my := mean_of py pts). set (mz := mean_of pz pts).
    set (lin := fun p => (px v * (px p - mx) + py v * (py p - my) + pz v * (pz p - mz))%Q).
    assert (E : (mean_of (fun p => lin p * lin p) pts ==
      mean_of (fun p => (px p - mx) * (px p - mx)) pts * px v * px v
      + mean_of (fun p => (py p - my) * (py p - my)) pts * py v * py v
      + mean_of (fun p => (pz p - mz) * (pz p - mz)) pts * pz v * pz v
      + 2 * mean_of (fun p => (px p - mx) * (py p - my)) pts * px v * py v
      + 2 * mean_of (fun p => (px p - mx) * (pz p - mz)) pts * px v * pz v
      + 2 * mean_of (fun p => (py p - my) * (pz p - mz)) pts * py v * pz v)%Q).
    { unfold mean_of at 1 2 3 4 5 6 7.
      assert (E : (sum_of (fun p => lin p * lin p) pts ==
        sum_of (fun p => (px p - mx) * (px p - mx)) pts * px v * px v
        + sum_of (fun p => (py p - my) * (py p - my)) pts * py v * py v
        + sum_of (fun p => (pz p - mz) * (pz p - mz)) pts * pz v * pz v
        + 2 * sum_of (fun p => (px p - mx) * (py p - my)) pts * px v * py v
        + 2 * sum_of (fun p => (px p - mx) * (pz p - mz)) pts * px v * pz v
        + 2 * sum_of (fun p => (py p - my) * (pz p - mz)) pts * py v * pz v)%Q).
      { clear. unfold lin. generalize mx my mz. intros. clear. induction pts as [|p pts IH]; cbn [sum_of]; [ring|]. rewrite IH. ring. }
      rewrite E. unfold Qdiv. ring. }
    rewrite <- E. unfold mean_of, Qdiv. apply Qmult_le_0_compat.
    + apply sum_nonneg. intro p. nra.
    + destruct pts; [discriminate|]. apply Qlt_le_weak, Qinv_lt_0_compat, count_pos. discriminate.
  - intros t Hne. pose proof (eigen_of_spec eig (map (p3add t) pts)) as [T1 [T2 [T3 [D1 [D2 [D3 [D4 [D5 D6]]]]]]]].
    assert (HC : count_of (map (p3add t) pts) = count_of pts) by (unfold count_of; rewrite map_length; reflexivity).
    pose proof (count_pos pts Hne) as HP.
    assert (MS : forall f, (forall p, f (p3add t p) == f t + f p)%Q -> (mean_of f (map (p3add t) pts) == f t + mean_of f pts)%Q).
    { intros f Hf. unfold mean_of. rewrite sum_map, HC. rewrite (sum_ext _ (fun p => (f t + f p)%Q)) by (intros; apply Hf).
      rewrite sum_add, sum_const. field. lra. }
    assert (LX : (forall p, px (p3add t p) == px t + px p)%Q) by (intro; reflexivity).
    assert (LY : (forall p, py (p3add t p) == py t + py p)%Q) by (intro; reflexivity).
    assert (LZ : (forall p, pz (p3add t p) == pz t + pz p)%Q) by (intro; reflexivity).
    assert (CS : forall f g, (forall p, f (p3add t p) == f t + f p)%Q -> (forall p, g (p3add t p) == g t + g p)%Q ->
      (cov_of f g (map (p3add t) pts) == cov_of f g pts)%Q).
    { intros f g Hf Hg. unfold cov_of. unfold mean_of at 1 4. rewrite sum_map, HC.
      apply Qmult_comp; [|reflexivity]. apply sum_ext. intros p _. rewrite Hf, Hg, (MS f Hf), (MS g Hg). ring. }
    split.
    + unfold same_sym. rewrite C1, C2, C3, C4, C5, C6, D1, D2, D3, D4, D5, D6.
      repeat match goal with |- _ /\ _ => split end; apply CS; assumption.
    + unfold same_p3. cbn [p3add px py pz]. rewrite T1, T2, T3, S1, S2, S3.
      repeat match goal with |- _ /\ _ => split end; apply MS; assumption.
  - intros pts' HP. pose proof (eigen_of_spec eig pts') as [T1 [T2 [T3 [D1 [D2 [D3 [D4 [D5 D6]]]]]]]].
    assert (HC : count_of pts = count_of pts') by (unfold count_of; rewrite (Permutation_length HP); reflexivity).
    assert (MS : forall f, (mean_of f pts == mean_of f pts')%Q).
    { intro f. unfold mean_of. rewrite HC, (sum_perm f _ _ HP). reflexivity. }
    assert (CS : forall f g, (cov_of f g pts == cov_of f g pts')%Q).
    { intros f g. unfold cov_of. rewrite (MS (fun p => (f p - mean_of f pts) * (g p - mean_of g pts))%Q).
      unfold mean_of at 1 4. apply Qmult_comp; [|reflexivity]. apply sum_ext. intros p _. rewrite (MS f), (MS g). reflexivity. }
    split.
    + unfold same_sym. rewrite C1, C2, C3, C4, C5, C6, D1, D2, D3, D4, D5, D6.
      repeat match goal with |- _ /\ _ => split end; apply CS.
    + unfold same_p3. rewrite T1, T2, T3, S1, S2, S3.
      repeat match goal with |- _ /\ _ => split end; apply MS.
Qed.
Print Assumptions C151_covariance_laws.

Example C151_ex : exists e, estimate_total (fun m => mkSpec3 0 0 0 (mkP3 0 0 0) (mkP3 0 0 0) (mkP3 0 0 0))
    [mkP3 0 0 0; mkP3 2 0 0; mkP3 0 4 0; mkP3 2 4 0; mkP3 9 9 9] 4 = Ok e
  /\ same_p3 (eg_mean e) (mkP3 1 2 0) /\ same_sym (eg_cov e) (mkSym 1 0 0 4 0 0).
Proof. eexists. split; [vm_compute; reflexivity|]. split; repeat split. Qed.
