(** C27 (robust kernels), C28 (residuals), C29 (Jacobians), C33 (conversion to point pairs),
    and the findings split from them. *)
From Coq Require Import Reals List Lra Lia Permutation Sorting.
From Coq Require Import Psatz.
From Verif Require Import GeomModel.
Import ListNotations.
Open Scope R_scope.

Lemma V3_eq a b : vx a = vx b -> vy a = vy b -> vz a = vz b -> a = b.
Proof. destruct a, b; simpl; intros -> -> ->; reflexivity. Qed.

Ltac per_entry := repeat match goal with |- _ :: _ = _ :: _ => apply f_equal2 end.

Definition vzero : V3 := mkV 0 0 0.
Lemma vzero_inv a b c : mkV a b c = vzero -> a = 0 /\ b = 0 /\ c = 0.
Proof. unfold vzero. intros H. injection H as A B C. split; [exact A|split; assumption]. Qed.
Definition dist2 (a b : V3) : R := vnorm2 (vsub a b).

Lemma sq0 x : 0 <= x * x. Proof. nra. Qed.
Lemma vnorm2_pos a : 0 <= vnorm2 a.
Proof. unfold vnorm2, vdot. assert (X := sq0 (vx a)). assert (Y := sq0 (vy a)). assert (Z := sq0 (vz a)). lra. Qed.
Lemma vnorm2_zero a : vnorm2 a = 0 -> a = vzero.
Proof.
  unfold vnorm2, vdot. intros H. apply V3_eq; simpl; nra.
Qed.

(** ** C27: robust kernels *)

(** For every kernel and positive parameter, the weight is 1 at zero error, in (0,1], and
    never increases with the (squared) error. *)
Theorem C27_kernels_down_weight : forall k c, 0 < c ->
  kernel_weight k c 0 = 1 /\
  (forall e2, 0 <= e2 -> 0 < kernel_weight k c e2 <= 1) /\
  (forall a b, 0 <= a <= b -> kernel_weight k c b <= kernel_weight k c a).
Proof.
  intros k c C. destruct k; unfold kernel_weight; simpl.
  - split; [reflexivity|]. split; intros; lra.
  - split; [field; lra|]. split.
    + intros e2 E. assert (P : 0 < (e2 + c) * (e2 + c)) by nra. split.
      * apply Rdiv_lt_0_compat; nra.
      * apply (Rmult_le_reg_r ((e2 + c) * (e2 + c))); [exact P|]. unfold Rdiv. rewrite Rmult_assoc, Rinv_l by lra. nra.
    + intros a b [A B]. assert (P : 0 < (a + c) * (a + c)) by nra.
      unfold Rdiv. apply Rmult_le_compat_l; [nra|]. apply Rinv_le_contravar; nra.
  - split; [field; nra|]. split.
    + intros e2 E. assert (P : 0 < e2 + c * c) by nra. split.
      * apply Rdiv_lt_0_compat; nra.
      * apply (Rmult_le_reg_r (e2 + c * c)); [exact P|]. unfold Rdiv. rewrite Rmult_assoc, Rinv_l by lra. nra.
    + intros a b [A B]. unfold Rdiv. apply Rmult_le_compat_l; [nra|]. apply Rinv_le_contravar; nra.
Qed.

Theorem C27_none_is_one : forall c e2, kernel_fn KNone c = None /\ kernel_weight KNone c e2 = 1.
Proof. intros c e2. split; reflexivity. Qed.

(** Large errors end up with no influence: the robust weights tend to zero. *)
Theorem C27_kernels_vanish : forall k c eps, k <> KNone -> 0 < c -> 0 < eps ->
  exists E, 0 <= E /\ forall e2, E <= e2 -> kernel_weight k c e2 < eps.
Proof.
  intros k c eps K C P. destruct k; [congruence| |]; unfold kernel_weight; simpl.
  - exists (1 + c * c / eps). assert (Q : 0 < c * c / eps) by (apply Rdiv_lt_0_compat; nra).
    split; [lra|]. intros e2 E. assert (D : 0 < (e2 + c) * (e2 + c)) by nra.
    apply (Rmult_lt_reg_r ((e2 + c) * (e2 + c))); [exact D|].
    unfold Rdiv at 1. rewrite Rmult_assoc, Rinv_l by lra. rewrite Rmult_1_r.
    assert (X : c * c = eps * (c * c / eps)) by (field; lra). rewrite X at 1.
    apply Rmult_lt_compat_l; [exact P|]. set (w := c * c / eps) in *.
    apply Rlt_le_trans with ((e2 + c) * 1); [lra|]. apply Rmult_le_compat_l; lra.
  - exists (c * c / eps). assert (Q : 0 < c * c / eps) by (apply Rdiv_lt_0_compat; nra).
    split; [lra|]. intros e2 E. assert (D : 0 < e2 + c * c) by nra.
    apply (Rmult_lt_reg_r (e2 + c * c)); [exact D|].
    unfold Rdiv at 1. rewrite Rmult_assoc, Rinv_l by lra. rewrite Rmult_1_r.
    assert (X : c * c = eps * (c * c / eps)) by (field; lra). rewrite X at 1.
    apply Rmult_lt_compat_l; [exact P|]. set (w := c * c / eps) in *. assert (0 < c * c) by nra. lra.
Qed.

Example C27_example : kernel_weight KCauchy 2 4 = 1 / 2 /\ kernel_weight KGemanMcClure 2 2 = 1 / 4.
Proof. unfold kernel_weight; simpl. split; field. Qed.

(** ** C28: residuals *)

Theorem C28_point2point : forall g l T,
  vnorm2 (error_point2point g l T) = dist2 (compose T l) g /\
  (error_point2point g l T = vzero <-> compose T l = g).
Proof.
  intros g l T. unfold error_point2point, dist2, vsub. split; [reflexivity|]. split.
  - intros H. apply vzero_inv in H. destruct H as [A [B C]]. apply V3_eq; lra.
  - intros ->. apply V3_eq; simpl; lra.
Qed.

(** Points of a line and of a plane. *)
Definition on_line (ln : Line) (p : V3) : Prop := exists t, p = vadd (l_base ln) (vscale t (l_dir ln)).
Definition on_plane (pl : Plane) (p : V3) : Prop := vdot (n_ pl) p + d_ pl = 0.

(** [d2] is the squared distance of [p] to the set [S]. *)
Definition is_dist2 (S : V3 -> Prop) (p : V3) (d2 : R) : Prop :=
  (exists q, S q /\ dist2 p q = d2) /\ forall q, S q -> d2 <= dist2 p q.

Theorem C28_point2line : forall ln l T, vnorm2 (l_dir ln) = 1 ->
  is_dist2 (on_line ln) (compose T l) (vnorm2 (error_point2line ln l T)) /\
  (error_point2line ln l T = vzero <-> on_line ln (compose T l)).
Proof.
  intros [b u] l T U. simpl in U. set (g := compose T l).
  assert (E : error_point2line (mkLine b u) l T =
              vsub (vsub g b) (vscale (vdot u (vsub g b)) u)).
  { unfold error_point2line. fold g. simpl. unfold vsub, vscale, vdot. apply V3_eq; simpl; ring. }
  assert (ON : on_line (mkLine b u) (vsub g (error_point2line (mkLine b u) l T))).
  { exists (vdot u (vsub g b)). rewrite E. apply V3_eq; simpl; ring. }
  split.
  - split.
    + exists (vsub g (error_point2line (mkLine b u) l T)). split; [exact ON|].
      unfold dist2, vnorm2, vdot; simpl. ring.
    + intros q [t ->]. rewrite E. unfold dist2.
      set (q := vsub g b). set (k := vdot u q).
      assert (X : vnorm2 (vsub g (vadd b (vscale t u))) = vnorm2 (vsub q (vscale k u)) + (k - t) * (k - t)).
      { assert (Y : vnorm2 (vsub g (vadd b (vscale t u))) = vnorm2 q - 2 * t * k + t * t * vnorm2 u).
        { unfold k, q, vnorm2, vdot; simpl. ring. }
        assert (Z : vnorm2 (vsub q (vscale k u)) = vnorm2 q - 2 * k * k + k * k * vnorm2 u).
        { unfold k, vnorm2, vdot; simpl. ring. }
        rewrite Y, Z, U. ring. }
      simpl. rewrite X. assert (W := sq0 (k - t)). lra.
  - split.
    + intros H. rewrite H in ON. destruct ON as [t ON]. exists t. rewrite <- ON. fold g. apply V3_eq; simpl; ring.
    + intros [t H]. fold g in H. rewrite E, H. simpl.
      assert (K : vdot u (vsub (vadd b (vscale t u)) b) = t).
      { transitivity (t * vnorm2 u); [unfold vnorm2, vdot; simpl; ring|]. rewrite U. ring. }
      rewrite K. apply V3_eq; simpl; ring.
Qed.

Theorem C28_point2plane : forall pl l T, n_ pl <> vzero ->
  is_dist2 (on_plane pl) (compose T l) (vnorm2 (error_point2plane pl l T)) /\
  (error_point2plane pl l T = vzero <-> on_plane pl (compose T l)).
Proof.
  intros [n d] l T N. simpl in N. set (g := compose T l).
  assert (M : 0 < vnorm2 n).
  { destruct (Rle_lt_or_eq_dec 0 (vnorm2 n) (vnorm2_pos n)) as [H|H]; [exact H|].
    exfalso. apply N. apply vnorm2_zero. symmetry. exact H. }
  set (m := vnorm2 n) in *. set (k := vdot n g + d).
  assert (E : error_point2plane (mkPlane n d) l T = vscale (- (k / m)) n).
  { unfold error_point2plane. fold g. simpl. unfold k, m, vnorm2, vdot in *. apply V3_eq; simpl; field; lra. }
  assert (NE : vnorm2 (error_point2plane (mkPlane n d) l T) = k * k / m).
  { rewrite E. transitivity ((k / m) * (k / m) * m); [unfold m, vnorm2, vdot; simpl; ring|field; lra]. }
  assert (ON : on_plane (mkPlane n d) (vadd g (error_point2plane (mkPlane n d) l T))).
  { unfold on_plane. simpl. rewrite E.
    transitivity (vdot n g + d - k / m * m); [unfold m, vnorm2, vdot; simpl; ring|]. unfold k. field. lra. }
  split.
  - split.
    + exists (vadd g (error_point2plane (mkPlane n d) l T)). split; [exact ON|].
      unfold dist2, vnorm2, vdot; simpl. ring.
    + intros q Q. unfold on_plane in Q; simpl in Q. rewrite NE. unfold dist2.
      set (w := vsub g q).
      assert (KW : k = vdot n w).
      { unfold k, w. replace d with (- vdot n q) by lra. unfold vdot; simpl. ring. }
      assert (CS : vdot n w * vdot n w <= m * vnorm2 w).
      { assert (L : m * vnorm2 w - vdot n w * vdot n w = vnorm2 (vcross n w)).
        { unfold m, vnorm2, vdot, vcross; simpl. ring. }
        assert (P := vnorm2_pos (vcross n w)). lra. }
      rewrite KW. apply (Rmult_le_reg_r m); [exact M|]. unfold Rdiv. rewrite Rmult_assoc, Rinv_l by lra. lra.
  - assert (X : error_point2plane (mkPlane n d) l T = vzero <-> k = 0).
    { split.
      - intros H. rewrite H in NE. unfold vnorm2, vdot in NE; simpl in NE.
        assert (Y : k * k = 0). { apply (Rmult_eq_reg_r (/ m)); [|apply Rinv_neq_0_compat; lra]. unfold Rdiv in NE. lra. }
        nra.
      - intros H. rewrite E, H. apply V3_eq; simpl; field; lra. }
    rewrite X. unfold on_plane. simpl. fold g. unfold k. reflexivity.
Qed.

Theorem C28_plane2plane : forall pg pl T,
  vnorm2 (error_plane2plane pg pl T) = dist2 (rotate T (n_ pl)) (n_ pg) /\
  (error_plane2plane pg pl T = vzero <-> rotate T (n_ pl) = n_ pg).
Proof.
  intros pg pl T. unfold error_plane2plane, dist2, vsub. split; [reflexivity|]. split.
  - intros H. apply vzero_inv in H. destruct H as [A [B C]]. apply V3_eq; lra.
  - intros ->. apply V3_eq; simpl; lra.
Qed.

Definition pose_id : Pose := mkPose (mkV 1 0 0) (mkV 0 1 0) (mkV 0 0 1) (mkV 0 0 0).
Definition pose_rz : Pose := mkPose (mkV 0 1 0) (mkV (-1) 0 0) (mkV 0 0 1) (mkV 1 2 3).

Example C28_example :
  vnorm2 (error_point2plane (mkPlane (mkV 0 0 2) (-2)) (mkV 5 6 4) pose_id) = 9 /\
  vnorm2 (error_point2line (mkLine (mkV 0 0 0) (mkV 1 0 0)) (mkV 3 4 0) pose_rz) = 34.
Proof. unfold vnorm2, vdot, error_point2plane, error_point2line, compose, rotate; simpl. split; [field|]. unfold l_dir, l_base, vsub, vadd, vscale, pose_rz, vdot; simpl. ring. Qed.

(** ** C29: Jacobians.  The residuals are affine in the pose matrix, so being its Jacobian
    is an exact equality for every increment. *)

Lemma Jpoint_spec l T D : mvec (Jpoint l) (vec D) = l3 (vsub (compose (padd T D) l) (compose T l)).
Proof.
  unfold mvec, Jpoint, vec, l3, compose, rotate, padd. simpl. per_entry; try reflexivity; ring.
Qed.

Theorem C29_point2point : forall g l T D,
  l3 (error_point2point g l (padd T D))
  = ladd (l3 (error_point2point g l T)) (mvec (jac_point2point g l T) (vec D)).
Proof.
  intros g l T D. unfold jac_point2point. rewrite (Jpoint_spec l T D). unfold l3, ladd, error_point2point; simpl. per_entry; try reflexivity; ring.
Qed.

Theorem C29_point2line : forall ln l T D,
  l3 (error_point2line ln l (padd T D))
  = ladd (l3 (error_point2line ln l T)) (mvec (jac_point2line ln l T) (vec D)).
Proof.
  intros [b u] l T D. unfold jac_point2line, mvec, mmul, col, Jpoint, vec, l3, ladd, error_point2line, compose, rotate, padd, vdot.
  simpl. per_entry; try reflexivity; ring.
Qed.

Theorem C29_point2plane : forall pl l T D, n_ pl <> vzero ->
  l3 (error_point2plane pl l (padd T D))
  = ladd (l3 (error_point2plane pl l T)) (mvec (jac_point2plane pl l T) (vec D)).
Proof.
  intros [n d] l T D N. simpl in N.
  assert (M : vx n * vx n + vy n * vy n + vz n * vz n <> 0).
  { intros H. apply N. apply vnorm2_zero. exact H. }
  unfold jac_point2plane, mvec, mmul, col, Jpoint, vec, l3, ladd, error_point2plane, compose, rotate, padd.
  simpl. per_entry; try reflexivity; field; exact M.
Qed.

Theorem C29_plane2plane : forall pg pl T D,
  l3 (error_plane2plane pg pl (padd T D))
  = ladd (l3 (error_plane2plane pg pl T)) (mvec (jac_plane2plane pg pl T) (vec D)).
Proof.
  intros pg pl T D. unfold jac_plane2plane, mvec, vec, l3, ladd, error_plane2plane, rotate, padd; simpl. per_entry; try reflexivity; ring.
Qed.

(** Line-to-line, (nearly) parallel lines: the first row is the derivative of the squared
    distance.  The remainder is exactly the quadratic term, bounded by the squared length of
    the displacement of the point. *)
Theorem C29_line2line_parallel : forall lg ll T D, vnorm2 (l_dir lg) <> 0 ->
  let d := vsub (compose (padd T D) (l_base ll)) (compose T (l_base ll)) in
  let e T := dist2_line lg (compose T (l_base ll)) in
  let r := e (padd T D) - e T - dotl (jac_l2l_parallel_row lg ll T) (vec D) in
  0 <= r <= vnorm2 d.
Proof.
  intros [b v] [p0 u0] T D V d e r. simpl in V.
  assert (VP : 0 < vnorm2 v) by (assert (X := vnorm2_pos v); lra).
  assert (DD : compose (padd T D) p0 = vadd (compose T p0) d).
  { unfold d; simpl. apply V3_eq; simpl; ring. }
  assert (J : dotl (jac_l2l_parallel_row (mkLine b v) (mkLine p0 u0) T) (vec D)
     = vdot (vsub (vscale 2 (vsub (compose T p0) b)) (vscale (2 / vdot v v * vdot (vsub (compose T p0) b) v) v)) d).
  { unfold jac_l2l_parallel_row. simpl l_base. simpl l_dir.
    set (J1 := vsub (vscale 2 (vsub (compose T p0) b)) (vscale (2 / vdot v v * vdot (vsub (compose T p0) b) v) v)).
    unfold d. simpl l_base. unfold vec, compose, rotate, padd, vdot, l3, col, Jpoint. simpl. ring. }
  set (q := vsub (compose T p0) b) in *.
  assert (R0 : r = vnorm2 (vcross d v) / vnorm2 v).
  { unfold r, e. rewrite J. unfold dist2_line. simpl l_base. simpl l_dir. rewrite DD.
    assert (Q1 : vsub (vadd (compose T p0) d) b = vadd q d) by (unfold q; apply V3_eq; simpl; ring).
    rewrite Q1. fold q. unfold vnorm2 in *. unfold vcross, vdot in *. simpl in *. field. exact V. }
  assert (L : vnorm2 (vcross d v) = vnorm2 d * vnorm2 v - vdot d v * vdot d v).
  { unfold vnorm2, vcross, vdot; simpl. ring. }
  rewrite R0. split.
  - apply Rmult_le_pos; [apply vnorm2_pos|]. left. apply Rinv_0_lt_compat. exact VP.
  - apply (Rmult_le_reg_r (vnorm2 v)); [exact VP|]. unfold Rdiv. rewrite Rmult_assoc, Rinv_l by exact V.
    rewrite Rmult_1_r, L. assert (X := sq0 (vdot d v)). lra.
Qed.

Example C29_example :
  l3 (error_point2plane (mkPlane (mkV 0 0 2) (-2)) (mkV 5 6 4) (padd pose_id pose_rz)) =
  ladd [0; 0; -3] (mvec (jac_point2plane (mkPlane (mkV 0 0 2) (-2)) (mkV 5 6 4) pose_id) (vec pose_rz))
  /\ mvec (jac_point2plane (mkPlane (mkV 0 0 2) (-2)) (mkV 5 6 4) pose_id) (vec pose_rz) = [0; 0; -7].
Proof.
  unfold ladd, mvec, jac_point2plane, mmul, col, Jpoint, vec, l3, error_point2plane, compose, rotate, padd; simpl.
  split; per_entry; try reflexivity; field.
Qed.

(** ** C33: line and plane pairings as point pairs *)

Definition le_err (a b : R * PtPair) : Prop := fst a <= fst b.
Definition ge_err (a b : R * PtPair) : Prop := fst b <= fst a.

Lemma mm_insert_perm x l : Permutation (mm_insert x l) (x :: l).
Proof.
  induction l as [|y t IH]; simpl; [reflexivity|]. destruct (Rlt_dec (fst x) (fst y)); [reflexivity|].
  rewrite IH. apply perm_swap.
Qed.
Lemma mm_insert_sorted x l : StronglySorted le_err l -> StronglySorted le_err (mm_insert x l).
Proof.
  induction l as [|y t IH]; intros S; simpl; [constructor; constructor|].
  inversion S as [|? ? S1 S2]; subst. destruct (Rlt_dec (fst x) (fst y)) as [L|L].
  - constructor; [exact S|]. constructor; [unfold le_err; lra|].
    eapply Forall_impl; [|exact S2]. unfold le_err. intros a A. lra.
  - constructor; [apply IH; exact S1|]. apply Forall_forall. intros a A.
    apply (Permutation_in a (mm_insert_perm x t)) in A. unfold le_err. destruct A as [<-|A]; [lra|].
    rewrite Forall_forall in S2. apply (S2 a A).
Qed.
Lemma mm_of_spec l : Permutation (mm_of l) l /\ StronglySorted le_err (mm_of l).
Proof.
  unfold mm_of. assert (G : forall l m, StronglySorted le_err m ->
    Permutation (fold_left (fun m x => mm_insert x m) l m) (m ++ l) /\
    StronglySorted le_err (fold_left (fun m x => mm_insert x m) l m)).
  { clear. induction l as [|x l IH]; intros m S; simpl.
    - rewrite app_nil_r. split; [reflexivity|exact S].
    - destruct (IH (mm_insert x m) (mm_insert_sorted x m S)) as [A B]. split; [|exact B].
      rewrite A, mm_insert_perm. simpl. apply Permutation_middle. }
  apply (G l []). constructor.
Qed.

Lemma sorted_rev l : StronglySorted le_err l -> StronglySorted ge_err (rev l).
Proof.
  induction l as [|x l IH]; intros S; simpl; [constructor|]. inversion S as [|? ? S1 S2]; subst.
  assert (G : forall a, StronglySorted ge_err a -> (forall y, In y a -> ge_err y x) -> StronglySorted ge_err (a ++ [x])).
  { clear. induction a as [|y a IH]; intros S H; simpl; [constructor; constructor|].
    inversion S as [|? ? A B]; subst. constructor; [apply IH; [exact A|intros z Z; apply H; right; exact Z]|].
    apply Forall_app. split; [exact B|]. constructor; [apply H; left; reflexivity|constructor]. }
  apply G; [apply IH; exact S1|]. intros y Y. apply in_rev in Y. rewrite Forall_forall in S2. apply (S2 y Y).
Qed.

Lemma take_sorted_spec thr : forall desc out, exists kept dropped,
  desc = kept ++ dropped /\ take_sorted thr desc out = out ++ map snd kept /\
  match dropped with [] => True | d :: _ => fst d < thr /\ (3 <= length (out ++ map snd kept))%nat end /\
  (forall k, In k kept -> fst k < thr -> (length out < 3)%nat).
Proof.
  induction desc as [|[err p] t IH]; intros out; simpl.
  - exists [], []. simpl. rewrite app_nil_r. split; [reflexivity|]. split; [reflexivity|]. split; [exact I|intros k []].
  - assert (REC : exists kept dropped,
       t = kept ++ dropped /\ take_sorted thr t (out ++ [p]) = (out ++ [p]) ++ map snd kept /\
       match dropped with [] => True | d :: _ => fst d < thr /\ (3 <= length ((out ++ [p]) ++ map snd kept))%nat end /\
       (forall k, In k kept -> fst k < thr -> (length (out ++ [p]) < 3)%nat)) by apply IH.
    destruct REC as [kept [dropped [A [B [C D]]]]].
    assert (KEEP : (err < thr -> (length out < 3)%nat) -> exists kept0 dropped0,
       (err, p) :: t = kept0 ++ dropped0 /\ take_sorted thr t (out ++ [p]) = out ++ map snd kept0 /\
       match dropped0 with [] => True | d :: _ => fst d < thr /\ (3 <= length (out ++ map snd kept0))%nat end /\
       (forall k, In k kept0 -> fst k < thr -> (length out < 3)%nat)).
    { intros H. exists ((err, p) :: kept), dropped. simpl. rewrite A. split; [reflexivity|].
      rewrite <- A, B, <- app_assoc. split; [reflexivity|]. split.
      - destruct dropped as [|d dd]; [exact I|]. rewrite <- app_assoc in C. exact C.
      - intros k [<-|K] L; [apply H; exact L|]. assert (X := D k K L). rewrite app_length in X. simpl in X. lia. }
    destruct (Rlt_dec err thr) as [L|L].
    + destruct (length out) as [|[|[|n]]] eqn:LN; simpl.
      * apply KEEP. intros _. lia.
      * apply KEEP. intros _. lia.
      * apply KEEP. intros _. lia.
      * exists [], ((err, p) :: t). simpl. rewrite app_nil_r. split; [reflexivity|]. split; [reflexivity|].
        split; [split; [exact L|rewrite LN; lia]|intros k []].
    + apply KEEP. intros X. lra.
Qed.

(** What is kept among candidates (error, pair), given the pairs already output. *)
Definition Selected (cands kept dropped : list (R * PtPair)) (before : nat) : Prop :=
  Permutation cands (kept ++ dropped) /\
  (* the kept ones are those with the largest errors *)
  (forall k d, In k kept -> In d dropped -> fst d <= fst k) /\
  (* only errors below a quarter of the largest are dropped, and only with three pairs or more *)
  (dropped <> [] -> (3 <= before + length kept)%nat /\
     exists mx, In mx cands /\ (forall c, In c cands -> fst c <= fst mx) /\
                forall d, In d dropped -> fst d < fst mx / 4) /\
  (* nothing below the quarter is kept, except to get to three pairs *)
  (forall k, In k kept -> (3 <= before)%nat ->
     exists mx, In mx cands /\ (forall c, In c cands -> fst c <= fst mx) /\ fst mx / 4 <= fst k).

Lemma afs_spec cands out : exists kept dropped,
  append_from_sorted (mm_of cands) out = out ++ map snd kept /\ Selected cands kept dropped (length out).
Proof.
  destruct (mm_of_spec cands) as [P S]. apply sorted_rev in S.
  assert (PR : Permutation cands (rev (mm_of cands))) by (rewrite <- Permutation_rev; symmetry; exact P).
  unfold append_from_sorted. destruct (rev (mm_of cands)) as [|[mx p] t] eqn:E.
  - exists [], []. rewrite app_nil_r. split; [reflexivity|]. split; [exact PR|]. split; [intros k d []|].
    split; [congruence|intros k []].
  - destruct (take_sorted_spec (mx * / 4) ((mx, p) :: t) out) as [kept [dropped [A [B [C D]]]]].
    assert (MAX : forall c, In c cands -> fst c <= mx).
    { intros c H. apply (Permutation_in c PR) in H. inversion S as [|? ? S1 S2]; subst.
      destruct H as [<-|H]; [simpl; lra|]. rewrite Forall_forall in S2. apply (S2 c H). }
    assert (INM : In (mx, p) cands) by (apply (Permutation_in (mx, p) (Permutation_sym PR)); left; reflexivity).
    assert (ORD : forall k d, In k kept -> In d dropped -> fst d <= fst k).
    { rewrite A in S. clear - S. induction kept as [|k0 kt IH]; intros k d K Dd; [destruct K|].
      simpl in S. inversion S as [|? ? S1 S2]; subst. destruct K as [<-|K].
      - rewrite Forall_forall in S2. apply (S2 d). apply in_or_app. right. exact Dd.
      - apply (IH S1 k d K Dd). }
    exists kept, dropped. split; [exact B|]. split; [rewrite <- A; exact PR|]. split; [exact ORD|]. split.
    + intros NE. destruct dropped as [|d0 dd]; [congruence|]. destruct C as [C1 C2]. rewrite app_length, map_length in C2.
      split; [exact C2|]. exists (mx, p). split; [exact INM|]. split; [exact MAX|].
      intros d Dd. simpl. assert (X : fst d <= fst d0).
      { destruct Dd as [<-|Dd]; [lra|]. rewrite A in S. clear - S Dd.
        induction kept as [|k0 kt IH]; simpl in S; inversion S as [|? ? S1 S2]; subst.
        - rewrite Forall_forall in S2. apply (S2 d Dd).
        - apply IH. exact S1. }
      lra.
    + intros k K TH. exists (mx, p). split; [exact INM|]. split; [exact MAX|]. simpl.
      destruct (Rlt_le_dec (fst k) (mx * / 4)) as [L|L]; [|lra]. apply (D k K) in L. lia.
Qed.

(** The conversion selects, first among the plane and then among the line pairings, those
    with the largest errors (above a quarter of the largest), plus as many as needed to have
    three pairs if there are that many; each gives one point pair. *)
Theorem C33_selection : forall T pt2pt pls lns,
  (forall p, In p pls -> Rabs (vnorm (n_ (plp_plane p)) - 1) < 1 / 10000) ->
  let cp := map (fun p => plane_pair T (plp_plane p) (plp_local p)) pls in
  let cl := map (fun p => line_pair T (lnp_line p) (lnp_local p)) lns in
  exists kp dp kl dl,
    convert T pt2pt pls lns = Some (map snd kp ++ map snd kl) /\
    Selected cp kp dp 0 /\ Selected cl kl dl (length kp) /\
    (Nat.min 3 (length pls + length lns) <= length (map snd kp ++ map snd kl))%nat.
Proof.
  intros T pt2pt pls lns N cp cl. unfold convert.
  assert (F : forallb (fun p => near_unit (n_ (plp_plane p))) pls = true).
  { apply forallb_forall. intros p H. unfold near_unit. destruct (Rlt_dec _ _) as [L|L]; [reflexivity|].
    exfalso. apply L. apply N. exact H. }
  rewrite F. fold cp cl.
  destruct (afs_spec cp []) as [kp [dp [A SA]]]. rewrite A. simpl app.
  destruct (afs_spec cl (map snd kp)) as [kl [dl [B SB]]]. rewrite B.
  rewrite map_length in SB. exists kp, dp, kl, dl. split; [reflexivity|].
  split; [exact SA|]. split; [exact SB|].
  rewrite app_length, !map_length.
  destruct SA as [PA [_ [QA _]]]. destruct SB as [PB [_ [QB _]]].
  apply Permutation_length in PA. apply Permutation_length in PB. unfold cp, cl in PA, PB.
  rewrite app_length, map_length in PA, PB.
  destruct dl as [|d0 dl].
  - destruct dp as [|d1 dp]; cbn [length] in *; [lia|]. destruct (QA ltac:(discriminate)) as [X _]. cbn [length] in X. lia.
  - destruct (QB ltac:(discriminate)) as [X _]. lia.
Qed.

(** Each point pair joins the local point with the closest point, to the transformed local
    point, of the plane (unit normal) or line; the sorting error is that distance. *)
Theorem C33_plane_projection : forall T pl l, vnorm (n_ pl) = 1 ->
  let '(err, pp) := plane_pair T pl l in
  pp_local pp = l /\ on_plane pl (pp_global pp) /\
  is_dist2 (on_plane pl) (compose T l) (dist2 (compose T l) (pp_global pp)) /\
  err * err = dist2 (compose T l) (pp_global pp) /\ 0 <= err.
Proof.
  intros T [n d] l N. unfold plane_pair. simpl in *. set (g := compose T l).
  assert (N2 : vnorm2 n = 1).
  { unfold vnorm in N. rewrite <- (sqrt_sqrt (vnorm2 n)) by apply vnorm2_pos. rewrite N. ring. }
  set (k := eval_plane (mkPlane n d) g).
  assert (ON : on_plane (mkPlane n d) (vsub g (vscale k n))).
  { unfold on_plane; simpl. transitivity (vdot n g + d - k * vnorm2 n); [unfold vnorm2, vdot; simpl; ring|].
    rewrite N2. unfold k, eval_plane; simpl. ring. }
  assert (D2 : dist2 g (vsub g (vscale k n)) = k * k).
  { transitivity (k * k * vnorm2 n); [unfold dist2, vnorm2, vdot; simpl; ring|rewrite N2; ring]. }
  split; [reflexivity|]. split; [exact ON|]. split.
  - split; [exists (vsub g (vscale k n)); split; [exact ON|reflexivity]|].
    intros q Q. rewrite D2. unfold on_plane in Q; simpl in Q. unfold dist2. set (w := vsub g q).
    assert (KW : k = vdot n w).
    { unfold k, eval_plane, w; simpl. replace d with (- vdot n q) by lra. unfold vdot; simpl. ring. }
    assert (L : vnorm2 n * vnorm2 w - vdot n w * vdot n w = vnorm2 (vcross n w)).
    { unfold vnorm2, vdot, vcross; simpl. ring. }
    assert (P := vnorm2_pos (vcross n w)). rewrite N2 in L. rewrite KW. lra.
  - split; [|apply Rabs_pos]. rewrite D2. fold k. unfold Rabs. destruct (Rcase_abs k); ring.
Qed.

(** Within the accepted tolerance on the normal, the pair is off the plane by at most
    0.021% of the error. *)
Theorem C33_plane_tolerance : forall T pl l, Rabs (vnorm (n_ pl) - 1) < 1 / 10000 ->
  let '(err, pp) := plane_pair T pl l in
  Rabs (eval_plane pl (pp_global pp)) <= err * (21 / 100000).
Proof.
  intros T [n d] l N. unfold plane_pair. simpl in *. set (g := compose T l).
  set (k := eval_plane (mkPlane n d) g). set (r := vnorm n) in *.
  assert (N2 : vnorm2 n = r * r) by (unfold r, vnorm; symmetry; apply sqrt_sqrt, vnorm2_pos).
  assert (EV : eval_plane (mkPlane n d) (vsub g (vscale k n)) = k * (1 - r * r)).
  { transitivity (eval_plane (mkPlane n d) g - k * vnorm2 n); [unfold eval_plane, vnorm2, vdot; simpl; ring|].
    fold k. rewrite N2. ring. }
  rewrite EV, Rabs_mult. fold k. apply Rmult_le_compat_l; [apply Rabs_pos|].
  apply Rabs_def2 in N. apply Rabs_le. nra.
Qed.

Theorem C33_line_projection : forall T ln l, vnorm2 (l_dir ln) <> 0 ->
  let '(err, pp) := line_pair T ln l in
  pp_local pp = l /\ on_line ln (pp_global pp) /\
  is_dist2 (on_line ln) (compose T l) (dist2 (compose T l) (pp_global pp)) /\
  err * err = dist2 (compose T l) (pp_global pp) /\ 0 <= err.
Proof.
  intros T [b u] l U. unfold line_pair. simpl in *. set (g := compose T l).
  assert (UP : 0 < vnorm2 u) by (assert (X := vnorm2_pos u); lra).
  set (c := closest_on_line (mkLine b u) g).
  assert (ON : on_line (mkLine b u) c) by (eexists; reflexivity).
  split; [reflexivity|]. split; [exact ON|]. split.
  - split; [exists c; split; [exact ON|reflexivity]|].
    intros q [t ->]. unfold dist2. simpl l_base. simpl l_dir.
    set (w := vsub g b). set (s := vdot u w / vnorm2 u).
    assert (SU : vdot u w = s * vnorm2 u) by (unfold s; field; exact U).
    assert (C : vsub g c = vsub w (vscale s u)) by (unfold c, closest_on_line, s, w; apply V3_eq; simpl; ring).
    assert (Q : vsub g (vadd b (vscale t u)) = vsub w (vscale t u)) by (unfold w; apply V3_eq; simpl; ring).
    rewrite C, Q.
    assert (EX : forall r, vnorm2 (vsub w (vscale r u)) = vnorm2 w - 2 * r * vdot u w + r * r * vnorm2 u).
    { intros r. unfold vnorm2, vdot; simpl. ring. }
    rewrite !EX, SU.
    assert (X : 0 <= (s - t) * (s - t) * vnorm2 u) by (apply Rmult_le_pos; [apply sq0|lra]). lra.
  - split; [|apply Rabs_pos].
    assert (E : Rabs (vnorm (vsub c g)) = vnorm (vsub c g)) by (apply Rabs_pos_eq, sqrt_pos).
    rewrite E. unfold vnorm. rewrite sqrt_sqrt by apply vnorm2_pos. unfold dist2, vnorm2, vdot; simpl. ring.
Qed.

Example C33_example :
  plane_pair pose_id (mkPlane (mkV 0 0 1) (-1)) (mkV 5 6 4) = (Rabs (0 * 5 + 0 * 6 + 1 * 4 + -1), mkPP (mkV 5 6 1) (mkV 5 6 4)).
Proof.
  unfold plane_pair, eval_plane, compose, rotate, vdot; simpl. f_equal; [f_equal; ring|].
  f_equal. apply V3_eq; simpl; ring.
Qed.

(** ** C74: the conversion keeps the existing point pairs *)

(** Finding: point-to-point pairings of the input never appear in the output. *)
Theorem C74_point_pairs_dropped_refuted : forall T pt2pt pls lns,
  convert T pt2pt pls lns = convert T [] pls lns.
Proof. reflexivity. Qed.

Theorem C74_only_point_pairs_gives_nothing_refuted : forall T pt2pt, convert T pt2pt [] [] = Some [].
Proof. reflexivity. Qed.

(** ** C75: line-to-line residual on perfectly aligned lines *)

(** Finding: the local director is taken to the global frame with the transpose of the
    rotation.  For the quarter turn about z, an x-directed local line and the y-directed
    global line it is mapped onto (same base point), the angle is pi (not parallel), the
    cross product is zero and the first component divides by its norm. *)
Theorem C75_aligned_lines_not_recognised_refuted :
  let T := pose_rz in
  let ll := mkLine (mkV 0 0 0) (mkV 1 0 0) in
  let lg := mkLine (compose T (mkV 0 0 0)) (rotate T (mkV 1 0 0)) in
  row_times (l_dir ll) T = mkV 0 (-1) 0 /\ l_dir lg = mkV 0 1 0 /\
  angle (l_dir lg) (row_times (l_dir ll) T) = PI /\
  vnorm2 (vcross (row_times (l_dir ll) T) (l_dir lg)) = 0 /\
  nth 2 (error_l2l_general lg ll T) 0 = -2.
Proof.
  cbv zeta. set (ll := mkLine (mkV 0 0 0) (mkV 1 0 0)).
  assert (A : row_times (l_dir ll) pose_rz = mkV 0 (-1) 0) by (unfold row_times, vdot; apply V3_eq; simpl; ring).
  assert (B : rotate pose_rz (mkV 1 0 0) = mkV 0 1 0) by (unfold rotate; apply V3_eq; simpl; ring).
  split; [exact A|]. split; [exact B|]. simpl l_dir at 1 4. rewrite A, B. split; [|split].
  - unfold angle, vnorm, vnorm2, vdot. simpl.
    replace (0 * 0 + 1 * 1 + 0 * 0) with 1 by ring.
    replace (0 * 0 + -1 * -1 + 0 * 0) with 1 by ring. rewrite sqrt_1.
    replace ((0 * 0 + 1 * -1 + 0 * 0) / (1 * 1)) with (-1) by field.
    replace (-1) with (-(1)) by ring. rewrite acos_opp, acos_1. ring.
  - unfold vnorm2, vdot, vcross; simpl. ring.
  - unfold error_l2l_general. cbn [nth]. rewrite A. simpl. ring.
Qed.

(** The residual of the direction is zero when the transposed rotation aligns the lines. *)
Theorem C75_direction_residual_refuted : forall lg ll T,
  (nth 1 (error_l2l_general lg ll T) 0 = 0 /\ nth 2 (error_l2l_general lg ll T) 0 = 0 /\
   nth 3 (error_l2l_general lg ll T) 0 = 0) <-> row_times (l_dir ll) T = l_dir lg.
Proof.
  intros lg ll T. unfold error_l2l_general. cbn [nth]. split.
  - intros [A [B C]]. apply V3_eq; lra.
  - intros ->. lra.
Qed.

(** ** C76: line-to-line Jacobian, general case *)

(** Finding: the rows of the direction residual are minus the derivative of the *untransposed*
    product: moving one entry of the matrix, the residual moves one way and the Jacobian
    says the other. *)
Theorem C76_line2line_jacobian_wrong_refuted : forall lg ll T eps,
  let D := mkPose (mkV eps 0 0) (mkV 0 0 0) (mkV 0 0 0) (mkV 0 0 0) in
  nth 1 (error_l2l_general lg ll (padd T D)) 0 - nth 1 (error_l2l_general lg ll T) 0 = eps * vx (l_dir ll) /\
  nth 1 (mvec (jac_l2l_general lg ll T) (vec D)) 0 = - (eps * vx (l_dir ll)).
Proof.
  intros lg ll T eps D. split.
  - unfold error_l2l_general, row_times, vdot, D, padd. simpl. ring.
  - unfold jac_l2l_general, mvec, mmul, D, vec. simpl. ring.
Qed.

(** Besides, the formula used for the derivative of the norm of the cross product with
    respect to the y component of the director has a wrong sign: here it gives -1 where the
    derivative is 1. *)
Definition code_By (u u1 : V3) : R :=
  let rw := vcross u u1 in (vz u1 * vx rw + vx u1 * vz rw) / sqrt (vdot rw rw).
Theorem C76_norm_derivative_sign_refuted : exists u u1 : V3, vnorm2 (vcross u u1) = 1 /\
  derivable_pt_lim (fun y => sqrt (vnorm2 (vcross (mkV (vx u) y (vz u)) u1))) (vy u) 1 /\
  code_By u u1 = -1.
Proof.
  exists (mkV 0 1 0), (mkV 1 0 0). split; [unfold vnorm2, vdot, vcross; simpl; ring|]. split.
  - simpl. apply (derivable_pt_lim_ext (comp sqrt (fun y => y * y))).
    + intros y. unfold comp. f_equal. unfold vnorm2, vdot, vcross; simpl. ring.
    + replace 1 with (/ (2 * sqrt (1 * 1)) * (2 * 1)) at 2.
      * apply derivable_pt_lim_comp.
        -- apply (derivable_pt_lim_ext (fun y => Rsqr y)); [intros y; reflexivity|]. apply derivable_pt_lim_Rsqr.
        -- apply derivable_pt_lim_sqrt. lra.
      * rewrite Rmult_1_r, sqrt_1. field.
  - unfold code_By, vdot, vcross; simpl.
    replace ((1 * 0 - 0 * 0) * (1 * 0 - 0 * 0) + (0 * 1 - 0 * 0) * (0 * 1 - 0 * 0) + (0 * 0 - 1 * 1) * (0 * 0 - 1 * 1)) with 1 by ring.
    rewrite sqrt_1. field.
Qed.

(** ** C77: every component of the line-to-line residual is set *)

(** Finding: whenever the lines are found parallel (e.g. equal directors), three of the four
    components are left unset. *)
Theorem C77_parallel_lines_components_unset_refuted : forall lg ll T,
  vnorm2 (l_dir lg) <> 0 -> row_times (l_dir ll) T = l_dir lg ->
  nth 1 (error_line2line lg ll T) (Some 0) = None /\
  nth 2 (error_line2line lg ll T) (Some 0) = None /\
  nth 3 (error_line2line lg ll T) (Some 0) = None.
Proof.
  intros lg ll T N H. unfold error_line2line, alfa. rewrite H.
  assert (A : angle (l_dir lg) (l_dir lg) = 0).
  { unfold angle, vnorm. rewrite sqrt_sqrt by apply vnorm2_pos. unfold vnorm2 at 1.
    unfold vnorm2 in N. unfold Rdiv. rewrite Rinv_r by exact N. apply acos_1. }
  rewrite A. replace (0 * 180 / (2 * (314159265 / 100000000))) with 0 by field.
  rewrite Rabs_R0. destruct (Rlt_dec 0 (1 / 100)) as [L|L]; [|lra].
  split; [reflexivity|split; reflexivity].
Qed.

Example C77_example : row_times (l_dir (mkLine (mkV 0 0 0) (mkV 1 0 0))) pose_id = mkV 1 0 0.
Proof. unfold row_times, vdot; apply V3_eq; simpl; ring. Qed.
