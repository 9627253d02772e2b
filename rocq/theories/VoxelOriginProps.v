(** C362: the origin of the cloud and the voxel grid. *)
From Coq Require Import String QArith Lqa Lia.
From Verif Require Import Base FilterModel VoxelModel VoxelUnitsProps.
Import ListNotations.
Open Scope Q_scope.
Open Scope list_scope.

(** ** Specification *)
(** the same point, the origin being moved by whole voxels: so many along each axis *)
Definition moved_pt (res : Q) (n : Key) (p p' : Pt) : Prop :=
  let '(i, j, k) := n in
  px p' == px p + inject_Z i * res /\ py p' == py p + inject_Z j * res /\ pz p' == pz p + inject_Z k * res.
Definition one_side (x x' : Q) : Prop := (0 <= x /\ 0 <= x') \/ (x <= 0 /\ x' <= 0).
(** no coordinate changes its sign *)
Definition same_sides (p p' : Pt) : Prop := one_side (px p) (px p') /\ one_side (py p) (py p') /\ one_side (pz p) (pz p').
Definition moved_key (n k : Key) : Key :=
  let '(a, b, d) := n in let '(x, y, z) := k in (x + a, y + b, z + d)%Z.

(** ** Proofs *)
Lemma sign_pos res x : 0 < res -> 0 <= x / res <-> 0 <= x.
Proof.
  intro R. split; intro H.
  - assert (E : x == (x / res) * res) by (field; intro X; rewrite X in R; discriminate R). rewrite E. apply Qmult_le_0_compat; [exact H|apply Qlt_le_weak; exact R].
  - apply Qle_shift_div_l; [exact R|]. rewrite Qmult_0_l. exact H.
Qed.
Lemma sign_neg res x : 0 < res -> x / res <= 0 <-> x <= 0.
Proof.
  intro R. split; intro H.
  - assert (E : x == (x / res) * res) by (field; intro X; rewrite X in R; discriminate R). rewrite E. rewrite <- (Qmult_0_l res).
    apply Qmult_le_compat_r; [exact H|apply Qlt_le_weak; exact R].
  - apply Qle_shift_div_r; [exact R|]. rewrite Qmult_0_l. exact H.
Qed.
Lemma idx_moved res n x x' : 0 < res -> x' == x + inject_Z n * res -> one_side x x' -> coord2idx res x' = (coord2idx res x + n)%Z.
Proof.
  intros R E SD. unfold coord2idx. cbv zeta. set (q := x / res).
  assert (N : ~ res == 0) by (intro X; rewrite X in R; discriminate R).
  assert (F : x' / res == q + inject_Z n) by (unfold q; rewrite E; field; exact N).
  rewrite (quot_compat _ _ F).
  assert (X := sign_pos res x R). assert (Y := sign_neg res x R). fold q in X, Y.
  assert (X' : 0 <= q + inject_Z n <-> 0 <= x') by (rewrite <- F; apply sign_pos; exact R).
  assert (Y' : q + inject_Z n <= 0 <-> x' <= 0) by (rewrite <- F; apply sign_neg; exact R).
  clearbody q. destruct q as [a d].
  assert (SG : (0 <= a * (a + n * Zpos d))%Z).
  { unfold one_side in SD.
    unfold Qle, Qplus, inject_Z in X, Y, X', Y'. cbn [Qnum Qden] in X, Y, X', Y'.
    destruct SD as [[A B]|[A B]].
    - apply X in A. apply X' in B. apply Z.mul_nonneg_nonneg; lia.
    - apply Y in A. apply Y' in B. apply Z.mul_nonpos_nonpos; lia. }
  unfold Qplus, inject_Z. cbn [Qnum Qden]. rewrite Pos.mul_1_r, Z.mul_1_r. apply Z.quot_add; [discriminate|lia].
Qed.
Lemma key_moved res n p p' : 0 < res -> moved_pt res n p p' -> same_sides p p' -> key_of res p' = moved_key n (key_of res p).
Proof.
  intros R M (A & B & D). destruct n as [[i j] k]. destruct M as (M1 & M2 & M3). unfold key_of, moved_key.
  rewrite (idx_moved res i _ _ R M1 A), (idx_moved res j _ _ R M2 B), (idx_moved res k _ _ R M3 D). reflexivity.
Qed.
Lemma keys_moved n a b : key_eqb (moved_key n a) (moved_key n b) = key_eqb a b.
Proof.
  destruct n as [[i j] k], a as [[a1 a2] a3], b as [[b1 b2] b3]. unfold key_eqb, moved_key.
  assert (E : forall x y t, Z.eqb (x + t) (y + t) = Z.eqb x y) by (intros x y t; destruct (Z.eqb_spec x y), (Z.eqb_spec (x + t) (y + t)); try reflexivity; lia).
  rewrite !E. reflexivity.
Qed.
Definition moved_entries (n : Key) (l : list (Key * list nat)) : list (Key * list nat) := map (fun e => (moved_key n (fst e), snd e)) l.
Lemma aupd_moved n k f m : aupd (moved_entries n m) (moved_key n k) f = moved_entries n (aupd m k f).
Proof.
  induction m as [|[a v] m IH]; [reflexivity|]. cbn [moved_entries map aupd fst snd]. rewrite keys_moved. destruct (key_eqb a k); [reflexivity|].
  cbn [map fst snd]. f_equal. exact IH.
Qed.
Lemma abs_same x y : x == y -> Qabs' x == Qabs' y.
Proof. intro E. unfold Qabs'. rewrite (ltb_same 1 ltac:(reflexivity) y 0 x 0) by (rewrite ?E; ring). destruct (Qltb y 0); rewrite E; reflexivity. Qed.
Lemma max_same a b x y : a == x -> b == y -> Qmax' a b == Qmax' x y.
Proof. intros A B. unfold Qmax'. rewrite (ltb_same 1 ltac:(reflexivity) x y a b) by (rewrite ?A, ?B; ring). destruct (Qltb x y); assumption. Qed.
Definition prev_moved (res : Q) (n : Key) (a a' : option Pt) : Prop :=
  match a, a' with None, None => True | Some p, Some p' => moved_pt res n p p' | _, _ => False end.
Lemma close_moved res n d q q' p p' : prev_moved res n q q' -> moved_pt res n p p' -> too_close d q' p' = too_close d q p.
Proof.
  intros S M. unfold too_close. f_equal. destruct q as [q|], q' as [q'|]; try contradiction; [|reflexivity].
  destruct n as [[i j] k]. destruct S as (S1 & S2 & S3), M as (M1 & M2 & M3).
  apply (ltb_same 1); [reflexivity| |ring]. rewrite Qmult_1_l. apply max_same; [apply max_same|]; apply abs_same; [rewrite S1, M1|rewrite S2, M2|rewrite S3, M3]; ring.
Qed.
Lemma g_loop_moved res n d : 0 < res -> forall l l', Forall2 (fun p p' => moved_pt res n p p' /\ same_sides p p') l l' ->
  forall q q' i m, prev_moved res n q q' -> g_loop res d q' i l' (moved_entries n m) = moved_entries n (g_loop res d q i l m).
Proof.
  intro R. induction 1 as [|p p' l l' [M SD] _ IH]; intros q q' i m S; [reflexivity|].
  cbn [g_loop]. rewrite (close_moved res n d q q' p p' S M), (key_moved res n p p' R M SD). destruct (too_close d q p); [apply IH; exact S|].
  rewrite aupd_moved. apply IH. exact M.
Qed.

(** C362, where it holds: the origin being moved by whole voxels and no coordinate changing its sign, the grid reports the voxels with the
    same points, their keys being moved. *)
Theorem C362_origin_of_the_voxels_where : forall g g' res n l l', 0 < res -> g_min_dist g' = g_min_dist g ->
  Forall2 (fun p p' => moved_pt res n p p' /\ same_sides p p') l l' ->
  g_visit (g_process (g_configure g' res true) l') =
  map (fun e => (moved_key n (fst e), snd e)) (g_visit (g_process (g_configure g res true) l)).
Proof.
  intros * R D S. unfold g_process, g_configure, g_clear, g_visit. cbn [g_robin g_res g_min_dist g_tsl g_std]. rewrite D.
  apply (g_loop_moved res n (g_min_dist g) R l l' S None None 0 []). exact I.
Qed.
(** C362: refuted even for whole voxels, since the index is rounded towards zero: 40 cm to the two sides of the origin are one voxel of
    one metre, and two anywhere else. *)
Definition vo_left : Pt := mkPt (- (2 # 5)) 0 0 0 0 0.
Definition vo_right : Pt := mkPt (2 # 5) 0 0 0 0 0.
Definition vo_left10 : Pt := mkPt (48 # 5) 0 0 0 0 0.
Definition vo_right10 : Pt := mkPt (52 # 5) 0 0 0 0 0.
Theorem C362_origin_of_the_voxels_refuted :
  ~ (forall g res n l l', 0 < res -> Forall2 (moved_pt res n) l l' ->
       map snd (g_visit (g_process (g_configure g res true) l')) = map snd (g_visit (g_process (g_configure g res true) l))).
Proof.
  intro H. specialize (H (mkGrid 1 true 0 [] []) 1 (10, 0, 0)%Z [vo_left; vo_right] [vo_left10; vo_right10] eq_refl).
  specialize (H ltac:(repeat constructor; reflexivity)). vm_compute in H. discriminate H.
Qed.
(** the same two points seen from 10 and from 20 metres *)
Example C362_case : exists v, v = g_visit (g_process (g_configure (mkGrid 1 true 0 [] []) 1 true) [vo_left10; vo_right10]) /\ List.length v = 2%nat
  /\ g_visit (g_process (g_configure (mkGrid 5 true 0 [] []) 1 true) [mkPt (98 # 5) 0 0 0 0 0; mkPt (102 # 5) 0 0 0 0 0]) = map (fun e => (moved_key (10, 0, 0)%Z (fst e), snd e)) v.
Proof.
  eexists. split; [reflexivity|]. split; [vm_compute; reflexivity|].
  apply C362_origin_of_the_voxels_where; [reflexivity|reflexivity|].
  repeat apply Forall2_cons; try apply Forall2_nil; (split; [repeat split; reflexivity|]); (split; [|split]); left; split; discriminate.
Qed.
