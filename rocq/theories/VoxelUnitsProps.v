(** C360: the unit of length of a cloud and of the resolution of the voxel grids. *)
From Coq Require Import String QArith Lqa Lia.
From Verif Require Import Base FilterModel VoxelModel.
Import ListNotations.
Open Scope Q_scope.
Open Scope list_scope.

(** ** Specification *)
(** the same point, its coordinates in the other unit; the channels are no lengths *)
Definition scaled_pt (c : Q) (p p' : Pt) : Prop :=
  px p' == c * px p /\ py p' == c * py p /\ pz p' == c * pz p /\ p_int p' = p_int p /\ p_ring p' = p_ring p /\ p_time p' = p_time p.
Definition scaled_cloud (c : Q) (l l' : list Pt) : Prop := Forall2 (scaled_pt c) l l'.
(** the same voxel of the single-point grid: same key, same index, cloud and count, and the point in the other unit *)
Definition scaled_voxel (c : Q) (v v' : Key * SVoxel) : Prop :=
  fst v' = fst v /\ scaled_pt c (sv_pt (snd v)) (sv_pt (snd v')) /\ sv_idx (snd v') = sv_idx (snd v)
  /\ sv_src (snd v') = sv_src (snd v) /\ sv_count (snd v') = sv_count (snd v).
(** the same choice: of a new point or of an existing one *)
Definition scaled_choice (c : Q) (a a' : option (bool * Pt)) : Prop :=
  match a, a' with None, None => True | Some (b, p), Some (b', p') => b' = b /\ scaled_pt c p p' | _, _ => False end.

(** ** Proofs *)
Lemma quot_compat a b : a == b -> Z.quot (Qnum a) (Zpos (Qden a)) = Z.quot (Qnum b) (Zpos (Qden b)).
Proof.
  unfold Qeq. intro H.
  rewrite <- (Z.quot_mul_cancel_r (Qnum a) (Zpos (Qden a)) (Zpos (Qden b))) by discriminate.
  rewrite <- (Z.quot_mul_cancel_r (Qnum b) (Zpos (Qden b)) (Zpos (Qden a))) by discriminate.
  rewrite H. f_equal. ring.
Qed.
Lemma scaled_length c l l' : scaled_cloud c l l' -> List.length l = List.length l'.
Proof. induction 1; cbn; congruence. Qed.
Section Unit.
Variable c : Q.
Hypothesis CP : 0 < c.
Lemma ratio_same x y r s : y == c * x -> s == c * r -> y / s == x / r.
Proof.
  intros E F. unfold Qdiv. rewrite E, F, Qinv_mult_distr. assert (N : ~ c == 0) by (intro X; rewrite X in CP; discriminate CP).
  transitivity ((c * / c) * (x * / r)); [ring|]. rewrite (Qmult_inv_r c N). ring.
Qed.
Lemma key_same res res' p p' : res' == c * res -> scaled_pt c p p' -> key_of res' p' = key_of res p.
Proof.
  intros R (A & B & D & _). unfold key_of, coord2idx. cbv zeta.
  rewrite (quot_compat _ _ (ratio_same _ _ _ _ A R)), (quot_compat _ _ (ratio_same _ _ _ _ B R)), (quot_compat _ _ (ratio_same _ _ _ _ D R)). reflexivity.
Qed.
Lemma ltb_same a b a' b' : a' == c * a -> b' == c * b -> Qltb a' b' = Qltb a b.
Proof.
  intros A B. unfold Qltb. f_equal. destruct (Qle_bool b a) eqn:E.
  - apply Qle_bool_iff. apply Qle_bool_iff in E. rewrite A, B. apply Qmult_le_l; assumption.
  - destruct (Qle_bool b' a') eqn:F; [|reflexivity]. apply Qle_bool_iff in F. rewrite A, B in F. apply Qmult_le_l in F; [|exact CP].
    apply Qle_bool_iff in F. congruence.
Qed.
Lemma abs_scaled a a' : a' == c * a -> Qabs' a' == c * Qabs' a.
Proof.
  intro A. unfold Qabs'. rewrite (ltb_same a 0 a' 0 A) by ring. destruct (Qltb a 0); rewrite A; ring.
Qed.
Lemma max_scaled a b a' b' : a' == c * a -> b' == c * b -> Qmax' a' b' == c * Qmax' a b.
Proof. intros A B. unfold Qmax'. rewrite (ltb_same a b a' b' A B). destruct (Qltb a b); assumption. Qed.
Definition same_prev (a a' : option Pt) : Prop :=
  match a, a' with None, None => True | Some p, Some p' => scaled_pt c p p' | _, _ => False end.
Lemma close_same d d' q q' p p' : d' == c * d -> same_prev q q' -> scaled_pt c p p' -> too_close d' q' p' = too_close d q p.
Proof.
  intros D S (A1 & A2 & A3 & _). unfold too_close. f_equal.
  - f_equal. destruct (Qeq_bool d 0) eqn:E.
    + apply Qeq_bool_iff in E. apply Qeq_bool_iff. rewrite D, E. ring.
    + destruct (Qeq_bool d' 0) eqn:F; [|reflexivity]. apply Qeq_bool_iff in F. rewrite D in F. apply Qmult_integral in F.
      destruct F as [F|F]; [rewrite F in CP; discriminate CP|]. apply Qeq_bool_iff in F. congruence.
  - destruct q as [q|], q' as [q'|]; try contradiction; [|reflexivity]. destruct S as (B1 & B2 & B3 & _).
    apply ltb_same; [|exact D]. apply max_scaled; [apply max_scaled|]; apply abs_scaled; [rewrite A1, B1|rewrite A2, B2|rewrite A3, B3]; ring.
Qed.
Lemma g_loop_same res res' d d' : res' == c * res -> d' == c * d -> forall l l', scaled_cloud c l l' -> forall q q' i m, same_prev q q' ->
  g_loop res' d' q' i l' m = g_loop res d q i l m.
Proof.
  intros R D. induction 1 as [|p p' l l' P _ IH]; intros q q' i m S; [reflexivity|].
  cbn [g_loop]. rewrite (close_same d d' q q' p p' D S P), (key_same res res' p p' R P). destruct (too_close d q p); apply IH; assumption.
Qed.
Lemma g_processes_same : forall clouds clouds', Forall2 (scaled_cloud c) clouds clouds' -> forall g g',
  g_res g' == c * g_res g -> g_min_dist g' == c * g_min_dist g -> g_robin g' = g_robin g -> g_visit g' = g_visit g ->
  (g_robin g = true -> g_tsl g' = g_tsl g) ->
  g_visit (fold_left g_process clouds' g') = g_visit (fold_left g_process clouds g).
Proof.
  induction 1 as [|l l' clouds clouds' P _ IH]; intros g g' R D B V T; [exact V|].
  cbn [fold_left]. apply IH; [exact R|exact D|exact B| |].
  - unfold g_process, g_visit in *. cbn [g_robin g_tsl g_std]. rewrite B in V |- *. destruct (g_robin g).
    + rewrite (T eq_refl). apply g_loop_same; [exact R|exact D|exact P|exact I].
    + exact V.
  - intro X. unfold g_process. cbn [g_tsl]. rewrite (T X). apply g_loop_same; [exact R|exact D|exact P|exact I].
Qed.

Definition found_same (o o' : option SVoxel) : Prop :=
  match o, o' with None, None => True | Some v, Some v' => forall k, scaled_voxel c (k, v) (k, v') | _, _ => False end.
Lemma aupd_scaled k f f' : (forall o o', found_same o o' -> scaled_voxel c (k, f o) (k, f' o')) ->
  forall m m', Forall2 (scaled_voxel c) m m' -> Forall2 (scaled_voxel c) (aupd m k f) (aupd m' k f').
Proof.
  intro F. induction 1 as [|[a v] [a' v'] m m' P MM IH]; cbn [aupd].
  - constructor; [apply F; exact I|constructor].
  - assert (E := proj1 P). cbn [fst] in E. rewrite E. destruct (key_eqb a k) eqn:K; constructor; try assumption.
    + assert (X := F (Some v) (Some v') (fun _ => conj eq_refl (proj2 P))). split; [reflexivity|exact (proj2 X)].
    + split; [reflexivity|exact (proj2 P)].
Qed.
Lemma s_put_scaled src i p p' k : scaled_pt c p p' -> forall o o', found_same o o' -> scaled_voxel c (k, s_put src i p o) (k, s_put src i p' o').
Proof.
  intros P [v|] [v'|] S; try contradiction.
  - destruct (S k) as (_ & A & B & D & E). cbn [snd] in *. unfold s_put. rewrite E. destruct (Nat.eqb (sv_count v) 0); repeat split; cbn [snd sv_pt sv_idx sv_src sv_count]; try assumption; try apply P; try apply A.
  - repeat split; apply P.
Qed.
Lemma s_loop_scaled res res' src : res' == c * res -> forall l l', scaled_cloud c l l' -> forall i m m', Forall2 (scaled_voxel c) m m' ->
  Forall2 (scaled_voxel c) (s_loop res src i l m) (s_loop res' src i l' m').
Proof.
  intro R. induction 1 as [|p p' l l' P _ IH]; intros i m m' M; [exact M|].
  cbn [s_loop]. apply IH. rewrite (key_same res res' p p' R P). apply aupd_scaled; [|exact M]. intros o o' S. apply s_put_scaled; assumption.
Qed.
Lemma s_processes_scaled : forall clouds clouds', Forall2 (scaled_cloud c) clouds clouds' -> forall g g' tag,
  s_res g' == c * s_res g -> s_robin g' = s_robin g -> Forall2 (scaled_voxel c) (s_visit g) (s_visit g') ->
  Forall2 (scaled_voxel c) (s_visit (s_process_all g tag clouds)) (s_visit (s_process_all g' tag clouds')).
Proof.
  induction 1 as [|l l' clouds clouds' P _ IH]; intros g g' tag R B V; [exact V|].
  cbn [s_process_all]. apply IH; unfold s_process; rewrite B; unfold s_visit in *; rewrite B in V; destruct (s_robin g); try exact R; try reflexivity;
    cbn [s_robin s_tsl s_std]; apply s_loop_scaled; assumption.
Qed.

Lemma sum_scaled f : (forall p p', scaled_pt c p p' -> f p' == c * f p) -> forall l l', scaled_cloud c l l' -> forall a a', a' == c * a ->
  fold_left (fun x p => x + f p) l' a' == c * fold_left (fun x p => x + f p) l a.
Proof.
  intro F. induction 1 as [|p p' l l' P _ IH]; intros a a' A; [exact A|]. cbn [fold_left]. apply IH. rewrite A, (F p p' P). ring.
Qed.
Lemma mean_scaled f l l' : (forall p p', scaled_pt c p p' -> f p' == c * f p) -> scaled_cloud c l l' -> mean_by f l' == c * mean_by f l.
Proof.
  intros F S. unfold mean_by, sum_by. rewrite (sum_scaled f F l l' S 0 0) by ring. rewrite <- (scaled_length _ _ _ S). ring.
Qed.
Definition scaled_triple (o o' : Q * Q * Q) : Prop :=
  fst (fst o') == c * fst (fst o) /\ snd (fst o') == c * snd (fst o) /\ snd o' == c * snd o.
Lemma mean_pt_scaled l l' : scaled_cloud c l l' -> scaled_triple (mean_pt l) (mean_pt l').
Proof. intro S. unfold mean_pt, scaled_triple. cbn [fst snd]. repeat split; apply mean_scaled; try exact S; intros p p' P; apply P. Qed.
Lemma sq_scaled o o' p p' : scaled_triple o o' -> scaled_pt c p p' -> sq_norm_from o' p' == (c * c) * sq_norm_from o p.
Proof.
  destruct o as [[x y] z], o' as [[x' y'] z']. intros (A & B & D) (P1 & P2 & P3 & _). cbn [fst snd] in *. unfold sq_norm_from, sq.
  rewrite A, B, D, P1, P2, P3. ring.
Qed.
Lemma cc_pos : 0 < c * c.
Proof. rewrite <- (Qmult_0_l c). apply Qmult_lt_compat_r; exact CP. Qed.
End Unit.
Definition same_best (c : Q) (b b' : option (Q * Pt)) : Prop :=
  match b, b' with None, None => True | Some (e, p), Some (e', p') => e' == (c * c) * e /\ scaled_pt c p p' | _, _ => False end.
Lemma closest_scaled c o o' : 0 < c -> scaled_triple c o o' -> forall l l', scaled_cloud c l l' -> forall b b', same_best c b b' ->
  same_best c (closest o b l) (closest o' b' l').
Proof.
  intros CP O. induction 1 as [|p p' l l' P _ IH]; intros b b' S; [exact S|]. cbn [closest]. cbv zeta. apply IH.
  assert (E := sq_scaled c o o' p p' O P). destruct b as [[e q]|], b' as [[e' q']|]; try contradiction.
  - destruct S as [S1 S2]. rewrite (ltb_same (c * c) (cc_pos c CP) _ _ _ _ E S1). destruct (Qltb (sq_norm_from o p) e); split; assumption.
  - split; assumption.
Qed.
Lemma nth_scaled c l l' i : scaled_cloud c l l' ->
  match nth_error l i, nth_error l' i with None, None => True | Some p, Some p' => scaled_pt c p p' | _, _ => False end.
Proof. intro S. revert i. induction S as [|p p' l l' P _ IH]; intros [|i]; cbn; try exact I; [exact P|apply IH]. Qed.

(** C360: with the clouds and the resolution (and the minimum distance between consecutive points) given in another unit of length, the
    grid reports the same voxels with the same points. *)
Theorem C360_voxels_in_another_unit : forall c g g' res res' robin clouds clouds', 0 < c -> res' == c * res ->
  g_min_dist g' == c * g_min_dist g -> Forall2 (scaled_cloud c) clouds clouds' ->
  g_visit (fold_left g_process clouds' (g_configure g' res' robin)) = g_visit (fold_left g_process clouds (g_configure g res robin)).
Proof.
  intros * CP R D S. apply (g_processes_same c CP clouds clouds' S); unfold g_configure, g_clear; cbn [g_robin]; destruct robin;
    cbn [g_res g_min_dist g_robin g_visit g_tsl g_std]; try assumption; try reflexivity; try discriminate; intros _; reflexivity.
Qed.
(** C360: so does the grid that keeps one point per voxel: the same point of the same cloud, with the same count. *)
Theorem C360_single_voxels_in_another_unit : forall c g g' res res' robin clouds clouds' tag, 0 < c -> res' == c * res -> Forall2 (scaled_cloud c) clouds clouds' ->
  Forall2 (scaled_voxel c) (s_visit (s_process_all (s_configure g res robin) tag clouds)) (s_visit (s_process_all (s_configure g' res' robin) tag clouds')).
Proof.
  intros * CP R S. apply (s_processes_scaled c CP clouds clouds' S); unfold s_configure, s_clear; cbn [s_robin]; destruct robin;
    cbn [s_res s_robin s_visit s_tsl s_std]; try assumption; try reflexivity; constructor.
Qed.
(** C360: and with every method, the representative of a voxel is the same one, in the other unit. *)
Theorem C360_same_representative : forall c me r l l', 0 < c -> scaled_cloud c l l' -> scaled_choice c (represent me r l) (represent me r l').
Proof.
  intros * CP S. destruct me; unfold represent.
  - assert (N := nth_scaled c l l' 0 S). destruct (nth_error l 0), (nth_error l' 0); try contradiction; [|exact I]. split; [reflexivity|exact N].
  - assert (B := closest_scaled c _ _ CP (mean_pt_scaled c l l' S) l l' S None None I).
    destruct (closest (mean_pt l) None l) as [[e p]|], (closest (mean_pt l') None l') as [[e' p']|]; try contradiction; [|exact I].
    split; [reflexivity|exact (proj2 B)].
  - assert (M := mean_pt_scaled c l l' S). destruct (mean_pt l) as [[x y] z], (mean_pt l') as [[x' y'] z'].
    destruct S as [|p p' l l' P S]; [exact I|]. split; [reflexivity|]. destruct M as (A & B & D). repeat split; assumption.
  - rewrite <- (scaled_length _ _ _ S). set (k := Nat.modulo r (List.length l)). assert (N := nth_scaled c l l' k S).
    destruct (nth_error l k), (nth_error l' k); try contradiction; [|exact I]. split; [reflexivity|exact N].
Qed.

(** ** A case: metres and centimetres, five points in three voxels *)
Definition vu_pts : list Pt := map (fun t => mkPt (fst t) (snd t) 0 7 3%Z 0) [(1 # 10, 0); (1 # 2, 0); (9 # 10, 1 # 4); (- (6 # 10), 0); (1 # 5, 0)].
Definition vu_cm (p : Pt) : Pt := mkPt (100 * px p) (100 * py p) (100 * pz p) (p_int p) (p_ring p) (p_time p).
Lemma vu_scaled : scaled_cloud 100 vu_pts (map vu_cm vu_pts).
Proof. unfold vu_pts. cbn [map]. repeat constructor. Qed.
Example C360_case :
  let g := mkGrid 1 true (1 # 1000) [] [] in let g' := mkGrid 1 true (1 # 10) [] [] in
  let v := g_visit (fold_left g_process [vu_pts] (g_configure g (1 # 2) true)) in
  v = [((0, 0, 0)%Z, [0; 4]%nat); ((1, 0, 0)%Z, [1; 2]%nat); ((-1, 0, 0)%Z, [3]%nat)]
  /\ g_visit (fold_left g_process [map vu_cm vu_pts] (g_configure g' 50 true)) = v
  /\ scaled_choice 100 (represent ClosestToAverage 0 vu_pts) (represent ClosestToAverage 0 (map vu_cm vu_pts)).
Proof.
  cbv zeta. split; [vm_compute; reflexivity|]. split.
  - apply (C360_voxels_in_another_unit 100); try reflexivity. constructor; [exact vu_scaled|constructor].
  - apply C360_same_representative; [reflexivity|exact vu_scaled].
Qed.
