(** Centroids, and the walk over noiseless correspondences. *)
From Coq Require Import Reals List Lra Lia Psatz.
From Verif Require Import Base GeomModel VisitModel VisitSpec VisitProps RotProofs HornProofs.
Import ListNotations.
Open Scope R_scope.

Definition vsum (l : list V3) : V3 := fold_right vadd vzero3 l.
Definition centroid (l : list V3) : V3 := vscale (/ INR (length l)) (vsum l).

Lemma vadd_assoc a b c : vadd a (vadd b c) = vadd (vadd a b) c.
Proof. destruct a, b, c. vunf. f_equal; ring. Qed.
Lemma vadd_comm a b : vadd a b = vadd b a.
Proof. destruct a, b. vunf. f_equal; ring. Qed.
Lemma vadd_0_r a : vadd a vzero3 = a.
Proof. destruct a. unfold vzero3. vunf. f_equal; ring. Qed.

Lemma centroid_loop_nil ps : forall i cl cg cnt,
  vcentroid_loop i ps [] cl cg cnt = (vadd cl (vsum (map snd ps)), vadd cg (vsum (map fst ps)), (cnt + length ps)%nat).
Proof.
  induction ps as [|[g l] ps IH]; intros i cl cg cnt; cbn [vcentroid_loop map vsum fold_right fst snd length].
  - rewrite !vadd_0_r, Nat.add_0_r. reflexivity.
  - rewrite IH, !vadd_assoc. unfold vsum. replace (S cnt + length ps)%nat with (cnt + S (length ps))%nat by lia. reflexivity.
Qed.

Lemma vadd_0_l a : vadd vzero3 a = a.
Proof. rewrite vadd_comm. apply vadd_0_r. Qed.

Lemma eval_centroids_nil ps : ps <> [] -> eval_centroids ps [] = Ok (centroid (map snd ps), centroid (map fst ps)).
Proof.
  intros NE. unfold eval_centroids. destruct ps as [|x ps]; [contradiction|]. cbn [length].
  destruct (Nat.ltb_spec 0 (S (length ps))); [|lia]. rewrite centroid_loop_nil, !vadd_0_l, Nat.add_0_l, Nat.sub_0_r.
  cbn [length]. rewrite Nat.eqb_refl. unfold centroid. rewrite !map_length. reflexivity.
Qed.

(** every pair is exactly related by the pose *)
Definition noiseless (T0 : Pose) (p : VPairs) : Prop :=
  Forall (fun x => fst x = compose T0 (snd x)) (vp_pts p) /\
  Forall (fun x => fst x = rotate T0 (snd x)) (vp_lns p) /\
  Forall (fun x => fst x = rotate T0 (snd x)) (vp_pls p).

Lemma vscale_add k a b : vscale k (vadd a b) = vadd (vscale k a) (vscale k b).
Proof. destruct a, b. vunf. f_equal; ring. Qed.

Lemma vsum_noiseless T0 ps : Forall (fun x : V3 * V3 => fst x = compose T0 (snd x)) ps ->
  vsum (map fst ps) = vadd (rotate T0 (vsum (map snd ps))) (vscale (INR (length ps)) (tr T0)).
Proof.
  induction 1 as [|[g l] ps E F IH].
  - cbn [map vsum fold_right length]. destruct T0 as [[? ? ?] [? ? ?] [? ? ?] [? ? ?]]. unfold vzero3. vunf. f_equal; ring.
  - cbn [map vsum fold_right fst snd]. fold (vsum (map fst ps)). fold (vsum (map snd ps)). rewrite IH. simpl in E. rewrite E, rotate_add.
    cbn [length]. rewrite S_INR. destruct (rotate T0 (vsum (map snd ps))). unfold compose. destruct (rotate T0 l), (tr T0). vunf. f_equal; ring.
Qed.

Lemma centroid_noiseless T0 ps : ps <> [] -> Forall (fun x : V3 * V3 => fst x = compose T0 (snd x)) ps ->
  centroid (map fst ps) = compose T0 (centroid (map snd ps)).
Proof.
  intros NE F. unfold centroid. rewrite (vsum_noiseless T0 ps F), !map_length.
  assert (P : INR (length ps) <> 0) by (destruct ps; [contradiction|]; cbn [length]; apply not_0_INR; lia).
  unfold compose. rewrite rotate_scale, vscale_add. f_equal. destruct (tr T0). vunf. f_equal; field; exact P.
Qed.

Lemma sub_compose T a b : vsub (compose T a) (compose T b) = rotate T (vsub a b).
Proof. rewrite rotate_sub. unfold compose. destruct (rotate T a), (rotate T b), (tr T). vunf. f_equal; ring. Qed.

Lemma rotate_norm T v : is_rotation T -> vnorm (rotate T v) = vnorm v.
Proof. intros RT. unfold vnorm. rewrite rotate_norm2 by exact RT. reflexivity. Qed.

Section Walk.
Variables (T0 : Pose) (p : VPairs) (wp : VWeights) (normalize : bool).
Hypothesis RT : is_rotation T0.
Hypothesis NL : noiseless T0 p.
Hypothesis NE : vp_pts p <> [].
Hypothesis THR : wp_use_scale wp = true -> 1 <= wp_scale_thr wp.
Let ctl := centroid (map snd (vp_pts p)).
Let ctg := centroid (map fst (vp_pts p)).

Definition good_item (it : item) : Prop :=
  match it with IPt g l => g = compose T0 l | ILn g l => g = rotate T0 l | IPl g l => g = rotate T0 l end.

Lemma good_items : Forall good_item (items p).
Proof.
  destruct NL as [A [B C]]. unfold items. rewrite !Forall_app, !Forall_map.
  repeat split; eapply Forall_impl; try eassumption; intros [g l]; simpl; auto.
Qed.

Lemma good_fate i it : good_item it ->
  match fate_of p wp ctl ctg [] normalize i it with
  | Used c => c_b c = rotate T0 (c_r c)
  | Outlier => False
  | Dropped => True
  end.
Proof.
  intros G. unfold fate_of. destruct (in_dec Nat.eq_dec i []) as [[]|_].
  destruct it as [g l|g l|g l]; simpl in G; [|simpl; exact G|simpl; exact G].
  assert (E : vsub g ctg = rotate T0 (vsub l ctl)).
  { unfold ctg, ctl. rewrite (centroid_noiseless T0 (vp_pts p) NE (proj1 NL)), G. apply sub_compose. }
  rewrite E. rewrite (rotate_norm T0 (vsub l ctl) RT). set (n := vnorm (vsub l ctl)).
  destruct (Rlt_dec n (1 / 10000)) as [|X]; [exact I|].
  assert (Q : (if wp_use_scale wp then if Rlt_dec (wp_scale_thr wp) (Rmax n n / Rmin n n) then true else false else false) = false).
  { destruct (wp_use_scale wp) eqn:US; [|reflexivity]. specialize (THR eq_refl).
    destruct (Rlt_dec _ _) as [L|]; [|reflexivity]. exfalso.
    assert (V : Rmax n n / Rmin n n = 1).
    { unfold Rmax, Rmin. destruct (Rle_dec n n) as [|K]; [|exfalso; apply K; lra]. field. lra. }
    lra. }
  rewrite Q. simpl. destruct normalize; [|reflexivity].
  unfold unit. rewrite (rotate_norm T0 (vsub l ctl) RT), rotate_scale. reflexivity.
Qed.

Lemma noiseless_walk : outliers_from p wp ctl ctg [] normalize 0 (items p) = [] /\
  Forall (fun c => c_b c = rotate T0 (c_r c)) (used_from p wp ctl ctg [] normalize 0 (items p)).
Proof.
  assert (G : forall its i, Forall good_item its -> outliers_from p wp ctl ctg [] normalize i its = [] /\
    Forall (fun c => c_b c = rotate T0 (c_r c)) (used_from p wp ctl ctg [] normalize i its)).
  { induction its as [|it its IH]; intros i F; [split; constructor|]. inversion F as [|? ? G F']; subst.
    destruct (IH (S i) F') as [A B]. assert (Q := good_fate i it G). cbn [outliers_from used_from].
    destruct (fate_of p wp ctl ctg [] normalize i it); [|destruct Q|].
    - rewrite A. split; [reflexivity|]. constructor; assumption.
    - rewrite A. split; [reflexivity|exact B]. }
  apply G. apply good_items.
Qed.
End Walk.

Lemma rot_cost_zero cs T : Forall (fun c => c_b c = rotate T (c_r c)) cs -> rot_cost cs T = 0.
Proof.
  induction 1 as [|c cs E F IH]; simpl; [reflexivity|]. rewrite IH, E. destruct (rotate T (c_r c)). vunf. ring.
Qed.

Lemma vnorm2_nonneg v : 0 <= vnorm2 v.
Proof. destruct v. vunf. nra. Qed.
Lemma vnorm2_zero v : vnorm2 v = 0 -> v = vzero3.
Proof. destruct v as [x y z]. vunf. intros E. assert (x = 0) by nra. assert (y = 0) by nra. assert (z = 0) by nra. subst. reflexivity. Qed.

Lemma rot_cost_nonpos cs T : Forall (fun c => 0 < c_w c) cs -> rot_cost cs T <= 0 -> Forall (fun c => c_b c = rotate T (c_r c)) cs.
Proof.
  assert (NN : forall cs, Forall (fun c => 0 < c_w c) cs -> 0 <= rot_cost cs T).
  { induction 1 as [|c l W F IH]; simpl; [lra|]. assert (0 <= vnorm2 (vsub (c_b c) (rotate T (c_r c)))) by apply vnorm2_nonneg. nra. }
  induction 1 as [|c l W F IH]; simpl; intros L; [constructor|].
  assert (A : 0 <= vnorm2 (vsub (c_b c) (rotate T (c_r c)))) by apply vnorm2_nonneg. assert (B := NN l F).
  assert (M : 0 <= c_w c * vnorm2 (vsub (c_b c) (rotate T (c_r c)))) by nra.
  constructor; [|apply IH; lra].
  assert (Z : vnorm2 (vsub (c_b c) (rotate T (c_r c))) = 0) by nra. apply vnorm2_zero in Z.
  destruct (c_b c), (rotate T (c_r c)). unfold vzero3 in Z. vunf. injection Z as Z0 Z1 Z2. f_equal; lra.
Qed.
