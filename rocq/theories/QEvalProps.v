(** C185-C189: QualityEvaluator_RangeImageSimilarity. *)
From Coq Require Import String Reals Qreals Lra Lqa Lia.
From Verif Require Import Base FilterModel FMergeModel QEvalModel QEvalSpec QEvalProofs.
Open Scope Q_scope.

(** ** Sums *)
Lemma rsum_app a b : rsum (a ++ b) = (rsum a + rsum b)%R.
Proof. induction a as [|x a IH]; cbn [rsum fold_right app]; [unfold rsum; cbn; Lra.lra|]. fold (rsum (a ++ b)). fold (rsum a). rewrite IH. Lra.lra. Qed.

Lemma over_flat (f : nat -> nat -> list R) (g : nat -> nat -> R) (m : list R -> R) rows cols :
  m nil = 0%R -> (forall a b, m (a ++ b) = m a + m b)%R -> (forall r c, In r rows -> In c cols -> m (f r c) = g r c) ->
  m (flat_map (fun r => flat_map (f r) cols) rows)
  = fold_right (fun rc s => (g (fst rc) (snd rc) + s)%R) 0%R (list_prod rows cols).
Proof.
  intros Z A H. induction rows as [|r t IH]; cbn [flat_map list_prod]; [exact Z|].
  rewrite A, fold_right_app, IH by (intros; apply H; [right|]; assumption). clear IH.
  assert (forall c, In c cols -> m (f r c) = g r c) as H' by (intros; apply H; [left; reflexivity|assumption]). clear H.
  generalize (fold_right (fun rc s => (g (fst rc) (snd rc) + s)%R) 0%R (list_prod t cols)) as K. intro K.
  induction cols as [|c cs IH]; cbn [flat_map map fold_right]; [rewrite Z; Lra.lra|].
  rewrite A, H' by (left; reflexivity). cbn [fst snd]. rewrite <- IH by (intros; apply H'; right; assumption). Lra.lra.
Qed.

Lemma score_sum phi e a b : rsum (score_of phi e a b) = pixel_similarity phi e a b.
Proof.
  unfold score_of, pixel_similarity, mismatch_of, mismatch.
  destruct (Qeq_bool a 0), (Qeq_bool b 0); cbn; Lra.lra.
Qed.
Lemma score_count phi e a b : INR (List.length (score_of phi e a b)) = pixel_weight a b.
Proof. unfold score_of, pixel_weight. destruct (Qeq_bool a 0), (Qeq_bool b 0); reflexivity. Qed.

Lemma qeq_bool_ext a b : a == b -> Qeq_bool a 0 = Qeq_bool b 0.
Proof.
  intro H. destruct (Qeq_bool b 0) eqn:E.
  - apply Qeq_bool_iff in E. apply Qeq_bool_iff. lra.
  - destruct (Qeq_bool a 0) eqn:F; [|reflexivity]. apply Qeq_bool_iff in F.
    assert (b == 0) as K by lra. apply Qeq_bool_iff in K. congruence.
Qed.
Lemma similarity_ext phi e a b a' b' : a == a' -> b == b' -> pixel_similarity phi e a b = pixel_similarity phi e a' b'.
Proof.
  intros A B. unfold pixel_similarity. rewrite (qeq_bool_ext _ _ A), (qeq_bool_ext _ _ B), (Qeq_eqR _ _ A), (Qeq_eqR _ _ B). reflexivity.
Qed.
Lemma weight_ext a b a' b' : a == a' -> b == b' -> pixel_weight a b = pixel_weight a' b'.
Proof. intros A B. unfold pixel_weight. rewrite (qeq_bool_ext _ _ A), (qeq_bool_ext _ _ B). reflexivity. Qed.

Lemma scores_sum phi e A B (A' B' : Img) :
  (forall r c, rows_ok (re_cam e) r c -> A r c == A' r c /\ B r c == B' r c) ->
  rsum (scores phi e A B) = over_pixels (re_cam e) (fun r c => pixel_similarity phi e (A' r c) (B' r c))
  /\ INR (List.length (scores phi e A B)) = over_pixels (re_cam e) (fun r c => pixel_weight (A' r c) (B' r c)).
Proof.
  intro H. unfold scores, over_pixels. split.
  - apply (over_flat (fun r c => score_of phi e (A r c) (B r c)) (fun r c => pixel_similarity phi e (A' r c) (B' r c)) rsum); [reflexivity|apply rsum_app|].
    intros r c Ir Ic. apply in_seq in Ir, Ic. rewrite score_sum.
    destruct (H r c) as [X Y]; [split; lia|]. apply similarity_ext; assumption.
  - apply (over_flat (fun r c => score_of phi e (A r c) (B r c)) (fun r c => pixel_weight (A' r c) (B' r c)) (fun l => INR (List.length l))); [reflexivity| |].
    + intros a b. rewrite app_length, plus_INR. reflexivity.
    + intros r c Ir Ic. apply in_seq in Ir, Ic. rewrite score_count.
      destruct (H r c) as [X Y]; [split; lia|]. apply weight_ext; assumption.
Qed.

Lemma image_unique cam rel l I A : project_points cam rel l = Some I -> ImageOf cam rel l A ->
  forall r c, rows_ok cam r c -> I r c == A r c.
Proof.
  intros E H r c RC. pose proof (project_nearest _ _ _ _ E r c RC) as N. destruct RC as [R C]. specialize (H r c R C).
  assert (Forall2 (fun p q => same_point (seen_from rel p) (seen_from rel q)) l l) as F.
  { clear. induction l; constructor; [repeat split; reflexivity|assumption]. }
  destruct (Q_dec (I r c) (A r c)) as [[K|K]|K]; [|exact (nearest_le _ _ _ _ _ _ _ _ _ F N H (or_intror K))|exact K].
  symmetry. exact (nearest_le _ _ _ _ _ _ _ _ _ F H N (or_intror K)).
Qed.

Lemma image_quality_val phi e p1 p2 T q : image_quality phi e p1 p2 T = Val q ->
  exists I11 I12 I22 I21,
    project_points (re_cam e) None p1 = Some I11 /\ project_points (re_cam e) (Some T) p1 = Some I12
    /\ project_points (re_cam e) None p2 = Some I22 /\ project_points (re_cam e) (Some (qinverse T)) p2 = Some I21
    /\ let s := (scores phi e I11 I21 ++ scores phi e I12 I22)%list in
       q = (if Nat.eqb (List.length s) 0 then 0%R else (rsum s / INR (List.length s))%R).
Proof.
  unfold image_quality.
  destruct (project_points (re_cam e) None p1) as [I11|]; [|discriminate].
  destruct (project_points (re_cam e) (Some T) p1) as [I12|]; [|discriminate].
  destruct (project_points (re_cam e) None p2) as [I22|]; [|discriminate].
  destruct (project_points (re_cam e) (Some (qinverse T)) p2) as [I21|]; [|discriminate].
  intro H. injection H as <-. exists I11, I12, I22, I21. cbn zeta. repeat split; reflexivity.
Qed.

(** ** C188 *)
(** Every pixel holds the range of the nearest of the points that fall on it, 0 if none. *)
Theorem C188_nearest_range : forall cam rel l I,
  project_points cam rel l = Some I -> ImageOf cam rel l I.
Proof. intros cam rel l I E r c R C. apply (project_nearest cam rel l I E). split; assumption. Qed.

(** The quality is the mean of the similarity of the pixels seen in either image, over the two
    comparisons. *)
Theorem C188_mean_of_pixels : forall phi e pg pl T q A11 A12 A22 A21,
  image_quality phi e pg pl T = Val q ->
  ImageOf (re_cam e) None pg A11 -> ImageOf (re_cam e) (Some T) pg A12 ->
  ImageOf (re_cam e) None pl A22 -> ImageOf (re_cam e) (Some (qinverse T)) pl A21 ->
  let total := (over_pixels (re_cam e) (fun r c => pixel_similarity phi e (A11 r c) (A21 r c))
              + over_pixels (re_cam e) (fun r c => pixel_similarity phi e (A12 r c) (A22 r c)))%R in
  let n := (over_pixels (re_cam e) (fun r c => pixel_weight (A11 r c) (A21 r c))
          + over_pixels (re_cam e) (fun r c => pixel_weight (A12 r c) (A22 r c)))%R in
  (n = 0%R -> q = 0%R) /\ (n <> 0%R -> q = total / n)%R.
Proof.
  intros phi e pg pl T q A11 A12 A22 A21 E H11 H12 H22 H21.
  destruct (image_quality_val _ _ _ _ _ _ E) as (I11 & I12 & I22 & I21 & E11 & E12 & E22 & E21 & Q).
  destruct (scores_sum phi e I11 I21 A11 A21) as [S1 N1].
  { intros r c RC. split; eapply image_unique; eauto. }
  destruct (scores_sum phi e I12 I22 A12 A22) as [S2 N2].
  { intros r c RC. split; eapply image_unique; eauto. }
  cbn zeta in *. rewrite <- S1, <- S2, <- N1, <- N2, <- plus_INR, <- app_length, <- rsum_app.
  rewrite Q. destruct (Nat.eqb_spec (List.length (scores phi e I11 I21 ++ scores phi e I12 I22)) 0) as [Z|Z].
  - split; [reflexivity|]. intro N. exfalso. apply N. rewrite Z. reflexivity.
  - split; [|reflexivity]. intro N. exfalso. apply Z. apply INR_eq. rewrite N. reflexivity.
Qed.

(** ** C185 *)
Lemma score_in phi e a b x : StdPhi phi -> 0 <= re_penalty e -> In x (score_of phi e a b) -> (0 <= x <= 1)%R.
Proof.
  intros (P0 & P & _) Hp H.
  assert (forall y, 0 <= y -> 0 <= 1 - phi y <= 1)%R as B by (intros y Hy; specialize (P y Hy); Lra.lra).
  unfold score_of, mismatch_of, mismatch in H.
  destruct (Qeq_bool a 0), (Qeq_bool b 0); cbn in H; try contradiction; destruct H as [<-|[]]; apply B;
    try apply Rabs_pos; apply Qle_Rle in Hp; unfold Q2R in Hp at 1; cbn in Hp; Lra.lra.
Qed.
Lemma scores_in phi e A B x : StdPhi phi -> 0 <= re_penalty e -> In x (scores phi e A B) -> (0 <= x <= 1)%R.
Proof.
  intros P Hp H. unfold scores in H. apply in_flat_map in H as (r & _ & H). apply in_flat_map in H as (c & _ & H).
  eapply score_in; eauto.
Qed.
Lemma rsum_bounds l : (forall x, In x l -> 0 <= x <= 1)%R -> (0 <= rsum l <= INR (List.length l))%R.
Proof.
  induction l as [|x t IH]; intro H; [cbn; Lra.lra|].
  cbn [rsum fold_right]. fold (rsum t). change (List.length (x :: t)) with (S (List.length t)). rewrite S_INR.
  specialize (IH (fun y Hy => H y (or_intror Hy))). specialize (H x (or_introl eq_refl)). Lra.lra.
Qed.

Lemma quality_bounds phi e pg pl T q : StdPhi phi -> 0 <= re_penalty e ->
  image_quality phi e pg pl T = Val q -> (0 <= q <= 1)%R.
Proof.
  intros P Hp E. destruct (image_quality_val _ _ _ _ _ _ E) as (I11 & I12 & I22 & I21 & _ & _ & _ & _ & Q).
  cbn zeta in Q. subst q. set (s := (scores phi e I11 I21 ++ scores phi e I12 I22)%list).
  destruct (Nat.eqb_spec (List.length s) 0) as [|Z]; [Lra.lra|].
  assert (0 <= rsum s <= INR (List.length s))%R as B.
  { apply rsum_bounds. intros x Hx. apply in_app_or in Hx as [Hx|Hx]; eapply scores_in; eauto. }
  assert (0 < INR (List.length s))%R as N by (apply lt_0_INR; lia).
  split.
  - apply Rmult_le_reg_r with (INR (List.length s)); [exact N|]. unfold Rdiv. rewrite Rmult_assoc, Rinv_l; Lra.lra.
  - apply Rmult_le_reg_r with (INR (List.length s)); [exact N|]. unfold Rdiv. rewrite Rmult_assoc, Rinv_l; Lra.lra.
Qed.

(** For any two maps and any pose, the result, if there is one, is in [0,1]. *)
Theorem C185_quality_in_unit_interval : forall phi e mg ml T q,
  StdPhi phi -> 0 <= re_penalty e -> 0 < re_sigma e ->
  ri_evaluate phi e mg ml T = Val q -> (0 <= q <= 1)%R.
Proof.
  intros phi e mg ml T q P Hp _ E. unfold ri_evaluate, point_layer in E.
  destruct (lfind mg "raw") as [[cg| |]|]; cbn [snd] in E; try discriminate.
  destruct (lfind ml "raw") as [[cl| |]|]; cbn [snd] in E; try discriminate.
  eapply quality_bounds; eauto.
Qed.

(** An exception exactly when a map has no layer "raw", or one that is not a point cloud. *)
Theorem C185_layer_required : forall phi e mg ml T,
  (lfind mg "raw" = None \/ (exists n, lfind mg "raw" = Some (LOther n)) -> ri_evaluate phi e mg ml T = Exc)
  /\ (forall cg, lfind mg "raw" = Some (LPts cg) ->
      (lfind ml "raw" = None \/ (exists n, lfind ml "raw" = Some (LOther n)) -> ri_evaluate phi e mg ml T = Exc)
      /\ forall cl, lfind ml "raw" = Some (LPts cl) -> ri_evaluate phi e mg ml T <> Exc).
Proof.
  intros phi e mg ml T. unfold ri_evaluate, point_layer. split.
  - intros [-> | [n ->]]; reflexivity.
  - intros cg ->. cbn [snd]. split; [intros [-> | [n ->]]; reflexivity|].
    intros cl ->. cbn [snd]. unfold image_quality.
    repeat match goal with |- context [match ?x with _ => _ end] => destruct x end; discriminate.
Qed.

(** Nothing in view in any of the four images: quality 0. *)
Theorem C185_nothing_visible : forall phi e pg pl T q,
  image_quality phi e pg pl T = Val q ->
  (forall p r c, In p pg -> (r < ca_nrows (re_cam e))%nat -> (c < ca_ncols (re_cam e))%nat ->
     ~ Lands (re_cam e) (coords p) r c /\ ~ Lands (re_cam e) (qcompose T (coords p)) r c) ->
  (forall p r c, In p pl -> (r < ca_nrows (re_cam e))%nat -> (c < ca_ncols (re_cam e))%nat ->
     ~ Lands (re_cam e) (coords p) r c /\ ~ Lands (re_cam e) (qcompose (qinverse T) (coords p)) r c) ->
  q = 0%R.
Proof.
  intros phi e pg pl T q E Hg Hl.
  pose (Z := fun (_ _ : nat) => 0).
  assert (forall rel l, (forall p r c, In p l -> (r < ca_nrows (re_cam e))%nat -> (c < ca_ncols (re_cam e))%nat -> ~ Lands (re_cam e) (seen_from rel p) r c)
          -> ImageOf (re_cam e) rel l Z) as HI.
  { intros rel l H r c R C. left. split; [intros p Ip; apply H; assumption|reflexivity]. }
  destruct (C188_mean_of_pixels phi e pg pl T q Z Z Z Z E) as [K _].
  1-4: apply HI; intros p r c Ip R C; cbn [seen_from]; try (apply (Hg p r c Ip R C)); apply (Hl p r c Ip R C).
  apply K. clear.
  assert (over_pixels (re_cam e) (fun r c => pixel_weight (Z r c) (Z r c)) = 0%R) as W; [|rewrite W; Lra.lra].
  unfold over_pixels. induction (list_prod _ _) as [|x t IH]; [reflexivity|].
  cbn [fold_right]. rewrite IH. unfold pixel_weight. cbn. Lra.lra.
Qed.

(** ** C186 *)
Lemma rigid_inverse T a b : Rigid T -> same_point a (qcompose T b) -> same_point (qcompose (qinverse T) a) b.
Proof.
  destruct T as [[a1 a2 a3] [b1 b2 b3] [c1 c2 c3] [x y z]], a as [u v w], b as [u' v' w'].
  unfold Rigid, same_point, qcompose, qinverse, dot3. cbn [q1 q2 q3 r1 r2 r3 qt].
  intros [_ (A & B & C & D & E & F)] (H1 & H2 & H3). rewrite H1, H2, H3. repeat split.
  - transitivity ((a1*a1+b1*b1+c1*c1) * u' + (a1*a2+b1*b2+c1*c2) * v' + (a1*a3+b1*b3+c1*c3) * w'); [ring|].
    rewrite A, D, E. ring.
  - transitivity ((a1*a2+b1*b2+c1*c2) * u' + (a2*a2+b2*b2+c2*c2) * v' + (a2*a3+b2*b3+c2*c3) * w'); [ring|].
    rewrite B, D, F. ring.
  - transitivity ((a1*a3+b1*b3+c1*c3) * u' + (a2*a3+b2*b3+c2*c3) * v' + (a3*a3+b3*b3+c3*c3) * w'); [ring|].
    rewrite C, E, F. ring.
Qed.

Lemma over_le cam f g : (forall r c, rows_ok cam r c -> f r c = g r c) -> over_pixels cam f = over_pixels cam g.
Proof.
  intro H. unfold over_pixels.
  assert (forall rc, In rc (list_prod (seq 0 (ca_nrows cam)) (seq 0 (ca_ncols cam))) -> rows_ok cam (fst rc) (snd rc)) as K.
  { intros [r c] I. apply in_prod_iff in I as [A B]. apply in_seq in A, B. split; cbn; lia. }
  induction (list_prod _ _) as [|x t IH]; [reflexivity|]. cbn [fold_right].
  rewrite H by (apply K; left; reflexivity). rewrite IH; [reflexivity|intros; apply K; right; assumption].
Qed.
Lemma over_pos cam f r0 c0 : (forall r c, 0 <= f r c)%R -> rows_ok cam r0 c0 -> (0 < f r0 c0)%R -> (0 < over_pixels cam f)%R.
Proof.
  intros H [R C] P. unfold over_pixels.
  assert (In (r0, c0) (list_prod (seq 0 (ca_nrows cam)) (seq 0 (ca_ncols cam)))) as I.
  { apply in_prod_iff. rewrite !in_seq. lia. }
  assert (forall l, 0 <= fold_right (fun rc s => f (fst rc) (snd rc) + s) 0 l)%R as NN.
  { induction l as [|x t IH]; cbn [fold_right]; [Lra.lra|]. specialize (H (fst x) (snd x)). Lra.lra. }
  induction (list_prod _ _) as [|x t IH]; [destruct I|]. cbn [fold_right]. destruct I as [->|I].
  - cbn [fst snd]. specialize (NN t). Lra.lra.
  - specialize (IH I). specialize (H (fst x) (snd x)). Lra.lra.
Qed.
Lemma weight_nonneg a b : (0 <= pixel_weight a b)%R.
Proof. unfold pixel_weight. destruct (_ && _)%bool; Lra.lra. Qed.

(** Clouds registered at [T] (the pose of the local cloud in the global one) need not get
    quality 1: the code moves the global cloud by [T] and the local one by its inverse. *)
Definition one_pixel : RiEval := mkRiEval (mkRiCam 1 1 (1#2) (1#2) 1 1) (1#10) 2.
Definition ahead : QPose := mkQPose (mkQ3 1 0 0) (mkQ3 0 1 0) (mkQ3 0 0 1) (mkQ3 1 0 0).
Definition at_x (x : Q) : Pt := mkPt x 0 0 0 0%Z 0.

Theorem C186_registered_gives_one_refuted : forall phi, StdPhi phi ->
  ~ (forall e pg pl T q, 0 < re_sigma e -> 0 < re_penalty e -> Rigid T -> Registered T pg pl ->
       Visible (re_cam e) pg -> Visible (re_cam e) pl ->
       image_quality phi e pg pl T = Val q -> q = 1%R).
Proof.
  intros phi (P0 & P & PP) H.
  assert (Visible (re_cam one_pixel) [at_x 3] /\ Visible (re_cam one_pixel) [at_x 2]) as [V1 V2].
  { split; eexists; exists 0%nat, 0%nat; (split; [left; reflexivity|]); (split; [cbn; lia|]); (split; [cbn; lia|]);
      split; left; unfold Qle, Qlt; cbn; lia. }
  specialize (H one_pixel [at_x 3] [at_x 2] ahead).
  destruct (image_quality phi one_pixel [at_x 3] [at_x 2] ahead) as [q| | |] eqn:E.
  2-4: vm_compute in E; discriminate.
  assert (q = 1%R) as ->.
  { apply H; try assumption; try reflexivity.
    - cbn. unfold Qeq; cbn. repeat split; reflexivity.
    - constructor; [|constructor]. unfold same_point, Qeq; cbn; repeat split; reflexivity. }
  unfold image_quality in E.
  cbn -[Q2R sqrt Rplus Rdiv rsum] in E.
  injection E as E.
  match type of E with ((mismatch_of _ (sqrt (Q2R ?a) - sqrt (Q2R ?b)) ?s + (mismatch_of _ (sqrt (Q2R ?c) - sqrt (Q2R ?d)) _ + 0)) / _ = _)%R =>
    assert (sqrt (Q2R b) < sqrt (Q2R a))%R as L1; [apply sqrt_lt_1_alt; split; [|apply Qlt_Rlt; reflexivity]; unfold Q2R; cbn; Lra.lra|];
    assert (sqrt (Q2R d) < sqrt (Q2R c))%R as L2; [apply sqrt_lt_1_alt; split; [|apply Qlt_Rlt; reflexivity]; unfold Q2R; cbn; Lra.lra|];
    assert (0 < s)%R as Hs; [unfold Q2R; cbn; Lra.lra|];
    set (sa := sqrt (Q2R a)) in *; set (sb := sqrt (Q2R b)) in *; set (sc := sqrt (Q2R c)) in *; set (sd := sqrt (Q2R d)) in *;
    set (sg := s) in *
  end.
  unfold mismatch_of, mismatch in E.
  assert (0 < phi (Rabs ((sa - sb) / sg)))%R.
  { apply PP, Rabs_pos_lt. apply Rgt_not_eq. apply Rdiv_lt_0_compat; Lra.lra. }
  assert (0 < phi (Rabs ((sc - sd) / sg)))%R.
  { apply PP, Rabs_pos_lt. apply Rgt_not_eq. apply Rdiv_lt_0_compat; Lra.lra. }
  Lra.lra.
Qed.

(** Where it holds: when [T] is the pose of the global cloud in the local one (the inverse of
    the documented meaning) and something is in view. *)
Theorem C186_registered_where : forall phi e pg pl T q,
  StdPhi phi -> 0 < re_sigma e -> Rigid T -> Registered T pl pg ->
  Visible (re_cam e) pg \/ Visible (re_cam e) pl ->
  image_quality phi e pg pl T = Val q -> q = 1%R.
Proof.
  intros phi e pg pl T q (P0 & _) _ RT RG V E.
  destruct (image_quality_val _ _ _ _ _ _ E) as (I11 & I12 & I22 & I21 & E11 & E12 & E22 & E21 & _).
  destruct (C188_mean_of_pixels phi e pg pl T q I11 I12 I22 I21 E) as [_ K];
    try (intros r c R C; eapply project_nearest; [eassumption|split; assumption]).
  assert (forall r c, rows_ok (re_cam e) r c -> I11 r c == I21 r c) as S1.
  { apply (same_image (re_cam e) None pg (Some (qinverse T)) pl I11 I21); [|exact E11|exact E21].
    clear -RG RT. unfold Registered in RG. induction RG as [|l g tl tg H F IH]; constructor; [|exact IH].
    apply same_sym. cbn [seen_from]. apply rigid_inverse; assumption. }
  assert (forall r c, rows_ok (re_cam e) r c -> I12 r c == I22 r c) as S2.
  { apply (same_image (re_cam e) (Some T) pg None pl I12 I22); [|exact E12|exact E22].
    clear -RG. unfold Registered in RG. induction RG as [|l g tl tg H F IH]; constructor; [|exact IH].
    apply same_sym. exact H. }
  assert (forall a b, a == b -> pixel_similarity phi e a b = pixel_weight a b) as SW.
  { intros a b H. unfold pixel_similarity, pixel_weight. rewrite (qeq_bool_ext a b H), (Qeq_eqR _ _ H).
    destruct (Qeq_bool b 0); [reflexivity|]. cbn [andb].
    replace (sqrt (Q2R b) - sqrt (Q2R b))%R with 0%R by Lra.lra. unfold Rdiv. rewrite Rmult_0_l, Rabs_R0, P0. Lra.lra. }
  rewrite (over_le (re_cam e) (fun r c => pixel_similarity phi e (I11 r c) (I21 r c)) (fun r c => pixel_weight (I11 r c) (I21 r c))) in K
    by (intros; apply SW; auto).
  rewrite (over_le (re_cam e) (fun r c => pixel_similarity phi e (I12 r c) (I22 r c)) (fun r c => pixel_weight (I12 r c) (I22 r c))) in K
    by (intros; apply SW; auto).
  assert (0 <= over_pixels (re_cam e) (fun r c => pixel_weight (I11 r c) (I21 r c)))%R as G1.
  { unfold over_pixels. induction (list_prod _ _) as [|x t IH]; cbn [fold_right]; [Lra.lra|].
    pose proof (weight_nonneg (I11 (fst x) (snd x)) (I21 (fst x) (snd x))). Lra.lra. }
  assert (0 <= over_pixels (re_cam e) (fun r c => pixel_weight (I12 r c) (I22 r c)))%R as G2.
  { unfold over_pixels. induction (list_prod _ _) as [|x t IH]; cbn [fold_right]; [Lra.lra|].
    pose proof (weight_nonneg (I12 (fst x) (snd x)) (I22 (fst x) (snd x))). Lra.lra. }
  assert (forall rel l I, project_points (re_cam e) rel l = Some I -> forall p r c, In p l -> rows_ok (re_cam e) r c ->
     Lands (re_cam e) (seen_from rel p) r c -> Qeq_bool (I r c) 0 = false) as NZ.
  { intros rel l I EI p r c Ip RC L. destruct (Qeq_bool (I r c) 0) eqn:B; [|reflexivity]. apply Qeq_bool_iff in B.
    assert (Forall (fun p => Drawable (re_cam e) (seen_from rel p)) l) as D by (apply (draw_all_defined _ _ _ (fun _ _ => 0)); eauto).
    destruct (project_nearest _ _ _ _ EI r c RC) as [[N _]|[[p0 (I0 & L0 & V0)] _]]; [exfalso; eapply N; eauto|].
    rewrite Forall_forall in D. specialize (D p0 I0). apply pixel_some in D as [xy D]. apply pixel_nonzero in D. lra. }
  rewrite K; [|]; cbn zeta.
  - destruct V as [(p & r & c & Ip & R & C & L)|(p & r & c & Ip & R & C & L)].
    + assert (0 < over_pixels (re_cam e) (fun r c => pixel_weight (I11 r c) (I21 r c)))%R.
      { apply over_pos with r c; [intros; apply weight_nonneg|split; assumption|].
        unfold pixel_weight. rewrite (NZ None pg I11 E11 p r c Ip (conj R C) L). cbn [andb]. Lra.lra. }
      field. Lra.lra.
    + assert (0 < over_pixels (re_cam e) (fun r c => pixel_weight (I12 r c) (I22 r c)))%R.
      { apply over_pos with r c; [intros; apply weight_nonneg|split; assumption|].
        unfold pixel_weight. rewrite (NZ None pl I22 E22 p r c Ip (conj R C) L). rewrite andb_false_r. Lra.lra. }
      field. Lra.lra.
  - destruct V as [(p & r & c & Ip & R & C & L)|(p & r & c & Ip & R & C & L)].
    + assert (0 < over_pixels (re_cam e) (fun r c => pixel_weight (I11 r c) (I21 r c)))%R; [|Lra.lra].
      apply over_pos with r c; [intros; apply weight_nonneg|split; assumption|].
      unfold pixel_weight. rewrite (NZ None pg I11 E11 p r c Ip (conj R C) L). cbn [andb]. Lra.lra.
    + assert (0 < over_pixels (re_cam e) (fun r c => pixel_weight (I12 r c) (I22 r c)))%R; [|Lra.lra].
      apply over_pos with r c; [intros; apply weight_nonneg|split; assumption|].
      unfold pixel_weight. rewrite (NZ None pl I22 E22 p r c Ip (conj R C) L). rewrite andb_false_r. Lra.lra.
Qed.

(** Non-vacuity of C186_registered_where: two images of a moved cloud, both in view. *)
Example C186_where_case : Rigid ahead /\ Registered ahead [at_x 3] [at_x 2] /\ Visible (re_cam one_pixel) [at_x 2]
  /\ forall phi, exists q, image_quality phi one_pixel [at_x 2] [at_x 3] ahead = Val q.
Proof.
  split; [cbn; unfold Qeq; cbn; repeat split; reflexivity|].
  split; [constructor; [|constructor]; unfold same_point, Qeq; cbn; repeat split; reflexivity|].
  split; [eexists; exists 0%nat, 0%nat; (split; [left; reflexivity|]); (split; [cbn; lia|]); (split; [cbn; lia|]);
      split; left; unfold Qle, Qlt; cbn; lia|].
  intro phi. unfold image_quality.
  destruct (project_points (re_cam one_pixel) None [at_x 2]) eqn:A; [|vm_compute in A; discriminate].
  destruct (project_points (re_cam one_pixel) (Some ahead) [at_x 2]) eqn:B; [|vm_compute in B; discriminate].
  destruct (project_points (re_cam one_pixel) None [at_x 3]) eqn:C; [|vm_compute in C; discriminate].
  destruct (project_points (re_cam one_pixel) (Some (qinverse ahead)) [at_x 3]) eqn:D; [|vm_compute in D; discriminate].
  eexists; reflexivity.
Qed.

(** ** C187 *)
(** A point behind the camera is drawn. *)
Theorem C187_only_points_in_view_refuted :
  ~ (forall cam l I, project_points cam None l = Some I ->
       forall r c, (r < ca_nrows cam)%nat -> (c < ca_ncols cam)%nat ->
         Nearest (fun q => InView cam q r c) None l (I r c)).
Proof.
  intro H. specialize (H (re_cam one_pixel) [at_x (-(1))]).
  destruct (project_points (re_cam one_pixel) None [at_x (-(1))]) as [I|] eqn:E; [|vm_compute in E; discriminate].
  specialize (H I eq_refl 0%nat 0%nat). cbn in H. specialize (H (le_n _) (le_n _)).
  assert (I 0%nat 0%nat == 1) as V.
  { unfold project_points in E. cbn in E. injection E as <-. unfold Qeq; cbn. reflexivity. }
  destruct H as [[_ Z]|[[p (I0 & (P & _) & _)] _]]; [lra|].
  destruct I0 as [<-|[]]. cbn in P. unfold Qlt in P; cbn in P. lia.
Qed.
(** Nor are only points in front the problem: one to the left of the first column is drawn on it. *)
Theorem C187_left_of_the_image_refuted :
  ~ (forall cam l I, project_points cam None l = Some I -> (forall p, In p l -> 0 < px p) ->
       forall r c, (r < ca_nrows cam)%nat -> (c < ca_ncols cam)%nat ->
         Nearest (fun q => InView cam q r c) None l (I r c)).
Proof.
  intro H. specialize (H (re_cam one_pixel) [mkPt 1 1 0 0 0%Z 0]).
  destruct (project_points (re_cam one_pixel) None [mkPt 1 1 0 0 0%Z 0]) as [I|] eqn:E; [|vm_compute in E; discriminate].
  specialize (H I eq_refl). 
  assert (forall p, In p [mkPt 1 1 0 0 0%Z 0] -> 0 < px p) as F by (intros p [<-|[]]; reflexivity).
  specialize (H F 0%nat 0%nat). cbn in H. specialize (H (le_n _) (le_n _)).
  assert (I 0%nat 0%nat == 2) as V.
  { unfold project_points in E. cbn in E. injection E as <-. unfold Qeq; cbn. reflexivity. }
  destruct H as [[_ Z]|[[p (I0 & (_ & (P & _) & _) & _)] _]]; [lra|].
  destruct I0 as [<-|[]]. unfold Qle in P; cbn in P. lia.
Qed.

Lemma nearest_iff (A B : Q3 -> Prop) rel l v :
  (forall p, In p l -> A (seen_from rel p) <-> B (seen_from rel p)) -> Nearest A rel l v -> Nearest B rel l v.
Proof.
  intros H [[N Z]|[[p (I & L & V)] M]].
  - left. split; [|exact Z]. intros p Ip K. apply (N p Ip), H; assumption.
  - right. split; [exists p; split; [exact I|]; split; [apply H; assumption|exact V]|].
    intros p' Ip K. apply M; [exact Ip|]. apply H; assumption.
Qed.

(** Where it holds: all points in front of the camera, none just outside the left or top border. *)
Theorem C187_in_view_where : forall cam rel l I,
  project_points cam rel l = Some I ->
  (forall p, In p l -> 0 < q1 (seen_from rel p)
     /\ ~ (-(1) < col_of cam (seen_from rel p) /\ col_of cam (seen_from rel p) < 0)
     /\ ~ (-(1) < row_of cam (seen_from rel p) /\ row_of cam (seen_from rel p) < 0)) ->
  forall r c, (r < ca_nrows cam)%nat -> (c < ca_ncols cam)%nat ->
    Nearest (fun q => InView cam q r c) rel l (I r c).
Proof.
  intros cam rel l I E H r c R C.
  apply nearest_iff with (A := fun q => Lands cam q r c); [|eapply project_nearest; [exact E|split; assumption]].
  intros p Ip. destruct (H p Ip) as (P & U & V). unfold Lands, InView.
  assert (forall n u, ~ (-(1) < u /\ u < 0) -> CutTo n u <-> Contains n u) as K.
  { intros n u N. unfold CutTo, Contains. split; [|tauto]. intros [X|(-> & A & B)]; [exact X|].
    change (inject_Z (Z.of_nat 0)) with 0. split; [|lra]. apply Qnot_lt_le. intro G. apply N. split; assumption. }
  rewrite (K c _ U), (K r _ V). tauto.
Qed.

(** ** C189 *)
(** A point on the plane of the camera (its own origin, for one) makes the evaluation undefined. *)
Theorem C189_defined_for_every_cloud_refuted : forall phi,
  ~ (forall e pg pl T, image_quality phi e pg pl T <> Undef).
Proof. intros phi H. apply (H one_pixel [at_x 0] [] qidentity). reflexivity. Qed.

Definition AllDrawable (cam : RiCam) (rel : option QPose) (l : list Pt) : Prop :=
  forall p, In p l -> Drawable cam (seen_from rel p).

(** Exactly the clouds whose points, in the four views, are off the plane of the camera and at
    image coordinates that fit an int. *)
Theorem C189_defined_where : forall phi e pg pl T,
  (exists q, image_quality phi e pg pl T = Val q)
  <-> AllDrawable (re_cam e) None pg /\ AllDrawable (re_cam e) (Some T) pg
      /\ AllDrawable (re_cam e) None pl /\ AllDrawable (re_cam e) (Some (qinverse T)) pl.
Proof.
  intros phi e pg pl T.
  assert (forall rel l, (exists I, project_points (re_cam e) rel l = Some I) <-> AllDrawable (re_cam e) rel l) as D.
  { intros rel l. unfold project_points. rewrite draw_all_defined. unfold AllDrawable. apply Forall_forall. }
  split.
  - intros [q E]. destruct (image_quality_val _ _ _ _ _ _ E) as (I11 & I12 & I22 & I21 & E11 & E12 & E22 & E21 & _).
    split; [apply D; eauto|]. split; [apply D; eauto|]. split; apply D; eauto.
  - intros (A & B & C & F). apply D in A as [? A]. apply D in B as [? B]. apply D in C as [? C]. apply D in F as [? F].
    unfold image_quality. rewrite A, B, C, F. eexists; reflexivity.
Qed.
Example C189_case : AllDrawable (re_cam one_pixel) (Some ahead) [at_x 3].
Proof.
  intros p [<-|[]]. split; [intro H; vm_compute in H; discriminate|].
  split; split; unfold Qlt; vm_compute; reflexivity.
Qed.
