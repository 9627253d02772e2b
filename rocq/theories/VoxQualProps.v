(** C190-C193: QualityEvaluator_Voxels. *)
From Coq Require Import String Reals Qreals Qround Lra Lqa Lia.
From Verif Require Import Base FilterModel FMergeModel QEvalModel QEvalSpec QEvalProofs.
Open Scope Q_scope.

Lemma vcoord_eqb_eq a b : vcoord_eqb a b = true <-> a = b.
Proof.
  destruct a as [[x y] z], b as [[u v] w]. unfold vcoord_eqb. rewrite !andb_true_iff, !Z.eqb_eq.
  split; [intros [[-> ->] ->]; reflexivity|intro H; injection H as -> -> ->; repeat split].
Qed.

Lemma vg_find_in g c y : NoDup (map fst (vg_cells g)) -> vg_find g c = Some y <-> In (c, y) (vg_cells g).
Proof.
  unfold vg_find. induction (vg_cells g) as [|[k v] t IH]; cbn [map fst find]; intro ND.
  - split; [discriminate|intros []].
  - inversion ND as [|? ? N1 N2]; subst. destruct (vcoord_eqb k c) eqn:E.
    + apply vcoord_eqb_eq in E; subst k. cbn. split; [intro H; injection H as ->; left; reflexivity|].
      intros [H|H]; [injection H as ->; reflexivity|]. exfalso. apply N1. apply (in_map fst) in H. exact H.
    + assert (k <> c) as NE by (intro; subst; rewrite (proj2 (vcoord_eqb_eq c c) eq_refl) in E; discriminate).
      rewrite IH by assumption. cbn [In]. split; [tauto|]. intros [H|H]; [congruence|exact H].
Qed.

Lemma barely_clear x : barely x = false <-> Clear x.
Proof.
  unfold barely, Clear. rewrite andb_false_iff. split.
  - intros [H|H].
    + left. apply Qnot_lt_le. intro K. apply Qltb_true in K. congruence.
    + right. apply Qnot_lt_le. intro K. apply Qltb_true in K. congruence.
  - intros [H|H]; [left|right].
    + destruct (Qltb (49#100) x) eqn:E; [apply Qltb_true in E; lra|reflexivity].
    + destruct (Qltb x (51#100)) eqn:E; [apply Qltb_true in E; lra|reflexivity].
Qed.
Lemma vx_term_in x y v : In v (vx_term x y) <-> Clear x /\ Clear y /\ v = vx_loss x y.
Proof.
  unfold vx_term. destruct (barely y) eqn:A; destruct (barely x) eqn:B; cbn [orb].
  1-3: split; [intros []|]; rewrite <- !barely_clear; intros (X & Y & _); congruence.
  apply barely_clear in A, B. split; [intros [<-|[]]; tauto|intros (_ & _ & ->); left; reflexivity].
Qed.

(** The terms of the sum are the losses of the pairs compared. *)
Lemma vx_terms_in ge g l T v : GridOK g -> GridOK l -> vg_res g = vg_res l ->
  In v (vx_terms ge g l T) <-> exists x y, Compared ge g l T x y /\ v = vx_loss x y.
Proof.
  intros [Ng _] [Nl _] R. unfold vx_terms. rewrite in_app_iff, !in_flat_map. split.
  - intros [([c x] & I & H)|([d y] & I & H)].
    + unfold per_local in H. cbn [fst snd] in H.
      destruct (vg_find g _) as [y|] eqn:E; [|destruct H]. apply vg_find_in in E; [|exact Ng].
      apply vx_term_in in H as (A & B & C). exists x, y. split; [|exact C]. split; [|tauto]. left. eauto 10.
    + unfold per_global in H. cbn [fst snd] in H.
      destruct (vg_find l _) as [x|] eqn:E; [|destruct H]. apply vg_find_in in E; [|exact Nl].
      apply vx_term_in in H as (A & B & C). exists x, y. split; [|exact C]. split; [|tauto]. right.
      rewrite <- R in E at 2. eauto 10.
  - intros (x & y & [[(c & d & I & J & K)|(c & d & I & J & K)] [A B]] & ->).
    + left. exists (c, x). split; [exact I|]. unfold per_local. cbn [fst snd]. rewrite <- K.
      rewrite (proj2 (vg_find_in g d y Ng) J). apply vx_term_in. tauto.
    + right. exists (d, y). split; [exact J|]. unfold per_global. cbn [fst snd]. rewrite <- R at 2. rewrite <- K.
      rewrite (proj2 (vg_find_in l c x Nl) I). apply vx_term_in. tauto.
Qed.

Lemma logistic_in (x : R) : (0 < 1 / (1 + exp x) < 1)%R.
Proof.
  pose proof (exp_pos x). split.
  - apply Rdiv_lt_0_compat; Lra.lra.
  - apply Rmult_lt_reg_r with (1 + exp x)%R; [Lra.lra|]. unfold Rdiv. rewrite Rmult_assoc, Rinv_l; Lra.lra.
Qed.

(** ** C190 *)
Theorem C190_zero_or_inside : forall ge scale g l T,
  (0 <= vx_quality ge scale g l T < 1)%R.
Proof.
  intros. unfold vx_quality. destruct (vx_terms ge g l T); [Lra.lra|].
  match goal with |- context [exp ?x] => pose proof (logistic_in x) end. Lra.lra.
Qed.

(** 0 exactly when no pair of well-observed voxels is at the same place. *)
Theorem C190_zero_iff_nothing_compared : forall ge scale g l T,
  GridOK g -> GridOK l -> vg_res g = vg_res l ->
  vx_quality ge scale g l T = 0%R <-> ~ exists x y, Compared ge g l T x y.
Proof.
  intros ge scale g l T G L R. pose proof (vx_terms_in ge g l T) as H. unfold vx_quality.
  destruct (vx_terms ge g l T) as [|v t].
  - split; [|reflexivity]. intros _ (x & y & C). apply (H (vx_loss x y) G L R). eauto.
  - split.
    + intro E. match type of E with context [exp ?x] => pose proof (logistic_in x) end. Lra.lra.
    + intro N. exfalso. apply N. destruct (proj1 (H v G L R) (or_introl eq_refl)) as (x & y & C & _). eauto.
Qed.

Theorem C190_layer_required : forall ge scale lg ll T,
  (exists q, vx_evaluate ge scale lg ll T = Val q) <-> (exists g, lg = VVoxels g) /\ (exists l, ll = VVoxels l).
Proof.
  intros. unfold vx_evaluate. split.
  - destruct lg, ll; intros [q E]; try discriminate. eauto.
  - intros [[g ->] [l ->]]. eauto.
Qed.
Theorem C190_evaluate : forall ge scale g l T q,
  vx_evaluate ge scale (VVoxels g) (VVoxels l) T = Val q -> (0 <= q < 1)%R.
Proof. intros ge scale g l T q E. injection E as <-. apply C190_zero_or_inside. Qed.

(** ** Means *)
Lemma qsum_acc l a : fold_left Qplus l a == a + fold_left Qplus l 0.
Proof.
  revert a. induction l as [|x t IH]; intro a; cbn [fold_left]; [lra|].
  rewrite IH. rewrite (IH (0 + x)). lra.
Qed.
Lemma qsum_cons x t : qsum (x :: t) == x + qsum t.
Proof. unfold qsum. cbn [fold_left]. rewrite qsum_acc. lra. Qed.
Lemma qsum_app a b : qsum (a ++ b) == qsum a + qsum b.
Proof. induction a as [|x t IH]; cbn [app]; [unfold qsum; cbn; lra|]. rewrite !qsum_cons, IH. lra. Qed.

Lemma qsum_ge l b : (forall v, In v l -> b <= v) -> b * inject_Z (Z.of_nat (List.length l)) <= qsum l.
Proof.
  induction l as [|x t IH]; intro H; [unfold qsum; cbn [fold_left List.length]; change (inject_Z (Z.of_nat 0)) with 0; lra|].
  rewrite qsum_cons. change (List.length (x :: t)) with (S (List.length t)).
  rewrite Nat2Z.inj_succ. unfold Z.succ. rewrite inject_Z_plus. specialize (IH (fun v I => H v (or_intror I))).
  specialize (H x (or_introl eq_refl)). change (inject_Z 1) with 1. lra.
Qed.
Lemma qsum_le l b : (forall v, In v l -> v <= b) -> qsum l <= b * inject_Z (Z.of_nat (List.length l)).
Proof.
  induction l as [|x t IH]; intro H; [unfold qsum; cbn [fold_left List.length]; change (inject_Z (Z.of_nat 0)) with 0; lra|].
  rewrite qsum_cons. change (List.length (x :: t)) with (S (List.length t)).
  rewrite Nat2Z.inj_succ. unfold Z.succ. rewrite inject_Z_plus. specialize (IH (fun v I => H v (or_intror I))).
  specialize (H x (or_introl eq_refl)). change (inject_Z 1) with 1. lra.
Qed.
Lemma count_pos {A} (x : A) t : 0 < inject_Z (Z.of_nat (List.length (x :: t))).
Proof. change 0 with (inject_Z 0). rewrite <- Zlt_Qlt. cbn [List.length]. lia. Qed.

Definition logistic (x : R) : R := (1 / (1 + exp (- x)))%R.
Lemma logistic_mono x y : (x <= y)%R -> (logistic x <= logistic y)%R.
Proof.
  intro H. unfold logistic. assert (exp (- y) <= exp (- x))%R.
  { destruct H as [H| ->]; [left; apply exp_increasing; Lra.lra|right; reflexivity]. }
  pose proof (exp_pos (- y)). unfold Rdiv. rewrite !Rmult_1_l. apply Rinv_le_contravar; Lra.lra.
Qed.
Lemma logistic_strict x y : (x < y)%R -> (logistic x < logistic y)%R.
Proof.
  intro H. unfold logistic. assert (exp (- y) < exp (- x))%R by (apply exp_increasing; Lra.lra).
  pose proof (exp_pos (- y)). unfold Rdiv. rewrite !Rmult_1_l. apply Rinv_lt_contravar; [|Lra.lra].
  apply Rmult_lt_0_compat; Lra.lra.
Qed.
Lemma logistic_0 : logistic 0 = (/ 2)%R.
Proof. unfold logistic. rewrite Ropp_0, exp_0. Lra.lra. Qed.
Lemma quality_logistic ge scale g l T v t : vx_terms ge g l T = v :: t ->
  vx_quality ge scale g l T = logistic (Q2R scale * Q2R (qsum (v :: t) / inject_Z (Z.of_nat (List.length (v :: t)))))%R.
Proof. intro E. unfold vx_quality, logistic. rewrite E. do 4 f_equal. Lra.lra. Qed.

(** ** C191 *)
Lemma id_same p : same_point (qcompose qidentity p) p.
Proof. destruct p as [x y z]. unfold same_point, qcompose, qidentity, dot3; cbn. repeat split; ring. Qed.
Lemma inv_id_same p : same_point (qcompose (qinverse qidentity) p) p.
Proof. destruct p as [x y z]. unfold same_point, qcompose, qinverse, qidentity, dot3; cbn. repeat split; ring. Qed.

(** A map compared with itself, where it is. *)
Theorem C191_identical_maps : forall ge scale g,
  GeoOK ge -> GridOK g -> 0 <= scale -> (exists c x, In (c, x) (vg_cells g) /\ Clear x) ->
  (vx_quality ge scale g g qidentity >= 1 / (1 + exp (- (3/2) * Q2R scale)))%R.
Proof.
  intros ge scale g [G1 G2] G Sc (c & x & I & C).
  assert (forall v, In v (vx_terms ge g g qidentity) -> 3#2 <= v) as B.
  { intros v Iv. apply vx_terms_in in Iv; [|exact G|exact G|reflexivity].
    destruct Iv as (a & b & [T _] & ->). destruct G as [ND Occ]. rewrite Forall_forall in Occ.
    assert (a = b /\ 0 <= a /\ a <= 1) as (<- & A0 & A1).
    { destruct T as [(k & d & Ik & Id & E)|(k & d & Ik & Id & E)].
      - rewrite (G2 _ _ _ (id_same _)), G1 in E. subst d. split; [|exact (Occ _ Ik)].
        apply (vg_find_in g k a ND) in Ik. apply (vg_find_in g k b ND) in Id. congruence.
      - rewrite (G2 _ _ _ (inv_id_same _)), G1 in E. subst k. split; [|exact (Occ _ Ik)].
        apply (vg_find_in g d a ND) in Ik. apply (vg_find_in g d b ND) in Id. congruence. }
    unfold vx_loss. nra. }
  assert (In (vx_loss x x) (vx_terms ge g g qidentity)) as Iv.
  { apply vx_terms_in; [exact G|exact G|reflexivity|]. exists x, x. split; [|reflexivity]. split; [|tauto].
    left. exists c, c. split; [exact I|]. split; [exact I|]. rewrite (G2 _ _ _ (id_same _)), G1. reflexivity. }
  destruct (vx_terms ge g g qidentity) as [|v t] eqn:E; [destruct Iv|].
  rewrite (quality_logistic _ _ _ _ _ _ _ E). apply Rle_ge.
  replace (1 / (1 + exp (- (3 / 2) * Q2R scale)))%R with (logistic (3/2 * Q2R scale)) by (unfold logistic; do 3 f_equal; Lra.lra).
  apply logistic_mono.
  assert (3#2 <= qsum (v :: t) / inject_Z (Z.of_nat (List.length (v :: t)))) as M.
  { apply Qle_shift_div_l; [apply count_pos|]. apply qsum_ge. exact B. }
  apply Qle_Rle in M. apply Qle_Rle in Sc. replace (Q2R (3#2)) with (3/2)%R in M by (unfold Q2R; cbn; Lra.lra).
  replace (Q2R 0) with 0%R in Sc by (unfold Q2R; cbn; Lra.lra).
  rewrite Rmult_comm. apply Rmult_le_compat_l; assumption.
Qed.

(** ** C192 *)
Lemma agree_loss x y : 0 <= x -> x <= 1 -> 0 <= y -> y <= 1 -> Agree x y -> 1 <= vx_loss x y.
Proof. unfold Agree, vx_loss. intros A B C D [[E F]|[E F]]; nra. Qed.
Lemma contradict_loss x y : 0 <= x -> x <= 1 -> 0 <= y -> y <= 1 -> Contradict x y -> vx_loss x y <= -(1#4).
Proof. unfold Contradict, vx_loss. intros A B C D [[E F]|[E F]]; nra. Qed.

Lemma compared_unit ge g l T x y : GridOK g -> GridOK l -> Compared ge g l T x y -> 0 <= x /\ x <= 1 /\ 0 <= y /\ y <= 1.
Proof.
  intros [_ Og] [_ Ol] [[(c & d & I & J & _)|(c & d & I & J & _)] _];
    rewrite Forall_forall in Og, Ol; specialize (Og _ J); specialize (Ol _ I); cbn in *; tauto.
Qed.

Theorem C192_agreement_above_half : forall ge scale g l T,
  GridOK g -> GridOK l -> vg_res g = vg_res l -> 0 < scale ->
  (exists x y, Compared ge g l T x y) ->
  (forall x y, Compared ge g l T x y -> Agree x y) ->
  (vx_quality ge scale g l T > / 2)%R.
Proof.
  intros ge scale g l T G L R Sc (x0 & y0 & C0) H.
  assert (forall v, In v (vx_terms ge g l T) -> 1 <= v) as B.
  { intros v Iv. apply vx_terms_in in Iv as (x & y & C & ->); [|assumption..].
    destruct (compared_unit _ _ _ _ _ _ G L C) as (? & ? & ? & ?). apply agree_loss; auto. }
  assert (In (vx_loss x0 y0) (vx_terms ge g l T)) as Iv by (apply vx_terms_in; eauto).
  destruct (vx_terms ge g l T) as [|v t] eqn:E; [destruct Iv|].
  rewrite (quality_logistic _ _ _ _ _ _ _ E). rewrite <- logistic_0. apply logistic_strict.
  assert (1 <= qsum (v :: t) / inject_Z (Z.of_nat (List.length (v :: t)))) as M.
  { apply Qle_shift_div_l; [apply count_pos|]. apply qsum_ge. exact B. }
  apply Qle_Rle in M. apply Qlt_Rlt in Sc. replace (Q2R 1) with 1%R in M by (unfold Q2R; cbn; Lra.lra).
  replace (Q2R 0) with 0%R in Sc by (unfold Q2R; cbn; Lra.lra).
  apply Rmult_lt_0_compat; Lra.lra.
Qed.

Theorem C192_contradiction_below_half : forall ge scale g l T,
  GridOK g -> GridOK l -> vg_res g = vg_res l -> 0 < scale ->
  (forall x y, Compared ge g l T x y -> Contradict x y) ->
  (vx_quality ge scale g l T < / 2)%R.
Proof.
  intros ge scale g l T G L R Sc H.
  assert (forall v, In v (vx_terms ge g l T) -> v <= -(1#4)) as B.
  { intros v Iv. apply vx_terms_in in Iv as (x & y & C & ->); [|assumption..].
    destruct (compared_unit _ _ _ _ _ _ G L C) as (? & ? & ? & ?). apply contradict_loss; auto. }
  destruct (vx_terms ge g l T) as [|v t] eqn:E; [unfold vx_quality; rewrite E; Lra.lra|].
  rewrite (quality_logistic _ _ _ _ _ _ _ E). rewrite <- logistic_0. apply logistic_strict.
  assert (qsum (v :: t) / inject_Z (Z.of_nat (List.length (v :: t))) <= -(1#4)) as M.
  { apply Qle_shift_div_r; [apply count_pos|]. apply qsum_le. exact B. }
  apply Qle_Rle in M. apply Qlt_Rlt in Sc. replace (Q2R (-(1#4))) with (-(1/4))%R in M by (unfold Q2R; cbn; Lra.lra).
  replace (Q2R 0) with 0%R in Sc by (unfold Q2R; cbn; Lra.lra).
  apply Ropp_lt_cancel. rewrite Ropp_0, <- Ropp_mult_distr_r_reverse. apply Rmult_lt_0_compat; Lra.lra.
Qed.

(** ** C193 *)
(** Cells of size r, position of a cell its centre. *)
Definition centre (r : Q) (k : Z) : Q := (inject_Z k + (1#2)) * r.
Definition cubes : VGeom := mkVGeom
  (fun r c => let '(x, y, z) := c in mkQ3 (centre r x) (centre r y) (centre r z))
  (fun r p => (Qfloor (q1 p / r), Qfloor (q2 p / r), Qfloor (q3 p / r))).

(** Swapping the two maps (and inverting the pose) should give the same quality; with different
    resolutions it does not: global voxels are placed with the resolution of the local map. *)
Theorem C193_symmetric_refuted :
  ~ (forall scale g l T, 0 < scale -> GridOK g -> GridOK l -> Rigid T ->
       vx_quality cubes scale g l T = vx_quality cubes scale l g (qinverse T)).
Proof.
  intro H.
  specialize (H 1 (mkVGrid 1 [((0, 0, 0)%Z, 0); ((1, 1, 1)%Z, 1)]) (mkVGrid 2 [((0, 0, 0)%Z, 1)]) qidentity eq_refl).
  assert (vx_quality cubes 1 (mkVGrid 1 [((0, 0, 0)%Z, 0); ((1, 1, 1)%Z, 1)]) (mkVGrid 2 [((0, 0, 0)%Z, 1)]) qidentity
        = vx_quality cubes 1 (mkVGrid 2 [((0, 0, 0)%Z, 1)]) (mkVGrid 1 [((0, 0, 0)%Z, 0); ((1, 1, 1)%Z, 1)]) (qinverse qidentity)) as E.
  { apply H.
    - split; [repeat constructor; cbn; intuition discriminate|repeat constructor; cbn; lra].
    - split; [repeat constructor; cbn; intuition discriminate|repeat constructor; cbn; lra].
    - cbn. unfold Qeq; cbn. repeat split; reflexivity. }
  clear H.
  unfold vx_quality in E.
  set (t1 := vx_terms cubes (mkVGrid 1 _) (mkVGrid 2 _) qidentity) in E.
  set (t2 := vx_terms cubes (mkVGrid 2 _) (mkVGrid 1 _) (qinverse qidentity)) in E.
  vm_compute in t1. vm_compute in t2. subst t1 t2. cbv beta iota zeta in E.
  match type of E with (1 / (1 + exp (- Q2R _ * Q2R ?a)) = 1 / (1 + exp (- Q2R _ * Q2R ?b)))%R =>
    assert (b < a) as L by (vm_compute; reflexivity); set (qa := a) in *; set (qb := b) in * end.
  apply Qlt_Rlt in L. replace (Q2R 1) with 1%R in E by (unfold Q2R; cbn; Lra.lra).
  assert (logistic (Q2R qb) < logistic (Q2R qa))%R as S by (apply logistic_strict; exact L).
  unfold logistic in S. replace (- (1) * Q2R qa)%R with (- Q2R qa)%R in E by Lra.lra.
  replace (- (1) * Q2R qb)%R with (- Q2R qb)%R in E by Lra.lra. Lra.lra.
Qed.

Lemma inverse_inverse T p : Rigid T -> same_point (qcompose (qinverse (qinverse T)) p) (qcompose T p).
Proof.
  destruct T as [[a1 a2 a3] [b1 b2 b3] [c1 c2 c3] [x y z]], p as [u v w].
  unfold Rigid, same_point, qcompose, qinverse, dot3. cbn [q1 q2 q3 r1 r2 r3 qt].
  intros [(A & B & C & D & E & F) _]. repeat split.
  - transitivity (a1*u + a2*v + a3*w + ((a1*a1+a2*a2+a3*a3) * x + (a1*b1+a2*b2+a3*b3) * y + (a1*c1+a2*c2+a3*c3) * z)); [ring|].
    rewrite A, D, E. ring.
  - transitivity (b1*u + b2*v + b3*w + ((a1*b1+a2*b2+a3*b3) * x + (b1*b1+b2*b2+b3*b3) * y + (b1*c1+b2*c2+b3*c3) * z)); [ring|].
    rewrite B, D, F. ring.
  - transitivity (c1*u + c2*v + c3*w + ((a1*c1+a2*c2+a3*c3) * x + (b1*c1+b2*c2+b3*c3) * y + (c1*c1+c2*c2+c3*c3) * z)); [ring|].
    rewrite C, E, F. ring.
Qed.

Lemma vx_term_sym x y : Forall2 Qeq (vx_term x y) (vx_term y x).
Proof.
  unfold vx_term. rewrite orb_comm. destruct (barely x || barely y)%bool; constructor; [|constructor].
  unfold vx_loss. ring.
Qed.
Lemma flat_eq {A} (f h : A -> list Q) l : (forall a, Forall2 Qeq (f a) (h a)) -> Forall2 Qeq (flat_map f l) (flat_map h l).
Proof. intro H. induction l; cbn [flat_map]; [constructor|]. apply Forall2_app; auto. Qed.
Lemma forall2_sum a b : Forall2 Qeq a b -> qsum a == qsum b /\ List.length a = List.length b.
Proof.
  induction 1 as [|x y t u E F [S L]]; [split; reflexivity|]. rewrite !qsum_cons. split; [rewrite E, S; reflexivity|cbn; congruence].
Qed.

(** Where it holds: maps of the same resolution. *)
Theorem C193_symmetric_where : forall ge scale g l T,
  GeoOK ge -> vg_res g = vg_res l -> Rigid T ->
  vx_quality ge scale g l T = vx_quality ge scale l g (qinverse T).
Proof.
  intros ge scale g l T [G1 G2] R RT.
  assert (Forall2 Qeq (flat_map (per_local ge g l T) (vg_cells l)) (flat_map (per_global ge l g (qinverse T)) (vg_cells l))) as A.
  { apply flat_eq. intros [c x]. unfold per_local, per_global. cbn [fst snd].
    rewrite <- R. rewrite (G2 _ _ _ (inverse_inverse T _ RT)).
    destruct (vg_find g _); [apply vx_term_sym|constructor]. }
  assert (Forall2 Qeq (flat_map (per_global ge g l T) (vg_cells g)) (flat_map (per_local ge l g (qinverse T)) (vg_cells g))) as B.
  { apply flat_eq. intros [c x]. unfold per_local, per_global. cbn [fst snd].
    rewrite R. destruct (vg_find l _); [apply vx_term_sym|constructor]. }
  apply forall2_sum in A as [A1 A2]. apply forall2_sum in B as [B1 B2].
  assert (qsum (vx_terms ge g l T) == qsum (vx_terms ge l g (qinverse T))) as S.
  { unfold vx_terms. rewrite !qsum_app, A1, B1. lra. }
  assert (List.length (vx_terms ge g l T) = List.length (vx_terms ge l g (qinverse T))) as N.
  { unfold vx_terms. rewrite !app_length, A2, B2. lia. }
  unfold vx_quality. rewrite <- N.
  destruct (vx_terms ge g l T) as [|v t], (vx_terms ge l g (qinverse T)) as [|v' t']; try discriminate; [reflexivity|].
  cbn zeta.
  assert (qsum (v :: t) / inject_Z (Z.of_nat (List.length (v :: t))) == qsum (v' :: t') / inject_Z (Z.of_nat (List.length (v :: t)))) as D
    by (rewrite S; reflexivity).
  rewrite (Qeq_eqR _ _ D). reflexivity.
Qed.

(** Non-vacuity: a geometry and maps that satisfy the hypotheses of C190-C193. *)
Lemma centre_floor r k : 0 < r -> Qfloor (centre r k / r) = k.
Proof.
  intro H. unfold centre.
  assert ((inject_Z k + (1#2)) * r / r == inject_Z k + (1#2)) as E by (field; lra).
  rewrite (Qfloor_comp _ _ E). 
  assert (k <= Qfloor (inject_Z k + (1#2)))%Z.
  { pose proof (Qfloor_resp_le (inject_Z k) (inject_Z k + (1#2))) as M. rewrite Qfloor_Z in M. apply M. lra. }
  assert (inject_Z (Qfloor (inject_Z k + (1#2))) < inject_Z (k + 1)).
  { rewrite inject_Z_plus. pose proof (Qfloor_le (inject_Z k + (1#2))). change (inject_Z 1) with 1. lra. }
  rewrite <- Zlt_Qlt in H1. lia.
Qed.
Definition unit_cubes : VGeom := mkVGeom (fun _ => ge_pos cubes 1) (fun _ => ge_cell cubes 1).
Example C190_to_C193_case :
  GeoOK unit_cubes
  /\ GridOK (mkVGrid 1 [((0, 0, 0)%Z, 0); ((1, 1, 1)%Z, 1)])
  /\ Compared unit_cubes (mkVGrid 1 [((0, 0, 0)%Z, 0); ((1, 1, 1)%Z, 1)]) (mkVGrid 1 [((0, 0, 0)%Z, 0); ((1, 1, 1)%Z, 1)]) qidentity 1 1
  /\ Rigid qidentity.
Proof.
  split; [|split; [|split]].
  - split.
    + intros r [[x y] z]. unfold unit_cubes; cbn [ge_cell ge_pos]. unfold cubes; cbn [ge_cell ge_pos q1 q2 q3].
      rewrite !centre_floor by reflexivity. reflexivity.
    + intros r p q (A & B & C). unfold unit_cubes; cbn [ge_cell ge_pos]. unfold cubes; cbn [ge_cell ge_pos].
      rewrite (Qfloor_comp (q1 p / 1) (q1 q / 1)) by (rewrite A; reflexivity).
      rewrite (Qfloor_comp (q2 p / 1) (q2 q / 1)) by (rewrite B; reflexivity).
      rewrite (Qfloor_comp (q3 p / 1) (q3 q / 1)) by (rewrite C; reflexivity). reflexivity.
  - split; [repeat constructor; cbn; intuition discriminate|repeat constructor; cbn; lra].
  - split; [left; exists (1,1,1)%Z, (1,1,1)%Z; cbn; tauto|]. unfold Clear. lra.
  - cbn. unfold Qeq; cbn. repeat split; reflexivity.
Qed.
