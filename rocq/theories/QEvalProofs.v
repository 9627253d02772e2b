(** Proofs for the range image quality evaluator. *)
From Coq Require Import String Reals Qreals Lra Lqa Lia.
From Verif Require Import Base FilterModel FMergeModel QEvalModel QEvalSpec.
Open Scope Q_scope.

Lemma Qltb_true a b : Qltb a b = true <-> a < b.
Proof.
  unfold Qltb. destruct (Qle_bool b a) eqn:E; cbn.
  - apply Qle_bool_iff in E. split; [discriminate|lra].
  - split; [intros _|reflexivity]. apply Qnot_le_lt. intro H. apply Qle_bool_iff in H. congruence.
Qed.

(** ** to_int *)
Lemma q_between (q : Q) (z : Z) :
  (inject_Z z <= q <-> (z * Zpos (Qden q) <= Qnum q)%Z) /\ (q < inject_Z z <-> (Qnum q < z * Zpos (Qden q))%Z).
Proof.
  destruct q as [n d]. unfold Qle, Qlt, inject_Z. cbn. split; split; lia.
Qed.

Lemma quot_pos n d z : (0 < d)%Z -> Z.quot n d = z -> (0 < z)%Z -> (z * d <= n < (z + 1) * d)%Z.
Proof.
  intros Hd E Hz. pose proof (Z.quot_rem' n d) as Q.
  assert (0 <= n)%Z as Hn.
  { destruct (Z_le_gt_dec 0 n) as [|G]; [assumption|]. exfalso.
    assert (Z.quot (-n) d >= 0)%Z by (rewrite Z.quot_div_nonneg by lia; pose proof (Z.div_pos (-n) d); lia).
    rewrite Z.quot_opp_l in H by lia. lia. }
  pose proof (Z.rem_bound_pos n d Hn Hd). rewrite E in Q. nia.
Qed.
Lemma quot_zero n d : (0 < d)%Z -> Z.quot n d = 0%Z <-> (- d < n < d)%Z.
Proof.
  intro Hd. split.
  - intro E. pose proof (Z.quot_rem' n d) as Q. rewrite E in Q.
    pose proof (Z.rem_bound_abs n d). lia.
  - intro H. apply Z.quot_small_iff; lia.
Qed.
Lemma quot_ge n d z : (0 < d)%Z -> (0 < z)%Z -> (z * d <= n < (z + 1) * d)%Z -> Z.quot n d = z.
Proof.
  intros Hd Hz H. rewrite Z.quot_div_nonneg by nia. symmetry. apply Z.div_unique with (r := (n - z * d)%Z); nia.
Qed.

Lemma to_int_cut q n : CutTo n q <-> Z.quot (Qnum q) (Zpos (Qden q)) = Z.of_nat n.
Proof.
  pose proof (Pos2Z.is_pos (Qden q)) as Hd.
  destruct (q_between q (Z.of_nat n)) as [A B]. destruct (q_between q (Z.of_nat n + 1)) as [C D].
  destruct (q_between q (-1)) as [E F]. destruct (q_between q 1) as [G H].
  unfold CutTo.
  assert (inject_Z (Z.of_nat n) + 1 == inject_Z (Z.of_nat n + 1)) as S by (rewrite inject_Z_plus; reflexivity).
  destruct (Nat.eq_dec n 0) as [->|Hn].
  - change (Z.of_nat 0) with 0%Z in *. rewrite quot_zero by assumption.
    split.
    + intros [[X Y] | (_ & X & Y)].
      * rewrite S in Y. apply A in X. apply D in Y. lia.
      * apply H in Y. change (-(1)) with (inject_Z (-1)) in X.
        assert (~ (Qnum q <= - 1 * Zpos (Qden q))%Z); [|lia].
        intro K. assert (q <= inject_Z (-1)); [|lra].
        destruct q as [a b]; unfold Qle, inject_Z; cbn in *; lia.
    + intros [X Y]. right. split; [reflexivity|]. split.
      * destruct q as [a b]; unfold Qlt; cbn in *; lia.
      * change 1 with (inject_Z 1). apply H. lia.
  - split.
    + intros [[X Y] | (Z & _)]; [|contradiction].
      apply A in X. rewrite S in Y. apply D in Y. apply quot_ge; lia.
    + intro Q. apply quot_pos in Q; [|lia|lia]. left. rewrite S. split; [apply A|apply D]; lia.
Qed.

Lemma to_int_range q : (exists z, to_int q = Some z) <-> Representable q.
Proof.
  unfold to_int. pose proof (Pos2Z.is_pos (Qden q)) as Hd.
  set (d := Zpos (Qden q)) in *. set (n := Qnum q).
  assert (Representable q <-> ((- 2 ^ 31 - 1) * d < n < 2 ^ 31 * d)%Z) as ->.
  { unfold Representable. destruct q as [a b]. unfold Qlt, inject_Z, d, n. cbn. lia. }
  assert (((- 2 ^ 31 <=? Z.quot n d)%Z && (Z.quot n d <? 2 ^ 31)%Z)%bool = true <-> ((- 2 ^ 31 - 1) * d < n < 2 ^ 31 * d)%Z) as X.
  { rewrite andb_true_iff, Z.leb_le, Z.ltb_lt.
    pose proof (Z.quot_rem' n d) as Q.
    destruct (Z_le_gt_dec 0 n) as [P|N].
    - pose proof (Z.rem_bound_pos n d P Hd). pose proof (Z.quot_pos n d P Hd). nia.
    - pose proof (Z.rem_bound_neg_pos n d). assert (- d < Z.rem n d <= 0)%Z.
      { pose proof (Z.rem_bound_abs n d). pose proof (Z.rem_nonpos n d). lia. }
      assert (Z.quot n d <= 0)%Z.
      { assert (0 <= Z.quot (-n) d)%Z by (apply Z.quot_pos; lia). rewrite Z.quot_opp_l in H1 by lia. lia. }
      nia. }
  destruct ((- 2 ^ 31 <=? Z.quot n d)%Z && (Z.quot n d <? 2 ^ 31)%Z)%bool.
  - split; [intros _; apply X; reflexivity|intros _; eexists; reflexivity].
  - split; [intros [z E]; discriminate|intro H; apply X in H; discriminate].
Qed.

Lemma to_int_some q z : to_int q = Some z -> z = Z.quot (Qnum q) (Zpos (Qden q)).
Proof. unfold to_int. destruct (_ && _)%bool; congruence. Qed.

Lemma quot_ext a b : a == b -> Z.quot (Qnum a) (Zpos (Qden a)) = Z.quot (Qnum b) (Zpos (Qden b)).
Proof.
  unfold Qeq. intro H.
  rewrite <- (Z.quot_mul_cancel_r (Qnum a) (Zpos (Qden a)) (Zpos (Qden b))) by lia.
  rewrite H, (Z.mul_comm (Zpos (Qden a)) (Zpos (Qden b))).
  apply Z.quot_mul_cancel_r; lia.
Qed.
Lemma to_int_ext a b : a == b -> to_int a = to_int b.
Proof. intro H. unfold to_int. rewrite (quot_ext a b H). reflexivity. Qed.

Lemma pixel_some cam p : (exists xy, pixel_of cam p = Some xy) <-> Drawable cam p.
Proof.
  unfold pixel_of, Drawable. destruct (Qeq_bool (q1 p) 0) eqn:E.
  - apply Qeq_bool_iff in E. split; [intros [? H]; discriminate|intros [H _]; contradiction].
  - assert (~ q1 p == 0) as N by (intro H; apply Qeq_bool_iff in H; congruence).
    fold (col_of cam p). fold (row_of cam p).
    pose proof (to_int_range (col_of cam p)) as A. pose proof (to_int_range (row_of cam p)) as B.
    destruct (to_int (col_of cam p)) as [x|]; [|split; [intros [? H]; discriminate|intros (_ & H & _); apply A in H; destruct H; discriminate]].
    destruct (to_int (row_of cam p)) as [y|]; [|split; [intros [? H]; discriminate|intros (_ & _ & H); apply B in H; destruct H; discriminate]].
    split; [intros _; split; [exact N|split; [apply A|apply B]; eexists; reflexivity]|intros _; eexists; reflexivity].
Qed.

Lemma pixel_lands cam p x y : pixel_of cam p = Some (x, y) ->
  forall r c, Lands cam p r c <-> x = Z.of_nat c /\ y = Z.of_nat r.
Proof.
  unfold pixel_of, Lands. destruct (Qeq_bool (q1 p) 0); [discriminate|].
  fold (col_of cam p). fold (row_of cam p).
  destruct (to_int (col_of cam p)) as [x'|] eqn:X; [|discriminate].
  destruct (to_int (row_of cam p)) as [y'|] eqn:Y; [|discriminate].
  intro E; injection E as <- <-. intros r c. rewrite !to_int_cut.
  apply to_int_some in X, Y. rewrite <- X, <- Y. tauto.
Qed.

Lemma pixel_nonzero cam p xy : pixel_of cam p = Some xy -> 0 < range2 p.
Proof.
  intro E. assert (Drawable cam p) as (N & _) by (apply pixel_some; eauto).
  unfold range2. assert (0 < q1 p * q1 p); [|nra].
  destruct (Q_dec 0 (q1 p)) as [[H|H]|H]; nra || (exfalso; apply N; lra).
Qed.

Lemma moved_seen rel p : moved rel (q3_of p) = seen_from rel p.
Proof. destruct rel; reflexivity. Qed.

(** ** Images *)
Definition rows_ok (cam : RiCam) (r c : nat) : Prop := (r < ca_nrows cam)%nat /\ (c < ca_ncols cam)%nat.

Lemma draw_step cam rel I p J : draw cam rel I p = Some J ->
  Drawable cam (seen_from rel p)
  /\ (forall r c, ~ Lands cam (seen_from rel p) r c -> J r c = I r c)
  /\ (forall r c, rows_ok cam r c -> Lands cam (seen_from rel p) r c ->
        J r c = if (Qeq_bool (I r c) 0 || Qltb (range2 (seen_from rel p)) (I r c))%bool then range2 (seen_from rel p) else I r c).
Proof.
  unfold draw. rewrite moved_seen. set (q := seen_from rel p).
  change (dot3 q q) with (range2 q).
  destruct (pixel_of cam q) as [[x y]|] eqn:E; [|discriminate].
  pose proof (pixel_lands _ _ _ _ E) as L.
  intro H. split; [apply pixel_some; eauto|].
  destruct (Z.ltb x 0 || Z.ltb y 0 || Z.leb (Z.of_nat (ca_ncols cam)) x || Z.leb (Z.of_nat (ca_nrows cam)) y)%bool eqn:B.
  - injection H as <-. split; [reflexivity|]. intros r c [Hr Hc] K. apply L in K as [-> ->]. exfalso.
    rewrite !orb_true_iff, !Z.ltb_lt, !Z.leb_le in B. lia.
  - rewrite !orb_false_iff, !Z.ltb_ge, !Z.leb_gt in B. destruct B as [[[B1 B2] B3] B4].
    set (r0 := Z.to_nat y) in *. set (c0 := Z.to_nat x) in *.
    assert (forall r c, Lands cam q r c <-> r0 = r /\ c0 = c) as L'.
    { intros r c. rewrite L. unfold r0, c0. lia. }
    destruct (Qeq_bool (I r0 c0) 0 || Qltb (range2 q) (I r0 c0))%bool eqn:G; injection H as <-.
    + split.
      * intros r c N. unfold img_set. destruct (Nat.eqb_spec r0 r), (Nat.eqb_spec c0 c); cbn [andb]; try reflexivity.
        exfalso. apply N, L'. tauto.
      * intros r c _ K. apply L' in K as [<- <-]. rewrite G. unfold img_set. rewrite !Nat.eqb_refl. reflexivity.
    + split; [reflexivity|]. intros r c _ K. apply L' in K as [<- <-]. rewrite G. reflexivity.
Qed.

Lemma draw_defined cam rel I p : Drawable cam (seen_from rel p) -> exists J, draw cam rel I p = Some J.
Proof.
  intro D. unfold draw. rewrite moved_seen. apply pixel_some in D as [[x y] E]. rewrite E.
  destruct (_ || _)%bool; [eauto|]. destruct (_ || _)%bool; eauto.
Qed.

Lemma draw_all_defined cam rel l : forall I,
  (exists J, draw_all cam rel I l = Some J) <-> Forall (fun p => Drawable cam (seen_from rel p)) l.
Proof.
  induction l as [|p t IH]; intro I; cbn [draw_all].
  - split; [constructor|eauto].
  - destruct (draw cam rel I p) as [K|] eqn:E.
    + pose proof (draw_step _ _ _ _ _ E) as (D & _). rewrite IH. split; [constructor; assumption|inversion 1; assumption].
    + split; [intros [? H]; discriminate|]. inversion 1 as [|? ? D]; subst.
      destruct (draw_defined cam rel I p D) as [K E']. congruence.
Qed.

(** Invariant: the image after the points [done]. *)
Definition inv cam rel (don : list Pt) (I : Img) : Prop :=
  forall r c, rows_ok cam r c -> Nearest (fun q => Lands cam q r c) rel don (I r c)
    /\ Forall (fun p => Drawable cam (seen_from rel p)) don.

Lemma draw_all_inv cam rel l : forall don I J,
  (forall r c, rows_ok cam r c -> Nearest (fun q => Lands cam q r c) rel don (I r c)) ->
  Forall (fun p => Drawable cam (seen_from rel p)) don ->
  draw_all cam rel I l = Some J ->
  forall r c, rows_ok cam r c -> Nearest (fun q => Lands cam q r c) rel (don ++ l) (J r c).
Proof.
  induction l as [|p t IH]; intros don I J HI HD E r c RC; cbn [draw_all] in E.
  - injection E as <-. rewrite app_nil_r. apply HI, RC.
  - destruct (draw cam rel I p) as [K|] eqn:D; [|discriminate].
    destruct (draw_step _ _ _ _ _ D) as (DD & S1 & S2).
    replace (don ++ p :: t)%list with ((don ++ [p]) ++ t)%list by (rewrite <- app_assoc; reflexivity).
    apply (IH (don ++ [p]) K J); [|apply Forall_app; auto|exact E|exact RC].
    intros r' c' RC'. specialize (HI r' c' RC').
    assert (Lands cam (seen_from rel p) r' c' \/ ~ Lands cam (seen_from rel p) r' c') as [Y|N].
    { apply pixel_some in DD as [[x y] Px]. rewrite (pixel_lands _ _ _ _ Px).
      destruct (Z.eq_dec x (Z.of_nat c')), (Z.eq_dec y (Z.of_nat r')); tauto. }
    + rewrite (S2 _ _ RC' Y). right.
      assert (0 < range2 (seen_from rel p)) as Pos by (apply pixel_some in DD as [xy Px]; eapply pixel_nonzero; eauto).
      destruct HI as [[H0 Hz]|[[p0 (I0 & L0 & V0)] HM]].
      * apply Qeq_bool_iff in Hz. rewrite Hz. cbn [orb]. split.
        -- exists p. split; [apply in_or_app; right; left; reflexivity|]. split; [exact Y|reflexivity].
        -- intros p' I' L'. apply in_app_or in I' as [I'|[<-|[]]]; [exfalso; eapply H0; eauto|apply Qle_refl].
      * assert (0 < range2 (seen_from rel p0)) as Pos0.
        { rewrite Forall_forall in HD. specialize (HD p0 I0). apply pixel_some in HD as [xy Px]. eapply pixel_nonzero; eauto. }
        assert (Qeq_bool (I r' c') 0 = false) as ->.
        { destruct (Qeq_bool (I r' c') 0) eqn:Z; [|reflexivity]. apply Qeq_bool_iff in Z. lra. }
        cbn [orb]. destruct (Qltb (range2 (seen_from rel p)) (I r' c')) eqn:B.
        -- apply Qltb_true in B. split.
           ++ exists p. split; [apply in_or_app; right; left; reflexivity|]. split; [exact Y|reflexivity].
           ++ intros p' I' L'. apply in_app_or in I' as [I'|[<-|[]]]; [|apply Qle_refl].
              specialize (HM p' I' L'). lra.
        -- assert (~ range2 (seen_from rel p) < I r' c') as B' by (intro H; apply Qltb_true in H; congruence).
           apply Qnot_lt_le in B'. split.
           ++ exists p0. split; [apply in_or_app; left; exact I0|]. split; [exact L0|exact V0].
           ++ intros p' I' L'. apply in_app_or in I' as [I'|[<-|[]]]; [apply HM; assumption|exact B'].
    + rewrite (S1 _ _ N). destruct HI as [[H0 Hz]|[[p0 (I0 & L0 & V0)] HM]].
      * left. split; [|exact Hz]. intros p' I' L'. apply in_app_or in I' as [I'|[<-|[]]]; [eapply H0; eauto|contradiction].
      * right. split.
        -- exists p0. split; [apply in_or_app; left; exact I0|]. tauto.
        -- intros p' I' L'. apply in_app_or in I' as [I'|[<-|[]]]; [apply HM; assumption|contradiction].
Qed.

Lemma project_nearest cam rel l I : project_points cam rel l = Some I ->
  forall r c, rows_ok cam r c -> Nearest (fun q => Lands cam q r c) rel l (I r c).
Proof.
  intros E. apply (draw_all_inv cam rel l [] (fun _ _ => 0) I); [|constructor|exact E].
  intros r c _. left. split; [intros p []|reflexivity].
Qed.

Lemma nearest_pos cam rel l v r c : Forall (fun p => Drawable cam (seen_from rel p)) l ->
  Nearest (fun q => Lands cam q r c) rel l v -> v == 0 \/ 0 < v.
Proof.
  intros D [[_ H]|[[p (I & L & V)] _]]; [left; exact H|right].
  rewrite Forall_forall in D. specialize (D p I). apply pixel_some in D as [xy P]. apply pixel_nonzero in P. lra.
Qed.

(** ** Two clouds that coincide give the same image *)
Lemma lands_ext cam p q r c : same_point p q -> Lands cam p r c -> Lands cam q r c.
Proof.
  intros (A & B & C) [X Y].
  assert (col_of cam p == col_of cam q) as E1 by (unfold col_of; rewrite A, B; reflexivity).
  assert (row_of cam p == row_of cam q) as E2 by (unfold row_of; rewrite A, C; reflexivity).
  unfold Lands. apply to_int_cut in X, Y. split; apply to_int_cut.
  - rewrite <- X. apply quot_ext. symmetry; exact E1.
  - rewrite <- Y. apply quot_ext. symmetry; exact E2.
Qed.
Lemma range2_ext p q : same_point p q -> range2 p == range2 q.
Proof. intros (A & B & C). unfold range2. rewrite A, B, C. reflexivity. Qed.
Lemma same_sym p q : same_point p q -> same_point q p.
Proof. intros (A & B & C). repeat split; symmetry; assumption. Qed.

Lemma nearest_le cam r1 l1 v r2 l2 w r c :
  Forall2 (fun p q => same_point (seen_from r1 p) (seen_from r2 q)) l1 l2 ->
  Nearest (fun q => Lands cam q r c) r1 l1 v -> Nearest (fun q => Lands cam q r c) r2 l2 w ->
  v == w \/ w < v -> v == w.
Proof.
  intros F [[N Z]|[[p (I & L & V)] M]] [[N' Z']|[[p' (I' & L' & V')] M']] H; [lra| | |].
  - exfalso. assert (exists q, In q l1 /\ same_point (seen_from r1 q) (seen_from r2 p')) as (q & Iq & S).
    { clear -F I'. induction F as [|a b ta tb Hab F IH]; [destruct I'|]. destruct I' as [<-|I'].
      - exists a. split; [left; reflexivity|exact Hab].
      - destruct (IH I') as (q & ? & ?). exists q. split; [right; assumption|assumption]. }
    apply (N q Iq). eapply lands_ext; [apply same_sym; exact S|exact L'].
  - exfalso. assert (exists q, In q l2 /\ same_point (seen_from r1 p) (seen_from r2 q)) as (q & Iq & S).
    { clear -F I. induction F as [|a b ta tb Hab F IH]; [destruct I|]. destruct I as [<-|I].
      - exists b. split; [left; reflexivity|exact Hab].
      - destruct (IH I) as (q & ? & ?). exists q. split; [right; assumption|assumption]. }
    apply (N' q Iq). eapply lands_ext; [exact S|exact L].
  - assert (exists q, In q l1 /\ same_point (seen_from r1 q) (seen_from r2 p')) as (q & Iq & S).
    { clear -F I'. induction F as [|a b ta tb Hab F IH]; [destruct I'|]. destruct I' as [<-|I'].
      - exists a. split; [left; reflexivity|exact Hab].
      - destruct (IH I') as (q & ? & ?). exists q. split; [right; assumption|assumption]. }
    assert (Lands cam (seen_from r1 q) r c) as Lq by (eapply lands_ext; [apply same_sym; exact S|exact L']).
    specialize (M q Iq Lq). rewrite (range2_ext _ _ S) in M. lra.
Qed.

Lemma same_image cam r1 l1 r2 l2 I J :
  Forall2 (fun p q => same_point (seen_from r1 p) (seen_from r2 q)) l1 l2 ->
  project_points cam r1 l1 = Some I -> project_points cam r2 l2 = Some J ->
  forall r c, rows_ok cam r c -> I r c == J r c.
Proof.
  intros F E1 E2 r c RC.
  pose proof (project_nearest _ _ _ _ E1 r c RC) as N1. pose proof (project_nearest _ _ _ _ E2 r c RC) as N2.
  assert (Forall2 (fun p q => same_point (seen_from r2 p) (seen_from r1 q)) l2 l1) as F'.
  { clear -F. induction F; constructor; [apply same_sym; assumption|assumption]. }
  destruct (Q_dec (I r c) (J r c)) as [[H|H]|H]; [|exact (nearest_le cam r1 l1 (I r c) r2 l2 (J r c) r c F N1 N2 (or_intror H))|exact H].
  symmetry. exact (nearest_le cam r2 l2 (J r c) r1 l1 (I r c) r c F' N2 N1 (or_intror H)).
Qed.
