(** C78, C79: the robust weights against the loss functions documented in robust_kernels.h. *)
From Coq Require Import Reals Lra Psatz.
From Verif Require Import GeomModel.
Open Scope R_scope.

(** robust_kernels.h 70-90: the documented losses *)
Definition loss_cauchy (c x : R) : R := / 2 * (c * c) * ln (1 + x * x / (c * c)).
Definition loss_gm_doc (c x : R) : R := (x * x / 2) / (c * c + x * x).
(** the loss the implemented weight belongs to *)
Definition loss_gm (c x : R) : R := (c * (x * x) / 2) / (c + x * x).

Lemma d_sq x : derivable_pt_lim (fun y => y * y) x (2 * x).
Proof. apply (derivable_pt_lim_ext Rsqr); [intros y; reflexivity|]. apply derivable_pt_lim_Rsqr. Qed.

Theorem C78_cauchy_weight_from_loss : forall c x, 0 < c ->
  derivable_pt_lim (loss_cauchy c) x (x * kernel_weight KCauchy c (x * x)).
Proof.
  intros c x C. assert (CC : 0 < c * c) by nra. assert (XX : 0 <= x * x) by nra.
  assert (P : 0 < 1 + x * x / (c * c)).
  { assert (0 <= x * x / (c * c)); [|lra]. apply Rmult_le_pos; [exact XX|]. left. apply Rinv_0_lt_compat. exact CC. }
  assert (I : derivable_pt_lim (fun y => 1 + y * y / (c * c)) x (2 * x / (c * c))).
  { apply (derivable_pt_lim_ext (plus_fct (fct_cte 1) (mult_real_fct (/ (c * c)) (fun y => y * y)))).
    - intros y. unfold plus_fct, fct_cte, mult_real_fct. field. lra.
    - replace (2 * x / (c * c)) with (0 + / (c * c) * (2 * x)) by (field; lra).
      apply derivable_pt_lim_plus; [apply derivable_pt_lim_const|].
      apply derivable_pt_lim_scal. apply d_sq. }
  assert (L : derivable_pt_lim (comp ln (fun y => 1 + y * y / (c * c))) x (/ (1 + x * x / (c * c)) * (2 * x / (c * c)))).
  { apply derivable_pt_lim_comp; [exact I|]. apply derivable_pt_lim_ln. exact P. }
  apply (derivable_pt_lim_ext (mult_real_fct (/ 2 * (c * c)) (comp ln (fun y => 1 + y * y / (c * c))))).
  { intros y. reflexivity. }
  replace (x * kernel_weight KCauchy c (x * x)) with
     (/ 2 * (c * c) * (/ (1 + x * x / (c * c)) * (2 * x / (c * c)))).
  - apply derivable_pt_lim_scal. exact L.
  - unfold kernel_weight; simpl. field. repeat split; nra.
Qed.

Lemma d_ratio a b k x : 0 < b -> 0 <= k ->
  derivable_pt_lim (fun y => (a * (y * y)) / (b + y * y)) x (2 * a * b * x / ((b + x * x) * (b + x * x))).
Proof.
  intros B _. assert (XX : 0 <= x * x) by nra.
  assert (N : derivable_pt_lim (mult_real_fct a (fun y => y * y)) x (a * (2 * x))) by (apply derivable_pt_lim_scal, d_sq).
  assert (D : derivable_pt_lim (plus_fct (fct_cte b) (fun y => y * y)) x (0 + 2 * x)).
  { apply derivable_pt_lim_plus; [apply derivable_pt_lim_const|apply d_sq]. }
  assert (Z : plus_fct (fct_cte b) (fun y => y * y) x <> 0) by (unfold plus_fct, fct_cte; lra).
  assert (Q := derivable_pt_lim_div _ _ _ _ _ N D Z).
  apply (derivable_pt_lim_ext (div_fct (mult_real_fct a (fun y => y * y)) (plus_fct (fct_cte b) (fun y => y * y)))).
  { intros y. reflexivity. }
  replace (2 * a * b * x / ((b + x * x) * (b + x * x))) with
    ((a * (2 * x) * plus_fct (fct_cte b) (fun y => y * y) x - (0 + 2 * x) * mult_real_fct a (fun y => y * y) x) /
     Rsqr (plus_fct (fct_cte b) (fun y => y * y) x)); [exact Q|].
  unfold plus_fct, fct_cte, mult_real_fct, Rsqr. field. lra.
Qed.

(** The implemented Geman-McClure weight is the one of (c x^2/2)/(c + x^2). *)
Theorem C78_gm_weight_from_scaled_loss : forall c x, 0 < c ->
  derivable_pt_lim (loss_gm c) x (x * kernel_weight KGemanMcClure c (x * x)).
Proof.
  intros c x C. assert (XX : 0 <= x * x) by nra.
  apply (derivable_pt_lim_ext (fun y => (c / 2 * (y * y)) / (c + y * y))).
  { intros y. unfold loss_gm. assert (0 <= y * y) by nra. field. lra. }
  replace (x * kernel_weight KGemanMcClure c (x * x)) with (2 * (c / 2) * c * x / ((c + x * x) * (c + x * x))).
  - apply (d_ratio _ _ 0); lra.
  - unfold kernel_weight; simpl. field. repeat split; nra.
Qed.

(** Finding: it is not the one of the documented loss (x^2/2)/(c^2+x^2), for any parameter
    but 1 and any nonzero error. *)
Theorem C79_gm_weight_not_from_documented_loss_refuted : forall c x, 0 < c -> c <> 1 -> x <> 0 ->
  ~ derivable_pt_lim (loss_gm_doc c) x (x * kernel_weight KGemanMcClure c (x * x)).
Proof.
  intros c x C N X H. assert (XX : 0 < x * x) by nra. assert (CC : 0 < c * c) by nra.
  assert (D : derivable_pt_lim (loss_gm_doc c) x (2 * (/ 2) * (c * c) * x / ((c * c + x * x) * (c * c + x * x)))).
  { apply (derivable_pt_lim_ext (fun y => (/ 2 * (y * y)) / (c * c + y * y))).
    - intros y. unfold loss_gm_doc. f_equal. unfold Rdiv. ring.
    - apply (d_ratio _ _ 0); lra. }
  assert (E := uniqueness_limite _ _ _ _ H D). unfold kernel_weight in E; simpl in E.
  assert (A : (x * x + c) * (x * x + c) <> 0) by nra.
  assert (B : (c * c + x * x) * (c * c + x * x) <> 0) by nra.
  assert (F : (c * c + x * x) * (c * c + x * x) = (x * x + c) * (x * x + c)).
  { apply (Rmult_eq_reg_l (x * (c * c) / ((x * x + c) * (x * x + c) * ((c * c + x * x) * (c * c + x * x))))).
    - replace (x * (c * c) / ((x * x + c) * (x * x + c) * ((c * c + x * x) * (c * c + x * x))) * ((c * c + x * x) * (c * c + x * x)))
        with (x * (c * c / ((x * x + c) * (x * x + c)))) by (field; repeat split; nra).
      rewrite E. field. repeat split; nra.
    - unfold Rdiv. apply Rmult_integral_contrapositive_currified; [|apply Rinv_neq_0_compat, Rmult_integral_contrapositive_currified; assumption].
      apply Rmult_integral_contrapositive_currified; [exact X|lra]. }
  assert (G : (c * c - c) * (c * c + c + 2 * (x * x)) = 0) by (ring_simplify; ring_simplify in F; lra).
  apply Rmult_integral in G. destruct G as [G|G]; [|lra].
  assert (c * (c - 1) = 0) by lra. apply Rmult_integral in H0. destruct H0; lra.
Qed.

Example C79_example : kernel_weight KGemanMcClure 2 1 = 4 / 9 /\ 0 < 2 /\ 2 <> 1 /\ 1 <> 0.
Proof. unfold kernel_weight; simpl. split; [field|]. lra. Qed.
