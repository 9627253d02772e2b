(** Helper lemmas on IEEE-754 numbers (Flocq BinarySingleNaN), rounding to nearest even, for any precision:
    the value of a result, overflow included, and comparisons. *)
From Coq Require Import ZArith Reals Lra Lia Bool.
From Flocq Require Import Core BinarySingleNaN.
Open Scope R_scope.

Section FB.
Variable prec emax : Z.
Context {Hp : Prec_gt_0 prec} {Hm : Prec_lt_emax prec emax}.
Notation flt := (binary_float prec emax).
Notation fexp := (SpecFloat.fexp prec emax).
Local Instance vexp : Valid_exp fexp := fexp_correct prec emax Hp.

Definition rnd (x : R) : R := round radix2 fexp ZnearestE x.
Definition top : R := bpow radix2 emax.
(** the value, with the infinities at -2^emax and 2^emax *)
Definition fval (x : flt) : R := match x with B754_infinity true => - top | B754_infinity false => top | _ => B2R x end.
Definition sat (r : R) : R := Rmax (- top) (Rmin top r).
Definition fadd (x y : flt) : flt := Bplus mode_NE x y.
Definition fsub (x y : flt) : flt := Bminus mode_NE x y.
Definition fmul (x y : flt) : flt := Bmult mode_NE x y.
Definition fdiv (x y : flt) : flt := Bdiv mode_NE x y.

Lemma top_pos : 0 < top.
Proof. apply bpow_gt_0. Qed.
Lemma rnd_mono x y : x <= y -> rnd x <= rnd y.
Proof. apply round_le; auto with typeclass_instances. Qed.
Lemma rnd_0 : rnd 0 = 0.
Proof. apply round_0. auto with typeclass_instances. Qed.
Lemma rnd_pos x : 0 <= x -> 0 <= rnd x.
Proof. intro H. rewrite <- rnd_0. apply rnd_mono, H. Qed.
Lemma rnd_neg x : x <= 0 -> rnd x <= 0.
Proof. intro H. rewrite <- rnd_0. apply rnd_mono, H. Qed.
Lemma rnd_float (x : flt) : rnd (B2R x) = B2R x.
Proof. apply round_generic; [auto with typeclass_instances|]. apply generic_format_B2R. Qed.
Lemma rnd_opp x : rnd (- x) = - rnd x.
Proof. unfold rnd. apply round_NE_opp. Qed.
Lemma sat_mono x y : x <= y -> sat x <= sat y.
Proof. intro H. unfold sat. apply Rle_max_compat_l, Rle_min_compat_l, H. Qed.
Lemma sat_id x : - top <= x <= top -> sat x = x.
Proof. intro H. unfold sat. rewrite Rmin_right, Rmax_right by lra. reflexivity. Qed.
Lemma sat_top x : top <= x -> sat x = top.
Proof. intro H. unfold sat. rewrite Rmin_left by lra. apply Rmax_right. generalize top_pos. lra. Qed.
Lemma sat_bot x : x <= - top -> sat x = - top.
Proof. intro H. unfold sat. generalize top_pos. intro P. rewrite Rmin_right by lra. apply Rmax_left. lra. Qed.
Lemma sat_bound x : - top <= sat x <= top.
Proof. unfold sat. generalize top_pos. intro P. split; [apply Rmax_l|]. apply Rmax_lub; [lra|apply Rmin_l]. Qed.

Lemma fval_fin (x : flt) : is_finite x = true -> fval x = B2R x.
Proof. destruct x as [s|[|]| |]; try discriminate; reflexivity. Qed.
Lemma fin_bound (x : flt) : - top < B2R x < top.
Proof. assert (H := abs_B2R_lt_emax prec emax x). apply Rabs_lt_inv in H. exact H. Qed.
Lemma fval_bound (x : flt) : - top <= fval x <= top.
Proof. generalize top_pos. intro P. destruct x as [s|[|]| |] eqn:X; cbn [fval]; try lra; rewrite <- X; generalize (fin_bound x); lra. Qed.
Lemma fin_iff (x : flt) : is_finite x = true <-> is_nan x = false /\ - top < fval x < top.
Proof.
  split.
  - intro F. split; [destruct x; try discriminate; reflexivity|]. rewrite (fval_fin x F). apply fin_bound.
  - intros [N B]. destruct x as [s|[|]| |]; try reflexivity; cbn in *; try discriminate; lra.
Qed.
Lemma fin_nan (x : flt) : is_finite x = true -> is_nan x = false.
Proof. intro F. apply fin_iff in F. apply F. Qed.

Lemma sign_val (x : flt) : is_finite x = true -> (Bsign x = false -> 0 <= B2R x) /\ (Bsign x = true -> B2R x <= 0).
Proof.
  destruct x as [s|s| |s m e b]; intro F; try discriminate F; cbn [B2R Bsign].
  - split; intros _; lra.
  - split; intros ->; cbn; [apply F2R_ge_0|apply F2R_le_0]; cbn; lia.
Qed.
Lemma overflow_case (z : flt) s r : B2SF z = binary_overflow prec emax mode_NE s -> top <= Rabs r -> (s = false -> 0 <= r) -> (s = true -> r <= 0) ->
  is_nan z = false /\ fval z = sat r.
Proof.
  intros E B P N. unfold binary_overflow in E. cbn [overflow_to_inf] in E. destruct z as [|s'| |]; try discriminate E. injection E as ->.
  split; [reflexivity|]. destruct s; cbn [fval].
  - rewrite sat_bot; [reflexivity|]. rewrite Rabs_left1 in B by (apply N; reflexivity). lra.
  - rewrite sat_top; [reflexivity|]. rewrite Rabs_pos_eq in B by (apply P; reflexivity). exact B.
Qed.
Lemma normal_case (z : flt) r : B2R z = r -> is_finite z = true -> Rabs r < top -> is_nan z = false /\ fval z = sat r.
Proof.
  intros E F B. split; [apply fin_nan, F|]. rewrite fval_fin, E by exact F. apply Rabs_lt_inv in B. rewrite sat_id by lra. reflexivity.
Qed.

Lemma fadd_val (x y : flt) : is_finite x = true -> is_finite y = true -> is_nan (fadd x y) = false /\ fval (fadd x y) = sat (rnd (B2R x + B2R y)).
Proof.
  intros Fx Fy. assert (H := Bplus_correct prec emax _ _ mode_NE x y Fx Fy). cbn [round_mode] in H. fold (rnd (B2R x + B2R y)) in H.
  destruct (Rlt_bool_spec (Rabs (rnd (B2R x + B2R y))) (bpow radix2 emax)) as [L|L].
  - destruct H as (E & F & _). exact (normal_case _ _ E F L).
  - destruct H as (E & S). apply (overflow_case _ _ _ E L); intro Sx; rewrite Sx in S; symmetry in S.
    + apply rnd_pos. apply (sign_val x Fx) in Sx. apply (sign_val y Fy) in S. lra.
    + apply rnd_neg. apply (sign_val x Fx) in Sx. apply (sign_val y Fy) in S. lra.
Qed.
Lemma fsub_val (x y : flt) : is_finite x = true -> is_finite y = true -> is_nan (fsub x y) = false /\ fval (fsub x y) = sat (rnd (B2R x - B2R y)).
Proof.
  intros Fx Fy. assert (H := Bminus_correct prec emax _ _ mode_NE x y Fx Fy). cbn [round_mode] in H. fold (rnd (B2R x - B2R y)) in H.
  destruct (Rlt_bool_spec (Rabs (rnd (B2R x - B2R y))) (bpow radix2 emax)) as [L|L].
  - destruct H as (E & F & _). exact (normal_case _ _ E F L).
  - destruct H as (E & S). apply (overflow_case _ _ _ E L); intro Sx; rewrite Sx in S; symmetry in S.
    + apply rnd_pos. apply (sign_val x Fx) in Sx. apply negb_false_iff in S. apply (sign_val y Fy) in S. lra.
    + apply rnd_neg. apply (sign_val x Fx) in Sx. apply negb_true_iff in S. apply (sign_val y Fy) in S. lra.
Qed.
Lemma sign_prod (x y : flt) : is_finite x = true -> is_finite y = true ->
  (xorb (Bsign x) (Bsign y) = false -> 0 <= B2R x * B2R y) /\ (xorb (Bsign x) (Bsign y) = true -> B2R x * B2R y <= 0).
Proof.
  intros Fx Fy. destruct (sign_val x Fx) as [Px Nx], (sign_val y Fy) as [Py Ny].
  destruct (Bsign x), (Bsign y); cbn [xorb]; split; intro H; try discriminate H;
    try (specialize (Nx eq_refl)); try (specialize (Px eq_refl)); try (specialize (Ny eq_refl)); try (specialize (Py eq_refl)); nra.
Qed.
Lemma fmul_val (x y : flt) : is_finite x = true -> is_finite y = true -> is_nan (fmul x y) = false /\ fval (fmul x y) = sat (rnd (B2R x * B2R y)).
Proof.
  intros Fx Fy. assert (H := Bmult_correct prec emax _ _ mode_NE x y). cbn [round_mode] in H. fold (rnd (B2R x * B2R y)) in H.
  destruct (sign_prod x y Fx Fy) as [P N].
  destruct (Rlt_bool_spec (Rabs (rnd (B2R x * B2R y))) (bpow radix2 emax)) as [L|L].
  - destruct H as (E & F & _). rewrite Fx, Fy in F. exact (normal_case _ _ E F L).
  - apply (overflow_case _ _ _ H L); intro S; [apply rnd_pos, P, S|apply rnd_neg, N, S].
Qed.
Lemma fdiv_val (x y : flt) : is_finite x = true -> is_finite y = true -> B2R y <> 0 -> is_nan (fdiv x y) = false /\ fval (fdiv x y) = sat (rnd (B2R x / B2R y)).
Proof.
  intros Fx Fy Z. assert (H := Bdiv_correct prec emax _ _ mode_NE x y Z). cbn [round_mode] in H. fold (rnd (B2R x / B2R y)) in H.
  destruct (sign_prod x y Fx Fy) as [P N].
  assert (D : B2R x / B2R y = B2R x * B2R y * (/ B2R y * / B2R y)) by (field; exact Z).
  assert (S2 : 0 <= / B2R y * / B2R y) by (generalize (Rle_0_sqr (/ B2R y)); unfold Rsqr; lra).
  destruct (Rlt_bool_spec (Rabs (rnd (B2R x / B2R y))) (bpow radix2 emax)) as [L|L].
  - destruct H as (E & F & _). rewrite Fx in F. exact (normal_case _ _ E F L).
  - apply (overflow_case _ _ _ H L); intro S; [apply rnd_pos; apply P in S|apply rnd_neg; apply N in S]; rewrite D; nra.
Qed.

(** comparisons *)
Lemma fle_val (x y : flt) : is_nan x = false -> is_nan y = false -> (Bleb x y = true <-> fval x <= fval y).
Proof.
  intros Nx Ny. generalize top_pos. intro T.
  destruct (is_finite x) eqn:Fx, (is_finite y) eqn:Fy.
  - rewrite Bleb_correct, !fval_fin by assumption. case Rle_bool_spec; intro H; split; intro K; try reflexivity; try discriminate; lra.
  - generalize (fin_bound x). intro B. rewrite (fval_fin x Fx). destruct y as [|[|]| |]; try discriminate; destruct x as [|[|]| |]; try discriminate; cbn [fval]; split; intro K; try reflexivity; try (cbn in K; discriminate K); cbn [B2R] in *; try lra.
  - generalize (fin_bound y). intro B. rewrite (fval_fin y Fy). destruct x as [|[|]| |]; try discriminate; destruct y as [|[|]| |]; try discriminate; cbn [fval]; split; intro K; try reflexivity; try (cbn in K; discriminate K); cbn [B2R] in *; try lra.
  - destruct x as [|[|]| |]; try discriminate; destruct y as [|[|]| |]; try discriminate; cbn [fval]; split; intro K; try reflexivity; try (cbn in K; discriminate K); try lra.
Qed.
Lemma flt_val (x y : flt) : is_nan x = false -> is_nan y = false -> (Bltb x y = true <-> fval x < fval y).
Proof.
  intros Nx Ny. generalize top_pos. intro T.
  destruct (is_finite x) eqn:Fx, (is_finite y) eqn:Fy.
  - rewrite Bltb_correct, !fval_fin by assumption. case Rlt_bool_spec; intro H; split; intro K; try reflexivity; try discriminate; lra.
  - generalize (fin_bound x). intro B. rewrite (fval_fin x Fx). destruct y as [|[|]| |]; try discriminate; destruct x as [|[|]| |]; try discriminate; cbn [fval]; split; intro K; try reflexivity; try (cbn in K; discriminate K); cbn [B2R] in *; try lra.
  - generalize (fin_bound y). intro B. rewrite (fval_fin y Fy). destruct x as [|[|]| |]; try discriminate; destruct y as [|[|]| |]; try discriminate; cbn [fval]; split; intro K; try reflexivity; try (cbn in K; discriminate K); cbn [B2R] in *; try lra.
  - destruct x as [|[|]| |]; try discriminate; destruct y as [|[|]| |]; try discriminate; cbn [fval]; split; intro K; try reflexivity; try (cbn in K; discriminate K); try lra.
Qed.
Lemma fle_nan (x y : flt) : Bleb x y = true -> is_nan x = false /\ is_nan y = false.
Proof. destruct x as [|[|]| |]; destruct y as [|[|]| |]; intro H; split; try reflexivity; discriminate H. Qed.
Lemma flt_nan (x y : flt) : Bltb x y = true -> is_nan x = false /\ is_nan y = false.
Proof. destruct x as [|[|]| |]; destruct y as [|[|]| |]; intro H; split; try reflexivity; discriminate H. Qed.
End FB.
