(** Properties of the floating point arithmetic itself (C249-). *)
From Coq Require Import ZArith Reals Lra Lia Bool List.
From Flocq Require Import Core BinarySingleNaN.
From Verif Require Import Base FloatBase FloatModel.
Import ListNotations.
Open Scope R_scope.

(** ** Specification *)
(** a number, neither NaN nor infinite, between a and b *)
Definition number_in {prec emax} (x : binary_float prec emax) (a b : R) : Prop := is_finite x = true /\ a <= B2R x <= b.

(** ** Helpers *)
Section H.
Context {prec emax : Z} {Hp : Prec_gt_0 prec} {Hm : Prec_lt_emax prec emax}.
Notation flt := (binary_float prec emax).
Notation rnd := (rnd prec emax).
Notation top := (top emax).
Notation fval := (fval prec emax).
Lemma rm x y : x <= y -> rnd x <= rnd y. Proof. apply rnd_mono. exact Hp. Qed.
Lemma rp x : 0 <= x -> 0 <= rnd x. Proof. apply rnd_pos. exact Hp. Qed.
Lemma f0_val : B2R (f0 : flt) = 0. Proof. reflexivity. Qed.
Lemma f1_val : B2R (f1 : flt) = 1. Proof. apply Bone_correct. Qed.
Lemma f1_fin : is_finite (f1 : flt) = true. Proof. apply is_finite_Bone. Qed.
Lemma rnd_1 : rnd 1 = 1. Proof. rewrite <- f1_val. apply rnd_float. Qed.
Lemma top_1 : 1 < top. Proof. rewrite <- f1_val. apply fin_bound. Qed.
(** the value of a result which does not overflow *)
Lemma val_fin (x : flt) r : is_nan x = false /\ fval x = sat emax r -> - top < r < top -> is_finite x = true /\ B2R x = r.
Proof.
  intros [N V] B. rewrite sat_id in V by lra. assert (F : is_finite x = true) by (apply fin_iff; rewrite V; auto).
  split; [exact F|]. rewrite <- (fval_fin _ _ x F). exact V.
Qed.
Lemma fadd_inf (x y : flt) : is_finite x = false -> is_finite (fadd_ x y) = false.
Proof. destruct x as [|[|]| |]; intro F; try discriminate F; destruct y as [|[|]| |]; reflexivity. Qed.
Lemma sum_inf (l : list flt) : forall x, is_finite x = false -> is_finite (fold_left fadd_ l x) = false.
Proof. induction l as [|a l IH]; intros x F; [exact F|]. apply IH, fadd_inf, F. Qed.
Lemma flt0_pos (x : flt) : is_finite x = true -> 0 < B2R x -> Bltb f0 x = true.
Proof. intros F P. apply flt_val; [reflexivity|apply fin_nan, F|]. rewrite (fval_fin _ _ x F). exact P. Qed.
Lemma fdiv_unit (x y : flt) : is_finite x = true -> is_finite y = true -> 0 <= B2R x <= B2R y -> 0 < B2R y -> number_in (fdiv_ x y) 0 1 /\ B2R (fdiv_ x y) = rnd (B2R x / B2R y).
Proof.
  intros Fx Fy L P. assert (Q : 0 <= B2R x / B2R y <= 1).
  { split; [apply Rmult_le_pos; [lra|]; left; apply Rinv_0_lt_compat, P|]. apply Rmult_le_reg_r with (B2R y); [exact P|].
    unfold Rdiv. rewrite Rmult_assoc, Rinv_l by lra. lra. }
  assert (B : 0 <= rnd (B2R x / B2R y) <= 1).
  { split; [apply rp, Q|]. apply Rle_trans with (rnd 1); [apply rm, Q|right; apply rnd_1]. }
  destruct (val_fin _ _ (fdiv_val prec emax x y Fx Fy ltac:(lra))) as [F V]. { generalize top_1. lra. }
  unfold number_in. fold (fdiv_ x y) in F, V. rewrite V. auto.
Qed.
Lemma lit_val m e : Rabs (rnd (IZR m * bpow radix2 e)) < top -> is_finite (lit m e : flt) = true /\ B2R (lit m e : flt) = rnd (IZR m * bpow radix2 e).
Proof.
  intro B. assert (H := binary_normalize_correct prec emax Hp Hm mode_NE m e false). cbn [round_mode] in H.
  replace (F2R {| Fnum := m; Fexp := e |}) with (IZR m * bpow radix2 e) in H by reflexivity.
  fold (rnd (IZR m * bpow radix2 e)) in H. rewrite Rlt_bool_true in H by exact B. destruct H as (V & F & _). auto.
Qed.
Lemma lit_exact m e : Z.ltb (Z.abs m) (2 ^ prec) = true -> (3 - emax - prec <= e)%Z -> (e + prec <= emax)%Z ->
  is_finite (lit m e : flt) = true /\ B2R (lit m e : flt) = IZR m * bpow radix2 e.
Proof.
  intros M L U. apply Z.ltb_lt in M. assert (Pp : (0 < prec)%Z) by exact Hp.
  assert (E : rnd (IZR m * bpow radix2 e) = IZR m * bpow radix2 e).
  { apply round_generic; [auto with typeclass_instances|]. apply generic_format_FLT.
    exists (Float radix2 m e); [reflexivity| |]; cbn [Fnum Fexp]; [exact M|unfold SpecFloat.emin; lia]. }
  rewrite <- E. apply lit_val. rewrite E, Rabs_mult, (Rabs_pos_eq (bpow _ _)) by apply bpow_ge_0.
  apply Rlt_le_trans with (bpow radix2 prec * bpow radix2 e).
  - apply Rmult_lt_compat_r; [apply bpow_gt_0|]. rewrite <- abs_IZR, <- IZR_Zpower by lia. apply IZR_lt. exact M.
  - rewrite <- bpow_plus. apply bpow_le. lia.
Qed.
End H.

(** ** C249: the overall quality of an alignment *)
Definition sum_of_weights (es : list (f64 * QResult)) : f64 := fold_left fadd_ (map fst es) f0.
Definition evaluator_ok (e : f64 * QResult) : Prop :=
  is_finite (fst e) = true /\ 0 < B2R (fst e) /\ number_in (q_quality (snd e)) 0 1.

Lemma quality_inv es : forall sW sE : f64, Forall evaluator_ok es -> is_finite sW = true -> is_finite sE = true -> 0 <= B2R sE <= B2R sW ->
  is_finite (fold_left fadd_ (map fst es) sW) = true -> (es <> [] \/ 0 < B2R sW) -> exists q, quality_loop es sW sE = Ok q /\ number_in q 0 1.
Proof.
  induction es as [|[w r] es IH]; intros sW sE H FW FE L FS NE; cbn [quality_loop].
  - destruct NE as [NE|NE]; [congruence|]. rewrite flt0_pos by assumption. eexists. split; [reflexivity|]. apply fdiv_unit; assumption.
  - inversion H as [|? ? (Fw & Pw & Fq & Bq) H']; subst. cbn [fst snd] in *. rewrite flt0_pos by assumption.
    destruct (q_discard r). { eexists. split; [reflexivity|]. split; [reflexivity|]. cbn. lra. }
    cbn [map fst fold_left] in FS.
    assert (FW' : is_finite (fadd_ sW w) = true). { destruct (is_finite (fadd_ sW w)) eqn:E; [reflexivity|]. rewrite sum_inf in FS by exact E. discriminate FS. }
    destruct (fadd_val 53 1024 sW w FW Fw) as [_ VW]. fold (fadd_ sW w) in VW. rewrite (fval_fin _ _ _ FW') in VW.
    assert (M : 0 <= rnd 53 1024 (B2R w * B2R (q_quality r)) <= B2R w).
    { split; [apply rp; nra|]. apply Rle_trans with (rnd 53 1024 (B2R w)); [apply rm; nra|right; apply rnd_float]. }
    destruct (val_fin _ _ (fmul_val 53 1024 w (q_quality r) Fw Fq)) as [FM VM]. { generalize (fin_bound 53 1024 w). generalize (top_pos 1024). lra. }
    fold (fmul_ w (q_quality r)) in FM, VM. rewrite <- VM in M.
    set (t := fmul_ w (q_quality r)) in *. clearbody t.
    destruct (fadd_val 53 1024 sE t FE FM) as [NE' VE]. fold (fadd_ sE t) in NE', VE.
    assert (LE : 0 <= fval 53 1024 (fadd_ sE t) <= B2R (fadd_ sW w)).
    { rewrite VE, VW. split; [|apply sat_mono, rm; lra]. rewrite <- (sat_id 1024 0) by (generalize (top_pos 1024); lra).
      apply sat_mono, rp. lra. }
    assert (FE' : is_finite (fadd_ sE t) = true).
    { apply fin_iff. split; [exact NE'|]. generalize (fin_bound 53 1024 (fadd_ sW w)) (top_pos 1024). lra. }
    rewrite (fval_fin _ _ _ FE') in LE. apply IH; try assumption. right.
    assert (B2R w <= B2R (fadd_ sW w)); [|lra]. rewrite VW. generalize (fin_bound 53 1024 w). intro Bw. rewrite <- (sat_id 1024 (B2R w)) at 1 by lra.
    apply sat_mono. apply Rle_trans with (rnd 53 1024 (B2R w)); [right; symmetry; apply rnd_float|apply rm; lra].
Qed.
(** In doubles, rounding included: if every weight is a positive number, every evaluator gives a number in [0,1] and the
    sum of the weights does not overflow, the overall quality is a number in [0,1]. *)
Theorem C249_overall_quality_in_unit_interval es : es <> [] -> Forall evaluator_ok es -> is_finite (sum_of_weights es) = true ->
  exists q, evaluate_quality es = Ok q /\ number_in q 0 1.
Proof.
  intros NE H F. unfold evaluate_quality. destruct es as [|e es]; [congruence|].
  apply quality_inv; try assumption; try reflexivity; try (cbn [B2R f0]; lra). left. discriminate.
Qed.
Lemma quality_const k es : (k = 0 \/ k = 1) -> forall sW sE : f64, Forall evaluator_ok es -> Forall (fun e => B2R (q_quality (snd e)) = k /\ q_discard (snd e) = false) es ->
  is_finite sW = true -> is_finite sE = true -> B2R sE = k * B2R sW -> 0 <= B2R sW ->
  is_finite (fold_left fadd_ (map fst es) sW) = true -> (es <> [] \/ 0 < B2R sW) -> exists q, quality_loop es sW sE = Ok q /\ is_finite q = true /\ B2R q = k.
Proof.
  intro K. induction es as [|[w r] es IH]; intros sW sE H HK FW FE L P0 FS NE; cbn [quality_loop].
  - destruct NE as [NE|NE]; [congruence|]. rewrite flt0_pos by assumption. eexists. split; [reflexivity|].
    destruct (fdiv_unit sE sW FE FW) as [[F _] V]; [destruct K as [-> | ->]; lra|exact NE|]. split; [exact F|]. rewrite V, L.
    unfold Rdiv. rewrite Rmult_assoc, Rinv_r, Rmult_1_r by lra. destruct K as [-> | ->]; [apply rnd_0; exact p53|apply rnd_1].
  - inversion H as [|? ? (Fw & Pw & Fq & Bq) H']; subst. destruct (Forall_inv HK) as [Ek Ed]. assert (HK' := Forall_inv_tail HK). cbn [fst snd] in *. rewrite flt0_pos by assumption. rewrite Ed.
    cbn [map fst fold_left] in FS.
    assert (FW' : is_finite (fadd_ sW w) = true). { destruct (is_finite (fadd_ sW w)) eqn:E; [reflexivity|]. rewrite sum_inf in FS by exact E. discriminate FS. }
    destruct (fadd_val 53 1024 sW w FW Fw) as [_ VW]. fold (fadd_ sW w) in VW. rewrite (fval_fin _ _ _ FW') in VW.
    assert (M : rnd 53 1024 (B2R w * k) = k * B2R w).
    { destruct K as [-> | ->]; [rewrite Rmult_0_r, Rmult_0_l; apply rnd_0; exact p53|rewrite Rmult_1_r, Rmult_1_l; apply rnd_float]. }
    destruct (val_fin _ _ (fmul_val 53 1024 w (q_quality r) Fw Fq)) as [FM VM].
    { rewrite Ek, M. generalize (fin_bound 53 1024 w). generalize (top_pos 1024). destruct K as [-> | ->]; lra. }
    fold (fmul_ w (q_quality r)) in FM, VM. rewrite Ek, M in VM.
    set (t := fmul_ w (q_quality r)) in *. clearbody t.
    destruct (fadd_val 53 1024 sE t FE FM) as [NE' VE]. fold (fadd_ sE t) in NE', VE.
    assert (LE : fval 53 1024 (fadd_ sE t) = k * B2R (fadd_ sW w)).
    { rewrite VE, VW, L, VM, <- Rmult_plus_distr_l. destruct K as [-> | ->]; [|rewrite !Rmult_1_l; reflexivity].
      rewrite !Rmult_0_l, rnd_0 by exact p53. apply sat_id. generalize (top_pos 1024). lra. }
    assert (FE' : is_finite (fadd_ sE t) = true).
    { apply fin_iff. split; [exact NE'|]. rewrite LE. generalize (fin_bound 53 1024 (fadd_ sW w)) (top_pos 1024). destruct K as [-> | ->]; lra. }
    rewrite (fval_fin _ _ _ FE') in LE.
    assert (PW : B2R w <= B2R (fadd_ sW w)).
    { rewrite VW. generalize (fin_bound 53 1024 w). intro Bw. rewrite <- (sat_id 1024 (B2R w)) at 1 by lra.
      apply sat_mono. apply Rle_trans with (rnd 53 1024 (B2R w)); [right; symmetry; apply rnd_float|apply rm; lra]. }
    apply IH; try assumption; lra || (right; lra).
Qed.
(** If every evaluator says 1, the overall quality is exactly 1; if every one says 0, it is exactly 0. *)
Theorem C249_unanimous_evaluators es k : es <> [] -> Forall evaluator_ok es -> is_finite (sum_of_weights es) = true -> (k = 0 \/ k = 1) ->
  Forall (fun e => B2R (q_quality (snd e)) = k /\ q_discard (snd e) = false) es -> exists q, evaluate_quality es = Ok q /\ is_finite q = true /\ B2R q = k.
Proof.
  intros NE H F K HK. unfold evaluate_quality. destruct es as [|e es]; [congruence|].
  apply (quality_const k); try assumption; try reflexivity; try (cbn [B2R f0]; lra). left. discriminate.
Qed.
(** The condition on the sum is needed: two weights of 2^1023 and two perfect evaluators give NaN. *)
Theorem C249_overflowing_weights_give_NaN :
  let e := (lit (2 ^ 52) 971 : f64, mkQR f1 false) in evaluator_ok e /\ evaluate_quality [e; e] = Ok B754_nan.
Proof.
  split; [|vm_compute; reflexivity]. unfold evaluator_ok. cbn [fst snd q_quality]. repeat split; try (vm_compute; reflexivity).
  - destruct (lit_exact (prec := 53) (emax := 1024) (2 ^ 52) 971 eq_refl ltac:(lia) ltac:(lia)) as [_ V]. rewrite V. generalize (bpow_gt_0 radix2 971). nra.
  - rewrite f1_val. lra.
  - rewrite f1_val. lra.
Qed.
(** weights 3 and 1, qualities 1/2 and 1: the overall quality is 5/8 *)
Example C249_example :
  let es := [(of_int 3, mkQR (lit 1 (-1)) false); (of_int 1, mkQR f1 false)] in
  Forall evaluator_ok es /\ is_finite (sum_of_weights es) = true /\ match evaluate_quality es with Ok q => B2SF q = B2SF (lit 5 (-3) : f64) | _ => False end.
Proof.
  split; [|split; vm_compute; reflexivity].
  assert (V3 := proj2 (lit_exact (prec := 53) (emax := 1024) 3 0 eq_refl ltac:(lia) ltac:(lia))).
  assert (V1 := proj2 (lit_exact (prec := 53) (emax := 1024) 1 0 eq_refl ltac:(lia) ltac:(lia))).
  assert (Vh := proj2 (lit_exact (prec := 53) (emax := 1024) 1 (-1) eq_refl ltac:(lia) ltac:(lia))).
  assert (V11 := f1_val (prec := 53) (emax := 1024)). unfold evaluator_ok, number_in.
  constructor; [|constructor; [|constructor]]; cbn [fst snd q_quality]; (split; [vm_compute; reflexivity|split; [|split; [vm_compute; reflexivity|]]]).
  - change (of_int 3 : f64) with (lit 3 0 : f64). rewrite V3. cbn. lra.
  - rewrite Vh. cbn. lra.
  - change (of_int 1 : f64) with (lit 1 0 : f64). rewrite V1. cbn. lra.
  - lra.
Qed.

(** ** C250: the ratio of paired points *)
Lemma of_int_val64 z : (0 <= z < 2 ^ 64)%Z -> is_finite (of_int z : f64) = true /\ B2R (of_int z : f64) = rnd 53 1024 (IZR z) /\ 0 <= rnd 53 1024 (IZR z).
Proof.
  intro B. assert (P : 0 <= rnd 53 1024 (IZR z)) by (apply rp, IZR_le; lia).
  assert (U : rnd 53 1024 (IZR z) <= bpow radix2 64).
  { apply Rle_trans with (rnd 53 1024 (bpow radix2 64)).
    - apply rm. rewrite <- IZR_Zpower by lia. apply IZR_le. cbn -[Z.pow]. change (Z.pow (radix_val radix2) 64) with (2 ^ 64)%Z. lia.
    - right. apply round_generic; [auto with typeclass_instances|]. apply generic_format_bpow. vm_compute. discriminate. }
  destruct (lit_val (prec := 53) (emax := 1024) z 0) as [F V].
  - cbn [bpow]. rewrite Rmult_1_r, Rabs_pos_eq by exact P. eapply Rle_lt_trans; [exact U|]. apply bpow_lt. lia.
  - cbn [bpow] in V. rewrite Rmult_1_r in V. auto.
Qed.
Lemma of_int_exact z : (0 <= z < 2 ^ 53)%Z -> rnd 53 1024 (IZR z) = IZR z.
Proof.
  intro B. apply round_generic; [auto with typeclass_instances|]. apply generic_format_FLT. exists (Float radix2 z 0); cbn.
  - unfold F2R. cbn. rewrite Rmult_1_r. reflexivity.
  - change (Z.pow_pos 2 53) with (2 ^ 53)%Z. lia.
  - unfold SpecFloat.emin. lia.
Qed.
Lemma of_int_pos z : (0 < z < 2 ^ 64)%Z -> 0 < rnd 53 1024 (IZR z).
Proof.
  intro B. apply Rlt_le_trans with 1; [lra|]. apply Rle_trans with (rnd 53 1024 1); [right; symmetry; apply rnd_1|]. apply rm, IZR_le. lia.
Qed.
(** a size_t count of pairings, at most the count of potential ones: a number in [0,1] *)
Theorem C250_paired_ratio_in_unit_interval pairs potential m : (0 <= pairs <= potential)%Z -> (potential < 2 ^ 64)%Z ->
  number_in (q_quality (paired_ratio pairs potential m)) 0 1 /\
  (pairs = 0%Z -> B2R (q_quality (paired_ratio pairs potential m)) = 0) /\
  (q_discard (paired_ratio pairs potential m) = true <-> is_nan m = false /\ B2R (q_quality (paired_ratio pairs potential m)) < fval 53 1024 m).
Proof.
  intros L B. assert (N : number_in (q_quality (paired_ratio pairs potential m)) 0 1 /\ (pairs = 0%Z -> B2R (q_quality (paired_ratio pairs potential m)) = 0)).
  { unfold paired_ratio. destruct (Z.eqb_spec potential 0) as [->|NZ]; cbn [q_quality].
    - split; [|reflexivity]. split; [reflexivity|]. cbn. lra.
    - destruct (of_int_val64 pairs ltac:(lia)) as (F1 & V1 & P1). destruct (of_int_val64 potential ltac:(lia)) as (F2 & V2 & P2).
      assert (M : rnd 53 1024 (IZR pairs) <= rnd 53 1024 (IZR potential)) by (apply rm, IZR_le; lia).
      assert (P := of_int_pos potential ltac:(lia)).
      destruct (fdiv_unit (of_int pairs) (of_int potential) F1 F2) as [N V]; try (rewrite ?V1, ?V2; lra).
      split; [exact N|]. intros ->. rewrite V, V1, rnd_0 by exact p53. unfold Rdiv. rewrite Rmult_0_l. apply rnd_0. }
  destruct N as [N Z0]. split; [exact N|]. split; [exact Z0|].
  set (q := q_quality (paired_ratio pairs potential m)) in *. change (q_discard (paired_ratio pairs potential m)) with (Bltb q m).
  destruct N as [F _]. rewrite <- (fval_fin _ _ q F). split.
  - intro H. destruct (flt_nan _ _ _ _ H) as [N1 N2]. split; [exact N2|]. apply flt_val in H; assumption.
  - intros [N H]. apply flt_val; [apply fin_nan, F|exact N|exact H].
Qed.
(** more pairings never lower the ratio *)
Theorem C250_more_pairings_never_lower_it a b potential m : (0 <= a <= b)%Z -> (b <= potential)%Z -> (potential < 2 ^ 64)%Z ->
  B2R (q_quality (paired_ratio a potential m)) <= B2R (q_quality (paired_ratio b potential m)).
Proof.
  intros L L2 B. unfold paired_ratio. destruct (Z.eqb_spec potential 0) as [->|NZ]; cbn [q_quality]; [lra|].
  destruct (of_int_val64 a ltac:(lia)) as (F1 & V1 & P1). destruct (of_int_val64 b ltac:(lia)) as (F2 & V2 & P2). destruct (of_int_val64 potential ltac:(lia)) as (F3 & V3 & P3).
  assert (M1 : rnd 53 1024 (IZR a) <= rnd 53 1024 (IZR b)) by (apply rm, IZR_le; lia).
  assert (M2 : rnd 53 1024 (IZR b) <= rnd 53 1024 (IZR potential)) by (apply rm, IZR_le; lia).
  assert (P := of_int_pos potential ltac:(lia)).
  destruct (fdiv_unit (of_int a) (of_int potential) F1 F3) as [_ E1]; try (rewrite ?V1, ?V3; lra).
  destruct (fdiv_unit (of_int b) (of_int potential) F2 F3) as [_ E2]; try (rewrite ?V2, ?V3; lra).
  rewrite E1, E2. apply rm. rewrite V1, V2, V3. apply Rmult_le_compat_r; [left; apply Rinv_0_lt_compat, P|exact M1].
Qed.
(** up to 2^53 points, the ratio is 1 only if every potential pairing was made *)
Theorem C250_one_only_if_all_paired pairs potential m : (0 <= pairs <= potential)%Z -> (0 < potential < 2 ^ 53)%Z ->
  B2R (q_quality (paired_ratio pairs potential m)) = 1 <-> pairs = potential.
Proof.
  intros L B. unfold paired_ratio. destruct (Z.eqb_spec potential 0) as [->|NZ]; cbn [q_quality]; [lia|].
  destruct (of_int_val64 pairs ltac:(lia)) as (F1 & V1 & P1). destruct (of_int_val64 potential ltac:(lia)) as (F2 & V2 & P2).
  rewrite of_int_exact in V1, V2 by lia.
  assert (M : 0 <= IZR pairs <= IZR potential) by (split; apply IZR_le; lia). assert (P : 0 < IZR potential) by (apply IZR_lt; lia).
  destruct (fdiv_unit (of_int pairs) (of_int potential) F1 F2) as [_ E]; try (rewrite ?V1, ?V2; lra).
  rewrite E, V1, V2. split; [|intros ->; unfold Rdiv; rewrite Rinv_r by lra; apply rnd_1].
  intro H. destruct (Z.eq_dec pairs potential) as [|NE]; [assumption|exfalso].
  assert (U : rnd 53 1024 (IZR pairs / IZR potential) <= 1 - bpow radix2 (-53)).
  { apply Rle_trans with (rnd 53 1024 (1 - bpow radix2 (-53))).
    - apply rm. apply Rmult_le_reg_r with (IZR potential); [exact P|]. unfold Rdiv. rewrite Rmult_assoc, Rinv_l, Rmult_1_r by lra.
      assert (IZR pairs <= IZR potential - 1) by (rewrite <- minus_IZR; apply IZR_le; lia).
      assert (bpow radix2 (-53) * IZR potential <= 1); [|lra].
      replace 1 with (bpow radix2 (-53) * bpow radix2 53) by (rewrite <- bpow_plus; reflexivity).
      apply Rmult_le_compat_l; [apply bpow_ge_0|]. rewrite <- IZR_Zpower by lia. apply IZR_le. change (Z.pow (radix_val radix2) 53) with (2 ^ 53)%Z. lia.
    - right. apply round_generic; [auto with typeclass_instances|]. apply generic_format_FLT. exists (Float radix2 (2 ^ 53 - 1) (-53)).
      + unfold F2R. cbn [Fnum Fexp]. rewrite minus_IZR. change (2 ^ 53)%Z with (Z.pow (radix_val radix2) 53). rewrite IZR_Zpower by lia.
        rewrite Rmult_minus_distr_r, <- bpow_plus. cbn [Z.add]. rewrite Rmult_1_l. reflexivity.
      + reflexivity.
      + discriminate. }
  generalize (bpow_gt_0 radix2 (-53)). lra.
Qed.
Example C250_example : B2SF (q_quality (paired_ratio 3 4 f0)) = B2SF (lit 3 (-2) : f64) /\ q_discard (paired_ratio 3 4 (lit 7 (-3))) = true.
Proof. split; vm_compute; reflexivity. Qed.
