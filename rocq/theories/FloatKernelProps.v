(** Properties of the inlier count, the robust kernels and the range filter in floating point (C263-C266). *)
From Coq Require Import ZArith Reals Lra Lia Bool List.
From Flocq Require Import Core BinarySingleNaN Relative.
From Verif Require Import Base FloatBase FloatModel FloatProps FloatIntensityProps FloatStampProps.
Import ListNotations.
Open Scope R_scope.

(** ** C263: how many pairings Matcher_Points_InlierRatio keeps *)
Lemma Znearest_int z : ZnearestE (IZR z) = z.
Proof. apply (@Zrnd_IZR ZnearestE). auto with typeclass_instances. Qed.
Lemma Znearest_le x y : x <= y -> (ZnearestE x <= ZnearestE y)%Z.
Proof. apply (@Zrnd_le ZnearestE). auto with typeclass_instances. Qed.
Lemma keep_val n (r : f64) : (0 <= n < 2 ^ 53)%Z -> number_in r 0 1 -> n_keep n r = ZnearestE (rnd 53 1024 (IZR n * B2R r)) /\ 0 <= rnd 53 1024 (IZR n * B2R r) <= IZR n.
Proof.
  intros Bn [Fr Br]. destruct (of_int_val64 n ltac:(lia)) as (Fn & Vn & _). rewrite of_int_exact in Vn by exact Bn.
  assert (P : 0 <= IZR n) by (apply IZR_le; lia).
  assert (B : 0 <= rnd 53 1024 (IZR n * B2R r) <= IZR n).
  { split; [apply rp; nra|]. apply Rle_trans with (rnd 53 1024 (IZR n)); [apply rm; nra|right; apply of_int_exact, Bn]. }
  split; [|exact B]. unfold n_keep. destruct (val_fin _ _ (fmul_val 53 1024 (of_int n) r Fn Fr)) as [_ V].
  - rewrite Vn. assert (IZR n < top 1024); [|generalize (top_pos 1024); lra]. apply Rlt_le_trans with (bpow radix2 53); [|apply bpow_le; lia].
    rewrite <- IZR_Zpower by lia. apply IZR_lt. exact (proj2 Bn).
  - unfold fmul_. rewrite V, Vn. reflexivity.
Qed.
(** for a ratio between 0 and 1 and fewer than 2^53 candidates: between none and all of them (advancing the iterator stays
    inside the container), all of them for a ratio of 1, none for 0, and never fewer for a larger ratio *)
Theorem C263_kept_pairings_are_available n (r : f64) : (0 <= n < 2 ^ 53)%Z -> number_in r 0 1 ->
  (0 <= n_keep n r <= n)%Z /\ (B2R r = 1 -> n_keep n r = n) /\ (B2R r = 0 -> n_keep n r = 0%Z).
Proof.
  intros Bn Br. destruct (keep_val n r Bn Br) as [E B]. rewrite E. split; [|split].
  - split; [rewrite <- (Znearest_int 0)|rewrite <- (Znearest_int n) at 2]; apply Znearest_le, B.
  - intros ->. rewrite Rmult_1_r, of_int_exact by exact Bn. apply Znearest_int.
  - intros ->. rewrite Rmult_0_r, rnd_0 by exact p53. apply Znearest_int.
Qed.
Theorem C263_larger_ratio_keeps_no_fewer n (r s : f64) : (0 <= n < 2 ^ 53)%Z -> number_in r 0 1 -> number_in s 0 1 -> B2R r <= B2R s -> (n_keep n r <= n_keep n s)%Z.
Proof.
  intros Bn Br Bs L. destruct (keep_val n r Bn Br) as [E _]. destruct (keep_val n s Bn Bs) as [E' _]. rewrite E, E'. apply Znearest_le, rm.
  apply Rmult_le_compat_l; [apply IZR_le; lia|exact L].
Qed.
(** three quarters of ten: 7.5, rounded to the even 8 *)
Example C263_example : n_keep 10 (lit 3 (-2)) = 8%Z.
Proof. unfold n_keep. assert (E : B2SF (fmul_ (of_int 10) (lit 3 (-2)) : f64) = SpecFloat.S754_finite false 8444249301319680 (-50)) by (vm_compute; reflexivity).
  rewrite <- SF2R_B2SF, E. replace (SF2R radix2 _) with (15 / 2) by (unfold SF2R, F2R; cbn; lra).
  unfold Znearest. assert (Z7 : Zfloor (15 / 2) = 7%Z) by (apply Zfloor_imp; cbn; lra). rewrite Z7. rewrite Rcompare_Eq by lra. cbn [Z.even negb].
  rewrite (Zceil_imp 8); [reflexivity|]. cbn. lra. Qed.

(** ** Division by something larger, infinity included *)
Section Q.
Context {prec emax : Z} {Hp : Prec_gt_0 prec} {Hm : Prec_lt_emax prec emax}.
Notation flt := (binary_float prec emax).
Notation fval := (fval prec emax).
Definition quot (x y : flt) : R := if is_finite y then rnd prec emax (B2R x / B2R y) else 0.
Lemma div_big (x y : flt) : is_finite x = true -> is_nan y = false -> 0 < B2R x -> B2R x <= fval y ->
  number_in (fdiv_ x y) 0 1 /\ B2R (fdiv_ x y) = quot x y.
Proof.
  intros Fx Ny Px L. unfold quot. destruct (is_finite y) eqn:Fy.
  - rewrite (fval_fin _ _ y Fy) in L. apply fdiv_unit; try assumption; lra.
  - destruct y as [|s| |]; try discriminate. assert (E : exists s', fdiv_ x (B754_infinity s) = B754_zero s').
    { destruct x as [sx|sx| |sx m e B]; try discriminate; [exists (xorb sx s)|exists (xorb sx s)]; reflexivity. }
    destruct E as [s' ->]. unfold number_in. cbn [is_finite B2R]. split; [split; [reflexivity|lra]|reflexivity].
Qed.
Lemma quot_anti (x y z : flt) : 0 < B2R x -> is_nan y = false -> is_nan z = false -> 0 < fval y <= fval z -> quot x z <= quot x y.
Proof.
  intros Px Ny Nz L. unfold quot. destruct (is_finite z) eqn:Fz.
  - assert (Fy : is_finite y = true). { apply fin_iff. split; [exact Ny|]. apply fin_iff in Fz. generalize (top_pos emax). lra. }
    rewrite Fy. rewrite !fval_fin in L by assumption. apply rm. apply Rmult_le_compat_l; [lra|]. apply Rinv_le_contravar; lra.
  - destruct (is_finite y) eqn:Fy; [|lra]. rewrite fval_fin in L by exact Fy. apply rp. apply Rmult_le_pos; [lra|]. left. apply Rinv_0_lt_compat. lra.
Qed.
Lemma quot_self (x y : flt) : is_finite y = true -> B2R y = B2R x -> 0 < B2R x -> quot x y = 1.
Proof. intros Fy E P. unfold quot. rewrite Fy, E. unfold Rdiv. rewrite Rinv_r by lra. apply rnd_1. Qed.
End Q.

(** ** C264, C265: the robust kernels *)
Definition square_ok (c : f64) : Prop := 0 < rnd 53 1024 (B2R c * B2R c) < bpow radix2 1024.
Lemma sqr_val (c : f64) : is_finite c = true -> square_ok c -> is_finite (sqr_ c) = true /\ B2R (sqr_ c) = rnd 53 1024 (B2R c * B2R c).
Proof. intros F [P U]. apply val_fin; [exact (fmul_val 53 1024 c c F F)|]. unfold top. generalize (bpow_gt_0 radix2 1024). lra. Qed.
Lemma sat_ge (r s : R) : s <= r -> - top 1024 <= s <= top 1024 -> s <= sat 1024 r.
Proof. intros L B. rewrite <- (sat_id 1024 s B). apply sat_mono, L. Qed.
Lemma cauchy_den (c e : f64) : is_finite c = true -> square_ok c -> is_finite e = true -> 0 <= B2R e ->
  is_nan (fadd_ e (sqr_ c)) = false /\ B2R (sqr_ c) <= fval 53 1024 (fadd_ e (sqr_ c)) /\ fval 53 1024 (fadd_ e (sqr_ c)) = sat 1024 (rnd 53 1024 (B2R e + B2R (sqr_ c))).
Proof.
  intros Fc Sc Fe Pe. destruct (sqr_val c Fc Sc) as [F2 V2]. destruct (fadd_val 53 1024 e (sqr_ c) Fe F2) as [N V]. fold (fadd_ e (sqr_ c)) in N, V.
  split; [exact N|]. split; [|exact V]. rewrite V. apply sat_ge; [|generalize (fin_bound 53 1024 (sqr_ c)); lra].
  apply Rle_trans with (rnd 53 1024 (B2R (sqr_ c))); [right; symmetry; apply rnd_float|apply rm; lra].
Qed.
Lemma gm_den (c e : f64) : is_finite c = true -> 0 < B2R c -> square_ok c -> is_finite e = true -> 0 <= B2R e ->
  is_nan (sqr_ (fadd_ e c)) = false /\ B2R (sqr_ c) <= fval 53 1024 (sqr_ (fadd_ e c)) /\
  fval 53 1024 (sqr_ (fadd_ e c)) = (if is_finite (fadd_ e c) then sat 1024 (rnd 53 1024 (B2R (fadd_ e c) * B2R (fadd_ e c))) else top 1024) /\ B2R c <= fval 53 1024 (fadd_ e c) /\ is_nan (fadd_ e c) = false.
Proof.
  intros Fc Pc Sc Fe Pe. destruct (sqr_val c Fc Sc) as [F2 V2]. destruct (fadd_val 53 1024 e c Fe Fc) as [N V]. fold (fadd_ e c) in N, V.
  assert (L : B2R c <= fval 53 1024 (fadd_ e c)).
  { rewrite V. apply sat_ge; [|generalize (fin_bound 53 1024 c); lra]. apply Rle_trans with (rnd 53 1024 (B2R c)); [right; symmetry; apply rnd_float|apply rm; lra]. }
  destruct (is_finite (fadd_ e c)) eqn:Fa.
  - rewrite fval_fin in L by exact Fa. destruct (fmul_val 53 1024 (fadd_ e c) (fadd_ e c) Fa Fa) as [N' V']. fold (fmul_ (fadd_ e c) (fadd_ e c)) in N', V'. fold (sqr_ (fadd_ e c)) in N', V'.
    split; [exact N'|]. split; [|split; [exact V'|split; [rewrite fval_fin by exact Fa; exact L|exact N]]]. rewrite V'. apply sat_ge; [|generalize (fin_bound 53 1024 (sqr_ c)); lra].
    rewrite V2. apply rm. nra.
  - destruct (fadd_ e c) as [|[|]| |]; try discriminate; cbn [fval] in L; [generalize (top_pos 1024); lra|].
    assert (E : sqr_ (B754_infinity false : f64) = B754_infinity false) by reflexivity. rewrite E. split; [reflexivity|]. split; [generalize (fin_bound 53 1024 (sqr_ c)); cbn [fval]; lra|].
    split; [reflexivity|]. split; [exact L|reflexivity].
Qed.
Lemma sqr_bad (c : f64) : is_finite c = true -> ~ square_ok c -> sqr_ c = B754_infinity false \/ exists s, sqr_ c = B754_zero s.
Proof.
  intros F B. destruct (fmul_val 53 1024 c c F F) as [N V]. fold (fmul_ c c) in N, V. fold (sqr_ c) in N, V.
  assert (P : 0 <= rnd 53 1024 (B2R c * B2R c)) by (apply rp; nra).
  destruct (Rlt_or_le (rnd 53 1024 (B2R c * B2R c)) (top 1024)) as [L|L].
  - right. rewrite sat_id in V by (generalize (top_pos 1024); lra). assert (Z : rnd 53 1024 (B2R c * B2R c) = 0).
    { apply Rle_antisym; [|exact P]. apply Rnot_lt_le. intro Q. apply B. split; assumption. }
    rewrite Z in V. destruct (sqr_ c) as [s|[|]| |s m e Q]; cbn [fval B2R] in V; try discriminate N; [exists s; reflexivity|generalize (top_pos 1024); lra..|].
    apply eq_0_F2R in V. destruct s; discriminate V.
  - left. rewrite sat_top in V by exact L. destruct (is_finite (sqr_ c)) eqn:Fs; [rewrite fval_fin in V by exact Fs; generalize (fin_bound 53 1024 (sqr_ c)); lra|].
    destruct (sqr_ c) as [|[|]| |]; try discriminate; cbn [fval] in V; [generalize (top_pos 1024); lra|reflexivity].
Qed.
(** For a positive parameter, both kernels give a number in [0,1] for every finite squared error, exactly if the square
    of the parameter neither overflows nor underflows to zero. *)
Theorem C264_cauchy_weight_in_unit_interval_where (c : f64) : is_finite c = true -> 0 < B2R c ->
  (forall e : f64, is_finite e = true -> 0 <= B2R e -> number_in (cauchy c e) 0 1) <-> 0 < rnd 53 1024 (B2R c * B2R c) < bpow radix2 1024.
Proof.
  intros Fc Pc. fold (square_ok c). split.
  - intro H. destruct (Rlt_or_le 0 (rnd 53 1024 (B2R c * B2R c))) as [A|A]; [destruct (Rlt_or_le (rnd 53 1024 (B2R c * B2R c)) (bpow radix2 1024)) as [B|B]; [split; assumption|]|]; exfalso;
      (destruct (sqr_bad c Fc) as [E|[s E]]; [intros [? ?]; lra| |]);
      specialize (H f0 eq_refl ltac:(cbn; lra)); unfold cauchy in H; rewrite E in H; destruct H as [H _]; try destruct s; vm_compute in H; discriminate H.
  - intros Sc e Fe Pe. destruct (sqr_val c Fc Sc) as [F2 V2]. destruct (cauchy_den c e Fc Sc Fe Pe) as (N & L & _). apply div_big; try assumption. rewrite V2. apply Sc.
Qed.
Theorem C264_geman_mcclure_weight_in_unit_interval_where (c : f64) : is_finite c = true -> 0 < B2R c ->
  (forall e : f64, is_finite e = true -> 0 <= B2R e -> number_in (geman_mcclure c e) 0 1) <-> 0 < rnd 53 1024 (B2R c * B2R c) < bpow radix2 1024.
Proof.
  intros Fc Pc. fold (square_ok c). split.
  - intro H. specialize (H f0 eq_refl ltac:(cbn; lra)). unfold geman_mcclure in H.
    assert (E0 : fadd_ f0 c = c). { destruct c as [s|s| |s m e B]; try discriminate; [cbn in Pc; lra|reflexivity]. }
    rewrite E0 in H. destruct (Rlt_or_le 0 (rnd 53 1024 (B2R c * B2R c))) as [A|A]; [destruct (Rlt_or_le (rnd 53 1024 (B2R c * B2R c)) (bpow radix2 1024)) as [B|B]; [split; assumption|]|]; exfalso;
      (destruct (sqr_bad c Fc) as [E|[s E]]; [intros [? ?]; lra| |]); rewrite E in H; destruct H as [H _]; try destruct s; vm_compute in H; discriminate H.
  - intros Sc e Fe Pe. destruct (sqr_val c Fc Sc) as [F2 V2]. destruct (gm_den c e Fc Pc Sc Fe Pe) as (N & L & _). apply div_big; try assumption. rewrite V2. apply Sc.
Qed.
Theorem C264_kernel_weight_in_unit_interval_refuted : exists c : f64, is_finite c = true /\ 0 < B2R c /\ cauchy c f0 = B754_nan /\ geman_mcclure c f0 = B754_nan.
Proof.
  exists (lit 1 (-600)). destruct (lit_exact (prec := 53) (emax := 1024) 1 (-600) eq_refl ltac:(lia) ltac:(lia)) as [F V]. split; [exact F|].
  split; [unfold f64 in *; rewrite V; generalize (bpow_gt_0 radix2 (-600)); lra|]. split; vm_compute; reflexivity.
Qed.
(** no error means full weight, exactly 1, and a larger error never weighs more *)
Theorem C265_kernel_full_weight_without_error (c : f64) : is_finite c = true -> 0 < B2R c -> 0 < rnd 53 1024 (B2R c * B2R c) < bpow radix2 1024 ->
  B2R (cauchy c f0) = 1 /\ B2R (geman_mcclure c f0) = 1.
Proof.
  intros Fc Pc Sc. destruct (sqr_val c Fc Sc) as [F2 V2]. assert (P2 : 0 < B2R (sqr_ c)) by (rewrite V2; apply Sc).
  assert (E0 : forall x : f64, is_finite x = true -> 0 < B2R x -> fadd_ f0 x = x). { intros x Fx Px. destruct x as [s|s| |s m e B]; try discriminate; [cbn in Px; lra|reflexivity]. }
  split; [unfold cauchy|unfold geman_mcclure]; rewrite E0 by assumption;
    (rewrite (proj2 (div_big (sqr_ c) (sqr_ c) F2 ltac:(apply fin_nan; exact F2) P2 ltac:(rewrite fval_fin by exact F2; lra))); apply quot_self; [exact F2|reflexivity|exact P2]).
Qed.
Theorem C265_kernel_weight_never_grows_with_the_error (c e1 e2 : f64) : is_finite c = true -> 0 < B2R c -> 0 < rnd 53 1024 (B2R c * B2R c) < bpow radix2 1024 ->
  is_finite e1 = true -> is_finite e2 = true -> 0 <= B2R e1 <= B2R e2 ->
  B2R (cauchy c e2) <= B2R (cauchy c e1) /\ B2R (geman_mcclure c e2) <= B2R (geman_mcclure c e1).
Proof.
  intros Fc Pc Sc F1 F2 L. destruct (sqr_val c Fc Sc) as [Fs Vs]. assert (P2 : 0 < B2R (sqr_ c)) by (rewrite Vs; apply Sc). split.
  - destruct (cauchy_den c e1 Fc Sc F1 ltac:(lra)) as (N1 & L1 & V1). destruct (cauchy_den c e2 Fc Sc F2 ltac:(lra)) as (N2 & L2 & V2).
    unfold cauchy. rewrite (proj2 (div_big _ _ Fs N1 P2 L1)), (proj2 (div_big _ _ Fs N2 P2 L2)). apply quot_anti; try assumption. split; [lra|].
    rewrite V1, V2. apply sat_mono, rm. lra.
  - destruct (gm_den c e1 Fc Pc Sc F1 ltac:(lra)) as (N1 & L1 & V1 & A1 & M1). destruct (gm_den c e2 Fc Pc Sc F2 ltac:(lra)) as (N2 & L2 & V2 & A2 & M2).
    unfold geman_mcclure. rewrite (proj2 (div_big _ _ Fs N1 P2 L1)), (proj2 (div_big _ _ Fs N2 P2 L2)). apply quot_anti; try assumption. split; [lra|].
    assert (LA : fval 53 1024 (fadd_ e1 c) <= fval 53 1024 (fadd_ e2 c)).
    { unfold fadd_. rewrite (proj2 (fadd_val 53 1024 e1 c F1 Fc)), (proj2 (fadd_val 53 1024 e2 c F2 Fc)). apply sat_mono, rm. lra. }
    rewrite V1, V2. destruct (is_finite (fadd_ e2 c)) eqn:Fa2.
    + assert (Fa1 : is_finite (fadd_ e1 c) = true). { apply fin_iff. split; [exact M1|]. apply fin_iff in Fa2. generalize (top_pos 1024). lra. }
      rewrite Fa1. rewrite !fval_fin in LA by assumption. rewrite fval_fin in A1 by exact Fa1. apply sat_mono, rm. nra.
    + destruct (is_finite (fadd_ e1 c)); [apply sat_bound|lra].
Qed.
Example C265_example : square_ok (of_int 2) /\ B2SF (cauchy (of_int 2) (of_int 12)) = B2SF (lit 1 (-2) : f64) /\ B2SF (geman_mcclure (of_int 2) (of_int 2)) = B2SF (lit 1 (-2) : f64).
Proof.
  split; [|split; vm_compute; reflexivity]. assert (V : B2R (of_int 2 : f64) = 2) by (destruct (of_int_val64 2 ltac:(lia)) as (_ & -> & _); apply of_int_exact; lia).
  unfold square_ok. unfold f64 in *. rewrite V. replace (2 * 2) with 4 by ring. rewrite (of_int_exact 4) by lia. split; [lra|]. apply Rlt_le_trans with (bpow radix2 3); [cbn; lra|apply bpow_le; lia].
Qed.

(** ** C266: FilterByRange *)
(** the exact squared distance of a point to the centre *)
Definition sqr_dist (center p : F3) : R :=
  let '(a, b, c) := center in let '(x, y, z) := p in
  (B2R x - B2R a) * (B2R x - B2R a) + (B2R y - B2R b) * (B2R y - B2R b) + (B2R z - B2R c) * (B2R z - B2R c).
Definition finite3 (p : F3) : Prop := let '(x, y, z) := p in is_finite x = true /\ is_finite y = true /\ is_finite z = true.
Notation eta := (bpow radix2 (-150)).
Lemma u24 : bpow radix2 (-24) = / 16777216.
Proof. cbn. lra. Qed.
Lemma sat_le r : 0 <= r -> sat 128 r <= r.
Proof. intro P. unfold sat. generalize (top_pos 128). intro T. apply Rmax_lub; [lra|apply Rmin_r]. Qed.
Lemma sat_or r : 0 <= r -> sat 128 r = r \/ sat 128 r = top 128.
Proof.
  intro P. generalize (top_pos 128). intro T. destruct (Rle_or_lt (top 128) r) as [L|L]; [right; apply sat_top, L|left; apply sat_id; lra].
Qed.
Lemma sat_nonneg r : 0 <= r -> 0 <= sat 128 r.
Proof. intro P. destruct (sat_or r P) as [-> | ->]; [exact P|]. generalize (top_pos 128). lra. Qed.
(** a square, whatever is squared *)
Lemma sqr_any (x : f32) : is_nan x = false -> is_nan (sqr_ x) = false /\ fval 24 128 (sqr_ x) = sat 128 (rnd 24 128 (fval 24 128 x * fval 24 128 x)).
Proof.
  intro N. destruct (is_finite x) eqn:F.
  - rewrite (fval_fin _ _ x F). exact (fmul_val 24 128 x x F F).
  - assert (T : top 128 * top 128 = bpow radix2 256) by (unfold top; rewrite <- bpow_plus; reflexivity).
    assert (S : sat 128 (rnd 24 128 (top 128 * top 128)) = top 128). { rewrite T, bpow_format by lia. apply sat_top. apply bpow_le. lia. }
    destruct x as [|[|]| |]; try discriminate; (split; [reflexivity|]); cbn [fval]; [replace (- top 128 * - top 128) with (top 128 * top 128) by ring|]; rewrite S; reflexivity.
Qed.
Lemma add_pos (x y : f32) : is_nan x = false -> is_nan y = false -> 0 <= fval 24 128 x -> 0 <= fval 24 128 y ->
  is_nan (fadd_ x y) = false /\ fval 24 128 (fadd_ x y) = sat 128 (rnd 24 128 (fval 24 128 x + fval 24 128 y)).
Proof.
  intros Nx Ny Px Py. generalize (top_pos 128). intro T. assert (Big : forall z, top 128 <= z -> sat 128 (rnd 24 128 z) = top 128).
  { intros z L. apply sat_top. apply Rle_trans with (rnd 24 128 (top 128)); [right; symmetry; apply bpow_format; lia|apply rm, L]. }
  destruct (is_finite x) eqn:Fx, (is_finite y) eqn:Fy.
  - rewrite (fval_fin _ _ x Fx), (fval_fin _ _ y Fy). exact (fadd_val 24 128 x y Fx Fy).
  - destruct y as [|[|]| |]; try discriminate; cbn [fval] in *; [lra|]. rewrite Big by lra. destruct x as [|[|]| |]; try discriminate; split; reflexivity.
  - destruct x as [|[|]| |]; try discriminate; cbn [fval] in *; [lra|]. rewrite Big by lra. destruct y as [|[|]| |]; try discriminate; split; reflexivity.
  - destruct x as [|[|]| |]; try discriminate; cbn [fval] in *; [lra|]. rewrite Big by lra. destruct y as [|[|]| |]; try discriminate; cbn [fval] in *; [lra|]. split; reflexivity.
Qed.
Lemma rnd_err_abs v : 0 <= v -> (1 - bpow radix2 (-24)) * v - eta <= rnd 24 128 v <= (1 + bpow radix2 (-24)) * v + eta.
Proof.
  intro P. destruct (error_N_FLT radix2 (-149) 24 eq_refl (fun n => negb (Z.even n)) v) as (eps & et & Be & Bt & _ & Ev).
  change (round radix2 (FLT_exp (-149) 24) (Znearest (fun n : Z => negb (Z.even n))) v) with (rnd 24 128 v) in Ev. rewrite Ev.
  replace (/ 2 * bpow radix2 (- (24) + 1)) with (bpow radix2 (-24)) in Be by (replace (/ 2) with (bpow radix2 (-1)) by (cbn; lra); rewrite <- bpow_plus; reflexivity).
  replace (/ 2 * bpow radix2 (-149)) with eta in Bt by (replace (/ 2) with (bpow radix2 (-1)) by (cbn; lra); rewrite <- bpow_plus; reflexivity).
  apply Rabs_le_inv in Be. apply Rabs_le_inv in Bt. split; nra.
Qed.
(** one coordinate: its computed square against the exact one *)
Lemma axis (x a : f32) : is_finite x = true -> is_finite a = true -> let d := (B2R x - B2R a) * (B2R x - B2R a) in let s := sqr_ (fsub_ x a) in
  is_nan s = false /\ 0 <= fval 24 128 s <= (1 + bpow radix2 (-24)) ^ 3 * d + eta /\ (fval 24 128 s = top 128 \/ (1 - bpow radix2 (-24)) ^ 3 * d - eta <= fval 24 128 s).
Proof.
  intros Fx Fa. cbv zeta. destruct (fsub_val 24 128 x a Fx Fa) as [N V]. fold (fsub_ x a) in N, V. destruct (sqr_any _ N) as [N2 V2]. rewrite V in V2.
  set (d := B2R x - B2R a) in *. assert (Er := sub_err x a). fold d in Er. set (r := rnd 24 128 d) in *.
  assert (U0 := bpow_gt_0 radix2 (-24)). assert (U1 : bpow radix2 (-24) < 1) by (rewrite u24; lra).
  assert (R2 : (1 - bpow radix2 (-24)) ^ 2 * (d * d) <= r * r <= (1 + bpow radix2 (-24)) ^ 2 * (d * d)).
  { assert (A : (1 - bpow radix2 (-24)) * Rabs d <= Rabs r <= (1 + bpow radix2 (-24)) * Rabs d).
    { assert (T1 := Rabs_triang_inv r d). assert (T2 := Rabs_triang_inv d r). rewrite (Rabs_minus_sym d r) in T2. lra. }
    assert (Q : forall z, z * z = Rabs z * Rabs z) by (intro z; rewrite <- Rabs_mult; symmetry; apply Rabs_pos_eq; nra). rewrite (Q r), (Q d).
    assert (Pd := Rabs_pos d). split; [replace ((1 - bpow radix2 (-24)) ^ 2 * (Rabs d * Rabs d)) with (((1 - bpow radix2 (-24)) * Rabs d) * ((1 - bpow radix2 (-24)) * Rabs d)) by ring|
      replace ((1 + bpow radix2 (-24)) ^ 2 * (Rabs d * Rabs d)) with (((1 + bpow radix2 (-24)) * Rabs d) * ((1 + bpow radix2 (-24)) * Rabs d)) by ring];
      apply Rmult_le_compat; try lra; try apply Rabs_pos; apply Rmult_le_pos; lra. }
  set (t := sat 128 r) in *.
  assert (Ht : t * t <= r * r /\ (t * t = r * r \/ (t = top 128 \/ t = - top 128))).
  { unfold t, sat. generalize (top_pos 128). intro T. destruct (Rle_or_lt (top 128) r) as [L|L].
    - rewrite Rmin_left, Rmax_right by lra. split; [nra|right; left; reflexivity].
    - rewrite Rmin_right by lra. destruct (Rle_or_lt r (- top 128)) as [L'|L'].
      + rewrite Rmax_left by lra. split; [nra|right; right; reflexivity].
      + rewrite Rmax_right by lra. split; [lra|left; reflexivity]. }
  assert (P2 : 0 <= t * t) by nra. assert (Pd : 0 <= d * d) by nra. split; [exact N2|]. rewrite V2. split.
  - split; [apply sat_nonneg, rp, P2|]. eapply Rle_trans; [apply sat_le, rp, P2|]. generalize (rnd_err_abs (t * t) P2). nra.
  - destruct Ht as [Hl [He|Ht]].
    + destruct (sat_or (rnd 24 128 (t * t)) ltac:(apply rp; exact P2)) as [-> | ->]; [right|left; reflexivity]. rewrite He. generalize (rnd_err_abs (r * r) ltac:(nra)). nra.
    + left. apply sat_top. assert (E : t * t = bpow radix2 256). { unfold top in Ht. replace (bpow radix2 256) with (bpow radix2 128 * bpow radix2 128) by (rewrite <- bpow_plus; reflexivity). destruct Ht as [-> | ->]; ring. }
      rewrite E, bpow_format by lia. apply bpow_le. lia.
Qed.
Lemma add_rel (x y : f32) : is_nan x = false -> is_nan y = false -> 0 <= fval 24 128 x -> 0 <= fval 24 128 y ->
  is_nan (fadd_ x y) = false /\ 0 <= fval 24 128 (fadd_ x y) <= (1 + bpow radix2 (-24)) * (fval 24 128 x + fval 24 128 y) /\
  (fval 24 128 (fadd_ x y) = top 128 \/ (1 - bpow radix2 (-24)) * (fval 24 128 x + fval 24 128 y) <= fval 24 128 (fadd_ x y)) /\
  (fval 24 128 x = top 128 \/ fval 24 128 y = top 128 -> fval 24 128 (fadd_ x y) = top 128).
Proof.
  intros Nx Ny Px Py. destruct (add_pos x y Nx Ny Px Py) as [N V]. split; [exact N|].
  assert (Top : fval 24 128 x = top 128 \/ fval 24 128 y = top 128 -> fval 24 128 (fadd_ x y) = top 128).
  { intro H. rewrite V. apply sat_top. apply Rle_trans with (rnd 24 128 (top 128)); [right; symmetry; apply bpow_format; lia|apply rm; destruct H; lra]. }
  assert (S : 0 <= fval 24 128 x + fval 24 128 y) by lra. assert (Sr : 0 <= rnd 24 128 (fval 24 128 x + fval 24 128 y)) by (apply rp, S).
  assert (U0 := bpow_gt_0 radix2 (-24)).
  destruct (is_finite x) eqn:Fx, (is_finite y) eqn:Fy.
  - rewrite (fval_fin _ _ x Fx), (fval_fin _ _ y Fy) in *.
    assert (E := sub_err x (Bopp y)). rewrite B2R_Bopp in E. replace (B2R x - - B2R y) with (B2R x + B2R y) in E by ring. rewrite (Rabs_pos_eq (B2R x + B2R y)) in E by exact S. apply Rabs_le_inv in E.
    rewrite V. split; [split; [apply sat_nonneg, Sr|eapply Rle_trans; [apply sat_le, Sr|lra]]|].
    split; [destruct (sat_or _ Sr) as [-> | ->]; [right; lra|left; reflexivity]|]. rewrite <- V. exact Top.
  - assert (Ty : fval 24 128 y = top 128) by (destruct y as [|[|]| |]; try discriminate; cbn [fval] in *; [generalize (top_pos 128); lra|reflexivity]).
    rewrite (Top (or_intror Ty)), Ty. generalize (top_pos 128). intro T. split; [split; [lra|nra]|]. split; [left; reflexivity|reflexivity].
  - assert (Tx : fval 24 128 x = top 128) by (destruct x as [|[|]| |]; try discriminate; cbn [fval] in *; [generalize (top_pos 128); lra|reflexivity]).
    rewrite (Top (or_introl Tx)), Tx. generalize (top_pos 128). intro T. split; [split; [lra|nra]|]. split; [left; reflexivity|reflexivity].
  - assert (Tx : fval 24 128 x = top 128) by (destruct x as [|[|]| |]; try discriminate; cbn [fval] in *; [generalize (top_pos 128); lra|reflexivity]).
    rewrite (Top (or_introl Tx)), Tx. generalize (top_pos 128). intro T. split; [split; [lra|nra]|]. split; [left; reflexivity|reflexivity].
Qed.
Lemma norm_bounds center p : finite3 center -> finite3 p -> let n := sqr_norm (minus3 p center) in
  is_nan n = false /\ 0 <= fval 24 128 n <= (1 + bpow radix2 (-24)) ^ 5 * sqr_dist center p + 4 * eta /\
  (fval 24 128 n = top 128 \/ (1 - bpow radix2 (-24)) ^ 5 * sqr_dist center p - 3 * eta <= fval 24 128 n).
Proof.
  destruct center as [[a b] c], p as [[x y] z]. intros (Fa & Fb & Fc) (Fx & Fy & Fz). cbn [minus3 sqr_norm sqr_dist]. cbv zeta.
  destruct (axis x a Fx Fa) as (N1 & U1 & L1). destruct (axis y b Fy Fb) as (N2 & U2 & L2). destruct (axis z c Fz Fc) as (N3 & U3 & L3).
  set (s1 := sqr_ (fsub_ x a)) in *. set (s2 := sqr_ (fsub_ y b)) in *. set (s3 := sqr_ (fsub_ z c)) in *.
  destruct (add_rel s1 s2 N1 N2 ltac:(lra) ltac:(lra)) as (N4 & U4 & L4 & T4). destruct (add_rel _ s3 N4 N3 ltac:(lra) ltac:(lra)) as (N5 & U5 & L5 & T5).
  split; [exact N5|]. assert (E0 := bpow_gt_0 radix2 (-150)).
  set (d1 := (B2R x - B2R a) * (B2R x - B2R a)) in *. set (d2 := (B2R y - B2R b) * (B2R y - B2R b)) in *. set (d3 := (B2R z - B2R c) * (B2R z - B2R c)) in *.
  assert (P1 : 0 <= d1) by exact (Rle_0_sqr _). assert (P2 : 0 <= d2) by exact (Rle_0_sqr _). assert (P3 : 0 <= d3) by exact (Rle_0_sqr _). clearbody d1 d2 d3.
  rewrite u24 in *. set (v1 := fval 24 128 s1) in *. set (v2 := fval 24 128 s2) in *. set (v3 := fval 24 128 s3) in *. set (v4 := fval 24 128 (fadd_ s1 s2)) in *. set (v5 := fval 24 128 (fadd_ (fadd_ s1 s2) s3)) in *. clearbody v1 v2 v3 v4 v5. set (et := eta) in *. clearbody et.
  split; [split; [lra|]; cbn [pow] in *; lra|].
  destruct (Req_dec v5 (top 128)) as [Q5|Q5]; [left; exact Q5|right].
  destruct L5 as [L5|L5]; [contradiction|]. assert (Q4 : v4 <> top 128) by (intro Q; apply Q5, T5; left; exact Q). assert (Q3 : v3 <> top 128) by (intro Q; apply Q5, T5; right; exact Q).
  destruct L4 as [L4|L4]; [contradiction|]. assert (Q1 : v1 <> top 128) by (intro Q; apply Q4, T4; left; exact Q). assert (Q2 : v2 <> top 128) by (intro Q; apply Q4, T4; right; exact Q).
  destruct L1 as [L1|L1]; [contradiction|]. destruct L2 as [L2|L2]; [contradiction|]. destruct L3 as [L3|L3]; [contradiction|]. cbn [pow] in *. lra.
Qed.
Lemma bound_sqr (h : f32) : is_finite h = true -> is_nan (sqr_ h) = false /\ 0 <= fval 24 128 (sqr_ h) <= (1 + bpow radix2 (-24)) * (B2R h * B2R h) + eta /\
  (fval 24 128 (sqr_ h) = top 128 \/ (1 - bpow radix2 (-24)) * (B2R h * B2R h) - eta <= fval 24 128 (sqr_ h)).
Proof.
  intro F. destruct (sqr_any h ltac:(apply fin_nan; exact F)) as [N V]. rewrite (fval_fin _ _ h F) in V. split; [exact N|]. rewrite V. assert (P : 0 <= B2R h * B2R h) by nra.
  assert (R := rnd_err_abs _ P). assert (Pr : 0 <= rnd 24 128 (B2R h * B2R h)) by (apply rp, P).
  split; [split; [apply sat_nonneg, Pr|eapply Rle_trans; [apply sat_le, Pr|lra]]|]. destruct (sat_or _ Pr) as [-> | ->]; [right; lra|left; reflexivity].
Qed.
(** A point whose distance is inside the range by a relative margin of 2^-21 on its square (plus 2^-146) is classified as
    inside, for all finite points, centres and ranges. *)
Theorem C266_clearly_inside_is_inside (lo hi : f32) center p : is_finite lo = true -> is_finite hi = true -> finite3 center -> finite3 p ->
  B2R lo * B2R lo * (1 + bpow radix2 (-21)) + bpow radix2 (-146) <= sqr_dist center p <= B2R hi * B2R hi * (1 - bpow radix2 (-21)) - bpow radix2 (-146) ->
  range_inside lo hi center p = true.
Proof.
  intros Fl Fh Fc Fp B. destruct (norm_bounds center p Fc Fp) as (Nn & Un & Ln). destruct (bound_sqr lo Fl) as (Nl & Ul & _). destruct (bound_sqr hi Fh) as (Nh & Uh & Lh).
  unfold range_inside. cbv zeta. set (n := sqr_norm (minus3 p center)) in *. assert (E0 := bpow_gt_0 radix2 (-150)).
  replace (bpow radix2 (-21)) with (/ 2097152) in B by (cbn; lra). replace (bpow radix2 (-146)) with (16 * eta) in B by (replace (-146)%Z with (4 + -150)%Z by lia; rewrite bpow_plus; f_equal; cbn; lra).
  rewrite u24 in *. assert (Tn := fval_bound 24 128 n). assert (Tl := fval_bound 24 128 (sqr_ lo)).
  assert (P1 : 0 <= B2R lo * B2R lo) by exact (Rle_0_sqr _). assert (P2 : 0 <= B2R hi * B2R hi) by exact (Rle_0_sqr _).
  set (l2 := B2R lo * B2R lo) in *. set (h2 := B2R hi * B2R hi) in *. set (N := sqr_dist center p) in *. set (vn := fval 24 128 n) in *. set (vl := fval 24 128 (sqr_ lo)) in *. set (vh := fval 24 128 (sqr_ hi)) in *. cbn [pow] in *.
  apply andb_true_intro. split; apply fle_val; try assumption; fold vn vl vh.
  - destruct Ln as [Ln|Ln]; [lra|]. clearbody l2 h2 N vn vl vh. lra.
  - destruct Lh as [Lh|Lh]; [lra|]. clearbody l2 h2 N vn vl vh. lra.
Qed.
(** A point outside by the same margins is classified as outside, if the squares of the limits do not overflow. *)
Theorem C266_clearly_outside_is_outside (lo hi : f32) center p : is_finite lo = true -> is_finite hi = true -> finite3 center -> finite3 p ->
  rnd 24 128 (B2R lo * B2R lo) < bpow radix2 128 -> rnd 24 128 (B2R hi * B2R hi) < bpow radix2 128 ->
  sqr_dist center p < B2R lo * B2R lo * (1 - bpow radix2 (-21)) - bpow radix2 (-146) \/ B2R hi * B2R hi * (1 + bpow radix2 (-21)) + bpow radix2 (-146) < sqr_dist center p ->
  range_inside lo hi center p = false.
Proof.
  intros Fl Fh Fc Fp Ol Oh B. destruct (norm_bounds center p Fc Fp) as (Nn & Un & Ln). destruct (bound_sqr lo Fl) as (Nl & Ul & Ll). destruct (bound_sqr hi Fh) as (Nh & Uh & Lh).
  assert (NT : forall h : f32, is_finite h = true -> rnd 24 128 (B2R h * B2R h) < bpow radix2 128 -> fval 24 128 (sqr_ h) < top 128).
  { intros h F O. destruct (sqr_any h ltac:(apply fin_nan; exact F)) as [_ V]. rewrite (fval_fin _ _ h F) in V. rewrite V. eapply Rle_lt_trans; [apply sat_le, rp; nra|exact O]. }
  assert (Ql := NT lo Fl Ol). assert (Qh := NT hi Fh Oh).
  unfold range_inside. cbv zeta. set (n := sqr_norm (minus3 p center)) in *. assert (E0 := bpow_gt_0 radix2 (-150)).
  replace (bpow radix2 (-21)) with (/ 2097152) in B by (cbn; lra). replace (bpow radix2 (-146)) with (16 * eta) in B by (replace (-146)%Z with (4 + -150)%Z by lia; rewrite bpow_plus; f_equal; cbn; lra).
  rewrite u24 in *. assert (P1 : 0 <= B2R lo * B2R lo) by exact (Rle_0_sqr _). assert (P2 : 0 <= B2R hi * B2R hi) by exact (Rle_0_sqr _).
  set (l2 := B2R lo * B2R lo) in *. set (h2 := B2R hi * B2R hi) in *. set (N := sqr_dist center p) in *. set (vn := fval 24 128 n) in *. set (vl := fval 24 128 (sqr_ lo)) in *. set (vh := fval 24 128 (sqr_ hi)) in *. cbn [pow] in *.
  apply andb_false_iff. destruct B as [B|B]; [left|right]; apply not_true_is_false; intro H; apply fle_val in H; try assumption; fold vn vl vh in H.
  - destruct Ll as [Ll|Ll]; [lra|]. clearbody l2 h2 N vn vl vh. lra.
  - destruct Ln as [Ln|Ln]; [lra|]. clearbody l2 h2 N vn vl vh. lra.
Qed.
(** Otherwise not: with a maximum range of 2^70, a point at 2^80 counts as inside. *)
Theorem C266_point_beyond_the_range_is_outside_refuted : exists lo hi center p, is_finite lo = true /\ is_finite hi = true /\ finite3 center /\ finite3 p /\
  B2R hi * B2R hi * (1 + bpow radix2 (-21)) + bpow radix2 (-146) < sqr_dist center p /\ range_inside lo hi center p = true.
Proof.
  exists (f0 : f32), (lit 1 70 : f32), (f0, f0, f0), (lit 1 80, f0, f0).
  destruct (lit_exact (prec := 24) (emax := 128) 1 70 eq_refl ltac:(lia) ltac:(lia)) as [F1 V1]. destruct (lit_exact (prec := 24) (emax := 128) 1 80 eq_refl ltac:(lia) ltac:(lia)) as [F2 V2].
  split; [reflexivity|]. split; [exact F1|]. split; [repeat split|]. split; [split; [exact F2|split; reflexivity]|]. split; [|vm_compute; reflexivity].
  cbn [sqr_dist]. unfold f32 in *. rewrite V1, V2. cbn [B2R f0]. replace (bpow radix2 80) with (1024 * bpow radix2 70) by (replace 80%Z with (10 + 70)%Z by lia; rewrite bpow_plus; f_equal; cbn; lra).
  assert (X : 1 <= bpow radix2 70) by (apply (bpow_le radix2 0 70); lia). assert (Y : bpow radix2 (-146) <= 1) by (apply (bpow_le radix2 (-146) 0); lia). assert (Z : bpow radix2 (-21) <= 1) by (apply (bpow_le radix2 (-21) 0); lia).
  assert (Z0 := bpow_gt_0 radix2 (-21)). set (t := bpow radix2 70) in *. clearbody t. assert (t * t >= 1) by nra. assert (t * t * bpow radix2 (-21) <= t * t) by nra. nra.
Qed.
Example C266_example : range_inside (of_int 1) (of_int 3) (f0, f0, f0) (of_int 1, of_int 1, of_int 2) = true /\ range_inside (of_int 1) (of_int 3) (f0, f0, f0) (of_int 3, of_int 1, f0) = false.
Proof. split; vm_compute; reflexivity. Qed.
