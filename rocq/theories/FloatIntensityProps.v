(** Properties of FilterNormalizeIntensity in floats (C251-C253). *)
From Coq Require Import ZArith Reals Lra Lia Bool List.
From Flocq Require Import Core BinarySingleNaN Relative.
From Verif Require Import Base FloatBase FloatModel FloatProps.
Import ListNotations.
Open Scope R_scope.

Section MinMax.
Context {prec emax : Z} {Hp : Prec_gt_0 prec} {Hm : Prec_lt_emax prec emax}.
Notation flt := (binary_float prec emax).
Lemma flt_fin (x y : flt) : is_finite x = true -> is_finite y = true -> (Bltb x y = true <-> B2R x < B2R y).
Proof. intros Fx Fy. rewrite flt_val by (apply fin_nan; assumption). rewrite !fval_fin by assumption. reflexivity. Qed.
Lemma min_fold (l : list flt) : forall a, is_finite a = true -> Forall (fun x => is_finite x = true) l ->
  exists m, fold_left upd_min l (Some a) = Some m /\ In m (a :: l) /\ forall x, In x (a :: l) -> B2R m <= B2R x.
Proof.
  induction l as [|b l IH]; intros a Fa H; cbn [fold_left].
  - exists a. split; [reflexivity|]. split; [left; reflexivity|]. intros x [<-|[]]. lra.
  - inversion H as [|? ? Fb H']; subst. cbn [upd_min]. destruct (Bltb b a) eqn:E.
    + apply flt_fin in E; [|assumption..]. destruct (IH b Fb H') as (m & Em & Im & Bm). exists m. split; [exact Em|]. split; [right; exact Im|].
      intros x [<-|I]; [|apply Bm, I]. generalize (Bm b (or_introl eq_refl)). lra.
    + assert (N : ~ B2R b < B2R a) by (rewrite <- flt_fin by assumption; congruence).
      destruct (IH a Fa H') as (m & Em & Im & Bm). exists m. split; [exact Em|]. split; [destruct Im as [I|I]; [left|right; right]; exact I|].
      intros x [<-|[<-|I]]; [apply Bm; left; reflexivity| |apply Bm; right; exact I]. generalize (Bm a (or_introl eq_refl)). lra.
Qed.
Lemma max_fold (l : list flt) : forall a, is_finite a = true -> Forall (fun x => is_finite x = true) l ->
  exists m, fold_left upd_max l (Some a) = Some m /\ In m (a :: l) /\ forall x, In x (a :: l) -> B2R x <= B2R m.
Proof.
  induction l as [|b l IH]; intros a Fa H; cbn [fold_left].
  - exists a. split; [reflexivity|]. split; [left; reflexivity|]. intros x [<-|[]]. lra.
  - inversion H as [|? ? Fb H']; subst. cbn [upd_max]. destruct (Bltb a b) eqn:E.
    + apply flt_fin in E; [|assumption..]. destruct (IH b Fb H') as (m & Em & Im & Bm). exists m. split; [exact Em|]. split; [right; exact Im|].
      intros x [<-|I]; [|apply Bm, I]. generalize (Bm b (or_introl eq_refl)). lra.
    + assert (N : ~ B2R a < B2R b) by (rewrite <- flt_fin by assumption; congruence).
      destruct (IH a Fa H') as (m & Em & Im & Bm). exists m. split; [exact Em|]. split; [destruct Im as [I|I]; [left|right; right]; exact I|].
      intros x [<-|[<-|I]]; [apply Bm; left; reflexivity| |apply Bm; right; exact I]. generalize (Bm a (or_introl eq_refl)). lra.
Qed.
Lemma min_of_spec (l : list flt) : l <> [] -> Forall (fun x => is_finite x = true) l ->
  exists m, min_of l = Some m /\ In m l /\ forall x, In x l -> B2R m <= B2R x.
Proof. destruct l as [|a l]; [congruence|]. intros _ H. inversion H; subst. apply min_fold; assumption. Qed.
Lemma max_of_spec (l : list flt) : l <> [] -> Forall (fun x => is_finite x = true) l ->
  exists m, max_of l = Some m /\ In m l /\ forall x, In x l -> B2R x <= B2R m.
Proof. destruct l as [|a l]; [congruence|]. intros _ H. inversion H; subst. apply max_fold; assumption. Qed.
Lemma clamp_val (v : flt) : is_nan v = false -> number_in (clamp v f0 f1) 0 1 /\ B2R (clamp v f0 f1) = Rmax 0 (Rmin 1 (fval prec emax v)).
Proof.
  intro N. unfold clamp. destruct (Bltb v f0) eqn:E0.
  - apply flt_val in E0; [|assumption|reflexivity]. cbn [fval f0 B2R] in E0. unfold number_in. cbn [is_finite f0 B2R]. split; [split; [reflexivity|lra]|].
    rewrite Rmin_right, Rmax_left by lra. reflexivity.
  - assert (N0 : ~ fval prec emax v < 0). { intro K. change 0 with (fval prec emax f0) in K. apply (flt_val prec emax v f0) in K; [congruence|assumption|reflexivity]. }
    assert (V1 : fval prec emax f1 = 1) by (rewrite fval_fin by apply f1_fin; apply f1_val).
    assert (N1 : is_nan (f1 : flt) = false) by apply fin_nan, f1_fin.
    destruct (Bltb f1 v) eqn:E1.
    + apply flt_val in E1; [|assumption..]. rewrite V1 in E1. unfold number_in. rewrite f1_val. split; [split; [apply f1_fin|lra]|].
      rewrite Rmin_left, Rmax_right by lra. reflexivity.
    + assert (K1 : ~ 1 < fval prec emax v). { intro K. rewrite <- V1 in K. apply (flt_val prec emax f1 v) in K; [congruence|assumption..]. }
      assert (F : is_finite v = true). { apply fin_iff. split; [exact N|]. generalize (top_1 (prec := prec) (emax := emax)). lra. }
      rewrite (fval_fin _ _ v F) in *. split; [split; [exact F|lra]|]. rewrite Rmin_right, Rmax_right by lra. reflexivity.
Qed.
End MinMax.

(** ** The range and the output *)
Lemma norm_plain c mem is : is <> [] -> Forall (fun x => is_finite x = true) is -> Bltb f0 (n_fixed_max c) = false -> n_remember c = false ->
  exists lo hi, In lo is /\ In hi is /\ (forall x, In x is -> B2R lo <= B2R x <= B2R hi) /\
    normalize c mem is = Ok (map (norm_one lo (fdiv_ f1 (norm_delta lo hi))) is, mem).
Proof.
  intros NE H C1 C2. destruct (min_of_spec is NE H) as (lo & Elo & Ilo & Blo). destruct (max_of_spec is NE H) as (hi & Ehi & Ihi & Bhi).
  exists lo, hi. split; [exact Ilo|]. split; [exact Ihi|]. split; [split; auto|].
  unfold normalize. destruct is as [|i is]; [congruence|]. unfold norm_range. rewrite C1, C2, Elo, Ehi. reflexivity.
Qed.
(** the rounded width of the range *)
Definition width (lo hi : f32) : R := rnd 24 128 (B2R hi - B2R lo).

Lemma B2R_grid (x : f32) : exists m : Z, B2R x = IZR m * bpow radix2 (-149).
Proof.
  destruct x as [s|s| |s m e B]; try (exists 0%Z; cbn [B2R]; lra).
  assert (E : (-149 <= e)%Z). { apply andb_prop in B as [B _]. apply Zeq_bool_eq in B. unfold SpecFloat.canonical_mantissa, SpecFloat.fexp, SpecFloat.emin in B. lia. }
  exists (SpecFloat.cond_Zopp s (Zpos m) * 2 ^ (e + 149))%Z. unfold B2R, F2R. cbn [Fnum Fexp]. rewrite mult_IZR.
  replace (2 ^ (e + 149))%Z with (Z.pow (radix_val radix2) (e + 149)) by reflexivity. rewrite IZR_Zpower by lia. rewrite Rmult_assoc, <- bpow_plus. f_equal. f_equal. lia.
Qed.
Lemma bpow_format e : (-149 <= e)%Z -> rnd 24 128 (bpow radix2 e) = bpow radix2 e.
Proof. intro E. apply round_generic; [auto with typeclass_instances|]. apply generic_format_bpow. unfold SpecFloat.fexp, SpecFloat.emin. lia. Qed.
Lemma width_dich lo hi : is_finite lo = true -> is_finite hi = true -> B2R lo <= B2R hi ->
  0 <= width lo hi /\
  (width lo hi < top 128 -> is_finite (fsub_ hi lo) = true /\ B2R (fsub_ hi lo) = width lo hi) /\
  (top 128 <= width lo hi -> fsub_ hi lo = B754_infinity false).
Proof.
  intros F1 F2 L. assert (P : 0 <= width lo hi) by (apply rp; lra). split; [exact P|]. assert (H := fsub_val 24 128 hi lo F2 F1). fold (width lo hi) in H. split; intro W.
  - apply val_fin; [exact H|]. generalize (top_pos 128). lra.
  - destruct H as [N V]. rewrite sat_top in V by exact W. unfold fsub_.
    destruct (is_finite (fsub 24 128 hi lo)) eqn:F.
    + rewrite fval_fin in V by exact F. generalize (fin_bound 24 128 (fsub 24 128 hi lo)). lra.
    + generalize (top_pos 128). destruct (fsub 24 128 hi lo) as [|[|]| |]; try discriminate; cbn [fval] in V; intro; [lra|reflexivity].
Qed.
(** one over a positive float: finite if it is above 2^-128, infinite otherwise *)
Lemma inv_fin (d : f32) : is_finite d = true -> bpow radix2 (-128) < B2R d -> is_finite (fdiv_ f1 d) = true /\ B2R (fdiv_ f1 d) = rnd 24 128 (1 / B2R d) /\ 0 < B2R (fdiv_ f1 d).
Proof.
  intros F L. assert (T : 0 < bpow radix2 (-128)) by apply bpow_gt_0.
  assert (G : bpow radix2 (-128) + bpow radix2 (-149) <= B2R d).
  { destruct (B2R_grid d) as [m E]. rewrite E in *. replace (bpow radix2 (-128)) with (IZR (2 ^ 21) * bpow radix2 (-149)) in *.
    2:{ change (2 ^ 21)%Z with (Z.pow (radix_val radix2) 21). rewrite IZR_Zpower, <- bpow_plus by lia. reflexivity. }
    apply Rmult_lt_reg_r in L; [|apply bpow_gt_0]. apply lt_IZR in L.
    assert (M : IZR (2 ^ 21) + 1 <= IZR m) by (rewrite <- plus_IZR; apply IZR_le; lia). generalize (bpow_gt_0 radix2 (-149)). nra. }
  assert (Q1 : 1 / B2R d <= bpow radix2 128 - bpow radix2 106).
  { apply Rmult_le_reg_r with (B2R d); [lra|]. unfold Rdiv. rewrite Rmult_assoc, Rinv_l, Rmult_1_r by lra.
    apply Rle_trans with ((bpow radix2 128 - bpow radix2 106) * (bpow radix2 (-128) + bpow radix2 (-149))).
    - rewrite Rmult_minus_distr_r, !Rmult_plus_distr_l, <- !bpow_plus. cbn [Z.add Z.opp Z.pos_sub Pos.pred_double]. cbn. lra.
    - apply Rmult_le_compat_l; [|exact G]. generalize (bpow_le radix2 106 128 ltac:(lia)). lra. }
  assert (Q2 : bpow radix2 (-128) <= 1 / B2R d).
  { apply Rmult_le_reg_r with (B2R d); [lra|]. unfold Rdiv. rewrite Rmult_assoc, Rinv_l, Rmult_1_r by lra.
    apply Rle_trans with (bpow radix2 (-128) * bpow radix2 128); [|rewrite <- bpow_plus; cbn; lra].
    apply Rmult_le_compat_l; [lra|]. generalize (fin_bound 24 128 d). unfold top. lra. }
  assert (R1 : rnd 24 128 (1 / B2R d) <= bpow radix2 128 - bpow radix2 106).
  { apply Rle_trans with (rnd 24 128 (bpow radix2 128 - bpow radix2 106)); [apply rm, Q1|right].
    apply round_generic; [auto with typeclass_instances|]. apply generic_format_FLT. exists (Float radix2 (2 ^ 22 - 1) 106); [|reflexivity|discriminate].
    unfold F2R. cbn [Fnum Fexp]. rewrite minus_IZR, Rmult_minus_distr_r, Rmult_1_l. change (2 ^ 22)%Z with (Z.pow (radix_val radix2) 22).
    rewrite IZR_Zpower, <- bpow_plus by lia. reflexivity. }
  assert (R2 : bpow radix2 (-128) <= rnd 24 128 (1 / B2R d)).
  { apply Rle_trans with (rnd 24 128 (bpow radix2 (-128))); [right; symmetry; apply bpow_format; lia|apply rm, Q2]. }
  destruct (val_fin _ _ (fdiv_val 24 128 f1 d f1_fin F ltac:(lra))) as [F' V]; rewrite f1_val in *.
  - unfold top. generalize (bpow_gt_0 radix2 106) (bpow_gt_0 radix2 128). lra.
  - fold (fdiv_ f1 d) in F', V. rewrite V. split; [exact F'|]. split; [reflexivity|lra].
Qed.
Lemma inv_inf (d : f32) : is_finite d = true -> 0 < B2R d <= bpow radix2 (-128) -> fdiv_ f1 d = B754_infinity false.
Proof.
  intros F L. destruct (fdiv_val 24 128 f1 d f1_fin F ltac:(lra)) as [N V]. rewrite f1_val in V.
  assert (Q : top 128 <= rnd 24 128 (1 / B2R d)).
  { apply Rle_trans with (rnd 24 128 (bpow radix2 128)); [right; symmetry; apply bpow_format; lia|]. apply rm.
    apply Rmult_le_reg_r with (B2R d); [lra|]. unfold Rdiv. rewrite Rmult_assoc, Rinv_l, Rmult_1_r by lra.
    apply Rle_trans with (bpow radix2 128 * bpow radix2 (-128)); [|rewrite <- bpow_plus; cbn; lra]. apply Rmult_le_compat_l; [apply bpow_ge_0|lra]. }
  rewrite sat_top in V by exact Q. unfold fdiv_. destruct (is_finite (fdiv 24 128 f1 d)) eqn:F'.
  - rewrite fval_fin in V by exact F'. generalize (fin_bound 24 128 (fdiv 24 128 f1 d)). lra.
  - generalize (top_pos 128). destruct (fdiv 24 128 f1 d) as [|[|]| |]; try discriminate; cbn [fval] in V; intro; [lra|reflexivity].
Qed.

Definition wide_enough (lo hi : f32) : Prop := width lo hi < bpow radix2 128 /\ (width lo hi = 0 \/ bpow radix2 (-128) < width lo hi).
Lemma Beqb_zero (d : f32) : is_finite d = true -> Beqb d f0 = true <-> B2R d = 0.
Proof. intro F. rewrite Beqb_correct by (assumption || reflexivity). cbn [B2R f0]. case Req_bool_spec; intro; split; intro; try reflexivity; try discriminate; lra. Qed.
Lemma delta_ok lo hi : is_finite lo = true -> is_finite hi = true -> B2R lo <= B2R hi -> wide_enough lo hi ->
  let d := norm_delta lo hi in is_finite d = true /\ B2R d = (if Req_EM_T (width lo hi) 0 then 1 else width lo hi) /\
  is_finite (fdiv_ f1 d) = true /\ B2R (fdiv_ f1 d) = rnd 24 128 (1 / B2R d) /\ 0 < B2R (fdiv_ f1 d).
Proof.
  intros F1 F2 L [W1 W2]. destruct (width_dich lo hi F1 F2 L) as (P & H & _). destruct (H W1) as [F V]. cbv zeta.
  assert (B : is_finite (norm_delta lo hi) = true /\ B2R (norm_delta lo hi) = (if Req_EM_T (width lo hi) 0 then 1 else width lo hi)).
  { unfold norm_delta. destruct (Beqb (fsub_ hi lo) f0) eqn:E.
    - apply Beqb_zero in E; [|exact F]. rewrite V in E. destruct (Req_EM_T (width lo hi) 0); [|lra]. split; [apply f1_fin|apply f1_val].
    - assert (N : width lo hi <> 0) by (rewrite <- V; intro K; apply Beqb_zero in K; [congruence|exact F]).
      destruct (Req_EM_T (width lo hi) 0); [lra|]. split; assumption. }
  destruct B as [Fd Vd]. split; [exact Fd|]. split; [exact Vd|]. apply inv_fin; [exact Fd|]. rewrite Vd.
  destruct (Req_EM_T (width lo hi) 0); [|lra]. apply (bpow_lt radix2 (-128) 0). lia.
Qed.
Lemma norm_one_val lo hi x : is_finite lo = true -> is_finite hi = true -> is_finite x = true -> B2R lo <= B2R x <= B2R hi -> wide_enough lo hi ->
  let inv := fdiv_ f1 (norm_delta lo hi) in
  number_in (norm_one lo inv x) 0 1 /\ B2R (norm_one lo inv x) = Rmax 0 (Rmin 1 (sat 128 (rnd 24 128 (rnd 24 128 (B2R x - B2R lo) * B2R inv)))).
Proof.
  intros F1 F2 Fx L W. destruct (delta_ok lo hi F1 F2 ltac:(lra) W) as (_ & _ & Fi & Vi & Pi). cbv zeta.
  set (inv := fdiv_ f1 (norm_delta lo hi)) in *. unfold norm_one.
  assert (X : is_finite (fsub_ x lo) = true /\ B2R (fsub_ x lo) = rnd 24 128 (B2R x - B2R lo)).
  { apply val_fin; [exact (fsub_val 24 128 x lo Fx F1)|]. assert (0 <= rnd 24 128 (B2R x - B2R lo)) by (apply rp; lra).
    assert (rnd 24 128 (B2R x - B2R lo) <= width lo hi) by (apply rm; lra). destruct W as [W _]. fold (top 128) in W. generalize (top_pos 128). lra. }
  destruct X as [FX VX]. destruct (fmul_val 24 128 (fsub_ x lo) inv FX Fi) as [N V]. fold (fmul_ (fsub_ x lo) inv) in N, V.
  destruct (clamp_val (fmul_ (fsub_ x lo) inv) N) as [K1 K2]. split; [exact K1|]. rewrite K2, V, VX. reflexivity.
Qed.

(** ** C251: the new intensities are numbers between 0 and 1 *)
(** the smallest and the largest intensity of a cloud *)
Definition extremes (is : list f32) (lo hi : f32) : Prop := In lo is /\ In hi is /\ forall x, In x is -> B2R lo <= B2R x <= B2R hi.
(** neither a fixed range nor memory *)
Definition plain (c : NormCfg) : Prop := Bltb f0 (n_fixed_max c) = false /\ n_remember c = false.
Lemma width_ext is lo hi lo' hi' : extremes is lo hi -> extremes is lo' hi' -> width lo hi = width lo' hi'.
Proof.
  intros (I1 & I2 & B) (I1' & I2' & B'). unfold width.
  replace (B2R lo') with (B2R lo); [replace (B2R hi') with (B2R hi); [reflexivity|]|];
    generalize (B lo' I1') (B hi' I2') (B' lo I1) (B' hi I2); lra.
Qed.
Lemma nan_out (a b lo inv x : f32) : a = fsub_ x lo -> (is_finite a = false /\ B2R inv = 0 /\ is_finite inv = true) \/ (B2R a = 0 /\ is_finite a = true /\ inv = B754_infinity false) -> is_finite (norm_one lo inv x) = false.
Proof.
  intros -> H. unfold norm_one. replace (fmul_ (fsub_ x lo) inv) with (B754_nan : f32); [reflexivity|].
  destruct H as [(Fa & Vi & Fi) | (Va & Fa & ->)].
  - destruct inv as [s|s| |s m e B]; try discriminate; [destruct (fsub_ x lo) as [|[|]| |]; try discriminate; reflexivity|].
    exfalso. cbn [B2R] in Vi. apply eq_0_F2R in Vi. destruct s; discriminate Vi.
  - destruct (fsub_ x lo) as [s|s| |s m e B]; try discriminate; [reflexivity|].
    exfalso. cbn [B2R] in Va. apply eq_0_F2R in Va. destruct s; discriminate Va.
Qed.
(** A cloud of finite intensities is turned into numbers in [0,1] exactly if the largest minus the smallest, rounded,
    does not overflow and is either zero or above 2^-128 (about 3e-39). *)
Theorem C251_numbers_in_unit_interval_where c mem is lo hi : is <> [] -> Forall (fun x => is_finite x = true) is -> plain c -> extremes is lo hi ->
  (exists out mem', normalize c mem is = Ok (out, mem') /\ Forall (fun y => number_in y 0 1) out) <->
  rnd 24 128 (B2R hi - B2R lo) < bpow radix2 128 /\ (rnd 24 128 (B2R hi - B2R lo) = 0 \/ bpow radix2 (-128) < rnd 24 128 (B2R hi - B2R lo)).
Proof.
  intros NE H [C1 C2] X. destruct (norm_plain c mem is NE H C1 C2) as (lo' & hi' & I1 & I2 & B & E).
  fold (width lo hi). rewrite (width_ext is lo hi lo' hi' X (conj I1 (conj I2 B))). clear lo hi X. fold (wide_enough lo' hi').
  rewrite Forall_forall in H. assert (F1 := H _ I1). assert (F2 := H _ I2). assert (L : B2R lo' <= B2R hi') by apply (B lo' I1).
  split.
  - intros (out & mem' & E' & N). rewrite E in E'. injection E' as <- <-. rewrite Forall_forall in N.
    assert (Nx : forall x, In x is -> is_finite (norm_one lo' (fdiv_ f1 (norm_delta lo' hi')) x) = true). { intros x I. apply (N _ (in_map _ _ _ I)). }
    destruct (width_dich lo' hi' F1 F2 L) as (P & Hf & Hi).
    destruct (Rlt_or_le (width lo' hi') (top 128)) as [W|W].
    + split; [exact W|]. destruct (Req_EM_T (width lo' hi') 0) as [Z|Z]; [left; exact Z|right]. destruct (Hf W) as [F V].
      destruct (Rlt_or_le (bpow radix2 (-128)) (width lo' hi')) as [G|G]; [exact G|exfalso].
      specialize (Nx lo' I1). rewrite (nan_out (fsub_ lo' lo') lo' lo' _ lo') in Nx; [discriminate|reflexivity|]. right.
      destruct (val_fin _ _ (fsub_val 24 128 lo' lo' F1 F1)) as [Fs Vs]. { rewrite Rminus_diag_eq, rnd_0 by (reflexivity || exact p24). generalize (top_pos 128). lra. }
      split; [unfold fsub_; rewrite Vs, Rminus_diag_eq, rnd_0 by (reflexivity || exact p24); reflexivity|]. split; [exact Fs|].
      unfold norm_delta. destruct (Beqb (fsub_ hi' lo') f0) eqn:E0; [apply Beqb_zero in E0; [lra|exact F]|].
      apply inv_inf; [exact F|]. rewrite V. lra.
    + exfalso. specialize (Nx hi' I2). rewrite (nan_out (fsub_ hi' lo') lo' lo' _ hi') in Nx; [discriminate|reflexivity|]. left.
      rewrite (Hi W).
      replace (fdiv_ f1 (norm_delta lo' hi')) with (B754_zero false : f32); [repeat split; reflexivity|].
      unfold norm_delta. rewrite (Hi W). vm_compute. reflexivity.
  - intro W. do 2 eexists. split; [exact E|]. apply Forall_forall. intros y I. apply in_map_iff in I as (x & <- & I).
    apply (norm_one_val lo' hi' x F1 F2 (H _ I) (B _ I) W).
Qed.
(** Not for every cloud of finite intensities: 0 and 2^-140 become NaN. *)
Theorem C251_numbers_in_unit_interval_refuted : exists c mem is, is <> [] /\ Forall (fun x => is_finite x = true) is /\ plain c /\
  ~ exists out mem', normalize c mem is = Ok (out, mem') /\ Forall (fun y => number_in y 0 1) out.
Proof.
  exists (mkNorm f0 f0 false), (None, None), [f0; lit 1 (-140)]. split; [discriminate|]. split; [repeat constructor; vm_compute; reflexivity|].
  split; [split; reflexivity|]. intros (out & mem' & E & N).
  assert (X : Forall (fun y : f32 => is_finite y = true) out). { eapply Forall_impl; [|exact N]. intros y [F _]. exact F. }
  assert (K : match normalize (mkNorm f0 f0 false) (None, None) [f0; lit 1 (-140)] with Ok (o, _) => forallb is_finite o | _ => true end = false) by (vm_compute; reflexivity).
  rewrite E in K. rewrite Forall_forall in X. apply forallb_forall in X. exact (eq_true_false_abs _ X K).
Qed.
(** With a fixed range: numbers in [0,1] for every finite intensity, inside the range or not *)
Theorem C251_fixed_range c mem is : is <> [] -> Forall (fun x => is_finite x = true) is -> is_finite (n_fixed_min c) = true -> is_finite (n_fixed_max c) = true -> 0 < B2R (n_fixed_max c) ->
  B2R (n_fixed_min c) <= B2R (n_fixed_max c) -> wide_enough (n_fixed_min c) (n_fixed_max c) ->
  exists out, normalize c mem is = Ok (out, mem) /\ Forall (fun y => number_in y 0 1) out.
Proof.
  intros NE H F1 F2 P L W. 
  exists (map (norm_one (n_fixed_min c) (fdiv_ f1 (norm_delta (n_fixed_min c) (n_fixed_max c)))) is). split.
  { unfold normalize. destruct is; [congruence|]. unfold norm_range. rewrite flt0_pos by assumption. reflexivity. } apply Forall_forall. intros y I. apply in_map_iff in I as (x & <- & I). rewrite Forall_forall in H. assert (Fx := H _ I).
  destruct (delta_ok _ _ F1 F2 L W) as (_ & _ & Fi & _ & Pi). set (inv := fdiv_ f1 _) in *. clearbody inv. unfold norm_one. apply clamp_val.
  destruct (fsub_val 24 128 x (n_fixed_min c) Fx F1) as [N _]. fold (fsub_ x (n_fixed_min c)) in N. set (t := fsub_ x _) in *. clearbody t.
  destruct (is_finite t) eqn:Ft; [apply (fmul_val 24 128 t inv Ft Fi)|].
  destruct t as [|s| |]; try discriminate; destruct inv as [z|z| |z m e B']; try discriminate; [cbn in Pi; lra|reflexivity].
Qed.
Example C251_example : plain (mkNorm f0 f0 false) /\
  match normalize (mkNorm f0 f0 false) (None, None) [of_int 10; of_int 2; of_int 4] with Ok (o, _) => map B2SF o = map B2SF [f1; f0; lit 1 (-2) : f32] | _ => False end.
Proof. split; [split; reflexivity|]. vm_compute. reflexivity. Qed.

Lemma Ok_inj {A} (a b : A) : Ok a = Ok b -> a = b.
Proof. congruence. Qed.
Lemma nth_map {A B} (f : A -> B) l i x y : nth_error l i = Some x -> nth_error (map f l) i = Some y -> y = f x.
Proof. intros H K. rewrite nth_error_map, H in K. injection K as <-. reflexivity. Qed.
(** ** C252: brighter points stay brighter, the darkest gets 0 *)
Theorem C252_order_is_kept c mem is lo hi out mem' : Forall (fun x => is_finite x = true) is -> plain c -> extremes is lo hi ->
  rnd 24 128 (B2R hi - B2R lo) < bpow radix2 128 -> (rnd 24 128 (B2R hi - B2R lo) = 0 \/ bpow radix2 (-128) < rnd 24 128 (B2R hi - B2R lo)) ->
  normalize c mem is = Ok (out, mem') ->
  List.length out = List.length is /\
  (forall i j x y x' y', nth_error is i = Some x -> nth_error is j = Some y -> nth_error out i = Some x' -> nth_error out j = Some y' -> B2R x <= B2R y -> B2R x' <= B2R y') /\
  (forall i x x', nth_error is i = Some x -> nth_error out i = Some x' -> B2R x = B2R lo -> B2R x' = 0).
Proof.
  intros H [C1 C2] X W1 W2 E. assert (NE : is <> []) by (intros ->; destruct X as [[] _]).
  destruct (norm_plain c mem is NE H C1 C2) as (lo' & hi' & I1 & I2 & B & E'). rewrite E in E'. apply Ok_inj, pair_equal_spec in E' as [-> ->].
  assert (W : wide_enough lo' hi'). { unfold wide_enough. rewrite <- (width_ext is lo hi lo' hi' X (conj I1 (conj I2 B))). split; assumption. }
  assert (EL : B2R lo = B2R lo'). { destruct X as (J1 & J2 & B'). generalize (B' lo' I1) (B lo J1). lra. }
  rewrite Forall_forall in H. assert (F1 := H _ I1). assert (F2 := H _ I2).
  destruct (delta_ok lo' hi' F1 F2 ltac:(generalize (B lo' I1); lra) W) as (_ & _ & _ & _ & Pi).
  split; [apply map_length|]. split.
  - intros i j x y x' y' Hx Hy Hx' Hy' L. apply (nth_map _ _ _ _ _ Hx) in Hx'. apply (nth_map _ _ _ _ _ Hy) in Hy'. subst x' y'.
    apply nth_error_In in Hx, Hy.
    rewrite (proj2 (norm_one_val lo' hi' x F1 F2 (H _ Hx) (B _ Hx) W)), (proj2 (norm_one_val lo' hi' y F1 F2 (H _ Hy) (B _ Hy) W)).
    apply Rle_max_compat_l, Rle_min_compat_l, sat_mono, rm. apply Rmult_le_compat_r; [lra|]. apply rm. lra.
  - intros i x x' Hx Hx' L. apply (nth_map _ _ _ _ _ Hx) in Hx'. subst x'. apply nth_error_In in Hx.
    rewrite (proj2 (norm_one_val lo' hi' x F1 F2 (H _ Hx) (B _ Hx) W)). rewrite L, EL, Rminus_diag_eq, rnd_0, Rmult_0_l, rnd_0, sat_id by (reflexivity || exact p24 || (generalize (top_pos 128); lra)).
    rewrite Rmin_right, Rmax_left by lra. reflexivity.
Qed.

(** ** C253: the brightest point *)
Lemma rnd_near_1 x : 1 - bpow radix2 (-24) <= x -> 1 - bpow radix2 (-24) <= rnd 24 128 x.
Proof.
  intro L. apply Rle_trans with (rnd 24 128 (1 - bpow radix2 (-24))); [right; symmetry|apply rm, L].
  apply round_generic; [auto with typeclass_instances|]. apply generic_format_FLT. exists (Float radix2 (2 ^ 24 - 1) (-24)); [|reflexivity|discriminate].
  unfold F2R. cbn [Fnum Fexp]. rewrite minus_IZR, Rmult_minus_distr_r, Rmult_1_l. change (2 ^ 24)%Z with (Z.pow (radix_val radix2) 24).
  rewrite IZR_Zpower, <- bpow_plus by lia. reflexivity.
Qed.
Lemma rel_err x : bpow radix2 (-126) <= Rabs x -> Rabs (rnd 24 128 x - x) <= bpow radix2 (-24) * Rabs x.
Proof.
  intro L. assert (H := relative_error_N_FLT radix2 (-149) 24 eq_refl (fun n => negb (Z.even n)) x L).
  replace (/ 2 * bpow radix2 (- (24) + 1)) with (bpow radix2 (-24)) in H; [exact H|]. replace (/ 2) with (bpow radix2 (-1)) by (cbn; lra). rewrite <- bpow_plus. reflexivity.
Qed.
(** the output of the brightest point, up to rounding: between 1 - 2^-24 and 1 *)
Theorem C253_brightest_gets_almost_one c mem is lo hi out mem' i x x' : Forall (fun x => is_finite x = true) is -> plain c -> extremes is lo hi ->
  bpow radix2 (-128) < rnd 24 128 (B2R hi - B2R lo) <= bpow radix2 126 -> normalize c mem is = Ok (out, mem') ->
  nth_error is i = Some x -> nth_error out i = Some x' -> B2R x = B2R hi -> is_finite x' = true /\ 1 - bpow radix2 (-24) <= B2R x' <= 1.
Proof.
  intros H [C1 C2] X W0 E Hx Hx' L. assert (NE : is <> []) by (intros ->; destruct X as [[] _]).
  destruct (norm_plain c mem is NE H C1 C2) as (lo' & hi' & I1 & I2 & B & E'). rewrite E in E'. apply Ok_inj, pair_equal_spec in E' as [-> ->].
  fold (width lo hi) in W0. rewrite (width_ext is lo hi lo' hi' X (conj I1 (conj I2 B))) in W0.
  assert (W : wide_enough lo' hi'). { split; [|right; lra]. generalize (bpow_lt radix2 126 128 ltac:(lia)). lra. }
  assert (EH : B2R hi = B2R hi'). { destruct X as (J1 & J2 & B'). generalize (B' hi' I2) (B hi J2). lra. }
  rewrite Forall_forall in H. assert (F1 := H _ I1). assert (F2 := H _ I2).
  destruct (delta_ok lo' hi' F1 F2 ltac:(generalize (B lo' I1); lra) W) as (_ & Vd & _ & Vi & Pi). destruct (Req_EM_T (width lo' hi') 0) as [Z|_]; [generalize (bpow_gt_0 radix2 (-128)); lra|].
  apply (nth_map _ _ _ _ _ Hx) in Hx'. subst x'. apply nth_error_In in Hx.
  destruct (norm_one_val lo' hi' x F1 F2 (H _ Hx) (B _ Hx) W) as [[F U] V]. split; [exact F|]. split; [|lra]. rewrite V, L, EH. fold (width lo' hi').
  rewrite Vi, Vd. set (w := width lo' hi') in *. assert (Pw : 0 < w) by (generalize (bpow_gt_0 radix2 (-128)); lra).
  assert (Q : bpow radix2 (-126) <= 1 / w).
  { apply Rmult_le_reg_r with w; [exact Pw|]. unfold Rdiv. rewrite Rmult_assoc, Rinv_l, Rmult_1_r by lra.
    apply Rle_trans with (bpow radix2 (-126) * bpow radix2 126); [|rewrite <- bpow_plus; cbn; lra]. apply Rmult_le_compat_l; [apply bpow_ge_0|lra]. }
  assert (R := rel_err (1 / w)). rewrite Rabs_pos_eq in R by (generalize (bpow_gt_0 radix2 (-126)); lra). specialize (R Q).
  assert (K : 1 - bpow radix2 (-24) <= rnd 24 128 (w * rnd 24 128 (1 / w))).
  { apply rnd_near_1. apply Rabs_le_inv in R. replace (1 - bpow radix2 (-24)) with (w * (1 / w - bpow radix2 (-24) * (1 / w))) by (field; lra). apply Rmult_le_compat_l; lra. }
  apply Rle_trans with (Rmin 1 (sat 128 (rnd 24 128 (w * rnd 24 128 (1 / w))))); [|apply Rmax_r]. apply Rmin_glb; [generalize (bpow_gt_0 radix2 (-24)); lra|].
  rewrite <- (sat_id 128 (1 - bpow radix2 (-24))); [apply sat_mono, K|]. generalize (bpow_gt_0 radix2 (-24)) (bpow_lt radix2 (-24) 0 ltac:(lia)) (top_1 (prec := 24) (emax := 128)). cbn [bpow]. lra.
Qed.
(** it is exactly 1 if the width of the range is a power of two *)
Theorem C253_brightest_gets_one_where c mem is lo hi out mem' i x x' k : Forall (fun x => is_finite x = true) is -> plain c -> extremes is lo hi ->
  rnd 24 128 (B2R hi - B2R lo) = bpow radix2 k -> (-128 < k < 128)%Z -> normalize c mem is = Ok (out, mem') ->
  nth_error is i = Some x -> nth_error out i = Some x' -> B2R x = B2R hi -> B2R x' = 1.
Proof.
  intros H [C1 C2] X W0 Bk E Hx Hx' L. assert (NE : is <> []) by (intros ->; destruct X as [[] _]).
  destruct (norm_plain c mem is NE H C1 C2) as (lo' & hi' & I1 & I2 & B & E'). rewrite E in E'. apply Ok_inj, pair_equal_spec in E' as [-> ->].
  fold (width lo hi) in W0. rewrite (width_ext is lo hi lo' hi' X (conj I1 (conj I2 B))) in W0.
  assert (W : wide_enough lo' hi'). { unfold wide_enough. rewrite W0. split; [|right]; apply bpow_lt; lia. }
  assert (EH : B2R hi = B2R hi'). { destruct X as (J1 & J2 & B'). generalize (B' hi' I2) (B hi J2). lra. }
  rewrite Forall_forall in H. assert (F1 := H _ I1). assert (F2 := H _ I2).
  destruct (delta_ok lo' hi' F1 F2 ltac:(generalize (B lo' I1); lra) W) as (_ & Vd & _ & Vi & Pi). destruct (Req_EM_T (width lo' hi') 0) as [Z|_]; [generalize (bpow_gt_0 radix2 k); lra|].
  apply (nth_map _ _ _ _ _ Hx) in Hx'. subst x'. apply nth_error_In in Hx.
  rewrite (proj2 (norm_one_val lo' hi' x F1 F2 (H _ Hx) (B _ Hx) W)). rewrite L, EH. fold (width lo' hi'). rewrite Vi, Vd, W0.
  replace (1 / bpow radix2 k) with (bpow radix2 (- k)) by (rewrite bpow_opp; field; generalize (bpow_gt_0 radix2 k); lra).
  rewrite bpow_format by lia. rewrite <- bpow_plus. replace (k + - k)%Z with 0%Z by lia. cbn [bpow]. rewrite rnd_1.
  rewrite sat_id, Rmin_left, Rmax_right by (lra || (generalize (top_1 (prec := 24) (emax := 128)); lra)). reflexivity.
Qed.
(** Not always: with intensities 0 and 41 the brightest point gets 1 - 2^-24. *)
Theorem C253_brightest_gets_one_refuted : exists c mem is out mem' x', Forall (fun x => is_finite x = true) is /\ plain c /\
  extremes is f0 (of_int 41) /\ normalize c mem is = Ok (out, mem') /\ nth_error is 1 = Some (of_int 41) /\ nth_error out 1 = Some x' /\ B2R x' < 1.
Proof.
  exists (mkNorm f0 f0 false), (None, None), [f0; of_int 41].
  assert (V : B2R (of_int 41 : f32) = 41). { destruct (lit_exact (prec := 24) (emax := 128) 41 0 eq_refl ltac:(lia) ltac:(lia)) as [_ V]. unfold of_int. unfold lit in V. rewrite V. cbn. lra. }
  destruct (normalize (mkNorm f0 f0 false) (None, None) [f0; of_int 41]) as [[out mem']| |] eqn:E;
    [|exfalso; assert (K : match normalize (mkNorm f0 f0 false) (None, None) [f0; of_int 41] with Ok _ => true | _ => false end = true) by (vm_compute; reflexivity); rewrite E in K; discriminate K..].
  assert (K : match normalize (mkNorm f0 f0 false) (None, None) [f0; of_int 41] with Ok (o, _) => map B2SF o | _ => [] end = [SpecFloat.S754_zero false; SpecFloat.S754_finite false 16777215 (-24)]) by (vm_compute; reflexivity).
  rewrite E in K. destruct out as [|a [|b [|]]]; try discriminate K. exists [a; b], mem', b.
  split; [repeat constructor; vm_compute; reflexivity|]. split; [split; reflexivity|].
  split. { split; [left; reflexivity|]. split; [right; left; reflexivity|]. intros x [<-|[<-|[]]]; rewrite V; cbn [B2R f0]; lra. }
  split; [reflexivity|]. split; [reflexivity|]. split; [reflexivity|].
  injection K as _ K. rewrite <- SF2R_B2SF, K. unfold SF2R, F2R. cbn. lra.
Qed.
