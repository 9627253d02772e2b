(** Properties of FilterAdjustTimestamps in floats (C254-C258). *)
From Coq Require Import ZArith Reals Lra Lia Bool List.
From Flocq Require Import Core BinarySingleNaN Relative Plus_error Sterbenz.
From Verif Require Import Base FloatBase FloatModel FloatProps FloatIntensityProps.
Import ListNotations.
Open Scope R_scope.

Notation all_finite l := (Forall (fun x => is_finite x = true) l).
(** [extremes], from FloatIntensityProps: the smallest and the largest of a list *)
Lemma extremes_eq ts lo hi lo' hi' : extremes ts lo hi -> extremes ts lo' hi' -> B2R lo' = B2R lo /\ B2R hi' = B2R hi.
Proof.
  intros (I1 & I2 & B) (I1' & I2' & B'). generalize (B lo' I1') (B hi' I2') (B' lo I1) (B' hi I2). intros. split; lra.
Qed.
Lemma ts_ext (ts : list f32) : ts <> [] -> all_finite ts -> exists lo hi, min_of ts = Some lo /\ max_of ts = Some hi /\ extremes ts lo hi.
Proof.
  intros NE H. destruct (min_of_spec ts NE H) as (lo & E1 & I1 & B1). destruct (max_of_spec ts NE H) as (hi & E2 & I2 & B2).
  exists lo, hi. split; [exact E1|]. split; [exact E2|]. split; [exact I1|]. split; [exact I2|]. intros x I. split; auto.
Qed.
Lemma sub_spec (x y : f32) : is_finite x = true -> is_finite y = true -> Rabs (rnd 24 128 (B2R x - B2R y)) < top 128 ->
  is_finite (fsub_ x y) = true /\ B2R (fsub_ x y) = rnd 24 128 (B2R x - B2R y).
Proof. intros Fx Fy B. apply val_fin; [exact (fsub_val 24 128 x y Fx Fy)|]. apply Rabs_lt_inv, B. Qed.
Lemma add_zero (x : f32) : is_finite x = true -> is_finite (fadd_ x f0) = true /\ B2R (fadd_ x f0) = B2R x.
Proof.
  intro F. destruct (val_fin _ _ (fadd_val 24 128 x f0 F eq_refl)) as [F' V]; cbn [B2R f0] in *; rewrite Rplus_0_r, rnd_float in *; [apply fin_bound|].
  split; assumption.
Qed.
(** the error of a difference of two floats is relative, even when it underflows *)
Lemma sub_err (x y : f32) : Rabs (rnd 24 128 (B2R x - B2R y) - (B2R x - B2R y)) <= bpow radix2 (-24) * Rabs (B2R x - B2R y).
Proof.
  destruct (FLT_plus_error_N_ex radix2 (-149) 24 (fun n => negb (Z.even n)) (B2R x) (- B2R y)) as (eps & Be & E).
  - exact (generic_format_B2R 24 128 x).
  - apply generic_format_opp. exact (generic_format_B2R 24 128 y).
  - change (rnd 24 128 (B2R x - B2R y)) with (round radix2 (FLT_exp (-149) 24) ZnearestE (B2R x + - B2R y)). rewrite E.
    replace ((B2R x + - B2R y) * (1 + eps) - (B2R x - B2R y)) with (eps * (B2R x - B2R y)) by ring. rewrite Rabs_mult. apply Rmult_le_compat_r; [apply Rabs_pos|].
    eapply Rle_trans; [exact Be|]. eapply Rle_trans; [apply u_rod1pu_ro_le_u_ro|]. unfold u_ro. right. replace (/ 2) with (bpow radix2 (-1)) by (cbn; lra). rewrite <- bpow_plus. reflexivity.
Qed.

(** ** C254: EarliestIsZero, no offset *)
Lemma earliest_core ts out dt : all_finite ts -> adjust EarliestIsZero f0 ts = Ok (out, dt) ->
  exists lo hi, extremes ts lo hi /\ is_finite dt = true /\ B2R dt = B2R lo /\ out = map (fun t => fsub_ t dt) ts.
Proof.
  intros H E. unfold adjust in E. destruct ts as [|a ts]; [discriminate E|]. destruct (ts_ext (a :: ts) ltac:(discriminate) H) as (lo & hi & E1 & E2 & X).
  exists lo, hi. rewrite E1, E2 in E. apply Ok_inj, pair_equal_spec in E as [<- <-]. split; [exact X|].
  rewrite Forall_forall in H. destruct (add_zero lo (H _ (proj1 X))) as [F V]. split; [exact F|]. split; [exact V|]. reflexivity.
Qed.
Theorem C254_earliest_becomes_zero ts lo hi out dt : all_finite ts -> extremes ts lo hi -> rnd 24 128 (B2R hi - B2R lo) < bpow radix2 128 ->
  adjust EarliestIsZero f0 ts = Ok (out, dt) ->
  List.length out = List.length ts /\ B2R dt = B2R lo /\
  (forall i t t', nth_error ts i = Some t -> nth_error out i = Some t' ->
     is_finite t' = true /\ 0 <= B2R t' /\ (B2R t = B2R lo -> B2R t' = 0) /\ Rabs (B2R t' - (B2R t - B2R lo)) <= bpow radix2 (-24) * (B2R t - B2R lo)) /\
  (forall i j s t s' t', nth_error ts i = Some s -> nth_error ts j = Some t -> nth_error out i = Some s' -> nth_error out j = Some t' -> B2R s <= B2R t -> B2R s' <= B2R t').
Proof.
  intros H X W E. destruct (earliest_core ts out dt H E) as (lo' & hi' & X' & Fd & Vd & ->). destruct (extremes_eq _ _ _ _ _ X X') as [EL _]. rewrite EL in Vd.
  split; [apply map_length|]. split; [exact Vd|]. rewrite Forall_forall in H.
  assert (V : forall t, In t ts -> is_finite (fsub_ t dt) = true /\ B2R (fsub_ t dt) = rnd 24 128 (B2R t - B2R lo)).
  { intros t I. rewrite <- Vd. apply sub_spec; [apply H, I|exact Fd|]. rewrite Vd. destruct X as (_ & _ & B). generalize (B t I). intro Bt.
    assert (0 <= rnd 24 128 (B2R t - B2R lo)) by (apply rp; lra). assert (rnd 24 128 (B2R t - B2R lo) <= rnd 24 128 (B2R hi - B2R lo)) by (apply rm; lra).
    rewrite Rabs_pos_eq by assumption. unfold top. lra. }
  split.
  - intros i t t' Ht Ht'. apply (nth_map _ _ _ _ _ Ht) in Ht'. subst t'. apply nth_error_In in Ht. destruct (V t Ht) as [F Vt]. split; [exact F|]. rewrite Vt.
    destruct X as (_ & _ & B). generalize (B t Ht). intro Bt. split; [apply rp; lra|]. split.
    + intros ->. rewrite Rminus_diag_eq by reflexivity. apply rnd_0.
    + rewrite <- (Rabs_pos_eq (B2R t - B2R lo)) at 3 by lra. apply sub_err.
  - intros i j s t s' t' Hs Ht Hs' Ht' L. apply (nth_map _ _ _ _ _ Hs) in Hs'. apply (nth_map _ _ _ _ _ Ht) in Ht'. subst s' t'. apply nth_error_In in Hs, Ht.
    rewrite (proj2 (V s Hs)), (proj2 (V t Ht)). apply rm. lra.
Qed.
Example C254_example : match adjust EarliestIsZero f0 [lit (-3) (-2); lit 1 (-2); f0] with Ok (o, d) => map B2SF (d :: o) = map B2SF [lit (-3) (-2) : f32; f0; of_int 1; lit 3 (-2)] | _ => False end.
Proof. vm_compute. reflexivity. Qed.

(** ** C255: the time between two points *)
(** exact if every stamp is positive and the latest is at most twice the earliest *)
Theorem C255_time_differences_kept_where ts lo hi out dt : all_finite ts -> extremes ts lo hi -> 0 < B2R lo -> B2R hi <= 2 * B2R lo -> adjust EarliestIsZero f0 ts = Ok (out, dt) ->
  forall i t t', nth_error ts i = Some t -> nth_error out i = Some t' -> B2R t' = B2R t - B2R lo.
Proof.
  intros H X P U E i t t' Ht Ht'. destruct (earliest_core ts out dt H E) as (lo' & hi' & X' & Fd & Vd & ->). destruct (extremes_eq _ _ _ _ _ X X') as [EL _]. rewrite EL in Vd.
  apply (nth_map _ _ _ _ _ Ht) in Ht'. subst t'. apply nth_error_In in Ht. rewrite Forall_forall in H. destruct X as (_ & _ & B). generalize (B t Ht). intro Bt.
  assert (G : rnd 24 128 (B2R t - B2R dt) = B2R t - B2R lo).
  { rewrite Vd. apply round_generic; [auto with typeclass_instances|]. rewrite <- EL. apply sterbenz; auto with typeclass_instances; try apply generic_format_B2R.
    - exact (fexp_correct 24 128 p24).
    - exact (FLT_exp_monotone (-149) 24).
    - rewrite EL. lra. }
  rewrite <- G. apply sub_spec; [apply H, Ht|exact Fd|]. rewrite G. rewrite Rabs_pos_eq by lra. generalize (fin_bound 24 128 t). lra.
Qed.
(** Not in general: stamps of -1 s and 2^24 s (16777217 s apart) become 0 and 16777216. *)
Theorem C255_time_differences_kept_refuted : exists ts lo hi out dt t t', all_finite ts /\ extremes ts lo hi /\ adjust EarliestIsZero f0 ts = Ok (out, dt) /\
  nth_error ts 1 = Some t /\ nth_error out 1 = Some t' /\ B2R t - B2R lo = 16777217 /\ B2R t' = 16777216.
Proof.
  set (lo := of_int (-1) : f32). set (hi := lit 1 24 : f32).
  assert (V1 : is_finite lo = true /\ B2R lo = -1). { destruct (lit_exact (prec := 24) (emax := 128) (-1) 0 eq_refl ltac:(lia) ltac:(lia)) as [F V]. split; [exact F|]. unfold lo, of_int. unfold lit in V. rewrite V. cbn. lra. }
  assert (V2 : is_finite hi = true /\ B2R hi = 16777216). { destruct (lit_exact (prec := 24) (emax := 128) 1 24 eq_refl ltac:(lia) ltac:(lia)) as [F V]. split; [exact F|]. unfold hi. rewrite V. cbn. lra. }
  destruct V1 as [F1 V1], V2 as [F2 V2].
  destruct (adjust EarliestIsZero f0 [lo; hi]) as [[out dt]| |] eqn:E;
    [|exfalso; assert (K : match adjust EarliestIsZero f0 [lo; hi] with Ok _ => true | _ => false end = true) by (vm_compute; reflexivity); rewrite E in K; discriminate K..].
  assert (K : match adjust EarliestIsZero f0 [lo; hi] with Ok (o, _) => map B2SF o | _ => [] end = [SpecFloat.S754_zero false; SpecFloat.S754_finite false 8388608 1]) by (vm_compute; reflexivity).
  rewrite E in K. destruct out as [|a [|b [|]]]; try discriminate K. exists [lo; hi], lo, hi, [a; b], dt, hi, b.
  split; [repeat constructor; assumption|].
  split. { split; [left; reflexivity|]. split; [right; left; reflexivity|]. intros x [<-|[<-|[]]]; rewrite V1, V2; lra. }
  split; [exact E|]. split; [reflexivity|]. split; [reflexivity|]. split; [rewrite V1, V2; lra|].
  injection K as _ K. rewrite <- SF2R_B2SF, K. unfold SF2R, F2R. cbn. lra.
Qed.

(** ** C256: MiddleIsZero, no offset: zero lies between the first and the last stamp *)
Lemma half_lit : is_finite (lit 1 (-1) : f32) = true /\ B2R (lit 1 (-1) : f32) = / 2.
Proof. destruct (lit_exact (prec := 24) (emax := 128) 1 (-1) eq_refl ltac:(lia) ltac:(lia)) as [F V]. split; [exact F|]. rewrite V. cbn. lra. Qed.
Lemma double_format (x : f32) : generic_format radix2 (FLT_exp (-149) 24) (2 * B2R x).
Proof.
  assert (G := generic_format_B2R 24 128 x). apply FLT_format_generic in G; [|exact p24]. destruct G as [f E M L].
  apply generic_format_FLT. exists (Float radix2 (Fnum f) (Fexp f + 1)); cbn [Fnum Fexp]; [|exact M|unfold SpecFloat.emin in L; lia].
  rewrite E. unfold F2R. cbn [Fnum Fexp]. rewrite bpow_plus. replace (bpow radix2 1) with 2 by (cbn; lra). ring.
Qed.
Theorem C256_middle_zero_is_inside ts lo hi out dt : all_finite ts -> extremes ts lo hi ->
  Rabs (rnd 24 128 (B2R hi + B2R lo)) < bpow radix2 128 -> rnd 24 128 (B2R hi - B2R lo) < bpow radix2 128 ->
  adjust MiddleIsZero f0 ts = Ok (out, dt) ->
  List.length out = List.length ts /\ is_finite dt = true /\ B2R lo <= B2R dt <= B2R hi /\
  (forall i t t', nth_error ts i = Some t -> nth_error out i = Some t' -> is_finite t' = true /\ (B2R t = B2R lo -> B2R t' <= 0) /\ (B2R t = B2R hi -> 0 <= B2R t')) /\
  (forall i j s t s' t', nth_error ts i = Some s -> nth_error ts j = Some t -> nth_error out i = Some s' -> nth_error out j = Some t' -> B2R s <= B2R t -> B2R s' <= B2R t').
Proof.
  intros H X W1 W2 E. assert (NE : ts <> []) by (intros ->; destruct X as [[] _]).
  destruct (ts_ext ts NE H) as (lo' & hi' & E1 & E2 & X'). destruct (extremes_eq _ _ _ _ _ X X') as [EL EH]. rewrite <- EL, <- EH in *. clear EL EH X lo hi.
  unfold adjust in E. destruct ts as [|a ts]; [congruence|]. remember (a :: ts) as l. clear Heql a ts. rewrite E1, E2 in E. apply Ok_inj, pair_equal_spec in E as [<- Ed].
  destruct X' as (I1 & I2 & B). rewrite Forall_forall in H. assert (F1 := H _ I1). assert (F2 := H _ I2). assert (L := B lo' I1).
  assert (Sm : is_finite (fadd_ hi' lo') = true /\ B2R (fadd_ hi' lo') = rnd 24 128 (B2R hi' + B2R lo')).
  { apply val_fin; [exact (fadd_val 24 128 hi' lo' F2 F1)|]. apply Rabs_lt_inv, W1. }
  destruct Sm as [Fs Vs].
  assert (Bs : 2 * B2R lo' <= B2R (fadd_ hi' lo') <= 2 * B2R hi').
  { rewrite Vs. split.
    - apply Rle_trans with (rnd 24 128 (2 * B2R lo')); [right; symmetry; apply round_generic; [auto with typeclass_instances|apply double_format]|apply rm; lra].
    - apply Rle_trans with (rnd 24 128 (2 * B2R hi')); [apply rm; lra|right; apply round_generic; [auto with typeclass_instances|apply double_format]]. }
  destruct half_lit as [Fh Vh].
  assert (Bm : B2R lo' <= rnd 24 128 (B2R (lit 1 (-1) : f32) * B2R (fadd_ hi' lo')) <= B2R hi').
  { rewrite Vh. split.
    - apply Rle_trans with (rnd 24 128 (B2R lo')); [right; symmetry; apply rnd_float|apply rm; lra].
    - apply Rle_trans with (rnd 24 128 (B2R hi')); [apply rm; lra|right; apply rnd_float]. }
  assert (Mm : is_finite (fmul_ (lit 1 (-1)) (fadd_ hi' lo')) = true /\ B2R (fmul_ (lit 1 (-1)) (fadd_ hi' lo')) = rnd 24 128 (B2R (lit 1 (-1) : f32) * B2R (fadd_ hi' lo'))).
  { apply val_fin; [exact (fmul_val 24 128 (lit 1 (-1)) (fadd_ hi' lo') Fh Fs)|]. generalize (fin_bound 24 128 lo') (fin_bound 24 128 hi'). lra. }
  destruct Mm as [Fm Vm]. rewrite <- Vm in Bm. destruct (add_zero _ Fm) as [Fd Vd]. rewrite Ed in Fd, Vd. rewrite <- Vd in Bm. rewrite Ed. clear Ed Vd Fm Vm.
  split; [apply map_length|]. split; [exact Fd|]. split; [exact Bm|].
  assert (V : forall t, In t l -> is_finite (fsub_ t dt) = true /\ B2R (fsub_ t dt) = rnd 24 128 (B2R t - B2R dt)).
  { intros t I. apply sub_spec; [apply H, I|exact Fd|]. generalize (B t I). intro Bt. apply Rabs_lt. split.
    - apply Rlt_le_trans with (- rnd 24 128 (B2R hi' - B2R lo')); [unfold top; lra|]. rewrite <- rnd_opp. apply rm. lra.
    - apply Rle_lt_trans with (rnd 24 128 (B2R hi' - B2R lo')); [apply rm; lra|exact W2]. }
  split.
  - intros i t t' Ht Ht'. apply (nth_map _ _ _ _ _ Ht) in Ht'. subst t'. apply nth_error_In in Ht. destruct (V t Ht) as [F Vt]. split; [exact F|]. rewrite Vt. split; intro Q.
    + apply rnd_neg; [exact p24|lra].
    + apply rp. lra.
  - intros i j s t s' t' Hs Ht Hs' Ht' Lt. apply (nth_map _ _ _ _ _ Hs) in Hs'. apply (nth_map _ _ _ _ _ Ht) in Ht'. subst s' t'. apply nth_error_In in Hs, Ht.
    rewrite (proj2 (V s Hs)), (proj2 (V t Ht)). apply rm. lra.
Qed.
Example C256_example : match adjust MiddleIsZero f0 [of_int 1; of_int 4; of_int 2] with Ok (o, d) => map B2SF (d :: o) = map B2SF [lit 5 (-1) : f32; lit (-3) (-1); lit 3 (-1); lit (-1) (-1)] | _ => False end.
Proof. vm_compute. reflexivity. Qed.

(** ** C257: Normalize, no offset *)
Lemma rnd_tie_1 : rnd 24 128 (1 + bpow radix2 (-24)) = 1.
Proof.
  destruct (lit_exact (prec := 24) (emax := 128) 1 (-24) eq_refl ltac:(lia) ltac:(lia)) as [F V].
  destruct (fadd_val 24 128 f1 (lit 1 (-24)) f1_fin F) as [_ E]. rewrite V, f1_val, Rmult_1_l in E.
  assert (K : fval 24 128 (fadd 24 128 f1 (lit 1 (-24))) = 1).
  { assert (Fa : is_finite (fadd 24 128 f1 (lit 1 (-24))) = true) by (vm_compute; reflexivity). rewrite fval_fin by exact Fa.
    assert (Sf : B2SF (fadd 24 128 f1 (lit 1 (-24))) = SpecFloat.S754_finite false 8388608 (-23)) by (vm_compute; reflexivity).
    rewrite <- SF2R_B2SF, Sf. unfold SF2R, F2R. cbn. lra. }
  rewrite K in E. assert (U : rnd 24 128 (1 + bpow radix2 (-24)) <= 2).
  { apply Rle_trans with (rnd 24 128 (bpow radix2 1)); [apply rm|right; rewrite bpow_format by lia; cbn; lra].
    generalize (bpow_lt radix2 (-24) 0 ltac:(lia)). cbn [bpow]. cbn. lra. }
  assert (L : 0 <= rnd 24 128 (1 + bpow radix2 (-24))) by (apply rp; generalize (bpow_gt_0 radix2 (-24)); lra).
  rewrite sat_id in E; [symmetry; exact E|]. assert (T : 2 <= top 128) by (apply (bpow_le radix2 1 128); lia). lra.
Qed.
Lemma eq_fin (x y : f32) : is_finite x = true -> is_finite y = true -> (Beqb x y = true <-> B2R x = B2R y).
Proof. intros Fx Fy. rewrite Beqb_correct by assumption. case Req_bool_spec; intro; split; intro; try reflexivity; try discriminate; lra. Qed.
Lemma prod_unit w x : 0 < w <= bpow radix2 126 -> 0 <= x <= w -> 0 <= rnd 24 128 (x * rnd 24 128 (1 / w)) <= 1.
Proof.
  intros W B. assert (Q : bpow radix2 (-126) <= 1 / w).
  { apply Rmult_le_reg_r with w; [lra|]. unfold Rdiv. rewrite Rmult_assoc, Rinv_l, Rmult_1_r by lra.
    apply Rle_trans with (bpow radix2 (-126) * bpow radix2 126); [|rewrite <- bpow_plus; cbn; lra]. apply Rmult_le_compat_l; [apply bpow_ge_0|lra]. }
  assert (Pq : 0 < 1 / w) by (generalize (bpow_gt_0 radix2 (-126)); lra).
  assert (R := rel_err (1 / w)). rewrite Rabs_pos_eq in R by lra. specialize (R Q). apply Rabs_le_inv in R.
  assert (Pi : 0 <= rnd 24 128 (1 / w)) by (apply rp; lra). split; [apply rp; nra|].
  apply Rle_trans with (rnd 24 128 (1 + bpow radix2 (-24))); [apply rm|right; apply rnd_tie_1].
  replace (1 + bpow radix2 (-24)) with (w * (1 / w + bpow radix2 (-24) * (1 / w))) by (field; lra).
  apply Rmult_le_compat; lra.
Qed.
Theorem C257_normalized_stamps_in_unit_interval ts lo hi out dt : all_finite ts -> extremes ts lo hi ->
  (B2R lo = B2R hi \/ bpow radix2 (-128) < rnd 24 128 (B2R hi - B2R lo) <= bpow radix2 126) -> adjust Normalize f0 ts = Ok (out, dt) ->
  List.length out = List.length ts /\ B2R dt = 0 /\
  (forall i t t', nth_error ts i = Some t -> nth_error out i = Some t' -> number_in t' 0 1 /\ (B2R t = B2R lo -> B2R t' = 0) /\ (B2R t = B2R hi -> B2R lo < B2R hi -> 1 - bpow radix2 (-24) <= B2R t')) /\
  (forall i j s t s' t', nth_error ts i = Some s -> nth_error ts j = Some t -> nth_error out i = Some s' -> nth_error out j = Some t' -> B2R s <= B2R t -> B2R s' <= B2R t').
Proof.
  intros H X W E. assert (NE : ts <> []) by (intros ->; destruct X as [[] _]).
  destruct (ts_ext ts NE H) as (lo' & hi' & E1 & E2 & X'). destruct (extremes_eq _ _ _ _ _ X X') as [EL EH]. rewrite <- EL, <- EH in *. clear EL EH X lo hi.
  unfold adjust in E. destruct ts as [|a ts]; [congruence|]. remember (a :: ts) as l. clear Heql a ts. rewrite E1, E2 in E. cbv zeta in E. apply Ok_inj, pair_equal_spec in E as [<- <-].
  destruct X' as (I1 & I2 & B). rewrite Forall_forall in H. assert (F1 := H _ I1). assert (F2 := H _ I2). assert (L := B lo' I1).
  split; [apply map_length|]. split; [reflexivity|].
  set (k := if negb (Beqb hi' lo') then fdiv_ f1 (fsub_ hi' lo') else f1).
  assert (T126 : bpow radix2 126 < top 128) by (apply bpow_lt; lia). assert (T1 := top_1 (prec := 24) (emax := 128)).
  (* the width and the factor *)
  assert (K : exists w, is_finite k = true /\ 0 < w <= bpow radix2 126 /\ B2R k = rnd 24 128 (1 / w) /\ rnd 24 128 (B2R hi' - B2R lo') <= w /\ (B2R lo' < B2R hi' -> w = rnd 24 128 (B2R hi' - B2R lo'))).
  { unfold k. destruct (Beqb hi' lo') eqn:Q.
    - apply eq_fin in Q; [|assumption..]. exists 1. cbn [negb]. split; [apply f1_fin|]. split; [split; [lra|]; apply (bpow_le radix2 0 126); lia|].
      split; [rewrite f1_val; replace (1 / 1) with 1 by field; symmetry; apply rnd_1|]. rewrite Rminus_diag_eq, rnd_0 by (assumption || exact p24). split; lra.
    - assert (N : B2R hi' <> B2R lo') by (rewrite <- eq_fin by assumption; congruence). destruct W as [W|W]; [congruence|].
      exists (rnd 24 128 (B2R hi' - B2R lo')). cbn [negb].
      destruct (sub_spec hi' lo' F2 F1) as [Fs Vs]. { rewrite Rabs_pos_eq by (apply rp; lra). lra. }
      destruct (inv_fin (fsub_ hi' lo') Fs) as (Fi & Vi & _); [rewrite Vs; lra|]. split; [exact Fi|]. split; [generalize (bpow_gt_0 radix2 (-128)); lra|].
      split; [rewrite Vi, Vs; reflexivity|]. split; [lra|reflexivity]. }
  destruct K as (w & Fk & Bw & Vk & Lw & Ew). clearbody k.
  assert (V : forall t, In t l -> is_finite (fadd_ (fmul_ (fsub_ t lo') k) f0) = true /\ B2R (fadd_ (fmul_ (fsub_ t lo') k) f0) = rnd 24 128 (rnd 24 128 (B2R t - B2R lo') * rnd 24 128 (1 / w)) /\ 0 <= rnd 24 128 (B2R t - B2R lo') <= w).
  { intros t I. generalize (B t I). intro Bt.
    assert (Bd : 0 <= rnd 24 128 (B2R t - B2R lo') <= w). { split; [apply rp; lra|]. eapply Rle_trans; [|exact Lw]. apply rm. lra. }
    destruct (sub_spec t lo' (H t I) F1) as [Fs Vs]. { rewrite Rabs_pos_eq by lra. lra. }
    assert (M : is_finite (fmul_ (fsub_ t lo') k) = true /\ B2R (fmul_ (fsub_ t lo') k) = rnd 24 128 (B2R (fsub_ t lo') * B2R k)).
    { apply val_fin; [exact (fmul_val 24 128 (fsub_ t lo') k Fs Fk)|]. rewrite Vs, Vk. generalize (prod_unit w (rnd 24 128 (B2R t - B2R lo')) Bw Bd). lra. }
    destruct M as [Fm Vm]. destruct (add_zero _ Fm) as [Fa Va]. split; [exact Fa|]. rewrite Va, Vm, Vs, Vk. split; [reflexivity|exact Bd]. }
  split.
  - intros i t t' Ht Ht'. apply (nth_map _ _ _ _ _ Ht) in Ht'. subst t'. apply nth_error_In in Ht. destruct (V t Ht) as (F & Vt & Bd). unfold number_in. rewrite Vt.
    split; [split; [exact F|apply prod_unit; assumption]|]. split.
    + intros ->. rewrite Rminus_diag_eq, rnd_0, Rmult_0_l, rnd_0 by (reflexivity || exact p24). reflexivity.
    + intros -> Lt. rewrite <- (Ew Lt). apply rnd_near_1.
      assert (Q : bpow radix2 (-126) <= 1 / w).
      { apply Rmult_le_reg_r with w; [lra|]. unfold Rdiv. rewrite Rmult_assoc, Rinv_l, Rmult_1_r by lra.
        apply Rle_trans with (bpow radix2 (-126) * bpow radix2 126); [|rewrite <- bpow_plus; cbn; lra]. apply Rmult_le_compat_l; [apply bpow_ge_0|lra]. }
      assert (R := rel_err (1 / w)). rewrite Rabs_pos_eq in R by (generalize (bpow_gt_0 radix2 (-126)); lra). specialize (R Q). apply Rabs_le_inv in R.
      replace (1 - bpow radix2 (-24)) with (w * (1 / w - bpow radix2 (-24) * (1 / w))) by (field; lra). apply Rmult_le_compat_l; lra.
  - intros i j s t s' t' Hs Ht Hs' Ht' Lt. apply (nth_map _ _ _ _ _ Hs) in Hs'. apply (nth_map _ _ _ _ _ Ht) in Ht'. subst s' t'. apply nth_error_In in Hs, Ht.
    destruct (V s Hs) as (_ & -> & _). destruct (V t Ht) as (_ & -> & _). apply rm. apply Rmult_le_compat_r; [apply rp|apply rm; lra].
    left. apply Rmult_lt_0_compat; [lra|]. apply Rinv_0_lt_compat. lra.
Qed.
Example C257_example : match adjust Normalize f0 [of_int 1; of_int 5; of_int 2] with Ok (o, _) => map B2SF o = map B2SF [f0; f1; lit 1 (-2) : f32] | _ => False end.
Proof. vm_compute. reflexivity. Qed.

(** ** C258: EarliestIsZero twice is the same as once *)
Theorem C258_earliest_is_zero_is_idempotent ts lo hi out dt out2 dt2 : all_finite ts -> extremes ts lo hi -> rnd 24 128 (B2R hi - B2R lo) < bpow radix2 128 ->
  adjust EarliestIsZero f0 ts = Ok (out, dt) -> adjust EarliestIsZero f0 out = Ok (out2, dt2) ->
  B2R dt2 = 0 /\ map B2R out2 = map B2R out.
Proof.
  intros H X W E E'. destruct (C254_earliest_becomes_zero ts lo hi out dt H X W E) as (Ln & _ & P & _).
  assert (FO : all_finite out /\ forall y, In y out -> 0 <= B2R y).
  { assert (Q : forall y, In y out -> is_finite y = true /\ 0 <= B2R y).
    { intros y I. apply In_nth_error in I as [i I]. destruct (nth_error ts i) as [t|] eqn:T.
      - destruct (P i t y T I) as (F & Z & _). auto.
      - apply nth_error_None in T. assert (i < List.length out)%nat by (apply nth_error_Some; intro Q; assert (K := eq_trans (eq_sym I) Q); discriminate K). lia. }
    split; [apply Forall_forall; intros y I; apply Q, I|intros y I; apply Q, I]. }
  destruct FO as [FO PO]. destruct (earliest_core out out2 dt2 FO E') as (lo2 & hi2 & X2 & Fd & Vd & ->).
  assert (Z : B2R lo2 = 0).
  { destruct X as (I1 & _ & _). destruct X2 as (J1 & _ & B2). apply In_nth_error in I1 as [i I1].
    destruct (nth_error out i) as [y|] eqn:Y.
    - destruct (P i lo y I1 Y) as (_ & _ & Z & _). specialize (Z eq_refl). generalize (PO lo2 J1) (B2 y (nth_error_In _ _ Y)). lra.
    - apply nth_error_None in Y. assert (i < List.length ts)%nat by (apply nth_error_Some; intro Q; assert (K := eq_trans (eq_sym I1) Q); discriminate K). lia. }
  rewrite Z in Vd. split; [exact Vd|]. rewrite map_map. apply map_ext_in. intros y I. rewrite Forall_forall in FO.
  assert (R : rnd 24 128 (B2R y - B2R dt2) = B2R y) by (rewrite Vd, Rminus_0_r; apply rnd_float).
  rewrite <- R. apply sub_spec; [apply FO, I|exact Fd|]. rewrite R. apply Rabs_lt. apply fin_bound.
Qed.
