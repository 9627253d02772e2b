(** Properties of the voxel index and of the mean of a voxel in floats (C259-C262). *)
From Coq Require Import ZArith Reals Lra Lia Bool List.
From Flocq Require Import Core BinarySingleNaN Relative Plus_error.
From Verif Require Import Base FloatBase FloatModel FloatProps FloatIntensityProps FloatStampProps.
Import ListNotations.
Open Scope R_scope.

(** ** C259: the index of a voxel along one axis *)
Lemma trunc_val (q : f32) : Btrunc q = Ztrunc (B2R q).
Proof.
  apply eq_IZR. rewrite (Btrunc_correct 24 128 e128 q). unfold round, scaled_mantissa, F2R, cexp, FIX_exp. cbn [Fnum Fexp Z.opp bpow]. rewrite !Rmult_1_r. reflexivity.
Qed.
Lemma Ztrunc_range v : ((- 2 ^ 31 <= Ztrunc v)%Z /\ (Ztrunc v < 2 ^ 31)%Z) <-> - IZR (2 ^ 31) - 1 < v < IZR (2 ^ 31).
Proof.
  destruct (Rle_or_lt 0 v) as [P|N].
  - rewrite (Ztrunc_floor v P). split.
    + intros [_ U]. split; [assert (0 <= IZR (2 ^ 31)) by (apply IZR_le; lia); lra|]. apply Rlt_le_trans with (IZR (Zfloor v) + 1); [apply Zfloor_ub|]. rewrite <- plus_IZR. apply IZR_le. lia.
    + intros [_ U]. split; [assert (0 <= Zfloor v)%Z by (apply Zfloor_lub; exact P); lia|]. apply lt_IZR. apply Rle_lt_trans with v; [apply Zfloor_lb|exact U].
  - rewrite (Ztrunc_ceil v ltac:(lra)). split.
    + intros [L _]. split; [|assert (0 <= IZR (2 ^ 31)) by (apply IZR_le; lia); lra]. apply IZR_le in L. rewrite opp_IZR in L. generalize (Zceil_lb v). lra.
    + intros [L _]. split; [|assert (Zceil v <= 0)%Z by (apply Zceil_glb; lra); lia].
      assert (- 2 ^ 31 - 1 < Zceil v)%Z; [|lia]. apply lt_IZR. rewrite minus_IZR, opp_IZR. generalize (Zceil_ub v). lra.
Qed.
Lemma coord2idx_val r x : is_finite r = true -> 0 < B2R r -> is_finite x = true ->
  let q := rnd 24 128 (B2R x / B2R r) in
  (- IZR (2 ^ 31) - 1 < q < IZR (2 ^ 31) -> coord2idx r x = Ok (Ztrunc q)) /\ (~ (- IZR (2 ^ 31) - 1 < q < IZR (2 ^ 31)) -> coord2idx r x = UB).
Proof.
  intros Fr Pr Fx q. assert (D := fdiv_val 24 128 x r Fx Fr ltac:(lra)). fold q in D. fold (fdiv_ x r) in D.
  assert (T : IZR (2 ^ 31) + 1 < top 128).
  { unfold top. rewrite <- IZR_Zpower by lia. rewrite <- plus_IZR. apply IZR_lt. reflexivity. }
  unfold coord2idx. cbv zeta. set (z := fdiv_ x r) in *. clearbody z. split; intro B.
  - destruct (val_fin _ _ D) as [F V]; [lra|]. rewrite F, trunc_val, V. apply Ztrunc_range in B. cbn [andb].
    destruct (Z.leb_spec (- 2 ^ 31) (Ztrunc q)); [|lia]. destruct (Z.ltb_spec (Ztrunc q) (2 ^ 31)); [|lia]. reflexivity.
  - destruct (is_finite z) eqn:F; [|reflexivity]. cbn [andb].
    destruct (Z.leb_spec (- 2 ^ 31) (Btrunc z)) as [L|]; [|reflexivity]. destruct (Z.ltb_spec (Btrunc z) (2 ^ 31)) as [U|]; [|reflexivity].
    exfalso. apply B. rewrite trunc_val in L, U. assert (K : - IZR (2 ^ 31) - 1 < B2R z < IZR (2 ^ 31)) by (apply Ztrunc_range; auto).
    destruct D as [_ V]. rewrite fval_fin in V by exact F. rewrite V in K. unfold sat in K.
    destruct (Rle_or_lt (top 128) q) as [Q|Q]; [rewrite Rmin_left, Rmax_right in K by lra; lra|]. rewrite Rmin_right in K by lra.
    destruct (Rle_or_lt q (- top 128)) as [Q'|Q']; [rewrite Rmax_left in K by lra; lra|]. rewrite Rmax_right in K by lra. exact K.
Qed.
(** For finite coordinates and a finite positive resolution: the conversion to int32_t is defined exactly if the rounded
    quotient lies in (-2^31 - 1, 2^31); a larger coordinate never gets a smaller index; and opposite coordinates get
    opposite indices. *)
Theorem C259_index_defined_iff r x : is_finite r = true -> 0 < B2R r -> is_finite x = true ->
  (exists k, coord2idx r x = Ok k) <-> - 2147483649 < rnd 24 128 (B2R x / B2R r) < 2147483648.
Proof.
  intros Fr Pr Fx. destruct (coord2idx_val r x Fr Pr Fx) as [D U]. set (q := rnd 24 128 (B2R x / B2R r)) in *. change (2 ^ 31)%Z with 2147483648%Z in *.
  replace (- 2147483649) with (- (2147483648) - 1) by lra. split.
  - intros [k E]. destruct (Rlt_or_le (- 2147483648 - 1) q) as [A|A]; [destruct (Rlt_or_le q 2147483648) as [B|B]; [auto|]|];
      rewrite U in E by lra; discriminate E.
  - intro B. eexists. apply D, B.
Qed.
Theorem C259_index_monotone r x y k l : is_finite r = true -> 0 < B2R r -> is_finite x = true -> is_finite y = true ->
  coord2idx r x = Ok k -> coord2idx r y = Ok l -> B2R x <= B2R y -> (k <= l)%Z.
Proof.
  intros Fr Pr Fx Fy Ex Ey L. destruct (coord2idx_val r x Fr Pr Fx) as [Dx Ux]. destruct (coord2idx_val r y Fr Pr Fy) as [Dy Uy].
  assert (M : rnd 24 128 (B2R x / B2R r) <= rnd 24 128 (B2R y / B2R r)). { apply rm. apply Rmult_le_compat_r; [left; apply Rinv_0_lt_compat, Pr|exact L]. }
  assert (Kx : k = Ztrunc (rnd 24 128 (B2R x / B2R r))). { destruct (Rlt_or_le (- IZR (2 ^ 31) - 1) (rnd 24 128 (B2R x / B2R r))); [destruct (Rlt_or_le (rnd 24 128 (B2R x / B2R r)) (IZR (2 ^ 31)))|]; [rewrite Dx in Ex by lra; congruence|rewrite Ux in Ex by lra; discriminate..]. }
  assert (Ky : l = Ztrunc (rnd 24 128 (B2R y / B2R r))). { destruct (Rlt_or_le (- IZR (2 ^ 31) - 1) (rnd 24 128 (B2R y / B2R r))); [destruct (Rlt_or_le (rnd 24 128 (B2R y / B2R r)) (IZR (2 ^ 31)))|]; [rewrite Dy in Ey by lra; congruence|rewrite Uy in Ey by lra; discriminate..]. }
  subst k l. apply Ztrunc_le, M.
Qed.
Lemma idx_inv r x k : is_finite r = true -> 0 < B2R r -> is_finite x = true -> coord2idx r x = Ok k ->
  k = Ztrunc (rnd 24 128 (B2R x / B2R r)) /\ - IZR (2 ^ 31) - 1 < rnd 24 128 (B2R x / B2R r) < IZR (2 ^ 31).
Proof.
  intros Fr Pr Fx Ex. destruct (coord2idx_val r x Fr Pr Fx) as [Dx Ux].
  destruct (Rlt_or_le (- IZR (2 ^ 31) - 1) (rnd 24 128 (B2R x / B2R r))); [destruct (Rlt_or_le (rnd 24 128 (B2R x / B2R r)) (IZR (2 ^ 31)))|]; [|rewrite Ux in Ex by lra; discriminate..].
  rewrite Dx in Ex by lra. split; [congruence|auto].
Qed.
Lemma Ztrunc_opp v : Ztrunc (- v) = (- Ztrunc v)%Z.
Proof. apply Ztrunc_opp. Qed.
Theorem C259_index_odd r x k : is_finite r = true -> 0 < B2R r -> is_finite x = true -> coord2idx r x = Ok k -> (k <> - 2 ^ 31)%Z -> coord2idx r (Bopp x) = Ok (- k)%Z.
Proof.
  intros Fr Pr Fx E N. destruct (idx_inv r x k Fr Pr Fx E) as [K B]. destruct (coord2idx_val r (Bopp x) Fr Pr) as [D _]; [rewrite is_finite_Bopp; exact Fx|].
  rewrite B2R_Bopp in D. replace (- B2R x / B2R r) with (- (B2R x / B2R r)) in D by (field; lra). rewrite rnd_opp in D. rewrite Ztrunc_opp, <- K in D. apply D.
  assert (R : ((- 2 ^ 31 <= - k)%Z /\ (- k < 2 ^ 31)%Z)). { apply Ztrunc_range in B. rewrite <- K in B. lia. }
  apply Ztrunc_range. rewrite Ztrunc_opp, <- K. exact R.
Qed.
Example C259_example : coord2idx (lit 1 (-2)) (of_int 5) = Ok 20%Z /\ coord2idx (lit 1 (-2)) (lit (-11) (-3)) = Ok (-5)%Z /\ coord2idx (lit 1 (-2)) (lit 1 30) = UB.
Proof. split; [|split]; vm_compute; reflexivity. Qed.

(** ** C260: the voxel of a coordinate *)
Lemma int_exact32 k : (Z.abs k <= 2 ^ 24)%Z -> rnd 24 128 (IZR k) = IZR k.
Proof.
  intro B. destruct (Z.eq_dec (Z.abs k) (2 ^ 24)) as [E|N].
  - assert (Q : rnd 24 128 (bpow radix2 24) = bpow radix2 24) by (apply bpow_format; lia).
    destruct (Z.abs_eq_or_opp k) as [A|A]; rewrite A in E.
    + rewrite E. rewrite <- IZR_Zpower in Q by lia. exact Q.
    + replace k with (- (2 ^ 24))%Z by lia. rewrite opp_IZR, rnd_opp by exact p24. f_equal. rewrite <- IZR_Zpower in Q by lia. exact Q.
  - apply round_generic; [auto with typeclass_instances|]. apply generic_format_FLT. exists (Float radix2 k 0); cbn [Fnum Fexp].
    + unfold F2R. cbn. rewrite Rmult_1_r. reflexivity.
    + change (radix_val radix2) with 2%Z. lia.
    + unfold SpecFloat.emin. lia.
Qed.
Lemma rel_or_small v : 0 <= v -> (v < bpow radix2 (-126) /\ rnd 24 128 v <= bpow radix2 (-126)) \/ (bpow radix2 (-126) <= v /\ Rabs (rnd 24 128 v - v) <= bpow radix2 (-24) * v).
Proof.
  intro P. destruct (Rlt_or_le v (bpow radix2 (-126))) as [L|L]; [left|right].
  - split; [exact L|]. apply Rle_trans with (rnd 24 128 (bpow radix2 (-126))); [apply rm; lra|right; apply bpow_format; lia].
  - split; [exact L|]. assert (R := rel_err v). rewrite Rabs_pos_eq in R by exact P. auto.
Qed.
Lemma b24 : 0 < bpow radix2 (-24) < / 1000000.
Proof. split; [apply bpow_gt_0|]. cbn. lra. Qed.
Lemma b126 : 0 < bpow radix2 (-126) < / 1000000.
Proof. split; [apply bpow_gt_0|]. apply Rle_lt_trans with (bpow radix2 (-24)); [apply bpow_le; lia|apply b24]. Qed.
(** rounding never takes a coordinate below its voxel, and moves it at most to the next one *)
Theorem C260_index_of_a_coordinate_or_the_next r x k : is_finite r = true -> 0 < B2R r -> is_finite x = true -> (0 <= k < 2 ^ 24)%Z ->
  IZR k * B2R r <= B2R x < (IZR k + 1) * B2R r -> coord2idx r x = Ok k \/ coord2idx r x = Ok (k + 1)%Z.
Proof.
  intros Fr Pr Fx K B. destruct (coord2idx_val r x Fr Pr Fx) as [D _].
  assert (Q : IZR k <= B2R x / B2R r <= IZR (k + 1)).
  { rewrite plus_IZR. split; apply Rmult_le_reg_r with (B2R r); try exact Pr; unfold Rdiv; rewrite Rmult_assoc, Rinv_l, Rmult_1_r by lra; lra. }
  set (q := rnd 24 128 (B2R x / B2R r)) in *. assert (Bq : IZR k <= q <= IZR (k + 1)).
  { split; [rewrite <- (int_exact32 k) by lia|rewrite <- (int_exact32 (k + 1)) by lia]; apply rm, Q. }
  assert (P : 0 <= IZR k) by (apply IZR_le; lia). assert (U : IZR (k + 1) < IZR (2 ^ 31)) by (apply IZR_lt; lia).
  assert (P31 : 0 <= IZR (2 ^ 31)) by (apply IZR_le; lia).
  rewrite D by lra. rewrite Ztrunc_floor by lra. assert (k <= Zfloor q)%Z by (apply Zfloor_lub; lra).
  assert (Zfloor q <= k + 1)%Z. { apply le_IZR. generalize (Zfloor_lb q). lra. }
  assert (C : Zfloor q = k \/ Zfloor q = (k + 1)%Z) by lia. destruct C as [-> | ->]; auto.
Qed.
(** the index is the expected one except in the last 2^-24 part before the next voxel *)
Theorem C260_index_of_a_coordinate_where r x k : is_finite r = true -> 0 < B2R r -> is_finite x = true -> (0 <= k < 2 ^ 24)%Z ->
  IZR k * B2R r <= B2R x <= (IZR k + 1) * (1 - bpow radix2 (-24)) * B2R r -> coord2idx r x = Ok k.
Proof.
  intros Fr Pr Fx K B. assert (P : 0 <= IZR k) by (apply IZR_le; lia). generalize b24 b126. intros B24 B126.
  destruct (C260_index_of_a_coordinate_or_the_next r x k Fr Pr Fx K) as [E|E]; [|exact E|exfalso].
  { split; [lra|]. apply Rle_lt_trans with (1 := proj2 B). apply Rmult_lt_compat_r; [exact Pr|]. nra. }
  destruct (idx_inv r x _ Fr Pr Fx E) as [T _]. set (v := B2R x / B2R r) in *.
  assert (V : 0 <= v <= (IZR k + 1) * (1 - bpow radix2 (-24))).
  { split; [apply Rmult_le_pos; [nra|left; apply Rinv_0_lt_compat, Pr]|]. apply Rmult_le_reg_r with (B2R r); [exact Pr|]. unfold v, Rdiv. rewrite Rmult_assoc, Rinv_l, Rmult_1_r by lra. lra. }
  assert (Q : rnd 24 128 v < IZR k + 1).
  { destruct (rel_or_small v (proj1 V)) as [[_ S]|[_ S]]; [lra|]. apply Rabs_le_inv in S. nra. }
  rewrite Ztrunc_floor in T by (apply rp; lra). assert (L := Zfloor_lb (rnd 24 128 v)). rewrite <- T, plus_IZR in L. lra.
Qed.
(** Not always the expected one: with a resolution of 0.1f (13421773 * 2^-27, a bit above 0.1), 0.5 lies below 5 times the
    resolution, and still gets index 5. *)
Theorem C260_index_of_a_coordinate_refuted : exists r x k, is_finite r = true /\ 0 < B2R r /\ is_finite x = true /\ (0 <= k < 2 ^ 24)%Z /\
  IZR k * B2R r <= B2R x < (IZR k + 1) * B2R r /\ coord2idx r x = Ok (k + 1)%Z.
Proof.
  exists (lit 13421773 (-27)), (lit 1 (-1)), 4%Z.
  destruct (lit_exact (prec := 24) (emax := 128) 13421773 (-27) eq_refl ltac:(lia) ltac:(lia)) as [F1 V1].
  destruct half_lit as [F2 V2]. unfold f32 in *. rewrite V1, V2. split; [exact F1|]. cbn [bpow]. split; [cbn; lra|]. split; [exact F2|]. split; [lia|]. split; [cbn; lra|].
  vm_compute. reflexivity.
Qed.

(** ** C261: points of one voxel *)
(** two coordinates with the same index are closer than the resolution, up to rounding; twice the resolution for index 0 *)
Theorem C261_same_voxel_is_close r x y k : is_finite r = true -> 0 < B2R r -> is_finite x = true -> is_finite y = true ->
  coord2idx r x = Ok k -> coord2idx r y = Ok k ->
  (k = 0%Z -> Rabs (B2R x - B2R y) < 2 * B2R r) /\
  (k <> 0%Z -> Rabs (B2R x - B2R y) <= (1 + (IZR (Z.abs k) + 1) * bpow radix2 (-22)) * B2R r).
Proof.
  intros Fr Pr Fx Fy Ex Ey. destruct (idx_inv r x k Fr Pr Fx Ex) as [Tx _]. destruct (idx_inv r y k Fr Pr Fy Ey) as [Ty _].
  assert (V : forall z : f32, B2R z = B2R z / B2R r * B2R r) by (intro; field; lra). rewrite (V x), (V y). clear V.
  set (v := B2R x / B2R r) in *. set (w := B2R y / B2R r) in *. clearbody v w.
  rewrite <- Rmult_minus_distr_r, Rabs_mult, (Rabs_pos_eq (B2R r)) by lra. split; intro K.
  - apply Rmult_lt_compat_r; [exact Pr|].
    assert (One : forall u, Ztrunc (rnd 24 128 u) = 0%Z -> -1 < u < 1).
    { intros u Z. split; apply Rnot_le_lt; intro L.
      - assert (rnd 24 128 u <= -1). { rewrite <- (int_exact32 (-1)) by lia. apply rm, L. } rewrite Ztrunc_ceil in Z by lra. generalize (Zceil_lb (rnd 24 128 u)). rewrite Z. lra.
      - assert (1 <= rnd 24 128 u). { rewrite <- (int_exact32 1) by lia. apply rm, L. } rewrite Ztrunc_floor in Z by lra. generalize (Zfloor_ub (rnd 24 128 u)). rewrite Z. lra. }
    assert (X := One v ltac:(congruence)). assert (Y := One w ltac:(congruence)). apply Rabs_lt. lra.
  - apply Rmult_le_compat_r; [lra|]. generalize b24 b126. intros B24 B126.
    assert (B22 : bpow radix2 (-22) = 4 * bpow radix2 (-24)) by (replace (-22)%Z with (2 + -24)%Z by lia; rewrite bpow_plus; f_equal; cbn; lra).
    assert (Pos : forall u m, (0 < m)%Z -> Ztrunc (rnd 24 128 u) = m -> IZR m * (1 - bpow radix2 (-24)) <= u <= (IZR m + 1) * (1 + 2 * bpow radix2 (-24))).
    { intros u m Pm T. assert (Pm' : 1 <= IZR m) by (apply IZR_le; lia).
      assert (Pu : 0 <= u). { apply Rnot_lt_le. intro N. assert (rnd 24 128 u <= 0) by (apply rnd_neg; [exact p24|lra]). rewrite Ztrunc_ceil in T by assumption. assert (Zceil (rnd 24 128 u) <= 0)%Z by (apply Zceil_glb; lra). lia. }
      assert (Pr' : 0 <= rnd 24 128 u) by (apply rp, Pu). rewrite Ztrunc_floor in T by exact Pr'. assert (L := Zfloor_lb (rnd 24 128 u)). assert (U := Zfloor_ub (rnd 24 128 u)). rewrite T in L, U.
      destruct (rel_or_small u Pu) as [[S1 S2]|[S1 S2]]; [lra|]. apply Rabs_le_inv in S2. set (e := bpow radix2 (-24)) in *. clearbody e. set (M := IZR m) in *. clearbody M.
      split; apply Rnot_lt_le; intro N.
      - assert (u * (1 + e) < M * (1 - e) * (1 + e)) by (apply Rmult_lt_compat_r; lra). assert (0 <= M * (e * e)) by (apply Rmult_le_pos; nra). lra.
      - assert ((M + 1) * (1 + 2 * e) * (1 - e) < u * (1 - e)) by (apply Rmult_lt_compat_r; lra). assert (0 <= (M + 1) * (e * (1 - 2 * e))) by (apply Rmult_le_pos; nra). lra. }
    assert (Main : forall a b m, (0 < m)%Z -> Ztrunc (rnd 24 128 a) = m -> Ztrunc (rnd 24 128 b) = m -> Rabs (a - b) <= 1 + (IZR m + 1) * bpow radix2 (-22)).
    { intros a b m Pm Ta Tb. assert (A := Pos a m Pm Ta). assert (B := Pos b m Pm Tb). assert (1 <= IZR m) by (apply IZR_le; lia). apply Rabs_le. rewrite B22. split; nra. }
    destruct (Z_lt_le_dec 0 k) as [G|G].
    + rewrite Z.abs_eq by lia. apply Main; auto.
    + rewrite Z.abs_neq by lia. replace (v - w) with (- (- v - - w)) by ring. rewrite Rabs_Ropp. apply Main; [lia|rewrite rnd_opp, Ztrunc_opp by exact p24; lia..].
Qed.
Example C261_example : coord2idx (of_int 1) (lit (-3) (-2)) = Ok 0%Z /\ coord2idx (of_int 1) (lit 3 (-2)) = Ok 0%Z.
Proof. split; vm_compute; reflexivity. Qed.

(** ** C262: the mean of the points of a voxel, one coordinate *)
Definition sumR (l : list R) : R := fold_right Rplus 0 l.
Notation u := (bpow radix2 (-24)).
Lemma add_err (x y : f32) : Rabs (rnd 24 128 (B2R x + B2R y) - (B2R x + B2R y)) <= u * Rabs (B2R x + B2R y).
Proof.
  assert (H := sub_err x (Bopp y)). rewrite B2R_Bopp in H. replace (B2R x - - B2R y) with (B2R x + B2R y) in H by ring. exact H.
Qed.
Lemma sum_err (l : list f32) : forall (a : f32) s A k, is_finite a = true -> all_finite l -> is_finite (fold_left fadd_ l a) = true ->
  Rabs s <= A -> Rabs (B2R a - s) <= ((1 + u) ^ k - 1) * A ->
  Rabs (B2R (fold_left fadd_ l a) - (s + sumR (map B2R l))) <= ((1 + u) ^ (k + List.length l) - 1) * (A + sumR (map (fun x => Rabs (B2R x)) l)).
Proof.
  induction l as [|x l IH]; intros a s A k Fa H Ff Bs Be; cbn [fold_left map sumR fold_right List.length] in *.
  - rewrite !Rplus_0_r, Nat.add_0_r. exact Be.
  - inversion H as [|? ? Fx H']; subst.
    assert (Fa' : is_finite (fadd_ a x) = true). { destruct (is_finite (fadd_ a x)) eqn:E; [reflexivity|]. rewrite sum_inf in Ff by exact E. discriminate Ff. }
    destruct (fadd_val 24 128 a x Fa Fx) as [_ V]. fold (fadd_ a x) in V. rewrite fval_fin in V by exact Fa'.
    assert (V' : B2R (fadd_ a x) = rnd 24 128 (B2R a + B2R x)).
    { rewrite V. apply sat_id. generalize (fin_bound 24 128 (fadd_ a x)). rewrite V. unfold sat. intro Q.
      destruct (Rle_or_lt (top 128) (rnd 24 128 (B2R a + B2R x))) as [C|C]; [rewrite Rmin_left, Rmax_right in Q by (generalize (top_pos 128); lra); lra|].
      rewrite Rmin_right in Q by lra. destruct (Rle_or_lt (rnd 24 128 (B2R a + B2R x)) (- top 128)) as [D|D]; [rewrite Rmax_left in Q by lra; lra|lra]. }
    replace (k + S (List.length l))%nat with (S k + List.length l)%nat by lia.
    replace (s + (B2R x + fold_right Rplus 0 (map B2R l))) with ((s + B2R x) + sumR (map B2R l)) by (unfold sumR; ring).
    replace (A + (Rabs (B2R x) + fold_right Rplus 0 (map (fun x0 => Rabs (B2R x0)) l))) with ((A + Rabs (B2R x)) + sumR (map (fun x0 => Rabs (B2R x0)) l)) by (unfold sumR; ring).
    apply IH; try assumption.
    + eapply Rle_trans; [apply Rabs_triang|lra].
    + rewrite V'. assert (E := add_err a x). cbn [pow]. set (p := (1 + u) ^ k) in *.
      assert (P1 : 1 <= p) by (unfold p; apply pow_R1_Rle; generalize (bpow_gt_0 radix2 (-24)); lra). clearbody p.
      assert (U0 := bpow_gt_0 radix2 (-24)). assert (PA : 0 <= A) by (eapply Rle_trans; [apply Rabs_pos|exact Bs]). assert (PX := Rabs_pos (B2R x)).
      assert (T1 : Rabs (B2R a + B2R x) <= Rabs (B2R a - s) + (A + Rabs (B2R x))).
      { replace (B2R a + B2R x) with ((B2R a - s) + (s + B2R x)) by ring. eapply Rle_trans; [apply Rabs_triang|]. apply Rplus_le_compat_l. eapply Rle_trans; [apply Rabs_triang|lra]. }
      replace (rnd 24 128 (B2R a + B2R x) - (s + B2R x)) with ((rnd 24 128 (B2R a + B2R x) - (B2R a + B2R x)) + (B2R a - s)) by ring.
      eapply Rle_trans; [apply Rabs_triang|].
      apply Rle_trans with (u * (((p - 1) * A) + (A + Rabs (B2R x))) + (p - 1) * A).
      * apply Rplus_le_compat; [|exact Be]. eapply Rle_trans; [exact E|]. apply Rmult_le_compat_l; [lra|]. lra.
      * assert (0 <= u * ((p - 1) * Rabs (B2R x))) by (apply Rmult_le_pos; [lra|apply Rmult_le_pos; lra]).
        assert (0 <= (p - 1) * Rabs (B2R x)) by (apply Rmult_le_pos; lra). nra.
Qed.
Lemma of_int32 n : (0 <= n <= 2 ^ 24)%Z -> is_finite (of_int n : f32) = true /\ B2R (of_int n : f32) = IZR n.
Proof.
  intro B. destruct (lit_val (prec := 24) (emax := 128) n 0) as [F V]; cbn [bpow] in *; rewrite Rmult_1_r, int_exact32 in * by lia; [|split; [exact F|exact V]].
  rewrite <- abs_IZR. unfold top. rewrite <- IZR_Zpower by lia. apply IZR_lt. apply Z.le_lt_trans with (2 ^ 24)%Z; [lia|reflexivity].
Qed.
(** The computed mean is the exact one up to the rounding of n + 1 operations, if the sum does not overflow. *)
Theorem C262_mean_error_bound (xs : list f32) : let n := List.length xs in xs <> [] -> (Z.of_nat n <= 2 ^ 24)%Z -> all_finite xs -> is_finite (fold_left fadd_ xs f0) = true ->
  is_finite (voxel_mean xs) = true /\
  Rabs (B2R (voxel_mean xs) - sumR (map B2R xs) / INR n) <= ((1 + bpow radix2 (-24)) ^ (n + 2) - 1) * (sumR (map (fun x => Rabs (B2R x)) xs) / INR n) + bpow radix2 (-150).
Proof.
  intros n NE Ln H F. assert (Pn : (0 < n)%nat) by (unfold n; destruct xs; [congruence|cbn; lia]).
  assert (SE := sum_err xs f0 0 0 0%nat eq_refl H F). cbn [B2R f0] in SE. rewrite Rminus_0_r, Rabs_R0, Rmult_0_r, !Rplus_0_l in SE. specialize (SE ltac:(lra) ltac:(lra)).
  cbn [Nat.add] in SE. fold n in SE. set (Sf := fold_left fadd_ xs f0) in *. set (s := sumR (map B2R xs)) in *. set (A := sumR (map (fun x => Rabs (B2R x)) xs)) in *.
  destruct (of_int32 (Z.of_nat n) ltac:(lia)) as [Fn Vn]. rewrite <- INR_IZR_INZ in Vn. assert (N1 : 1 <= INR n) by (apply (le_INR 1); lia).
  assert (NB : INR n <= bpow radix2 24) by (rewrite INR_IZR_INZ, <- IZR_Zpower by lia; apply IZR_le; exact Ln).
  destruct (fdiv_unit f1 (of_int (Z.of_nat n)) f1_fin Fn) as [[Fi Bi] Vi]; [rewrite f1_val, Vn; lra|rewrite Vn; lra|].
  unfold voxel_mean. fold Sf. fold n. set (inv := fdiv_ f1 (of_int (Z.of_nat n))) in *. rewrite f1_val, Vn in Vi. clearbody inv Sf.
  assert (Pinv : bpow radix2 (-126) <= 1 / INR n).
  { apply Rle_trans with (bpow radix2 (-24)); [apply bpow_le; lia|]. apply Rmult_le_reg_r with (INR n); [lra|]. unfold Rdiv. rewrite Rmult_assoc, Rinv_l, Rmult_1_r by lra.
    apply Rle_trans with (bpow radix2 (-24) * bpow radix2 24); [apply Rmult_le_compat_l; [apply bpow_ge_0|exact NB]|rewrite <- bpow_plus; cbn; lra]. }
  assert (RI := rel_err (1 / INR n)). rewrite Rabs_pos_eq in RI by (generalize (bpow_gt_0 radix2 (-126)); lra). specialize (RI Pinv). rewrite <- Vi in RI.
  assert (PB : Rabs (B2R Sf * B2R inv) <= Rabs (B2R Sf)). { rewrite Rabs_mult, (Rabs_pos_eq (B2R inv)) by lra. generalize (Rabs_pos (B2R Sf)). nra. }
  assert (M : is_finite (fmul_ Sf inv) = true /\ B2R (fmul_ Sf inv) = rnd 24 128 (B2R Sf * B2R inv)).
  { apply val_fin; [exact (fmul_val 24 128 Sf inv F Fi)|]. apply Rabs_le_inv in PB. assert (T := abs_B2R_lt_emax 24 128 Sf). fold (top 128) in T. split.
    - apply Rlt_le_trans with (- Rabs (B2R Sf)); [lra|]. apply Rle_trans with (rnd 24 128 (- Rabs (B2R Sf))); [|apply rm; lra]. right. symmetry. rewrite rnd_opp by exact p24. f_equal.
      unfold Rabs. destruct (Rcase_abs (B2R Sf)); [rewrite rnd_opp, rnd_float by exact p24; reflexivity|apply rnd_float].
    - apply Rle_lt_trans with (Rabs (B2R Sf)); [|exact T]. apply Rle_trans with (rnd 24 128 (Rabs (B2R Sf))); [apply rm; lra|]. right.
      unfold Rabs. destruct (Rcase_abs (B2R Sf)); [rewrite rnd_opp, rnd_float by exact p24; reflexivity|apply rnd_float]. }
  destruct M as [Fm Vm]. split; [exact Fm|]. rewrite Vm.
  destruct (error_N_FLT radix2 (-149) 24 eq_refl (fun n => negb (Z.even n)) (B2R Sf * B2R inv)) as (eps & eta & Be & Bt & _ & Ev).
  change (round radix2 (FLT_exp (-149) 24) (Znearest (fun n : Z => negb (Z.even n))) (B2R Sf * B2R inv)) with (rnd 24 128 (B2R Sf * B2R inv)) in Ev. rewrite Ev.
  replace (/ 2 * bpow radix2 (- (24) + 1)) with u in Be by (replace (/ 2) with (bpow radix2 (-1)) by (cbn; lra); rewrite <- bpow_plus; reflexivity).
  replace (/ 2 * bpow radix2 (-149)) with (bpow radix2 (-150)) in Bt by (replace (/ 2) with (bpow radix2 (-1)) by (cbn; lra); rewrite <- bpow_plus; reflexivity).
  assert (U0 := bpow_gt_0 radix2 (-24)). assert (Bs : Rabs s <= A).
  { unfold s, A. clear. induction xs as [|x xs IH]; cbn [map sumR fold_right]; [rewrite Rabs_R0; lra|]. eapply Rle_trans; [apply Rabs_triang|]. apply Rplus_le_compat_l, IH. }
  rewrite pow_add. cbn [pow]. set (p := (1 + u) ^ n) in *. assert (P1 : 1 <= p) by (unfold p; apply pow_R1_Rle; lra). clearbody p s A.
  assert (PA : 0 <= A) by (eapply Rle_trans; [apply Rabs_pos|exact Bs]).
  assert (BS : Rabs (B2R Sf) <= p * A). { replace (B2R Sf) with ((B2R Sf - s) + s) by ring. eapply Rle_trans; [apply Rabs_triang|]. lra. }
  (* inv = (1/n)(1 + d) *)
  set (i := 1 / INR n) in *. assert (Pi : 0 < i) by (generalize (bpow_gt_0 radix2 (-126)); lra).
  assert (Ei : exists d, Rabs d <= u /\ B2R inv = i * (1 + d)).
  { exists ((B2R inv - i) / i). split; [|field; lra]. unfold Rdiv. rewrite Rabs_mult, (Rabs_pos_eq (/ i)) by (left; apply Rinv_0_lt_compat, Pi).
    apply Rmult_le_reg_r with i; [exact Pi|]. rewrite Rmult_assoc, Rinv_l, Rmult_1_r by lra. exact RI. }
  destruct Ei as (d & Bd & ->). replace (s / INR n) with (s * i) by (unfold i; field; lra). replace (A / INR n) with (A * i) by (unfold i; field; lra).
  replace (B2R Sf * (i * (1 + d)) * (1 + eps) + eta - s * i) with (i * ((B2R Sf - s) + B2R Sf * (d + eps + d * eps)) + eta) by ring.
  eapply Rle_trans; [apply Rabs_triang|]. apply Rplus_le_compat; [|exact Bt]. rewrite Rabs_mult, (Rabs_pos_eq i) by lra.
  replace ((p * ((1 + u) * ((1 + u) * 1)) - 1) * (A * i)) with (i * ((p - 1) * A + p * A * (u + u + u * u))) by ring. apply Rmult_le_compat_l; [lra|].
  eapply Rle_trans; [apply Rabs_triang|]. apply Rplus_le_compat; [exact SE|]. rewrite Rabs_mult. apply Rmult_le_compat; try apply Rabs_pos; [exact BS|].
  eapply Rle_trans; [apply Rabs_triang|]. apply Rplus_le_compat; [eapply Rle_trans; [apply Rabs_triang|]; lra|]. rewrite Rabs_mult. apply Rmult_le_compat; try apply Rabs_pos; assumption.
Qed.
(** one point, or two identical ones, keep their coordinate exactly *)
Theorem C262_mean_of_equal_points_where (x : f32) : is_finite x = true -> B2R (voxel_mean [x]) = B2R x /\ (Rabs (2 * B2R x) < bpow radix2 128 -> B2R (voxel_mean [x; x]) = B2R x).
Proof.
  intro F. assert (A0 : is_finite (fadd_ f0 x) = true /\ B2R (fadd_ f0 x) = B2R x).
  { destruct (val_fin _ _ (fadd_val 24 128 f0 x eq_refl F)) as [F' V]; cbn [B2R f0] in *; rewrite Rplus_0_l, rnd_float in *; [apply fin_bound|auto]. }
  destruct A0 as [F0 V0].
  assert (Main : forall (s : f32) n e, is_finite s = true -> (0 < n <= 2 ^ 24)%Z -> B2R s = IZR n * B2R x -> IZR n = bpow radix2 e -> (0 <= e <= 24)%Z ->
    B2R (fmul_ s (fdiv_ f1 (of_int n))) = B2R x).
  { intros s n e Fs Bn Vs En Be. destruct (of_int32 n ltac:(lia)) as [Fn Vn]. assert (1 <= IZR n) by (apply IZR_le; lia).
    destruct (fdiv_unit f1 (of_int n) f1_fin Fn) as [[Fi Bi] Vi]; [rewrite f1_val, Vn; lra|rewrite Vn; lra|]. rewrite f1_val, Vn, En in Vi.
    replace (1 / bpow radix2 e) with (bpow radix2 (- e)) in Vi by (rewrite bpow_opp; field; generalize (bpow_gt_0 radix2 e); lra). rewrite bpow_format in Vi by lia.
    assert (R : rnd 24 128 (B2R s * B2R (fdiv_ f1 (of_int n : f32))) = B2R x).
    { rewrite Vi, Vs, En. replace (bpow radix2 e * B2R x * bpow radix2 (- e)) with (B2R x * (bpow radix2 e * bpow radix2 (- e))) by ring. rewrite <- bpow_plus. replace (e + - e)%Z with 0%Z by lia. cbn [bpow]. rewrite Rmult_1_r. apply rnd_float. }
    rewrite <- R. apply val_fin; [exact (fmul_val 24 128 s _ Fs Fi)|]. rewrite R. apply fin_bound. }
  split.
  - unfold voxel_mean. cbn [fold_left List.length]. apply (Main _ 1%Z 0%Z); [exact F0|lia|rewrite V0; ring|reflexivity|lia].
  - intro B. unfold voxel_mean. cbn [fold_left List.length].
    assert (A1 : is_finite (fadd_ (fadd_ f0 x) x) = true /\ B2R (fadd_ (fadd_ f0 x) x) = 2 * B2R x).
    { assert (R : rnd 24 128 (B2R (fadd_ f0 x) + B2R x) = 2 * B2R x). { rewrite V0. replace (B2R x + B2R x) with (2 * B2R x) by ring. apply round_generic; [auto with typeclass_instances|apply double_format]. }
      rewrite <- R. apply val_fin; [exact (fadd_val 24 128 _ x F0 F)|]. rewrite R. apply Rabs_lt_inv, B. }
    destruct A1 as [F1 V1]. apply (Main _ 2%Z 1%Z); [exact F1|lia|rewrite V1; reflexivity|cbn; lra|lia].
Qed.
(** Not in general: the mean of seven points at 3 is above 3. *)
Theorem C262_mean_of_equal_points_refuted : exists x : f32, B2R x = 3 /\ 3 < B2R (voxel_mean (repeat x 7)).
Proof.
  exists (of_int 3). split; [apply of_int32; lia|].
  pose (m := voxel_mean (repeat (of_int 3) 7)). change (3 < B2R m).
  assert (Sf : B2SF m = SpecFloat.S754_finite false 12582913 (-22)) by (vm_compute; reflexivity).
  rewrite <- SF2R_B2SF, Sf. unfold SF2R, F2R. cbn. lra.
Qed.
