(** Proofs about the two generators of edges: fixed-point statistics, loops. *)
From Coq Require Import String Sorted Lia Reals Qreals Lra Lqa.
From Verif Require Import Base FilterModel FilterProofs FMergeModel EdgeGenModel EdgeGenSpec.
From Verif Require CurvModel CurvSpec CurvProofs.
Open Scope string_scope.
Open Scope Z_scope.
Open Scope list_scope.

(** ** Statistics *)
Lemma i64_ok z : - 2 ^ 63 <= z < 2 ^ 63 -> i64 z = Some z.
Proof. intro H. unfold i64. rewrite (proj2 (Z.leb_le _ _)), (proj2 (Z.ltb_lt _ _)) by lia. reflexivity. Qed.
Lemma i64_bad z : 2 ^ 63 <= z -> i64 z = None.
Proof. intro H. unfold i64. rewrite (proj2 (Z.ltb_ge z _)) by lia. rewrite andb_false_r. reflexivity. Qed.

Definition zsum (l : list Z) : Z := fold_right Z.add 0 l.
Definition zvar (mean : Z) (l : list Z) : Z := fold_right Z.add 0 (map (fun d => (d - mean) ^ 2) l).

Lemma abs_diff_ok a b : - 2 ^ 63 < a - b < 2 ^ 63 -> abs_diff a b = Some (Z.abs (a - b)).
Proof.
  intro H. unfold abs_diff. destruct (b <? a) eqn:E; [apply Z.ltb_lt in E|apply Z.ltb_ge in E];
    rewrite i64_ok by lia; f_equal; lia.
Qed.

Lemma sum_run B : 0 <= B -> forall l a, (forall d, In d l -> - B < d < B) ->
  - 2 ^ 62 <= a <= 2 ^ 62 -> Z.of_nat (List.length l) * B <= 2 ^ 60 -> - 2 ^ 61 + Z.of_nat (List.length l) * B <= a <= 2 ^ 61 - Z.of_nat (List.length l) * B ->
  fold_left (fun acc d => obind acc (fun a => i64 (a + d))) l (Some a) = Some (a + zsum l).
Proof.
  intro B0. induction l as [|d l IH]; intros a D A1 A2 A3; [cbn; f_equal; lia|].
  cbn [fold_left obind]. pose proof (D d (or_introl eq_refl)) as DD. cbn [List.length] in *.
  rewrite Nat2Z.inj_succ in *.
  rewrite i64_ok by lia. rewrite IH.
  - f_equal. cbn [zsum fold_right]. unfold zsum. lia.
  - intros x X. apply D. right. exact X.
  - lia.
  - lia.
  - lia.
Qed.

Lemma sq_small x : - 2 ^ 26 < x < 2 ^ 26 -> 0 <= x ^ 2 < 2 ^ 52.
Proof. intro H. rewrite Z.pow_2_r. change (2 ^ 52) with (2 ^ 26 * 2 ^ 26). nia. Qed.

Lemma var_run mean B : 0 <= B <= 2 ^ 52 -> forall l a,
  (forall d, In d l -> - 2 ^ 26 < d - mean < 2 ^ 26) -> 0 <= a -> a + Z.of_nat (List.length l) * 2 ^ 52 <= 2 ^ 63 ->
  fold_left (fun acc d => obind acc (fun a => obind (abs_diff d mean) (fun e =>
    obind (square_i64 e) (fun q => i64 (a + q))))) l (Some a) = Some (a + zvar mean l).
Proof.
  intro B0. induction l as [|d l IH]; intros a D A0 A1; [cbn; f_equal; lia|].
  cbn [fold_left obind]. pose proof (D d (or_introl eq_refl)) as DD. cbn [List.length] in *. rewrite Nat2Z.inj_succ in *.
  rewrite abs_diff_ok by lia. cbn [obind]. unfold square_i64.
  assert (SQ : Z.abs (d - mean) * Z.abs (d - mean) = (d - mean) ^ 2) by (rewrite <- Z.abs_mul, Z.pow_2_r; apply Z.abs_eq, Z.square_nonneg).
  assert (SB : 0 <= (d - mean) ^ 2 < 2 ^ 52) by (apply sq_small; exact DD).
  rewrite SQ. rewrite i64_ok by lia. cbn [obind]. rewrite i64_ok by lia. rewrite IH.
  - f_equal. unfold zvar. cbn [map fold_right]. lia.
  - intros x X. apply D. right. exact X.
  - lia.
  - lia.
Qed.

Lemma var_none mean l : fold_left (fun acc d => obind acc (fun a => obind (abs_diff d mean) (fun e =>
    obind (square_i64 e) (fun q => i64 (a + q))))) l None = None.
Proof. induction l; [reflexivity|exact IHl]. Qed.

Lemma zvar_bound mean l : (forall d, In d l -> - 2 ^ 26 < d - mean < 2 ^ 26) ->
  0 <= zvar mean l /\ (l <> [] -> zvar mean l < Z.of_nat (List.length l) * 2 ^ 52).
Proof.
  induction l as [|d l IH]; intro D; [split; [cbn; lia|congruence]|].
  pose proof (D d (or_introl eq_refl)) as DD. destruct IH as [A B]; [intros x X; apply D; right; exact X|].
  unfold zvar in *. cbn [map fold_right List.length]. rewrite Nat2Z.inj_succ.
  assert (SB : 0 <= (d - mean) ^ 2 < 2 ^ 52) by (apply sq_small; exact DD).
  split; [lia|]. intros _. destruct l as [|e l]; [cbn in *; lia|]. specialize (B ltac:(discriminate)). lia.
Qed.

Definition small_data (l : list Z) : Prop :=
  (2 <= List.length l <= 2048)%nat /\ (forall d, In d l -> - 2 ^ 25 < d < 2 ^ 25) /\ - 2 ^ 25 < zsum l < 2 ^ 25.

Lemma calc_ok l : small_data l -> (0 <= zsum l \/ List.length l = 2%nat) ->
  let n1 := Z.of_nat (List.length l) - 1 in
  calc_stats l = Some (zsum l / n1, zvar (zsum l / n1) l / n1)
  /\ - 2 ^ 25 < zsum l / n1 < 2 ^ 25 /\ 0 <= zvar (zsum l / n1) l / n1.
Proof.
  intros (L & D & S) H n1. unfold calc_stats. fold n1.
  assert (N1 : 1 <= n1 <= 2047) by (unfold n1; lia).
  unfold sum_i64. rewrite (sum_run (2 ^ 25)); [|lia|exact D|lia|lia|lia]. cbn [obind]. rewrite Z.add_0_l.
  assert (MEAN : to_i64 ((zsum l mod 2 ^ 64) / n1) = zsum l / n1).
  { destruct H as [H|H].
    - rewrite Z.mod_small by lia. unfold to_i64.
      assert (zsum l / n1 <= zsum l) by (apply Z.div_le_upper_bound; nia).
      rewrite (proj2 (Z.ltb_lt _ _)) by lia. reflexivity.
    - assert (n1 = 1) by (unfold n1; rewrite H; reflexivity). rewrite H0, !Z.div_1_r. unfold to_i64.
      destruct (Z_lt_le_dec (zsum l) 0) as [N|N].
      + rewrite <- (Z_mod_plus_full _ 1 (2 ^ 64)), Z.mod_small by lia.
        rewrite (proj2 (Z.ltb_ge _ _)) by lia. lia.
      + rewrite Z.mod_small by lia. rewrite (proj2 (Z.ltb_lt _ _)) by lia. reflexivity. }
  rewrite MEAN. set (mean := zsum l / n1) in *.
  assert (MB : - 2 ^ 25 < mean < 2 ^ 25).
  { unfold mean. split; [apply Z.lt_le_trans with (- 2 ^ 25 + 1); [lia|apply Z.div_le_lower_bound; nia]|
      apply Z.div_lt_upper_bound; nia]. }
  assert (DM : forall d, In d l -> - 2 ^ 26 < d - mean < 2 ^ 26) by (intros d I; specialize (D d I); lia).
  unfold var_i64. rewrite (var_run mean (2 ^ 52)); [|lia|exact DM|lia|lia]. cbn [obind]. rewrite Z.add_0_l.
  destruct (zvar_bound mean l DM) as [V0 V1]. specialize (V1 ltac:(destruct l; [cbn in L; lia|discriminate])).
  assert (VB : zvar mean l < 2 ^ 63) by lia.
  rewrite Z.mod_small by lia. unfold to_i64.
  assert (zvar mean l / n1 <= zvar mean l) by (apply Z.div_le_upper_bound; nia).
  rewrite (proj2 (Z.ltb_lt _ _)) by lia. split; [reflexivity|]. split; [exact MB|]. apply Z.div_pos; lia.
Qed.

Lemma calc_overflow l : small_data l -> zsum l < 0 -> (3 <= List.length l)%nat -> calc_stats l = None.
Proof.
  intros (L & D & S) H H3. unfold calc_stats. set (n1 := Z.of_nat (List.length l) - 1).
  assert (N1 : 2 <= n1 <= 2047) by (unfold n1; lia).
  unfold sum_i64. rewrite (sum_run (2 ^ 25)); [|lia|exact D|lia|lia|lia]. cbn [obind]. rewrite Z.add_0_l.
  rewrite <- (Z_mod_plus_full _ 1 (2 ^ 64)), Z.mod_small by lia.
  set (mean := (zsum l + 1 * 2 ^ 64) / n1).
  assert (M1 : 2 ^ 52 <= mean) by (apply Z.div_le_lower_bound; nia).
  assert (M2 : mean < 2 ^ 63) by (apply Z.div_lt_upper_bound; nia).
  unfold to_i64. rewrite (proj2 (Z.ltb_lt _ _)) by lia.
  destruct l as [|d l]; [cbn in L; lia|]. unfold var_i64. cbn [fold_left obind].
  assert (DD := D d (or_introl eq_refl)).
  assert (AD : abs_diff d mean = i64 (mean - d)) by (unfold abs_diff; rewrite (proj2 (Z.ltb_ge _ _)) by lia; reflexivity).
  rewrite AD. destruct (Z_lt_le_dec (mean - d) (2 ^ 63)) as [X|X].
  - rewrite i64_ok by lia. cbn [obind]. replace (square_i64 (mean - d)) with (@None Z) by (symmetry; apply i64_bad; nia).
    cbn [obind]. rewrite var_none. reflexivity.
  - rewrite i64_bad by lia. cbn [obind]. rewrite var_none. reflexivity.
Qed.

(** ** Sums *)
Lemma zsum_seq f : forall n a, zsum (map f (seq a n)) = sum_from f a n.
Proof. induction n as [|n IH]; intro a; [reflexivity|]. cbn [seq map]. unfold zsum in *. cbn [fold_right sum_from]. rewrite IH. reflexivity. Qed.
Lemma zvar_seq f mean : forall n a, zvar mean (map f (seq a n)) = sum_from (fun j => (f j - mean) ^ 2) a n.
Proof.
  intros n a. unfold zvar. rewrite map_map. apply (zsum_seq (fun j => (f j - mean) ^ 2)).
Qed.
Lemma sum_telescope f : forall n a, sum_from (fun j => f (S j) - f j) a n = f (a + n)%nat - f a.
Proof.
  induction n as [|n IH]; intro a; cbn [sum_from]; [rewrite Nat.add_0_r; lia|]. rewrite IH.
  replace (S a + n)%nat with (a + S n)%nat by lia. lia.
Qed.
Lemma sum_from_ext f g : forall n a, (forall j, (a <= j < a + n)%nat -> f j = g j) -> sum_from f a n = sum_from g a n.
Proof.
  induction n as [|n IH]; intros a H; [reflexivity|]. cbn [sum_from]. rewrite (H a) by lia. f_equal.
  apply IH. intros j J. apply H. lia.
Qed.
Lemma sum_from_shift f : forall n a, sum_from f (S a) n = sum_from (fun j => f (S j)) a n.
Proof. induction n as [|n IH]; intro a; [reflexivity|]. cbn [sum_from]. rewrite IH. reflexivity. Qed.
Lemma sum_from_scale f k : forall n a, sum_from (fun j => f j * k) a n = sum_from f a n * k.
Proof. induction n as [|n IH]; intro a; [reflexivity|]. cbn [sum_from]. rewrite IH. lia. Qed.

(** ** Lists of pixels *)
Lemma sorted_seq_pairs r : forall n a, StronglySorted before (map (pair r) (seq a n)).
Proof.
  induction n as [|n IH]; intro a; cbn [seq map]; constructor; [apply IH|].
  apply Forall_forall. intros [r' i'] I. apply in_map_iff in I as [i [E I]]. injection E as <- <-.
  apply in_seq in I. right. cbn. lia.
Qed.
Lemma sorted_app l1 l2 : StronglySorted before l1 -> StronglySorted before l2 ->
  (forall a b, In a l1 -> In b l2 -> before a b) -> StronglySorted before (l1 ++ l2).
Proof.
  induction l1 as [|a l1 IH]; intros A B C; [exact B|]. cbn. inversion A as [|? ? A1 A2]; subst. constructor.
  - apply IH; [exact A1|exact B|]. intros x y X Y. apply C; [right; exact X|exact Y].
  - apply Forall_app. split; [exact A2|]. apply Forall_forall. intros y Y. apply C; [left; reflexivity|exact Y].
Qed.
Definition pixels (rows a n : nat) : list (nat * nat) := flat_map (fun r => map (pair r) (seq a n)) (seq 0 rows).
Lemma sorted_rows a n : forall rows b, StronglySorted before (flat_map (fun r => map (pair r) (seq a n)) (seq b rows)).
Proof.
  induction rows as [|rows IH]; intro b; cbn [seq flat_map]; [constructor|].
  apply sorted_app; [apply sorted_seq_pairs|apply IH|].
  intros x y X Y. apply in_map_iff in X as [i [<- _]]. apply in_flat_map in Y as [r [Y1 Y2]].
  apply in_map_iff in Y2 as [j [<- _]]. apply in_seq in Y1. left. cbn. lia.
Qed.
Lemma pixels_in rows a n r i : In (r, i) (pixels rows a n) <-> (r < rows /\ a <= i < a + n)%nat.
Proof.
  unfold pixels. rewrite in_flat_map. split.
  - intros [r' [A B]]. apply in_map_iff in B as [j [E B]]. injection E as -> ->. apply in_seq in A, B. lia.
  - intros [A B]. exists r. split; [apply in_seq; lia|]. apply in_map. apply in_seq. lia.
Qed.
Lemma sorted_filter f l : StronglySorted before l -> StronglySorted before (filter f l).
Proof.
  induction 1 as [|a l A IH F]; [constructor|]. cbn. destruct (f a); [|exact IH]. constructor; [exact IH|].
  rewrite Forall_forall in *. intros x X. apply filter_In in X as [X _]. apply F, X.
Qed.
Lemma pixels_lists rows a n (f : nat -> nat -> bool) P :
  (forall r i, (r < rows)%nat -> (a <= i < a + n)%nat -> (f r i = true <-> P r i)) ->
  (forall r i, P r i -> (r < rows)%nat /\ (a <= i < a + n)%nat) ->
  Lists P (filter (fun ri => f (fst ri) (snd ri)) (pixels rows a n)).
Proof.
  intros A B. split; [apply sorted_filter, sorted_rows|]. intros r i. rewrite filter_In, pixels_in. cbn. split.
  - intros [[C D] E]. apply A; assumption.
  - intro C. destruct (B r i C) as [D E]. split; [split; assumption|]. apply A; assumption.
Qed.
Lemma flat_pixels {T} (f : nat -> nat -> bool) (h : nat -> nat -> T) rows a n :
  flat_map (fun r => flat_map (fun i => if f r i then [h r i] else []) (seq a n)) (seq 0 rows)
  = map (fun ri => h (fst ri) (snd ri)) (filter (fun ri => f (fst ri) (snd ri)) (pixels rows a n)).
Proof.
  unfold pixels. generalize 0%nat as b. induction rows as [|rows IH]; intro b; [reflexivity|]. cbn [seq flat_map].
  rewrite filter_app, map_app, IH. f_equal. clear IH. revert a. induction n as [|n IH]; intro a; [reflexivity|].
  cbn [seq flat_map map filter fst snd]. destruct (f b a); cbn [app map fst snd]; rewrite IH; reflexivity.
Qed.

(** ** The range image of a rotating scan *)
Lemma row_diff_pos s r i : (1 <= i)%nat -> row_diff s r i = (m_at (rs_range s) r i - m_at (rs_range s) r (i - 1)%nat) * 256.
Proof. intro H. unfold row_diff. destruct (Nat.eqb_spec i 0); [lia|reflexivity]. Qed.

Lemma row_diff_sum s r : forall n a, (1 <= a)%nat ->
  sum_from (row_diff s r) a n = (m_at (rs_range s) r (a + n - 1)%nat - m_at (rs_range s) r (a - 1)%nat) * 256.
Proof.
  induction n as [|n IH]; intros a A; cbn [sum_from].
  - replace (a + 0 - 1)%nat with (a - 1)%nat by lia. lia.
  - rewrite IH, row_diff_pos by lia. replace (S a + n - 1)%nat with (a + S n - 1)%nat by lia.
    replace (S a - 1)%nat with a by lia. lia.
Qed.

Section Window.
  Variables (s : RScan) (r i : nat).
  Hypothesis U : U16 (rs_range s).
  Hypothesis I9 : (9 <= i)%nat.
  Let data := map (row_diff s r) (seq (i - 8) 17).
  Let rng := m_at (rs_range s) r.

  Lemma window_sum : zsum data = 256 * (rng (i + 8)%nat - rng (i - 9)%nat).
  Proof.
    unfold data. rewrite zsum_seq, row_diff_sum by lia. unfold rng.
    replace (i - 8 + 17 - 1)%nat with (i + 8)%nat by lia. replace (i - 8 - 1)%nat with (i - 9)%nat by lia. lia.
  Qed.
  Lemma window_small : small_data data.
  Proof.
    split; [unfold data; rewrite map_length, seq_length; lia|]. split.
    - intros d D. apply in_map_iff in D as [j [<- J]]. apply in_seq in J. rewrite row_diff_pos by lia.
      pose proof (U r j). pose proof (U r (j - 1)%nat). lia.
    - rewrite window_sum. unfold rng. pose proof (U r (i + 8)%nat). pose proof (U r (i - 9)%nat). lia.
  Qed.
End Window.

(** The value tested at a pixel. *)
Definition ri_mean (s : RScan) (r i : nat) : Z := 16 * (m_at (rs_range s) r (i + 8)%nat - m_at (rs_range s) r (i - 9)%nat).
Definition ri_var (s : RScan) (r i : nat) : Z :=
  sum_from (fun j => ((m_at (rs_range s) r j - m_at (rs_range s) r (j - 1)%nat) * 256 - ri_mean s r i) ^ 2) (i - 8) 17 / 16.
Definition sigb (g : RiGen) (s : RScan) (r i : nat) : bool :=
  negb (ri_var s r i =? 0) && (ri_threshold g <? (m_at (rs_range s) r i * 256 - ri_mean s r i) ^ 2 / ri_var s r i / 65536).

Lemma window_stats s r i : U16 (rs_range s) -> (9 <= i)%nat ->
  m_at (rs_range s) r (i - 9)%nat <= m_at (rs_range s) r (i + 8)%nat ->
  calc_stats (map (row_diff s r) (seq (i - 8) 17)) = Some (ri_mean s r i, ri_var s r i)
  /\ - 2 ^ 25 < ri_mean s r i < 2 ^ 25 /\ 0 <= ri_var s r i.
Proof.
  intros U I9 H. pose proof (window_small s r i U I9) as SM. pose proof (window_sum s r i I9) as WS.
  destruct (calc_ok _ SM) as (A & B & C); [left; rewrite WS; lia|].
  cbn zeta in A, B, C. rewrite map_length, seq_length in A, B, C. change (Z.of_nat 17 - 1) with 16 in A, B, C.
  assert (M : zsum (map (row_diff s r) (seq (i - 8) 17)) / 16 = ri_mean s r i).
  { rewrite WS. unfold ri_mean.
    replace (256 * (m_at (rs_range s) r (i + 8)%nat - m_at (rs_range s) r (i - 9)%nat))
      with (16 * (m_at (rs_range s) r (i + 8)%nat - m_at (rs_range s) r (i - 9)%nat) * 16) by lia.
    apply Z.div_mul. lia. }
  rewrite M in *.
  assert (V : zvar (ri_mean s r i) (map (row_diff s r) (seq (i - 8) 17)) / 16 = ri_var s r i).
  { rewrite zvar_seq. unfold ri_var. f_equal. apply sum_from_ext. intros j J. rewrite row_diff_pos by lia. reflexivity. }
  rewrite V in *. split; [exact A|]. split; [exact B|exact C].
Qed.

Lemma ri_pixel_ok g robot s r i : U16 (rs_range s) -> (9 <= i)%nat -> (i + 8 < rs_cols s)%nat ->
  m_at (rs_range s) r (i - 9)%nat <= m_at (rs_range s) r (i + 8)%nat ->
  ri_pixel g robot s r i = Some (if sigb g s r i then [at_robot robot (m_at (rs_pts s) r i)] else []).
Proof.
  intros U I9 I8 H. destruct (window_stats s r i U I9 H) as (A & B & C).
  unfold ri_pixel. change window_w with 8%nat. rewrite (proj2 (Nat.ltb_lt _ _)) by lia.
  change (1 + 2 * 8)%nat with 17%nat. rewrite A. cbn [obind]. unfold sigb.
  destruct (ri_var s r i =? 0) eqn:Z0; [reflexivity|]. cbn [negb andb].
  pose proof (U r i) as R.
  rewrite abs_diff_ok by lia. cbn [obind]. unfold square_i64.
  assert (SQ : Z.abs (m_at (rs_range s) r i * 256 - ri_mean s r i) * Z.abs (m_at (rs_range s) r i * 256 - ri_mean s r i) = (m_at (rs_range s) r i * 256 - ri_mean s r i) ^ 2)
    by (rewrite <- Z.abs_mul, Z.pow_2_r; apply Z.abs_eq, Z.square_nonneg).
  assert (SB : 0 <= (m_at (rs_range s) r i * 256 - ri_mean s r i) ^ 2 < 2 ^ 52) by (apply sq_small; lia).
  rewrite SQ, i64_ok by lia. cbn [obind]. rewrite Z.shiftr_div_pow2 by lia. change (2 ^ 16) with 65536.
  rewrite Z.gtb_ltb. destruct (_ <? _); reflexivity.
Qed.

Lemma ri_pixel_falls g robot s r i : U16 (rs_range s) -> (9 <= i)%nat -> (i + 8 < rs_cols s)%nat ->
  m_at (rs_range s) r (i + 8)%nat < m_at (rs_range s) r (i - 9)%nat -> ri_pixel g robot s r i = None.
Proof.
  intros U I9 I8 H. unfold ri_pixel. change window_w with 8%nat. rewrite (proj2 (Nat.ltb_lt _ _)) by lia.
  change (1 + 2 * 8)%nat with 17%nat. rewrite calc_overflow; [reflexivity|apply window_small; assumption| |].
  - rewrite window_sum by exact I9. lia.
  - rewrite map_length, seq_length. lia.
Qed.

Section Loops.
  Variables (g : RiGen) (robot : option QPose) (s : RScan).
  Let px_of r i := at_robot robot (m_at (rs_pts s) r i).
  Hypothesis C8 : (8 <= rs_cols s)%nat.
  Hypothesis C16 : Z.of_nat (rs_cols s) < 2 ^ 32.

  Lemma ri_guard i : (Z.of_nat i <? (Z.of_nat (rs_cols s) - Z.of_nat window_w) mod 2 ^ 32) = (i + 8 <? rs_cols s)%nat.
  Proof.
    change (Z.of_nat window_w) with 8. rewrite Z.mod_small by lia.
    destruct (i + 8 <? rs_cols s)%nat eqn:E; [apply Nat.ltb_lt in E; apply Z.ltb_lt|apply Nat.ltb_ge in E; apply Z.ltb_ge]; lia.
  Qed.

  Lemma ri_cols_ok r : forall n fuel i, (n <= fuel)%nat -> (rs_cols s = i + 8 + n \/ n = 0 /\ rs_cols s <= i + 8)%nat ->
    (forall j, (i <= j)%nat -> (j + 8 < rs_cols s)%nat -> ri_pixel g robot s r j = Some (if sigb g s r j then [px_of r j] else [])) ->
    ri_cols fuel g robot s r i = Some (flat_map (fun j => if sigb g s r j then [px_of r j] else []) (seq i n)).
  Proof.
    induction n as [|n IH]; intros fuel i F C P.
    - assert (E : (i + 8 <? rs_cols s)%nat = false) by (apply Nat.ltb_ge; lia).
      destruct fuel; cbn [ri_cols]; rewrite ri_guard, E; reflexivity.
    - destruct fuel as [|fuel]; [lia|]. cbn [ri_cols]. rewrite ri_guard, (proj2 (Nat.ltb_lt _ _)) by lia.
      rewrite P by lia. cbn [obind]. rewrite (IH fuel (S i)); [|lia|lia|intros j J K; apply P; lia]. reflexivity.
  Qed.

  Lemma ri_cols_none r : forall fuel i, (rs_cols s <= i + 8 + fuel)%nat ->
    (exists j, (i <= j)%nat /\ (j + 8 < rs_cols s)%nat /\ ri_pixel g robot s r j = None) ->
    ri_cols fuel g robot s r i = None.
  Proof.
    induction fuel as [|fuel IH]; intros i F (j & A & B & C); [lia|].
    cbn [ri_cols]. rewrite ri_guard, (proj2 (Nat.ltb_lt _ _)) by lia.
    destruct (Nat.eq_dec j i) as [-> | N]; [rewrite C; reflexivity|].
    destruct (ri_pixel g robot s r i); [|reflexivity]. cbn [obind]. rewrite IH; [reflexivity|lia|].
    exists j. split; [lia|]. split; assumption.
  Qed.

  Lemma ri_rows_ok n : forall b,
    (forall r i, (b <= r < b + n)%nat -> (9 <= i)%nat -> (i + 8 < rs_cols s)%nat -> ri_pixel g robot s r i = Some (if sigb g s r i then [px_of r i] else [])) ->
    ri_rows g robot s n b = Some (flat_map (fun r => flat_map (fun i => if sigb g s r i then [px_of r i] else []) (seq 9 (rs_cols s - 17))) (seq b n)).
  Proof.
    induction n as [|n IH]; intros b P; [reflexivity|]. cbn [ri_rows]. change (1 + window_w)%nat with 9%nat.
    rewrite (ri_cols_ok b (rs_cols s - 17)); [|lia|lia|intros j J K; apply P; lia].
    cbn [obind]. rewrite IH; [reflexivity|]. intros r i R. apply P. lia.
  Qed.

  Lemma ri_rows_none n : forall b,
    (exists r i, (b <= r < b + n)%nat /\ (9 <= i)%nat /\ (i + 8 < rs_cols s)%nat /\ ri_pixel g robot s r i = None) ->
    ri_rows g robot s n b = None.
  Proof.
    induction n as [|n IH]; intros b (r & i & R & I & J & P); [lia|]. cbn [ri_rows]. change (1 + window_w)%nat with 9%nat.
    destruct (Nat.eq_dec r b) as [-> | N].
    - rewrite ri_cols_none; [reflexivity|lia|]. exists i. split; [exact I|]. split; assumption.
    - destruct (ri_cols _ g robot s b 9); [|reflexivity]. cbn [obind]. rewrite IH; [reflexivity|].
      exists r, i. split; [lia|]. repeat split; assumption.
  Qed.
End Loops.

Lemma ri_rows_narrow g robot s n b : (0 < n)%nat -> (0 < rs_cols s < 8)%nat -> ri_rows g robot s n b = None.
Proof.
  intros N C. destruct n as [|n]; [lia|]. cbn [ri_rows]. change (1 + window_w)%nat with 9%nat.
  destruct (rs_cols s) as [|k] eqn:E; [lia|]. cbn [ri_cols]. rewrite E.
  replace (Z.of_nat 9 <? (Z.of_nat (S k) - Z.of_nat window_w) mod 2 ^ 32) with true.
  - unfold ri_pixel. change window_w with 8%nat. rewrite E, (proj2 (Nat.ltb_ge _ _)) by lia. reflexivity.
  - symmetry. apply Z.ltb_lt. change (Z.of_nat window_w) with 8.
    rewrite <- (Z_mod_plus_full _ 1 (2 ^ 32)), Z.mod_small by lia. lia.
Qed.

(** ** The range image of a 3D camera *)
Lemma sum_from_off f : forall n a b, sum_from f (a + b) n = sum_from (fun j => f (a + j)%nat) b n.
Proof.
  induction n as [|n IH]; intros a b; [reflexivity|]. cbn [sum_from]. f_equal.
  replace (S (a + b)) with (a + S b)%nat by lia. apply IH.
Qed.
Lemma zsum_app a b : zsum (a ++ b) = zsum a + zsum b.
Proof. unfold zsum. induction a as [|x a IH]; [reflexivity|]. cbn [app fold_right]. lia. Qed.
Lemma zsum_flat (f : nat -> nat -> Z) b k : forall n a,
  zsum (flat_map (fun i => map (f i) (seq b k)) (seq a n)) = sum_from (fun i => sum_from (f i) b k) a n.
Proof.
  induction n as [|n IH]; intro a; [reflexivity|]. cbn [seq flat_map sum_from]. rewrite zsum_app, zsum_seq, IH. reflexivity.
Qed.
Lemma zsum_filter_nz l : zsum (filter (fun v => negb (v =? 0)) l) = zsum l.
Proof.
  unfold zsum. induction l as [|x l IH]; [reflexivity|]. cbn [filter fold_right]. destruct (Z.eqb_spec x 0) as [-> | N]; cbn [negb].
  - rewrite IH. lia.
  - cbn [fold_right]. lia.
Qed.
Lemma length_filter_nz l : Z.of_nat (List.length (filter (fun v => negb (v =? 0)) l)) = zsum (map (fun x => if x =? 0 then 0 else 1) l).
Proof.
  unfold zsum. induction l as [|x l IH]; [reflexivity|]. cbn [filter map fold_right]. destruct (x =? 0); cbn [negb List.length]; lia.
Qed.
Lemma map_flat_map {A B C} (f : B -> C) (g : A -> list B) l : map f (flat_map g l) = flat_map (fun a => map f (g a)) l.
Proof. induction l as [|a l IH]; [reflexivity|]. cbn. rewrite map_app, IH. reflexivity. Qed.

Lemma block_sum_eq o f rd cd :
  zsum (map f (flat_map (fun i => map (fun j => m_at (rg_image o) (rd * 8 + i)%nat (cd * 8 + j)%nat) (seq 0 8)) (seq 0 8)))
  = block_sum o f rd cd.
Proof.
  rewrite map_flat_map. unfold block_sum.
  rewrite (flat_map_ext _ (fun i => map (fun j => f (m_at (rg_image o) (rd * 8 + i)%nat (cd * 8 + j)%nat)) (seq 0 8)))
    by (intro; apply map_map).
  rewrite (zsum_flat (fun i j => f (m_at (rg_image o) (rd * 8 + i)%nat (cd * 8 + j)%nat))).
  replace (8 * rd)%nat with (rd * 8 + 0)%nat by lia. rewrite sum_from_off. apply sum_from_ext. intros i _.
  replace (8 * cd)%nat with (cd * 8 + 0)%nat by lia. rewrite (sum_from_off _ 8 (cd * 8)). reflexivity.
Qed.

Lemma decimated_mean o rd cd : BlockMean o rd cd (decimated o rd cd).
Proof.
  unfold BlockMean, decimated, block. rewrite <- !block_sum_eq.
  set (l := flat_map _ (seq 0 8)). rewrite map_id.
  pose proof (length_filter_nz l) as L. pose proof (zsum_filter_nz l) as T. unfold zsum in *. rewrite T, <- L.
  set (n := List.length (filter _ l)) in *. destruct (Nat.eqb_spec n 0) as [-> | N].
  - split; [reflexivity|]. intro H. cbn in H. congruence.
  - split; [lia|]. intros _. set (t := fold_right Z.add 0 l).
    pose proof (Z.div_mod t (Z.of_nat n) ltac:(lia)). pose proof (Z.mod_pos_bound t (Z.of_nat n) ltac:(lia)). nia.
Qed.

Lemma block_mean_unique o rd cd v w : BlockMean o rd cd v -> BlockMean o rd cd w -> v = w.
Proof.
  unfold BlockMean. cbn zeta. set (n := block_sum o _ rd cd). set (t := block_sum o _ rd cd).
  assert (NN : 0 <= n).
  { unfold n. rewrite <- block_sum_eq, <- length_filter_nz. lia. }
  intros [A B] [C D]. destruct (Z.eq_dec n 0) as [E|E]; [rewrite A, C by exact E; reflexivity|].
  specialize (B E). specialize (D E). nia.
Qed.

Lemma zsum_bound l B : (forall x, In x l -> 0 <= x <= B) -> 0 <= zsum l <= Z.of_nat (List.length l) * B.
Proof.
  unfold zsum. induction l as [|x l IH]; intro H; [cbn; lia|]. cbn [fold_right List.length].
  pose proof (H x (or_introl eq_refl)). specialize (IH (fun y Y => H y (or_intror Y))). nia.
Qed.
Lemma decimated_u16 o rd cd : U16 (rg_image o) -> 0 <= decimated o rd cd < 65536.
Proof.
  intro U. unfold decimated. destruct (Nat.eqb_spec (List.length (block o rd cd)) 0) as [E|E]; [lia|].
  assert (B : 0 <= zsum (block o rd cd) <= Z.of_nat (List.length (block o rd cd)) * 65535).
  { apply zsum_bound. intros x X. unfold block in X. apply filter_In in X as [X _]. apply in_flat_map in X as [i [_ X]].
    apply in_map_iff in X as [j [<- _]]. pose proof (U (rd * 8 + i)%nat (cd * 8 + j)%nat). lia. }
  unfold zsum in B. split; [apply Z.div_pos; lia|]. apply Z.div_lt_upper_bound; nia.
Qed.

Lemma diff1_d1 o rd cd R : (forall c, R c = decimated o rd c) -> d1 R cd = diff1 o rd cd.
Proof.
  intro H. unfold d1, diff1. destruct cd as [|p]; [reflexivity|]. cbn [Nat.eqb]. replace (S p - 1)%nat with p by lia.
  rewrite !H. reflexivity.
Qed.
Lemma diff2_d2 o rd cd R : (forall c, R c = decimated o rd c) -> d2 R cd = diff2 o rd cd.
Proof.
  intro H. unfold d2, diff2. destruct cd as [|p]; [reflexivity|]. cbn [Nat.eqb]. replace (S p - 1)%nat with p by lia.
  rewrite !(diff1_d1 o rd _ R H). reflexivity.
Qed.
Lemma diff1_bound o rd cd : U16 (rg_image o) -> - 2 ^ 24 < diff1 o rd cd < 2 ^ 24.
Proof.
  intro U. unfold diff1. destruct (Nat.eqb cd 0); [lia|]. destruct (_ || _); [lia|].
  pose proof (decimated_u16 o rd cd U). pose proof (decimated_u16 o rd (cd - 1) U). lia.
Qed.
Lemma diff2_bound o rd cd : U16 (rg_image o) -> - 2 ^ 25 < diff2 o rd cd < 2 ^ 25.
Proof.
  intro U. unfold diff2. destruct (Nat.eqb cd 0); [lia|].
  pose proof (diff1_bound o rd cd U). pose proof (diff1_bound o rd (cd - 1) U). lia.
Qed.
Lemma diff2_sum o rd n : (1 <= n)%nat -> sum_from (diff2 o rd) 0 n = diff1 o rd (n - 1).
Proof.
  intro N. destruct n as [|n]; [lia|]. cbn [sum_from]. change (diff2 o rd 0) with 0.
  rewrite sum_from_shift. rewrite (sum_from_ext _ (fun j => diff1 o rd (S j) - diff1 o rd j)).
  - rewrite sum_telescope. change (diff1 o rd 0) with 0. replace (S n - 1)%nat with (0 + n)%nat by lia. lia.
  - intros j _. unfold diff2. cbn [Nat.eqb]. replace (S j - 1)%nat with j by lia. reflexivity.
Qed.
Lemma row_small o rd nc : U16 (rg_image o) -> (2 <= nc <= 2048)%nat -> small_data (map (diff2 o rd) (seq 0 nc)).
Proof.
  intros U N. split; [rewrite map_length, seq_length; lia|]. split.
  - intros d D. apply in_map_iff in D as [j [<- _]]. apply diff2_bound, U.
  - rewrite zsum_seq, diff2_sum by lia. pose proof (diff1_bound o rd (nc - 1) U). lia.
Qed.

Definition row_mean (o : Rgbd) (rd nc : nat) : Z := diff1 o rd (nc - 1) / (Z.of_nat nc - 1).
Definition row_var (o : Rgbd) (rd nc : nat) : Z :=
  sum_from (fun j => (diff2 o rd j - row_mean o rd nc) ^ 2) 0 nc / (Z.of_nat nc - 1).

Lemma row_stats o rd nc : U16 (rg_image o) -> (2 <= nc <= 2048)%nat -> (0 <= diff1 o rd (nc - 1) \/ nc = 2%nat) ->
  calc_stats (map (diff2 o rd) (seq 0 nc)) = Some (row_mean o rd nc, row_var o rd nc) /\ 0 <= row_var o rd nc.
Proof.
  intros U N H. destruct (calc_ok _ (row_small o rd nc U N)) as (A & _ & C).
  { rewrite zsum_seq, diff2_sum, map_length, seq_length by lia. exact H. }
  cbn zeta in A, C. rewrite map_length, seq_length, zsum_seq, diff2_sum, zvar_seq in A, C by lia.
  split; [exact A|exact C].
Qed.
Lemma row_stats_none o rd nc : U16 (rg_image o) -> (3 <= nc <= 2048)%nat -> diff1 o rd (nc - 1) < 0 ->
  calc_stats (map (diff2 o rd) (seq 0 nc)) = None.
Proof.
  intros U N H. apply calc_overflow.
  - apply row_small; [exact U|lia].
  - rewrite zsum_seq, diff2_sum by lia. exact H.
  - rewrite map_length, seq_length. lia.
Qed.

(** The test of the inner loop *)
Definition edgeb (g : RiGen) (o : Rgbd) (nc rd cd : nat) : bool :=
  negb (decimated o rd cd =? 0) &&
  (ri_threshold g <? (if row_var o rd nc =? 0 then 0 else diff2 o rd cd ^ 2 / row_var o rd nc)).

Lemma scan_row_ok g o robot space nc rd : U16 (rg_image o) ->
  forall n cd start acc, exists evs,
    scan_row g o robot true true space (row_var o rd nc) rd n cd start acc = (acc ++ evs, Val tt)
    /\ map snd (filter fst evs) = flat_map (fun c => if edgeb g o nc rd c then [unproject o robot rd c] else []) (seq cd n).
Proof.
  intro U. induction n as [|n IH]; intros cd start acc.
  - exists []. rewrite app_nil_r. split; reflexivity.
  - cbn [scan_row seq flat_map]. unfold edgeb at 1. destruct (decimated o rd cd =? 0); cbn [negb andb app].
    + apply IH.
    + assert (SC : (if row_var o rd nc =? 0 then Some 0 else obind (square_i64 (diff2 o rd cd)) (fun q => Some (q / row_var o rd nc)))
        = Some (if row_var o rd nc =? 0 then 0 else diff2 o rd cd ^ 2 / row_var o rd nc)).
      { destruct (row_var o rd nc =? 0); [reflexivity|]. unfold square_i64.
        pose proof (diff2_bound o rd cd U) as D.
        assert (0 <= diff2 o rd cd ^ 2 < 2 ^ 52) by (apply sq_small; lia).
        rewrite <- Z.pow_2_r, i64_ok by lia. reflexivity. }
      rewrite SC, Z.gtb_ltb. destruct (ri_threshold g <? _).
      * destruct (IH (S cd) None (acc ++ [(true, unproject o robot rd cd)])) as (evs & A & B).
        exists ((true, unproject o robot rd cd) :: evs). rewrite A, <- app_assoc. split; [reflexivity|].
        cbn [filter fst map snd]. rewrite B. reflexivity.
      * destruct (_ >? space).
        -- destruct (IH (S cd) None (acc ++ [(false, unproject o robot rd cd)])) as (evs & A & B).
           exists ((false, unproject o robot rd cd) :: evs). rewrite A, <- app_assoc. split; [reflexivity|].
           cbn [filter fst]. exact B.
        -- apply IH.
Qed.

Lemma scan_rows_ok g o robot nc : U16 (rg_image o) -> nc = (m_cols (rg_image o) / 8)%nat -> (2 <= nc <= 2048)%nat ->
  forall n b acc, (forall rd, (b <= rd < b + n)%nat -> 0 <= diff1 o rd (nc - 1) \/ nc = 2%nat) ->
  exists evs, scan_rows g o robot true true n b acc = (acc ++ evs, Val tt)
    /\ map snd (filter fst evs)
       = flat_map (fun rd => flat_map (fun c => if edgeb g o nc rd c then [unproject o robot rd c] else []) (seq 1 (nc - 1))) (seq b n).
Proof.
  intros U E N. induction n as [|n IH]; intros b acc H.
  - exists []. rewrite app_nil_r. split; reflexivity.
  - cbn [scan_rows seq flat_map]. rewrite <- E. rewrite (proj2 (Nat.leb_gt nc 1)) by lia.
    destruct (row_stats o b nc U N (H b ltac:(lia))) as [A _]. rewrite A.
    destruct (scan_row_ok g o robot (Z.of_nat nc / 16) nc b U (nc - 1) 1 None acc) as (e1 & A1 & B1). rewrite A1.
    destruct (IH (S b) (acc ++ e1)) as (e2 & A2 & B2); [intros rd R; apply H; lia|]. rewrite A2.
    exists (e1 ++ e2). rewrite app_assoc. split; [reflexivity|]. rewrite filter_app, map_app. f_equal; [exact B1|exact B2].
Qed.

Lemma scan_rows_undef g o robot nc : U16 (rg_image o) -> nc = (m_cols (rg_image o) / 8)%nat -> (3 <= nc <= 2048)%nat ->
  forall n b acc, (exists rd, (b <= rd < b + n)%nat /\ diff1 o rd (nc - 1) < 0) ->
  snd (scan_rows g o robot true true n b acc) = Undef.
Proof.
  intros U E N. induction n as [|n IH]; intros b acc (rd & R & H); [lia|].
  cbn [scan_rows]. rewrite <- E. rewrite (proj2 (Nat.leb_gt nc 1)) by lia.
  destruct (Z_lt_le_dec (diff1 o b (nc - 1)) 0) as [X|X].
  - rewrite row_stats_none by assumption. reflexivity.
  - destruct (row_stats o b nc U ltac:(lia) (or_introl X)) as [A _]. rewrite A.
    destruct (scan_row_ok g o robot (Z.of_nat nc / 16) nc b U (nc - 1) 1 None acc) as (e1 & A1 & B1). rewrite A1.
    apply IH. exists rd. destruct (Nat.eq_dec rd b) as [-> | NE]; [lia|]. split; [lia|exact H].
Qed.
