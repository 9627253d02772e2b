(** C325: the range remembered by FilterNormalizeIntensity over any history of clouds; and the errors of the float models (C249,
    C251, C254). *)
From Coq Require Import ZArith Reals Lra Lia Bool List.
From Flocq Require Import Core BinarySingleNaN Relative.
From Verif Require Import Base FloatBase FloatModel FloatProps FloatIntensityProps.
Import ListNotations.
Open Scope R_scope.

(** ** Specification *)
(** the filter applied to one cloud after another *)
Fixpoint normalize_all (c : NormCfg) (mem : Memory) (clouds : list (list f32)) : res (list (list f32) * Memory) :=
  match clouds with
  | [] => Ok ([], mem)
  | is :: rest =>
    let* r := normalize c mem is in
    let* r' := normalize_all c (snd r) rest in
    Ok (fst r :: fst r', snd r')
  end.
Definition fine_cloud (is : list f32) : Prop := is <> [] /\ Forall (fun x => is_finite x = true) is.
Definition remembers (c : NormCfg) : Prop := Bltb f0 (n_fixed_max c) = false /\ n_remember c = true.

(** the memory holds the extremes of what was seen so far *)
Definition mem_of (seen : list f32) (mem : Memory) : Prop :=
  match seen with
  | [] => mem = (None, None)
  | _ => exists lo hi, mem = (Some lo, Some hi) /\ extremes seen lo hi
  end.

Lemma upd_extremes seen lo0 hi0 is lo hi : extremes seen lo0 hi0 -> extremes is lo hi ->
  Forall (fun x => is_finite x = true) seen -> Forall (fun x => is_finite x = true) is ->
  exists lo' hi', upd_min (Some lo0) lo = Some lo' /\ upd_max (Some hi0) hi = Some hi' /\ extremes (seen ++ is) lo' hi'.
Proof.
  intros (A1 & A2 & A3) (B1 & B2 & B3) FS FI. rewrite Forall_forall in FS, FI.
  assert (F1 := FS _ A1). assert (F2 := FS _ A2). assert (F3 := FI _ B1). assert (F4 := FI _ B2).
  cbn [upd_min upd_max].
  assert (L := flt_fin lo lo0 F3 F1). assert (H := flt_fin hi0 hi F2 F4).
  assert (EL : exists lo', (if Bltb lo lo0 then Some lo else Some lo0) = Some lo' /\ In lo' (seen ++ is) /\ B2R lo' <= B2R lo /\ B2R lo' <= B2R lo0).
  { destruct (Bltb lo lo0).
    - exists lo. split; [reflexivity|]. split; [apply in_or_app; right; exact B1|]. assert (B2R lo < B2R lo0) by (apply L; reflexivity). lra.
    - exists lo0. split; [reflexivity|]. split; [apply in_or_app; left; exact A1|]. assert (~ B2R lo < B2R lo0) by (intro X; apply L in X; discriminate). lra. }
  assert (EH : exists hi', (if Bltb hi0 hi then Some hi else Some hi0) = Some hi' /\ In hi' (seen ++ is) /\ B2R hi <= B2R hi' /\ B2R hi0 <= B2R hi').
  { destruct (Bltb hi0 hi).
    - exists hi. split; [reflexivity|]. split; [apply in_or_app; right; exact B2|]. assert (B2R hi0 < B2R hi) by (apply H; reflexivity). lra.
    - exists hi0. split; [reflexivity|]. split; [apply in_or_app; left; exact A2|]. assert (~ B2R hi0 < B2R hi) by (intro X; apply H in X; discriminate). lra. }
  destruct EL as (lo' & E1 & I1 & L1 & L2). destruct EH as (hi' & E2 & I2 & H1 & H2).
  exists lo', hi'. split; [exact E1|]. split; [exact E2|]. split; [exact I1|]. split; [exact I2|].
  intros x X. apply in_app_or in X. destruct X as [X|X]; [destruct (A3 x X)|destruct (B3 x X)]; lra.
Qed.

(** one cloud *)
Lemma normalize_remember c mem seen is : remembers c -> fine_cloud is -> Forall (fun x => is_finite x = true) seen -> mem_of seen mem ->
  exists lo hi, normalize c mem is = Ok (map (norm_one lo (fdiv_ f1 (norm_delta lo hi))) is, (Some lo, Some hi)) /\ extremes (seen ++ is) lo hi.
Proof.
  intros [C1 C2] [NE FI] FS MO.
  destruct (min_of_spec is NE FI) as (lo & El & Il & Bl). destruct (max_of_spec is NE FI) as (hi & Eh & Ih & Bh).
  assert (EX : extremes is lo hi) by (split; [exact Il|]; split; [exact Ih|]; intros x X; split; [apply Bl|apply Bh]; exact X).
  unfold normalize. destruct is as [|x0 is0] eqn:EI; [contradiction|]. rewrite <- EI in *.
  unfold norm_range. rewrite C1, C2, El, Eh. cbn [mem_min mem_max].
  destruct seen as [|s0 seen0] eqn:ES.
  - cbn in MO. subst mem. cbn [fst snd upd_min upd_max app]. exists lo, hi. split; [reflexivity|exact EX].
  - rewrite <- ES in *. assert (MO' : exists lo hi, mem = (Some lo, Some hi) /\ extremes seen lo hi) by (rewrite ES in MO |- *; exact MO).
    destruct MO' as (lo0 & hi0 & -> & EX0). cbn [fst snd].
    destruct (upd_extremes seen lo0 hi0 is lo hi EX0 EX FS FI) as (lo' & hi' & E1 & E2 & EX'). rewrite E1, E2.
    exists lo', hi'. split; [reflexivity|exact EX'].
Qed.

Lemma mem_of_extremes seen is lo hi : is <> [] -> extremes (seen ++ is) lo hi -> mem_of (seen ++ is) (Some lo, Some hi).
Proof.
  intros NE EX. unfold mem_of. destruct (seen ++ is) eqn:E; [apply app_eq_nil in E; destruct E; contradiction|]. exists lo, hi. split; [reflexivity|exact EX].
Qed.

Lemma run_memory c clouds : forall mem seen, remembers c -> Forall fine_cloud clouds -> Forall (fun x => is_finite x = true) seen -> mem_of seen mem ->
  exists outs mem', normalize_all c mem clouds = Ok (outs, mem') /\ mem_of (seen ++ concat clouds) mem'.
Proof.
  induction clouds as [|is rest IH]; intros mem seen RC FC FS MO.
  - exists [], mem. split; [reflexivity|]. cbn [concat]. rewrite app_nil_r. exact MO.
  - inversion FC as [|? ? [NE FI] FR]; subst. cbn [normalize_all].
    destruct (normalize_remember c mem seen is RC (conj NE FI) FS MO) as (lo & hi & E & EX). rewrite E. cbn [rbind snd fst].
    destruct (IH (Some lo, Some hi) (seen ++ is) RC FR) as (outs & mem' & E' & MO').
    + apply Forall_app. split; assumption.
    + apply mem_of_extremes; assumption.
    + rewrite E'. cbn [rbind fst snd]. eexists _, mem'. split; [reflexivity|]. cbn [concat]. rewrite app_assoc. exact MO'.
Qed.

(** C325: with remember_intensity_range, over any history of non-empty clouds of finite intensities, every call succeeds and the
    remembered range is exactly the smallest and the largest intensity ever seen. *)
Theorem C325_range_of_the_whole_history : forall c clouds, remembers c -> clouds <> [] -> Forall fine_cloud clouds ->
  exists outs lo hi, normalize_all c (None, None) clouds = Ok (outs, (Some lo, Some hi)) /\ extremes (concat clouds) lo hi.
Proof.
  intros c clouds RC NE FC. destruct (run_memory c clouds (None, None) [] RC FC (Forall_nil _) eq_refl) as (outs & mem' & E & MO).
  cbn [app] in MO. destruct clouds as [|is rest]; [contradiction|]. inversion FC as [|? ? [NI _] _]; subst.
  destruct is as [|x is]; [contradiction|]. cbn [concat app mem_of] in MO. destruct MO as (lo & hi & -> & EX). exists outs, lo, hi. split; [exact E|exact EX].
Qed.
Print Assumptions C325_range_of_the_whole_history.

Lemma run_app c a : forall mem b, normalize_all c mem (a ++ b) =
  let* r := normalize_all c mem a in let* r' := normalize_all c (snd r) b in Ok (fst r ++ fst r', snd r').
Proof.
  induction a as [|is a IH]; intros mem b; cbn [app normalize_all].
  - cbn [rbind snd fst app]. destruct (normalize_all c mem b) as [[o m]| |]; reflexivity.
  - destruct (normalize c mem is) as [[o m]| |]; cbn [rbind snd fst]; [|reflexivity|reflexivity]. rewrite IH.
    destruct (normalize_all c m a) as [[oa ma]| |]; cbn [rbind snd fst]; [|reflexivity|reflexivity].
    destruct (normalize_all c ma b) as [[ob mb]| |]; reflexivity.
Qed.

(** C325: every new intensity of every cloud is a number between 0 and 1, and within a cloud brighter points stay at least as
    bright, if the range of the clouds up to it neither overflows nor is below 2^-128 without being zero; the smallest intensity so
    far maps to 0. *)
Theorem C325_outputs_in_unit_interval : forall c before is after outs mem' lo hi,
  remembers c -> Forall fine_cloud (before ++ is :: after) ->
  extremes (concat before ++ is) lo hi -> wide_enough lo hi ->
  normalize_all c (None, None) (before ++ is :: after) = Ok (outs, mem') ->
  exists out, nth_error outs (length before) = Some out /\ length out = length is /\ Forall (fun y => number_in y 0 1) out /\
    (forall i j x y x' y', nth_error is i = Some x -> nth_error is j = Some y -> nth_error out i = Some x' -> nth_error out j = Some y' ->
       B2R x <= B2R y -> B2R x' <= B2R y') /\
    (forall i x x', nth_error is i = Some x -> nth_error out i = Some x' -> B2R x = B2R lo -> B2R x' = 0).
Proof.
  intros c before is after outs mem' lo hi RC FC EX WE E.
  assert (FC' := FC). apply Forall_app in FC'. destruct FC' as [FB FA]. inversion FA as [|? ? [NE FI] FR]; subst.
  destruct (run_memory c before (None, None) [] RC FB (Forall_nil _) eq_refl) as (o1 & m1 & E1 & MO). cbn [app] in MO.
  assert (FS : Forall (fun x => is_finite x = true) (concat before)).
  { clear - FB. induction FB as [|f r [_ F] _ IH]; cbn; [constructor|]. apply Forall_app. split; assumption. }
  rewrite run_app, E1 in E. cbn [rbind snd fst normalize_all] in E.
  destruct (normalize_remember c m1 (concat before) is RC (conj NE FI) FS MO) as (lo1 & hi1 & E2 & EX1). rewrite E2 in E. cbn [rbind snd fst] in E.
  destruct (normalize_all c (Some lo1, Some hi1) after) as [[o3 m3]| |]; cbn [rbind snd fst] in E; try discriminate. injection E as <- <-.
  assert (LB : length o1 = length before).
  { clear - E1. revert E1. generalize (@None f32, @None f32). revert o1 m1. induction before as [|f r IH]; intros o1 m1 mm; cbn [normalize_all].
    - intros [= <- _]. reflexivity.
    - destruct (normalize c mm f) as [[o m]| |]; cbn [rbind snd fst]; try discriminate. destruct (normalize_all c m r) as [[o' m']| |] eqn:Er; cbn [rbind snd fst]; try discriminate.
      intros [= <- _]. cbn [length]. f_equal. exact (IH _ _ _ Er). }
  assert (FALL : Forall (fun x => is_finite x = true) (concat before ++ is)) by (apply Forall_app; split; assumption).
  assert (FALL' := FALL). rewrite Forall_forall in FALL'.
  destruct EX as (I1 & I2 & B). destruct EX1 as (J1 & J2 & B1).
  assert (EQL : B2R lo1 = B2R lo) by (generalize (B lo1 J1) (B1 lo I1); lra).
  assert (EQH : B2R hi1 = B2R hi) by (generalize (B hi1 J2) (B1 hi I2); lra).
  assert (WE1 : wide_enough lo1 hi1) by (unfold wide_enough, width in *; rewrite EQL, EQH; exact WE).
  assert (F1 := FALL' _ J1). assert (F2 := FALL' _ J2).
  assert (LH : B2R lo1 <= B2R hi1) by apply (B1 lo1 J1).
  destruct (delta_ok lo1 hi1 F1 F2 LH WE1) as (_ & _ & Fi & Vi & Pi).
  set (inv := fdiv_ f1 (norm_delta lo1 hi1)) in *.
  assert (VAL : forall x, In x is -> number_in (norm_one lo1 inv x) 0 1 /\ B2R (norm_one lo1 inv x) = Rmax 0 (Rmin 1 (sat 128 (rnd 24 128 (rnd 24 128 (B2R x - B2R lo1) * B2R inv))))).
  { intros x X. apply (norm_one_val lo1 hi1 x F1 F2); [apply FALL', in_or_app; right; exact X|apply B1, in_or_app; right; exact X|exact WE1]. }
  exists (map (norm_one lo1 inv) is). split; [rewrite nth_error_app2 by lia; rewrite LB, Nat.sub_diag; reflexivity|].
  split; [apply map_length|]. split; [|split].
  - apply Forall_forall. intros y Y. apply in_map_iff in Y. destruct Y as (x & <- & X). apply VAL. exact X.
  - intros i j x y x' y' Hi Hj Hi' Hj' L. rewrite (nth_map _ _ _ _ _ Hi Hi'), (nth_map _ _ _ _ _ Hj Hj').
    destruct (VAL x (nth_error_In _ _ Hi)) as [_ ->]. destruct (VAL y (nth_error_In _ _ Hj)) as [_ ->].
    apply Rle_max_compat_l, Rle_min_compat_l, sat_mono, rm, Rmult_le_compat_r; [lra|]. apply rm. lra.
  - intros i x x' Hi Hi' EQ. rewrite (nth_map _ _ _ _ _ Hi Hi'). destruct (VAL x (nth_error_In _ _ Hi)) as [_ ->].
    replace (B2R x - B2R lo1) with 0 by lra. rewrite rnd_0 by exact p24. rewrite Rmult_0_l, rnd_0 by exact p24.
    rewrite sat_id; [|generalize (top_pos 128); lra]. rewrite Rmin_right by lra. apply Rmax_left. lra.
Qed.
Print Assumptions C325_outputs_in_unit_interval.

(** two clouds, [4, 8] then [2, 6]: the range becomes [2, 8]; the second cloud's 2 maps to 0 *)
Example C325_case :
  let c := mkNorm f0 f0 true in let clouds := [[of_int 4; of_int 8]; [of_int 2; of_int 8]] in
  remembers c /\ Forall fine_cloud clouds /\
  match normalize_all c (None, None) clouds with
  | Ok (outs, (Some lo, Some hi)) => map (map B2SF) outs = map (map B2SF) [[f0; f1]; [f0 : f32; f1]] /\ B2SF lo = B2SF (of_int 2 : f32) /\ B2SF hi = B2SF (of_int 8 : f32)
  | _ => False
  end.
Proof.
  split; [split; reflexivity|]. split.
  - repeat constructor; try discriminate; vm_compute; reflexivity.
  - vm_compute. split; [reflexivity|]. split; reflexivity.
Qed.

(** ** Errors of the float models *)
(** C249: no evaluator at all is an error; and a weight which is not positive (NaN included) is an error, unless an earlier
    evaluator asked for a hard discard. *)
Definition positive (w : f64) : Prop := Bltb f0 w = true.
Theorem C249_bad_weight_is_an_error :
  evaluate_quality [] = Throw /\
  forall good w r rest, Forall (fun e => positive (fst e) /\ q_discard (snd e) = false) good -> ~ positive w ->
    evaluate_quality (good ++ (w, r) :: rest) = Throw.
Proof.
  split; [reflexivity|]. intros good w r rest G W.
  assert (L : forall a b, quality_loop (good ++ (w, r) :: rest) a b = Throw).
  { induction G as [|[w' r'] g [P D] _ IH]; intros a b; cbn [app quality_loop].
    - destruct (Bltb f0 w) eqn:E; [contradiction W; exact E|reflexivity].
    - cbn in P, D. unfold positive in P. rewrite P, D. apply IH. }
  unfold evaluate_quality. destruct (good ++ (w, r) :: rest) eqn:E; [reflexivity|]. rewrite <- E in L |- *. exact (L f0 f0).
Qed.
Print Assumptions C249_bad_weight_is_an_error.
Example C249_bad_case : positive (of_int 1) /\ ~ positive (of_int 0) /\ ~ positive B754_nan.
Proof. split; [reflexivity|]. split; intro H; discriminate H. Qed.

(** C251: an intensity channel without values is an error, which leaves the remembered range alone; C254: so is a timestamp channel
    without values; and these are the only errors. *)
Theorem C251_empty_channel_is_an_error : forall c mem is, normalize c mem is = Throw <-> is = [].
Proof.
  intros c mem is. split; [|intros ->; reflexivity]. destruct is as [|x is]; [reflexivity|]. unfold normalize.
  assert (NR : exists lo hi m, norm_range c mem (x :: is) = (Some lo, Some hi, m)).
  { unfold norm_range. destruct (Bltb f0 (n_fixed_max c)); [eauto|].
    assert (A : forall (l : list f32) (m0 : f32), exists v, fold_left upd_min l (Some m0) = Some v).
    { induction l as [|y l IH]; intro m0; cbn; [eauto|]. destruct (Bltb y m0); apply IH. }
    assert (B : forall (l : list f32) (m0 : f32), exists v, fold_left upd_max l (Some m0) = Some v).
    { induction l as [|y l IH]; intro m0; cbn; [eauto|]. destruct (Bltb m0 y); apply IH. }
    unfold min_of, max_of. change (fold_left upd_min (x :: is) None) with (fold_left upd_min is (Some x)). change (fold_left upd_max (x :: is) None) with (fold_left upd_max is (Some x)).
    destruct (A is x) as (lo & ->). destruct (B is x) as (hi & ->).
    destruct (n_remember c); [|eauto]. destruct mem as [[a|] [b|]]; cbn; repeat match goal with |- context [if ?q then _ else _] => destruct q end; eauto. }
  destruct NR as (lo & hi & m & ->). discriminate.
Qed.
Print Assumptions C251_empty_channel_is_an_error.
Theorem C254_empty_channel_is_an_error : forall m off ts, adjust m off ts = Throw <-> ts = [].
Proof.
  intros m off ts. split; [|intros ->; reflexivity]. destruct ts as [|x ts]; [reflexivity|]. unfold adjust.
  assert (A : forall (l : list f32) (m0 : f32), exists v, fold_left upd_min l (Some m0) = Some v).
  { induction l as [|y l IH]; intro m0; cbn; [eauto|]. destruct (Bltb y m0); apply IH. }
  assert (B : forall (l : list f32) (m0 : f32), exists v, fold_left upd_max l (Some m0) = Some v).
  { induction l as [|y l IH]; intro m0; cbn; [eauto|]. destruct (Bltb m0 y); apply IH. }
  unfold min_of, max_of. change (fold_left upd_min (x :: ts) None) with (fold_left upd_min ts (Some x)). change (fold_left upd_max (x :: ts) None) with (fold_left upd_max ts (Some x)).
  destruct (A ts x) as (lo & ->). destruct (B ts x) as (hi & ->).
  destruct m; discriminate.
Qed.
Print Assumptions C254_empty_channel_is_an_error.
