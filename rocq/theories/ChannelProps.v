(** C46, C47: timestamp adjustment and intensity normalisation. *)
From Coq Require Import String Lqa.
From Verif Require Import Base FilterModel FilterSpec FilterProofs FilterProofs2.
Open Scope string_scope.
Open Scope Q_scope.
Open Scope list_scope.

Lemma Qltb_true a b : Qltb a b = true <-> a < b.
Proof.
  unfold Qltb. rewrite negb_true_iff. split; intros H.
  - apply Qnot_le_lt. intros K. apply Qle_bool_iff in K. congruence.
  - destruct (Qle_bool b a) eqn:E; [|reflexivity]. apply Qle_bool_iff in E.
    exfalso. exact (Qlt_not_le _ _ H E).
Qed.
Lemma Qltb_false a b : Qltb a b = false <-> b <= a.
Proof. unfold Qltb. rewrite negb_false_iff. apply Qle_bool_iff. Qed.

(** [v] is the least (greatest) element of the list. *)
Definition IsMin (l : list Q) (v : Q) : Prop := In v l /\ forall t, In t l -> v <= t.
Definition IsMax (l : list Q) (v : Q) : Prop := In v l /\ forall t, In t l -> t <= v.

Lemma fold_min : forall l o, exists r,
  fold_left min_step l o = r /\
  match r with
  | None => o = None /\ l = []
  | Some v => (o = Some v \/ In v l) /\ (forall w, o = Some w -> v <= w) /\ (forall t, In t l -> v <= t)
  end.
Proof.
  induction l as [|a l IH]; intros o; simpl.
  - exists o. split; [reflexivity|]. destruct o as [v|]; [|split; reflexivity].
    split; [left; reflexivity|]. split; [intros w H; injection H as ->; apply Qle_refl|intros t []].
  - destruct (IH (min_step o a)) as [r [E H]]. exists r. split; [exact E|].
    destruct r as [v|].
    + destruct H as [A [B C]]. unfold min_step in *. destruct o as [w|].
      * destruct (Qltb a w) eqn:L.
        -- apply Qltb_true in L. assert (v <= a) by (apply B; reflexivity).
           split; [destruct A as [A|A]; [injection A as ->; right; left; reflexivity|right; right; exact A]|].
           split; [intros x X; injection X as <-; lra|]. intros t [<-|T]; [assumption|apply C; exact T].
        -- apply Qltb_false in L. assert (v <= w) by (apply B; reflexivity).
           split; [destruct A as [A|A]; [left; exact A|right; right; exact A]|].
           split; [intros x X; injection X as <-; assumption|]. intros t [<-|T]; [lra|apply C; exact T].
      * assert (v <= a) by (apply B; reflexivity).
        split; [destruct A as [A|A]; [injection A as ->; right; left; reflexivity|right; right; exact A]|].
        split; [intros x X; discriminate|]. intros t [<-|T]; [assumption|apply C; exact T].
    + destruct H as [H _]. unfold min_step in H. destruct o as [w|]; [destruct (Qltb a w); discriminate|discriminate].
Qed.

Lemma fold_max : forall l o, exists r,
  fold_left max_step l o = r /\
  match r with
  | None => o = None /\ l = []
  | Some v => (o = Some v \/ In v l) /\ (forall w, o = Some w -> w <= v) /\ (forall t, In t l -> t <= v)
  end.
Proof.
  induction l as [|a l IH]; intros o; simpl.
  - exists o. split; [reflexivity|]. destruct o as [v|]; [|split; reflexivity].
    split; [left; reflexivity|]. split; [intros w H; injection H as ->; apply Qle_refl|intros t []].
  - destruct (IH (max_step o a)) as [r [E H]]. exists r. split; [exact E|].
    destruct r as [v|].
    + destruct H as [A [B C]]. unfold max_step in *. destruct o as [w|].
      * destruct (Qltb w a) eqn:L.
        -- apply Qltb_true in L. assert (a <= v) by (apply B; reflexivity).
           split; [destruct A as [A|A]; [injection A as ->; right; left; reflexivity|right; right; exact A]|].
           split; [intros x X; injection X as <-; lra|]. intros t [<-|T]; [assumption|apply C; exact T].
        -- apply Qltb_false in L. assert (w <= v) by (apply B; reflexivity).
           split; [destruct A as [A|A]; [left; exact A|right; right; exact A]|].
           split; [intros x X; injection X as <-; assumption|]. intros t [<-|T]; [lra|apply C; exact T].
      * assert (a <= v) by (apply B; reflexivity).
        split; [destruct A as [A|A]; [injection A as ->; right; left; reflexivity|right; right; exact A]|].
        split; [intros x X; discriminate|]. intros t [<-|T]; [assumption|apply C; exact T].
    + destruct H as [H _]. unfold max_step in H. destruct o as [w|]; [destruct (Qltb w a); discriminate|discriminate].
Qed.

Lemma fold_min_ok l : l <> [] -> exists v, fold_left min_step l None = Some v /\ IsMin l v.
Proof.
  intros N. destruct (fold_min l None) as [[v|] [E H]].
  - destruct H as [[A|A] [_ C]]; [discriminate|]. exists v. split; [exact E|]. split; assumption.
  - destruct H as [_ H]. contradiction.
Qed.
Lemma fold_max_ok l : l <> [] -> exists v, fold_left max_step l None = Some v /\ IsMax l v.
Proof.
  intros N. destruct (fold_max l None) as [[v|] [E H]].
  - destruct H as [[A|A] [_ C]]; [discriminate|]. exists v. split; [exact E|]. split; assumption.
  - destruct H as [_ H]. contradiction.
Qed.

(** ** C46 *)

(** What a successful call on a cloud with timestamps does: the timestamps of the layer
    are replaced through one function [f], nothing else changes. *)
Definition Retimed (m m' : Layers) (n : Name) (src : Cloud) (f : Q -> Q) : Prop :=
  lfind m' n = Some (LPts (mkCloud (cl_cls src) (map (fun p => mkPt (px p) (py p) (pz p) (p_int p) (p_ring p) (f (p_time p))) (cl_pts src)))) /\
  forall k, k <> n -> lfind m' k = lfind m k.

Definition times (c : Cloud) : list Q := map p_time (cl_pts c).

Lemma filter_time_run c m zero src :
  tm_realized c = true -> lfind m (tm_layer c) = Some (LPts src) ->
  has_T (cl_cls src) = true -> cl_pts src <> [] ->
  exists mn mx m', IsMin (times src) mn /\ IsMax (times src) mx /\
    filter_time c zero m = (m', Val (option_map (fun z => z + snd (time_map c mn mx)) zero)) /\
    Retimed m m' (tm_layer c) src (fst (time_map c mn mx)).
Proof.
  intros RL H HT NE.
  assert (NT : times src <> []).
  { unfold times. destruct (cl_pts src); [congruence|discriminate]. }
  destruct (fold_min_ok _ NT) as [mn [E1 M1]]. destruct (fold_max_ok _ NT) as [mx [E2 M2]].
  exists mn, mx, (lset m (tm_layer c) (LPts (mkCloud (cl_cls src)
                    (map (set_time (fst (time_map c mn mx))) (cl_pts src))))).
  split; [exact M1|]. split; [exact M2|].
  split.
  - unfold filter_time. rewrite (bnd_val _ _ _ _ _ (assert_true _ m RL)).
    rewrite (bnd_val _ _ _ _ _ (input_ok _ _ _ H)).
    unfold times in E1, E2. rewrite E1, E2, HT.
    destruct (cl_pts src) eqn:EP; [congruence|]. simpl negb. cbv iota. rewrite <- EP.
    destruct (time_map c mn mx) as [f dt]. reflexivity.
  - destruct (time_map c mn mx) as [f dt]. simpl fst. split.
    + rewrite lfind_lset, seqb_refl. reflexivity.
    + intros k K. rewrite lfind_lset, seqb_neq by congruence. reflexivity.
Qed.

(** Shift methods: all pairwise differences are kept, absolute time (zero time of the
    attached velocity buffer + point time) is kept, and the reference (middle of the
    range / earliest point) lands at minus the configured offset. *)
Theorem C46_shift_methods : forall c m zero src,
  tm_realized c = true -> tm_method c <> Normalize ->
  lfind m (tm_layer c) = Some (LPts src) -> has_T (cl_cls src) = true -> cl_pts src <> [] ->
  exists m' z' f mn mx, filter_time c zero m = (m', Val z') /\
    Retimed m m' (tm_layer c) src f /\
    IsMin (times src) mn /\ IsMax (times src) mx /\
    (forall a b, f a - f b == a - b) /\
    (match zero, z' with
     | Some z, Some w => forall t, w + f t == z + t
     | None, None => True
     | _, _ => False
     end) /\
    match tm_method c with
    | EarliestIsZero => f mn == - tm_offset c
    | _ => (f mn + f mx) / 2 == - tm_offset c
    end.
Proof.
  intros c m zero src RL NM H HT NE.
  destruct (filter_time_run c m zero src RL H HT NE) as [mn [mx [m' [A [B [R T]]]]]].
  exists m', (option_map (fun z => z + snd (time_map c mn mx)) zero), (fst (time_map c mn mx)), mn, mx.
  split; [exact R|]. split; [exact T|]. split; [exact A|]. split; [exact B|].
  unfold time_map. destruct (tm_method c); simpl; [| |congruence].
  - split; [intros a b; lra|]. split; [destruct zero; simpl; [intros t; lra|exact I]|]. field.
  - split; [intros a b; lra|]. split; [destruct zero; simpl; [intros t; lra|exact I]|]. lra.
Qed.

(** Offset 0: the reference is at zero. *)
Theorem C46_reference_at_zero : forall c m zero src,
  tm_realized c = true -> tm_method c <> Normalize -> tm_offset c == 0 ->
  lfind m (tm_layer c) = Some (LPts src) -> has_T (cl_cls src) = true -> cl_pts src <> [] ->
  exists m' z' f mn mx, filter_time c zero m = (m', Val z') /\
    Retimed m m' (tm_layer c) src f /\ IsMin (times src) mn /\ IsMax (times src) mx /\
    match tm_method c with EarliestIsZero => f mn == 0 | _ => (f mn + f mx) / 2 == 0 end.
Proof.
  intros c m zero src RL NM O H HT NE.
  destruct (C46_shift_methods c m zero src RL NM H HT NE)
    as [m' [z' [f [mn [mx [R [T [A [B [_ [_ P]]]]]]]]]]].
  exists m', z', f, mn, mx. split; [exact R|]. split; [exact T|]. split; [exact A|]. split; [exact B|].
  destruct (tm_method c); rewrite P, O; reflexivity.
Qed.

(** A non-zero offset is subtracted, not added: the reference is never at +offset. *)
Theorem C67_offset_sign_refuted : forall c m zero src,
  tm_realized c = true -> tm_method c = EarliestIsZero -> ~ tm_offset c == 0 ->
  lfind m (tm_layer c) = Some (LPts src) -> has_T (cl_cls src) = true -> cl_pts src <> [] ->
  exists m' z' f mn, filter_time c zero m = (m', Val z') /\
    Retimed m m' (tm_layer c) src f /\ IsMin (times src) mn /\ ~ f mn == tm_offset c.
Proof.
  intros c m zero src RL NM O H HT NE.
  destruct (C46_shift_methods c m zero src RL) as [m' [z' [f [mn [mx [R [T [A [B [_ [_ P]]]]]]]]]]];
    try assumption; [congruence|].
  exists m', z', f, mn. split; [exact R|]. split; [exact T|]. split; [exact A|].
  rewrite NM in P. intros E. apply O. lra.
Qed.

(** Normalise: monotone, onto [offset, offset+1], reaching both ends when the times are
    not all equal; the zero time is not moved. *)
Theorem C46_normalize : forall c m zero src,
  tm_realized c = true -> tm_method c = Normalize ->
  lfind m (tm_layer c) = Some (LPts src) -> has_T (cl_cls src) = true -> cl_pts src <> [] ->
  exists m' z' f mn mx, filter_time c zero m = (m', Val z') /\
    Retimed m m' (tm_layer c) src f /\ IsMin (times src) mn /\ IsMax (times src) mx /\
    (forall t, In t (times src) -> tm_offset c <= f t <= tm_offset c + 1) /\
    f mn == tm_offset c /\ (mn < mx -> f mx == tm_offset c + 1) /\
    (forall a b, a <= b -> f a <= f b) /\
    (match zero, z' with Some z, Some w => w == z | None, None => True | _, _ => False end).
Proof.
  intros c m zero src RL NM H HT NE.
  destruct (filter_time_run c m zero src RL H HT NE) as [mn [mx [m' [A [B [R T]]]]]].
  exists m', (option_map (fun z => z + snd (time_map c mn mx)) zero), (fst (time_map c mn mx)), mn, mx.
  split; [exact R|]. split; [exact T|]. split; [exact A|]. split; [exact B|].
  unfold time_map. rewrite NM. simpl.
  assert (LE : mn <= mx) by (apply A; apply B).
  destruct (Qeq_bool mx mn) eqn:Q.
  - apply Qeq_bool_iff in Q. split.
    + intros t It. assert (mn <= t) by (apply A; exact It). assert (t <= mx) by (apply B; exact It). lra.
    + split; [lra|]. split; [intros; lra|]. split; [intros; lra|]. destruct zero; simpl; [lra|exact I].
  - assert (NQ : ~ mx == mn) by (intros X; apply Qeq_bool_iff in X; congruence).
    assert (D : 0 < mx - mn) by lra.
    assert (K : 0 < 1 / (mx - mn)).
    { apply Qlt_shift_div_l; [exact D|]. lra. }
    assert (KD : (mx - mn) * (1 / (mx - mn)) == 1) by (field; lra).
    set (k := 1 / (mx - mn)) in *.
    split.
    + intros t It. assert (L1 : mn <= t) by (apply A; exact It). assert (L2 : t <= mx) by (apply B; exact It).
      split; nra.
    + split; [lra|]. split; [intros _; lra|]. split; [intros a b L; nra|]. destruct zero; simpl; [lra|exact I].
Qed.

(** Empty clouds are left alone; clouds without timestamps are an error unless ignored. *)
Theorem C46_no_timestamps : forall c m zero src,
  tm_realized c = true -> lfind m (tm_layer c) = Some (LPts src) ->
  (cl_pts src = [] -> filter_time c zero m = (m, Val zero)) /\
  (cl_pts src <> [] -> has_T (cl_cls src) = false ->
     filter_time c zero m = (m, if tm_ignore c then Val zero else Exc)).
Proof.
  intros c m zero src RL H. unfold filter_time.
  rewrite (bnd_val _ _ _ _ _ (assert_true _ m RL)).
  rewrite (bnd_val _ _ _ _ _ (input_ok _ _ _ H)). split.
  - intros ->. reflexivity.
  - intros N ->. destruct (cl_pts src); [congruence|]. simpl. destruct (tm_ignore c); reflexivity.
Qed.

Definition ex_tcloud : Cloud :=
  mkCloud (mkCls "XYZIRT" true true true)
    [mkPt 0 0 0 5 1 (3); mkPt 3 0 0 (1#2) 2 7; mkPt 1 1 1 2 1 (5)].
Example C46_example :
  filter_time (mkTm "a" EarliestIsZero 1 false true) (Some 100) [("a", LPts ex_tcloud)] =
  ([("a", LPts (mkCloud (cl_cls ex_tcloud)
      [mkPt 0 0 0 5 1 (-1); mkPt 3 0 0 (1#2) 2 3; mkPt 1 1 1 2 1 1]))], Val (Some 104)).
Proof. reflexivity. Qed.

(** ** C47 *)

Definition ints (c : Cloud) : list Q := map p_int (cl_pts c).

(** Only the intensities of the layer change, through [f]. *)
Definition Rescaled (m m' : Layers) (n : Name) (src : Cloud) (f : Q -> Q) : Prop :=
  lfind m' n = Some (LPts (mkCloud (cl_cls src) (map (fun p => mkPt (px p) (py p) (pz p) (f (p_int p)) (p_ring p) (p_time p)) (cl_pts src)))) /\
  forall k, k <> n -> lfind m' k = lfind m k.

(** A sensible fixed range (if one is configured). *)
Definition range_ok (c : NormCfg) : Prop := 0 < nm_fixmax c -> nm_fixmin c <= nm_fixmax c.
(** A memory left by earlier calls. *)
Definition mem_ok (mem : Memory) : Prop :=
  match mem with (Some a, Some b) => a <= b | (None, None) => True | _ => False end.

Lemma clamp01_range x : 0 <= clamp01 x <= 1.
Proof.
  unfold clamp01. destruct (Qltb x 0) eqn:A; [split; lra|]. apply Qltb_false in A.
  destruct (Qltb 1 x) eqn:B; [split; lra|]. apply Qltb_false in B. split; lra.
Qed.
Lemma clamp01_mono x y : x <= y -> clamp01 x <= clamp01 y.
Proof.
  intros L. unfold clamp01.
  destruct (Qltb x 0) eqn:A; destruct (Qltb y 0) eqn:B; try (apply Qltb_true in A); try (apply Qltb_true in B);
  try (apply Qltb_false in A); try (apply Qltb_false in B);
  destruct (Qltb 1 x) eqn:C; destruct (Qltb 1 y) eqn:D; try (apply Qltb_true in C); try (apply Qltb_true in D);
  try (apply Qltb_false in C); try (apply Qltb_false in D); lra.
Qed.
Lemma clamp01_id x : 0 <= x <= 1 -> clamp01 x = x.
Proof.
  intros [A B]. unfold clamp01. apply Qltb_false in A, B. rewrite A, B. reflexivity.
Qed.

Lemma norm_mono mn mx a b : mn <= mx -> a <= b -> norm_map mn mx a <= norm_map mn mx b.
Proof.
  intros L AB. unfold norm_map. apply clamp01_mono.
  destruct (Qeq_bool (mx - mn) 0) eqn:Q.
  - setoid_replace (1 / 1) with 1 by reflexivity. lra.
  - assert (NQ : ~ mx - mn == 0) by (intros X; apply Qeq_bool_iff in X; congruence).
    assert (K : 0 < 1 / (mx - mn)) by (apply Qlt_shift_div_l; lra). nra.
Qed.

Lemma norm_range_ok c mem is : is <> [] -> range_ok c -> mem_ok mem ->
  exists mn mx mem', norm_range c mem is = (Some (mn, mx), mem') /\ mn <= mx /\ mem_ok mem'.
Proof.
  intros N RO MO. unfold norm_range. destruct (Qltb 0 (nm_fixmax c)) eqn:F.
  - apply Qltb_true in F. exists (nm_fixmin c), (nm_fixmax c), mem.
    split; [reflexivity|]. split; [apply RO; exact F|exact MO].
  - destruct (fold_min_ok _ N) as [mn [E1 [A1 A2]]]. destruct (fold_max_ok _ N) as [mx [E2 [B1 B2]]].
    rewrite E1, E2. assert (L : mn <= mx) by (apply B2; exact A1).
    destruct (nm_remember c).
    + destruct mem as [[a|] [b|]]; simpl in MO; try contradiction; simpl.
      * eexists _, _, _. split; [reflexivity|]. simpl.
        destruct (Qltb mn a) eqn:X; destruct (Qltb b mx) eqn:Y;
          try (apply Qltb_true in X); try (apply Qltb_true in Y);
          try (apply Qltb_false in X); try (apply Qltb_false in Y); split; lra.
      * eexists _, _, _. split; [reflexivity|]. simpl. split; exact L.
    + exists mn, mx, mem. split; [reflexivity|]. split; assumption.
Qed.

(** Every call, after any history: the result lies in [0,1] and the order is kept. *)
Theorem C47_normalised_and_monotone : forall c m mem src,
  range_ok c -> mem_ok mem ->
  lfind m (nm_layer c) = Some (LPts src) -> has_I (cl_cls src) = true -> cl_pts src <> [] ->
  exists m' mem' f, filter_norm c mem m = (m', Val mem') /\ mem_ok mem' /\
    Rescaled m m' (nm_layer c) src f /\
    (forall i, 0 <= f i <= 1) /\ (forall a b, a <= b -> f a <= f b).
Proof.
  intros c m mem src RO MO H HI NE.
  assert (NI : ints src <> []).
  { unfold ints. destruct (cl_pts src); [congruence|discriminate]. }
  destruct (norm_range_ok c mem _ NI RO MO) as [mn [mx [mem' [E [L MO']]]]].
  exists (lset m (nm_layer c) (LPts (mkCloud (cl_cls src) (map (set_int (norm_map mn mx)) (cl_pts src))))),
         mem', (norm_map mn mx).
  split.
  - unfold filter_norm. rewrite (bnd_val _ _ _ _ _ (input_ok _ _ _ H)).
    assert (CO : channel_ok (has_I (cl_cls src)) src = true).
    { unfold channel_ok. rewrite HI. destruct (cl_pts src); [congruence|reflexivity]. }
    rewrite (bnd_val _ _ _ _ _ (assert_true _ m CO)).
    change (map p_int (cl_pts src)) with (ints src). rewrite E. reflexivity.
  - split; [exact MO'|]. split.
    + split; [rewrite lfind_lset, seqb_refl; reflexivity|].
      intros k K. rewrite lfind_lset, seqb_neq by congruence. reflexivity.
    + split; [intros i; apply clamp01_range|]. intros a b AB. apply norm_mono; assumption.
Qed.

(** A sequence of calls with the same filter object (any maps). *)
Inductive NormHistory (c : NormCfg) : list (list Q) -> Memory -> Prop :=
| nh_nil : NormHistory c [] (None, None)
| nh_call hist mem m m' mem' src :
    NormHistory c hist mem ->
    lfind m (nm_layer c) = Some (LPts src) ->
    filter_norm c mem m = (m', Val mem') ->
    NormHistory c (hist ++ [ints src]) mem'.

Lemma filter_norm_inv c mem m m' mem' src :
  lfind m (nm_layer c) = Some (LPts src) -> filter_norm c mem m = (m', Val mem') ->
  has_I (cl_cls src) = true /\ cl_pts src <> [] /\
  exists r, norm_range c mem (ints src) = (Some r, mem').
Proof.
  intros H E. unfold filter_norm in E. rewrite (bnd_val _ _ _ _ _ (input_ok _ _ _ H)) in E.
  unfold bnd, massert in E. destruct (channel_ok (has_I (cl_cls src)) src) eqn:C; [|discriminate].
  unfold ret in E. unfold channel_ok in C. apply andb_true_iff in C. destruct C as [C1 C2].
  split; [exact C1|]. split; [destruct (cl_pts src); [discriminate|congruence]|].
  change (map p_int (cl_pts src)) with (ints src) in E.
  destruct (norm_range c mem (ints src)) as [[[mn mx]|] mm]; [|discriminate].
  injection E as _ <-. exists (mn, mx). reflexivity.
Qed.

(** With range memory and no fixed range: the memory is the exact range of all the
    intensities of all the clouds processed so far. *)
Theorem C47_memory_is_exact_range : forall c hist mem,
  nm_remember c = true -> nm_fixmax c <= 0 -> NormHistory c hist mem ->
  match mem with
  | (None, None) => hist = []
  | (Some a, Some b) => IsMin (concat hist) a /\ IsMax (concat hist) b
  | _ => False
  end.
Proof.
  intros c hist mem RM FX H. induction H as [|hist mem m m' mem' src H IH L E]; [reflexivity|].
  destruct (filter_norm_inv _ _ _ _ _ _ L E) as [_ [NE [r R]]].
  assert (NI : ints src <> []).
  { unfold ints. destruct (cl_pts src); [congruence|discriminate]. }
  unfold norm_range in R. apply Qltb_false in FX. rewrite FX, RM in R.
  destruct (fold_min_ok _ NI) as [mn [E1 [A1 A2]]]. destruct (fold_max_ok _ NI) as [mx [E2 [B1 B2]]].
  rewrite E1, E2 in R. injection R as _ <-.
  rewrite concat_app. simpl concat. rewrite app_nil_r.
  destruct mem as [[a|] [b|]]; simpl in *; try contradiction.
  - destruct IH as [[P1 P2] [Q1 Q2]]. split; split.
    + apply in_or_app. destruct (Qltb mn a); [right|left]; assumption.
    + intros t T. apply in_app_or in T. destruct (Qltb mn a) eqn:X;
        [apply Qltb_true in X|apply Qltb_false in X]; destruct T as [T|T];
        try (apply P2 in T); try (apply A2 in T); lra.
    + apply in_or_app. destruct (Qltb b mx); [right|left]; assumption.
    + intros t T. apply in_app_or in T. destruct (Qltb b mx) eqn:X;
        [apply Qltb_true in X|apply Qltb_false in X]; destruct T as [T|T];
        try (apply Q2 in T); try (apply B2 in T); lra.
  - subst hist. simpl. split; split; assumption.
Qed.

(** Hence (no fixed range) the map applied to a cloud is exactly affine on its own
    intensities, the clamp never acting: i |-> (i-min)/(max-min). *)
Theorem C47_affine_on_history : forall c hist mem m m' mem' src,
  nm_remember c = true -> nm_fixmax c <= 0 -> NormHistory c hist mem ->
  lfind m (nm_layer c) = Some (LPts src) -> filter_norm c mem m = (m', Val mem') ->
  exists a b, mem' = (Some a, Some b) /\
    IsMin (concat (hist ++ [ints src])) a /\ IsMax (concat (hist ++ [ints src])) b /\
    exists f, Rescaled m m' (nm_layer c) src f /\
      (a < b -> forall i, In i (ints src) -> f i == (i - a) / (b - a)) /\
      (a == b -> forall i, In i (ints src) -> f i == 0).
Proof.
  intros c hist mem m m' mem' src RM FX H L E.
  assert (H' := nh_call c _ _ _ _ _ _ H L E).
  assert (X := C47_memory_is_exact_range c _ _ RM FX H').
  destruct (filter_norm_inv _ _ _ _ _ _ L E) as [HI [NE [r R]]].
  destruct mem' as [[a|] [b|]]; try contradiction.
  2:{ exfalso. destruct hist; discriminate. }
  destruct X as [Xa Xb]. exists a, b. split; [reflexivity|]. split; [exact Xa|]. split; [exact Xb|].
  exists (norm_map (fst r) (snd r)).
  assert (RR : r = (a, b)).
  { unfold norm_range in R. apply Qltb_false in FX. rewrite FX, RM in R.
    destruct (fold_left min_step (ints src) None) as [mn|]; [|discriminate].
    destruct (fold_left max_step (ints src) None) as [mx|]; [|discriminate].
    injection R as <- <- <-. reflexivity. }
  subst r. simpl. split.
  - unfold filter_norm in E. rewrite (bnd_val _ _ _ _ _ (input_ok _ _ _ L)) in E.
    assert (CO : channel_ok (has_I (cl_cls src)) src = true).
    { unfold channel_ok. rewrite HI. destruct (cl_pts src); [congruence|reflexivity]. }
    rewrite (bnd_val _ _ _ _ _ (assert_true _ m CO)) in E.
    change (map p_int (cl_pts src)) with (ints src) in E. rewrite R in E. injection E as <-.
    split; [rewrite lfind_lset, seqb_refl; reflexivity|].
    intros k K. rewrite lfind_lset, seqb_neq by congruence. reflexivity.
  - assert (IN : forall i, In i (ints src) -> a <= i <= b).
    { intros i Ii. assert (J : In i (concat (hist ++ [ints src]))).
      { rewrite concat_app. apply in_or_app. right. simpl. rewrite app_nil_r. exact Ii. }
      split; [apply Xa; exact J|apply Xb; exact J]. }
    split.
    + intros AB i Ii. destruct (IN i Ii) as [P Q]. unfold norm_map.
      destruct (Qeq_bool (b - a) 0) eqn:Z; [apply Qeq_bool_iff in Z; lra|].
      assert (K : 0 < 1 / (b - a)) by (apply Qlt_shift_div_l; lra).
      assert (KD : (b - a) * (1 / (b - a)) == 1) by (field; lra).
      rewrite clamp01_id; [field; lra|]. split; nra.
    + intros AB i Ii. destruct (IN i Ii) as [P Q]. unfold norm_map.
      assert (Z : Qeq_bool (b - a) 0 = true) by (apply Qeq_bool_iff; lra). rewrite Z.
      assert (W : (i - a) * (1 / 1) == 0).
      { setoid_replace (1 / 1) with 1 by reflexivity. lra. }
      unfold clamp01. destruct (Qltb _ 0) eqn:U; [reflexivity|]. destruct (Qltb 1 _) eqn:V; [|exact W].
      apply Qltb_true in V. lra.
Qed.

(** A fixed range with minimum above maximum is accepted and reverses the order. *)
Theorem C47_reversed_fixed_range_reverses :
  exists c mem src m' mem' f,
    filter_norm c mem [("a", LPts src)] = (m', Val mem') /\
    Rescaled [("a", LPts src)] m' "a" src f /\ ~ (f 1 <= f 2).
Proof.
  exists (mkNm "a" false 3 (1#2)), (None, None),
         (mkCloud (mkCls "XYZI" true false false) [mkPt 0 0 0 1 0 0; mkPt 0 0 0 2 0 0]).
  eexists _, _, (norm_map 3 (1#2)). split; [reflexivity|]. split.
  - split; [reflexivity|]. intros k K.
    assert (E : String.eqb "a" k = false) by (apply seqb_neq; congruence).
    rewrite lfind_lset. cbn [lfind nm_layer]. rewrite !E. reflexivity.
  - intros X. apply Qle_bool_iff in X. discriminate.
Qed.

Theorem C47_needs_intensity : forall c m mem src,
  lfind m (nm_layer c) = Some (LPts src) -> (has_I (cl_cls src) = false \/ cl_pts src = []) ->
  filter_norm c mem m = (m, Exc).
Proof.
  intros c m mem src H K. unfold filter_norm. rewrite (bnd_val _ _ _ _ _ (input_ok _ _ _ H)).
  unfold bnd, massert, channel_ok. destruct K as [-> | ->]; [reflexivity|].
  rewrite andb_false_r. reflexivity.
Qed.

Example C47_example :
  let c := mkNm "a" true 0 0 in
  exists m', filter_norm c (None, None) [("a", LPts ex_tcloud)] = (m', Val (Some (1#2), Some 5)) /\
  NormHistory c [ints ex_tcloud] (Some (1#2), Some 5).
Proof.
  eexists. split; [reflexivity|].
  change [ints ex_tcloud] with (@nil (list Q) ++ [ints ex_tcloud]).
  eapply (nh_call _ [] (None, None) [("a", LPts ex_tcloud)]); [apply nh_nil|reflexivity|reflexivity].
Qed.
