(** C50, C114-C123: generators, and building a metric map from a simple map. *)
From Coq Require Import String.
From Verif Require Import Base FilterModel FilterSpec FilterProofs DeskewModel MapModel MapProps SmModel.
Open Scope nat_scope.

Section SmP.
Variable B : Type.
Variable add_angular : Q -> Q3 -> B -> B.
Variable set_zero_time : Q -> B -> B.
Variable fields : Cls -> Cls -> Pt -> Pt.
Variable XYZIRT : Cls.
Variable pose_add : Pose -> Pose -> Pose.
Notation Ob := (Ob B). Notation KF := (KF B). Notation Pipe := (Pipe B). Notation St := (St B). Notation Fil := (Fil B).
Notation process := (process B add_angular set_zero_time fields XYZIRT pose_add).
Notation apply_generators := (apply_generators B add_angular set_zero_time fields XYZIRT pose_add).
Notation apply_list := (apply_list B add_angular set_zero_time fields XYZIRT pose_add).
Notation apply_frame := (apply_frame B add_angular set_zero_time fields XYZIRT pose_add).
Notation do_obs := (do_obs B add_angular set_zero_time fields XYZIRT pose_add).
Notation do_kf := (do_kf B add_angular set_zero_time fields XYZIRT pose_add).
Notation do_kfs := (do_kfs B add_angular set_zero_time fields XYZIRT pose_add).
Notation sm2mm := (sm2mm B add_angular set_zero_time fields XYZIRT pose_add).

(** ** Specification of the processing of key-frames *)

(** key-frame [i] is one of those requested *)
Definition requested (o : Opts) (i : nat) : bool :=
  match op_start o with Some s => (s <=? Z.of_nat i)%Z | None => true end && match op_end o with Some e => (Z.of_nat i <=? e)%Z | None => true end.
(** size_t values *)
Definition size_t (z : Z) : Prop := (0 <= z < 2 ^ 64)%Z.
Definition opts_ok (o : Opts) : Prop := (forall s, op_start o = Some s -> size_t s) /\ (forall e, op_end o = Some e -> size_t e /\ e <> size_max).
(** the calls of the generators, as pairs of key-frame and observation *)
Fixpoint calls (evs : list Ev) : list (nat * nat) :=
  match evs with [] => [] | EGen k j _ _ _ :: t => (k, j) :: calls t | _ :: t => calls t end.
Definition nobs (sm : list KF) (i : nat) : nat := match nth_error sm i with Some kf => match k_sf B kf with Some sf => List.length sf | None => 0 end | None => 0 end.
Definition all_calls (sm : list KF) (o : Opts) : list (nat * nat) :=
  flat_map (fun i => map (fun j => (i, j)) (seq 0 (nobs sm i))) (filter (requested o) (seq 0 (List.length sm))).
Definition prefix {A} (a b : list A) : Prop := exists c, b = a ++ c.

(** the filters run after an observation if and only if a generator has handled it; the final filters run last *)
Inductive well_formed : list Ev -> Prop :=
| wf_nil : well_formed []
| wf_final : well_formed [EFinal]
| wf_handled : forall k j v p t, well_formed t -> well_formed (EGen k j v p (Val true) :: EFilters k j :: t)
| wf_not : forall k j v p t, well_formed t -> well_formed (EGen k j v p (Val false) :: t)
| wf_fail : forall k j v p r, (forall b, r <> Val b) -> well_formed [EGen k j v p r].

(** ** Lemmas *)
Lemma calls_app a b : calls (a ++ b) = calls a ++ calls b.
Proof. induction a as [|[] a IH]; cbn [app calls]; [reflexivity|rewrite IH; reflexivity|exact IH|exact IH]. Qed.

Lemma do_obs_calls p k vs robot : forall obs j s s' evs r, do_obs p k vs robot j obs s = (s', evs, r) ->
  prefix (calls evs) (map (fun x => (k, x)) (seq j (List.length obs))) /\
  (r = Val tt -> calls evs = map (fun x => (k, x)) (seq j (List.length obs))) /\
  (forall e, In e evs -> match e with EGen k' j' v q _ => k' = k /\ v = vs /\ q = robot | EFilters k' _ => k' = k | EFinal => False end).
Proof.
  induction obs as [|[o|] obs IH]; intros j s s' evs r E; cbn [SmModel.do_obs] in E.
  - injection E as <- <- <-. cbn. split; [exists []; reflexivity|]. split; [reflexivity|tauto].
  - lazymatch type of E with (match ?x with _ => _ end) = _ => destruct x as [s2 h] eqn:AG end.
    cbn [List.length seq map].
    assert (ONE : forall r0, prefix [(k, j)] ((k, j) :: map (fun x => (k, x)) (seq (S j) (List.length obs))) /\ (r0 = @Exc unit \/ r0 = Undef \/ r0 = Spin -> r0 = Val tt -> [(k, j)] = (k, j) :: map (fun x => (k, x)) (seq (S j) (List.length obs)))).
    { intros r0. split; [eexists; reflexivity|]. intros [-> |[-> | ->]]; discriminate. }
    destruct h as [[|]| | |].
    + destruct (run_filters B (pi_filters B p) vs s2) as [s3 r3] eqn:RF. destruct r3 as [[]| | |].
      * destruct (do_obs p k vs robot (S j) obs s3) as [[s4 ev4] r4] eqn:D. injection E as <- <- <-. destruct (IH _ _ _ _ _ D) as ([c P] & F & I). cbn [calls].
        split; [exists c; rewrite P; reflexivity|]. split; [intros H; rewrite (F H); reflexivity|]. intros e [<-|[<-|IN]]; [repeat split|reflexivity|exact (I e IN)].
      * injection E as <- <- <-. cbn [calls]. split; [apply (ONE Exc)|]. split; [apply ONE; auto|]. intros e [<-|[<-|[]]]; repeat split.
      * injection E as <- <- <-. cbn [calls]. split; [apply (ONE Exc)|]. split; [apply ONE; auto|]. intros e [<-|[<-|[]]]; repeat split.
      * injection E as <- <- <-. cbn [calls]. split; [apply (ONE Exc)|]. split; [apply ONE; auto|]. intros e [<-|[<-|[]]]; repeat split.
    + destruct (do_obs p k vs robot (S j) obs s2) as [[s4 ev4] r4] eqn:D. injection E as <- <- <-. destruct (IH _ _ _ _ _ D) as ([c P] & F & I). cbn [calls].
      split; [exists c; rewrite P; reflexivity|]. split; [intros H; rewrite (F H); reflexivity|]. intros e [<-|IN]; [repeat split|exact (I e IN)].
    + injection E as <- <- <-. cbn [calls]. split; [apply (ONE Exc)|]. split; [apply ONE; auto|]. intros e [<-|[]]; repeat split.
    + injection E as <- <- <-. cbn [calls]. split; [apply (ONE Exc)|]. split; [apply ONE; auto|]. intros e [<-|[]]; repeat split.
    + injection E as <- <- <-. cbn [calls]. split; [apply (ONE Exc)|]. split; [apply ONE; auto|]. intros e [<-|[]]; repeat split.
  - injection E as <- <- <-. split; [eexists; reflexivity|]. split; [discriminate|intros e []].
Qed.
Lemma do_obs_wf p k vs robot : forall obs j s s' evs r t, do_obs p k vs robot j obs s = (s', evs, r) ->
  (r = Val tt -> well_formed t) -> (r <> Val tt -> t = []) -> well_formed (evs ++ t).
Proof.
  induction obs as [|[o|] obs IH]; intros j s s' evs r t E WT NT; cbn [SmModel.do_obs] in E.
  - injection E as <- <- <-. auto.
  - lazymatch type of E with (match ?x with _ => _ end) = _ => destruct x as [s2 h] eqn:AG end.
    destruct h as [[|]| | |].
    + destruct (run_filters B (pi_filters B p) vs s2) as [s3 r3] eqn:RF. destruct r3 as [[]| | |].
      * destruct (do_obs p k vs robot (S j) obs s3) as [[s4 ev4] r4] eqn:D. injection E as <- <- <-. cbn [app]. constructor. exact (IH _ _ _ _ _ t D WT NT).
      * injection E as <- <- <-. rewrite NT by discriminate. cbn [app]. constructor. constructor.
      * injection E as <- <- <-. rewrite NT by discriminate. cbn [app]. constructor. constructor.
      * injection E as <- <- <-. rewrite NT by discriminate. cbn [app]. constructor. constructor.
    + destruct (do_obs p k vs robot (S j) obs s2) as [[s4 ev4] r4] eqn:D. injection E as <- <- <-. cbn [app]. constructor. exact (IH _ _ _ _ _ t D WT NT).
    + injection E as <- <- <-. rewrite NT by discriminate. constructor. discriminate.
    + injection E as <- <- <-. rewrite NT by discriminate. constructor. discriminate.
    + injection E as <- <- <-. rewrite NT by discriminate. constructor. discriminate.
  - injection E as <- <- <-. rewrite NT by discriminate. constructor.
Qed.

(** ** Variables *)
Lemma upd_other vs new x : ~ In x (map fst new) -> kfind (upd_vars vs new) x = kfind vs x.
Proof.
  unfold upd_vars. revert vs. induction new as [|[k v] new IH]; intros vs NI; [reflexivity|]. cbn [fold_left fst snd map In] in *.
  rewrite IH by tauto. rewrite kfind_kset. destruct (String.eqb_spec k x); [tauto|reflexivity].
Qed.
Lemma upd_keeps vs new x : kfind vs x <> None -> kfind (upd_vars vs new) x <> None.
Proof.
  unfold upd_vars. revert vs. induction new as [|[k v] new IH]; intros vs NI; [exact NI|]. cbn [fold_left fst snd]. apply IH. rewrite kfind_kset. destruct (String.eqb k x); [discriminate|exact NI].
Qed.
(** the variables after setting all the twist or pose variables *)
Definition at_name (names : list string) (t : Six) (x : string) : option Q := kfind (combine names (six_list t)) x.
Lemma upd_twist vs t x : In x twist_names -> kfind (upd_vars vs (combine twist_names (six_list t))) x = at_name twist_names t x.
Proof.
  destruct t as [[[[[a b] c] d] e] f]. unfold at_name, upd_vars, twist_names. cbn [six_list combine fold_left fst snd In].
  intros I. repeat (destruct I as [<-|I]; [rewrite !kfind_kset; reflexivity|]). destruct I.
Qed.
Lemma upd_pose vs t x : In x pose_names -> kfind (upd_vars vs (combine pose_names (six_list t))) x = at_name pose_names t x.
Proof.
  destruct t as [[[[[a b] c] d] e] f]. unfold at_name, upd_vars, pose_names. cbn [six_list combine fold_left fst snd In].
  intros I. repeat (destruct I as [<-|I]; [rewrite !kfind_kset; reflexivity|]). destruct I.
Qed.
Lemma keys_six (names : list string) (t : Six) : List.length names = 6 -> map fst (combine names (six_list t)) = names.
Proof. destruct t as [[[[[a b] c] d] e] f]. cbn [six_list]. destruct names as [|? [|? [|? [|? [|? [|? [|]]]]]]]; try discriminate. reflexivity. Qed.
Lemma disjoint_names x : In x twist_names -> ~ In x pose_names.
Proof. unfold twist_names, pose_names. cbn [In]. intros T P. repeat (destruct T as [<-|T]; [repeat (destruct P as [P|P]; [discriminate P|]); exact P|]). exact T. Qed.

(** the initial variables *)
Definition vars0 (o : Opts) : Vars :=
  upd_vars (upd_vars (upd_vars [] (combine twist_names (repeat 0%Q 6))) (combine pose_names (repeat 0%Q 6))) (op_custom o).
(** the twist of the last key-frame up to [i], from [k], that has one *)
Fixpoint last_twist (sm : list KF) (k n : nat) (d : option Six) : option Six :=
  match n with O => d | S n => last_twist sm (S k) n (match nth_error sm k with Some kf => match k_twist B kf with Some t => Some t | None => d end | None => d end) end.

(** what the variables of a call are *)
Definition vars_ok (sm : list KF) (o : Opts) (k0 k : nat) (vs : Vars) (d : option Six) : Prop :=
  (forall x, In x twist_names -> kfind vs x = match last_twist sm k0 (k - k0) d with Some t => at_name twist_names t x | None => kfind (vars0 o) x end) /\
  (forall x, ~ In x twist_names -> ~ In x pose_names -> kfind vs x = kfind (vars0 o) x).

Lemma last_twist_snoc sm : forall n k d, last_twist sm k (S n) d =
  match nth_error sm (k + n) with Some kf => match k_twist B kf with Some t => Some t | None => last_twist sm k n d end | None => last_twist sm k n d end.
Proof.
  induction n as [|n IH]; intros k d.
  - cbn [last_twist]. rewrite Nat.add_0_r. destruct (nth_error sm k) as [kf|]; [|reflexivity]. destruct (k_twist B kf); reflexivity.
  - cbn [last_twist]. cbn [last_twist] in IH. rewrite IH. replace (S k + n) with (k + S n) by lia. reflexivity.
Qed.

Lemma do_kfs_spec p sm o k0 : forall n k vs s s' vs' evs r, k0 <= k -> vars_ok sm o k0 k vs None ->
  do_kfs p sm k n vs s = (s', vs', evs, r) ->
  prefix (calls evs) (flat_map (fun i => map (fun j => (i, j)) (seq 0 (nobs sm i))) (seq k n)) /\
  (r = Val tt -> calls evs = flat_map (fun i => map (fun j => (i, j)) (seq 0 (nobs sm i))) (seq k n)) /\
  (forall t, (r = Val tt -> well_formed t) -> (r <> Val tt -> t = []) -> well_formed (evs ++ t)) /\
  (forall i j v q h, In (EGen i j v q h) evs -> exists kf six, nth_error sm i = Some kf /\ k_pose B kf = Some (q, six) /\
     (forall x, In x pose_names -> kfind v x = at_name pose_names six x) /\ vars_ok sm o k0 (S i) v None) /\
  ~ In EFinal evs.
Proof.
  induction n as [|n IH]; intros k vs s s' vs' evs r LE VO E; cbn [SmModel.do_kfs] in E.
  { injection E as <- <- <- <-. cbn. split; [exists []; reflexivity|]. split; [reflexivity|]. split; [auto|]. split; [intros ? ? ? ? ? []|tauto]. }
  cbn [seq flat_map].
  destruct (nth_error sm k) as [kf|] eqn:NK; [|injection E as <- <- <- <-; cbn; split; [eexists; reflexivity|]; split; [discriminate|]; split; [intros t _ NT; rewrite NT by discriminate; constructor|]; split; [intros ? ? ? ? ? []|tauto]].
  destruct (do_kf p k kf vs s) as [[[s1 vs1] ev1] r1] eqn:DK.
  assert (D : exists vsk, (forall x, In x twist_names -> kfind vsk x = match k_twist B kf with Some t => at_name twist_names t x | None => kfind vs x end) /\
     (forall x, ~ In x twist_names -> ~ In x pose_names -> kfind vsk x = kfind vs x) /\
     ((ev1 = [] /\ r1 <> Val tt) \/ exists q six sf, k_pose B kf = Some (q, six) /\ k_sf B kf = Some sf /\ vs1 = vsk /\ (forall x, In x pose_names -> kfind vsk x = at_name pose_names six x) /\ do_obs p k vsk q 0 sf s = (s1, ev1, r1))).
  { unfold SmModel.do_kf in DK. set (v1 := match k_twist B kf with Some t => _ | None => vs end) in DK.
    assert (V1 : forall x, In x twist_names -> kfind v1 x = match k_twist B kf with Some t => at_name twist_names t x | None => kfind vs x end).
    { intros x I. unfold v1. destruct (k_twist B kf); [apply upd_twist, I|reflexivity]. }
    assert (V2 : forall x, ~ In x twist_names -> ~ In x pose_names -> kfind v1 x = kfind vs x).
    { intros x I _. unfold v1. destruct (k_twist B kf); [apply upd_other; rewrite keys_six by reflexivity; exact I|reflexivity]. }
    destruct (k_pose B kf) as [[q six]|]; [|exists v1; injection DK as <- <- <- <-; split; [exact V1|split; [exact V2|left; split; [reflexivity|discriminate]]]].
    destruct (k_sf B kf) as [sf|]; [|exists v1; injection DK as <- <- <- <-; split; [exact V1|split; [exact V2|left; split; [reflexivity|discriminate]]]].
    exists (upd_vars v1 (combine pose_names (six_list six))).
    split; [intros x I; rewrite upd_other; [apply V1, I|rewrite keys_six by reflexivity; apply disjoint_names, I]|].
    split; [intros x I J; rewrite upd_other; [apply V2; assumption|rewrite keys_six by reflexivity; exact J]|].
    destruct (realizes B p _); [|injection DK as <- <- <- <-; left; split; [reflexivity|discriminate]].
    destruct (do_obs p k _ q 0 sf s) as [[a b] c] eqn:DO. injection DK as <- <- <- <-. right. exists q, six, sf. split; [reflexivity|]. split; [reflexivity|]. split; [reflexivity|]. split; [intros x I; apply upd_pose, I|exact DO]. }
  destruct D as (vsk & T1 & T2 & [[-> NR]|(q & six & sf & KP & KS & -> & T3 & DO)]).
  { destruct r1 as [[]| | |]; [congruence| | |]; injection E as <- <- <- <-; cbn; (split; [eexists; reflexivity|]); (split; [discriminate|]); (split; [intros t _ NT; rewrite NT by discriminate; constructor|]); (split; [intros ? ? ? ? ? []|tauto]). }
  assert (NB : nobs sm k = List.length sf) by (unfold nobs; rewrite NK, KS; reflexivity). rewrite NB.
  assert (VK : vars_ok sm o k0 (S k) vsk None).
  { destruct VO as [VT VN]. split.
    - intros x I. rewrite (T1 x I). replace (S k - k0) with (S (k - k0)) by lia. rewrite last_twist_snoc. replace (k0 + (k - k0)) with k by lia. rewrite NK. destruct (k_twist B kf); [reflexivity|]. apply VT, I.
    - intros x I J. rewrite (T2 x I J). apply VN; assumption. }
  destruct (do_obs_calls _ _ _ _ _ _ _ _ _ _ DO) as (P1 & F1 & I1). assert (W1 := fun t => do_obs_wf _ _ _ _ _ _ _ _ _ _ t DO).
  assert (G1 : forall i j v q0 h, In (EGen i j v q0 h) ev1 -> exists kf six, nth_error sm i = Some kf /\ k_pose B kf = Some (q0, six) /\ (forall x, In x pose_names -> kfind v x = at_name pose_names six x) /\ vars_ok sm o k0 (S i) v None).
  { intros i j v q0 h IN. apply I1 in IN. destruct IN as (-> & -> & ->). exists kf, six. auto. }
  assert (NF : ~ In EFinal ev1) by (intros IN; exact (I1 _ IN)).
  destruct r1 as [[]| | |].
  - destruct (do_kfs p sm (S k) n vsk s1) as [[[s2 vs2] ev2] r2] eqn:D2. injection E as <- <- <- <-.
    destruct (IH (S k) _ _ _ _ _ _ (Nat.le_trans _ _ _ LE (Nat.le_succ_diag_r k)) VK D2) as ([c P2] & F2 & W2 & G2 & NF2). rewrite calls_app, (F1 eq_refl).
    split; [exists c; rewrite P2, app_assoc; reflexivity|]. split; [intros H; rewrite (F2 H); reflexivity|].
    split; [intros t A C; rewrite <- app_assoc; apply W1; [intros _; apply W2; assumption|congruence]|].
    split; [intros i j v q0 h IN; apply in_app_or in IN; destruct IN as [IN|IN]; [exact (G1 _ _ _ _ _ IN)|exact (G2 _ _ _ _ _ IN)]|].
    intros IN. apply in_app_or in IN. tauto.
  - injection E as <- <- <- <-. destruct P1 as [c P1]. rewrite P1. split; [exists (c ++ flat_map (fun i => map (fun j => (i, j)) (seq 0 (nobs sm i))) (seq (S k) n)); rewrite app_assoc; reflexivity|].
    split; [discriminate|]. split; [exact W1|]. split; [exact G1|exact NF].
  - injection E as <- <- <- <-. destruct P1 as [c P1]. rewrite P1. split; [exists (c ++ flat_map (fun i => map (fun j => (i, j)) (seq 0 (nobs sm i))) (seq (S k) n)); rewrite app_assoc; reflexivity|].
    split; [discriminate|]. split; [exact W1|]. split; [exact G1|exact NF].
  - injection E as <- <- <- <-. destruct P1 as [c P1]. rewrite P1. split; [exists (c ++ flat_map (fun i => map (fun j => (i, j)) (seq 0 (nobs sm i))) (seq (S k) n)); rewrite app_assoc; reflexivity|].
    split; [discriminate|]. split; [exact W1|]. split; [exact G1|exact NF].
Qed.

Lemma filter_range a b : forall n, filter (fun i => (a <=? i) && (i <? b)) (seq 0 n) = seq a (Nat.min b n - a).
Proof.
  induction n as [|n IH]; [cbn; rewrite Nat.min_0_r; reflexivity|].
  rewrite seq_S, filter_app, IH. cbn [Nat.add filter].
  destruct (Nat.leb_spec a n) as [LE|GT], (Nat.ltb_spec n b) as [LT|GE]; cbn [andb].
  - replace (Nat.min b (S n) - a) with (S (Nat.min b n - a)) by lia. rewrite seq_S. f_equal. f_equal. lia.
  - rewrite app_nil_r. f_equal. lia.
  - rewrite app_nil_r. replace (Nat.min b n - a) with 0 by lia. replace (Nat.min b (S n) - a) with 0 by lia. reflexivity.
  - rewrite app_nil_r. f_equal. lia.
Qed.
Lemma requested_range (sm : list KF) o : opts_ok o -> (Z.of_nat (List.length sm) < 2 ^ 64)%Z ->
  filter (requested o) (seq 0 (List.length sm)) = seq (Z.to_nat (first_kf o)) (Z.to_nat (end_kf o (Z.of_nat (List.length sm)) - first_kf o)).
Proof.
  intros (HS & HE) SZ. unfold requested, first_kf, end_kf, wrap. set (n := List.length sm) in *.
  assert (ST : exists a, match op_start o with Some s => Z.max 0 s | None => 0%Z end = Z.of_nat a /\ forall i, match op_start o with Some s => (s <=? Z.of_nat i)%Z | None => true end = (a <=? i)).
  { destruct (op_start o) as [z|]; [|exists 0; split; reflexivity]. destruct (HS z eq_refl) as [L _]. exists (Z.to_nat z). split; [lia|]. intros i. apply Bool.eq_iff_eq_true. rewrite Z.leb_le, Nat.leb_le. lia. }
  destruct ST as (a & EA & RA). rewrite EA.
  destruct (op_end o) as [e|].
  - destruct (HE e eq_refl) as [[L U] NM]. unfold size_max in NM. rewrite Z.mod_small by lia.
    rewrite (filter_ext _ (fun i => (a <=? i) && (i <? S (Z.to_nat e)))).
    + rewrite filter_range. f_equal; lia.
    + intros i. rewrite RA. f_equal. apply Bool.eq_iff_eq_true. rewrite Z.leb_le, Nat.ltb_lt. lia.
  - rewrite (filter_ext_in _ (fun i => (a <=? i) && (i <? n))).
    + rewrite filter_range. f_equal; lia.
    + intros i IN. apply in_seq in IN. rewrite RA. f_equal. symmetry. apply Nat.ltb_lt. lia.
Qed.
Lemma vars_ok0 sm o k0 : vars_ok sm o k0 k0 (vars0 o) None.
Proof. split; [intros x _; rewrite Nat.sub_diag; reflexivity|reflexivity]. Qed.

(** C50: exactly the observations of the requested key-frames are processed, in order; if something throws, the ones up to it *)
Theorem C50_exactly_the_requested_key_frames : forall b0 sm mm p o s vs evs r,
  opts_ok o -> (Z.of_nat (List.length sm) < 2 ^ 64)%Z -> sm2mm b0 sm mm p o = (s, vs, evs, r) ->
  prefix (calls evs) (all_calls sm o) /\ (r = Val tt -> calls evs = all_calls sm o).
Proof.
  intros b0 sm mm p o s vs evs r OK SZ E. unfold SmModel.sm2mm in E. fold (vars0 o) in E. unfold all_calls.
  destruct (realizes B p (vars0 o)); [|injection E as <- <- <- <-; split; [eexists; reflexivity|discriminate]].
  rewrite (requested_range sm o OK SZ).
  destruct (do_kfs p sm _ _ (vars0 o) ([], b0)) as [[[s1 vs1] ev1] r1] eqn:D.
  destruct (do_kfs_spec p sm o _ _ _ _ _ _ _ _ _ (le_n _) (vars_ok0 sm o _) D) as (P & F & _).
  destruct r1 as [[]| | |]; try (injection E as <- <- <- <-; split; [exact P|discriminate]).
  destruct (pi_final B p); [injection E as <- <- <- <-; auto|]. destruct (run_final B _ s1) as [s2 r2]. injection E as <- <- <- <-.
  rewrite calls_app. cbn [calls]. rewrite app_nil_r. split; [exact P|intros _; exact (F eq_refl)].
Qed.
(** C50: with the pose and the pose variables of its key-frame, and its twist if it has one *)
Theorem C50_own_pose_and_twist : forall b0 sm mm p o s vs evs r i j v q h,
  opts_ok o -> (Z.of_nat (List.length sm) < 2 ^ 64)%Z -> sm2mm b0 sm mm p o = (s, vs, evs, r) -> In (EGen i j v q h) evs ->
  exists kf six, nth_error sm i = Some kf /\ requested o i = true /\ k_pose B kf = Some (q, six) /\
    (forall x, In x pose_names -> kfind v x = at_name pose_names six x) /\
    (forall x t, In x twist_names -> k_twist B kf = Some t -> kfind v x = at_name twist_names t x) /\
    (forall x, ~ In x twist_names -> ~ In x pose_names -> kfind v x = kfind (upd_vars [] (op_custom o)) x).
Proof.
  intros b0 sm mm p o s vs evs r i j v q h OK SZ E IN.
  assert (REQ : In (i, j) (all_calls sm o)).
  { destruct (C50_exactly_the_requested_key_frames _ _ _ _ _ _ _ _ _ OK SZ E) as ([c P] & _). rewrite P. apply in_or_app. left. clear - IN. induction evs as [|e evs IH]; [destruct IN|]. destruct IN as [->|IN]; [left; reflexivity|]. destruct e; cbn [calls]; [right|..]; apply IH, IN. }
  unfold SmModel.sm2mm in E. fold (vars0 o) in E.
  destruct (realizes B p (vars0 o)); [|injection E as <- <- <- <-; destruct IN].
  destruct (do_kfs p sm _ _ (vars0 o) ([], b0)) as [[[s1 vs1] ev1] r1] eqn:D.
  destruct (do_kfs_spec p sm o _ _ _ _ _ _ _ _ _ (le_n _) (vars_ok0 sm o _) D) as (P & F & _ & G & _).
  assert (IN1 : In (EGen i j v q h) ev1).
  { destruct r1 as [[]| | |]; try (injection E as <- <- <- <-; exact IN).
    destruct (pi_final B p); [injection E as <- <- <- <-; exact IN|]. destruct (run_final B _ s1) as [s2 r2]. injection E as <- <- <- <-. apply in_app_or in IN. destruct IN as [IN|[IN|[]]]; [exact IN|discriminate IN]. }
  destruct (G _ _ _ _ _ IN1) as (kf & six & NK & KP & VP & VT & VN). exists kf, six. split; [exact NK|].
  unfold all_calls in REQ. apply in_flat_map in REQ. destruct REQ as (i' & I1 & I2). apply in_map_iff in I2. destruct I2 as (j' & [= -> ->] & _).
  assert (LO := I1). rewrite (requested_range sm o OK SZ) in LO. apply in_seq in LO. apply filter_In in I1. destruct I1 as [_ I1].
  split; [exact I1|]. split; [exact KP|]. split; [exact VP|]. split.
  - intros x t IX KT. rewrite (VT x IX). replace (S i - Z.to_nat (first_kf o)) with (S (i - Z.to_nat (first_kf o))) by lia. rewrite last_twist_snoc.
    replace (Z.to_nat (first_kf o) + (i - Z.to_nat (first_kf o))) with i by lia. rewrite NK, KT. reflexivity.
  - intros x NT NP. rewrite (VN x NT NP). unfold vars0.
    assert (GG : forall vs vs' new, kfind vs x = kfind vs' x -> kfind (upd_vars vs new) x = kfind (upd_vars vs' new) x).
    { intros v0 v1 new. revert v0 v1. induction new as [|[k w] new IH]; intros v0 v1 H; [exact H|]. cbn [upd_vars fold_left fst snd]. apply IH. rewrite !kfind_kset, H. reflexivity. }
    apply GG. rewrite !upd_other; [reflexivity| |]; cbn; assumption.
Qed.
(** C50: the filters run once after every observation handled by some generator and never else; the final filters last *)
Theorem C50_filters_follow_handled_observations : forall b0 sm mm p o s vs evs r, sm2mm b0 sm mm p o = (s, vs, evs, r) ->
  well_formed evs /\ (r = Val tt -> In EFinal evs <-> pi_final B p <> []).
Proof.
  intros b0 sm mm p o s vs evs r E. unfold SmModel.sm2mm in E. fold (vars0 o) in E.
  destruct (realizes B p (vars0 o)); [|injection E as <- <- <- <-; split; [constructor|discriminate]].
  destruct (do_kfs p sm _ _ (vars0 o) ([], b0)) as [[[s1 vs1] ev1] r1] eqn:D.
  destruct (do_kfs_spec p sm o _ _ _ _ _ _ _ _ _ (le_n _) (vars_ok0 sm o _) D) as (P & F & W & _ & NF).
  assert (W0 : well_formed ev1) by (rewrite <- (app_nil_r ev1); apply W; [constructor|reflexivity]).
  destruct r1 as [[]| | |]; try (injection E as <- <- <- <-; split; [exact W0|discriminate]).
  destruct (pi_final B p) eqn:PF; [injection E as <- <- <- <-; split; [exact W0|intros _; split; [tauto|congruence]]|].
  destruct (run_final B _ s1) as [s2 r2]. injection E as <- <- <- <-. split; [apply W; [intros _; constructor|congruence]|]. intros _. split; [discriminate|]. intros _. apply in_or_app. right. left. reflexivity.
Qed.
(** C50: the former contents of the map do not matter *)
Theorem C50_former_contents_ignored : forall b0 sm mm mm' p o, sm2mm b0 sm mm p o = sm2mm b0 sm mm' p o.
Proof. reflexivity. Qed.

(** C116 (refuted): the twist variables of a key-frame without twist are not those of another one.  They are those of the last
    key-frame before it, among the requested ones, that has a twist *)
Theorem C116_stale_twist_refuted : forall b0 sm mm p o s vs evs r i j v q h kf t x,
  opts_ok o -> (Z.of_nat (List.length sm) < 2 ^ 64)%Z -> sm2mm b0 sm mm p o = (s, vs, evs, r) -> In (EGen i j v q h) evs ->
  nth_error sm i = Some kf -> k_twist B kf = None -> last_twist sm (Z.to_nat (first_kf o)) (i - Z.to_nat (first_kf o)) None = Some t ->
  In x twist_names -> kfind v x = at_name twist_names t x.
Proof.
  intros b0 sm mm p o s vs evs r i j v q h kf t x OK SZ E IN NKF NT LT IX.
  assert (REQ : In (i, j) (all_calls sm o)).
  { destruct (C50_exactly_the_requested_key_frames _ _ _ _ _ _ _ _ _ OK SZ E) as ([c P] & _). rewrite P. apply in_or_app. left. clear - IN. induction evs as [|e evs IH]; [destruct IN|]. destruct IN as [->|IN]; [left; reflexivity|]. destruct e; cbn [calls]; [right|..]; apply IH, IN. }
  unfold SmModel.sm2mm in E. fold (vars0 o) in E.
  destruct (realizes B p (vars0 o)); [|injection E as <- <- <- <-; destruct IN].
  destruct (do_kfs p sm _ _ (vars0 o) ([], b0)) as [[[s1 vs1] ev1] r1] eqn:D.
  destruct (do_kfs_spec p sm o _ _ _ _ _ _ _ _ _ (le_n _) (vars_ok0 sm o _) D) as (P & F & _ & G & _).
  assert (IN1 : In (EGen i j v q h) ev1).
  { destruct r1 as [[]| | |]; try (injection E as <- <- <- <-; exact IN).
    destruct (pi_final B p); [injection E as <- <- <- <-; exact IN|]. destruct (run_final B _ s1) as [s2 r2]. injection E as <- <- <- <-. apply in_app_or in IN. destruct IN as [IN|[IN|[]]]; [exact IN|discriminate IN]. }
  destruct (G _ _ _ _ _ IN1) as (kf' & six & NK & KP & VP & VT & VN). rewrite NKF in NK. injection NK as <-.
  unfold all_calls in REQ. apply in_flat_map in REQ. destruct REQ as (i' & I1 & I2). apply in_map_iff in I2. destruct I2 as (j' & [= -> ->] & _).
  rewrite (requested_range sm o OK SZ) in I1. apply in_seq in I1.
  rewrite (VT x IX). replace (S i - Z.to_nat (first_kf o)) with (S (i - Z.to_nat (first_kf o))) by lia. rewrite last_twist_snoc.
  replace (Z.to_nat (first_kf o) + (i - Z.to_nat (first_kf o))) with i by lia. rewrite NKF, NT, LT. reflexivity.
Qed.

(** C117 (refuted): the largest end_index means all key-frames: it means none *)
Theorem C117_largest_end_index_processes_nothing_refuted : forall b0 sm mm p o s vs evs r, op_end o = Some size_max -> (forall z, op_start o = Some z -> (0 <= z)%Z) ->
  sm2mm b0 sm mm p o = (s, vs, evs, r) -> calls evs = [].
Proof.
  intros b0 sm mm p o s vs evs r OE OS E. unfold SmModel.sm2mm in E. destruct (realizes B p _); [|injection E as <- <- <- <-; reflexivity].
  assert (Z0 : Z.to_nat (end_kf o (Z.of_nat (List.length sm)) - first_kf o) = 0).
  { unfold end_kf, first_kf. rewrite OE. unfold wrap, size_max. replace ((2 ^ 64 - 1 + 1) mod 2 ^ 64)%Z with 0%Z by reflexivity. destruct (op_start o) as [z|]; lia. }
  rewrite Z0 in E. cbn [SmModel.do_kfs] in E. destruct (pi_final B p); [injection E as <- <- <- <-; reflexivity|]. destruct (run_final B _ _) as [s2 r2]. injection E as <- <- <- <-. reflexivity.
Qed.

(** C118 (refuted): the final filters can use the variables: the first one with a formula throws, even if all its variables are defined *)
Theorem C118_final_filters_cannot_use_variables_refuted : forall b0 sm mm p o s vs evs r f fs,
  pi_final B p = f :: fs -> fi_vars B f <> [] -> fi_checks B f = true -> sm2mm b0 sm mm p o = (s, vs, evs, r) -> r <> Val tt.
Proof.
  intros b0 sm mm p o s vs evs r f fs PF NV CH E. unfold SmModel.sm2mm in E. destruct (realizes B p _); [|injection E as <- <- <- <-; discriminate].
  destruct (do_kfs p sm _ _ _ _) as [[[s1 vs1] ev1] r1]. destruct r1 as [[]| | |]; try (injection E as <- <- <- <-; discriminate).
  rewrite PF in E. unfold run_final in E. cbn [map run_pipeline] in E. destruct (fi_vars B f) as [|x l]; [congruence|]. rewrite CH in E. unfold bnd, throw in E. injection E as <- <- <- <-. discriminate.
Qed.

(** C119: an empty list of generators throws at the first observation *)
Theorem C119_no_generators_throws : forall b0 sm mm p o s vs evs r, pi_gens B p = Some [] -> opts_ok o -> (Z.of_nat (List.length sm) < 2 ^ 64)%Z ->
  all_calls sm o <> [] -> sm2mm b0 sm mm p o = (s, vs, evs, r) -> r <> Val tt.
Proof.
  intros b0 sm mm p o s vs evs r PG OK SZ NE E RV.
  destruct (C50_exactly_the_requested_key_frames _ _ _ _ _ _ _ _ _ OK SZ E) as (_ & F). specialize (F RV).
  destruct (C50_filters_follow_handled_observations _ _ _ _ _ _ _ _ _ E) as [W _].
  unfold SmModel.sm2mm in E. subst r. destruct (realizes B p _); [|discriminate E].
  destruct (do_kfs p sm _ _ _ _) as [[[s1 vs1] ev1] r1] eqn:D.
  assert (NOB : forall n k vs s s' vs' evs, do_kfs p sm k n vs s = (s', vs', evs, Val tt) -> calls evs = []).
  { clear - PG. induction n as [|n IH]; intros k vs s s' vs' evs D; cbn [SmModel.do_kfs] in D; [injection D as <- <- <-; reflexivity|].
    destruct (nth_error sm k) as [kf|]; [|discriminate D]. unfold SmModel.do_kf in D. destruct (k_pose B kf) as [[q six]|]; [|discriminate D]. destruct (k_sf B kf) as [sf|]; [|discriminate D].
    destruct (realizes B p _); [|discriminate D]. destruct sf as [|[ob|] sf]; cbn [SmModel.do_obs] in D.
    - destruct (do_kfs p sm (S k) n _ s) as [[[s2 vs2] ev2] r2] eqn:D2. injection D as <- <- <- ->. exact (IH _ _ _ _ _ _ D2).
    - unfold gens_of in D. rewrite PG in D. cbn [SmModel.apply_generators nthrow] in D. discriminate D.
    - discriminate D. }
  destruct r1 as [[]| | |]; try discriminate E. apply NOB in D.
  destruct (pi_final B p); [injection E as <- <- <-; congruence|]. destruct (run_final B _ _) as [s2 r2]. injection E as <- <- <- _. rewrite calls_app, D in F. cbn in F. congruence.
Qed.

(** ** Generators *)
(** C114: a point cloud observation that is not filtered out is appended to the target layer, moved by the pose of the sensor in the map; a
    missing layer is created with the class of the cloud; no other layer changes, and the reference time becomes that of the observation *)
Theorem C114_point_clouds_are_appended : forall g o c sensor robot m b (src : bool),
  o_kind B o = KCloud B (Some c) sensor -> g_init g = true -> g_custom g = None -> skipped B g o = false ->
  (forall l, lfind m (g_target g) = Some l -> exists d, l = LPts d) ->
  let d := match lfind m (g_target g) with Some (LPts d) => d | _ => mkCloud (cl_cls c) [] end in
  let p := match robot with Some r => pose_add r sensor | None => sensor end in
  exists m', process src g o robot (m, b) = ((m', if src then set_zero_time (o_time B o) b else b), Val true) /\
    lfind m' (g_target g) = Some (LPts (mkCloud (cl_cls d) (cl_pts d ++ map (moved_into fields (cl_cls d) (cl_cls c) p) (cl_pts c)))) /\
    forall n, n <> g_target g -> lfind m' n = lfind m n.
Proof.
  intros g o c sensor robot m b src K GI GC SK LP d p. unfold SmModel.process. rewrite GI, GC. unfold nassert, nbnd at 1. cbn [nret]. unfold process_default, special, is_cloud. rewrite K, SK. cbn [orb].
  exists (lset m (g_target g) (LPts (mkCloud (cl_cls d) (cl_pts d ++ map (moved_into fields (cl_cls d) (cl_cls c) p) (cl_pts c))))).
  split; [|rewrite lfind_lset, String.eqb_refl; split; [reflexivity|intros n NE; rewrite lfind_lset; destruct (String.eqb_spec (g_target g) n); [congruence|reflexivity]]].
  unfold nbnd at 1. unfold filter_cloud. cbn [fst]. subst d. destruct (lfind m (g_target g)) as [l|] eqn:F.
  - destruct (LP l eq_refl) as [d ->]. unfold nbnd, put. cbn [fst snd nret]. destruct src; reflexivity.
  - unfold nbnd, put. cbn [fst snd nret cl_cls cl_pts app]. destruct src; reflexivity.
Qed.
(** C115: observations that are filtered out, comments, GPS and pose observations have no effect on default generators *)
Theorem C115_skipped_observations_have_no_effect : forall src g o robot s,
  g_init g = true -> g_custom g = None ->
  g_class_ok g (o_class B o) = false \/ g_label_ok g (o_label B o) = false \/ (exists f, o_kind B o = KComment B f) \/ o_kind B o = KGPS B \/ o_kind B o = KRobotPose B ->
  process src g o robot s = (s, Val false).
Proof.
  intros src g o robot s GI GC H. unfold SmModel.process. rewrite GI, GC. unfold nassert, nbnd at 1. cbn [nret]. unfold process_default, skipped.
  destruct H as [-> |[-> |[[f ->]|[-> | ->]]]]; cbn [negb orb]; rewrite ?orb_true_r; reflexivity.
Qed.
Lemma nbnd_frame {A C} (P : St -> St -> Prop) (x : N B A) (f : A -> N B C) s : (forall a b c, P a b -> P b c -> P a c) ->
  P s (fst (x s)) -> (forall a s', P s' (fst (f a s'))) -> P s (fst (nbnd B x f s)).
Proof. intros T X F. unfold nbnd. destruct (x s) as [s' [a| | |]]; cbn [fst] in *; try exact X. eapply T; [exact X|apply F]. Qed.
(** C115: whatever happens, only the target layer can change *)
Definition only (n : Name) (s s' : St) : Prop := forall k, k <> n -> lfind (fst s') k = lfind (fst s) k.
Lemma only_trans n a b c : only n a b -> only n b c -> only n a c.
Proof. intros H K k NE. rewrite (K k NE). apply H, NE. Qed.
Lemma only_refl n s : only n s s. Proof. intros k _. reflexivity. Qed.
Lemma only_put n l s : only n s (fst (put B n l s)).
Proof. intros k NE. cbn. rewrite lfind_lset. destruct (String.eqb_spec n k); [congruence|reflexivity]. Qed.
Lemma only_buf n f s : only n s (fst (buf B f s)). Proof. intros k NE. reflexivity. Qed.
Lemma only_goc n a c s : only n s (fst (lay B (get_or_create n a c) s)).
Proof.
  destruct s as [m b]. unfold lay, get_or_create. cbn [fst snd]. destruct (String.eqb n ""); [destruct a; apply only_refl|]. destruct (lfind m n) as [[]|]; try apply only_refl.
  intros k NE. cbn. rewrite lfind_lset. destruct (String.eqb_spec n k); [congruence|reflexivity].
Qed.
Ltac fr := repeat first [ apply only_refl | apply only_put | apply only_buf | apply only_goc
  | apply (nbnd_frame (only _)); [apply only_trans| |intros ? ?] ].
Theorem C115_only_the_target_layer_changes : forall src g o robot s s' r, process src g o robot s = (s', r) -> only (g_target g) s s'.
Proof.
  intros src g o robot s s' r E. replace s' with (fst (process src g o robot s)) by (rewrite E; reflexivity). clear E s' r.
  unfold SmModel.process. apply (nbnd_frame (only _)); [apply only_trans|unfold nassert; destruct (g_init g); apply only_refl|]. intros _ s1. destruct (g_custom g) as [def|].
  - unfold process_custom. apply (nbnd_frame (only _)); [apply only_trans| |].
    { destruct (lfind (fst s1) (g_target g)); [apply only_refl|]. destruct def; [apply only_put|apply only_refl]. }
    intros _ s2. destruct (lfind (fst s2) (g_target g)) as [[d|d|]|]; try apply only_refl.
    + destruct (_ || _); [apply only_refl|]. destruct (o_insert B o (LPts d) robot) as [l' dn]. fr. destruct (negb dn && g_throw g); apply only_refl.
    + destruct (_ || _); [apply only_refl|]. destruct (o_insert B o (LOther d) robot) as [l' dn]. fr. destruct (negb dn && g_throw g); apply only_refl.
  - unfold process_default. destruct (_ || _); [apply only_refl|]. apply (nbnd_frame (only _)); [apply only_trans| |].
    { unfold special. destruct (o_kind B o) as [f| | | |[c|] sensor| |u|ins|gy sensor|]; try apply only_refl.
      - unfold filter_cloud. destruct (lfind (fst s1) (g_target g)) as [[d| |]|]; try apply only_refl; fr.
      - unfold filter_velodyne. apply (nbnd_frame (only _)); [apply only_trans|apply only_goc|]. intros _ s2. destruct (lfind (fst s2) (g_target g)) as [[d| |]|]; try apply only_refl. destruct (String.eqb _ _); [fr|apply only_refl].
      - unfold process_imu. destruct src; [|apply only_refl]. destruct gy; [fr|apply only_refl]. }
    intros dn s2. apply (nbnd_frame (only _)); [apply only_trans|destruct (src && is_cloud B o); [apply only_buf|apply only_refl]|]. intros _ s3. destruct dn; [apply only_refl|].
    apply (nbnd_frame (only _)); [apply only_trans|apply only_goc|]. intros _ s4. destruct (lfind (fst s4) (g_target g)) as [l|]; [|apply only_refl].
    assert (GEN : only (g_target g) s4 (fst ((let '(l', done) := o_insert B o l robot in (nbnd B (put B (g_target g) l') (fun _ => if negb done && g_throw g then nthrow B else nret B done))) s4))).
    { destruct (o_insert B o l robot) as [l' dn]. fr. destruct (negb dn && g_throw g); apply only_refl. }
    assert (GEN2 : only (g_target g) s4 (fst (let '(l', done) := o_insert B o l robot in (nbnd B (put B (g_target g) l') (fun _ => if negb done && g_throw g then nthrow B else nret B done) s4)))).
    { destruct (o_insert B o l robot) as [l' dn]. exact GEN. }
    destruct (o_kind B o) as [f| | | |c sensor| |[u|]|ins|gy sensor|]; try exact GEN2. destruct l; try exact GEN2. fr.
Qed.

(** C120: an IMU reading with angular velocity goes to the velocity buffer, in the vehicle frame, and leaves all layers as they are *)
Theorem C120_imu_readings : forall g o w sensor robot m b,
  o_kind B o = KIMU B (Some w) sensor -> g_init g = true -> g_custom g = None -> skipped B g o = false ->
  process true g o robot (m, b) = ((m, add_angular (o_time B o) (rotate sensor w) b), Val true).
Proof.
  intros g o w sensor robot m b K GI GC SK. unfold SmModel.process. rewrite GI, GC. unfold nassert, nbnd at 1. cbn [nret]. unfold process_default, special, is_cloud. rewrite K, SK. reflexivity.
Qed.
(** C121 (refuted): an IMU reading that cannot be used has no effect: the target layer is created *)
Theorem C121_unusable_imu_creates_the_layer_refuted : forall src g o gy sensor robot m b s' r,
  o_kind B o = KIMU B gy sensor -> src = false \/ gy = None -> g_init g = true -> g_custom g = None -> skipped B g o = false ->
  g_target g <> EmptyString -> lfind m (g_target g) = None ->
  process src g o robot (m, b) = (s', r) -> lfind (fst s') (g_target g) = Some (fst (o_insert B o (LPts (mkCloud SimplePoints [])) robot)).
Proof.
  intros src g o gy sensor robot m b s' r K U GI GC SK NE F E. unfold SmModel.process in E. rewrite GI, GC in E. unfold nassert, nbnd at 1 in E. cbn [nret] in E.
  unfold process_default, special, is_cloud in E. rewrite K, SK in E. cbn [orb] in E.
  assert (PI : process_imu B add_angular src o gy sensor (m, b) = ((m, b), Val false)) by (unfold process_imu; destruct U as [-> | ->]; [reflexivity|destruct src; reflexivity]).
  unfold nbnd at 1 in E. rewrite PI in E. rewrite andb_false_r in E. unfold nbnd at 1 in E. cbn [nret] in E. unfold nbnd at 1, lay, get_or_create in E. cbn [fst] in E.
  rewrite (proj2 (String.eqb_neq _ _) NE), F in E. cbn [fst snd] in E. rewrite lfind_lset, String.eqb_refl in E.
  destruct (o_insert B o (LPts (mkCloud SimplePoints [])) robot) as [l' dn]. unfold nbnd, put in E. cbn [fst snd] in E.
  destruct (negb dn && g_throw g); injection E as <- <-; cbn [fst]; rewrite lfind_lset, String.eqb_refl; reflexivity.
Qed.
(** C122 (refuted): a generator that skips an observation has no effect: with a metric map definition the layer is created *)
Theorem C122_skipped_observation_creates_the_layer_refuted : forall src g o l robot m b,
  g_init g = true -> g_custom g = Some (Some l) -> l <> LNull -> lfind m (g_target g) = None -> skipped B g o = true ->
  process src g o robot (m, b) = ((lset m (g_target g) l, b), Val false).
Proof.
  intros src g o l robot m b GI GC NN F SK. unfold SmModel.process. rewrite GI, GC. unfold nassert, nbnd at 1. cbn [nret]. unfold process_custom, nbnd. cbn [fst]. rewrite F. cbn [put fst snd]. rewrite lfind_lset, String.eqb_refl, SK, orb_true_r.
  destruct l; try reflexivity. congruence.
Qed.

(** C123: all generators see the observation, in order, and it is handled iff some generator has handled it *)
Inductive in_order (src : bool) (o : Ob) (robot : option Pose) : list Gen -> St -> St -> list bool -> Prop :=
| io_nil : forall s, in_order src o robot [] s s []
| io_cons : forall g gs s s1 s2 h hs, process src g o robot s = (s1, Val h) -> in_order src o robot gs s1 s2 hs -> in_order src o robot (g :: gs) s s2 (h :: hs).
Theorem C123_all_generators_see_every_observation : forall src gs o robot s s' any, apply_generators src gs o robot s = (s', Val any) ->
  exists hs, in_order src o robot gs s s' hs /\ (any = true <-> In true hs).
Proof.
  intros src gs o robot s s' any E.
  assert (L : forall gs s s' a any, apply_list src gs o robot a s = (s', Val any) -> exists hs, in_order src o robot gs s s' hs /\ (any = true <-> a = true \/ In true hs)).
  { clear. induction gs as [|g gs IH]; intros s s' a any E; cbn [SmModel.apply_list] in E.
    - injection E as <- <-. exists []. split; [constructor|cbn [In]; tauto].
    - unfold nbnd in E. destruct (process src g o robot s) as [s1 [h| | |]] eqn:P; try discriminate E. destruct (IH _ _ _ _ E) as (hs & IO & AN). exists (h :: hs). split; [econstructor; eassumption|].
      rewrite AN, orb_true_iff. cbn [In]. tauto. }
  destruct gs as [|g gs]; [discriminate E|]. destruct (L _ _ _ _ _ E) as (hs & IO & AN). exists hs. split; [exact IO|]. rewrite AN. intuition discriminate.
Qed.
Theorem C123_no_generators : forall src o robot s, apply_generators src [] o robot s = (s, Exc).
Proof. reflexivity. Qed.
End SmP.

(** ** A concrete case *)
Definition sx_cls : Cls := mkCls "P" false false false.
Definition sx_cloud (x : Q) : Ob unit := mkOb unit (KCloud unit (Some (mkCloud sx_cls [mkPt x 0 0 0 0 0])) id_pose) "CObservationPointCloud" "lidar" 0 (fun l _ => (l, false)).
Definition sx_imu : Ob unit := mkOb unit (KIMU unit (Some (0, 0, 1)%Q) id_pose) "CObservationIMU" "imu" 0 (fun l _ => (l, false)).
Definition sx_shift (d : Q) : Pose := mkPose (fun '(a, b, c) => ((a + d)%Q, b, c)) (fun p => p).
Definition sx_kf (d : Q) (tw : option Six) (obs : list (option (Ob unit))) : KF unit := mkKF unit (Some (sx_shift d, (d, 0, 0, 0, 0, 0)%Q)) (Some obs) tw.
Definition sx_sm : list (KF unit) := [sx_kf 10 None [Some (sx_cloud 1)]; sx_kf 20 (Some (5, 0, 0, 0, 0, 0)%Q) [Some (sx_cloud 2); Some sx_imu]; sx_kf 30 None [Some (sx_cloud 3)]; sx_kf 40 None [Some (sx_cloud 4)]].
Definition sx_run := sm2mm unit (fun _ _ b => b) (fun _ b => b) (fun _ _ p => p) sx_cls (fun a b => mkPose (fun p => compose a (compose b p)) (fun p => p)) tt sx_sm []
  (mkPipe unit None [] []) (mkOpts (Some 1%Z) (Some 2%Z) [("k"%string, 7%Q)]).
Example sx_ok : opts_ok (mkOpts (Some 1%Z) (Some 2%Z) [("k"%string, 7%Q)]).
Proof. split; [intros s [= <-]; split; lia|intros e [= <-]; split; [split; lia|discriminate]]. Qed.
Example sx_calls : calls (snd (fst sx_run)) = [(1, 0); (1, 1); (2, 0)] /\ snd sx_run = Val tt /\
  lfind (fst (fst (fst (fst sx_run)))) "raw" = Some (LPts (mkCloud sx_cls [mkPt 22 0 0 0 0 0; mkPt 33 0 0 0 0 0])).
Proof. vm_compute. repeat split. Qed.
(** the twist of the second key-frame is used for the third *)
Example sx_stale : exists v q h, In (EGen 2 0 v q h) (snd (fst sx_run)) /\ kfind v "vx" = Some 5%Q /\ kfind v "robot_x" = Some 30%Q /\ kfind v "k" = Some 7%Q.
Proof. do 3 eexists. split; [vm_compute; right; right; right; right; left; reflexivity|]. vm_compute. repeat split. Qed.
