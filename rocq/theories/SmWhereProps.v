(** The exact domain on which the refuted properties C116, C117, C118, C121 and C122 do hold. *)
From Coq Require Import String.
From Verif Require Import Base FilterModel FilterSpec FilterProofs DeskewModel MapModel MapProps SmModel SmProps.
Open Scope nat_scope.

Section SmW.
Variable B : Type.
Variable add_angular : Q -> Q3 -> B -> B.
Variable set_zero_time : Q -> B -> B.
Variable fields : Cls -> Cls -> Pt -> Pt.
Variable XYZIRT : Cls.
Variable pose_add : Pose -> Pose -> Pose.
Notation Ob := (Ob B). Notation KF := (KF B). Notation Pipe := (Pipe B). Notation St := (St B). Notation Fil := (Fil B).
Notation process := (process B add_angular set_zero_time fields XYZIRT pose_add).
Notation do_kfs := (do_kfs B add_angular set_zero_time fields XYZIRT pose_add).
Notation sm2mm := (sm2mm B add_angular set_zero_time fields XYZIRT pose_add).

(** ** C116 *)
(** The twist variables of a key-frame without twist have their initial values exactly as long as no
    requested key-frame before it has a twist; in general they are those of the last one that has. *)
Theorem C116_default_twist_where : forall b0 sm mm p o s vs evs r i j v q h kf x,
  opts_ok o -> (Z.of_nat (List.length sm) < 2 ^ 64)%Z -> sm2mm b0 sm mm p o = (s, vs, evs, r) -> In (EGen i j v q h) evs ->
  nth_error sm i = Some kf -> k_twist B kf = None ->
  (forall k kf', requested o k = true -> k < i -> nth_error sm k = Some kf' -> k_twist B kf' = None) ->
  In x twist_names -> kfind v x = kfind (vars0 o) x.
Proof.
  intros b0 sm mm p o s vs evs r i j v q h kf x OK SZ E IN NKF NT ALL IX.
  assert (REQ : In (i, j) (all_calls B sm o)).
  { destruct (C50_exactly_the_requested_key_frames _ _ _ _ _ _ _ _ _ _ _ _ _ _ _ OK SZ E) as ([c P] & _). rewrite P. apply in_or_app. left. clear - IN. induction evs as [|e evs IH]; [destruct IN|]. destruct IN as [->|IN]; [left; reflexivity|]. destruct e; cbn [calls]; [right|..]; apply IH, IN. }
  unfold SmModel.sm2mm in E. fold (vars0 o) in E.
  destruct (realizes B p (vars0 o)); [|injection E as <- <- <- <-; destruct IN].
  destruct (do_kfs p sm _ _ (vars0 o) ([], b0)) as [[[s1 vs1] ev1] r1] eqn:D.
  destruct (do_kfs_spec _ _ _ _ _ _ p sm o _ _ _ _ _ _ _ _ _ (le_n _) (vars_ok0 _ sm o _) D) as (P & F & _ & G & _).
  assert (IN1 : In (EGen i j v q h) ev1).
  { destruct r1 as [[]| | |]; try (injection E as <- <- <- <-; exact IN).
    destruct (pi_final B p); [injection E as <- <- <- <-; exact IN|]. destruct (run_final B _ s1) as [s2 r2]. injection E as <- <- <- <-. apply in_app_or in IN. destruct IN as [IN|[IN|[]]]; [exact IN|discriminate IN]. }
  destruct (G _ _ _ _ _ IN1) as (kf' & six & NK & KP & VP & VT & VN). rewrite NKF in NK. injection NK as <-.
  unfold all_calls in REQ. apply in_flat_map in REQ. destruct REQ as (i' & I1 & I2). apply in_map_iff in I2. destruct I2 as (j' & [= -> ->] & _).
  assert (I1' := I1). rewrite (requested_range _ sm o OK SZ) in I1. apply in_seq in I1. apply filter_In in I1' as [IL RI]. apply in_seq in IL.
  rewrite (VT x IX). replace (S i - Z.to_nat (first_kf o)) with (S (i - Z.to_nat (first_kf o))) by lia. rewrite last_twist_snoc.
  replace (Z.to_nat (first_kf o) + (i - Z.to_nat (first_kf o))) with i by lia. rewrite NKF, NT.
  assert (L : forall n, Z.to_nat (first_kf o) + n <= i -> last_twist B sm (Z.to_nat (first_kf o)) n None = None).
  { induction n as [|n IH]; intro L; [reflexivity|]. rewrite last_twist_snoc.
    destruct (nth_error sm (Z.to_nat (first_kf o) + n)) as [kf'|] eqn:NE; [|apply IH; lia].
    rewrite (ALL (Z.to_nat (first_kf o) + n) kf'); [apply IH; lia| |lia|exact NE].
    assert (I3 : In (Z.to_nat (first_kf o) + n) (filter (requested o) (seq 0 (List.length sm)))).
    { rewrite (requested_range _ sm o OK SZ). apply in_seq. lia. }
    apply filter_In in I3. apply I3. }
  rewrite L by lia. reflexivity.
Qed.

(** ** C117 *)
(** An end_index beyond the last key-frame means all of them exactly if it is not the largest size_t
    (or there is nothing to process). *)
Theorem C117_end_index_where : forall b0 sm mm p o s vs evs e,
  op_end o = Some e -> size_t e -> (Z.of_nat (List.length sm) <= e)%Z -> (forall z, op_start o = Some z -> size_t z) ->
  sm2mm b0 sm mm p o = (s, vs, evs, Val tt) ->
  (calls evs = all_calls B sm (mkOpts (op_start o) None (op_custom o)) <->
   e <> size_max \/ all_calls B sm (mkOpts (op_start o) None (op_custom o)) = []).
Proof.
  intros b0 sm mm p o s vs evs e OE SE LE OS E.
  assert (SZ : (Z.of_nat (List.length sm) < 2 ^ 64)%Z) by (unfold size_t in SE; lia).
  destruct (Z.eq_dec e size_max) as [->|NE].
  - rewrite (C117_largest_end_index_processes_nothing_refuted _ _ _ _ _ _ _ _ _ _ _ _ _ _ _ OE) with (1 := fun z H => proj1 (OS z H)) (2 := E).
    split; [intro H; right; symmetry; exact H|]. intros [H|H]; [contradiction|symmetry; exact H].
  - split; [intros _; left; exact NE|]. intros _.
    assert (OK : opts_ok o). { split; [exact OS|]. intros z Q. rewrite OE in Q. injection Q as <-. split; assumption. }
    destruct (C50_exactly_the_requested_key_frames _ _ _ _ _ _ _ _ _ _ _ _ _ _ _ OK SZ E) as (_ & F).
    rewrite (F eq_refl). unfold all_calls. f_equal. apply filter_ext_in. intros k I. apply in_seq in I.
    unfold requested. rewrite OE. cbn [op_start op_end]. f_equal. apply Z.leb_le. lia.
Qed.

(** ** C118 *)
Definition with_final (p : Pipe) (fs : list Fil) : Pipe := mkPipe B (pi_gens B p) (pi_filters B p) fs.
(** Final filters without formulas run, in order, on the map made so far ... *)
Theorem C118_final_filters_run_where : forall b0 sm mm p o fs s vs evs,
  Forall (fun f => fi_vars B f = []) fs -> fs <> [] ->
  sm2mm b0 sm mm (with_final p []) o = (s, vs, evs, Val tt) ->
  let '(m, r) := run_pipeline (map (fun f => Some (fi_run B f None)) fs) (fst s) in
  sm2mm b0 sm mm (with_final p fs) o = ((m, snd s), vs, evs ++ [EFinal], r).
Proof.
  intros b0 sm mm p o fs s vs evs A NE E. unfold SmModel.sm2mm in *.
  assert (SAME : forall sm k n vs s, do_kfs (with_final p fs) sm k n vs s = do_kfs (with_final p []) sm k n vs s).
  { clear.
    assert (OB : forall obs k vs robot j s, SmModel.do_obs B add_angular set_zero_time fields XYZIRT pose_add (with_final p fs) k vs robot j obs s
       = SmModel.do_obs B add_angular set_zero_time fields XYZIRT pose_add (with_final p []) k vs robot j obs s).
    { induction obs as [|[ob|] obs IH]; intros k vs robot j s; cbn [SmModel.do_obs]; [reflexivity| |reflexivity].
      unfold gens_of, with_final. cbn [pi_gens pi_filters]. fold (with_final p fs). fold (with_final p []).
      match goal with |- (let '(_, _) := ?q in _) = _ => destruct q as [s2 [[|]| | |]] end; try reflexivity.
      - destruct (run_filters _ _ _ _) as [s3 [[]| | |]]; try reflexivity. rewrite IH. reflexivity.
      - rewrite IH. reflexivity. }
    intros sm k n. revert k. induction n as [|n IH]; intros k vs s; cbn [SmModel.do_kfs]; [reflexivity|].
    destruct (nth_error sm k) as [kf|]; [|reflexivity].
    assert (K : SmModel.do_kf B add_angular set_zero_time fields XYZIRT pose_add (with_final p fs) k kf vs s = SmModel.do_kf B add_angular set_zero_time fields XYZIRT pose_add (with_final p []) k kf vs s).
    { unfold SmModel.do_kf. destruct (k_pose B kf) as [[q six]|]; [|reflexivity]. destruct (k_sf B kf) as [sf|]; [|reflexivity].
      change (realizes B (with_final p fs)) with (realizes B (with_final p [])). destruct (realizes B _ _); [|reflexivity]. rewrite OB. reflexivity. }
    rewrite K. clear K. destruct (SmModel.do_kf B add_angular set_zero_time fields XYZIRT pose_add (with_final p []) k kf vs s) as [[[s1 vs1] ev1] [[]| | |]]; try reflexivity. rewrite IH. reflexivity. }
  change (realizes B (with_final p fs)) with (realizes B (with_final p [])).
  destruct (realizes B (with_final p []) _); [|discriminate]. rewrite SAME.
  destruct (do_kfs _ _ _ _ _ _) as [[[s1 vs1] ev1] [[]| | |]]; try discriminate.
  cbn [with_final pi_final] in *. injection E as -> -> ->. destruct fs as [|f fs]; [contradiction|].
  unfold run_final.
  assert (M : map (fun f => Some (match fi_vars B f with [] => fi_run B f None | _ => if fi_checks B f then throw else fi_run B f None end)) (f :: fs)
            = map (fun f => Some (fi_run B f None)) (f :: fs)).
  { apply map_ext_in. intros g I. rewrite Forall_forall in A. rewrite (A g I). reflexivity. }
  rewrite M. destruct (run_pipeline _ (fst s)) as [m r]. reflexivity.
Qed.

(** ... and one with a formula, at any position, makes the whole call fail if it checks its parameters. *)
Theorem C118_no_formulas_where : forall b0 sm mm p o s vs evs,
  sm2mm b0 sm mm p o = (s, vs, evs, Val tt) ->
  forall f, In f (pi_final B p) -> fi_checks B f = true -> fi_vars B f = [].
Proof.
  intros b0 sm mm p o s vs evs E f I C. unfold SmModel.sm2mm in E. destruct (realizes B p _); [|discriminate].
  destruct (do_kfs p sm _ _ _ _) as [[[s1 vs1] ev1] [[]| | |]]; try discriminate.
  destruct (pi_final B p) as [|g gs] eqn:PF; [destruct I|].
  unfold run_final in E.
  destruct (run_pipeline _ (fst s1)) as [m r] eqn:RP. injection E as <- <- <- ->.
  clear PF. revert m RP. generalize (fst s1). clear -I C. induction (g :: gs) as [|h hs IH]; intros m0 m RP; [destruct I|].
  cbn [map run_pipeline] in RP. unfold bnd in RP.
  destruct I as [->|I].
  - destruct (fi_vars B f) as [|x l]; [reflexivity|]. rewrite C in RP. discriminate.
  - match type of RP with context [match ?q with (_, _) => _ end] => destruct q as [m1 [[]| | |]] end; try discriminate.
    exact (IH I _ _ RP).
Qed.

(** ** C121 *)
(** An unusable IMU reading leaves an existing target layer alone exactly if mrpt's insertion does; no other
    layer, and not the velocity buffer, is touched. *)
Theorem C121_existing_layer_where : forall src g o gy sensor robot m b d s' r,
  o_kind B o = KIMU B gy sensor -> src = false \/ gy = None -> g_init g = true -> g_custom g = None -> skipped B g o = false ->
  g_target g <> EmptyString -> lfind m (g_target g) = Some (LPts d) ->
  process src g o robot (m, b) = (s', r) ->
  snd s' = b /\
  ((forall k, lfind (fst s') k = lfind m k) <-> fst (o_insert B o (LPts d) robot) = LPts d).
Proof.
  intros src g o gy sensor robot m b d s' r K U GI GC SK NE F E. unfold SmModel.process in E. rewrite GI, GC in E. unfold nassert, nbnd at 1 in E. cbn [nret] in E.
  unfold process_default, special, is_cloud in E. rewrite K, SK in E. cbn [orb] in E.
  assert (PI : process_imu B add_angular src o gy sensor (m, b) = ((m, b), Val false)) by (unfold process_imu; destruct U as [-> | ->]; [reflexivity|destruct src; reflexivity]).
  unfold nbnd at 1 in E. rewrite PI in E. rewrite andb_false_r in E. unfold nbnd at 1 in E. cbn [nret] in E. unfold nbnd at 1, lay, get_or_create in E. cbn [fst] in E.
  rewrite (proj2 (String.eqb_neq _ _) NE), F in E. cbn [fst snd] in E. rewrite F in E.
  destruct (o_insert B o (LPts d) robot) as [l' dn]. unfold nbnd, put in E. cbn [fst snd] in E |- *.
  assert (S' : s' = (lset m (g_target g) l', b)) by (destruct (negb dn && g_throw g); injection E as <- <-; reflexivity).
  subst s'. cbn [fst snd]. split; [reflexivity|]. split.
  - intro H. specialize (H (g_target g)). rewrite lfind_lset, String.eqb_refl, F in H. injection H as ->. reflexivity.
  - intros -> k. rewrite lfind_lset. destruct (String.eqb_spec (g_target g) k) as [<-|]; [symmetry; exact F|reflexivity].
Qed.

(** ** C122 *)
(** A generator with a map definition that skips an observation has no effect exactly if the layer exists. *)
Theorem C122_existing_layer_where : forall src g o l robot m b,
  g_init g = true -> g_custom g = Some (Some l) -> l <> LNull -> lfind m (g_target g) <> Some LNull -> skipped B g o = true ->
  snd (process src g o robot (m, b)) = Val false /\
  ((forall k, lfind (fst (fst (process src g o robot (m, b)))) k = lfind m k) <-> lfind m (g_target g) <> None).
Proof.
  intros src g o l robot m b GI GC NN NL SK. destruct (lfind m (g_target g)) as [l0|] eqn:F.
  - assert (E : process src g o robot (m, b) = ((m, b), Val false)).
    { unfold SmModel.process. rewrite GI, GC. unfold nassert, nbnd at 1. cbn [nret]. unfold process_custom, nbnd. cbn [fst]. rewrite F. cbn [fst]. rewrite F, SK, orb_true_r.
      destruct l0; try reflexivity. congruence. }
    rewrite E. split; [reflexivity|]. split; [discriminate|reflexivity].
  - rewrite (C122_skipped_observation_creates_the_layer_refuted _ _ _ _ _ _ src g o l robot m b GI GC NN F SK).
    split; [reflexivity|]. cbn [fst]. split; [|congruence]. intro H. specialize (H (g_target g)).
    rewrite lfind_lset, String.eqb_refl, F in H. discriminate.
Qed.
End SmW.

(** a run with a final filter without formulas *)
Example where_final : let p := mkPipe unit None [] [] in
  let run p := sm2mm unit (fun _ _ b => b) (fun _ b => b) (fun _ _ p => p) sx_cls (fun a b => mkPose (fun p => compose a (compose b p)) (fun p => p)) tt sx_sm [] p (mkOpts None (Some 9%Z) []) in
  snd (run p) = Val tt /\
  snd (run (with_final unit p [mkFil unit [] true (fun _ => fun m => (ldel m "raw", Val tt))])) = Val tt /\
  snd (run (with_final unit p [mkFil unit ["vx"%string] true (fun _ => fun m => (m, Val tt))])) = Exc.
Proof. repeat split. Qed.
