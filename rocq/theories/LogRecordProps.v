(** C326, C327, C329, C331, C333: the contents of the debug record and of the log files of ICP::align(). *)
From Coq Require Import String Ascii.
From Verif Require Import Base PairingsModel MatcherModel SolverModel QualityModel IcpModel IcpSpec IcpProofs2 IcpProps FilterModel DeskewModel MapModel LogFileModel LogNameProps LogFileProps.
Open Scope nat_scope.

Section Log.
Context {PP PL PN LL NN W Env P Cov FS : Type}.
Notation pairings := (Pairings PP PL PN LL NN W).
Notation Comps := (@Components PP PL PN LL NN W Env P).
Notation log := (@Log PP PL PN LL NN W P Cov).
Notation file := (@LogFile PP PL PN LL NN W P Cov).
Variable pose_minus : P -> P -> P.
Variable log_norms : P -> Q * Q.
Variable tnorm : P -> Q.
Variable realize : nat -> Env -> res Env.
Variable fresh_match_state : Env -> Env.
Variable covariance : pairings -> P -> res Cov.
Variable variables : Env -> list (string * Q).
Variable write : FS -> string -> file -> FS * bool.
Notation run := (align_log pose_minus log_norms tnorm realize fresh_match_state covariance variables write).
Notation icp := (align pose_minus log_norms tnorm realize fresh_match_state).

(** ** Specification *)
(** the record describes the call: its guess, its parameters, its result, the details of its iterations, the variables at the end *)
Definition describes (l : log) (p : LParams) (guess : P) (env : Env) (r : @IcpResults PP PL PN LL NN W P * Cov) : Prop :=
  lg_guess l = guess /\ lg_params l = p /\ lg_result l = r /\ lg_details l = r_iterationDetails (fst r) /\ lg_variables l = variables env.
(** the functors before logging see copies of the maps, local first *)
Definition filtered (p : LParams) (h : Heap) (global local : MMap) (h' : Heap) (global' local' : MMap) : Prop :=
  exists h1, match lp_local p with None => h1 = h /\ local' = local | Some f => f h local = Ok (h1, local') end /\
             match lp_global p with None => h' = h1 /\ global' = global | Some f => f h1 global = Ok (h', global') end.
(** is this call's file written? *)
Definition counted (p : LParams) (n : N) : bool := (lp_decimation p <=? 1)%N || (n mod lp_decimation p =? 0)%N.

Lemma apply_functor_ok f h m h' m' : apply_functor f h m = Ok (h', m') ->
  match f with None => h' = h /\ m' = m | Some f => f h m = Ok (h', m') end.
Proof. destruct f; cbn; [auto|]. intros [= <- <-]. auto. Qed.
Lemma save_step d n : save_log_step d n = (((n + 1) mod 2 ^ 32)%N, if (d <=? 1)%N || (n mod d =? 0)%N then Some n else None).
Proof. unfold save_log_step. rewrite N.leb_antisym. destruct (1 <? d)%N; cbn [negb andb orb]; [|reflexivity]. destruct (n mod d =? 0)%N; reflexivity. Qed.

(** C326: a call that returns gives a record exactly if one is asked for; the record holds the maps (as left by the functors), and
    describes the call; if files are asked for, the next number is taken and, unless this one is left out by the decimation, one file is
    written, whose name is made of that number and of the recorded maps and which holds that same record with the layers as they are then;
    without files, neither the files nor the number change *)
Theorem C326_the_record : forall c p attached want global local guess w w' r out,
  run c p attached want global local guess w = Ok (w', r, out) ->
  (out = None <-> want = false) /\
  (want = true \/ generateDebugFiles (lp_icp p) = true -> exists l, (want = true -> out = Some l) /\
     describes l p guess (w_env w') r /\ filtered p (w_heap w) global local (w_heap w') (lg_global l) (lg_local l) /\
     (generateDebugFiles (lp_icp p) = true ->
        w_counter w' = ((w_counter w + 1) mod 2 ^ 32)%N /\
        w_fs w' = if counted p (w_counter w)
                  then fst (write (w_fs w) (log_filename (lp_format p) (w_counter w) (lg_global l) (lg_local l)) (file_of (w_heap w') l))
                  else w_fs w)) /\
  (generateDebugFiles (lp_icp p) = false -> w_counter w' = w_counter w /\ w_fs w' = w_fs w).
Proof.
  intros c p attached want global local guess w w' r out E. unfold align_log in E.
  destruct (icp c (lp_icp p) _ _ want guess (w_env w)) as [[env res_]| |]; cbn [rbind] in E; try discriminate.
  destruct (covariance _ _) as [cov| |]; cbn [rbind] in E; try discriminate.
  destruct (want || generateDebugFiles (lp_icp p)) eqn:LOG.
  - destruct (attached || _); cbn [rbind] in E; try discriminate.
    destruct (apply_functor (lp_local p) (w_heap w) local) as [[h1 m1]| |] eqn:F1; cbn [rbind fst snd] in E; try discriminate.
    destruct (apply_functor (lp_global p) h1 global) as [[h2 m2]| |] eqn:F2; cbn [rbind fst snd] in E; try discriminate.
    set (l := mkLog m2 m1 guess p (res_, cov) (variables env) (r_iterationDetails res_)) in *.
    injection E as EW <- EO. apply apply_functor_ok in F1, F2.
    assert (SV : save_log_file write l (mkWorld env h2 (w_counter w) (w_fs w)) =
      if generateDebugFiles (lp_icp p) then mkWorld env h2 ((w_counter w + 1) mod 2 ^ 32)%N
        (if counted p (w_counter w) then fst (write (w_fs w) (log_filename (lp_format p) (w_counter w) m2 m1) (file_of h2 l)) else w_fs w)
      else mkWorld env h2 (w_counter w) (w_fs w)).
    { unfold save_log_file. cbn [l lg_params lg_global lg_local w_env w_heap w_counter w_fs]. destruct (generateDebugFiles (lp_icp p)); cbn [negb]; [|reflexivity].
      rewrite save_step. unfold counted. destruct ((lp_decimation p <=? 1)%N || _); reflexivity. }
    rewrite SV in EW.
    split; [|split].
    + subst out. destruct want; split; intro K; congruence.
    + intros _. exists l. split; [intros ->; congruence|]. subst w'.
      destruct (generateDebugFiles (lp_icp p)); cbn [w_env w_heap w_counter w_fs].
      * split; [repeat split|]. split; [exists h1; auto|]. intros _. split; reflexivity.
      * split; [repeat split|]. split; [exists h1; auto|]. discriminate.
    + intro G. rewrite G in EW. subst w'. split; reflexivity.
  - apply orb_false_iff in LOG as [-> G]. injection E as <- <- <-. cbn [w_env w_heap w_counter w_fs].
    split; [split; reflexivity|]. split; [intros [K|K]; [discriminate|congruence]|]. auto.
Qed.

(** C327, where: undefined behaviour has no other cause than one in the components (or C135), the functors or the covariance, if the first
    matcher is attached to a source of parameters or at least one iteration is allowed *)
Theorem C327_record_is_safe_where : forall c p attached want global local guess w,
  attached = true \/ 0 < maxIterations (lp_icp p) ->
  (forall f h m, lp_local p = Some f \/ lp_global p = Some f -> f h m <> UB) -> (forall x T, covariance x T <> UB) ->
  (run c p attached want global local guess w = UB <-> icp c (lp_icp p) (mm_empty global) (mm_empty local) want guess (w_env w) = UB).
Proof.
  intros c p attached want global local guess w A F CV. unfold align_log.
  destruct (icp c (lp_icp p) _ _ want guess (w_env w)) as [[env res_]| |]; cbn [rbind]; [|split; discriminate|split; reflexivity].
  split; [|discriminate]. specialize (CV (r_finalPairings res_) (r_optimal_tf res_)). destruct (covariance _ _) as [cov| |]; cbn [rbind]; [|discriminate|congruence].
  assert (B : attached || Nat.ltb 0 (maxIterations (lp_icp p)) = true).
  { destruct A as [-> | A]; [reflexivity|]. apply Nat.ltb_lt in A. rewrite A. apply orb_true_r. }
  destruct (want || _); [|discriminate]. rewrite B. cbn [rbind].
  assert (AF : forall f h m, f = lp_local p \/ f = lp_global p -> apply_functor f h m <> UB).
  { intros [f|] h m I; cbn; [|discriminate]. apply F. destruct I as [I|I]; [left|right]; symmetry; exact I. }
  generalize (AF (lp_local p) (w_heap w) local (or_introl eq_refl)). destruct (apply_functor (lp_local p) (w_heap w) local) as [[h1 m1]| |]; cbn [rbind fst snd]; [|discriminate|congruence]. intros _.
  generalize (AF (lp_global p) h1 global (or_intror eq_refl)). destruct (apply_functor (lp_global p) h1 global) as [[h2 m2]| |]; cbn [rbind fst snd]; [|discriminate|congruence]. intros _. discriminate.
Qed.

(** C329, where: the maps of the caller are as before if the functors make new objects for the layers they change *)
Definition keeps_objects (f : Functor_) : Prop := forall h m h' m', f h m = Ok (h', m') -> forall a, a < List.length h -> nth_error h' a = nth_error h a.
Theorem C329_maps_untouched_where : forall c p attached want global local guess w w' r out,
  (forall f, lp_local p = Some f \/ lp_global p = Some f -> keeps_objects f) ->
  run c p attached want global local guess w = Ok (w', r, out) ->
  forall a, a < List.length (w_heap w) -> nth_error (w_heap w') a = nth_error (w_heap w) a.
Proof.
  intros c p attached want global local guess w w' r out K E a A.
  destruct (C326_the_record _ _ _ _ _ _ _ _ _ _ _ E) as (_ & R & _).
  destruct (want || generateDebugFiles (lp_icp p)) eqn:LOG.
  - apply orb_true_iff in LOG. destruct (R LOG) as (l & _ & _ & (h1 & F1 & F2) & _).
    assert (L1 : nth_error h1 a = nth_error (w_heap w) a).
    { destruct (lp_local p) as [f|] eqn:P1; [|destruct F1 as [-> _]; reflexivity]. exact (K f (or_introl eq_refl) _ _ _ _ F1 a A). }
    destruct (lp_global p) as [f|] eqn:P2; [|destruct F2 as [-> _]; exact L1].
    rewrite <- L1. apply (K f (or_intror eq_refl) _ _ _ _ F2). apply nth_error_Some. rewrite L1. apply nth_error_Some. exact A.
  - unfold align_log in E. rewrite LOG in E. destruct (icp c (lp_icp p) _ _ want guess (w_env w)) as [[env res_]| |]; cbn [rbind] in E; try discriminate.
    destruct (covariance _ _) as [cov| |]; cbn [rbind] in E; try discriminate. injection E as <- _ _. reflexivity.
Qed.
End Log.
Print Assumptions C326_the_record.
Print Assumptions C327_record_is_safe_where.
Print Assumptions C329_maps_untouched_where.

(** ** Files over a history *)
Section History.
Context {PP PL PN LL NN W Env P Cov : Type}.
Notation log := (@Log PP PL PN LL NN W P Cov).
Notation file := (@LogFile PP PL PN LL NN W P Cov).
(** a file system that keeps all that was written, in order *)
Definition keep_all (fs : list (string * file)) (name : string) (f : file) : list (string * file) * bool := ((fs ++ [(name, f)])%list, true).
Definition save_all (ls : list log) (w : @World Env (list (string * file))) := fold_left (fun w l => save_log_file keep_all l w) ls w.

Lemma NoDup_snoc {A} (l : list A) x : NoDup l -> ~ In x l -> NoDup (l ++ [x])%list.
Proof.
  intros N I. induction l as [|y l IH]; cbn; [constructor; [exact I|exact N]|]. inversion N as [|? ? NY NL]; subst. constructor.
  - intro H. apply in_app_or in H. destruct H as [H|[H|[]]]; [contradiction|]. subst. apply I. left. reflexivity.
  - apply IH; [exact NL|]. intro H. apply I. right. exact H.
Qed.
Lemma save_keep (l : log) (w : @World Env (list (string * file))) : save_log_file keep_all l w =
  if generateDebugFiles (lp_icp (lg_params l)) then
    mkWorld (w_env w) (w_heap w) ((w_counter w + 1) mod 2 ^ 32)%N
      (if counted (lg_params l) (w_counter w)
       then (w_fs w ++ [(log_filename (lp_format (lg_params l)) (w_counter w) (lg_global l) (lg_local l), file_of (w_heap w) l)])%list else w_fs w)
  else w.
Proof.
  unfold save_log_file. destruct (generateDebugFiles _); cbn [negb]; [|reflexivity]. rewrite save_step. unfold counted. destruct ((lp_decimation _ <=? 1)%N || _); reflexivity.
Qed.

Lemma names_of_run pre c rest : no_dollar pre = true -> c <> "$"%char -> is_digit c = false -> forall ls : list log,
  Forall (fun l => lp_format (lg_params l) = pre +++ "$UNIQUE_ID" +++ String c rest) ls ->
  forall w, (w_counter w + N.of_nat (List.length ls) < 2 ^ 32)%N -> NoDup (map fst (w_fs w)) ->
  (forall n g l, (w_counter w <= n)%N -> ~ In (log_filename (pre +++ "$UNIQUE_ID" +++ String c rest) n g l) (map fst (w_fs w))) ->
  NoDup (map fst (w_fs (save_all ls w))).
Proof.
  intros PR CD DG. induction ls as [|l ls IH]; intros FM w LE ND NI; [exact ND|]. inversion FM as [|? ? FL FR]; subst.
  cbn [save_all fold_left]. cbn [List.length] in LE. rewrite save_keep. rewrite N.mod_small by lia.
  destruct (generateDebugFiles _); [|apply IH; [exact FR|lia|exact ND|exact NI]].
  apply IH; [exact FR|cbn [w_counter]; lia| |].
  - cbn [w_fs]. destruct (counted _ _); [|exact ND]. rewrite map_app. cbn [map fst]. rewrite FL. apply NoDup_snoc; [exact ND|]. apply NI. lia.
  - intros n g m LN. cbn [w_counter w_fs] in *. destruct (counted _ _); [|apply NI; lia]. rewrite map_app. intro H. apply in_app_or in H. destruct H as [H|[H|[]]].
    + revert H. apply NI. lia.
    + cbn [fst] in H. rewrite FL in H. revert H. apply C331_one_file_per_number_where; [exact PR|exact CD|exact DG|lia].
Qed.

(** C331, over any history of fewer than 2^32 records, of any alignments with any maps and decimations: no file is written twice, if the
    number is the first placeholder of the format and is followed by neither a digit nor a dollar *)
Theorem C331_no_file_is_replaced_where : forall pre c rest (ls : list log) env h,
  no_dollar pre = true -> c <> "$"%char -> is_digit c = false ->
  Forall (fun l => lp_format (lg_params l) = pre +++ "$UNIQUE_ID" +++ String c rest) ls -> (N.of_nat (List.length ls) < 2 ^ 32)%N ->
  NoDup (map fst (w_fs (save_all ls (mkWorld env h 0%N [])))).
Proof.
  intros pre c rest ls env h PR CD DG F L. apply (names_of_run pre c rest PR CD DG ls F); [exact L|constructor|]. intros n g l _ [].
Qed.
End History.
Print Assumptions C331_no_file_is_replaced_where.

(** ** Refutations and examples, in the concrete world of IcpProps *)
Definition xcloud : Cloud := mkCloud (mkCls "CSimplePointsMap" false false false) [mkPt 1 2 3 0 0 0].
Definition xworld (fs : list (string * @LogFile nat nat nat nat nat Q xpose unit)) := mkWorld 0 [OPts xcloud] 0%N fs.
Definition one_layer : MMap := mkMM [("raw"%string, Some 0)] [] [] (Some 3) (Some "a"%string) None [].
Definition xrun (c : @Components nat nat nat nat nat Q nat xpose) (p : LParams) (attached want : bool) :=
  align_log xminus xnorms fst xrealize (fun e => e) (fun _ _ => Ok tt) (fun e => [("ICP_ITERATION"%string, inject_Z (Z.of_nat e))])
    keep_all c p attached want one_layer one_layer ((5, 5)%Q : xpose) (xworld []).

(** C327 (refuted): asking for a record is safe: with a new ICP object (whose matchers are attached to no source) and maxIterations = 0,
    align() dereferences a null pointer *)
Theorem C327_record_is_safe_refuted : exists c p, never_fail xrealize c /\ c_matchers c <> [] /\ maxIterations (lp_icp p) = 0 /\
  xrun c p false true = UB /\ exists r, xrun c p false false = Ok r.
Proof.
  exists (xcomp halving (1#2) None), (mkLP (xparams 0 false []) 1%N default_format None None).
  split; [exact C53_ex|]. split; [discriminate|]. split; [reflexivity|]. split; [vm_compute; reflexivity|]. eexists. vm_compute. reflexivity.
Qed.

(** a functor that drops the points of the layer in place *)
Definition drop_points : Functor_ := fun h m => Ok (match mm_layers m with (_, Some a) :: _ => upd h a (OPts (mkCloud (cl_cls xcloud) [])) | _ => h end, m).

(** C329 (refuted): the functors before logging, which get copies of the maps, do not change the maps of the caller: the copy has the same
    layer objects *)
Theorem C329_maps_untouched_refuted : exists p w r l,
  xrun (xcomp halving (1#2) None) p true true = Ok (w, r, Some l) /\
  contents (w_heap (xworld [])) one_layer = [("raw"%string, Some (OPts xcloud))] /\
  contents (w_heap w) one_layer = [("raw"%string, Some (OPts (mkCloud (cl_cls xcloud) [])))].
Proof.
  exists (mkLP (xparams 20 true []) 1%N default_format (Some drop_points) None).
  eexists _, _, _. split; [vm_compute; reflexivity|]. split; reflexivity.
Qed.

(** C333 (refuted): the record given to the caller keeps the maps as they were: a later change of a layer of the caller's map shows in it *)
Theorem C333_record_is_a_snapshot_refuted : exists p w r l o,
  xrun (xcomp halving (1#2) None) p true true = Ok (w, r, Some l) /\ lp_local p = None /\ lp_global p = None /\
  contents (upd (w_heap w) 0 o) (lg_local l) <> contents (w_heap w) (lg_local l).
Proof.
  exists (mkLP (xparams 20 true []) 1%N default_format None None).
  eexists _, _, _, (OPts (mkCloud (cl_cls xcloud) [])). split; [vm_compute; reflexivity|]. split; [reflexivity|]. split; [reflexivity|]. discriminate.
Qed.

(** C326, C331: a run with a record, and files with the default names, one of two *)
Example C326_case :
  let p := mkLP (mkIcpParams 20 (1#10) (1#10) true true 1 []) 2%N default_format None None in
  match xrun (xcomp halving (1#2) None) p false true with
  | Ok (w, (r, _), Some l) => r_terminationReason r = Stalled /\ lg_guess l = (5, 5)%Q /\ lg_global l = one_layer /\ List.length (lg_details l) = 6 /\
      w_counter w = 1%N /\ map fst (w_fs w) = ["icp-run-00000-local-00003a-global-00003a.icplog"%string] /\
      map fst (w_fs (save_all [l; l] w)) = ["icp-run-00000-local-00003a-global-00003a.icplog"; "icp-run-00002-local-00003a-global-00003a.icplog"]%string
  | _ => False
  end.
Proof. vm_compute. repeat split. Qed.

(** C328: the same alignment without any logging *)
Example C328_case :
  let p := mkLP (mkIcpParams 20 (1#10) (1#10) true true 1 []) 2%N default_format None None in
  let q := mkLP (mkIcpParams 20 (1#10) (1#10) false false 7 []) 1%N EmptyString None None in
  same_search (lp_icp p) (lp_icp q) /\ log_ok (lp_icp p) true /\ log_ok (lp_icp q) false /\
  (exists w r k l, xrun (xcomp halving (1#2) None) p false true = Ok (w, (r, k), Some l)) /\
  (exists w r k, xrun (xcomp halving (1#2) None) q false false = Ok (w, (r, k), None)).
Proof.
  cbv zeta. split; [repeat split|]. split; [intros _; reflexivity|]. split; [discriminate|].
  split; [eexists _, _, _, _; vm_compute; reflexivity|eexists _, _, _; vm_compute; reflexivity].
Qed.

(** C333, where: a layer that is not changed in place afterwards is still there *)
Theorem C333_record_is_a_snapshot_where : forall {PP PL PN LL NN W P Cov : Type} (l : @Log PP PL PN LL NN W P Cov) (h h' : Heap),
  (forall n a, In (n, Some a) (mm_layers (lg_local l)) \/ In (n, Some a) (mm_layers (lg_global l)) -> nth_error h' a = nth_error h a) <->
  contents h' (lg_local l) = contents h (lg_local l) /\ contents h' (lg_global l) = contents h (lg_global l).
Proof.
  intros. assert (K : forall m, (forall n a, In (n, Some a) (mm_layers m) -> nth_error h' a = nth_error h a) <-> contents h' m = contents h m).
  { intro m. unfold contents. induction (mm_layers m) as [|[n [a|]] r IH]; cbn [map fst snd].
    - split; [reflexivity|intros _ n a []].
    - split.
      + intro H. rewrite (H n a) by (left; reflexivity). f_equal. apply IH. intros n' a' I. apply (H n'). right. exact I.
      + intros H n' a' [I|I]; [injection I as <- <-; injection H as H _; exact H|]. injection H as _ H. apply (proj2 IH H n' a' I).
    - split.
      + intro H. f_equal. apply IH. intros n' a' I. apply (H n'). right. exact I.
      + intros H n' a' [I|I]; [discriminate|]. injection H as H. apply (proj2 IH H n' a' I). }
  split.
  - intro H. split; apply K; intros n a I; apply (H n); auto.
  - intros [H1 H2] n a [I|I]; [exact (proj2 (K _) H1 n a I)|exact (proj2 (K _) H2 n a I)].
Qed.
Print Assumptions C333_record_is_a_snapshot_where.
