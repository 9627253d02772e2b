(** Property C14: the TBB build of the distance-threshold matcher. *)
From Verif Require Import Base PairingsModel PairingsProofs MatcherModel PipelineProofs
  BitfieldModel BitfieldProofs PointMatcherModel PointMatcherSpec PointMatcherProofs PointMatcherProofs2
  PointMatcherProofs3 PointMatcherProofs4 PointMatcherProofs5 PointMatcherProofs6 BruteNN ParallelModel.
From Coq Require Import Lqa Permutation.

(** ** Re-matching allowed: every schedule gives the sequential pairings *)
Section Free.
Variable b : BaseParams.
Variables (thr ang : Q).
Variable search : P3 -> list (nat * P3 * Q).
Variables (lpts : list P3) (tl : TransformedLocal) (gname lname : nat).
Hypothesis HaL : allowMatchAlreadyMatchedPoints b = true.
Hypothesis HaG : allowMatchAlreadyMatchedGlobalPoints b = true.

(** what loop index [i] contributes *)
Definition contrib (i : nat) : list Pair :=
  match local_index tl i with
  | Ok li => match nth_error (tl_pts tl) i, nth_error lpts li with
             | Some q, Some lp => map (new_pair gname lname li lp) (in_range thr ang search q)
             | _, _ => [] end
  | _ => [] end.
Definition rest (t : Task) : list Pair :=
  match tk_cur t with Some (li, lp, ns) => map (new_pair gname lname li lp) ns | None => [] end
  ++ flat_map contrib (tk_todo t).

Lemma task_step_free ms t ms' t' : task_step b thr ang search lpts tl gname lname ms t ms' t' -> tk_pend t = None ->
  tk_out t ++ rest t = tk_out t' ++ rest t' /\ tk_pend t' = None /\ ms' = ms.
Proof.
  intros H HP. inversion H; subst; cbn in HP; try discriminate; try congruence; cbn [tk_out tk_pend]; unfold rest; cbn [tk_cur tk_todo].
  - split; [|auto]. cbn [flat_map app]. f_equal. f_equal. unfold contrib.
    match goal with E1 : local_index _ _ = _, E2 : nth_error (tl_pts tl) _ = _, E3 : nth_error lpts _ = _ |- _ => rewrite E1, E2, E3 end.
    reflexivity.
  - split; [reflexivity|auto].
  - split; [|auto]. rewrite <- !app_assoc. reflexivity.
Qed.

Lemma par_exec_free s s' : par_exec b thr ang search lpts tl gname lname s s' ->
  Forall (fun t => tk_pend t = None) (snd s) ->
  map (fun t => tk_out t ++ rest t) (snd s) = map (fun t => tk_out t ++ rest t) (snd s') /\ fst s' = fst s.
Proof.
  induction 1 as [s|s s1 s2 H1 H2 IH]; intro HP; [auto|]. inversion H1 as [ms ms' bf t t' af HT]; subst. cbn [fst snd] in *.
  apply Forall_app in HP as [P1 P2]. inversion P2 as [|? ? P3 P4]; subst.
  destruct (task_step_free _ _ _ _ HT P3) as [E1 [E2 ->]].
  destruct IH as [I1 I2]; [apply Forall_app; split; [exact P1|constructor; assumption]|].
  split; [|exact I2]. rewrite <- I1, !map_app. cbn. rewrite E1. reflexivity.
Qed.

Lemma par_final ts ms ms' leaves : par_exec b thr ang search lpts tl gname lname (ms, map task_init leaves) (ms', ts) ->
  Forall task_done ts -> par_result ts = flat_map contrib (concat leaves) /\ ms' = ms.
Proof.
  intros H HD. apply par_exec_free in H as [H1 H2]; [|cbn; rewrite Forall_forall; intros t Ht; apply in_map_iff in Ht as [l [<- _]]; reflexivity].
  cbn [snd fst] in *. split; [|exact H2]. unfold par_result.
  rewrite map_map in H1. cbn in H1.
  assert (map tk_out ts = map (flat_map contrib) leaves) as ->.
  { rewrite (map_ext _ (flat_map contrib)) in H1 by (intro; reflexivity). rewrite H1. clear -HD.
    induction HD as [|t ts [D1 [D2 D3]] _ IH]; [reflexivity|]. cbn. rewrite IH. f_equal.
    unfold rest. rewrite D1, D2. cbn. rewrite app_nil_r. reflexivity. }
  clear. induction leaves as [|l ls IH]; [reflexivity|]. cbn. rewrite flat_map_app, IH. reflexivity.
Qed.
End Free.

(** The sequential loop contributes the same pairs. *)
Lemma cut_prefix thr ns : exists r, ns = cut thr ns ++ r.
Proof. induction ns as [|x ns [r IH]]; [exists []; reflexivity|]. cbn. destruct (Qle_bool thr (snd x)); [exists (x :: ns); reflexivity|].
  exists r. cbn. rewrite <- IH. reflexivity. Qed.

Lemma dt_neighbours_free b lpts g l li lp thr ns : allowMatchAlreadyMatchedGlobalPoints b = true ->
  nth_error lpts li = Some lp -> forall ms out s',
  dt_neighbours b lpts g l li thr ns (ms, out) = Ok s' ->
  fst s' = ms /\ paired_pt2pt (snd s') = paired_pt2pt out ++ map (new_pair g l li lp) (cut thr ns).
Proof.
  intros Ha Hl. induction ns as [|[[gi gpt] err] ns IH]; intros ms out s' H; cbn [dt_neighbours] in H; cbn [cut snd].
  - injection H as <-. cbn. rewrite app_nil_r. auto.
  - destruct (Qle_bool thr err); [injection H as <-; cbn; rewrite app_nil_r; auto|].
    unfold dt_add_pair in H. rewrite Ha, Hl in H. cbn [rbind] in H. apply IH in H as [H1 H2]. split; [exact H1|].
    rewrite H2. cbn. rewrite <- app_assoc. reflexivity.
Qed.

Lemma dt_loop_free b thr ang k nn lpts tl g l : allowMatchAlreadyMatchedGlobalPoints b = true ->
  allowMatchAlreadyMatchedPoints b = true -> forall is ms out s',
  dt_loop b thr ang k nn lpts tl g l is (ms, out) = Ok s' ->
  fst s' = ms /\ paired_pt2pt (snd s') = paired_pt2pt out ++ flat_map (contrib thr ang (fun q => nn_search nn q k) lpts tl g l) is.
Proof.
  intros Ha HL. induction is as [|i is IH]; intros ms out s' H; cbn [dt_loop] in H.
  - injection H as <-. cbn. rewrite app_nil_r. auto.
  - cbn [flat_map]. unfold contrib at 1. destruct (local_index tl i) as [li| |]; cbn [rbind] in H; try discriminate.
    rewrite HL in H. cbn [rbind] in H. destruct (nth_error (tl_pts tl) i) as [q|]; [|discriminate].
    destruct (dt_neighbours b lpts g l li _ (nn_search nn q k) (ms, out)) as [[ms1 out1]| |] eqn:E; cbn [rbind] in H; try discriminate.
    destruct (nth_error lpts li) as [lp|] eqn:El.
    + apply (dt_neighbours_free _ _ _ _ _ lp _ _ Ha El) in E as [E1 E2]. cbn in E1, E2. subst ms1.
      apply IH in H as [H1 H2]. split; [exact H1|]. rewrite H2, E2, app_assoc. reflexivity.
    + (* without the local point only an empty neighbour list is possible *)
      assert (ms1 = ms /\ out1 = out) as [-> ->].
      { clear -E Ha El. destruct (nn_search nn q k) as [|[[gi gpt] err] ns]; cbn [dt_neighbours] in E; [injection E as <- <-; auto|].
        destruct (Qle_bool _ err); [injection E as <- <-; auto|]. unfold dt_add_pair in E. rewrite Ha, El in E. discriminate. }
      apply IH in H as [H1 H2]. split; [exact H1|]. exact H2.
Qed.

Theorem C14_parallel_equals_sequential :
  forall b thr ang k nn lpts tl g l (leaves : list (list nat)) ms ms' ts out ms'' out'',
  allowMatchAlreadyMatchedPoints b = true -> allowMatchAlreadyMatchedGlobalPoints b = true ->
  (* the ranges cover the loop, in order *)
  concat leaves = seq 0 (length lpts) ->
  (* any schedule, run to completion *)
  par_exec b thr ang (fun q => nn_search nn q k) lpts tl g l (ms, map task_init leaves) (ms', ts) ->
  Forall task_done ts ->
  (* the loop of the sequential build *)
  dt_loop b thr ang k nn lpts tl g l (seq 0 (length lpts)) (ms, out) = Ok (ms'', out'') ->
  paired_pt2pt out'' = paired_pt2pt out ++ par_result ts /\ ms'' = ms'.
Proof.
  intros * HaL HaG HL HE HD HS. apply (dt_loop_free _ _ _ _ _ _ _ _ _ HaG HaL) in HS as [S1 S2]. cbn in S1, S2.
  apply (par_final _ _ _ _ _ _ _ _ HaL HaG) in HE as [E1 ->]; [|exact HD]. rewrite S2, E1, HL. auto.
Qed.
Print Assumptions C14_parallel_equals_sequential.

(** Two schedules (and two ways of cutting the loop) give the same list of pairings, also
    with the radius search. *)
Theorem C14_schedule_independent :
  forall b thr ang search lpts tl g l leaves1 leaves2 ms ms1 ms2 ts1 ts2,
  allowMatchAlreadyMatchedPoints b = true -> allowMatchAlreadyMatchedGlobalPoints b = true ->
  concat leaves1 = concat leaves2 ->
  par_exec b thr ang search lpts tl g l (ms, map task_init leaves1) (ms1, ts1) -> Forall task_done ts1 ->
  par_exec b thr ang search lpts tl g l (ms, map task_init leaves2) (ms2, ts2) -> Forall task_done ts2 ->
  par_result ts1 = par_result ts2 /\ ms1 = ms2.
Proof.
  intros * HaL HaG HC H1 D1 H2 D2.
  apply (par_final _ _ _ _ _ _ _ _ HaL HaG) in H1 as [E1 ->]; [|exact D1].
  apply (par_final _ _ _ _ _ _ _ _ HaL HaG) in H2 as [E2 ->]; [|exact D2].
  rewrite E1, E2, HC. auto.
Qed.
Print Assumptions C14_schedule_independent.

(** ** Any flags: every pairing of every schedule respects the bound *)
Lemma cut_below thr ns x : In x (cut thr ns) -> In x ns /\ (snd x < thr)%Q.
Proof.
  induction ns as [|y ns IH]; cbn; [intros []|]. destruct (Qle_bool thr (snd y)) eqn:E; [intros []|].
  intros [->|H]; [|destruct (IH H); auto]. split; [auto|]. apply Qle_bool_false. exact E.
Qed.

Definition good_pair (thr ang : Q) (search : P3 -> list (nat * P3 * Q)) (lpts : list P3) (tl : TransformedLocal)
  (g l : nat) (p : Pair) : Prop :=
  exists i q, local_index tl i = Ok (p_localIdx p) /\ nth_error (tl_pts tl) i = Some q
    /\ nth_error lpts (p_localIdx p) = Some (p_local p)
    /\ In (p_globalIdx p, p_global p, p_err p) (search q)
    /\ (p_err p < thr * thr + ang * range_sq q)%Q /\ p_glayer p = g /\ p_llayer p = l.

Theorem C14_parallel_pairs_within_bound :
  forall b thr ang search lpts tl g l leaves ms ms' ts,
  par_exec b thr ang search lpts tl g l (ms, map task_init leaves) (ms', ts) ->
  Forall (good_pair thr ang search lpts tl g l) (par_result ts).
Proof.
  intros *. set (inv := fun t : Task => Forall (good_pair thr ang search lpts tl g l) (tk_out t)
    /\ match tk_cur t with Some (li, lp, ns) =>
         Forall (fun x => good_pair thr ang search lpts tl g l (new_pair g l li lp x)) ns
         /\ match tk_pend t with Some x => good_pair thr ang search lpts tl g l (new_pair g l li lp x) | None => True end
       | None => True end).
  assert (Hstep : forall ms t ms' t', task_step b thr ang search lpts tl g l ms t ms' t' -> inv t -> inv t').
  { intros m t m' t' H [I1 I2]. inversion H; subst; unfold inv; cbn [tk_out tk_cur tk_pend] in *.
    - auto.
    - split; [exact I1|]. split; [|exact I]. rewrite Forall_forall. intros x Hx. apply cut_below in Hx as [X1 X2].
      eexists i, q. unfold new_pair. cbn. repeat split; auto. destruct x as [[? ?] ?]. exact X1.
    - auto.
    - destruct I2 as [I2 _]. inversion I2; subst. split; [apply Forall_app; auto|auto].
    - destruct I2 as [I2 _]. inversion I2; subst. auto.
    - destruct I2 as [I2 _]. inversion I2; subst. auto.
    - destruct I2 as [I2 I3]. split; [apply Forall_app; auto|auto]. }
  intro H. assert (Forall inv ts) as HI.
  { remember (ms, map task_init leaves) as s0. remember (ms', ts) as s1.
    assert (Forall inv (snd s0)) as H0.
    { subst s0. cbn. rewrite Forall_forall. intros t Ht. apply in_map_iff in Ht as [x [<- _]]. split; [constructor|exact I]. }
    clear Heqs0. revert H0 Heqs1. induction H as [s|s s1' s2 H1 H2 IH]; intros H0 E; [subst; exact H0|].
    apply IH; [|exact E]. inversion H1; subst. cbn in *. apply Forall_app in H0 as [A B]. inversion B; subst.
    apply Forall_app. split; [exact A|]. constructor; [|assumption]. eapply Hstep; eassumption. }
  unfold par_result. clear -HI. induction HI as [|t ts [H _] _ IH]; [constructor|]. cbn. apply Forall_app. auto.
Qed.
Print Assumptions C14_parallel_pairs_within_bound.

(** ** Every schedule terminates *)
Section Term.
Variables (b : BaseParams) (thr ang : Q) (search : P3 -> list (nat * P3 * Q)) (lpts : list P3) (tl : TransformedLocal) (g l : nat).
Definition cost (i : nat) : nat :=
  match nth_error (tl_pts tl) i with Some q => 2 + 2 * length (in_range thr ang search q) | None => 1 end.
Definition tmeasure (t : Task) : nat :=
  list_sum (map cost (tk_todo t))
  + match tk_cur t with Some (_, _, ns) => 1 + 2 * length ns | None => 0 end
  + match tk_pend t with Some _ => 1 | None => 0 end.
Lemma tmeasure_dec ms t ms' t' : task_step b thr ang search lpts tl g l ms t ms' t' -> tmeasure t' < tmeasure t.
Proof.
  intro H. inversion H; subst; unfold tmeasure; cbn [tk_todo tk_cur tk_pend map list_sum fold_right length]; try lia.
  - assert (1 <= cost i) by (unfold cost; destruct (nth_error (tl_pts tl) i); lia). unfold list_sum. lia.
  - unfold cost at 2. match goal with E : nth_error (tl_pts tl) i = _ |- _ => rewrite E end. unfold list_sum. lia.
Qed.
End Term.

Theorem C14_every_schedule_terminates :
  forall b thr ang search lpts tl g l s, 
  Acc (fun s2 s1 => par_step b thr ang search lpts tl g l s1 s2) s.
Proof.
  intros *. remember (list_sum (map (tmeasure thr ang search tl) (snd s))) as n eqn:E.
  revert s E. induction n as [n IH] using lt_wf_ind. intros s E. constructor. intros s2 H.
  apply (IH (list_sum (map (tmeasure thr ang search tl) (snd s2)))); [|reflexivity].
  inversion H as [ms ms' bf t t' af HT]; subst. cbn [snd]. rewrite !map_app. cbn [map].
  rewrite !list_sum_app. cbn [list_sum fold_right]. apply tmeasure_dec in HT. unfold list_sum. lia.
Qed.
Print Assumptions C14_every_schedule_terminates.

(** ** Re-matching forbidden: one task never pairs a global point twice... *)
Theorem C128_one_range_no_global_twice_partial :
  forall b thr ang search lpts tl g l is ms ms' t,
  allowMatchAlreadyMatchedGlobalPoints b = false ->
  par_exec b thr ang search lpts tl g l (ms, [task_init is]) (ms', [t]) ->
  NoDup (map gkey (tk_out t)) /\ Forall (fun p => ~ marked (ms_global ms) (gkey p)) (tk_out t).
Proof.
  intros * Ha. set (inv := fun s : MatchState * list Task => exists t, snd s = [t] /\
     NoDup (map gkey (tk_out t)) /\ Forall (fun p => marked (ms_global (fst s)) (gkey p)) (tk_out t)
     /\ Forall (fun p => ~ marked (ms_global ms) (gkey p)) (tk_out t)
     /\ (forall x, marked (ms_global ms) x -> marked (ms_global (fst s)) x)
     /\ match tk_pend t with Some x => ~ In (g, fst (fst x)) (map gkey (tk_out t)) /\ ~ marked (ms_global ms) (g, fst (fst x)) | None => True end).
  assert (Hstep : forall s s', par_step b thr ang search lpts tl g l s s' -> inv s -> inv s').
  { intros s s' H [t0 [E [I1 [I2 [I3 [I4 I5]]]]]]. inversion H as [m m' bf t1 t' af HT]; subst. cbn [snd fst] in *.
    destruct bf as [|? [|? ?]]; try discriminate. injection E as <- ->. exists t'. split; [reflexivity|].
    cbn [app fst snd] in *.
    inversion HT; subst; cbn [tk_out tk_pend] in *; try (split; [|split; [|split; [|split]]]; auto; fail); try congruence.
    - split; [exact I1|]. split; [exact I2|]. split; [exact I3|]. split; [exact I4|]. split.
      + intro X. apply in_map_iff in X as [p [E1 Hp]]. rewrite Forall_forall in I2. specialize (I2 p Hp). rewrite E1 in I2.
        unfold marked in I2. cbn in I2. congruence.
      + intro X. apply I4 in X. unfold marked in X. cbn in X. congruence.
    - match goal with E : mark_both _ _ _ _ _ = _ |- _ => apply mark_both_spec in E as [M1 [M2 [M3 M4]]] end.
      destruct I5 as [I5 I6]. split; [|split; [|split; [|split]]]; auto.
      + rewrite map_app. apply NoDup_app_disjoint; [exact I1|repeat constructor; intros []|].
        cbn. intros k Hk [<-|[]]. exact (I5 Hk).
      + apply Forall_app. split; [|repeat constructor; exact M2]. eapply Forall_impl; [|exact I2]. cbn. auto.
      + apply Forall_app. split; [exact I3|]. repeat constructor. exact I6. }
  intro H. assert (inv (ms', [t])) as [t0 [E [I1 [I2 [I3 _]]]]].
  { remember (ms, [task_init is]) as s0. remember (ms', [t]) as s1. assert (inv s0) as H0.
    { subst s0. exists (task_init is). split; [reflexivity|]. cbn. repeat split; auto; constructor. }
    clear Heqs0 Heqs1. induction H as [s|s s1' s2 H1 H2 IH]; [exact H0|]. apply IH. eapply Hstep; eassumption. }
  cbn in E. injection E as <-. auto.
Qed.
Print Assumptions C128_one_range_no_global_twice_partial.

(** ... but two tasks can: both read the mark before either sets it. *)
Definition ex_pg : Layers := pts_layers [(0, [mkP3 0 0 0])].
Definition ex_pl : list P3 := [mkP3 (1#10) 0 0; mkP3 0 (1#10) 0].
Definition ex_ptl : TransformedLocal := mkTL (mkP3 0 0 0) (mkP3 1 1 0) None ex_pl.
Definition ex_pb : BaseParams := mkBase [] 0 true false 0.
Definition ex_pms : MatchState :=
  match fresh_ms ex_pg (pts_layers [(0, ex_pl)]) with Ok m => m | _ => mkMS [] [] end.

Theorem C128_forbidden_global_reuse_refuted :
  exists b thr search lpts tl g l leaves ms ms' ts gl,
  fresh_ms [(g, gl)] (pts_layers [(l, lpts)]) = Ok ms
  /\ allowMatchAlreadyMatchedGlobalPoints b = false
  /\ concat leaves = seq 0 (length lpts)
  /\ par_exec b thr 0 search lpts tl g l (ms, map task_init leaves) (ms', ts) /\ Forall task_done ts
  /\ exists i j p q, i <> j /\ nth_error (par_result ts) i = Some p /\ nth_error (par_result ts) j = Some q
     /\ gkey p = gkey q.
Proof.
  set (nn := brute [mkP3 0 0 0]).
  exists ex_pb, 1%Q, (fun q => nn_search nn q 1), ex_pl, ex_ptl, 0, 0, [[0]; [1]], ex_pms.
  set (d0 := sqd (mkP3 (1#10) 0 0) (mkP3 0 0 0)). set (d1 := sqd (mkP3 0 (1#10) 0) (mkP3 0 0 0)).
  set (x0 := (0, mkP3 0 0 0, d0)). set (x1 := (0, mkP3 0 0 0, d1)).
  set (p0 := new_pair 0 0 0 (mkP3 (1#10) 0 0) x0). set (p1 := new_pair 0 0 1 (mkP3 0 (1#10) 0) x1).
  destruct (mark_both ex_pms 0 0 0 0) as [m1| |] eqn:E1; [|vm_compute in E1; discriminate|vm_compute in E1; discriminate].
  destruct (mark_both m1 0 1 0 0) as [m2| |] eqn:E2; [|vm_compute in E1; injection E1 as <-; vm_compute in E2; discriminate
    |vm_compute in E1; injection E1 as <-; vm_compute in E2; discriminate].
  exists m2, [mkTask [] None None [p0]; mkTask [] None None [p1]], (pts_layer [mkP3 0 0 0]).
  split; [reflexivity|]. split; [reflexivity|]. split; [reflexivity|]. split; [|split].
  - (* start 0; read 0; start 1; read 1; mark 0; mark 1; end; end *)
    eapply pe_step. { eapply (ps_step _ _ _ _ _ _ _ _ _ _ []). eapply ts_start with (i := 0) (li := 0) (q := mkP3 (1#10) 0 0) (lp := mkP3 (1#10) 0 0); auto. }
    change (in_range 1 0 (fun q => nn_search nn q 1) (mkP3 (1#10) 0 0)) with [x0].
    eapply pe_step. { eapply (ps_step _ _ _ _ _ _ _ _ _ _ []). eapply ts_read; [reflexivity|vm_compute; reflexivity]. }
    eapply pe_step. { eapply (ps_step _ _ _ _ _ _ _ _ _ _ [_]). eapply ts_start with (i := 1) (li := 1) (q := mkP3 0 (1#10) 0) (lp := mkP3 0 (1#10) 0); auto. }
    change (in_range 1 0 (fun q => nn_search nn q 1) (mkP3 0 (1#10) 0)) with [x1].
    eapply pe_step. { eapply (ps_step _ _ _ _ _ _ _ _ _ _ [_]). eapply ts_read; [reflexivity|vm_compute; reflexivity]. }
    eapply pe_step. { eapply (ps_step _ _ _ _ _ _ _ _ _ _ []). eapply ts_mark. exact E1. }
    eapply pe_step. { eapply (ps_step _ _ _ _ _ _ _ _ _ _ [_]). eapply ts_mark. exact E2. }
    eapply pe_step. { eapply (ps_step _ _ _ _ _ _ _ _ _ _ []). eapply ts_end. }
    eapply pe_step. { eapply (ps_step _ _ _ _ _ _ _ _ _ _ [_]). eapply ts_end. }
    apply pe_refl.
  - repeat constructor.
  - exists 0, 1, p0, p1. split; [discriminate|]. repeat split.
Qed.
Print Assumptions C128_forbidden_global_reuse_refuted.

(** With more than one pairing per point the TBB build searches only within the metric
    threshold, so its pairings differ from those of the sequential build as soon as an
    angular threshold is used. *)
Definition radius_search (nn : NNMap) (k : nat) (r2 : Q) (q : P3) : list (nat * P3 * Q) :=
  filter (fun x => Qle_bool (snd x) r2) (nn_search nn q k).
Theorem C14_radius_search_same_without_angle :
  forall nn k thr q, nn_correct nn ->
  in_range thr 0 (radius_search nn k (qsq thr)) q = in_range thr 0 (fun q => nn_search nn q k) q.
Proof.
  intros nn k thr q HN. unfold in_range, radius_search.
  destruct (HN q k) as [_ [_ [_ [HSo _]]]]. set (T := (qsq thr + 0 * normSqr q)%Q).
  assert (HT : (T == qsq thr)%Q) by (unfold T; lra). revert HSo.
  generalize (nn_search nn q k) as ns. clear HN. induction ns as [|x ns IH]; intro HSo; [reflexivity|].
  assert (HSo' : forall a i g d b j h e c, ns = a ++ (i, g, d) :: b ++ (j, h, e) :: c -> (d <= e)%Q).
  { intros a i g d b0 j h e c ->. eapply (HSo (x :: a)). reflexivity. }
  cbn [filter cut]. destruct (Qle_bool (snd x) (qsq thr)) eqn:E1.
  - cbn [cut]. rewrite (IH HSo'). reflexivity.
  - apply Qle_bool_false in E1. destruct (Qle_bool T (snd x)) eqn:E2; [|apply Qle_bool_false in E2; lra].
    assert (Hall : forall y, In y ns -> (qsq thr < snd y)%Q).
    { intros [[j h] e] Hy. destruct x as [[i g] d]. cbn in *. apply in_split in Hy as [a [c ->]].
      specialize (HSo [] i g d a j h e c eq_refl). lra. }
    clear -Hall HT. induction ns as [|y ns IH]; [reflexivity|]. cbn [filter].
    destruct (Qle_bool (snd y) (qsq thr)) eqn:E; [apply Qle_bool_iff in E; specialize (Hall y (or_introl eq_refl)); lra|].
    apply IH. intros z Hz. apply Hall. right. exact Hz.
Qed.
Print Assumptions C14_radius_search_same_without_angle.

Theorem C129_builds_differ_with_angle_refuted :
  exists nn k thr ang q, nn_correct nn /\ (0 < ang)%Q /\ 1 < k
  /\ in_range thr ang (radius_search nn k (qsq thr)) q <> in_range thr ang (fun q => nn_search nn q k) q.
Proof.
  exists (brute [mkP3 95 0 0]), 2, 1%Q, (76#10000)%Q, (mkP3 90 0 0). split; [apply brute_correct|].
  split; [reflexivity|]. split; [lia|]. vm_compute. discriminate.
Qed.
Print Assumptions C129_builds_differ_with_angle_refuted.

(** A completed interleaved run with re-matching allowed (the hypotheses of the first two
    theorems), its result, and the sequential one. *)
Example C14_ex :
  let nn := brute [mkP3 0 0 0] in
  let b := mkBase [] 0 true true 0 in
  exists ts, par_exec b 1 0 (fun q => nn_search nn q 1) ex_pl ex_ptl 0 0 (ex_pms, map task_init [[0]; [1]]) (ex_pms, ts)
  /\ Forall task_done ts /\ map (fun p => (p_globalIdx p, p_localIdx p)) (par_result ts) = [(0, 0); (0, 1)]
  /\ exists out, dt_loop b 1 0 1 nn ex_pl ex_ptl 0 0 (seq 0 (length ex_pl)) (ex_pms, pairings_empty_ctor) = Ok (ex_pms, out).
Proof.
  intros nn b.
  set (x0 := (0, mkP3 0 0 0, sqd (mkP3 (1#10) 0 0) (mkP3 0 0 0))).
  set (x1 := (0, mkP3 0 0 0, sqd (mkP3 0 (1#10) 0) (mkP3 0 0 0))).
  eexists. split; [|split; [|split]].
  - eapply pe_step. { eapply (ps_step _ _ _ _ _ _ _ _ _ _ [_]). eapply ts_start with (i := 1) (li := 1) (q := mkP3 0 (1#10) 0) (lp := mkP3 0 (1#10) 0); auto. }
    change (in_range 1 0 (fun q => nn_search nn q 1) (mkP3 0 (1#10) 0)) with [x1].
    eapply pe_step. { eapply (ps_step _ _ _ _ _ _ _ _ _ _ []). eapply ts_start with (i := 0) (li := 0) (q := mkP3 (1#10) 0 0) (lp := mkP3 (1#10) 0 0); auto. }
    change (in_range 1 0 (fun q => nn_search nn q 1) (mkP3 (1#10) 0 0)) with [x0].
    eapply pe_step. { eapply (ps_step _ _ _ _ _ _ _ _ _ _ [_]). eapply ts_free. reflexivity. }
    eapply pe_step. { eapply (ps_step _ _ _ _ _ _ _ _ _ _ []). eapply ts_free. reflexivity. }
    eapply pe_step. { eapply (ps_step _ _ _ _ _ _ _ _ _ _ [_]). eapply ts_end. }
    eapply pe_step. { eapply (ps_step _ _ _ _ _ _ _ _ _ _ []). eapply ts_end. }
    apply pe_refl.
  - repeat constructor.
  - reflexivity.
  - eexists. vm_compute. reflexivity.
Qed.
