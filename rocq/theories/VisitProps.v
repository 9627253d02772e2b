(** C26, C80-C83: the weights the Horn and OLAE solvers give to each correspondence. *)
From Coq Require Import Reals List Lra Lia.
From Verif Require Import Base GeomModel VisitModel VisitSpec.
Import ListNotations.
Open Scope R_scope.

Lemma rbind_ok {A B} (x : res A) (f : A -> res B) b : rbind x f = Ok b -> exists a, x = Ok a /\ f a = Ok b.
Proof. destruct x; simpl; intros H; try discriminate. exists a. auto. Qed.

Lemma increasing_tail a l : increasing (a :: l) -> increasing l.
Proof. destruct l; simpl; tauto. Qed.
Lemma increasing_lt a l : increasing (a :: l) -> forall x, In x l -> (a < x)%nat.
Proof.
  revert a. induction l as [|b l IH]; intros a H x I; [destruct I|].
  destruct H as [L H]. destruct I as [<-|I]; [exact L|]. specialize (IH b H x I). lia.
Qed.

Section Proof.
Variables (p : VPairs) (wp : VWeights) (ctl ctg : V3) (outl : list nat) (normalize : bool).
Let wa := (wp_pt2pt wp * (1 / class_total p wp), wp_ln2ln wp * (1 / class_total p wp), wp_pl2pl wp * (1 / class_total p wp)).
Notation fate_of' := (fate_of p wp ctl ctg outl normalize).
Notation used' := (used_from p wp ctl ctg outl normalize).
Notation outl' := (outliers_from p wp ctl ctg outl normalize).

Variable N : nat.

(** the iterator over the blocks is at the block of the next point *)
Definition at_block (i : nat) (bl : list (nat * R)) (st : nat) : Prop :=
  Forall (fun b => (0 < fst b)%nat) bl /\ bl <> [] /\ (st <= i)%nat /\
  match bl with [] => True | (n, _) :: _ => (i <= st + n)%nat end /\
  (N <= st + block_total bl)%nat /\
  (forall c, In c (boundaries st bl) -> (c < N)%nat -> ~ In c outl) /\
  (forall j, (i <= j < N)%nat -> block_weight bl (j - st) = Some (pair_block_weight p j)).

Definition next_ok (i : nat) (nx : list nat) : Prop :=
  increasing nx /\ (forall x, In x nx <-> In x outl /\ (i <= x)%nat).

Lemma next_ok_skip i nx : next_ok i (i :: nx) -> next_ok (S i) nx.
Proof.
  intros [A B]. split; [eapply increasing_tail; exact A|]. intros x. split.
  - intros I. assert (L := increasing_lt _ _ A x I). split; [|lia]. apply B. right; exact I.
  - intros [I L]. assert (J : In x (i :: nx)) by (apply B; split; [exact I|lia]). destruct J as [E|J]; [lia|exact J].
Qed.

Lemma next_ok_keep i nx : next_ok i nx -> ~ In i outl -> next_ok (S i) nx.
Proof.
  intros [A B] NI. split; [exact A|]. intros x. rewrite B. split; intros [I L]; (split; [exact I|]); [|lia].
  destruct (Nat.eq_dec i x) as [<-|]; [contradiction|lia].
Qed.

Lemma next_head i nx : next_ok i nx -> match nx with o :: _ => Nat.eqb i o | [] => false end = true <-> In i outl.
Proof.
  intros [A B]. destruct nx as [|o os].
  - split; [discriminate|]. intros I. exfalso. apply (proj2 (B i)). split; [exact I|lia].
  - rewrite Nat.eqb_eq. split.
    + intros ->. apply B. left; reflexivity.
    + intros I. assert (J : In i (o :: os)) by (apply B; split; [exact I|lia]). destruct J as [E|J]; [symmetry; exact E|].
      assert (L := increasing_lt _ _ A i J). assert (K : In o (o :: os)) by (left; reflexivity). apply B in K. lia.
Qed.

(** the move of the iterator *)
Lemma step_block_ok i bl st : at_block i bl st -> (i < N)%nat ->
  exists bl' st', step_block i bl st = Ok (bl', st', pair_block_weight p i) /\ at_block (S i) bl' st'.
Proof.
  intros [POS [NE [LE [HD [TOT [BND W]]]]]] LT. destruct bl as [|[n w] rest]; [contradiction|].
  inversion POS as [|? ? P1 POS']; subst. simpl in P1. unfold step_block.
  destruct (Nat.leb_spec (st + n) i) as [L|L].
  - assert (E : (i = st + n)%nat) by lia. simpl in TOT.
    destruct rest as [|[n' w'] rest']; [simpl in TOT; lia|].
    inversion POS' as [|? ? P2 POS'']; subst. simpl in P2.
    assert (WW := W (st + n)%nat ltac:(lia)). simpl in WW.
    replace (st + n - st)%nat with n in WW by lia. rewrite Nat.ltb_irrefl, Nat.sub_diag in WW.
    destruct (Nat.ltb_spec 0 n'); [|lia]. injection WW as WW.
    exists ((n', w') :: rest'), (st + n)%nat. split; [rewrite WW; reflexivity|].
    split; [exact POS'|]. split; [discriminate|]. split; [lia|]. split; [lia|]. split; [simpl in *; lia|]. split.
    + intros c I. apply BND. right. exact I.
    + intros j J. specialize (W j ltac:(lia)). simpl in W.
      destruct (Nat.ltb_spec (j - st) n); [lia|]. replace (j - st - n)%nat with (j - (st + n))%nat in W by lia.
      exact W.
  - exists ((n, w) :: rest), st. split.
    + assert (WW := W i ltac:(lia)). simpl in WW. destruct (Nat.ltb_spec (i - st) n); [|lia].
      injection WW as WW. rewrite WW. reflexivity.
    + split; [exact POS|]. split; [discriminate|]. split; [lia|]. split; [lia|]. split; [exact TOT|]. split; [exact BND|].
      intros j J. apply W. lia.
Qed.

Lemma at_block_skip i bl st : at_block i bl st -> In i outl -> (i < N)%nat -> at_block (S i) bl st.
Proof.
  intros [POS [NE [LE [HD [TOT [BND W]]]]]] I LT. repeat (split; [assumption || lia|]).
  split.
  - destruct bl as [|[n w] rest]; [exact HD|]. destruct (Nat.eq_dec i (st + n)) as [E|]; [|lia].
    exfalso. apply (BND i); [left; symmetry; exact E|exact LT|exact I].
  - split; [exact TOT|]. split; [exact BND|]. intros j J. apply W. lia.
Qed.

Definition block_inv (i : nat) (s : vstate) : Prop := (i < N)%nat -> at_block i (vs_blocks s) (vs_start s).

Lemma at_block_inv i bl st : at_block i bl st -> (i < N)%nat -> at_block i bl st.
Proof. auto. Qed.

(** the point pairs come first *)
Definition pts_first (i : nat) (its : list item) : Prop :=
  forall k it, nth_error its k = Some it -> (match it with IPt _ _ => True | _ => False end <-> (i + k < N)%nat).

Lemma emit_ok i b r w s s' : emit wp i b r w s = Ok s' ->
  s' = mkVS (vs_blocks s) (vs_start s) (vs_next s) (vs_new s)
            (mkCall i b r (w * kernel_factor wp b r) :: vs_calls s) (vs_sum s + w * kernel_factor wp b r) (vs_discarded s) /\
  0 < w * kernel_factor wp b r.
Proof.
  unfold emit, kernel_factor. destruct (wp_kernel wp) as [f|].
  - destruct (wp_current wp) as [T|]; [|discriminate]. simpl. destruct (Rlt_dec _ _) as [L|]; [|discriminate].
    intros E. injection E as <-. split; [reflexivity|exact L].
  - simpl. destruct (Rlt_dec 0 w) as [L|]; [|discriminate]. intros E. injection E as <-.
    replace (w * 1) with w by ring. split; [reflexivity|exact L].
Qed.

Lemma emit_not_ub i b r w s : emit wp i b r w s <> UB.
Proof.
  unfold emit. destruct (wp_kernel wp) as [f|]; [destruct (wp_current wp)|]; simpl; try discriminate;
    destruct (Rlt_dec _ _); discriminate.
Qed.

Definition calls_of (f : fate) : list call := match f with Used c => [c] | _ => [] end.
Definition outs_of (i : nat) (f : fate) : list nat := match f with Outlier => [i] | _ => [] end.

(** one iteration does what the specification says *)
Lemma body_ok i it s : (match it with IPt _ _ => True | _ => False end <-> (i < N)%nat) ->
  block_inv i s -> ~ In i outl -> next_ok i (vs_next s) ->
  visit_body wp wa ctl ctg normalize i it s <> UB /\
  forall s', visit_body wp wa ctl ctg normalize i it s = Ok s' ->
  block_inv (S i) s' /\ next_ok (S i) (vs_next s') /\
  vs_calls s' = calls_of (fate_of' i it) ++ vs_calls s /\
  vs_new s' = outs_of i (fate_of' i it) ++ vs_new s /\
  vs_sum s' = vs_sum s + sum_w (calls_of (fate_of' i it)) /\
  Forall (fun c => 0 < c_w c) (calls_of (fate_of' i it)).
Proof.
  intros PT BI NI NX. unfold fate_of. destruct (in_dec Nat.eq_dec i outl) as [|_]; [contradiction|].
  assert (NX' := next_ok_keep _ _ NX NI).
  destruct it as [g l|g l|g l]; unfold visit_body, wa.
  - assert (LT : (i < N)%nat) by (apply PT; exact I).
    destruct (step_block_ok i _ _ (BI LT) LT) as [bl' [st' [E AB]]]. rewrite E. simpl.
    destruct (Rlt_dec (vnorm (vsub g ctg)) (1 / 10000)).
    { split; [discriminate|]. intros s' Q. injection Q as <-. simpl.
      split; [intros _; exact AB|]. split; [exact NX'|]. split; [reflexivity|]. split; [reflexivity|]. split; [lra|constructor]. }
    destruct (Rlt_dec (vnorm (vsub l ctl)) (1 / 10000)).
    { split; [discriminate|]. intros s' Q. injection Q as <-. simpl.
      split; [intros _; exact AB|]. split; [exact NX'|]. split; [reflexivity|]. split; [reflexivity|]. split; [lra|constructor]. }
    match goal with |- context [emit wp i ?b ?r ?w ?s0] =>
      assert (EM : emit wp i b r w s0 <> UB /\ forall s', emit wp i b r w s0 = Ok s' ->
        block_inv (S i) s' /\ next_ok (S i) (vs_next s') /\
        vs_calls s' = mkCall i b r (wp_pt2pt wp / class_total p wp * pair_block_weight p i * kernel_factor wp b r) :: vs_calls s /\
        vs_new s' = vs_new s /\
        vs_sum s' = vs_sum s + (wp_pt2pt wp / class_total p wp * pair_block_weight p i * kernel_factor wp b r + 0) /\
        0 < wp_pt2pt wp / class_total p wp * pair_block_weight p i * kernel_factor wp b r) end.
    { split; [apply emit_not_ub|]. intros s' Q. apply emit_ok in Q. destruct Q as [-> POS]. simpl.
      replace (wp_pt2pt wp / class_total p wp) with (wp_pt2pt wp * (1 / class_total p wp)) by (unfold Rdiv; ring).
      split; [intros _; exact AB|]. split; [exact NX'|]. split; [reflexivity|]. split; [reflexivity|]. split; [ring|exact POS]. }
    destruct (wp_use_scale wp).
    + destruct (Rlt_dec (wp_scale_thr wp) _).
      * split; [discriminate|]. intros s' Q. injection Q as <-. simpl.
        split; [intros _; exact AB|]. split; [exact NX'|]. split; [reflexivity|]. split; [reflexivity|]. split; [lra|constructor].
      * destruct EM as [E1 E2]. split; [exact E1|]. intros s' Q. destruct (E2 s' Q) as [A [B [C [D [F G]]]]]. simpl.
        repeat (split; [assumption|]). constructor; [exact G|constructor].
    + destruct EM as [E1 E2]. split; [exact E1|]. intros s' Q. destruct (E2 s' Q) as [A [B [C [D [F G]]]]]. simpl.
        repeat (split; [assumption|]). constructor; [exact G|constructor].
  - split; [apply emit_not_ub|]. intros s' Q. apply emit_ok in Q. destruct Q as [-> POS]. simpl.
    replace (wp_ln2ln wp / class_total p wp) with (wp_ln2ln wp * (1 / class_total p wp)) by (unfold Rdiv; ring).
    split; [intros L; exfalso; apply (proj2 PT); lia|]. split; [exact NX'|]. split; [reflexivity|]. split; [reflexivity|].
    split; [ring|]. constructor; [exact POS|constructor].
  - split; [apply emit_not_ub|]. intros s' Q. apply emit_ok in Q. destruct Q as [-> POS]. simpl.
    replace (wp_pl2pl wp / class_total p wp) with (wp_pl2pl wp * (1 / class_total p wp)) by (unfold Rdiv; ring).
    split; [intros L; exfalso; apply (proj2 PT); lia|]. split; [exact NX'|]. split; [reflexivity|]. split; [reflexivity|].
    split; [ring|]. constructor; [exact POS|constructor].
Qed.

Lemma sum_w_app a b : sum_w (a ++ b) = sum_w a + sum_w b.
Proof. induction a as [|c a IH]; simpl; [lra|]. rewrite IH. lra. Qed.

Lemma loop_ok its : forall i s, (forall x, In x outl -> (x < N)%nat) -> pts_first i its -> block_inv i s -> next_ok i (vs_next s) ->
  visit_loop wp wa ctl ctg normalize i its s <> UB /\
  forall s', visit_loop wp wa ctl ctg normalize i its s = Ok s' ->
  vs_calls s' = rev (used' i its) ++ vs_calls s /\
  vs_new s' = rev (outl' i its) ++ vs_new s /\
  vs_sum s' = vs_sum s + sum_w (used' i its) /\
  Forall (fun c => 0 < c_w c) (used' i its).
Proof.
  induction its as [|it rest IH]; intros i s OB PF BI NX.
  - simpl. split; [discriminate|]. intros s' Q. injection Q as <-. simpl. repeat split; auto; lra.
  - assert (PF' : pts_first (S i) rest).
    { intros k x H. replace (S i + k)%nat with (i + S k)%nat by lia. apply PF. exact H. }
    assert (PT : match it with IPt _ _ => True | _ => False end <-> (i < N)%nat).
    { replace i with (i + 0)%nat by lia. apply PF. reflexivity. }
    cbn [visit_loop used_from outliers_from]. destruct (in_dec Nat.eq_dec i outl) as [I|NI].
    + assert (HD := proj2 (next_head i _ NX) I). destruct (vs_next s) as [|o os] eqn:EN; [discriminate|].
      rewrite HD. apply Nat.eqb_eq in HD. subst o. cbn [rbind].
      destruct (IH (S i) (mkVS (vs_blocks s) (vs_start s) os (i :: vs_new s) (vs_calls s) (vs_sum s) (vs_discarded s)) OB PF') as [U K].
      * intros L. simpl. apply at_block_skip; [apply BI; lia|exact I|lia].
      * simpl. apply next_ok_skip. exact NX.
      * split; [exact U|]. intros s' Q. destruct (K s' Q) as [A [B [C D]]]. simpl in A, B, C.
        unfold fate_of. destruct (in_dec Nat.eq_dec i outl); [|contradiction]. simpl.
        split; [exact A|]. split; [rewrite B, <- app_assoc; reflexivity|]. split; assumption.
    + assert (HD : match vs_next s with o :: _ => Nat.eqb i o | [] => false end = false).
      { destruct (match vs_next s with o :: _ => Nat.eqb i o | [] => false end) eqn:Q; [|reflexivity].
        apply (proj1 (next_head i _ NX)) in Q. contradiction. }
      assert (RW : match vs_next s with
        | o :: os => if Nat.eqb i o then Ok (mkVS (vs_blocks s) (vs_start s) os (i :: vs_new s) (vs_calls s) (vs_sum s) (vs_discarded s))
                     else visit_body wp wa ctl ctg normalize i it s
        | [] => visit_body wp wa ctl ctg normalize i it s end = visit_body wp wa ctl ctg normalize i it s).
      { destruct (vs_next s); [reflexivity|]. rewrite HD. reflexivity. }
      rewrite RW. destruct (body_ok i it s PT BI NI NX) as [U K].
      destruct (visit_body wp wa ctl ctg normalize i it s) as [s1| |]; [|split; [discriminate|intros ? Q; discriminate]|contradiction].
      destruct (K s1 eq_refl) as [A [B [C [D [E F]]]]]. cbn [rbind].
      destruct (IH (S i) s1 OB PF' A B) as [U' K']. split; [exact U'|]. intros s' Q. destruct (K' s' Q) as [A' [B' [C' D']]].
      fold (calls_of (fate_of' i it)). fold (outs_of i (fate_of' i it)).
      assert (RC : rev (calls_of (fate_of' i it)) = calls_of (fate_of' i it)) by (destruct (fate_of' i it); reflexivity).
      assert (RO : rev (outs_of i (fate_of' i it)) = outs_of i (fate_of' i it)) by (destruct (fate_of' i it); reflexivity).
      split; [|split; [|split]].
      * rewrite A', C, rev_app_distr, RC, app_assoc. reflexivity.
      * rewrite B', D, rev_app_distr, RO, app_assoc. reflexivity.
      * rewrite C', E, sum_w_app. ring.
      * apply Forall_app. split; assumption.
Qed.
End Proof.

Lemma items_first p : pts_first (length (vp_pts p)) 0 (items p).
Proof.
  intros k it H. simpl. unfold items in H.
  destruct (Nat.ltb_spec k (length (vp_pts p))) as [L|L].
  - rewrite nth_error_app1 in H by (rewrite map_length; exact L). rewrite nth_error_map in H.
    destruct (nth_error (vp_pts p) k); [|discriminate]. injection H as <-. tauto.
  - rewrite nth_error_app2 in H by (rewrite map_length; exact L). split; [|lia]. intros T.
    apply nth_error_In in H. apply in_app_or in H.
    destruct H as [H|H]; apply in_map_iff in H; destruct H as [? [<- _]]; destruct T.
Qed.

(** the blocks cover the point pairs (Pairings::point_weights: "in the same order as stored in
    paired_pt2pt") and none is empty *)
Definition blocks_cover (p : VPairs) : Prop :=
  vp_weights p <> [] -> Forall (fun b => (0 < fst b)%nat) (vp_weights p) /\ (length (vp_pts p) <= block_total (vp_weights p))%nat.

(** no pair that starts a block is in the list of outliers *)
Definition starts_not_outliers (p : VPairs) (outl : list nat) : Prop :=
  forall c, In c (boundaries 0 (vp_weights p)) -> (c < length (vp_pts p))%nat -> ~ In c outl.

Definition sorted_outliers (p : VPairs) (outl : list nat) : Prop :=
  increasing outl /\ forall x, In x outl -> (x < length (vp_pts p))%nat.

Lemma block_weight_some bl : forall j, (j < block_total bl)%nat -> exists w, block_weight bl j = Some w.
Proof.
  induction bl as [|[n w] r IH]; intros j L; simpl in *; [lia|].
  destruct (Nat.ltb_spec j n); [exists w; reflexivity|]. apply IH. lia.
Qed.

Lemma start_inv p outl : blocks_cover p -> starts_not_outliers p outl -> (0 < length (vp_pts p))%nat ->
  at_block p outl (length (vp_pts p)) 0 (point_blocks p) 0.
Proof.
  intros CV ST PN. unfold at_block, point_blocks. destruct (vp_weights p) as [|b r] eqn:E.
  - split; [constructor; [exact PN|constructor]|]. split; [discriminate|]. split; [lia|]. split; [lia|]. split; [simpl; lia|].
    split; [intros c [<-|[]] L; simpl in L; lia|]. intros j [_ J]. rewrite Nat.sub_0_r. simpl.
    destruct (Nat.ltb_spec j (length (vp_pts p))); [|lia]. unfold pair_block_weight. rewrite E. reflexivity.
  - destruct (CV ltac:(rewrite E; discriminate)) as [POS TOT]. rewrite E in POS, TOT.
    split; [exact POS|]. split; [discriminate|]. split; [lia|]. split; [destruct b; lia|]. split; [exact TOT|]. split.
    + intros c I. apply ST. rewrite E. exact I.
    + intros j [_ J]. rewrite Nat.sub_0_r. unfold pair_block_weight. rewrite E.
      destruct (block_weight_some (b :: r) j ltac:(lia)) as [w ->]. reflexivity.
Qed.

(** C26: whenever the walk ends normally, it calls the solver with exactly the pairs that are
    neither outliers nor on the centroid, in order, each with the weight of its own class and
    block times the robust kernel; it reports exactly the given outliers and the scale outliers;
    and it never runs off the list of blocks. *)
Theorem C26_weights_of_every_pair : forall p wp ctl ctg outl normalize,
  blocks_cover p -> starts_not_outliers p outl -> sorted_outliers p outl ->
  visit p wp ctl ctg outl normalize <> UB /\
  forall r, visit p wp ctl ctg outl normalize = Ok r ->
    vr_calls r = used_from p wp ctl ctg outl normalize 0 (items p) /\
    vr_outliers r = outliers_from p wp ctl ctg outl normalize 0 (items p) /\
    vr_sum r = sum_w (vr_calls r) /\
    Forall (fun c => 0 < c_w c) (vr_calls r).
Proof.
  intros p wp ctl ctg outl normalize CV ST [SO SB]. unfold visit.
  destruct (Nat.eqb (vp_nPt2Ln p) 0 && Nat.eqb (vp_nPt2Pl p) 0); [|split; [discriminate|intros ? Q; discriminate]].
  unfold attitude_weights. destruct (Rlt_dec _ _); [|split; [discriminate|intros ? Q; discriminate]]. simpl rbind at 1 3.
  fold (class_total p wp).
  destruct (loop_ok p wp ctl ctg outl normalize (length (vp_pts p)) (items p) 0
    (mkVS (point_blocks p) 0 outl [] [] 0 0) SB (items_first p)) as [U K].
  - intros L. simpl. apply start_inv; assumption.
  - simpl. split; [exact SO|]. intros x. split; [intros I; split; [exact I|lia]|intros [I _]; exact I].
  - match goal with |- context [rbind ?e _] => destruct e as [s| |] eqn:E end;
      [|split; [discriminate|intros ? Q; discriminate]|exfalso; apply U; reflexivity].
    split; [discriminate|]. intros r0 Q. simpl in Q. injection Q as <-. simpl.
    destruct (K s eq_refl) as [A [B [C D]]]. simpl in A, B, C. rewrite app_nil_r in A, B.
    rewrite A, B, !rev_involutive. split; [reflexivity|]. split; [reflexivity|]. split; [rewrite C; ring|exact D].
Qed.

(** Dividing by the sum, as both solvers do, makes the weights add up to one. *)
Theorem C26_normalised_weights_sum_to_one : forall p wp ctl ctg outl normalize r,
  blocks_cover p -> starts_not_outliers p outl -> sorted_outliers p outl ->
  visit p wp ctl ctg outl normalize = Ok r -> vr_calls r <> [] ->
  0 < vr_sum r /\
  sum_w (map (fun c => mkCall (c_idx c) (c_b c) (c_r c) (c_w c * (1 / vr_sum r))) (vr_calls r)) = 1.
Proof.
  intros p wp ctl ctg outl normalize r CV ST SO V NE.
  destruct (C26_weights_of_every_pair p wp ctl ctg outl normalize CV ST SO) as [_ K].
  destruct (K r V) as [_ [_ [S F]]]. rewrite S in *.
  assert (P : forall cs, Forall (fun c => 0 < c_w c) cs -> 0 <= sum_w cs).
  { clear. induction 1; simpl; lra. }
  assert (P' : 0 < sum_w (vr_calls r)).
  { destruct (vr_calls r) as [|c cs]; [contradiction|]. inversion F; subst. simpl. assert (Q := P cs H2). lra. }
  split; [exact P'|].
  assert (L : forall cs k, sum_w (map (fun c => mkCall (c_idx c) (c_b c) (c_r c) (c_w c * k)) cs) = k * sum_w cs).
  { clear. induction cs as [|c cs IH]; intros k; simpl; [ring|]. rewrite IH. ring. }
  rewrite L. field. lra.
Qed.

(** In the first pass of the solvers (no outliers known yet) only the blocks matter. *)
Theorem C26_first_pass : forall p wp ctl ctg normalize, blocks_cover p ->
  visit p wp ctl ctg [] normalize <> UB /\
  forall r, visit p wp ctl ctg [] normalize = Ok r ->
    vr_calls r = used_from p wp ctl ctg [] normalize 0 (items p).
Proof.
  intros p wp ctl ctg normalize CV.
  destruct (C26_weights_of_every_pair p wp ctl ctg [] normalize CV) as [U K].
  - intros c _ _ [].
  - split; [exact I|intros x []].
  - split; [exact U|]. intros r V. apply (K r V).
Qed.

(** Success: all the parts of the sum of weights are positive. *)
Theorem C26_no_spurious_failure : forall p wp ctl ctg outl normalize,
  blocks_cover p -> starts_not_outliers p outl -> sorted_outliers p outl ->
  vp_nPt2Ln p = 0%nat -> vp_nPt2Pl p = 0%nat -> 0 < wp_pt2pt wp + wp_ln2ln wp + wp_pl2pl wp ->
  (wp_kernel wp <> None -> wp_current wp <> None) ->
  Forall (fun c => 0 < c_w c) (used_from p wp ctl ctg outl normalize 0 (items p)) ->
  exists r, visit p wp ctl ctg outl normalize = Ok r.
Proof.
  intros p wp ctl ctg outl normalize CV ST [SO SB] H1 H2 H3 HK F.
  unfold visit. rewrite H1, H2. simpl. unfold attitude_weights.
  destruct (Rlt_dec 0 (wp_pt2pt wp + wp_ln2ln wp + wp_pl2pl wp)); [|contradiction]. simpl rbind at 1.
  fold (class_total p wp).
  assert (G : forall its i s, (forall x, In x outl -> (x < length (vp_pts p))%nat) ->
     pts_first (length (vp_pts p)) i its -> block_inv p outl (length (vp_pts p)) i s -> next_ok outl i (vs_next s) ->
     Forall (fun c => 0 < c_w c) (used_from p wp ctl ctg outl normalize i its) ->
     exists s', visit_loop wp (wp_pt2pt wp * (1 / class_total p wp), wp_ln2ln wp * (1 / class_total p wp), wp_pl2pl wp * (1 / class_total p wp))
       ctl ctg normalize i its s = Ok s').
  { clear F. induction its as [|it rest IH]; intros i s OB PF BI NX FA; [exists s; reflexivity|].
    assert (PF' : pts_first (length (vp_pts p)) (S i) rest).
    { intros k x H. replace (S i + k)%nat with (i + S k)%nat by lia. apply PF. exact H. }
    assert (PT : match it with IPt _ _ => True | _ => False end <-> (i < length (vp_pts p))%nat).
    { replace i with (i + 0)%nat by lia. apply PF. reflexivity. }
    simpl in FA. apply Forall_app in FA. destruct FA as [FA1 FA2]. cbn [visit_loop].
    destruct (in_dec Nat.eq_dec i outl) as [II|NI].
    + assert (HD := proj2 (next_head outl i _ NX) II). destruct (vs_next s) as [|o os] eqn:EN; [discriminate|].
      rewrite HD. apply Nat.eqb_eq in HD. subst o. cbn [rbind]. apply IH; try assumption.
      * intros L. simpl. apply at_block_skip; [apply BI; lia|exact II|lia].
      * simpl. apply next_ok_skip. exact NX.
    + assert (HD : match vs_next s with o :: _ => Nat.eqb i o | [] => false end = false).
      { destruct (match vs_next s with o :: _ => Nat.eqb i o | [] => false end) eqn:Q; [|reflexivity].
        apply (proj1 (next_head outl i _ NX)) in Q. contradiction. }
      assert (BODY : exists s1, visit_body wp (wp_pt2pt wp * (1 / class_total p wp), wp_ln2ln wp * (1 / class_total p wp), wp_pl2pl wp * (1 / class_total p wp)) ctl ctg normalize i it s = Ok s1).
      { unfold fate_of in FA1. destruct (in_dec Nat.eq_dec i outl) as [|_]; [contradiction|].
        assert (EM : forall b r w s0, 0 < w * kernel_factor wp b r -> exists s', emit wp i b r w s0 = Ok s').
        { intros b r0 w s0. unfold emit, kernel_factor. destruct (wp_kernel wp) as [f|].
          - destruct (wp_current wp) as [T|]; [|exfalso; apply HK; [discriminate|reflexivity]]. intros W. simpl.
            destruct (Rlt_dec _ _); [eexists; reflexivity|contradiction].
          - intros W. simpl. destruct (Rlt_dec 0 w); [eexists; reflexivity|]. exfalso. lra. }
        destruct it as [g l|g l|g l]; simpl.
        - assert (LT : (i < length (vp_pts p))%nat) by (apply PT; exact I).
          destruct (step_block_ok p outl _ i _ _ (BI LT) LT) as [bl' [st' [E AB]]]. rewrite E. simpl.
          destruct (Rlt_dec (vnorm (vsub g ctg)) (1 / 10000)); [eexists; reflexivity|].
          destruct (Rlt_dec (vnorm (vsub l ctl)) (1 / 10000)); [eexists; reflexivity|].
          destruct (wp_use_scale wp); [destruct (Rlt_dec (wp_scale_thr wp) _); [eexists; reflexivity|]|];
          (apply EM; inversion FA1 as [|? ? W _]; subst; simpl in W;
           unfold unit in W; unfold Rdiv in W |- *; rewrite Rmult_1_l; exact W).
        - apply EM. inversion FA1 as [|? ? W _]; subst. simpl in W. unfold Rdiv in W |- *. rewrite Rmult_1_l. exact W.
        - apply EM. inversion FA1 as [|? ? W _]; subst. simpl in W. unfold Rdiv in W |- *. rewrite Rmult_1_l. exact W. }
      destruct BODY as [s1 E1].
      assert (RW : match vs_next s with
        | o :: os => if Nat.eqb i o then Ok (mkVS (vs_blocks s) (vs_start s) os (i :: vs_new s) (vs_calls s) (vs_sum s) (vs_discarded s))
                     else visit_body wp (wp_pt2pt wp * (1 / class_total p wp), wp_ln2ln wp * (1 / class_total p wp), wp_pl2pl wp * (1 / class_total p wp)) ctl ctg normalize i it s
        | [] => visit_body wp (wp_pt2pt wp * (1 / class_total p wp), wp_ln2ln wp * (1 / class_total p wp), wp_pl2pl wp * (1 / class_total p wp)) ctl ctg normalize i it s end = Ok s1).
      { destruct (vs_next s); [exact E1|]. rewrite HD. exact E1. }
      rewrite RW. cbn [rbind]. destruct (body_ok p wp ctl ctg outl normalize _ i it s PT BI NI NX) as [_ K].
      destruct (K s1 E1) as [A [B _]]. apply IH; assumption. }
  destruct (G (items p) 0%nat (mkVS (point_blocks p) 0 outl [] [] 0 0) SB (items_first p)) as [s E].
  - intros L. simpl. apply start_inv; assumption.
  - simpl. split; [exact SO|]. intros x. split; [intros II; split; [exact II|lia]|intros [II _]; exact II].
  - exact F.
  - rewrite E. simpl. eexists. reflexivity.
Qed.

(** ** Where the code departs from the documentation *)

Definition e1 (x : R) : V3 := mkV x 0 0.
Lemma norm_e1 x : 0 <= x -> vnorm (vsub (e1 x) vzero3) = x.
Proof.
  intros P. unfold vnorm, vnorm2, vdot, vsub, e1, vzero3; simpl.
  replace ((x - 0) * (x - 0) + (0 - 0) * (0 - 0) + (0 - 0) * (0 - 0)) with (x * x) by ring.
  apply sqrt_square. exact P.
Qed.

Definition wp_default : VWeights := mkVW false (6 / 5) 1 1 1 None None.

Ltac decide_R := match goal with |- context [Rlt_dec ?a ?b] => destruct (Rlt_dec a b); [try (exfalso; lra)|try (exfalso; lra)] end.

(** Finding: three pairs in three blocks of one pair each, weights 1, 2, 3, the second pair being
    an outlier: the third pair gets the weight of the second block. *)
Definition three_blocks : VPairs :=
  mkVP [(e1 1, e1 1); (e1 2, e1 2); (e1 3, e1 3)] [] [] 0 0 [(1%nat, 1); (1%nat, 2); (1%nat, 3)].

Lemma body_e1 ka kb kc i x s bl st wb : 1 <= x -> step_block i (vs_blocks s) (vs_start s) = Ok (bl, st, wb) -> 0 < ka * wb ->
  visit_body wp_default (ka, kb, kc) vzero3 vzero3 false i (IPt (e1 x) (e1 x)) s =
  Ok (mkVS bl st (vs_next s) (vs_new s) (mkCall i (vsub (e1 x) vzero3) (vsub (e1 x) vzero3) (ka * wb) :: vs_calls s)
           (vs_sum s + ka * wb) (vs_discarded s)).
Proof.
  intros X S P. unfold visit_body. rewrite S. cbn [rbind]. rewrite !norm_e1 by lra.
  destruct (Rlt_dec x (1 / 10000)); [exfalso; lra|]. cbn [wp_default wp_use_scale]. unfold emit. cbn [wp_default wp_kernel rbind].
  destruct (Rlt_dec 0 (ka * wb)); [reflexivity|contradiction].
Qed.

Lemma three_blocks_run : exists r, visit three_blocks wp_default vzero3 vzero3 [1%nat] false = Ok r /\
  vr_calls r = [mkCall 0 (vsub (e1 1) vzero3) (vsub (e1 1) vzero3) (1 * (1 / (1 * INR 3 + 1 * INR 0 + 1 * INR 0)) * 1);
                mkCall 2 (vsub (e1 3) vzero3) (vsub (e1 3) vzero3) (1 * (1 / (1 * INR 3 + 1 * INR 0 + 1 * INR 0)) * 2)].
Proof.
  assert (P : 0 < 1 * (1 / (1 * INR 3 + 1 * INR 0 + 1 * INR 0))).
  { rewrite !INR_IZR_INZ. simpl. lra. }
  unfold visit. simpl vp_nPt2Ln. simpl vp_nPt2Pl. cbn [Nat.eqb andb]. unfold attitude_weights. simpl wp_pt2pt. simpl wp_ln2ln. simpl wp_pl2pl.
  decide_R. cbn [rbind]. cbn [three_blocks vp_pts vp_lns vp_pls length].
  set (k := 1 * (1 / (1 * INR 3 + 1 * INR 0 + 1 * INR 0))) in *.
  unfold items. cbn [three_blocks vp_pts vp_lns vp_pls map app fst snd].
  unfold point_blocks. cbn [three_blocks vp_weights].
  cbn [visit_loop vs_next Nat.eqb].
  rewrite (body_e1 _ _ _ _ _ _ [(1%nat, 1); (1%nat, 2); (1%nat, 3)] 0 1); [|lra|reflexivity|lra].
  cbn [rbind vs_next Nat.eqb vs_blocks vs_start vs_new vs_calls vs_sum vs_discarded].
  rewrite (body_e1 _ _ _ _ _ _ [(1%nat, 2); (1%nat, 3)] 2 2); [|lra|reflexivity|lra].
  cbn [rbind vs_next Nat.eqb vs_blocks vs_start vs_new vs_calls vs_sum vs_discarded rev app].
  eexists. split; reflexivity.
Qed.

Theorem C80_outlier_at_block_start_shifts_weights_refuted :
  blocks_cover three_blocks /\ sorted_outliers three_blocks [1%nat] /\
  exists r c, visit three_blocks wp_default vzero3 vzero3 [1%nat] false = Ok r /\
    In c (vr_calls r) /\ c_idx c = 2%nat /\ block_weight (vp_weights three_blocks) 2 = Some 3 /\
    c_w c = wp_pt2pt wp_default / class_total three_blocks wp_default * 2 /\
    c_w c <> wp_pt2pt wp_default / class_total three_blocks wp_default * 3.
Proof.
  split; [|split].
  - intros _. split; [repeat constructor|simpl; lia].
  - split; [exact I|]. intros x [<-|[]]. simpl; lia.
  - destruct three_blocks_run as [r [V C]]. exists r.
    exists (mkCall 2 (vsub (e1 3) vzero3) (vsub (e1 3) vzero3) (1 * (1 / (1 * INR 3 + 1 * INR 0 + 1 * INR 0)) * 2)).
    split; [exact V|]. rewrite C. split; [right; left; reflexivity|]. split; [reflexivity|]. split; [reflexivity|].
    unfold class_total. simpl c_w. simpl wp_pt2pt. simpl wp_ln2ln. simpl wp_pl2pl.
    cbn [three_blocks vp_pts vp_lns vp_pls length]. rewrite !INR_IZR_INZ. simpl. split; lra.
Qed.

(** Finding: point pairs of a matcher without weights after those of a matcher with weights: the
    blocks end before the pairs, and the iterator is read past the end. *)
Theorem C81_uncovered_pairs_read_past_the_end_refuted : forall wp ctl ctg normalize g1 l1 g2 l2 w,
  0 < wp_pt2pt wp -> wp_ln2ln wp = 0 -> wp_pl2pl wp = 0 -> 0 < w -> wp_kernel wp = None ->
  visit (mkVP [(g1, l1); (g2, l2)] [] [] 0 0 [(1%nat, w)]) wp ctl ctg [] normalize = UB.
Proof.
  intros wp ctl ctg normalize g1 l1 g2 l2 w P1 P2 P3 W K.
  unfold visit. cbn [vp_nPt2Ln vp_nPt2Pl Nat.eqb andb]. unfold attitude_weights. rewrite P2, P3.
  decide_R. cbn [rbind]. cbn [vp_pts vp_lns vp_pls length].
  assert (Q : 0 < wp_pt2pt wp * (1 / (wp_pt2pt wp * INR 2 + 0 * INR 0 + 0 * INR 0))).
  { rewrite !INR_IZR_INZ. simpl. apply Rmult_lt_0_compat; [exact P1|]. apply Rmult_lt_0_compat; [lra|].
    apply Rinv_0_lt_compat. lra. }
  set (k := wp_pt2pt wp * (1 / (wp_pt2pt wp * INR 2 + 0 * INR 0 + 0 * INR 0))) in *.
  unfold items. cbn [vp_pts vp_lns vp_pls map app fst snd]. unfold point_blocks. cbn [vp_weights].
  cbn [visit_loop vs_next]. 
  assert (B2 : forall s, vs_blocks s = [(1%nat, w)] -> vs_start s = 0%nat -> vs_next s = [] ->
    visit_loop wp (k, 0 * (1 / (wp_pt2pt wp * INR 2 + 0 * INR 0 + 0 * INR 0)), 0 * (1 / (wp_pt2pt wp * INR 2 + 0 * INR 0 + 0 * INR 0)))
      ctl ctg normalize 1 [IPt g2 l2] s = UB).
  { intros s E1 E2 E3. cbn [visit_loop]. rewrite E3. unfold visit_body. rewrite E1, E2. reflexivity. }
  cbn [visit_loop] in B2.
  set (wa := (k, 0 * (1 / (wp_pt2pt wp * INR 2 + 0 * INR 0 + 0 * INR 0)), 0 * (1 / (wp_pt2pt wp * INR 2 + 0 * INR 0 + 0 * INR 0)))) in *.
  match goal with |- context [visit_body wp wa ctl ctg normalize 0 (IPt g1 l1) ?s0] =>
    assert (B1 : exists s1, visit_body wp wa ctl ctg normalize 0 (IPt g1 l1) s0 = Ok s1 /\
              vs_blocks s1 = [(1%nat, w)] /\ vs_start s1 = 0%nat /\ vs_next s1 = []) end.
  { unfold visit_body, wa. cbn [vs_blocks vs_start step_block Nat.leb Nat.add rbind vs_next vs_new vs_calls vs_sum vs_discarded].
    assert (EM : forall b r s0, vs_blocks s0 = [(1%nat, w)] -> vs_start s0 = 0%nat -> vs_next s0 = [] ->
      exists s1, emit wp 0 b r (k * w) s0 = Ok s1 /\ vs_blocks s1 = [(1%nat, w)] /\ vs_start s1 = 0%nat /\ vs_next s1 = []).
    { intros b r9 s0 E1 E2 E3. unfold emit. rewrite K. cbn [rbind]. destruct (Rlt_dec 0 (k * w)) as [|X].
      - eexists. split; [reflexivity|]. cbn. auto.
      - exfalso. apply X. apply Rmult_lt_0_compat; assumption. }
    destruct (Rlt_dec _ _); [eexists; split; [reflexivity|cbn; auto]|].
    destruct (Rlt_dec _ _); [eexists; split; [reflexivity|cbn; auto]|].
    destruct (wp_use_scale wp); [destruct (Rlt_dec (wp_scale_thr wp) _); [eexists; split; [reflexivity|cbn; auto]|]|]; apply EM; reflexivity. }
  destruct B1 as [s1 [-> [E1 [E2 E3]]]]. cbn [rbind]. rewrite (B2 s1 E1 E2 E3). reflexivity.
Qed.

(** Finding: a zero weight for lines does not disable the line pairs: it makes the solver fail. *)
Theorem C82_zero_class_weight_fails_refuted : forall p wp ctl ctg outl normalize,
  blocks_cover p -> starts_not_outliers p outl -> sorted_outliers p outl ->
  wp_ln2ln wp = 0 -> vp_lns p <> [] ->
  visit p wp ctl ctg outl normalize = Throw.
Proof.
  intros p wp ctl ctg outl normalize CV ST SO Z NE.
  destruct (C26_weights_of_every_pair p wp ctl ctg outl normalize CV ST SO) as [U K].
  destruct (visit p wp ctl ctg outl normalize) as [r| |] eqn:V; [|reflexivity|contradiction].
  exfalso. destruct (K r eq_refl) as [A [_ [_ F]]]. rewrite A in F.
  destruct (vp_lns p) as [|[g l] ls] eqn:EL; [contradiction|].
  assert (G : forall its i k, nth_error its k = Some (ILn g l) -> ~ In (i + k)%nat outl ->
    Forall (fun c => 0 < c_w c) (used_from p wp ctl ctg outl normalize i its) -> False).
  { clear -Z. induction its as [|it its IH]; intros i k H NI FA; [destruct k; discriminate|].
    simpl in FA. apply Forall_app in FA. destruct FA as [F1 F2]. destruct k as [|k].
    - injection H as ->. rewrite Nat.add_0_r in NI. unfold fate_of in F1. destruct (in_dec Nat.eq_dec i outl); [contradiction|].
      inversion F1 as [|? ? W _]; subst. simpl in W. rewrite Z in W. unfold Rdiv in W. rewrite !Rmult_0_l in W. lra.
    - apply (IH (S i) k H); [|exact F2]. replace (S i + k)%nat with (i + S k)%nat by lia. exact NI. }
  apply (G (items p) 0%nat (length (vp_pts p))); [| |exact F].
  - unfold items. rewrite nth_error_app2 by (rewrite map_length; lia). rewrite map_length, Nat.sub_diag, EL. reflexivity.
  - simpl. destruct SO as [_ SB]. intros II. specialize (SB _ II). lia.
Qed.

(** Finding: PairWeights.h documents that pt2pt is honoured only without point_weights; it is
    always honoured: with one point pair of block weight [w] and one line pair, the ratio of the
    two weights is pt2pt * w / ln2ln. *)
Theorem C83_pt2pt_weight_used_with_blocks_refuted : forall w wp, 0 < w -> 0 < wp_pt2pt wp -> 0 < wp_ln2ln wp -> 0 <= wp_pl2pl wp ->
  wp_kernel wp = None -> wp_use_scale wp = false ->
  exists r cp cl, visit (mkVP [(e1 1, e1 1)] [(e1 1, e1 1)] [] 0 0 [(1%nat, w)]) wp vzero3 vzero3 [] false = Ok r /\
    vr_calls r = [cp; cl] /\ c_w cp / c_w cl = wp_pt2pt wp * w / wp_ln2ln wp.
Proof.
  intros w wp W P1 P2 P3 K SC.
  set (p := mkVP [(e1 1, e1 1)] [(e1 1, e1 1)] [] 0 0 [(1%nat, w)]).
  assert (CT : class_total p wp = wp_pt2pt wp + wp_ln2ln wp).
  { unfold class_total, p. cbn [vp_pts vp_lns vp_pls length]. simpl. ring. }
  assert (UF : used_from p wp vzero3 vzero3 [] false 0 (items p) =
     [mkCall 0 (vsub (e1 1) vzero3) (vsub (e1 1) vzero3) (wp_pt2pt wp / (wp_pt2pt wp + wp_ln2ln wp) * w * 1);
      mkCall 1 (e1 1) (e1 1) (wp_ln2ln wp / (wp_pt2pt wp + wp_ln2ln wp) * 1)]).
  { unfold items, p. cbn [vp_pts vp_lns vp_pls map app fst snd used_from]. fold p. unfold fate_of.
    destruct (in_dec Nat.eq_dec 0%nat []) as [[]|_]. destruct (in_dec Nat.eq_dec 1%nat []) as [[]|_].
    rewrite norm_e1 by lra. destruct (Rlt_dec 1 (1 / 10000)); [exfalso; lra|]. rewrite SC, CT. unfold kernel_factor. rewrite K.
    reflexivity. }
  assert (A1 : 0 < wp_pt2pt wp / (wp_pt2pt wp + wp_ln2ln wp)).
  { apply Rmult_lt_0_compat; [exact P1|]. apply Rinv_0_lt_compat. lra. }
  assert (A2 : 0 < wp_ln2ln wp / (wp_pt2pt wp + wp_ln2ln wp)).
  { apply Rmult_lt_0_compat; [exact P2|]. apply Rinv_0_lt_compat. lra. }
  assert (CV : blocks_cover p). { intros _. split; [repeat constructor|simpl; lia]. }
  assert (ST : starts_not_outliers p []). { intros c _ _ []. }
  assert (SO : sorted_outliers p []). { split; [exact I|intros x []]. }
  destruct (C26_no_spurious_failure p wp vzero3 vzero3 [] false CV ST SO eq_refl eq_refl) as [r V].
  - lra.
  - rewrite K. intros X. contradiction.
  - rewrite UF. repeat constructor; simpl; nra.
  - destruct (C26_weights_of_every_pair p wp vzero3 vzero3 [] false CV ST SO) as [_ KK]. destruct (KK r V) as [A _].
    rewrite UF in A. do 3 eexists. split; [exact V|]. split; [exact A|]. simpl. field. split; lra.
Qed.

(** ** The hypotheses are met by runs with several blocks, kernels and outliers inside blocks *)
Definition five_pairs : VPairs :=
  mkVP [(e1 1, e1 1); (e1 2, e1 2); (e1 3, e1 3); (e1 4, e1 4); (e1 5, e1 5)] [(e1 1, e1 1)] [] 0 0 [(2%nat, 1); (3%nat, 4)].
Example five_pairs_hyps : blocks_cover five_pairs /\ starts_not_outliers five_pairs [1%nat; 3%nat] /\ sorted_outliers five_pairs [1%nat; 3%nat].
Proof.
  split; [|split].
  - intros _. split; [repeat constructor|simpl; lia].
  - intros c [<-|[<-|[]]] L [E|[E|[]]]; simpl in *; lia.
  - split; [simpl; lia|]. intros x [<-|[<-|[]]]; simpl; lia.
Qed.
Example five_pairs_runs : exists r, visit five_pairs wp_default vzero3 vzero3 [1%nat; 3%nat] false = Ok r /\
  map (fun c => (c_idx c, c_w c)) (vr_calls r) = [(0%nat, 1 / 6); (2%nat, 4 / 6); (4%nat, 4 / 6); (5%nat, 1 / 6)] /\ vr_outliers r = [1%nat; 3%nat].
Proof.
  destruct five_pairs_hyps as [CV [ST SO]].
  assert (CT : class_total five_pairs wp_default = 6).
  { unfold class_total, five_pairs. cbn [vp_pts vp_lns vp_pls length wp_default wp_pt2pt wp_ln2ln wp_pl2pl]. simpl. ring. }
  assert (UF : used_from five_pairs wp_default vzero3 vzero3 [1%nat; 3%nat] false 0 (items five_pairs) =
    [mkCall 0 (vsub (e1 1) vzero3) (vsub (e1 1) vzero3) (1 / 6 * 1 * 1);
     mkCall 2 (vsub (e1 3) vzero3) (vsub (e1 3) vzero3) (1 / 6 * 4 * 1);
     mkCall 4 (vsub (e1 5) vzero3) (vsub (e1 5) vzero3) (1 / 6 * 4 * 1);
     mkCall 5 (e1 1) (e1 1) (1 / 6 * 1)] /\
    outliers_from five_pairs wp_default vzero3 vzero3 [1%nat; 3%nat] false 0 (items five_pairs) = [1%nat; 3%nat]).
  { unfold items. unfold five_pairs at 2 3 4 6 7 8. cbn [vp_pts vp_lns vp_pls map app fst snd used_from outliers_from].
    unfold fate_of. repeat (match goal with |- context [in_dec Nat.eq_dec ?a ?b] => destruct (in_dec Nat.eq_dec a b) as [HH|HH] end;
      [try (exfalso; simpl in HH; lia)|try (exfalso; apply HH; simpl; lia)]).
    rewrite !norm_e1 by lra. rewrite CT. cbn [wp_default wp_use_scale].
    repeat (match goal with |- context [Rlt_dec ?a ?b] => destruct (Rlt_dec a b); [exfalso; lra|] end).
    split; reflexivity. }
  destruct UF as [UF OF].
  destruct (C26_no_spurious_failure five_pairs wp_default vzero3 vzero3 _ false CV ST SO eq_refl eq_refl) as [r V].
  - simpl. lra.
  - intros X. exfalso. apply X. reflexivity.
  - rewrite UF. repeat constructor; simpl; lra.
  - destruct (C26_weights_of_every_pair five_pairs wp_default vzero3 vzero3 _ false CV ST SO) as [_ KK]. destruct (KK r V) as [A [B _]].
    exists r. split; [exact V|]. rewrite A, B, UF, OF. simpl. split; [|reflexivity].
    replace (1 / 6 * 1 * 1) with (1 / 6) by lra. replace (1 / 6 * 4 * 1) with (4 / 6) by lra.
    replace (1 / 6 * 1) with (1 / 6) by lra. reflexivity.
Qed.
