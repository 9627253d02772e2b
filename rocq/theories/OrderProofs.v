(** Proofs for C340: the closed-form solvers do not depend on the order of the pairs. *)
From Coq Require Import Reals List Lra Lia Permutation.
From Verif Require Import Base GeomModel VisitModel RotProofs HornModel OlaeModel.
Import ListNotations.
Open Scope R_scope.

(** ** Positions *)
Fixpoint positions {A} (i : nat) (bad : A -> bool) (l : list A) : list nat :=
  match l with
  | [] => []
  | x :: r => if bad x then i :: positions (S i) bad r else positions (S i) bad r
  end.

Lemma positions_bound {A} (bad : A -> bool) l : forall i j, In j (positions i bad l) -> (i <= j)%nat.
Proof.
  induction l as [|x r IH]; intros i j H; cbn [positions] in H; [contradiction|].
  destruct (bad x); [destruct H as [->|H]; [lia|]|]; apply IH in H; lia.
Qed.

Lemma positions_length {A} (bad : A -> bool) l : forall i, length (positions i bad l) = length (filter bad l).
Proof. induction l as [|x r IH]; intro i; cbn; [reflexivity|]. destruct (bad x); cbn; rewrite IH; reflexivity. Qed.

Lemma positions_app {A} (bad : A -> bool) l m : forall i, positions i bad (l ++ m) = positions i bad l ++ positions (i + length l) bad m.
Proof.
  induction l as [|x r IH]; intro i; cbn [positions app length]; [rewrite Nat.add_0_r; reflexivity|].
  rewrite IH. replace (S i + length r)%nat with (i + S (length r))%nat by lia. destruct (bad x); reflexivity.
Qed.

Lemma positions_map {A B} (f : B -> A) (bad : A -> bool) l : forall i, positions i bad (map f l) = positions i (fun x => bad (f x)) l.
Proof. induction l as [|x r IH]; intro i; cbn; [reflexivity|]. rewrite IH. reflexivity. Qed.

Lemma positions_none {A} (bad : A -> bool) l : (forall x, In x l -> bad x = false) -> forall i, positions i bad l = [].
Proof. induction l as [|x r IH]; intros H i; cbn; [reflexivity|]. rewrite (H x (or_introl eq_refl)). apply IH. intros y Y. apply H. right; exact Y. Qed.

Lemma positions_ext {A} (b1 b2 : A -> bool) l : (forall x, In x l -> b1 x = b2 x) -> forall i, positions i b1 l = positions i b2 l.
Proof. induction l as [|x r IH]; intros H i; cbn; [reflexivity|]. rewrite (H x (or_introl eq_refl)), (IH (fun y Y => H y (or_intror Y))). reflexivity. Qed.

Lemma filter_perm {A} (f : A -> bool) l l' : Permutation l l' -> Permutation (filter f l) (filter f l').
Proof.
  induction 1 as [|x l l' P IH|x y l|l l' l'' P1 IH1 P2 IH2]; cbn.
  - constructor.
  - destruct (f x); [apply perm_skip|]; exact IH.
  - destruct (f x), (f y); try apply perm_swap; apply Permutation_refl.
  - eapply perm_trans; eassumption.
Qed.

Lemma fold_perm {A B} (f : A -> B -> A) : (forall s x y, f (f s x) y = f (f s y) x) ->
  forall l l', Permutation l l' -> forall s, fold_left f l s = fold_left f l' s.
Proof.
  intros C l l'. induction 1 as [|x l l' P IH|x y l|l l' l'' P1 IH1 P2 IH2]; intro s; cbn; [reflexivity|apply IH|rewrite C; reflexivity|rewrite IH1; apply IH2].
Qed.

Lemma existsb_perm {A} (f : A -> bool) l l' : Permutation l l' -> existsb f l = existsb f l'.
Proof.
  induction 1 as [|x l l' P IH|x y l|l l' l'' P1 IH1 P2 IH2]; cbn; [reflexivity|rewrite IH; reflexivity|destruct (f x), (f y); reflexivity|congruence].
Qed.

(** ** What the walk does with one item, when there are no weight blocks *)
Inductive ifate := FSkip | FOut | FUse (b r : V3) (w : R) | FErr.
Definition use_fate (wp : VWeights) (b r : V3) (w : R) : ifate :=
  match wp_kernel wp with
  | None => if Rlt_dec 0 w then FUse b r w else FErr
  | Some f => match wp_current wp with
              | None => FErr
              | Some T => let w' := w * f (vnorm2 (vsub (compose T r) b)) in if Rlt_dec 0 w' then FUse b r w' else FErr
              end
  end.
Definition item_fate (wp : VWeights) (wa : R * R * R) (ctl ctg : V3) (normalize : bool) (it : item) : ifate :=
  let '(waPt, waLn, waPl) := wa in
  match it with
  | IPt g l =>
    let b := vsub g ctg in let r := vsub l ctl in let bn := vnorm b in let rn := vnorm r in
    if Rlt_dec bn (1 / 10000) then FSkip else if Rlt_dec rn (1 / 10000) then FSkip
    else
      let b' := if normalize then vscale (1 / bn) b else b in
      let r' := if normalize then vscale (1 / rn) r else r in
      if wp_use_scale wp then
        if Rlt_dec (wp_scale_thr wp) (Rmax bn rn / Rmin bn rn) then FOut else use_fate wp b' r' (waPt * 1)
      else use_fate wp b' r' (waPt * 1)
  | ILn g l => use_fate wp g l waLn
  | IPl g l => use_fate wp g l waPl
  end.

Definition strip (c : call) : V3 * V3 * R := (c_b c, c_r c, c_w c).

Section Walk.
Variables (wp : VWeights) (wa : R * R * R) (ctl ctg : V3) (normalize : bool) (N : nat) (skip : item -> bool).
Let fate := item_fate wp wa ctl ctg normalize.
Definition err_item (it : item) : bool := negb (skip it) && match fate it with FErr => true | _ => false end.
Definition bad_item (it : item) : bool := skip it || match fate it with FOut => true | _ => false end.
Definition calls_item (it : item) : list (V3 * V3 * R) :=
  if skip it then [] else match fate it with FUse b r w => [(b, r, w)] | _ => [] end.

Lemma emit_fate i b r w s : vs_blocks s = [(N, 1)] -> vs_start s = 0%nat ->
  match use_fate wp b r w with
  | FUse b' r' w' => emit wp i b r w s = Ok (mkVS [(N, 1)] 0 (vs_next s) (vs_new s) (mkCall i b' r' w' :: vs_calls s) (vs_sum s + w') (vs_discarded s))
  | _ => emit wp i b r w s = Throw
  end /\ use_fate wp b r w <> FOut /\ use_fate wp b r w <> FSkip.
Proof.
  intros B S0. unfold emit, use_fate. rewrite B, S0. destruct (wp_kernel wp) as [f|].
  - destruct (wp_current wp) as [T|]; cbn [rbind].
    + destruct (Rlt_dec 0 (w * f (vnorm2 (vsub (compose T r) b)))); repeat split; discriminate.
    + repeat split; discriminate.
  - cbn [rbind]. destruct (Rlt_dec 0 w); repeat split; discriminate.
Qed.

Lemma body_fate i it s : vs_blocks s = [(N, 1)] -> vs_start s = 0%nat ->
  (forall g l, it = IPt g l -> (i < N)%nat) ->
  match fate it with
  | FSkip => visit_body wp wa ctl ctg normalize i it s = Ok s
  | FOut => visit_body wp wa ctl ctg normalize i it s = Ok (mkVS [(N, 1)] 0 (vs_next s) (i :: vs_new s) (vs_calls s) (vs_sum s) (S (vs_discarded s)))
  | FUse b r w => visit_body wp wa ctl ctg normalize i it s = Ok (mkVS [(N, 1)] 0 (vs_next s) (vs_new s) (mkCall i b r w :: vs_calls s) (vs_sum s + w) (vs_discarded s))
  | FErr => visit_body wp wa ctl ctg normalize i it s = Throw
  end.
Proof.
  intros B S0 LT. unfold fate, item_fate, visit_body. destruct wa as [[waPt waLn] waPl].
  destruct it as [g l|g l|g l].
  - rewrite B, S0. unfold step_block. assert (L := LT g l eq_refl). replace (Nat.leb (0 + N) i) with false by (symmetry; apply Nat.leb_gt; lia).
    cbn [rbind]. set (s1 := mkVS [(N, 1)] 0 (vs_next s) (vs_new s) (vs_calls s) (vs_sum s) (vs_discarded s)).
    assert (E1 : s1 = s) by (unfold s1; rewrite <- B, <- S0; destruct s; reflexivity).
    cbv zeta. destruct (Rlt_dec (vnorm (vsub g ctg)) (1 / 10000)); [rewrite E1; reflexivity|].
    destruct (Rlt_dec (vnorm (vsub l ctl)) (1 / 10000)); [rewrite E1; reflexivity|].
    set (b' := if normalize then _ else _). set (r' := if normalize then _ else _).
    destruct (emit_fate i b' r' (waPt * 1) s1 eq_refl eq_refl) as (E & N1 & N2).
    assert (U : match use_fate wp b' r' (waPt * 1) with
      | FSkip => emit wp i b' r' (waPt * 1) s1 = Ok s
      | FOut => emit wp i b' r' (waPt * 1) s1 = Ok (mkVS [(N, 1)] 0 (vs_next s) (i :: vs_new s) (vs_calls s) (vs_sum s) (S (vs_discarded s)))
      | FUse b r w => emit wp i b' r' (waPt * 1) s1 = Ok (mkVS [(N, 1)] 0 (vs_next s) (vs_new s) (mkCall i b r w :: vs_calls s) (vs_sum s + w) (vs_discarded s))
      | FErr => emit wp i b' r' (waPt * 1) s1 = Throw end).
    { destruct (use_fate wp b' r' (waPt * 1)); try contradiction; exact E. }
    destruct (wp_use_scale wp); [|exact U]. destruct (Rlt_dec (wp_scale_thr wp) _); [|exact U]. reflexivity.
  - destruct (emit_fate i g l waLn s B S0) as (E & N1 & N2). destruct (use_fate wp g l waLn); try contradiction; exact E.
  - destruct (emit_fate i g l waPl s B S0) as (E & N1 & N2). destruct (use_fate wp g l waPl); try contradiction; exact E.
Qed.

Definition wsum (l : list (V3 * V3 * R)) (s : R) : R := fold_left (fun a x => a + snd x) l s.

Lemma walk its : forall i s,
  (forall k g l, nth_error its k = Some (IPt g l) -> (i + k < N)%nat) ->
  vs_blocks s = [(N, 1)] -> vs_start s = 0%nat -> vs_next s = positions i skip its ->
  if existsb err_item its then visit_loop wp wa ctl ctg normalize i its s = Throw
  else exists s', visit_loop wp wa ctl ctg normalize i its s = Ok s' /\
    vs_new s' = rev (positions i bad_item its) ++ vs_new s /\
    map strip (vs_calls s') = rev (flat_map calls_item its) ++ map strip (vs_calls s) /\
    vs_sum s' = wsum (flat_map calls_item its) (vs_sum s) /\
    vs_discarded s' = (length (filter (fun it => negb (skip it) && bad_item it) its) + vs_discarded s)%nat.
Proof.
  induction its as [|it its IH]; intros i s LT B S0 NX.
  - cbn. exists s. repeat split.
  - cbn [existsb visit_loop flat_map positions filter].
    assert (LT' : forall k g l, nth_error its k = Some (IPt g l) -> (S i + k < N)%nat).
    { intros k g l H. specialize (LT (S k) g l H). lia. }
    assert (L0 : forall g l, it = IPt g l -> (i < N)%nat).
    { intros g l ->. specialize (LT 0%nat g l eq_refl). lia. }
    assert (EE : err_item it = negb (skip it) && match fate it with FErr => true | _ => false end) by reflexivity.
    assert (EB : bad_item it = skip it || match fate it with FOut => true | _ => false end) by reflexivity.
    assert (EK : calls_item it = if skip it then [] else match fate it with FUse b r w => [(b, r, w)] | _ => [] end) by reflexivity.
    rewrite EE, EB, EK. clear EE EB EK. cbn [positions] in NX.
    destruct (skip it) eqn:SK; cbn [negb andb orb].
    + rewrite NX, Nat.eqb_refl. cbn [rbind].
      specialize (IH (S i) (mkVS (vs_blocks s) (vs_start s) (positions (S i) skip its) (i :: vs_new s) (vs_calls s) (vs_sum s) (vs_discarded s)) LT' B S0 eq_refl).
      destruct (existsb err_item its); [exact IH|]. destruct IH as (s' & E & A1 & A2 & A3 & A4). exists s'. split; [exact E|].
      cbn [vs_new vs_calls vs_sum vs_discarded app] in *. split; [|split; [exact A2|split; [exact A3|exact A4]]].
      rewrite A1. cbn [rev]. rewrite <- app_assoc. reflexivity.
    + assert (NB : (match vs_next s with
        | o :: os => if Nat.eqb i o then Ok (mkVS (vs_blocks s) (vs_start s) os (i :: vs_new s) (vs_calls s) (vs_sum s) (vs_discarded s)) else visit_body wp wa ctl ctg normalize i it s
        | [] => visit_body wp wa ctl ctg normalize i it s end) = visit_body wp wa ctl ctg normalize i it s).
      { rewrite NX. destruct (positions (S i) skip its) as [|o os] eqn:EP; [reflexivity|].
        assert (X := positions_bound skip its (S i) o ltac:(rewrite EP; left; reflexivity)).
        replace (Nat.eqb i o) with false by (symmetry; apply Nat.eqb_neq; lia). reflexivity. }
      rewrite NB. assert (BF := body_fate i it s B S0 L0). destruct (fate it) as [| |b r w|] eqn:FT.
      * rewrite BF. cbn [rbind orb app]. specialize (IH (S i) s LT' B S0 NX).
        destruct (existsb err_item its); exact IH.
      * rewrite BF. cbn [rbind orb app].
        specialize (IH (S i) (mkVS [(N, 1)] 0 (vs_next s) (i :: vs_new s) (vs_calls s) (vs_sum s) (S (vs_discarded s))) LT' eq_refl eq_refl NX).
        destruct (existsb err_item its); [exact IH|]. destruct IH as (s' & E & A1 & A2 & A3 & A4). exists s'. split; [exact E|].
        cbn [vs_new vs_calls vs_sum vs_discarded] in *. split; [|split; [exact A2|split; [exact A3|]]].
        -- rewrite A1. cbn [rev]. rewrite <- app_assoc. reflexivity.
        -- rewrite A4. cbn [length]. lia.
      * rewrite BF. cbn [rbind orb app].
        specialize (IH (S i) (mkVS [(N, 1)] 0 (vs_next s) (vs_new s) (mkCall i b r w :: vs_calls s) (vs_sum s + w) (vs_discarded s)) LT' eq_refl eq_refl NX).
        destruct (existsb err_item its); [exact IH|]. destruct IH as (s' & E & A1 & A2 & A3 & A4). exists s'. split; [exact E|].
        cbn [vs_new vs_calls vs_sum vs_discarded] in *. split; [exact A1|split; [|split; [exact A3|exact A4]]].
        rewrite A2. cbn [rev map strip c_b c_r c_w]. rewrite <- app_assoc. reflexivity.
      * rewrite BF. reflexivity.
Qed.
End Walk.

(** ** The whole walk, on pairs in two orders *)
Definition reordered (p p' : VPairs) : Prop :=
  Permutation (vp_pts p) (vp_pts p') /\ Permutation (vp_lns p) (vp_lns p') /\ Permutation (vp_pls p) (vp_pls p') /\
  vp_nPt2Ln p = vp_nPt2Ln p' /\ vp_nPt2Pl p = vp_nPt2Pl p' /\ vp_weights p = [] /\ vp_weights p' = [].

Lemma reordered_sym p p' : reordered p p' -> reordered p' p.
Proof. intros (A & B & C & D & E & F & G). repeat split; try congruence; apply Permutation_sym; assumption. Qed.

Lemma reordered_items p p' : reordered p p' -> Permutation (items p) (items p').
Proof. intros (A & B & C & _). unfold items. apply Permutation_app; [|apply Permutation_app]; apply Permutation_map; assumption. Qed.

Lemma reordered_lengths p p' : reordered p p' -> length (vp_pts p) = length (vp_pts p') /\ length (vp_lns p) = length (vp_lns p') /\ length (vp_pls p) = length (vp_pls p').
Proof. intros (A & B & C & _). repeat split; apply Permutation_length; assumption. Qed.

Lemma wsum_perm l l' : Permutation l l' -> forall s, wsum l s = wsum l' s.
Proof. intros P s. unfold wsum. apply fold_perm; [intros; ring|exact P]. Qed.

(** the outliers: the positions of the pairs picked by a predicate, which never picks lines or planes *)
Definition pick (bad : V3 * V3 -> bool) (it : item) : bool := match it with IPt g l => bad (g, l) | _ => false end.

Lemma pick_items bad p : positions 0 (pick bad) (items p) = positions 0 bad (vp_pts p).
Proof.
  unfold items. rewrite positions_app, positions_map, map_length.
  rewrite (positions_none (pick bad)).
  - rewrite app_nil_r. apply positions_ext. intros [g l] _. reflexivity.
  - intros x X. apply in_app_or in X. destruct X as [X|X]; apply in_map_iff in X; destruct X as (y & <- & _); reflexivity.
Qed.

Lemma visit_reordered p p' wp ctl ctg normalize bad : reordered p p' ->
  (visit p wp ctl ctg (positions 0 bad (vp_pts p)) normalize = Throw /\ visit p' wp ctl ctg (positions 0 bad (vp_pts p')) normalize = Throw) \/
  exists r r' bad', visit p wp ctl ctg (positions 0 bad (vp_pts p)) normalize = Ok r /\ visit p' wp ctl ctg (positions 0 bad (vp_pts p')) normalize = Ok r' /\
    Permutation (map strip (vr_calls r)) (map strip (vr_calls r')) /\ vr_sum r = vr_sum r' /\ vr_discarded r = vr_discarded r' /\
    vr_outliers r = positions 0 bad' (vp_pts p) /\ vr_outliers r' = positions 0 bad' (vp_pts p').
Proof.
  intro RO. assert (PI := reordered_items _ _ RO). destruct (reordered_lengths _ _ RO) as (L1 & L2 & L3).
  destruct RO as (_ & _ & _ & N1 & N2 & W1 & W2).
  unfold visit. rewrite <- N1, <- N2. destruct (Nat.eqb (vp_nPt2Ln p) 0 && Nat.eqb (vp_nPt2Pl p) 0); [|left; split; reflexivity].
  unfold attitude_weights. rewrite <- L1, <- L2, <- L3.
  destruct (Rlt_dec 0 (wp_pt2pt wp + wp_ln2ln wp + wp_pl2pl wp)); cbn [rbind]; [|left; split; reflexivity].
  set (wa := (_, _, _)). unfold point_blocks. rewrite W1, W2, <- L1.
  set (N := length (vp_pts p)).
  assert (IX : forall q, length (vp_pts q) = N -> forall k g l, nth_error (items q) k = Some (IPt g l) -> (0 + k < N)%nat).
  { intros q LQ k g l H. unfold items in H. destruct (le_lt_dec N k) as [X|X]; [|exact X]. exfalso.
    rewrite nth_error_app2 in H by (rewrite map_length; lia). apply nth_error_In in H. apply in_app_or in H.
    destruct H as [H|H]; apply in_map_iff in H; destruct H as (y & Y & _); discriminate. }
  assert (K1 := walk wp wa ctl ctg normalize N (pick bad) (items p) 0%nat (mkVS [(N, 1)] 0 (positions 0 bad (vp_pts p)) [] [] 0 0) (IX p eq_refl) eq_refl eq_refl).
  assert (K2 := walk wp wa ctl ctg normalize N (pick bad) (items p') 0%nat (mkVS [(N, 1)] 0 (positions 0 bad (vp_pts p')) [] [] 0 0) (IX p' (eq_sym L1)) eq_refl eq_refl).
  cbn [vs_next vs_new vs_calls vs_sum vs_discarded map] in K1, K2. rewrite <- pick_items in K1 at 1. rewrite <- pick_items in K2 at 1.
  specialize (K1 eq_refl). specialize (K2 eq_refl). rewrite <- (existsb_perm _ _ _ PI) in K2.
  destruct (existsb _ (items p)).
  - left. rewrite K1, K2. split; reflexivity.
  - right. destruct K1 as (s & E & A1 & A2 & A3 & A4), K2 as (s' & E' & B1 & B2 & B3 & B4). rewrite E, E'. cbn [rbind].
    assert (BE : exists bad', forall it, bad_item wp wa ctl ctg normalize (pick bad) it = pick bad' it).
    { exists (fun x => bad_item wp wa ctl ctg normalize (pick bad) (IPt (fst x) (snd x))). intros [g l|g l|g l]; cbn [pick fst snd]; [reflexivity| |];
      unfold bad_item, pick, item_fate; destruct wa as [[? ?] ?]; cbn [orb]; unfold use_fate;
      destruct (wp_kernel wp) as [f|]; [destruct (wp_current wp)| |destruct (wp_current wp)|]; try reflexivity; try (destruct (Rlt_dec _ _); reflexivity). }
    destruct BE as [bad' BE]. do 2 eexists. exists bad'. split; [reflexivity|]. split; [reflexivity|]. cbn [vr_calls vr_sum vr_discarded vr_outliers].
    assert (PC := Permutation_flat_map (calls_item wp wa ctl ctg normalize (pick bad)) PI).
    split; [|split; [|split; [|split]]].
    + rewrite !map_rev, A2, B2, !app_nil_r, !rev_involutive. exact PC.
    + rewrite A3, B3. apply wsum_perm. exact PC.
    + rewrite A4, B4. f_equal. apply Permutation_length. apply filter_perm. exact PI.
    + rewrite A1, app_nil_r, rev_involutive. rewrite <- pick_items. apply positions_ext. intros; apply BE.
    + rewrite B1, app_nil_r, rev_involutive. rewrite <- pick_items. apply positions_ext. intros; apply BE.
Qed.

(** ** Centroids *)
Lemma centroid_loop bad ps : forall i cl cg cnt,
  vcentroid_loop i ps (positions i bad ps) cl cg cnt =
  (fold_left (fun a x => vadd a (snd x)) (filter (fun x => negb (bad x)) ps) cl,
   fold_left (fun a x => vadd a (fst x)) (filter (fun x => negb (bad x)) ps) cg,
   (cnt + length (filter (fun x => negb (bad x)) ps))%nat).
Proof.
  induction ps as [|[g l] ps IH]; intros i cl cg cnt; cbn [vcentroid_loop positions filter].
  - cbn. rewrite Nat.add_0_r. reflexivity.
  - destruct (bad (g, l)) eqn:E; cbn [negb].
    + rewrite Nat.eqb_refl. apply IH.
    + cbn [fold_left length fst snd]. replace (cnt + S (length (filter (fun x => negb (bad x)) ps)))%nat with (S cnt + length (filter (fun x => negb (bad x)) ps))%nat by lia.
      destruct (positions (S i) bad ps) as [|o os] eqn:EP.
      * rewrite <- EP. apply IH.
      * assert (X := positions_bound bad ps (S i) o ltac:(rewrite EP; left; reflexivity)).
        replace (Nat.eqb i o) with false by (symmetry; apply Nat.eqb_neq; lia). rewrite <- EP. apply IH.
Qed.

Lemma vadd_swap a x y : vadd (vadd a x) y = vadd (vadd a y) x.
Proof. unfold vadd. cbn. f_equal; ring. Qed.

Lemma centroids_reordered ps ps' bad : Permutation ps ps' ->
  eval_centroids ps (positions 0 bad ps) = eval_centroids ps' (positions 0 bad ps').
Proof.
  intro P. unfold eval_centroids. rewrite !centroid_loop, !positions_length, (Permutation_length P), (Permutation_length (filter_perm bad _ _ P)).
  assert (F := filter_perm (fun x => negb (bad x)) _ _ P). rewrite (Permutation_length F).
  rewrite (fold_perm (fun a x => vadd a (snd x)) ltac:(intros; apply vadd_swap) _ _ F), (fold_perm (fun a x => vadd a (fst x)) ltac:(intros; apply vadd_swap) _ _ F). reflexivity.
Qed.

(** ** The sums *)
Definition S_add3 (S : M33) (x : V3 * V3 * R) : M33 := S_add S (mkCall 0 (fst (fst x)) (snd (fst x)) (snd x)).
Lemma S_fold cs : forall S, fold_left S_add cs S = fold_left S_add3 (map strip cs) S.
Proof. induction cs as [|c cs IH]; intro S; cbn [fold_left map]; [reflexivity|]. rewrite IH. reflexivity. Qed.
Definition B_add3 (S : M33) (x : V3 * V3 * R) : M33 := B_add S (mkCall 0 (fst (fst x)) (snd (fst x)) (snd x)).
Lemma B_fold cs : forall S, fold_left B_add cs S = fold_left B_add3 (map strip cs) S.
Proof. induction cs as [|c cs IH]; intro S; cbn [fold_left map]; [reflexivity|]. rewrite IH. reflexivity. Qed.
Definition v_add3 (v : V3) (x : V3 * V3 * R) : V3 := v_add v (mkCall 0 (fst (fst x)) (snd (fst x)) (snd x)).
Lemma v_fold cs : forall v, fold_left v_add cs v = fold_left v_add3 (map strip cs) v.
Proof. induction cs as [|c cs IH]; intro v; cbn [fold_left map]; [reflexivity|]. rewrite IH. reflexivity. Qed.

Lemma S_of_perm cs cs' s : Permutation (map strip cs) (map strip cs') -> S_of cs s = S_of cs' s.
Proof.
  intro P. unfold S_of. rewrite !S_fold.
  assert (C : forall S x y, S_add3 (S_add3 S x) y = S_add3 (S_add3 S y) x).
  { intros S x y. unfold S_add3, S_add. cbn [m00 m01 m02 m10 m11 m12 m20 m21 m22 c_b c_r c_w]. f_equal; ring. }
  rewrite (fold_perm S_add3 C _ _ P). reflexivity.
Qed.
Lemma B_of_perm cs cs' s : Permutation (map strip cs) (map strip cs') -> B_of cs s = B_of cs' s.
Proof.
  intro P. unfold B_of. rewrite !B_fold.
  assert (C : forall S x y, B_add3 (B_add3 S x) y = B_add3 (B_add3 S y) x).
  { intros S x y. unfold B_add3, B_add. cbn [m00 m01 m02 m10 m11 m12 m20 m21 m22 c_b c_r c_w]. f_equal; ring. }
  rewrite (fold_perm B_add3 C _ _ P). reflexivity.
Qed.
Lemma v_of_perm cs cs' s : Permutation (map strip cs) (map strip cs') -> v_of cs s = v_of cs' s.
Proof.
  intro P. unfold v_of. rewrite !v_fold.
  assert (C : forall S x y, v_add3 (v_add3 S x) y = v_add3 (v_add3 S y) x).
  { intros S x y. unfold v_add3, v_add. cbn [vx vy vz c_b c_r c_w]. f_equal; ring. }
  rewrite (fold_perm v_add3 C _ _ P). reflexivity.
Qed.

(** ** The solvers *)
(** Both fail, or both give the same answer, with the same pairs as outliers. *)
Definition same_answer (p p' : VPairs) (a a' : res (bool * HResult)) : Prop :=
  (a = Throw /\ a' = Throw) \/
  exists ok T bad, a = Ok (ok, mkHR T (positions 0 bad (vp_pts p))) /\ a' = Ok (ok, mkHR T (positions 0 bad (vp_pts p'))).

Lemma internal_reordered eig p p' wp ctl ctg bad : reordered p p' ->
  (se3_l2_internal eig p wp ctl ctg (positions 0 bad (vp_pts p)) = Throw /\ se3_l2_internal eig p' wp ctl ctg (positions 0 bad (vp_pts p')) = Throw) \/
  exists q bad', se3_l2_internal eig p wp ctl ctg (positions 0 bad (vp_pts p)) = Ok (q, positions 0 bad' (vp_pts p)) /\
                 se3_l2_internal eig p' wp ctl ctg (positions 0 bad (vp_pts p')) = Ok (q, positions 0 bad' (vp_pts p')).
Proof.
  intro RO. destruct (reordered_lengths _ _ RO) as (L1 & L2 & L3). unfold se3_l2_internal.
  assert (N := RO). destruct N as (_ & _ & _ & N1 & N2 & _). rewrite <- N1, <- N2, <- L1, <- L2, <- L3.
  destruct (Nat.eqb (vp_nPt2Ln p) 0 && Nat.eqb (vp_nPt2Pl p) 0); [|left; split; reflexivity].
  destruct (Nat.ltb _ 3); [right; do 2 eexists; split; reflexivity|].
  destruct (visit_reordered p p' wp ctl ctg false bad RO) as [[-> ->]|(r & r' & bad' & -> & -> & P & SM & _ & O1 & O2)]; cbn [rbind]; [left; split; reflexivity|].
  right. rewrite O1, O2, SM, (S_of_perm _ _ _ P). do 2 eexists. split; reflexivity.
Qed.

Lemma no_outliers {A} (l : list A) : [] = positions 0 (fun _ => false) l.
Proof. symmetry. apply positions_none. reflexivity. Qed.

Lemma positions_count {A} (bad : A -> bool) l l' : Permutation l l' -> length (positions 0 bad l') = length (positions 0 bad l).
Proof. intro P. rewrite !positions_length. symmetry. apply Permutation_length, filter_perm, P. Qed.

Lemma horn_reordered eig p p' wp : reordered p p' -> same_answer p p' (optimal_tf_horn eig p wp) (optimal_tf_horn eig p' wp).
Proof.
  intro RO. unfold same_answer, optimal_tf_horn.
  destruct (Rle_dec 0 (wp_pt2pt wp)); [|left; split; reflexivity]. destruct (Rle_dec 0 (wp_ln2ln wp)); [|left; split; reflexivity]. destruct (Rle_dec 0 (wp_pl2pl wp)); [|left; split; reflexivity].
  assert (PP := proj1 RO).
  assert (C0 := centroids_reordered _ _ (fun _ => false) PP). rewrite <- !no_outliers in C0. rewrite <- C0.
  destruct (eval_centroids (vp_pts p) _) as [[ctl ctg]| | ] eqn:EC; cbn [rbind].
  2:{ left; split; reflexivity. }
  2:{ exfalso. unfold eval_centroids in EC. destruct (Nat.ltb _ _); [|discriminate]. destruct (vcentroid_loop _ _ _ _ _ _) as [[? ?] ?]. destruct (Nat.eqb _ _); discriminate. }
  assert (I0 := internal_reordered eig p p' wp ctl ctg (fun _ => false) RO). rewrite <- !no_outliers in I0.
  destruct I0 as [[-> ->]|(q & bad & -> & ->)]; cbn [rbind]; [left; split; reflexivity|].
  destruct q as [q|]; [|right; do 3 eexists; split; reflexivity].
  rewrite (positions_count bad _ _ PP).
  destruct (wp_use_scale wp && negb (Nat.eqb (length (positions 0 bad (vp_pts p))) 0)); [|right; do 3 eexists; split; reflexivity].
  rewrite <- (centroids_reordered _ _ bad PP).
  destruct (eval_centroids (vp_pts p) (positions 0 bad (vp_pts p))) as [[ctl2 ctg2]| | ] eqn:EC2; cbn [rbind].
  2:{ left; split; reflexivity. }
  2:{ exfalso. unfold eval_centroids in EC2. destruct (Nat.ltb _ _); [|discriminate]. destruct (vcentroid_loop _ _ _ _ _ _) as [[? ?] ?]. destruct (Nat.eqb _ _); discriminate. }
  destruct (internal_reordered eig p p' wp ctl2 ctg2 bad RO) as [[-> ->]|(q2 & bad2 & -> & ->)]; cbn [rbind]; [left; split; reflexivity|].
  right. destruct q2 as [q2|]; do 3 eexists; split; reflexivity.
Qed.

Lemma olae_build_reordered p p' wp ctl ctg bad : reordered p p' ->
  (olae_build p wp ctl ctg (positions 0 bad (vp_pts p)) = Throw /\ olae_build p' wp ctl ctg (positions 0 bad (vp_pts p')) = Throw) \/
  exists s bad', olae_build p wp ctl ctg (positions 0 bad (vp_pts p)) = Ok (s, positions 0 bad' (vp_pts p)) /\
                 olae_build p' wp ctl ctg (positions 0 bad (vp_pts p')) = Ok (s, positions 0 bad' (vp_pts p')).
Proof.
  intro RO. unfold olae_build.
  destruct (visit_reordered p p' wp ctl ctg true bad RO) as [[-> ->]|(r & r' & bad' & -> & -> & P & SM & _ & O1 & O2)]; cbn [rbind]; [left; split; reflexivity|].
  right. rewrite O1, O2, SM, (B_of_perm _ _ _ P), (v_of_perm _ _ _ P). do 2 eexists. split; reflexivity.
Qed.

Lemma olae_reordered solve p p' wp : reordered p p' -> same_answer p p' (optimal_tf_olae solve p wp) (optimal_tf_olae solve p' wp).
Proof.
  intro RO. unfold same_answer, optimal_tf_olae.
  destruct (Rle_dec 0 (wp_pt2pt wp)); [|left; split; reflexivity]. destruct (Rle_dec 0 (wp_ln2ln wp)); [|left; split; reflexivity]. destruct (Rle_dec 0 (wp_pl2pl wp)); [|left; split; reflexivity].
  assert (PP := proj1 RO).
  assert (C0 := centroids_reordered _ _ (fun _ => false) PP). rewrite <- !no_outliers in C0. rewrite <- C0.
  destruct (eval_centroids (vp_pts p) _) as [[ctl ctg]| | ] eqn:EC; cbn [rbind].
  2:{ left; split; reflexivity. }
  2:{ exfalso. unfold eval_centroids in EC. destruct (Nat.ltb _ _); [|discriminate]. destruct (vcentroid_loop _ _ _ _ _ _) as [[? ?] ?]. destruct (Nat.eqb _ _); discriminate. }
  assert (I0 := olae_build_reordered p p' wp ctl ctg (fun _ => false) RO). rewrite <- !no_outliers in I0.
  destruct I0 as [[-> ->]|(q & bad & -> & ->)]; cbn [rbind]; [left; split; reflexivity|].
  rewrite (positions_count bad _ _ PP).
  destruct (Nat.eqb (length (positions 0 bad (vp_pts p))) 0); [right; do 3 eexists; split; reflexivity|].
  rewrite <- (centroids_reordered _ _ bad PP).
  destruct (eval_centroids (vp_pts p) (positions 0 bad (vp_pts p))) as [[ctl2 ctg2]| | ] eqn:EC2; cbn [rbind].
  2:{ left; split; reflexivity. }
  2:{ exfalso. unfold eval_centroids in EC2. destruct (Nat.ltb _ _); [|discriminate]. destruct (vcentroid_loop _ _ _ _ _ _) as [[? ?] ?]. destruct (Nat.eqb _ _); discriminate. }
  destruct (olae_build_reordered p p' wp ctl2 ctg2 bad RO) as [[-> ->]|(q2 & bad2 & -> & ->)]; cbn [rbind]; [left; split; reflexivity|].
  right. do 3 eexists; split; reflexivity.
Qed.
