From Verif Require Import Base PairingsModel PairingsProofs MatcherModel BitfieldModel BitfieldProofs PointMatcherModel
  PointMatcherSpec PointMatcherProofs PointMatcherProofs2 PointMatcherProofs5 PointMatcherProofs7 FeatModel FeatSpec.
From Coq Require Import Lqa Permutation.

(** ** The points visited *)
Lemma tl_participating fMax sh tf b lpts : (forall l, Permutation (sh l) l) ->
  exists tl, transform_local_to_global fMax sh tf lpts (maxLocalPointsPerLayer b) = Ok tl
  /\ let P := participating sh (maxLocalPointsPerLayer b) lpts in
     length (tl_pts tl) = length P /\ NoDup P
     /\ Forall (fun li => li < length lpts) P
     /\ forall i li, nth_error P i = Some li -> local_index tl i = Ok li
          /\ exists lp, nth_error lpts li = Some lp /\ nth_error (tl_pts tl) i = Some (tf lp).
Proof.
  intro HS. unfold transform_local_to_global, participating. set (mx := maxLocalPointsPerLayer b).
  destruct (Nat.eqb mx 0 || Nat.leb (length lpts) mx) eqn:E.
  - eexists. split; [reflexivity|]. cbn [tl_pts tl_idxs]. rewrite map_length, seq_length.
    split; [reflexivity|]. split; [apply seq_NoDup|]. split; [rewrite Forall_forall; intros i Hi; apply in_seq in Hi; lia|].
    intros i li Hi. assert (i < length lpts) as HL.
    { assert (nth_error (seq 0 (length lpts)) i <> None) as X by congruence. apply nth_error_Some in X. rewrite seq_length in X. exact X. }
    assert (li = i). { apply nth_error_nth with (d := 0) in Hi. rewrite seq_nth in Hi by exact HL. lia. }
    subst li. split; [reflexivity|]. destruct (nth_error lpts i) as [lp|] eqn:El; [|apply nth_error_None in El; lia].
    exists lp. split; [reflexivity|]. rewrite nth_error_map, El. reflexivity.
  - apply orb_false_iff in E as [E1 E2]. apply Nat.leb_gt in E2.
    pose proof (perm_valid sh mx lpts HS E2) as PV. destruct (gather_valid lpts _ PV) as [ps Eg]. rewrite Eg. cbn [rbind].
    eexists. split; [reflexivity|]. cbn [tl_pts tl_idxs]. rewrite map_length.
    pose proof (gather_spec _ _ _ Eg) as GS. pose proof (f_equal (@length _) GS) as GL. rewrite !map_length in GL.
    split; [exact GL|]. split; [eapply Permutation_NoDup; [symmetry; apply HS|apply seq_NoDup]|]. split; [exact PV|].
    intros i li Hi. unfold local_index. cbn [tl_idxs]. rewrite Hi. split; [reflexivity|].
    assert (i < length ps) as HL. { rewrite GL. apply nth_error_Some. congruence. }
    destruct (nth_error ps i) as [lp|] eqn:Ep; [|apply nth_error_None in Ep; lia].
    pose proof (map_some_nth _ _ GS i lp Ep) as X. rewrite nth_error_map, Hi in X. injection X as X.
    exists lp. split; [exact X|]. rewrite nth_error_map, Ep. reflexivity.
Qed.

(** ** Marks of the local points *)
Lemma bits_mark_other b i b' j : bits_mark b i = Ok b' -> j <> i -> bits_get b' j = bits_get b j.
Proof.
  unfold bits_mark, bits_get. destruct (dense_ b) as [v|] eqn:E.
  - destruct (Nat.ltb_spec i (length v)) as [Hi|]; [|discriminate]. intros [= <-] N. cbn.
    rewrite nth_error_upd by assumption. destruct (Nat.eqb_spec j i); [contradiction|reflexivity].
  - intros [= <-] N. cbn. destruct (Nat.eqb_spec j i); [contradiction|reflexivity].
Qed.

Lemma mark_local_spec ms l i ms' : mark_local ms l i = Ok ms' -> marks_added ms ms' l [i].
Proof.
  unfold mark_local. destruct (bits_mark _ i) as [lb| |] eqn:E; cbn [rbind]; try discriminate. intros [= <-].
  split; [reflexivity|]. cbn [ms_local]. intros [k j]. cbn [fst snd]. destruct (marked_set _ _ _ _ E) as [A B]. split.
  - intro H. destruct (marked_set_conv _ _ _ _ _ E H) as [X|X]; [right; injection X as -> ->; split; [reflexivity|left; reflexivity]|left; exact X].
  - intros [H|[-> [<-|[]]]]; [apply B; exact H|exact A].
Qed.

Lemma marks_nil ms l : marks_added ms ms l [].
Proof. split; [reflexivity|]. intros k. split; [auto|]. intros [H|[_ []]]. exact H. Qed.
Lemma marks_trans a b c l x y : marks_added a b l x -> marks_added b c l y -> marks_added a c l (x ++ y).
Proof.
  intros [A1 A2] [B1 B2]. split; [congruence|]. intro k. rewrite B2, A2, in_app_iff. tauto.
Qed.

Lemma excluded_other b ms l i ms' j : mark_local ms l i = Ok ms' -> j <> i ->
  excluded b ms' l j = excluded b ms l j.
Proof.
  intros H N. apply mark_local_spec in H as [_ H]. specialize (H (l, j)). unfold marked in H. cbn [fst snd] in H.
  unfold excluded. destruct (negb _); cbn [andb]; [|reflexivity].
  destruct (query (ms_local ms') l j) as [[|]| |]; destruct (query (ms_local ms) l j) as [[|]| |]; try reflexivity; exfalso;
  try (destruct (proj1 H eq_refl) as [X|[_ [X|[]]]]; [discriminate X|congruence]);
  try (pose proof (proj2 H (or_introl eq_refl)) as X; discriminate X).
Qed.

Section Ploop.
Variables (tf : P3 -> P3) (b : BaseParams) (lname : nat).
Context {Y PL PN : Type}.
Notation fp := (Pairings Pair PL PN unit unit Q).
Variable act : P3 -> res (option Y).
Variable add : fp -> P3 -> Y -> nat -> fp.

Fixpoint ploop (cs : list (nat * P3)) (s : MatchState * fp) : res (MatchState * fp) :=
  match cs with
  | [] => Ok s
  | (li, lp) :: rest =>
    let* taken := taken_local b (fst s) lname li in
    if taken then ploop rest s
    else
      let* r := act (tf lp) in
      match r with
      | None => ploop rest s
      | Some y => let* ms' := mark_local (fst s) lname li in ploop rest (ms', add (snd s) lp y li)
      end
  end.

Definition hits (ms : MatchState) (cs : list (nat * P3)) : list (nat * P3 * Y) :=
  flat_map (fun x => if excluded b ms lname (fst x) then []
                     else match act (tf (snd x)) with Ok (Some y) => [(x, y)] | _ => [] end) cs.

Lemma ploop_spec cs : NoDup (map fst cs) -> forall s s', ploop cs s = Ok s' ->
  snd s' = fold_left (fun o h => add o (snd (fst h)) (snd h) (fst (fst h))) (hits (fst s) cs) (snd s)
  /\ marks_added (fst s) (fst s') lname (map (fun h => fst (fst h)) (hits (fst s) cs)).
Proof.
  induction cs as [|[li lp] cs IH]; intros ND s s' H; cbn [ploop] in H.
  - injection H as <-. split; [reflexivity|apply marks_nil].
  - inversion ND as [|? ? Hn ND']; subst. specialize (IH ND').
    unfold hits. cbn [flat_map fst snd]. fold (hits (fst s) cs).
    assert (EX : forall t, taken_local b (fst s) lname li = Ok t -> excluded b (fst s) lname li = t).
    { unfold taken_local, excluded. intros t Et. destruct (allowMatchAlreadyMatchedPoints b); cbn [negb andb]; [injection Et as <-; reflexivity|].
      rewrite Et. destruct t; reflexivity. }
    destruct (taken_local b (fst s) lname li) as [t| |] eqn:Et; cbn [rbind] in H; try discriminate.
    specialize (EX t eq_refl). cbn [fst] in EX. rewrite EX. destruct t.
    { apply IH in H as [H1 H2]. split; [exact H1|exact H2]. }
    destruct (act (tf lp)) as [[y|]| |] eqn:Ea; cbn [rbind] in H; try discriminate.
    2:{ apply IH in H as [H1 H2]. split; [exact H1|exact H2]. }
    destruct (mark_local (fst s) lname li) as [ms1| |] eqn:Em; cbn [rbind] in H; try discriminate.
    apply IH in H as [H1 H2]. cbn [fst snd] in H1, H2.
    assert (HE : hits ms1 cs = hits (fst s) cs).
    { unfold hits. clear -Em Hn. induction cs as [|[lj lq] cs IH]; [reflexivity|]. cbn [flat_map fst snd map] in *.
      rewrite (excluded_other b _ _ _ _ lj Em) by (intro X; apply Hn; left; exact X).
      rewrite IH by (intro X; apply Hn; right; exact X). reflexivity. }
    rewrite HE in H1, H2. cbn [app fold_left map fst snd]. split; [exact H1|].
    change (li :: map (fun h : nat * P3 * Y => fst (fst h)) (hits (fst s) cs)) with ([li] ++ map (fun h : nat * P3 * Y => fst (fst h)) (hits (fst s) cs)).
    eapply marks_trans; [apply mark_local_spec; exact Em|exact H2].
Qed.
End Ploop.

(** The points visited, with their coordinates. *)
Definition pts_of (lpts : list P3) (P : list nat) : list (nat * P3) :=
  flat_map (fun li => match nth_error lpts li with Some lp => [(li, lp)] | None => [] end) P.
Lemma pts_of_fst lpts P : Forall (fun li => li < length lpts) P -> map fst (pts_of lpts P) = P.
Proof.
  induction 1 as [|li P HL HP IH]; [reflexivity|]. unfold pts_of. cbn [flat_map]. fold (pts_of lpts P).
  destruct (nth_error lpts li) eqn:E; [|apply nth_error_None in E; lia]. cbn. rewrite IH. reflexivity.
Qed.
Lemma candidates_pts sh b ms l lpts :
  candidates sh b ms l lpts
  = filter (fun x => negb (excluded b ms l (fst x))) (pts_of lpts (participating sh (maxLocalPointsPerLayer b) lpts)).
Proof.
  unfold candidates, pts_of. induction (participating sh (maxLocalPointsPerLayer b) lpts) as [|li P IH]; [reflexivity|].
  cbn [flat_map]. rewrite IH. destruct (nth_error lpts li) as [lp|]; [|reflexivity]. cbn [app filter fst].
  destruct (excluded b ms l li); reflexivity.
Qed.

(** ** From the index loops to [ploop] *)
Section ToPloop.
Variables (fMax : Q) (sh : list nat -> list nat) (tf : P3 -> P3) (b : BaseParams) (lpts : list P3) (tl : TransformedLocal).
Variable lname : nat.
Notation fp := (Pairings Pair LnPair PlPair unit unit Q).
Definition agree (P : list nat) : Prop := forall i li, nth_error P i = Some li -> local_index tl i = Ok li
          /\ exists lp, nth_error lpts li = Some lp /\ nth_error (tl_pts tl) i = Some (tf lp).

Variable P : list nat.
Hypothesis HP : agree P.

(** An index loop with the shape of the two matchers. *)
Lemma seq_loop_ploop {Y} (act : P3 -> res (option Y)) add (loop : list nat -> MatchState * fp -> res (MatchState * fp)) :
  (forall s, loop [] s = Ok s) ->
  (forall i rest s li lp, local_index tl i = Ok li -> nth_error lpts li = Some lp -> nth_error (tl_pts tl) i = Some (tf lp) ->
     loop (i :: rest) s =
     (let* taken := taken_local b (fst s) lname li in
      if taken then loop rest s
      else let* r := act (tf lp) in
      match r with
      | None => loop rest s
      | Some y => let* ms' := mark_local (fst s) lname li in loop rest (ms', add (snd s) lp y li)
      end)) ->
  forall s, loop (seq 0 (length P)) s = ploop tf b lname act add (pts_of lpts P) s.
Proof.
  intros H0 H1.
  assert (X : forall Q k, (forall j, nth_error Q j = nth_error P (k + j)) -> forall s,
    loop (seq k (length Q)) s = ploop tf b lname act add (pts_of lpts Q) s).
  { induction Q as [|li Q IH]; intros k HQ s; [apply H0|].
    pose proof (HQ 0) as E. rewrite Nat.add_0_r in E. cbn in E. symmetry in E. destruct (HP _ _ E) as [A [lp [B C]]].
    cbn [length seq]. rewrite (H1 _ _ _ _ _ A B C).
    unfold pts_of. cbn [flat_map]. rewrite B. cbn [app ploop]. fold (pts_of lpts Q).
    assert (HQ' : forall j, nth_error Q j = nth_error P (S k + j)).
    { intro j. rewrite Nat.add_succ_l, <- Nat.add_succ_r, <- HQ. reflexivity. }
    destruct (taken_local b (fst s) lname li) as [[|]| |]; cbn [rbind]; try reflexivity; [apply IH; exact HQ'|].
    destruct (act (tf lp)) as [[y|]| |]; cbn [rbind]; try reflexivity; [|apply IH; exact HQ'].
    destruct (mark_local (fst s) lname li) as [ms1| |]; cbn [rbind]; try reflexivity. apply IH; exact HQ'. }
  apply X. reflexivity.
Qed.

Definition act_plane (thr : Q) (np : NPMap) (q : P3) : res (option PlanePatch) := Ok (plane_for thr np q).
Lemma p2pl_loop_ploop thr np s :
  p2pl_loop b thr np lpts tl lname (seq 0 (length P)) s
  = ploop tf b lname (act_plane thr np) (fun o lp pl li => fadd_pl o (mkPlP lp pl li)) (pts_of lpts P) s.
Proof.
  apply (seq_loop_ploop _ _ (p2pl_loop b thr np lpts tl lname)); [reflexivity|].
  intros i rest [ms out] li lp A B C. cbn [p2pl_loop fst snd]. rewrite A. cbn [rbind].
  destruct (taken_local b ms lname li) as [[|]| |]; cbn [rbind]; try reflexivity. rewrite C, B.
  unfold act_plane, plane_for. cbn [rbind]. destruct (np_search np (tf lp) thr) as [[pl|] d]; [|reflexivity].
  unfold Qltb. destruct (Qle_bool d thr); reflexivity.
Qed.

Variable eig_symmetric : Sym3 -> Spec3.
Variable unitarize : P3 -> P3.
Definition act_line (c : LineParams) (nn : NNMap) (q : P3) : res (option (P3 * P3)) :=
  let ns := nn_search nn q (l_knn c) in
  if Nat.ltb (kept_neighbours (qsq (l_distanceThreshold c)) (map snd ns)) (l_minimumLinePoints c) then Ok None
  else let* eig := estimate_total eig_symmetric (map (fun x => snd (fst x)) ns) (length ns) in
       let sp := eg_spec eig in
       if Qltb (l_lineEigenThreshold c * val2 sp) (val0 sp) then Ok None
       else if Qltb (l_lineEigenThreshold c * val2 sp) (val1 sp) then Ok None
       else Ok (Some (eg_mean eig, unitarize (vec2 sp))).
Lemma p2ln_loop_ploop c nn s :
  p2ln_loop eig_symmetric b unitarize c nn lpts tl lname (seq 0 (length P)) s
  = ploop tf b lname (act_line c nn) (fun o lp ln li => fadd_ln o (mkLnP lp (fst ln) (snd ln) li)) (pts_of lpts P) s.
Proof.
  apply (seq_loop_ploop _ _ (p2ln_loop eig_symmetric b unitarize c nn lpts tl lname)); [reflexivity|].
  intros i rest [ms out] li lp A B C. cbn [p2ln_loop fst snd]. rewrite A. cbn [rbind].
  destruct (taken_local b ms lname li) as [[|]| |]; cbn [rbind]; try reflexivity. rewrite C, B.
  unfold act_line. destruct (Nat.ltb _ (l_minimumLinePoints c)); [reflexivity|].
  destruct (estimate_total _ _ _) as [eig| |]; cbn [rbind]; try reflexivity.
  destruct (Qltb _ (val0 _)); [reflexivity|]. destruct (Qltb _ (val1 _)); reflexivity.
Qed.
End ToPloop.

(** ** Counting near neighbours *)
Lemma first_beyond_sorted m (ds : list Q) :
  (forall a d b e c, ds = a ++ d :: b ++ e :: c -> (d <= e)%Q) ->
  first_beyond m ds = length (filter (fun d => Qle_bool d m) ds).
Proof.
  induction ds as [|d ds IH]; intro H; [reflexivity|]. cbn [first_beyond filter]. unfold Qltb.
  destruct (Qle_bool d m) eqn:E; cbn [negb length].
  - f_equal. apply IH. intros a x b e c Hd. apply (H (d :: a) x b e c). rewrite Hd. reflexivity.
  - assert (X : filter (fun d => Qle_bool d m) ds = []); [|rewrite X; reflexivity].
    assert (Y : forall e, In e ds -> Qle_bool e m = false).
    { intros e He. apply in_split in He as [l1 [l2 ->]]. pose proof (H [] d l1 e l2 eq_refl) as Z.
      apply Qle_bool_false in E. apply Qle_bool_false. lra. }
    clear -Y. induction ds as [|e ds IH]; [reflexivity|]. cbn. rewrite (Y e (or_introl eq_refl)).
    apply IH. intros e' H. apply Y. right. exact H.
Qed.
Lemma kept_sorted m (ds : list Q) :
  (forall a d b e c, ds = a ++ d :: b ++ e :: c -> (d <= e)%Q) ->
  kept_neighbours m ds = length (filter (fun d => Qle_bool d m) ds).
Proof.
  intro H. unfold kept_neighbours. destruct (rev ds) as [|last r] eqn:E; [apply first_beyond_sorted; exact H|].
  destruct (Qltb last m) eqn:El; [|apply first_beyond_sorted; exact H].
  assert (Hd : ds = rev r ++ [last]). { rewrite <- (rev_involutive ds), E. reflexivity. }
  assert (X : filter (fun d => Qle_bool d m) ds = ds); [|rewrite X; reflexivity].
  assert (Y : forall e, In e ds -> Qle_bool e m = true).
  { unfold Qltb in El. apply negb_true_iff, Qle_bool_false in El.
    intros e He. rewrite Qle_bool_iff. rewrite Hd in He. apply in_app_or in He as [He|[<-|[]]]; [|lra].
    apply in_split in He as [l1 [l2 He]].
    assert (e <= last)%Q; [|lra]. apply (H l1 e l2 last []). rewrite Hd, He, <- app_assoc. reflexivity. }
  clear -Y. induction ds as [|e ds IH]; [reflexivity|]. cbn. rewrite (Y e (or_introl eq_refl)). f_equal.
  apply IH. intros e' H. apply Y. right. exact H.
Qed.

Lemma moved_tl fMax sh tf b lpts tl : (forall l, Permutation (sh l) l) ->
  transform_local_to_global fMax sh tf lpts (maxLocalPointsPerLayer b) = Ok tl ->
  forall p, In p (moved sh tf b lpts) -> inside (tl_min tl, tl_max tl) p.
Proof.
  intros HS E p H. destruct (tl_participating fMax sh tf b lpts HS) as [tl' [E' [_ [_ [_ A]]]]].
  rewrite E in E'. injection E' as <-. unfold moved in H. apply in_flat_map in H as [li [H1 H2]].
  apply In_nth_error in H1 as [i H1]. destruct (A i li H1) as [_ [lp [B C]]]. rewrite B in H2.
  destruct H2 as [<-|[]]. eapply tl_bbox; [exact E|]. eapply nth_error_In. exact C.
Qed.

Lemma bb_away bb mn mx eps pts : bb_intersects bb (mn, mx) eps = false ->
  (forall p, In p pts -> inside (mn, mx) p) -> away bb eps pts.
Proof.
  intros H HI. unfold bb_intersects in H. cbn [fst snd] in *.
  assert (X : forall p, In p pts -> (px mn <= px p <= px mx /\ py mn <= py p <= py mx /\ pz mn <= pz p <= pz mx)%Q).
  { intros p Hp. specialize (HI p Hp). unfold inside in HI. cbn in HI. tauto. }
  repeat (apply andb_false_iff in H as [H|H]); apply Qle_bool_false in H; unfold away;
  [exists px|exists px|exists py|exists py|exists pz|exists pz]; (split; [tauto|]);
  [left|right|left|right|left|right]; intros p Hp; specialize (X p Hp); lra.
Qed.

(** ** Safety *)
Lemma mark_room ms l lpts i : has_room ms l lpts -> i < length lpts ->
  exists ms', mark_local ms l i = Ok ms' /\ has_room ms' l lpts.
Proof.
  intros [bf [E1 E2]] Hi. unfold mark_local, lb_get_or_default. rewrite E1. unfold bits_mark.
  destruct (dense_ bf) as [v|] eqn:Ed.
  - specialize (E2 v eq_refl). destruct (Nat.ltb_spec i (length v)); [|lia]. cbn [rbind]. eexists. split; [reflexivity|].
    eexists. cbn. rewrite lb_find_set, Nat.eqb_refl. split; [reflexivity|]. cbn. intros v' [= <-]. rewrite length_upd. exact E2.
  - cbn [rbind]. eexists. split; [reflexivity|]. eexists. cbn. rewrite lb_find_set, Nat.eqb_refl. split; [reflexivity|]. cbn. discriminate.
Qed.
Lemma taken_room b ms l lpts i : has_room ms l lpts -> i < length lpts -> exists t, taken_local b ms l i = Ok t.
Proof.
  intros [bf [E1 E2]] Hi. unfold taken_local. destruct (allowMatchAlreadyMatchedPoints b); [eauto|].
  unfold query, lb_at. rewrite E1. cbn [rbind]. unfold bits_get. destruct (dense_ bf) as [v|]; [|eauto].
  specialize (E2 v eq_refl). destruct (nth_error v i) eqn:E; [eauto|]. apply nth_error_None in E. lia.
Qed.

Lemma ploop_safe {Y PL PN} tf b l lpts (act : P3 -> res (option Y)) (add : Pairings Pair PL PN unit unit Q -> P3 -> Y -> nat -> _) :
  (forall q, act q <> UB) -> forall cs, Forall (fun x => fst x < length lpts) cs -> forall s, has_room (fst s) l lpts ->
  match ploop tf b l act add cs s with Ok s' => has_room (fst s') l lpts | Throw => exists q, act q = Throw | UB => False end.
Proof.
  intros HA. induction cs as [|[li lp] cs IH]; intros HF s HR; cbn [ploop]; [exact HR|].
  inversion HF as [|? ? H1 H2]; subst. cbn [fst] in H1.
  destruct (taken_room b (fst s) l lpts li HR H1) as [t ->]. cbn [rbind]. destruct t; [apply IH; assumption|].
  destruct (act (tf lp)) as [[y|]| |] eqn:Ea; cbn [rbind].
  - destruct (mark_room (fst s) l lpts li HR H1) as [ms' [-> HR']]. cbn [rbind]. apply IH; assumption.
  - apply IH; assumption.
  - eauto.
  - exact (HA _ Ea).
Qed.
Lemma pts_of_bound lpts P : Forall (fun li => li < length lpts) P -> Forall (fun x => fst x < length lpts) (pts_of lpts P).
Proof.
  intro H. rewrite Forall_forall in *. intros x Hx. apply H. rewrite <- (pts_of_fst lpts P).
  - apply in_map. exact Hx.
  - rewrite Forall_forall. exact H.
Qed.

(** ** Folding the additions *)
Lemma fold_pl (hs : list (nat * P3 * PlanePatch)) : forall o,
  let r := fold_left (fun o h => fadd_pl o (mkPlP (snd (fst h)) (snd h) (fst (fst h)))) hs o in
  paired_pt2pl r = paired_pt2pl o ++ map (fun h => mkPlP (snd (fst h)) (snd h) (fst (fst h))) hs
  /\ paired_pt2pt r = paired_pt2pt o /\ paired_pt2ln r = paired_pt2ln o /\ paired_ln2ln r = paired_ln2ln o
  /\ paired_pl2pl r = paired_pl2pl o /\ point_weights r = point_weights o /\ potential_pairings r = potential_pairings o.
Proof.
  induction hs as [|h hs IH]; intro o; cbn [fold_left map].
  - rewrite app_nil_r. repeat (split; [reflexivity|]). reflexivity.
  - destruct (IH (fadd_pl o (mkPlP (snd (fst h)) (snd h) (fst (fst h))))) as [A B]. cbv zeta. rewrite A.
    cbn [fadd_pl paired_pt2pl]. rewrite <- app_assoc. split; [reflexivity|]. exact B.
Qed.
Lemma fold_ln (hs : list (nat * P3 * (P3 * P3))) : forall o,
  let r := fold_left (fun o h => fadd_ln o (mkLnP (snd (fst h)) (fst (snd h)) (snd (snd h)) (fst (fst h)))) hs o in
  paired_pt2ln r = paired_pt2ln o ++ map (fun h => mkLnP (snd (fst h)) (fst (snd h)) (snd (snd h)) (fst (fst h))) hs
  /\ paired_pt2pt r = paired_pt2pt o /\ paired_pt2pl r = paired_pt2pl o /\ paired_ln2ln r = paired_ln2ln o
  /\ paired_pl2pl r = paired_pl2pl o /\ point_weights r = point_weights o /\ potential_pairings r = potential_pairings o.
Proof.
  induction hs as [|h hs IH]; intro o; cbn [fold_left map].
  - rewrite app_nil_r. repeat (split; [reflexivity|]). reflexivity.
  - destruct (IH (fadd_ln o (mkLnP (snd (fst h)) (fst (snd h)) (snd (snd h)) (fst (fst h))))) as [A B]. cbv zeta. rewrite A.
    cbn [fadd_ln paired_pt2ln]. rewrite <- app_assoc. split; [reflexivity|]. exact B.
Qed.

Lemma hits_candidates {Y X} tf b l (act : P3 -> res (option Y)) (g : nat * P3 -> Y -> X) ms cs :
  map (fun h => g (fst h) (snd h)) (hits tf b l act ms cs)
  = flat_map (fun x => match act (tf (snd x)) with Ok (Some y) => [g x y] | _ => [] end)
      (filter (fun x => negb (excluded b ms l (fst x))) cs).
Proof.
  unfold hits. induction cs as [|x cs IH]; [reflexivity|]. cbn [flat_map filter]. rewrite map_app, IH.
  destruct (excluded b ms l (fst x)); cbn [negb flat_map]; [reflexivity|].
  destruct (act (tf (snd x))) as [[y|]| |]; reflexivity.
Qed.
