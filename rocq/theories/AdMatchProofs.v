From Verif Require Import Base PairingsModel PairingsProofs MatcherModel BitfieldModel BitfieldProofs PointMatcherModel
  PointMatcherSpec PointMatcherProofs PointMatcherProofs2 PointMatcherProofs5 PointMatcherProofs7 FeatModel FeatSpec
  FeatProofs AdMatchSpec.
From Coq Require Import Lqa Permutation.

(** ** The neighbours *)
Definition sorted3 (r : list (nat * P3 * Q)) : Prop :=
  forall a i g d b j h e c, r = a ++ (i, g, d) :: b ++ (j, h, e) :: c -> (d <= e)%Q.
Lemma sorted3_tl x r : sorted3 (x :: r) -> sorted3 r.
Proof. intros H a i g d b j h e c E. eapply (H (x :: a)). rewrite E. reflexivity. Qed.
Lemma sorted3_app_l x y : sorted3 (x ++ y) -> sorted3 x.
Proof. intros H a i g d b j h e c E. eapply (H a i g d b j h e (c ++ y)). rewrite E, <- app_assoc. cbn. rewrite <- app_assoc. reflexivity. Qed.
Lemma sorted3_le x y i g d j h e : sorted3 (x ++ y) -> In (i, g, d) x -> In (j, h, e) y -> (d <= e)%Q.
Proof.
  intros H Hx Hy. apply in_split in Hx as [a [b ->]]. apply in_split in Hy as [c [f ->]].
  eapply (H a i g d (b ++ c) j h e f). rewrite <- app_assoc. cbn. rewrite <- app_assoc. reflexivity.
Qed.

Section Found.
Variable radius_search : NNMap -> P3 -> Q -> nat -> list (nat * P3 * Q).
Variable c : AdParams.
Notation R2 := (qsq (a_absoluteMaxSearchDistance c)).
Definition inr (x : nat * P3 * Q) : bool := Qle_bool (snd x) R2.
Definition near10 (nn : NNMap) (q : P3) : list (nat * P3 * Q) :=
  firstn 10 (filter inr (ad_search radius_search c nn q)).

Lemma search_correct nn q : nn_correct nn -> radius_correct radius_search nn ->
  let r := filter inr (ad_search radius_search c nn q) in
  (forall i g d, In (i, g, d) r -> nth_error (nn_points nn) i = Some g /\ (d == sqd q g)%Q /\ (d <= R2)%Q)
  /\ NoDup (map (fun x => fst (fst x)) r)
  /\ (ad_max_points c <> 0 -> length r <= ad_max_points c)
  /\ sorted3 r
  /\ (forall j h, nth_error (nn_points nn) j = Some h -> (sqd q h <= R2)%Q ->
        (exists d, In (j, h, d) r)
        \/ (ad_max_points c <> 0 /\ length r = ad_max_points c /\ forall i g d, In (i, g, d) r -> (d <= sqd q h)%Q))
  /\ sorted3 (ad_search radius_search c nn q).
Proof.
  intros HN HR. unfold ad_search. destruct (Nat.eqb_spec (ad_max_points c) 1) as [E|E].
  - destruct (HN q 1) as [A [B [C [D F]]]].
    assert (X : firstn 1 (nn_search nn q 1) = nn_search nn q 1) by (apply firstn_all2; exact C). rewrite X, E.
    destruct (nn_search nn q 1) as [|[[i g] d] [|]] eqn:En; [| |cbn in C; lia].
    + cbv zeta. cbn [filter map length]. split; [intros i g d []|]. split; [constructor|]. split; [intro; lia|].
      split; [intros a i g d b j h e z Hz; destruct a; discriminate|]. split; [|intros a i g d b j h e z Hz; destruct a; discriminate].
      intros j h Hj Hs. destruct (F j h Hj) as [[d []]|[L _]]. discriminate L.
    + destruct (A i g d (or_introl eq_refl)) as [A1 A2]. cbv zeta. cbn [filter]. unfold inr. cbn [snd].
      assert (SS : sorted3 [(i, g, d)]) by (intros a i0 g0 d0 b0 j h e z Hz; destruct a as [|? [|]]; destruct b0; discriminate).
      destruct (Qle_bool d R2) eqn:Ed.
      * apply Qle_bool_iff in Ed. split; [intros i' g' d' [[= <- <- <-]|[]]; auto|].
        split; [exact B|]. split; [intros _; exact C|]. split; [exact SS|]. split; [|exact SS].
        intros j h Hj Hs. destruct (F j h Hj) as [X1|[X1 X2]]; [left; exact X1|right].
        split; [discriminate|]. split; [reflexivity|exact X2].
      * apply Qle_bool_false in Ed. split; [intros ? ? ? []|]. split; [constructor|]. split; [cbn; lia|].
        split; [intros a i0 g0 d0 b0 j h e z Hz; destruct a; discriminate|]. split; [|exact SS].
        intros j h Hj Hs. exfalso. destruct (F j h Hj) as [[d' [[= <- <- <-]|[]]]|[_ X2]].
        -- lra.
        -- specialize (X2 i g d (or_introl eq_refl)). lra.
  - destruct (HR q R2 (ad_max_points c)) as [A [B [C [D F]]]].
    set (r := radius_search nn q R2 (ad_max_points c)) in *.
    assert (X : filter inr r = r).
    { assert (forall x, In x r -> inr x = true) as Y.
      { intros [[i g] d] Hx. apply Qle_bool_iff. apply (A _ _ _ Hx). }
      clear -Y. induction r as [|x r IH]; [reflexivity|]. cbn. rewrite (Y x (or_introl eq_refl)). f_equal. apply IH. intros. apply Y. right. assumption. }
    cbv zeta. rewrite X. split; [exact A|]. split; [exact B|]. split; [exact C|]. split; [exact D|]. split; [exact F|exact D].
Qed.

Definition mkp (gname lname li : nat) (lp : P3) (x : nat * P3 * Q) : Pair :=
  mkPair (fst (fst x)) li (snd (fst x)) lp (snd x) gname lname.

Lemma near10_spec nn gname lname li lp q : nn_correct nn -> radius_correct radius_search nn ->
  nearest_pairs nn gname lname li lp q (a_absoluteMaxSearchDistance c * a_absoluteMaxSearchDistance c) (looked_at c)
    (map (mkp gname lname li lp) (near10 nn q)).
Proof.
  intros HN HR. destruct (search_correct nn q HN HR) as [A [B [C [D [F _]]]]]. unfold near10.
  set (r := filter inr (ad_search radius_search c nn q)) in *.
  assert (HL : length (firstn 10 r) <= looked_at c).
  { rewrite firstn_length. unfold looked_at. unfold ad_max_points in C.
    destruct (if a_enableDetectPlanes c then _ else _) as [|k]; [lia|]. specialize (C ltac:(lia)). lia. }
  split; [|split; [|split; [|split]]].
  - intros p Hp. apply in_map_iff in Hp as [[[i g] d] [<- Hx]]. cbn. repeat (split; [reflexivity|]).
    apply A. rewrite <- (firstn_skipn 10 r). apply in_or_app. left. exact Hx.
  - rewrite map_map. cbn [mkp p_globalIdx]. rewrite <- (firstn_skipn 10 r), map_app in B.
    revert B. generalize (map (fun x : nat * P3 * Q => fst (fst x)) (firstn 10 r)). intro l.
    induction l as [|x l IH]; [constructor|]. cbn. intro H. inversion H; subst. constructor; [|apply IH; assumption].
    intro Y. apply H2. apply in_or_app. left. exact Y.
  - rewrite map_length. exact HL.
  - intros a p b p' z E. apply map_eq_app in E as [r1 [r2 [E1 [E2 E3]]]]. destruct r2 as [|[[i g] d] r2]; [discriminate|].
    cbn [map] in E3. injection E3 as E3 E4. apply map_eq_app in E4 as [r3 [r4 [E5 [E6 E7]]]].
    destruct r4 as [|[[j h] e0] r4]; [discriminate|]. cbn [map] in E7. injection E7 as E7 E8. subst p p'. cbn [mkp p_err snd].
    eapply (D r1 i g d r3 j h e0 (r4 ++ skipn 10 r)). rewrite <- (firstn_skipn 10 r) at 1. rewrite E1, E5.
    rewrite <- app_assoc. cbn. rewrite <- app_assoc. reflexivity.
  - intros j h Hj Hs.
    assert (forall d, In (j, h, d) (firstn 10 r) -> exists p, In p (map (mkp gname lname li lp) (firstn 10 r)) /\ p_globalIdx p = j) as IN.
    { intros d Hd. exists (mkp gname lname li lp (j, h, d)). split; [apply in_map; exact Hd|reflexivity]. }
    destruct (F j h Hj Hs) as [[d Hd]|[F1 [F2 F3]]].
    + rewrite <- (firstn_skipn 10 r) in Hd. apply in_app_or in Hd as [Hd|Hd]; [left; eapply IN; exact Hd|right].
      assert (10 < length r) as HL10. { destruct (Nat.le_gt_cases (length r) 10) as [X|X]; [|exact X]. rewrite skipn_all2 in Hd by exact X. destruct Hd. }
      split.
      * rewrite map_length, firstn_length. unfold looked_at. unfold ad_max_points in C.
        destruct (if a_enableDetectPlanes c then _ else _) as [|k]; [lia|]. specialize (C ltac:(lia)). lia.
      * intros p Hp. apply in_map_iff in Hp as [[[i g] e] [<- Hx]]. cbn [mkp p_err snd].
        assert (e <= d)%Q. { eapply (sorted3_le (firstn 10 r) (skipn 10 r)); [rewrite firstn_skipn; exact D|exact Hx|exact Hd]. }
        assert (In (j, h, d) r) as Hr. { rewrite <- (firstn_skipn 10 r). apply in_or_app. right. exact Hd. }
        destruct (A _ _ _ Hr) as [_ [A2 _]]. lra.
    + right. split.
      * rewrite map_length, firstn_length. unfold looked_at. unfold ad_max_points in *.
        destruct (if a_enableDetectPlanes c then _ else _) as [|k]; [congruence|]. lia.
      * intros p Hp. apply in_map_iff in Hp as [[[i g] e] [<- Hx]]. cbn [mkp p_err snd]. eapply F3.
        rewrite <- (firstn_skipn 10 r). apply in_or_app. left. exact Hx.
Qed.

(** ** ad_neighbours *)
Definition hadd (h : option (Q * Q)) (err : Q) : option (Q * Q) :=
  match h with Some (lo, hi) => Some (kmin lo err, kmax hi err) | None => Some (err, err) end.
Lemma firstn_snoc_full {A} n (a : list A) b : n <= length a -> firstn n (a ++ b) = firstn n a.
Proof. intro H. rewrite firstn_app. replace (n - length a) with 0 by lia. rewrite app_nil_r. reflexivity. Qed.

Lemma upd_upd {A} (l : list A) i x y : upd (upd l i x) i y = upd l i y.
Proof. revert i. induction l as [|z l IH]; intros [|i]; cbn; try reflexivity. rewrite IH. reflexivity. Qed.
Lemma upd_same {A} (l : list A) i x : nth_error l i = Some x -> upd l i x = l.
Proof. revert i. induction l as [|z l IH]; intros [|i] H; cbn in *; try discriminate; [injection H as ->; reflexivity|]. rewrite IH by exact H. reflexivity. Qed.

Lemma ad_neighbours_spec lpts gname lname li lp ns : nth_error lpts li = Some lp ->
  forall k m h ps, nth_error m li = Some ps -> length ps <= 10 ->
  ad_neighbours c lpts gname lname li k ns (m, h)
  = Ok (upd m li (firstn 10 (ps ++ map (mkp gname lname li lp) (filter inr ns))),
        fold_left hadd (map snd (filter inr (firstn (2 - k) ns))) h).
Proof.
  intro El. induction ns as [|[[gi gpt] err] ns IH]; intros k m h ps Em HL; cbn [ad_neighbours].
  - cbn [filter map]. rewrite app_nil_r, firstn_all2 by exact HL. rewrite firstn_nil. cbn. rewrite upd_same by exact Em. reflexivity.
  - assert (HK : firstn (2 - k) ((gi, gpt, err) :: ns) = if Nat.leb k 1 then (gi, gpt, err) :: firstn (2 - S k) ns else firstn (2 - S k) ns).
    { destruct k as [|[|k]]; reflexivity. }
    rewrite HK. cbn [filter]. unfold Qltb. unfold inr at 1. cbn [snd]. destruct (Qle_bool err R2) eqn:Ei; cbn [negb].
    + unfold ad_add_pair. cbn [fst snd]. rewrite Em. unfold MAX_CORRS_PER_LOCAL.
      destruct (Nat.leb_spec 10 (length ps)) as [H10|H10]; cbn [rbind].
      * rewrite (IH (S k) m _ ps Em HL). f_equal. f_equal.
        -- cbn [map]. rewrite !firstn_snoc_full by lia. reflexivity.
        -- unfold ad_limits. destruct (Nat.leb k 1); [|reflexivity]. cbn [filter map]. unfold inr at 2. cbn [snd]. rewrite Ei.
           cbn [map fold_left snd]. destruct h as [[lo hi]|]; reflexivity.
      * rewrite El. cbn [rbind].
        assert (HLi : li < length m) by (apply nth_error_Some; congruence).
        rewrite (IH (S k) _ _ (ps ++ [mkPair gi li gpt lp err gname lname])).
        -- rewrite upd_upd, <- app_assoc. cbn [app map mkp fst snd]. f_equal. f_equal.
           unfold ad_limits. destruct (Nat.leb k 1); [|reflexivity]. cbn [filter map]. unfold inr at 2. cbn [snd]. rewrite Ei.
           cbn [map fold_left snd]. destruct h as [[lo hi]|]; reflexivity.
        -- rewrite nth_error_upd by exact HLi. rewrite Nat.eqb_refl. reflexivity.
        -- rewrite app_length. cbn. lia.
    + rewrite (IH (S k) m h ps Em HL). f_equal. f_equal. destruct (Nat.leb k 1); [|reflexivity].
      cbn [filter]. unfold inr at 2. cbn [snd]. rewrite Ei. reflexivity.
Qed.

Lemma filter_firstn n r : sorted3 r -> filter inr (firstn n r) = firstn n (filter inr r).
Proof.
  revert n. induction r as [|x r IH]; intros n H; [cbn [filter]; rewrite !firstn_nil; reflexivity|].
  destruct n; [reflexivity|]. cbn [firstn filter]. rewrite (IH n (sorted3_tl _ _ H)). destruct (inr x) eqn:E; [reflexivity|].
  assert (X : filter inr r = []).
  { assert (forall y, In y r -> inr y = false) as Y.
    { intros [[j h] e] Hy. destruct x as [[i g] d]. apply Qle_bool_false. unfold inr in E. apply Qle_bool_false in E. cbn [snd] in *.
      assert (d <= e)%Q by (eapply (sorted3_le [(i, g, d)] r); [exact H|left; reflexivity|exact Hy]). lra. }
    clear -Y. induction r as [|y r IH]; [reflexivity|]. cbn. rewrite (Y y (or_introl eq_refl)). apply IH. intros. apply Y. right. assumption. }
  rewrite X, !firstn_nil. reflexivity.
Qed.

(** ** ad_search_loop *)
Section Loop.
Variables (tf : P3 -> P3) (b : BaseParams) (lpts : list P3) (tl : TransformedLocal) (gname lname : nat) (nn : NNMap) (ms : MatchState).
Hypothesis HN : nn_correct nn.
Hypothesis HR : radius_correct radius_search nn.
Hypothesis HM : has_room ms lname lpts.

(** What is found for the local point [li]. *)
Definition F (li : nat) : list Pair :=
  match nth_error lpts li with
  | Some lp => if excluded b ms lname li then [] else map (mkp gname lname li lp) (near10 nn (tf lp))
  | None => []
  end.

Variable P : list nat.
Hypothesis HP : agree tf lpts tl P.
Hypothesis HPl : Forall (fun li => li < length lpts) P.

Lemma taken_excluded li : li < length lpts -> taken_local b ms lname li = Ok (excluded b ms lname li).
Proof.
  intro H. destruct (taken_room b ms lname lpts li HM H) as [t Ht]. rewrite Ht. f_equal. revert Ht.
  unfold taken_local, excluded. destruct (allowMatchAlreadyMatchedPoints b); cbn; [congruence|]. intros ->. destruct t; reflexivity.
Qed.

Lemma ad_search_loop_spec : forall Q k m h, (forall j, nth_error Q j = nth_error P (k + j)) -> NoDup Q ->
  (forall li, In li Q -> nth_error m li = Some []) ->
  exists m', ad_search_loop b radius_search c nn lpts tl gname lname ms (seq k (length Q)) (m, h)
    = Ok (m', fold_left hadd (flat_map (fun li => map p_err (firstn 2 (F li))) Q) h)
  /\ length m' = length m
  /\ (forall li, In li Q -> nth_error m' li = Some (F li))
  /\ (forall li, ~ In li Q -> nth_error m' li = nth_error m li).
Proof.
  induction Q as [|li Q IH]; intros k m h HQ ND HE.
  - exists m. split; [reflexivity|]. split; [reflexivity|]. split; [intros ? []|reflexivity].
  - pose proof (HQ 0) as E. rewrite Nat.add_0_r in E. cbn in E. symmetry in E. destruct (HP _ _ E) as [A [lp [B C]]].
    assert (HL : li < length lpts) by (apply nth_error_Some; congruence).
    assert (HQ' : forall j, nth_error Q j = nth_error P (S k + j)).
    { intro j. rewrite Nat.add_succ_l, <- Nat.add_succ_r, <- HQ. reflexivity. }
    inversion ND as [|? ? Hn ND']; subst.
    cbn [length seq ad_search_loop]. rewrite A. cbn [rbind]. rewrite (taken_excluded li HL). cbn [rbind flat_map].
    assert (EF : F li = if excluded b ms lname li then [] else map (mkp gname lname li lp) (near10 nn (tf lp))).
    { unfold F. rewrite B. reflexivity. }
    destruct (excluded b ms lname li) eqn:Ex.
    + destruct (IH (S k) m h HQ' ND' (fun l Hl => HE l (or_intror Hl))) as [m' [I1 [I2 [I3 I4]]]].
      exists m'. rewrite EF. cbn [firstn map app]. split; [exact I1|]. split; [exact I2|]. split.
      * intros l [<-|Hl]; [|apply I3; exact Hl]. rewrite I4 by exact Hn. rewrite EF. apply HE. left. reflexivity.
      * intros l Hl. apply I4. intro X. apply Hl. right. exact X.
    + rewrite C. rewrite (ad_neighbours_spec lpts gname lname li lp _ B 0 m h [] (HE li (or_introl eq_refl))) by (cbn; lia).
      cbn [rbind app].
      assert (HLm : li < length m) by (apply nth_error_Some; rewrite (HE li (or_introl eq_refl)); discriminate).
      destruct (search_correct nn (tf lp) HN HR) as [_ [_ [_ [_ [_ SS]]]]].
      rewrite filter_firstn by exact SS.
      match goal with |- context [ad_search_loop _ _ _ _ _ _ _ _ _ _ (?m1, ?h1)] => set (m1' := m1); set (h1' := h1) end.
      assert (EM : nth_error m1' li = Some (F li)).
      { unfold m1'. rewrite nth_error_upd by exact HLm. rewrite Nat.eqb_refl. rewrite EF. unfold near10. rewrite firstn_map. reflexivity. }
      assert (EO : forall l, l <> li -> nth_error m1' l = nth_error m l).
      { intros l Hl. unfold m1'. rewrite nth_error_upd by exact HLm. destruct (Nat.eqb_spec l li); [contradiction|reflexivity]. }
      destruct (IH (S k) m1' h1' HQ' ND') as [m' [I1 [I2 [I3 I4]]]].
      { intros l Hl. rewrite EO; [apply HE; right; exact Hl|]. intros ->. contradiction. }
      exists m'. split; [|split; [|split]].
      * rewrite I1. f_equal. f_equal. rewrite fold_left_app. f_equal. unfold h1'. f_equal. rewrite EF. unfold near10.
        rewrite !firstn_map, map_map. rewrite firstn_firstn. reflexivity.
      * rewrite I2. unfold m1'. apply length_upd.
      * intros l [<-|Hl]; [rewrite I4 by exact Hn; exact EM|apply I3; exact Hl].
      * intros l Hl. rewrite I4; [apply EO|]; intro X; apply Hl; [left; congruence|right; exact X].
Qed.
End Loop.
End Found.

(** ** Limits of the histogram *)
Lemma hadd_spec es : forall lo hi, exists lo' hi', fold_left hadd es (Some (lo, hi)) = Some (lo', hi')
  /\ In lo' (lo :: es) /\ In hi' (hi :: es) /\ (lo' <= lo)%Q /\ (hi <= hi')%Q /\ forall e, In e es -> (lo' <= e <= hi')%Q.
Proof.
  induction es as [|e es IH]; intros lo hi; cbn [fold_left].
  - exists lo, hi. split; [reflexivity|]. split; [left; reflexivity|]. split; [left; reflexivity|]. split; [lra|]. split; [lra|]. intros e [].
  - cbn [hadd]. destruct (IH (kmin lo e) (kmax hi e)) as (lo' & hi' & A & B & C & D & E & G). exists lo', hi'. split; [exact A|].
    assert (K1 : (kmin lo e <= lo /\ kmin lo e <= e)%Q /\ (kmin lo e = lo \/ kmin lo e = e)).
    { unfold kmin, Qltb. destruct (Qle_bool lo e) eqn:X; cbn; [apply Qle_bool_iff in X|apply Qle_bool_false in X]; (split; [lra|auto]). }
    assert (K2 : (hi <= kmax hi e /\ e <= kmax hi e)%Q /\ (kmax hi e = hi \/ kmax hi e = e)).
    { unfold kmax, Qltb. destruct (Qle_bool e hi) eqn:X; cbn; [apply Qle_bool_iff in X|apply Qle_bool_false in X]; (split; [lra|auto]). }
    destruct K1 as [K1 K1'], K2 as [K2 K2'].
    split. { destruct B as [B|B]; [rewrite <- B; destruct K1' as [-> | ->]; cbn; auto|right; right; exact B]. }
    split. { destruct C as [C|C]; [rewrite <- C; destruct K2' as [-> | ->]; cbn; auto|right; right; exact C]. }
    split; [lra|]. split; [lra|]. intros x [<-|Hx]; [lra|apply G; exact Hx].
Qed.
Lemma hadd_none es : match fold_left hadd es None with
  | Some (lo, hi) => extremes lo hi es
  | None => es = [] end.
Proof.
  destruct es as [|e es]; [reflexivity|]. cbn [fold_left]. destruct (hadd_spec es e e) as (lo & hi & A & B & C & D & E & G).
  cbn [hadd]. rewrite A. split; [exact B|]. split; [exact C|]. intros x [<-|Hx]; [lra|apply G; exact Hx].
Qed.
Lemma extremes_ext lo hi a b : (forall e, In e a <-> In e b) -> extremes lo hi a -> extremes lo hi b.
Proof. intros H [A [B C]]. split; [apply H; exact A|]. split; [apply H; exact B|]. intros e He. apply C, H, He. Qed.

(** ** Emission of the pairings *)
Notation fp := (Pairings Pair LnPair PlPair unit unit Q).
Definition ext (out out' : fp) (npt : list Pair) (npl : list PlPair) : Prop :=
  paired_pt2pt out' = paired_pt2pt out ++ npt /\ paired_pt2pl out' = paired_pt2pl out ++ npl
  /\ paired_pt2ln out' = paired_pt2ln out /\ paired_ln2ln out' = paired_ln2ln out
  /\ paired_pl2pl out' = paired_pl2pl out /\ point_weights out' = point_weights out
  /\ potential_pairings out' = potential_pairings out.
Lemma ext_nil out : ext out out [] [].
Proof. unfold ext. rewrite !app_nil_r. repeat (split; [reflexivity|]). reflexivity. Qed.
Lemma ext_trans a b c x y x' y' : ext a b x y -> ext b c x' y' -> ext a c (x ++ x') (y ++ y').
Proof.
  intros (A1 & A2 & A3 & A4 & A5 & A6 & A7) (B1 & B2 & B3 & B4 & B5 & B6 & B7). unfold ext.
  rewrite B1, B2, A1, A2, <- !app_assoc. repeat (split; [congruence|]). congruence.
Qed.

Section Emit.
Variables (eig_symmetric : Sym3 -> Spec3) (plane_distance : PlanePatch -> P3 -> Q) (b : BaseParams) (c : AdParams).
Variables (lpts : list P3) (gname lname : nat) (nn : NNMap) (maxSqr : Q).

Lemma ad_plane_spec ps : 3 <= a_planeMinimumFoundPoints c ->
  ad_plane eig_symmetric plane_distance c ps = Ok (flat_patch eig_symmetric plane_distance c ps).
Proof.
  intro H. unfold ad_plane, flat_patch. destruct (a_enableDetectPlanes c); cbn [andb]; [|destruct ps; reflexivity].
  destruct (Nat.leb_spec (a_planeMinimumFoundPoints c) (length ps)) as [H1|H1]; cbn [andb]; [|destruct ps; reflexivity].
  unfold estimate_total. rewrite map_length. destruct (Nat.ltb_spec (length ps) 3); [lia|]. rewrite Nat.ltb_irrefl. cbn [rbind].
  rewrite <- (map_length p_global ps), firstn_all. destruct ps as [|p0 ps]; [cbn in *; lia|]. unfold Qltb.
  destruct (negb (Qle_bool _ _) && negb (Qle_bool _ _)); cbn [andb]; [|reflexivity]. reflexivity.
Qed.

Lemma gquery_room ms gi : has_global_room b ms gname nn -> gi < length (nn_points nn) ->
  (if allowMatchAlreadyMatchedGlobalPoints b then Ok false else query (ms_global ms) gname gi) = Ok (gexcluded b ms gname gi).
Proof.
  intros [bf [E1 E2]] Hi. unfold gexcluded. destruct (allowMatchAlreadyMatchedGlobalPoints b); cbn [negb andb]; [reflexivity|].
  unfold query, lb_at. rewrite E1. cbn [rbind]. unfold bits_get. destruct (dense_ bf) as [v|].
  - specialize (E2 v eq_refl). destruct (nth_error v gi) as [t|] eqn:E; [destruct t; reflexivity|]. apply nth_error_None in E. lia.
  - destruct (existsb (Nat.eqb gi) (sparse_ bf)); reflexivity.
Qed.
Lemma gexcluded_same ms ms' gi : ms_global ms' = ms_global ms -> gexcluded b ms' gname gi = gexcluded b ms gname gi.
Proof. unfold gexcluded. intros ->. reflexivity. Qed.
Lemma groom_same ms ms' : ms_global ms' = ms_global ms -> has_global_room b ms gname nn -> has_global_room b ms' gname nn.
Proof. unfold has_global_room. intros ->. auto. Qed.

Definition okp (ms : MatchState) (p : Pair) : bool := negb (gexcluded b ms gname (p_globalIdx p)) && negb (Qle_bool maxSqr (p_err p)).
Definition within (e0 : Q) (p : Pair) : bool := Qle_bool (p_err p) (e0 * (a_firstToSecondDistanceMax c * a_firstToSecondDistanceMax c)).
Definition good_pair (p : Pair) : Prop := p_localIdx p < length lpts /\ p_globalIdx p < length (nn_points nn).
Definition sortedp (ps : list Pair) : Prop := forall a p z p' w, ps = a ++ p :: z ++ p' :: w -> (p_err p <= p_err p')%Q.
Lemma sortedp_tl p ps : sortedp (p :: ps) -> sortedp ps.
Proof. intros H a x z y w E. eapply (H (p :: a)). rewrite E. reflexivity. Qed.

Lemma okp_same ms ms' : ms_global ms' = ms_global ms -> forall p, okp ms' p = okp ms p.
Proof. intros H p. unfold okp. rewrite (gexcluded_same _ _ _ H). reflexivity. Qed.
Lemma filter_okp ms ms' f : ms_global ms' = ms_global ms -> forall ps, filter (fun p => okp ms' p && f p) ps = filter (fun p => okp ms p && f p) ps.
Proof. intros H ps. apply filter_ext. intro p. rewrite (okp_same _ _ H). reflexivity. Qed.

Definition mk_marks (ps : list Pair) : list nat := if allowMatchAlreadyMatchedGlobalPoints b then [] else map p_localIdx ps.
Lemma mk_marks_app x y : mk_marks (x ++ y) = mk_marks x ++ mk_marks y.
Proof. unfold mk_marks. destruct (allowMatchAlreadyMatchedGlobalPoints b); [reflexivity|]. apply map_app. Qed.

Definition emitted (ms : MatchState) (out : fp) (r : res (MatchState * fp)) (npt : list Pair) (npl : list PlPair) (mk : list nat) : Prop :=
  exists ms' out', r = Ok (ms', out') /\ ext out out' npt npl /\ marks_added ms ms' lname mk /\ has_room ms' lname lpts.

Lemma emit_pair ms out p : has_room ms lname lpts -> good_pair p ->
  exists ms', (if allowMatchAlreadyMatchedGlobalPoints b then Ok ms else mark_local ms lname (p_localIdx p)) = Ok ms'
  /\ has_room ms' lname lpts /\ marks_added ms ms' lname (mk_marks [p]) /\ ext out (fadd_pt out p) [p] [].
Proof.
  intros HR [G1 G2]. assert (X : ext out (fadd_pt out p) [p] []).
  { unfold ext. cbn. rewrite app_nil_r. repeat (split; [reflexivity|]). reflexivity. }
  unfold mk_marks. destruct (allowMatchAlreadyMatchedGlobalPoints b).
  - exists ms. split; [reflexivity|]. split; [exact HR|]. split; [apply marks_nil|exact X].
  - destruct (mark_room ms lname lpts _ HR G1) as [ms' [E R]]. exists ms'. split; [exact E|]. split; [exact R|].
    split; [apply mark_local_spec; exact E|exact X].
Qed.

Lemma ad_points_tail e0 ps : sortedp ps -> Forall good_pair ps -> forall i ms out, i <> 0 ->
  has_room ms lname lpts -> has_global_room b ms gname nn ->
  let kept := filter (fun p => okp ms p && within e0 p) ps in
  emitted ms out (ad_points b c maxSqr e0 gname lname i ps (ms, out)) kept [] (mk_marks kept).
Proof.
  induction ps as [|p ps IH]; intros HS HG i ms out Hi HR HGR; cbv zeta; cbn [ad_points filter].
  - exists ms, out. split; [reflexivity|]. split; [apply ext_nil|]. split; [|exact HR]. unfold mk_marks. cbn.
    destruct (allowMatchAlreadyMatchedGlobalPoints b); apply marks_nil.
  - inversion HG as [|? ? G1 G2]; subst. specialize (IH (sortedp_tl _ _ HS) G2 (S i)).
    rewrite (gquery_room ms _ HGR (proj2 G1)). cbn [rbind]. change (okp ms p) with (negb (gexcluded b ms gname (p_globalIdx p)) && negb (Qle_bool maxSqr (p_err p))).
    destruct (gexcluded b ms gname (p_globalIdx p)); cbn [negb andb]; [apply IH; [lia|assumption|assumption]|].
    destruct (Qle_bool maxSqr (p_err p)) eqn:Em; cbn [negb andb]; [apply IH; [lia|assumption|assumption]|].
    destruct (Nat.eqb_spec i 0); [contradiction|]. cbn [negb andb]. unfold Qltb, qsq.
    fold (within e0 p). destruct (within e0 p) eqn:Ew; cbn [negb].
    + destruct (emit_pair ms out p HR G1) as [ms' [E [R [M X]]]]. rewrite E. cbn [rbind].
      pose proof (IH ms' (fadd_pt out p) ltac:(lia) R (groom_same _ _ (proj1 M) HGR)) as IH'. cbv zeta in IH'. destruct IH' as (ms'' & out'' & A & B & C & D).
      exists ms'', out''. split; [exact A|]. rewrite (filter_okp _ _ _ (proj1 M)) in B, C.
      split; [exact (ext_trans _ _ _ _ _ _ _ X B)|]. split; [|exact D].
      match goal with |- marks_added _ _ _ (mk_marks (p :: ?l)) => change (p :: l) with ([p] ++ l) end.
      rewrite mk_marks_app. eapply marks_trans; [exact M|exact C].
    + assert (Z : filter (fun p => okp ms p && within e0 p) ps = []).
      { assert (forall p', In p' ps -> within e0 p' = false) as Y.
        { intros p' Hp'. apply in_split in Hp' as [l1 [l2 ->]]. pose proof (HS [] p l1 p' l2 eq_refl) as L.
          unfold within in *. apply Qle_bool_false. apply Qle_bool_false in Ew. lra. }
        clear -Y. induction ps as [|q ps IH]; [reflexivity|]. cbn. rewrite (Y q (or_introl eq_refl)), andb_false_r. apply IH. intros. apply Y. right. assumption. }
      rewrite Z. exists ms, out. split; [reflexivity|]. split; [apply ext_nil|]. split; [|exact HR]. unfold mk_marks. cbn.
      destruct (allowMatchAlreadyMatchedGlobalPoints b); apply marks_nil.
Qed.

Lemma ad_points_spec p0 ps ms out : sortedp (p0 :: ps) -> Forall good_pair (p0 :: ps) ->
  has_room ms lname lpts -> has_global_room b ms gname nn ->
  let kept := kept_pairs b c ms gname maxSqr (p0 :: ps) in
  emitted ms out (ad_points b c maxSqr (p_err p0) gname lname 0 (firstn (a_maxPt2PtCorrespondences c) (p0 :: ps)) (ms, out)) kept [] (mk_marks kept).
Proof.
  intros HS HG HR HGR. cbv zeta. unfold kept_pairs. destruct (a_maxPt2PtCorrespondences c) as [|k]; cbn [firstn].
  { exists ms, out. split; [reflexivity|]. split; [apply ext_nil|]. split; [|exact HR]. unfold mk_marks. cbn.
    destruct (allowMatchAlreadyMatchedGlobalPoints b); apply marks_nil. }
  inversion HG as [|? ? G1 G2]; subst.
  assert (HS' : sortedp (firstn k ps)).
  { intros a p z p' w E. eapply (HS (p0 :: a) p z p' (w ++ skipn k ps)). rewrite <- (firstn_skipn k ps) at 1. rewrite E.
    cbn. rewrite <- app_assoc. cbn. rewrite <- app_assoc. reflexivity. }
  assert (HG' : Forall good_pair (firstn k ps)).
  { rewrite Forall_forall in *. intros p Hp. apply G2. rewrite <- (firstn_skipn k ps). apply in_or_app. left. exact Hp. }
  pose proof (ad_points_tail (p_err p0) (firstn k ps) HS' HG' 1) as T.
  cbn [ad_points filter]. rewrite (gquery_room ms _ HGR (proj2 G1)). cbn [rbind].
  change (fun p : Pair => negb (gexcluded b ms gname (p_globalIdx p)) && negb (Qle_bool maxSqr (p_err p))
     && Qle_bool (p_err p) (p_err p0 * (a_firstToSecondDistanceMax c * a_firstToSecondDistanceMax c)))
    with (fun p : Pair => okp ms p && within (p_err p0) p).
  destruct (gexcluded b ms gname (p_globalIdx p0)); cbn [negb andb app]; [apply T; [lia|assumption|assumption]|].
  destruct (Qle_bool maxSqr (p_err p0)) eqn:Em; cbn [negb andb app]; [apply T; [lia|assumption|assumption]|].
  cbn [Nat.eqb negb andb].
  destruct (emit_pair ms out p0 HR G1) as [ms' [E [R [M X]]]]. rewrite E. cbn [rbind].
  pose proof (T ms' (fadd_pt out p0) ltac:(lia) R (groom_same _ _ (proj1 M) HGR)) as IH'. cbv zeta in IH'. destruct IH' as (ms'' & out'' & A & B & C & D).
  exists ms'', out''. split; [exact A|]. rewrite (filter_okp _ _ _ (proj1 M)) in B, C.
  split; [exact (ext_trans _ _ _ _ _ _ _ X B)|]. split; [|exact D].
  match goal with |- marks_added _ _ _ (mk_marks (p0 :: ?l)) => change (p0 :: l) with ([p0] ++ l) end.
  rewrite mk_marks_app. eapply marks_trans; [exact M|exact C].
Qed.

Notation planes_of := (AdMatchSpec.planes_of eig_symmetric plane_distance c).
Notation points_of := (AdMatchSpec.points_of eig_symmetric plane_distance b c gname maxSqr).
Lemma kept_same ms ms' ps : ms_global ms' = ms_global ms -> kept_pairs b c ms' gname maxSqr ps = kept_pairs b c ms gname maxSqr ps.
Proof.
  intro H. unfold kept_pairs. destruct (firstn _ ps) as [|p0 r]; [reflexivity|].
  f_equal; apply filter_ext; intro p; rewrite (gexcluded_same _ _ _ H); reflexivity.
Qed.
Lemma points_same ms ms' found : ms_global ms' = ms_global ms -> points_of ms' found = points_of ms found.
Proof.
  intro H. unfold AdMatchSpec.points_of. apply flat_map_ext. intro ps. destruct (flat_patch _ _ _ ps); [reflexivity|]. apply kept_same. exact H.
Qed.

Lemma ad_emit_spec found : 3 <= a_planeMinimumFoundPoints c ->
  Forall (fun ps => sortedp ps /\ Forall good_pair ps /\ forall p, In p ps -> nth_error lpts (p_localIdx p) = Some (p_local p)) found ->
  forall ms out, has_room ms lname lpts -> has_global_room b ms gname nn ->
  exists mk, emitted ms out (ad_emit eig_symmetric b plane_distance c maxSqr lpts gname lname found (ms, out))
    (points_of ms found) (planes_of found) mk
  /\ forall li, In li mk <-> In li (map pl_idx (planes_of found) ++ mk_marks (points_of ms found)).
Proof.
  intros H3 HF. induction HF as [|ps found [F1 [F2 F3]] HF IH]; intros ms out HR HGR.
  - exists []. split; [|intro li; unfold mk_marks; cbn; destruct (allowMatchAlreadyMatchedGlobalPoints b); reflexivity].
    exists ms, out. split; [reflexivity|]. split; [apply ext_nil|]. split; [apply marks_nil|exact HR].
  - cbn [ad_emit]. rewrite (ad_plane_spec ps H3). cbn [rbind]. unfold AdMatchSpec.planes_of, AdMatchSpec.points_of. cbn [flat_map].
    fold (planes_of found). fold (points_of ms found).
    destruct (flat_patch eig_symmetric plane_distance c ps) as [pl|] eqn:Ep.
    + destruct ps as [|p0 ps]; [discriminate|]. rewrite (F3 p0 (or_introl eq_refl)). inversion F2 as [|? ? G1 _]; subst.
      cbn [fst snd]. destruct (mark_room ms lname lpts _ HR (proj1 G1)) as [ms' [E R]]. rewrite E. cbn [rbind].
      pose proof (mark_local_spec _ _ _ _ E) as M.
      destruct (IH ms' (fadd_pl out (mkPlP (p_local p0) pl (p_localIdx p0))) R (groom_same _ _ (proj1 M) HGR))
        as (mk & (ms'' & out'' & A & B & C & D) & HM).
      rewrite (points_same _ _ found (proj1 M)) in B, HM.
      exists ([p_localIdx p0] ++ mk). split.
      * exists ms'', out''. split; [exact A|]. split; [|split; [eapply marks_trans; eassumption|exact D]].
        refine (ext_trans _ _ _ [] [_] _ _ _ B). unfold ext. cbn. rewrite app_nil_r. repeat (split; [reflexivity|]). reflexivity.
      * intro li. cbn [app map pl_idx]. cbn [In]. rewrite HM. reflexivity.
    + destruct ps as [|p0 ps].
      { destruct (IH ms out HR HGR) as (mk & HE & HM). exists mk. cbn [app]. unfold kept_pairs. rewrite firstn_nil. split; assumption. }
      pose proof (ad_points_spec p0 ps ms out F1 F2 HR HGR) as IP. cbv zeta in IP. destruct IP as (ms' & out' & A & B & C & D). rewrite A. cbn [rbind].
      destruct (IH ms' out' D (groom_same _ _ (proj1 C) HGR)) as (mk & (ms'' & out'' & A' & B' & C' & D') & HM).
      rewrite (points_same _ _ found (proj1 C)) in B', HM.
      eexists. split.
      * exists ms'', out''. split; [exact A'|]. split; [exact (ext_trans _ _ _ _ _ _ _ B B')|]. split; [eapply marks_trans; eassumption|exact D'].
      * intro li. rewrite mk_marks_app, !in_app_iff, HM, in_app_iff. cbn [app]. tauto.
Qed.
End Emit.
