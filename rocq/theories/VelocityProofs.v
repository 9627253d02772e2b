From Verif Require Import Base VelocityModel.
From Coq Require Import Sorted.
Open Scope Z_scope.

Section P37.
Context {V : Type}.
Notation tmap := (@tmap V).
Notation VOp := (@VOp V).

Definition keys_lt (a b : Z * V) : Prop := fst a < fst b.

Lemma tm_set_sorted (m : tmap) t v : StronglySorted keys_lt m -> StronglySorted keys_lt (tm_set m t v).
Proof.
  induction 1 as [|[k x] m Hs IH HF]; cbn; [repeat constructor|].
  destruct (Z.ltb_spec t k) as [H|H].
  - constructor; [constructor; assumption|]. constructor; [exact H|].
    eapply Forall_impl; [|exact HF]. unfold keys_lt. cbn. intros; lia.
  - destruct (Z.eqb_spec t k) as [->|H2]; [constructor; assumption|].
    constructor; [exact IH|]. assert (forall y, In y (tm_set m t v) -> y = (t, v) \/ In y m) as HI.
    { clear. induction m as [|[k x] m IH]; cbn; [intros y [<-|[]]; auto|]. intros y.
      destruct (t <? k); [intros [<-|Hy]; auto|]. destruct (t =? k); [intros [<-|Hy]; auto|].
      intros [<-|Hy]; [auto|]. destruct (IH y Hy); auto. }
    rewrite Forall_forall in *. intros y Hy. destruct (HI y Hy) as [->|Hy']; [unfold keys_lt; cbn; lia|apply HF; exact Hy'].
Qed.
Lemma filter_sorted (f : Z * V -> bool) m : StronglySorted keys_lt m -> StronglySorted keys_lt (filter f m).
Proof.
  induction 1 as [|x m Hs IH HF]; cbn; [constructor|]. destruct (f x); [|exact IH]. constructor; [exact IH|].
  rewrite Forall_forall in *. intros y Hy. apply filter_In in Hy as [Hy _]. auto.
Qed.

Lemma tm_set_in (m : tmap) t v s x : StronglySorted keys_lt m ->
  (In (s, x) (tm_set m t v) <-> (s = t /\ x = v) \/ (s <> t /\ In (s, x) m)).
Proof.
  induction 1 as [|[k y] m Hs IH HF]; cbn.
  - split; [intros [[= <- <-]|[]]; auto|intros [[-> ->]|[_ []]]; auto].
  - rewrite Forall_forall in HF. unfold keys_lt in HF. cbn in HF.
    destruct (Z.ltb_spec t k) as [H|H]; cbn.
    + split.
      * intros [[= <- <-]|[[= <- <-]|Hi]]; [auto|right; split; [lia|auto]|right; split; [|auto]].
        specialize (HF _ Hi). cbn in HF. lia.
      * intros [[-> ->]|[Hn Hi]]; auto.
    + destruct (Z.eqb_spec t k) as [->|H2]; cbn.
      * split.
        -- intros [[= <- <-]|Hi]; [auto|]. right. specialize (HF _ Hi). cbn in HF. split; [lia|auto].
        -- intros [[-> ->]|[Hn [[= -> ->]|Hi]]]; [auto|congruence|auto].
      * rewrite IH. split.
        -- intros [[= <- <-]|[[-> ->]|[Hn Hi]]]; auto.
        -- intros [[-> ->]|[Hn [[= -> ->]|Hi]]]; auto.
Qed.

Variable W : Z.
Definition okbuf (s : VBuf) : Prop := StronglySorted keys_lt (@linear V s) /\ StronglySorted keys_lt (angular s).
Lemma vstep_ok s o : okbuf s -> okbuf (vstep W s o).
Proof.
  intros [A B]. destruct o; cbn; [split|split|split; constructor]; cbn; unfold drop_old; apply filter_sorted; auto using tm_set_sorted.
Qed.
Lemma vrun_snoc h o : vrun W (h ++ [o]) = vstep W (@vrun V W h) o.
Proof. unfold vrun. rewrite fold_left_app. reflexivity. Qed.
Lemma vrun_ok h : okbuf (@vrun V W h).
Proof.
  induction h as [|o h IH] using rev_ind; [split; constructor|]. rewrite vrun_snoc. apply vstep_ok. exact IH.
Qed.

(** The two kinds of samples. *)
Definition adds (lin : bool) (o : VOp) (s : Z) (v : V) : Prop := o = if lin then AddLin s v else AddAng s v.
Definition buf (lin : bool) (b : VBuf) : tmap := if lin then linear b else angular b.
Definition time_of (o : VOp) : option Z := match o with AddLin t _ => Some t | AddAng t _ => Some t | Clear => None end.

Lemma drop_in now (m : tmap) s v : In (s, v) (drop_old W now m) <-> In (s, v) m /\ now - s <= W.
Proof.
  unfold drop_old. rewrite filter_In. cbn [fst]. rewrite negb_true_iff, Z.gtb_ltb, Z.ltb_ge. reflexivity.
Qed.

Lemma vstep_in lin b o s v : okbuf b ->
  (In (s, v) (buf lin (vstep W b o)) <->
   exists t, time_of o = Some t /\ t - s <= W /\
     (adds lin o s v \/ ((forall v', ~ adds lin o s v') /\ In (s, v) (buf lin b)))).
Proof.
  intros [A B]. destruct o as [t x|t x|]; cbn [vstep time_of].
  - destruct lin; cbn [buf add_linear_velocity delete_too_old_entries linear angular]; rewrite drop_in.
    + rewrite tm_set_in by exact A. unfold adds. split.
      * intros [[[-> ->]|[Hn Hi]] Hw]; exists t; (split; [reflexivity|]); (split; [exact Hw|]); [left; reflexivity|].
        right. split; [intros v' [= E _]; congruence|exact Hi].
      * intros [t' [[= <-] [Hw [[= -> ->]|[Hn Hi]]]]]; (split; [|exact Hw]); [left; auto|]. right. split; [|exact Hi].
        intros ->. exact (Hn x eq_refl).
    + unfold adds. split.
      * intros [Hi Hw]. exists t. split; [reflexivity|]. split; [exact Hw|]. right. split; [discriminate|exact Hi].
      * intros [t' [[= <-] [Hw [E|[_ Hi]]]]]; [discriminate|auto].
  - destruct lin; cbn [buf add_angular_velocity delete_too_old_entries linear angular]; rewrite drop_in.
    + unfold adds. split.
      * intros [Hi Hw]. exists t. split; [reflexivity|]. split; [exact Hw|]. right. split; [discriminate|exact Hi].
      * intros [t' [[= <-] [Hw [E|[_ Hi]]]]]; [discriminate|auto].
    + rewrite tm_set_in by exact B. unfold adds. split.
      * intros [[[-> ->]|[Hn Hi]] Hw]; exists t; (split; [reflexivity|]); (split; [exact Hw|]); [left; reflexivity|].
        right. split; [intros v' [= E _]; congruence|exact Hi].
      * intros [t' [[= <-] [Hw [[= -> ->]|[Hn Hi]]]]]; (split; [|exact Hw]); [left; auto|]. right. split; [|exact Hi].
        intros ->. exact (Hn x eq_refl).
  - split; [destruct lin; intros []|intros [t [[=] _]]].
Qed.

Lemma vrun_in lin h s v : In (s, v) (buf lin (vrun W h)) <->
  exists h1 o h2, h = h1 ++ o :: h2 /\ adds lin o s v
    /\ (forall o', In o' h2 -> forall v', ~ adds lin o' s v')
    /\ (forall o', In o' (o :: h2) -> exists t, time_of o' = Some t /\ t - s <= W).
Proof.
  induction h as [|x h IH] using rev_ind.
  - split; [destruct lin; intros []|]. intros [h1 [o [h2 [E _]]]]. destruct h1; discriminate.
  - rewrite vrun_snoc, vstep_in by apply vrun_ok. split.
    + intros [t [Ht [Hw [Ha|[Hn Hi]]]]].
      * exists h, x, []. split; [reflexivity|]. split; [exact Ha|]. split; [intros o' []|].
        intros o' [<-|[]]. eauto.
      * apply IH in Hi as [h1 [o [h2 [-> [Ha [Hl Hf]]]]]]. exists h1, o, (h2 ++ [x]).
        split; [rewrite <- app_assoc; reflexivity|]. split; [exact Ha|]. split.
        -- intros o' Ho'. apply in_app_or in Ho' as [Ho'|[<-|[]]]; auto.
        -- intros o' Ho'. change (o :: h2 ++ [x]) with ((o :: h2) ++ [x]) in Ho'.
           apply in_app_or in Ho' as [Ho'|[<-|[]]]; eauto.
    + intros [h1 [o [h2 [E [Ha [Hl Hf]]]]]]. destruct h2 as [|y h2] using rev_ind.
      * apply app_inj_tail in E as [-> ->]. destruct (Hf o (or_introl eq_refl)) as [t [Ht Hw]]. eauto.
      * clear IHh2. change (o :: h2 ++ [y]) with ((o :: h2) ++ [y]) in E. rewrite app_assoc in E.
        apply app_inj_tail in E as [-> ->].
        destruct (Hf y) as [t [Ht Hw]]; [right; apply in_or_app; right; left; reflexivity|].
        exists t. split; [exact Ht|]. split; [exact Hw|]. right. split; [apply Hl; apply in_or_app; right; left; reflexivity|].
        apply IH. exists h1, o, h2. split; [reflexivity|]. split; [exact Ha|]. split.
        -- intros o' Ho'. apply Hl. apply in_or_app. auto.
        -- intros o' [<-|Ho']; apply Hf; [left; reflexivity|right; apply in_or_app; auto].
Qed.
End P37.

(** ** reconstruct *)
Section P38.
Context {V P : Type}.
Variable integrate : P -> V -> Z -> P.
Variable ident : P.
Variables STEP EPS : Z.
Hypothesis HE : 0 < EPS.
Hypothesis HSE : EPS <= STEP.

Lemma inner_fwd ref w : forall fuel target prev pose, prev <= target -> (Z.to_nat (target - prev) < fuel)%nat ->
  let '(p', _, l) := inner integrate STEP EPS fuel 1 target ref w prev pose in
  p' = target /\ StronglySorted (fun a b => a < b) (map fst l)
  /\ (forall k, In k (map fst l) -> prev < ref + k <= target)
  /\ (forall t, prev <= t <= target -> t - prev <= STEP \/ exists k, In k (map fst l) /\ ref + k <= t /\ t - (ref + k) <= STEP)
  /\ (target - prev < EPS \/ exists k, In k (map fst l) /\ target - (ref + k) < EPS).
Proof.
  induction fuel as [|f IH]; intros target prev pose Hle Hf; [lia|].
  cbn [inner]. rewrite Z.mul_1_l. rewrite (Z.abs_eq (target - prev)) by lia.
  set (dt := Z.min (target - prev) STEP).
  assert (0 <= dt <= STEP) by lia. rewrite (Z.abs_eq dt) by lia.
  destruct (Z.ltb_spec dt EPS) as [Hd|Hd].
  - split; [lia|]. split; [constructor|]. split; [intros k []|]. split; [intros t Ht; left; lia|left; lia].
  - specialize (IH target (prev + dt) (integrate pose w dt) ltac:(lia) ltac:(lia)).
    destruct (inner integrate STEP EPS f 1 target ref w (prev + dt) (integrate pose w dt)) as [[p' q] l].
    destruct IH as [I1 [I2 [I3 [I4 I5]]]]. split; [exact I1|]. cbn [map fst]. split; [|split; [|split]].
    + constructor; [exact I2|]. rewrite Forall_forall. intros k Hk. specialize (I3 k Hk). lia.
    + intros k [<-|Hk]; [lia|]. specialize (I3 k Hk). lia.
    + intros t Ht. destruct (Z.le_gt_cases (t - prev) STEP) as [|Hgt]; [left; lia|]. right.
      destruct (I4 t ltac:(lia)) as [Hs|[k [Hk Hk2]]].
      * exists (prev + dt - ref). split; [left; reflexivity|]. lia.
      * exists k. split; [right; exact Hk|exact Hk2].
    + right. destruct I5 as [Hs|[k [Hk Hk2]]].
      * exists (prev + dt - ref). split; [left; reflexivity|]. lia.
      * exists k. split; [right; exact Hk|exact Hk2].
Qed.

Lemma inner_bwd ref w : forall fuel target prev pose, target <= prev -> (Z.to_nat (prev - target) < fuel)%nat ->
  let '(p', _, l) := inner integrate STEP EPS fuel (-1) target ref w prev pose in
  p' = target /\ StronglySorted (fun a b => b < a) (map fst l)
  /\ (forall k, In k (map fst l) -> target <= ref + k < prev)
  /\ (forall t, target <= t <= prev -> prev - t <= STEP \/ exists k, In k (map fst l) /\ t <= ref + k /\ ref + k - t <= STEP)
  /\ (prev - target < EPS \/ exists k, In k (map fst l) /\ ref + k - target < EPS).
Proof.
  induction fuel as [|f IH]; intros target prev pose Hle Hf; [lia|].
  cbn [inner]. rewrite (Z.abs_neq (target - prev)) by lia.
  set (dt := Z.min (- (target - prev)) STEP).
  assert (0 <= dt <= STEP) by lia. replace (Z.abs (-1 * dt)) with dt by lia.
  destruct (Z.ltb_spec dt EPS) as [Hd|Hd].
  - split; [lia|]. split; [constructor|]. split; [intros k []|]. split; [intros t Ht; left; lia|left; lia].
  - specialize (IH target (prev + -1 * dt) (integrate pose w (-1 * dt)) ltac:(lia) ltac:(lia)).
    destruct (inner integrate STEP EPS f (-1) target ref w (prev + -1 * dt) (integrate pose w (-1 * dt))) as [[p' q] l].
    destruct IH as [I1 [I2 [I3 [I4 I5]]]]. split; [exact I1|]. cbn [map fst]. split; [|split; [|split]].
    + constructor; [exact I2|]. rewrite Forall_forall. intros k Hk. specialize (I3 k Hk). lia.
    + intros k [<-|Hk]; [lia|]. specialize (I3 k Hk). lia.
    + intros t Ht. destruct (Z.le_gt_cases (prev - t) STEP) as [|Hgt]; [left; lia|]. right.
      destruct (I4 t ltac:(lia)) as [Hs|[k [Hk Hk2]]].
      * exists (prev + -1 * dt - ref). split; [left; reflexivity|]. lia.
      * exists k. split; [right; exact Hk|exact Hk2].
    + right. destruct I5 as [Hs|[k [Hk Hk2]]].
      * exists (prev + -1 * dt - ref). split; [left; reflexivity|]. lia.
      * exists k. split; [right; exact Hk|exact Hk2].
Qed.

Lemma last_ge (it : list (Z * V)) : StronglySorted keys_lt it -> forall d x, In x it -> fst x <= fst (last it d).
Proof.
  induction 1 as [|y it Hs IH HF]; intros d x Hx; [destruct Hx|]. destruct it as [|z it].
  - destruct Hx as [->|[]]. cbn. lia.
  - change (last (y :: z :: it) d) with (last (z :: it) d). destruct Hx as [<-|Hx]; [|apply IH; exact Hx].
    rewrite Forall_forall in HF. specialize (HF z (or_introl eq_refl)). unfold keys_lt in HF.
    specialize (IH d z (or_introl eq_refl)). lia.
Qed.

(** consecutive stamps at least EPS apart, so that no sample is skipped by the 1e-3 test *)
Definition spaced (it : list (Z * V)) : Prop := forall a b, In a it -> In b it -> fst a < fst b -> EPS <= fst b - fst a.

Lemma sorted_app2 (R : Z -> Z -> Prop) l l' : StronglySorted R l -> StronglySorted R l' ->
  (forall a b, In a l -> In b l' -> R a b) -> StronglySorted R (l ++ l').
Proof.
  induction 1 as [|a r Hs IH HF]; intros H2 HR; [exact H2|]. cbn. constructor.
  - apply IH; [exact H2|]. intros x b Hx. apply HR. right. exact Hx.
  - apply Forall_app. split; [exact HF|]. rewrite Forall_forall. intros b Hb. apply HR; [left; reflexivity|exact Hb].
Qed.

Lemma forward_spec half ref : forall it prev pose d, StronglySorted keys_lt it -> it <> [] -> fst (hd d it) = prev ->
  (half <= fst (last it d) - ref ->
   exists l, forward integrate STEP EPS half ref it prev pose = Ok l
    /\ StronglySorted (fun a b => a < b) (map fst l)
    /\ (forall k, In k (map fst l) -> prev < ref + k <= fst (last it d))
    /\ (spaced it -> forall t, prev <= t -> t <= ref + half ->
         t - prev <= STEP \/ exists k, In k (map fst l) /\ ref + k <= t /\ t - (ref + k) < STEP + EPS))
  /\ (fst (last it d) - ref < half -> forward integrate STEP EPS half ref it prev pose = UB).
Proof.
  induction it as [|[k0 w] it IH]; intros prev pose d HS Hne Hhd; [congruence|]. cbn in Hhd. subst k0.
  inversion HS as [|? ? HS' HF]; subst. cbn [forward].
  destruct it as [|[target w'] it'].
  - cbn [last fst]. split; intro H.
    + destruct (Z.ltb_spec (prev - ref) half); [lia|]. exists []. split; [reflexivity|]. split; [constructor|].
      split; [intros ? []|]. intros _ t Ht1 Ht2. left. lia.
    + destruct (Z.ltb_spec (prev - ref) half); [reflexivity|lia].
  - change (last ((prev, w) :: (target, w') :: it') d) with (last ((target, w') :: it') d).
    rewrite Forall_forall in HF. assert (HFt := HF _ (or_introl eq_refl)). unfold keys_lt in HFt. cbn in HFt.
    destruct (Z.ltb_spec (prev - ref) half) as [Hc|Hc].
    + unfold inner_all.
      pose proof (inner_fwd ref w (S (Z.to_nat (Z.abs (target - prev)))) target prev pose ltac:(lia) ltac:(lia)) as HI.
      destruct (inner integrate STEP EPS (S (Z.to_nat (Z.abs (target - prev)))) 1 target ref w prev pose) as [[p' q] l].
      destruct HI as [-> [I2 [I3 [I4 I5]]]].
      destruct (IH target q d HS' ltac:(discriminate) eq_refl) as [J1 J2]. split; intro H.
      * destruct (J1 H) as [l' [E [L1 [L2 L3]]]]. rewrite E. cbn [rbind]. exists (l ++ l'). split; [reflexivity|].
        rewrite map_app. split; [|split].
        -- apply sorted_app2; [exact I2|exact L1|]. intros a b Ha Hb. specialize (I3 a Ha). specialize (L2 b Hb). lia.
        -- intros k Hk. apply in_app_or in Hk as [Hk|Hk].
           ++ specialize (I3 k Hk). pose proof (last_ge _ HS' d (target, w') (or_introl eq_refl)) as X. cbn [fst] in X. lia.
           ++ specialize (L2 k Hk). lia.
        -- intros Hsp t Ht1 Ht2.
           assert (EPS <= target - prev) as Hgap.
           { exact (Hsp (prev, w) (target, w') (or_introl eq_refl) (or_intror (or_introl eq_refl)) HFt). }
           assert (spaced ((target, w') :: it')) as Hsp'.
           { intros a b Ha Hb. apply Hsp; right; assumption. }
           destruct (Z.le_gt_cases t target) as [Ht|Ht].
           ++ destruct (I4 t ltac:(lia)) as [X|[k [Hk X]]]; [left; exact X|]. right. exists k. split; [apply in_or_app; auto|lia].
           ++ destruct (L3 Hsp' t ltac:(lia) Ht2) as [X|[k [Hk X]]].
              ** destruct I5 as [Y|[k [Hk Y]]]; [lia|]. right. exists k. split; [apply in_or_app; auto|].
                 specialize (I3 k Hk). lia.
              ** right. exists k. split; [apply in_or_app; auto|exact X].
      * rewrite (J2 H). reflexivity.
    + split; intro H.
      * exists []. split; [reflexivity|]. split; [constructor|]. split; [intros ? []|]. intros _ t Ht1 Ht2. left. lia.
      * pose proof (last_ge _ HS' d (target, w') (or_introl eq_refl)) as X. cbn [fst] in X. lia.
Qed.

(** the entries before the iterator, nearest first *)
Definition keys_gt (a b : Z * V) : Prop := fst b < fst a.

Lemma backward_spec half ref : forall before w prev pose, StronglySorted keys_gt before ->
  (forall b, In b before -> fst b < prev) ->
  let l := backward integrate STEP EPS half ref w before prev pose in
    StronglySorted (fun a b => b < a) (map fst l)
    /\ (forall k, In k (map fst l) -> ref + k < prev /\ exists b, In b before /\ fst b <= ref + k)
    /\ (spaced before -> (forall b, In b before -> EPS <= prev - fst b) ->
        forall t, t <= prev -> ref - half <= t -> (exists b, In b before /\ fst b <= t) ->
         prev - t <= STEP \/ exists k, In k (map fst l) /\ t <= ref + k /\ ref + k - t < STEP + EPS).
Proof.
  induction before as [|[target w'] before IH]; intros w prev pose HS Hlt; cbn zeta; cbn [backward].
  - destruct (prev - ref >? - half); (split; [constructor|]); (split; [intros ? []|]); intros _ _ t _ _ [b [[] _]].
  - inversion HS as [|? ? HS' HF]; subst. rewrite Forall_forall in HF.
    assert (target < prev) as Htp by exact (Hlt _ (or_introl eq_refl)).
    rewrite Z.gtb_ltb. destruct (Z.ltb_spec (- half) (prev - ref)) as [Hc|Hc].
    + unfold inner_all.
      pose proof (inner_bwd ref w (S (Z.to_nat (Z.abs (target - prev)))) target prev pose ltac:(lia) ltac:(lia)) as HI.
      destruct (inner integrate STEP EPS (S (Z.to_nat (Z.abs (target - prev)))) (-1) target ref w prev pose) as [[p' q] l].
      destruct HI as [-> [I2 [I3 [I4 I5]]]].
      assert (forall b, In b before -> fst b < target) as Hlt'.
      { intros b Hb. specialize (HF b Hb). unfold keys_gt in HF. exact HF. }
      destruct (IH w' target q HS' Hlt') as [L1 [L2 L3]]. rewrite map_app. split; [|split].
      * apply sorted_app2; [exact I2|exact L1|]. intros a b Ha Hb. specialize (I3 a Ha). specialize (L2 b Hb). lia.
      * intros k Hk. apply in_app_or in Hk as [Hk|Hk].
        -- specialize (I3 k Hk). split; [lia|]. exists (target, w'). split; [left; reflexivity|]. cbn. lia.
        -- destruct (L2 k Hk) as [A [b [B C]]]. split; [lia|]. exists b. split; [right; exact B|exact C].
      * intros Hsp Hgap t Ht1 Ht2 Hb.
        assert (EPS <= prev - target) as Hg by exact (Hgap _ (or_introl eq_refl)).
        assert (spaced before) as Hsp' by (intros a b Ha Hb'; apply Hsp; right; assumption).
        destruct (Z.le_gt_cases target t) as [Ht|Ht].
        -- destruct (I4 t ltac:(lia)) as [X|[k [Hk X]]]; [left; exact X|]. right. exists k. split; [apply in_or_app; auto|lia].
        -- destruct L3 with (t := t) as [X|[k [Hk X]]]; [exact Hsp'| |lia|exact Ht2| | |].
           ++ intros b Hb'. refine (Hsp b (target, w') (or_intror Hb') (or_introl eq_refl) _). apply Hlt'; exact Hb'.
           ++ destruct Hb as [b [[<-|Hb] Hbt]]; [cbn in Hbt; lia|]. exists b; auto.
           ++ destruct I5 as [Y|[k [Hk Y]]]; [lia|]. right. exists k. split; [apply in_or_app; auto|].
              specialize (I3 k Hk). lia.
           ++ right. exists k. split; [apply in_or_app; auto|exact X].
    + split; [constructor|]. split; [intros ? []|]. intros _ _ t Ht1 Ht2 _. left. lia.
Qed.

Lemma closest_in (m : list (Z * V)) t : match closest m t with
  | None => m = []
  | Some k => In k (map fst m) /\ forall k', In k' (map fst m) -> Z.abs (k - t) <= Z.abs (k' - t)
  end.
Proof.
  induction m as [|[k v] m IH]; cbn [closest]; [reflexivity|]. destruct (closest m t) as [k'|].
  - destruct IH as [IH1 IH2]. destruct (Z.leb_spec (Z.abs (k - t)) (Z.abs (k' - t))) as [H|H]; cbn [map fst].
    + split; [left; reflexivity|]. intros k2 [<-|Hk2]; [lia|]. specialize (IH2 k2 Hk2). lia.
    + split; [right; exact IH1|]. intros k2 [<-|Hk2]; [lia|]. specialize (IH2 k2 Hk2). lia.
  - subst m. cbn. split; [left; reflexivity|]. intros k2 [<-|[]]. lia.
Qed.

Lemma find_closest_spec (m : list (Z * V)) t tol : match find_closest_with_tolerance m t tol with
  | None => forall k, In k (map fst m) -> tol < Z.abs (k - t)
  | Some k => In k (map fst m) /\ Z.abs (k - t) <= tol
  end.
Proof.
  unfold find_closest_with_tolerance. pose proof (closest_in m t) as H. destruct (closest m t) as [k|].
  - destruct H as [H1 H2]. destruct (Z.leb_spec (Z.abs (k - t)) tol); [auto|].
    intros k' Hk'. specialize (H2 k' Hk'). lia.
  - subst m. intros k [].
Qed.

Lemma split_at_spec (m : list (Z * V)) t : forall before, In t (map fst m) ->
  exists pre v post, m = pre ++ (t, v) :: post /\ split_at m t before = (rev pre ++ before, (t, v) :: post).
Proof.
  induction m as [|[k v] m IH]; intros before Hin; [destruct Hin|]. cbn [split_at].
  destruct (Z.eqb_spec k t) as [->|Hn].
  - exists [], v, m. auto.
  - destruct Hin as [E|Hin]; [cbn in E; congruence|]. destruct (IH ((k, v) :: before) Hin) as [pre [v' [post [-> E]]]].
    exists ((k, v) :: pre), v', post. split; [reflexivity|]. rewrite E. cbn [rev]. rewrite <- app_assoc. reflexivity.
Qed.

Lemma sorted_app_inv (R : Z * V -> Z * V -> Prop) l1 l2 : StronglySorted R (l1 ++ l2) ->
  StronglySorted R l1 /\ StronglySorted R l2 /\ forall a b, In a l1 -> In b l2 -> R a b.
Proof.
  induction l1 as [|x l1 IH]; cbn; intro H; [split; [constructor|]; split; [exact H|intros ? ? []]|].
  inversion H as [|? ? H1 H2]; subst. destruct (IH H1) as [A [B C]]. apply Forall_app in H2 as [H2 H3].
  split; [constructor; assumption|]. split; [exact B|]. intros a b [<-|Ha] Hb; [|auto].
  rewrite Forall_forall in H3. auto.
Qed.
Lemma sorted_rev (l : list (Z * V)) : StronglySorted keys_lt l -> StronglySorted keys_gt (rev l).
Proof.
  induction l as [|x l IH] using rev_ind; intro H; [constructor|]. rewrite rev_app_distr. cbn.
  destruct (sorted_app_inv _ _ _ H) as [A [_ C]]. constructor; [apply IH; exact A|].
  rewrite Forall_forall. intros y Hy. apply in_rev in Hy. exact (C y x Hy (or_introl eq_refl)).
Qed.
Lemma sorted_nodup_lt l : StronglySorted (fun a b => a < b) l -> NoDup l.
Proof.
  induction 1 as [|a l Hs IH HF]; constructor; [|exact IH]. rewrite Forall_forall in HF. intro Hi. specialize (HF a Hi). lia.
Qed.
Lemma sorted_nodup_gt l : StronglySorted (fun a b => b < a) l -> NoDup l.
Proof.
  induction 1 as [|a l Hs IH HF]; constructor; [|exact IH]. rewrite Forall_forall in HF. intro Hi. specialize (HF a Hi). lia.
Qed.
Lemma last_app_ne (l1 : list (Z * V)) x l2 d : last (l1 ++ x :: l2) d = last (x :: l2) d.
Proof. induction l1 as [|y l1 IH]; [reflexivity|]. cbn [app]. rewrite <- IH. destruct (l1 ++ x :: l2) eqn:E; [destruct l1; discriminate|reflexivity]. Qed.

Lemma reconstruct_none ang ref0 tol half :
  (forall k, In k (map fst ang) -> tol < Z.abs (k - ref0)) ->
  reconstruct integrate ident STEP EPS ang ref0 tol half = Ok [].
Proof.
  intro H. unfold reconstruct. pose proof (find_closest_spec ang ref0 tol) as F.
  destruct (find_closest_with_tolerance ang ref0 tol) as [k|]; [|reflexivity].
  destruct F as [F1 F2]. specialize (H k F1). lia.
Qed.

Lemma reconstruct_spec ang ref0 tol half d : StronglySorted keys_lt ang ->
  (exists k, In k (map fst ang) /\ Z.abs (k - ref0) <= tol) ->
  exists ref, In ref (map fst ang) /\ Z.abs (ref - ref0) <= tol
   /\ (forall k, In k (map fst ang) -> Z.abs (ref - ref0) <= Z.abs (k - ref0))
   /\ (fst (last ang d) - ref < half -> reconstruct integrate ident STEP EPS ang ref0 tol half = UB)
   /\ (half <= fst (last ang d) - ref -> exists tr,
        reconstruct integrate ident STEP EPS ang ref0 tol half = Ok tr
        /\ In (0, ident) tr /\ NoDup (map fst tr)
        /\ (forall k, In k (map fst tr) -> exists a b, In a ang /\ In b ang /\ fst a <= ref + k <= fst b)
        /\ (spaced ang -> forall t, ref - half <= t <= ref + half -> (exists a, In a ang /\ fst a <= t) ->
             exists k, In k (map fst tr) /\ Z.abs (ref + k - t) < STEP + EPS)).
Proof.
  intros HS [k0 [Hk0 Hk0t]]. unfold reconstruct, find_closest_with_tolerance.
  pose proof (closest_in ang ref0) as F. destruct (closest ang ref0) as [ref|]; [|subst ang; destruct Hk0].
  destruct F as [F1 F2]. exists ref. assert (Z.abs (ref - ref0) <= tol) as Htol by (specialize (F2 k0 Hk0); lia).
  split; [exact F1|]. split; [exact Htol|]. split; [exact F2|].
  destruct (Z.leb_spec (Z.abs (ref - ref0)) tol); [|lia].
  destruct (split_at_spec ang ref [] F1) as [pre [w [post [Eang Esp]]]]. rewrite Esp, app_nil_r.
  subst ang. destruct (sorted_app_inv _ _ _ HS) as [S1 [S2 S3]].
  rewrite last_app_ne.
  destruct (forward_spec half ref ((ref, w) :: post) ref ident d S2 ltac:(discriminate) eq_refl) as [Fw1 Fw2].
  split; intro Hh.
  - rewrite (Fw2 Hh). reflexivity.
  - destruct (Fw1 Hh) as [l [El [L1 [L2 L3]]]]. rewrite El. cbn [rbind].
    pose proof (backward_spec half ref (rev pre) w ref ident (sorted_rev _ S1)) as HB. cbn zeta in HB.
    assert (forall b, In b (rev pre) -> fst b < ref) as Hlt.
    { intros b Hb. apply in_rev in Hb. exact (S3 b (ref, w) Hb (or_introl eq_refl)). }
    specialize (HB Hlt). destruct HB as [B1 [B2 B3]].
    set (bl := backward integrate STEP EPS half ref w (rev pre) ref ident) in *.
    exists ((0, ident) :: l ++ bl). split; [reflexivity|]. split; [left; reflexivity|].
    cbn [map fst]. rewrite map_app. split; [|split].
    + constructor.
      * intro Hi. apply in_app_or in Hi as [Hi|Hi]; [specialize (L2 _ Hi); lia|specialize (B2 _ Hi); lia].
      * apply sorted_nodup_lt in L1. apply sorted_nodup_gt in B1. clear -L1 B1 L2 B2.
        induction (map fst l) as [|a r IH]; [exact B1|]. cbn. inversion L1; subst. constructor.
        -- intro Hi. apply in_app_or in Hi as [Hi|Hi]; [contradiction|].
           specialize (L2 a (or_introl eq_refl)). specialize (B2 a Hi). lia.
        -- apply IH; [assumption|]. intros k Hk. apply L2. right; exact Hk.
    + intros k [<-|Hk].
      * exists (ref, w), (ref, w). cbn [fst]. split; [apply in_or_app; right; left; reflexivity|].
        split; [apply in_or_app; right; left; reflexivity|lia].
      * apply in_app_or in Hk as [Hk|Hk].
        -- specialize (L2 k Hk). exists (ref, w), (last ((ref, w) :: post) d).
           split; [apply in_or_app; right; left; reflexivity|]. split; [|cbn [fst]; lia].
           apply in_or_app. right. clear. generalize (ref, w). induction post as [|y post IH]; intro x; [left; reflexivity|].
           right. change (last (x :: y :: post) d) with (last (y :: post) d). apply IH.
        -- destruct (B2 k Hk) as [A [b [Hb Hb2]]]. exists b, (ref, w). split; [apply in_or_app; left; apply in_rev; exact Hb|].
           split; [apply in_or_app; right; left; reflexivity|cbn [fst]; lia].
    + intros Hsp t [Ht1 Ht2] Ha.
      assert (spaced ((ref, w) :: post)) as Sp2 by (intros a b Xa Xb; apply Hsp; apply in_or_app; right; assumption).
      assert (spaced (rev pre)) as Sp1.
      { intros a b Xa Xb. apply Hsp; apply in_or_app; left; apply in_rev; assumption. }
      destruct (Z.le_gt_cases ref t) as [Hr|Hr].
      * destruct (L3 Sp2 t Hr Ht2) as [X|[k [Hk X]]].
        -- exists 0. split; [left; reflexivity|]. lia.
        -- exists k. split; [right; apply in_or_app; auto|lia].
      * destruct B3 with (t := t) as [X|[k [Hk X]]]; [exact Sp1| |lia|lia| | |].
        -- intros b Hb. apply in_rev in Hb.
           refine (Hsp b (ref, w) _ _ _); [apply in_or_app; left; exact Hb|apply in_or_app; right; left; reflexivity|].
           exact (S3 b (ref, w) Hb (or_introl eq_refl)).
        -- destruct Ha as [a [Ha Hat]]. apply in_app_or in Ha as [Ha|Ha].
           ++ exists a. split; [rewrite <- in_rev; exact Ha|exact Hat].
           ++ exfalso. destruct Ha as [<-|Ha]; [cbn in Hat; lia|].
              inversion S2 as [|? ? _ HF]; subst. rewrite Forall_forall in HF. specialize (HF a Ha). unfold keys_lt in HF. cbn in HF. lia.
        -- exists 0. split; [left; reflexivity|]. lia.
        -- exists k. split; [right; apply in_or_app; auto|lia].
Qed.
End P38.
