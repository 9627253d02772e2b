(** Lemmas on std::map, texts and the loading of a map definition, for GenInitProps. *)
From Coq Require Import String OrderedTypeEx Sorted.
From Verif Require Import Base ConfigModel ConfigSpec InitModel InitSpec InitProofs GenInitModel GenInitSpec.
Open Scope string_scope.
Open Scope list_scope.

Lemma scompare_trans a b c : String.compare a b = Lt -> String.compare b c = Lt -> String.compare a c = Lt.
Proof. intros H K. apply String_as_OT.cmp_lt in H, K. apply String_as_OT.cmp_lt. eapply String_as_OT.lt_trans; eassumption. Qed.
Lemma scompare_refl a : String.compare a a = Eq.
Proof. assert (D := String.compare_antisym a a). destruct (String.compare a a); [reflexivity|discriminate D|discriminate D]. Qed.

(** std::map: increasing keys *)
Definition Inc {A} (l : list (string * A)) : Prop := StronglySorted (fun a b => String.compare (fst a) (fst b) = Lt) l.
Lemma set_in {A} (l : list (string * A)) k v x : In x (smap_set l k v) -> x = (k, v) \/ In x l.
Proof.
  induction l as [|[a b] l IH]; cbn [smap_set]; [intros [<-|[]]; auto|]. destruct (String.compare k a) eqn:C.
  - apply String.compare_eq_iff in C. subst a. intros [<-|I]; [auto|right; right; exact I].
  - intros [<-|I]; auto.
  - intros [<-|I]; [right; left; reflexivity|]. destruct (IH I); [auto|right; right; assumption].
Qed.
Lemma set_inc {A} (l : list (string * A)) k v : Inc l -> Inc (smap_set l k v).
Proof.
  unfold Inc. induction l as [|[a b] l IH]; intros I; [repeat constructor|]. apply StronglySorted_inv in I. destruct I as [I F]. cbn [smap_set].
  destruct (String.compare k a) eqn:C.
  - constructor; assumption.
  - constructor; [constructor; assumption|]. constructor; [exact C|]. rewrite Forall_forall in F |- *. intros x X. exact (scompare_trans _ _ _ C (F x X)).
  - constructor; [apply IH, I|]. rewrite Forall_forall in F |- *. intros x X. apply set_in in X. destruct X as [-> |X]; [|exact (F x X)].
    cbn [fst]. rewrite String.compare_antisym, C. reflexivity.
Qed.
Lemma inc_get {A} (l : list (string * A)) k v : Inc l -> (In (k, v) l <-> smap_get l k = Some v).
Proof.
  unfold Inc. induction l as [|[a b] l IH]; intros I; [split; [intros []|discriminate]|]. apply StronglySorted_inv in I. destruct I as [I F].
  cbn [smap_get In]. destruct (String.eqb_spec a k) as [->|N].
  - split; [|intros E; injection E as ->; auto]. intros [E|X]; [injection E as ->; reflexivity|]. exfalso.
    rewrite Forall_forall in F. specialize (F _ X). cbn [fst] in F. rewrite scompare_refl in F. discriminate F.
  - rewrite <- IH by exact I. split; [intros [E|X]; [injection E as -> _; contradiction|exact X]|auto].
Qed.
Lemma set_get_in {A} (l : list (string * A)) k v k' v' : Inc l -> (In (k', v') (smap_set l k v) <-> (k' = k /\ v' = v) \/ (k' <> k /\ In (k', v') l)).
Proof.
  intros I. rewrite inc_get by (apply set_inc, I). rewrite smap_get_set, inc_get by exact I.
  destruct (String.eqb_spec k k') as [->|N].
  - split; [intros E; injection E as ->; auto|]. intros [[_ ->]|[X _]]; [reflexivity|contradiction].
  - split; [auto|]. intros [[-> _]|[_ X]]; [contradiction|exact X].
Qed.

(** texts *)
Lemma app_nil_s s : (s ++ "")%string = s.
Proof. induction s as [|c s IH]; [reflexivity|]. cbn. rewrite IH. reflexivity. Qed.
Lemma app_len a b : String.length (a ++ b) = (String.length a + String.length b)%nat.
Proof. induction a as [|c a IH]; [reflexivity|]. cbn. rewrite IH. reflexivity. Qed.
Lemma substring_pre a b : substring 0 (String.length a) (a ++ b) = a.
Proof. induction a as [|c a IH]; [destruct b; reflexivity|]. cbn. rewrite IH. reflexivity. Qed.
Lemma substring_skip a n b : substring (String.length a) n (a ++ b) = substring 0 n b.
Proof. induction a as [|c a IH]; [reflexivity|]. cbn. exact IH. Qed.
Lemma last_char s : s <> "" -> exists p c, s = (p ++ String c "")%string.
Proof.
  induction s as [|c s IH]; [intros []; reflexivity|]. intros _. destruct s as [|d s].
  - exists "", c. reflexivity.
  - destruct IH as (p & e & E); [discriminate|]. exists (String c p), e. cbn. rewrite E. reflexivity.
Qed.
Lemma is_formula_iff t : is_formula t = true <-> exists r, t = ("$f{" ++ r)%string.
Proof.
  unfold is_formula. rewrite String.eqb_eq. split.
  - intros E. exists (substring 3 (String.length t - 3) t). destruct t as [|a [|b [|c t]]]; try discriminate E.
    cbn [substring] in E. assert (S0 : substring 0 0 t = "") by (destruct t; reflexivity). rewrite S0 in E. injection E as -> -> ->.
    cbn [String.length substring]. replace (S (S (S (String.length t))) - 3)%nat with (String.length t) by lia.
    assert (X := substring_pre t ""). rewrite app_nil_s in X. rewrite X. reflexivity.
  - intros [r ->]. apply (substring_pre "$f{" r).
Qed.
Lemma closed_iff r : closed ("$f{" ++ r) = true <-> exists f, r = (f ++ "}")%string.
Proof.
  unfold closed. rewrite String.eqb_eq. destruct (string_dec r "") as [->|N].
  - split; [discriminate|]. intros [f E]. destruct f; discriminate E.
  - destruct (last_char r N) as (p & c & ->).
    replace (String.length ("$f{" ++ (p ++ String c "")) - 1)%nat with (String.length ("$f{" ++ p)) by (rewrite !app_len; cbn [String.length]; lia).
    assert (A : ("$f{" ++ (p ++ String c ""))%string = (("$f{" ++ p) ++ String c "")%string) by reflexivity.
    rewrite A, substring_skip. cbn [substring]. split.
    + intros E. exists p. injection E as ->. reflexivity.
    + intros [f E]. f_equal. clear -E. revert f E. induction p as [|a p IH]; intros f E; destruct f as [|b f]; cbn in E.
      * injection E as ->. reflexivity.
      * injection E as -> E. destruct f; discriminate E.
      * injection E as -> E. destruct p; discriminate E.
      * injection E as _ E. exact (IH f E).
Qed.
Lemma body_formula f : body ("$f{" ++ f ++ "}") = f.
Proof.
  unfold body. replace (String.length ("$f{" ++ f ++ "}") - 4)%nat with (String.length f) by (rewrite !app_len; cbn [String.length]; lia).
  assert (X := substring_skip "$f{" (String.length f) (f ++ "}")). cbn [String.length] in X. rewrite X. apply substring_pre.
Qed.
Lemma app_inj_s a b c : (a ++ b)%string = (a ++ c)%string -> b = c.
Proof. induction a as [|x a IH]; intros E; [exact E|]. injection E as E. exact (IH E). Qed.

Section Loops.
  Variable as_str : yml -> option string.
  Notation sec_loop := (sec_loop as_str).
  Notation def_loop := (def_loop as_str).
  Notation GoodValue := (GoodValue as_str).
  Notation GoodEntry := (GoodEntry as_str).

  Lemma formula_dec t : is_formula t = true -> closed t = true -> exists f, Formula t f /\ body t = f.
  Proof.
    intros I C. apply is_formula_iff in I. destruct I as [r ->]. apply closed_iff in C. destruct C as [f ->]. exists f.
    split; [reflexivity|apply body_formula].
  Qed.
  Lemma plain_not t : is_formula t = false -> Plain t.
  Proof. intros I [r E]. assert (is_formula t = true) by (apply is_formula_iff; eauto). congruence. Qed.

  Lemma sec_good es : forall s n ds, snd (sec_loop es s n ds) = true <-> forall k y, In (k, y) es -> GoodValue y.
  Proof.
    induction es as [|[k y] r IH]; intros s n ds; [split; [intros _ k y []|reflexivity]|].
    cbn [GenInitModel.sec_loop]. destruct (as_str y) as [t|] eqn:T.
    - destruct (is_formula t) eqn:I; [destruct (closed t) eqn:C|].
      + rewrite IH. split; [|intros H k' y' X; apply (H k'); right; exact X]. intros H k' y' [E|X]; [|exact (H k' y' X)].
        injection E as <- <-. destruct (formula_dec t I C) as (f & F & _). exists t. eauto.
      + split; [discriminate|]. intros H. exfalso. destruct (H k y (or_introl eq_refl)) as (t' & T' & P). assert (t' = t) by congruence. subst t'.
        apply is_formula_iff in I. destruct P as [P|[f P]]; [exact (P I)|]. unfold Formula in P. subst t.
        assert (closed ("$f{" ++ (f ++ "}")) = true) by (apply closed_iff; eauto). congruence.
      + rewrite IH. split; [|intros H k' y' X; apply (H k'); right; exact X]. intros H k' y' [E|X]; [|exact (H k' y' X)].
        injection E as <- <-. exists t. split; [exact T|]. left. apply plain_not, I.
    - split; [discriminate|]. intros H. destruct (H k y (or_introl eq_refl)) as (t & T' & _). congruence.
  Qed.

  (** what the text of an entry becomes, given the declarations *)
  Definition EntOf (ds : list (string * nat)) (t : string) (e : DEnt) : Prop :=
    (Plain t /\ e = DText t) \/ exists f c, Formula t f /\ In (f, c) ds /\ e = DCell c.
  Lemma entof_mono ds ds' t e : incl ds ds' -> EntOf ds t e -> EntOf ds' t e.
  Proof. intros I [H|(f & c & F & D & E)]; [left; exact H|right; exists f, c; auto]. Qed.

  (** what a section that was read contains, its cells and the declarations added *)
  Lemma sec_spec es : forall s n ds s' n' ds', NoDup (map fst es) -> Inc s -> sec_loop es s n ds = (s', n', ds', true) ->
    Inc s' /\ (n <= n')%nat /\ exists new, ds' = ds ++ new /\ map snd new = seq n (n' - n)
      /\ (forall k e, In (k, e) s' -> (~ In k (map fst es) /\ In (k, e) s) \/ exists y t, In (k, y) es /\ as_str y = Some t /\ EntOf new t e)
      /\ (forall k y t, In (k, y) es -> as_str y = Some t -> exists e, In (k, e) s' /\ EntOf new t e)
      /\ (forall k e, ~ In k (map fst es) -> In (k, e) s -> In (k, e) s')
      /\ (forall f c, In (f, c) new -> exists k, In (k, DCell c) s').
  Proof.
    induction es as [|[k y] r IH]; intros s n ds s' n' ds' ND IS E.
    - injection E as <- <- <-. split; [exact IS|]. split; [lia|]. exists []. rewrite app_nil_r, Nat.sub_diag. split; [reflexivity|]. split; [reflexivity|].
      split; [intros k e I; left; auto|]. split; [intros k y t []|]. split; [auto|intros f c []].
    - inversion ND as [|? ? NI ND']; subst. cbn [GenInitModel.sec_loop] in E. destruct (as_str y) as [t|] eqn:T; [|discriminate E].
      destruct (is_formula t) eqn:FO.
      + destruct (closed t) eqn:CL; [|discriminate E]. destruct (formula_dec t FO CL) as (f & F & B). rewrite B in E.
        destruct (IH _ _ _ _ _ _ ND' (set_inc s k (DCell n) IS) E) as (I' & L & new & D & SN & FW & BW & KE & LI).
        split; [exact I'|]. split; [lia|]. exists ((f, n) :: new). rewrite <- app_assoc in D. split; [exact D|].
        split; [cbn [map snd]; rewrite SN; replace (n' - n)%nat with (S (n' - S n)) by lia; reflexivity|].
        assert (MO : incl new ((f, n) :: new)) by (intros x X; right; exact X).
        assert (KN : In (k, DCell n) s') by (apply KE; [exact NI|apply set_get_in; auto]).
        split; [|split; [|split]].
        * intros k' e X. destruct (FW _ _ X) as [[N X']|(y' & t' & Y & T' & EO)].
          -- apply set_get_in in X'; [|exact IS]. destruct X' as [[-> ->]|[NE X']].
             ++ right. exists y, t. split; [left; reflexivity|]. split; [exact T|]. right. exists f, n. split; [exact F|]. split; [left; reflexivity|reflexivity].
             ++ left. split; [|exact X']. intros [Z|Z]; [symmetry in Z; contradiction|contradiction].
          -- right. exists y', t'. split; [right; exact Y|]. split; [exact T'|]. exact (entof_mono _ _ _ _ MO EO).
        * intros k' y' t' [Y|Y] T'.
          -- injection Y as <- <-. assert (t' = t) by congruence. subst t'. exists (DCell n). split; [exact KN|]. right. exists f, n. split; [exact F|]. split; [left; reflexivity|reflexivity].
          -- destruct (BW _ _ _ Y T') as (e & X & EO). exists e. split; [exact X|]. exact (entof_mono _ _ _ _ MO EO).
        * intros k' e N X. apply KE; [intros Z; apply N; right; exact Z|]. apply set_get_in; [exact IS|]. right. split; [|exact X]. intros ->. apply N. left. reflexivity.
        * intros f' c [X|X]; [injection X as <- <-; eauto|exact (LI _ _ X)].
      + apply plain_not in FO. destruct (IH _ _ _ _ _ _ ND' (set_inc s k (DText t) IS) E) as (I' & L & new & D & SN & FW & BW & KE & LI).
        split; [exact I'|]. split; [exact L|]. exists new. split; [exact D|]. split; [exact SN|].
        assert (KN : In (k, DText t) s') by (apply KE; [exact NI|apply set_get_in; auto]).
        split; [|split; [|split; [|exact LI]]].
        * intros k' e X. destruct (FW _ _ X) as [[N X']|(y' & t' & Y & T' & EO)].
          -- apply set_get_in in X'; [|exact IS]. destruct X' as [[-> ->]|[NE X']].
             ++ right. exists y, t. split; [left; reflexivity|]. split; [exact T|]. left. auto.
             ++ left. split; [|exact X']. intros [Z|Z]; [symmetry in Z; contradiction|contradiction].
          -- right. exists y', t'. split; [right; exact Y|]. auto.
        * intros k' y' t' [Y|Y] T'.
          -- injection Y as <- <-. assert (t' = t) by congruence. subst t'. exists (DText t). split; [exact KN|]. left. auto.
          -- exact (BW _ _ _ Y T').
        * intros k' e N X. apply KE; [intros Z; apply N; right; exact Z|]. apply set_get_in; [exact IS|]. right. split; [|exact X]. intros ->. apply N. left. reflexivity.
  Qed.

  Lemma def_good m : forall d n ds, snd (def_loop m d n ds) = true <-> forall k y, In (k, y) m -> GoodEntry k y.
  Proof.
    induction m as [|[k y] r IH]; intros d n ds; [split; [intros _ k y []|reflexivity]|]. cbn [GenInitModel.def_loop].
    assert (STEP : forall P : Prop, (P <-> (forall k' y', In (k', y') r -> GoodEntry k' y')) -> GoodEntry k y -> (P <-> forall k' y', In (k', y') ((k, y) :: r) -> GoodEntry k' y')).
    { intros P HP G. rewrite HP. split; [intros H k' y' [X|X]; [injection X as <- <-; exact G|exact (H k' y' X)]|intros H k' y' X; apply H; right; exact X]. }
    assert (NO : ~ GoodEntry k y -> (false = true <-> forall k' y', In (k', y') ((k, y) :: r) -> GoodEntry k' y')).
    { intros N. split; [discriminate|]. intros H. destruct (N (H k y (or_introl eq_refl))). }
    assert (SC : is_scalar y = true -> forall (X : list (string * DNode) * nat * list (string * nat) * bool),
      X = (if String.eqb k "class" || String.eqb k "plugin" then
                match as_str y with Some t => def_loop r (smap_set d k (DScalar t)) n ds | None => (d, n, ds, false) end
              else (d, n, ds, false)) -> (snd X = true <-> forall k' y', In (k', y') ((k, y) :: r) -> GoodEntry k' y')).
    { intros S X ->. destruct (String.eqb k "class" || String.eqb k "plugin") eqn:K.
      - destruct (as_str y) as [t|] eqn:T.
        + apply STEP; [apply IH|]. right. left. split; [exact S|]. split; [|eauto]. apply orb_true_iff in K. destruct K as [K|K]; apply String.eqb_eq in K; auto.
        + apply NO. intros [->|[(_ & _ & t & T')|(es & -> & _)]]; [discriminate S|congruence|discriminate S].
      - apply NO. apply orb_false_iff in K. destruct K as [K1 K2]. apply String.eqb_neq in K1, K2.
        intros [->|[(_ & [X|X] & _)|(es & -> & _)]]; [discriminate S|contradiction|contradiction|discriminate S]. }
    destruct y as [|b|q|t|l|es].
    - apply STEP; [apply IH|]. left. reflexivity.
    - apply SC; reflexivity.
    - apply SC; reflexivity.
    - apply SC; reflexivity.
    - cbn [is_scalar]. apply NO. intros [X|[(S & _)|(es & X & _)]]; discriminate.
    - assert (SG := sec_good es [] n ds). destruct (sec_loop es [] n ds) as [[[s n'] ds'] ok]. cbn [snd] in SG. destruct ok.
      + apply STEP; [apply IH|]. right. right. exists es. split; [reflexivity|]. apply SG. reflexivity.
      + cbn [snd]. apply NO. intros [X|[(S & _)|(es' & X & G)]]; [discriminate X|discriminate S|]. injection X as <-. apply SG in G. discriminate G.
  Qed.

  (** what an entry of the definition becomes *)
  Definition NodeOf (ds : list (string * nat)) (y : yml) (v : DNode) : Prop :=
    (is_scalar y = true /\ exists t, as_str y = Some t /\ v = DScalar t)
    \/ exists es s, y = YDict es /\ v = DSec s
       /\ (forall k e, In (k, e) s -> exists y' t, In (k, y') es /\ as_str y' = Some t /\ EntOf ds t e)
       /\ (forall k y' t, In (k, y') es -> as_str y' = Some t -> exists e, In (k, e) s /\ EntOf ds t e)
       /\ Inc s.
  Lemma nodeof_mono ds ds' y v : incl ds ds' -> NodeOf ds y v -> NodeOf ds' y v.
  Proof.
    intros I [H|(es & s & -> & -> & FW & BW & IN)]; [left; exact H|right]. exists es, s. split; [reflexivity|]. split; [reflexivity|]. split; [|split; [|exact IN]].
    - intros k e X. destruct (FW _ _ X) as (y' & t & Y & T & E). exists y', t. split; [exact Y|]. split; [exact T|]. exact (entof_mono _ _ _ _ I E).
    - intros k y' t Y T. destruct (BW _ _ _ Y T) as (e & X & E). exists e. split; [exact X|]. exact (entof_mono _ _ _ _ I E).
  Qed.
  Definition KeysOnce (m : list (string * yml)) : Prop := NoDup (map fst m) /\ forall k es, In (k, YDict es) m -> NoDup (map fst es).

  Lemma def_spec m : forall d n ds d' n' ds', KeysOnce m -> Inc d -> def_loop m d n ds = (d', n', ds', true) ->
    Inc d' /\ (n <= n')%nat /\ exists new, ds' = ds ++ new /\ map snd new = seq n (n' - n)
      /\ (forall k v, In (k, v) d' -> (In (k, v) d /\ forall y, In (k, y) m -> y = YNull) \/ exists y, In (k, y) m /\ y <> YNull /\ NodeOf new y v)
      /\ (forall k y, In (k, y) m -> y <> YNull -> exists v, In (k, v) d' /\ NodeOf new y v)
      /\ (forall k v, In (k, v) d -> (forall y, In (k, y) m -> y = YNull) -> In (k, v) d')
      /\ (forall f c, In (f, c) new -> Live d' c).
  Proof.
    induction m as [|[k y] r IH]; intros d n ds d' n' ds' [ND NS] ID E.
    - injection E as <- <- <-. split; [exact ID|]. split; [lia|]. exists []. rewrite app_nil_r, Nat.sub_diag. split; [reflexivity|]. split; [reflexivity|].
      split; [intros k v I; left; split; [exact I|intros y []]|]. split; [intros k y []|]. split; [auto|intros f c []].
    - inversion ND as [|? ? NI ND']; subst. assert (KO : KeysOnce r) by (split; [exact ND'|intros k' es X; apply (NS k'); right; exact X]).
      assert (NK : forall y', ~ In (k, y') r) by (intros y' X; apply NI; change k with (fst (k, y')); apply in_map; exact X).
      cbn [GenInitModel.def_loop] in E.
      (* a node was stored *)
      assert (ST : forall v n1 new1, NodeOf new1 y v -> y <> YNull -> (n <= n1)%nat -> map snd new1 = seq n (n1 - n) ->
        (forall f c, In (f, c) new1 -> exists es k', v = DSec es /\ In (k', DCell c) es) ->
        def_loop r (smap_set d k v) n1 (ds ++ new1) = (d', n', ds', true) ->
        Inc d' /\ (n <= n')%nat /\ exists new, ds' = ds ++ new /\ map snd new = seq n (n' - n)
          /\ (forall k0 v, In (k0, v) d' -> (In (k0, v) d /\ forall y0, In (k0, y0) ((k, y) :: r) -> y0 = YNull) \/ exists y0, In (k0, y0) ((k, y) :: r) /\ y0 <> YNull /\ NodeOf new y0 v)
          /\ (forall k0 y0, In (k0, y0) ((k, y) :: r) -> y0 <> YNull -> exists v, In (k0, v) d' /\ NodeOf new y0 v)
          /\ (forall k0 v, In (k0, v) d -> (forall y0, In (k0, y0) ((k, y) :: r) -> y0 = YNull) -> In (k0, v) d')
          /\ (forall f c, In (f, c) new -> Live d' c)).
      { intros v n1 new1 NO YN LE SN1 LI1 E1. destruct (IH _ _ _ _ _ _ KO (set_inc d k v ID) E1) as (I' & L & new & D & SN & FW & BW & KE & LI).
        split; [exact I'|]. split; [lia|]. exists (new1 ++ new). rewrite <- app_assoc in D. split; [exact D|].
        split; [rewrite map_app, SN1, SN; replace (n' - n)%nat with ((n1 - n) + (n' - n1))%nat by lia; rewrite seq_app; repeat f_equal; lia|].
        assert (M1 : incl new1 (new1 ++ new)) by (intros x X; apply in_or_app; auto). assert (M2 : incl new (new1 ++ new)) by (intros x X; apply in_or_app; auto).
        assert (KV : In (k, v) d') by (apply KE; [apply set_get_in; auto|intros y' X; destruct (NK y' X)]).
        split; [|split; [|split]].
        - intros k0 v0 X. destruct (FW _ _ X) as [[X' N]|(y0 & Y & YN0 & NO0)].
          + apply set_get_in in X'; [|exact ID]. destruct X' as [[-> ->]|[NE X']].
            * right. exists y. split; [left; reflexivity|]. split; [exact YN|]. exact (nodeof_mono _ _ _ _ M1 NO).
            * left. split; [exact X'|]. intros y0 [Z|Z]; [injection Z as <- _; contradiction|exact (N y0 Z)].
          + right. exists y0. split; [right; exact Y|]. split; [exact YN0|]. exact (nodeof_mono _ _ _ _ M2 NO0).
        - intros k0 y0 [Z|Z] YN0.
          + injection Z as <- <-. exists v. split; [exact KV|exact (nodeof_mono _ _ _ _ M1 NO)].
          + destruct (BW _ _ Z YN0) as (v0 & X & NO0). exists v0. split; [exact X|exact (nodeof_mono _ _ _ _ M2 NO0)].
        - intros k0 v0 X N. apply KE; [|intros y0 Z; apply N; right; exact Z]. apply set_get_in; [exact ID|]. right. split; [|exact X].
          intros ->. apply YN. apply (N y). left. reflexivity.
        - intros f c X. apply in_app_or in X. destruct X as [X|X]; [|exact (LI f c X)]. destruct (LI1 _ _ X) as (es & k' & -> & X'). exists k, es, k'. auto. }
      assert (SC : is_scalar y = true -> y <> YNull -> (if String.eqb k "class" || String.eqb k "plugin" then
                match as_str y with Some t => def_loop r (smap_set d k (DScalar t)) n ds | None => (d, n, ds, false) end
              else (d, n, ds, false)) = (d', n', ds', true) -> exists t, as_str y = Some t /\ def_loop r (smap_set d k (DScalar t)) n (ds ++ []) = (d', n', ds', true)).
      { intros S YN E1. rewrite app_nil_r. destruct (String.eqb k "class" || String.eqb k "plugin"); [|discriminate E1].
        destruct (as_str y) as [t|]; [|discriminate E1]. eauto. }
      assert (SC2 : is_scalar y = true -> y <> YNull -> (exists t, as_str y = Some t /\ def_loop r (smap_set d k (DScalar t)) n (ds ++ []) = (d', n', ds', true)) ->
        Inc d' /\ (n <= n')%nat /\ exists new, ds' = ds ++ new /\ map snd new = seq n (n' - n)
          /\ (forall k0 v, In (k0, v) d' -> (In (k0, v) d /\ forall y0, In (k0, y0) ((k, y) :: r) -> y0 = YNull) \/ exists y0, In (k0, y0) ((k, y) :: r) /\ y0 <> YNull /\ NodeOf new y0 v)
          /\ (forall k0 y0, In (k0, y0) ((k, y) :: r) -> y0 <> YNull -> exists v, In (k0, v) d' /\ NodeOf new y0 v)
          /\ (forall k0 v, In (k0, v) d -> (forall y0, In (k0, y0) ((k, y) :: r) -> y0 = YNull) -> In (k0, v) d')
          /\ (forall f c, In (f, c) new -> Live d' c)).
      { intros S YN (t & T & E1). apply (ST (DScalar t) n []); [left; eauto|exact YN|lia|rewrite Nat.sub_diag; reflexivity|intros f c []|exact E1]. }
      destruct y as [|b|q|t|l|es].
      + destruct (IH _ _ _ _ _ _ KO ID E) as (I' & L & new & D & SN & FW & BW & KE & LI). split; [exact I'|]. split; [exact L|]. exists new.
        split; [exact D|]. split; [exact SN|]. split; [|split; [|split; [|exact LI]]].
        * intros k0 v0 X. destruct (FW _ _ X) as [[X' N]|(y0 & Y & P)]; [left; split; [exact X'|intros y0 [Z|Z]; [injection Z as _ <-; reflexivity|exact (N y0 Z)]]|right; exists y0; split; [right; exact Y|exact P]].
        * intros k0 y0 [Z|Z] YN; [injection Z as _ <-; contradiction|exact (BW _ _ Z YN)].
        * intros k0 v0 X N. apply KE; [exact X|]. intros y0 Z. apply N. right. exact Z.
      + apply SC2; [reflexivity|discriminate|]. apply SC; [reflexivity|discriminate|exact E].
      + apply SC2; [reflexivity|discriminate|]. apply SC; [reflexivity|discriminate|exact E].
      + apply SC2; [reflexivity|discriminate|]. apply SC; [reflexivity|discriminate|exact E].
      + discriminate E.
      + destruct (sec_loop es [] n ds) as [[[s n1] ds1] ok] eqn:SL. destruct ok; [|discriminate E].
        destruct (sec_spec _ _ _ _ _ _ _ (NS k es (or_introl eq_refl)) (SSorted_nil _) SL) as (IS & L1 & new1 & -> & SN1 & FW1 & BW1 & _ & LI1).
        apply (ST (DSec s) n1 new1); [|discriminate|exact L1|exact SN1| |exact E].
        * right. exists es, s. split; [reflexivity|]. split; [reflexivity|]. split; [|split; [exact BW1|exact IS]]. intros k0 e X. destruct (FW1 _ _ X) as [[_ []]|P]. exact P.
        * intros f c X. destruct (LI1 f c X) as [k' X']. exists s, k'. auto.
  Qed.
End Loops.
