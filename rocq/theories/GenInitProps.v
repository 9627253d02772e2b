(** C284-C289: the configuration of a generator and the map definition it makes. *)
From Coq Require Import String OrderedTypeEx Sorted.
From Verif Require Import Base ConfigModel ConfigSpec InitModel InitSpec InitProofs ParamModel ParamProps GenInitModel GenInitSpec GenInitProofs.
Open Scope string_scope.
Open Scope list_scope.

Section GenP.
  Variables (as_bool : yml -> option bool) (as_str : yml -> option string) (regex_ok : string -> bool).
  Notation Cfg := (list (string * yml)).
  Notation gen_init := (gen_init as_bool as_str regex_ok).
  Notation gen_inits := (gen_inits as_bool as_str regex_ok).

  (** what a successful initialize() leaves *)
  Lemma init_inv m o o' : gen_init m o = (o', true) ->
    g_ready o' = true /\ GivenOr as_str m "target_layer" (g_target o) (g_target o')
    /\ GivenOr as_str m "metric_map_definition_ini_file" (g_inifile o) (g_inifile o')
    /\ GivenOr as_str m "process_class_names_regex" (g_class o) (g_class o')
    /\ GivenOr as_str m "process_sensor_labels_regex" (g_label o) (g_label o')
    /\ GivenOr as_bool m "throw_on_unhandled_observation_class" (g_throw o) (g_throw o')
    /\ g_class_re o' = g_class o' /\ g_label_re o' = g_label o' /\ regex_ok (g_class o') = true /\ regex_ok (g_label o') = true
    /\ match yfind m "metric_map_definition" with
       | None => g_def o' = g_def o /\ g_next o' = g_next o /\ g_decls o' = g_decls o
       | Some (YDict d) => def_loop as_str d (g_def o) (g_next o) (g_decls o) = (g_def o', g_next o', g_decls o', true)
       | Some _ => False
       end.
  Proof.
    unfold GenInitModel.gen_init, gen_load. destruct o as [ta ini cl la th de ne dc cr lr re]. intros H.
    apply lseq_iff in H. destruct H as (o1 & L & H).
    apply lseq_iff in L. destruct L as (x & E & L). apply (lopt_iff _ _ _ _ g_target) in E; [|reflexivity]. destruct E as (a1 & G1 & ->).
    apply lseq_iff in L. destruct L as (x & E & L). apply (lopt_iff _ _ _ _ g_inifile) in E; [|reflexivity]. destruct E as (a2 & G2 & ->).
    apply lseq_iff in L. destruct L as (x & E & L). apply (lopt_iff _ _ _ _ g_class) in E; [|reflexivity]. destruct E as (a3 & G3 & ->).
    apply lseq_iff in L. destruct L as (x & E & L). apply (lopt_iff _ _ _ _ g_label) in E; [|reflexivity]. destruct E as (a4 & G4 & ->).
    apply lseq_iff in L. destruct L as (x & E & L). apply (lopt_iff _ _ _ _ g_throw) in E; [|reflexivity]. destruct E as (a5 & G5 & ->).
    cbn [g_target g_inifile g_class g_label g_throw g_def g_next g_decls g_class_re g_label_re g_ready] in *.
    apply lseq_iff in H. destruct H as (o2 & A & H). apply lassert_iff in A. destruct A as [R1 ->].
    apply lseq_iff in H. destruct H as (o2 & A & H). injection A as <-.
    apply lseq_iff in H. destruct H as (o2 & A & H). apply lassert_iff in A. destruct A as [R2 ->]. injection H as <-.
    unfold def_load in L. cbn [g_target g_inifile g_class g_label g_throw g_def g_next g_decls g_class_re g_label_re g_ready] in *.
    destruct (yfind m "metric_map_definition") as [[| | | | |d]|]; try discriminate L.
    - destruct (def_loop as_str d de ne dc) as [[[d' n'] ds'] ok]. injection L as <- ->.
      cbn [g_target g_inifile g_class g_label g_throw g_def g_next g_decls g_class_re g_label_re g_ready] in *. auto 12.
    - injection L as <-. cbn [g_target g_inifile g_class g_label g_throw g_def g_next g_decls g_class_re g_label_re g_ready] in *. auto 14.
  Qed.

  Lemma readable_given {A} (conv : yml -> option A) m k old : Readable conv m k <-> exists a, GivenOr conv m k old a.
  Proof.
    unfold Readable, GivenOr. split.
    - intros R. destruct (yfind m k) as [v|]; [|exists old; auto]. specialize (R v eq_refl). destruct (conv v) as [a|] eqn:C; [|contradiction]. exists a. right. eauto.
    - intros (a & [[N _]|(v & N & C)]) v' Y; [congruence|]. assert (v' = v) by congruence. subst. congruence.
  Qed.
  Lemma givenor_fun {A} (conv : yml -> option A) m k old a b : GivenOr conv m k old a -> GivenOr conv m k old b -> a = b.
  Proof. intros [[N ->]|(v & N & C)] [[N' ->]|(v' & N' & C')]; congruence. Qed.

  (** C284: initialize() succeeds exactly on the configurations whose entries can be read, whose regular expressions are valid
      and whose map definition has the documented form; then everything is as configured. *)
  Theorem C284_accepted_configurations : forall m o, snd (gen_init m o) = true <-> GoodConfig as_bool as_str regex_ok m o.
  Proof.
    intros m o. split.
    - destruct (gen_init m o) as [o' ok] eqn:E. cbn [snd]. intros ->. apply init_inv in E.
      destruct E as (_ & G1 & G2 & G3 & G4 & G5 & _ & _ & R1 & R2 & D). unfold GoodConfig.
      split; [apply (readable_given _ _ _ (g_target o)); eauto|]. split; [apply (readable_given _ _ _ (g_inifile o)); eauto|]. split; [apply (readable_given _ _ _ (g_class o)); eauto|]. split; [apply (readable_given _ _ _ (g_label o)); eauto|]. split; [apply (readable_given _ _ _ (g_throw o)); eauto|]. split; [|split; eauto].
      intros y Y. rewrite Y in D. destruct y as [| | | | |d]; try contradiction. exists d. split; [reflexivity|].
      apply (def_good as_str d (g_def o) (g_next o) (g_decls o)). rewrite D. reflexivity.
    - intros (R1 & R2 & R3 & R4 & R5 & GD & (c & GC & OC) & (l & GL & OL)).
      apply (readable_given _ _ _ (g_target o)) in R1. destruct R1 as [a1 R1]. apply (readable_given _ _ _ (g_inifile o)) in R2. destruct R2 as [a2 R2].
      apply (readable_given _ _ _ (g_throw o)) in R5. destruct R5 as [a5 R5].
      destruct o as [ta ini cl la th de ne dc cr lr re]. cbn [g_target g_inifile g_class g_label g_throw] in *.
      assert (DL : exists d n ds, def_load as_str m (mkGen a1 a2 c l a5 de ne dc cr lr re) = (mkGen a1 a2 c l a5 d n ds cr lr re, true)).
      { unfold def_load. cbn [g_target g_inifile g_class g_label g_throw g_def g_next g_decls g_class_re g_label_re g_ready].
        destruct (yfind m "metric_map_definition") as [y|] eqn:Y; [|eauto]. destruct (GD y Y) as (d & -> & G).
        apply (def_good as_str d de ne dc) in G. destruct (def_loop as_str d de ne dc) as [[[d' n'] ds'] ok]. cbn [snd] in G. subst ok. eauto. }
      destruct DL as (d & n & ds & DL).
      assert (X : exists o', gen_init m (mkGen ta ini cl la th de ne dc cr lr re) = (o', true)).
      { eexists. unfold GenInitModel.gen_init, gen_load. apply lseq_iff. eexists. split.
        - apply lseq_iff. eexists. split; [apply (lopt_iff _ _ _ _ g_target); [reflexivity|]; exists a1; split; [exact R1|reflexivity]|].
          apply lseq_iff. eexists. split; [apply (lopt_iff _ _ _ _ g_inifile); [reflexivity|]; exists a2; split; [exact R2|reflexivity]|].
          apply lseq_iff. eexists. split; [apply (lopt_iff _ _ _ _ g_class); [reflexivity|]; exists c; split; [exact GC|reflexivity]|].
          apply lseq_iff. eexists. split; [apply (lopt_iff _ _ _ _ g_label); [reflexivity|]; exists l; split; [exact GL|reflexivity]|].
          apply lseq_iff. eexists. split; [apply (lopt_iff _ _ _ _ g_throw); [reflexivity|]; exists a5; split; [exact R5|reflexivity]|].
          exact DL.
        - apply lseq_iff. eexists. split; [apply lassert_iff; split; [exact OC|reflexivity]|]. apply lseq_iff. eexists. split; [reflexivity|].
          apply lseq_iff. eexists. split; [apply lassert_iff; split; [exact OL|reflexivity]|]. reflexivity. }
      destruct X as [o' ->]. reflexivity.
  Qed.

  Definition inifold (sec key : string) (ws : list (string * string * string)) (a : option string) : option string :=
    fold_left (fun a w => let '(s, k, v) := w in if String.eqb s sec && String.eqb k key then Some v else a) ws a.
  Lemma fold_some ws sec key : forall a v, inifold sec key ws a = Some v ->
    a = Some v \/ In (sec, key, v) ws.
  Proof.
    induction ws as [|[[s k] v0] ws IH]; intros a v; cbn [inifold fold_left]; [auto|]. intros H. apply IH in H. destruct H as [H|H]; [|right; right; exact H].
    destruct (String.eqb_spec s sec) as [->|]; cbn [andb] in H; [destruct (String.eqb_spec k key) as [->|]|]; auto. injection H as ->. right. left. reflexivity.
  Qed.
  Lemma fold_in ws sec key v : In (sec, key, v) ws -> forall a, exists v', inifold sec key ws a = Some v'.
  Proof.
    assert (ST : forall ws0 v0, exists v', inifold sec key ws0 (Some v0) = Some v').
    { induction ws0 as [|[[s k] v1] ws0 IH]; intros v0; cbn [inifold fold_left]; [eauto|]. destruct (String.eqb s sec && String.eqb k key); apply IH. }
    induction ws as [|[[s k] v0] ws IH]; [intros []|]. intros [E|I] a; cbn [inifold fold_left].
    - injection E as -> -> ->. rewrite !String.eqb_refl. cbn [andb]. apply ST.
    - apply IH, I.
  Qed.
  Lemma ini_get_iff ws sec key v : (forall v v', In (sec, key, v) ws -> In (sec, key, v') ws -> v = v') -> (ini_get ws sec key = Some v <-> In (sec, key, v) ws).
  Proof.
    intros U. unfold ini_get. change (inifold sec key ws None = Some v <-> In (sec, key, v) ws). split.
    - intros H. apply fold_some in H. destruct H as [H|H]; [discriminate H|exact H].
    - intros I. destruct (fold_in _ _ _ _ I None) as [v' F]. rewrite F. f_equal. apply fold_some in F. destruct F as [F|F]; [discriminate F|]. exact (U _ _ F I).
  Qed.

  Lemma yfind_in (d : Cfg) k y : NoDup (map fst d) -> (In (k, y) d <-> yfind d k = Some y).
  Proof.
    induction d as [|[a b] d IH]; intros ND; [split; [intros []|discriminate]|]. inversion ND as [|? ? NI ND']; subst. cbn [yfind In].
    destruct (String.eqb_spec a k) as [->|N].
    - split; [|intros E; injection E as ->; auto]. intros [E|X]; [injection E as ->; reflexivity|]. exfalso. apply NI. change k with (fst (k, y)). apply in_map, X.
    - rewrite <- IH by exact ND'. split; [intros [E|X]; [injection E as -> _; contradiction|exact X]|auto].
  Qed.

  (** the definition of a generator that was initialised once *)
  Lemma fresh_def m d o' : yfind m "metric_map_definition" = Some (YDict d) -> KeysOnce d -> gen_init m gen0 = (o', true) ->
    Inc (g_def o') /\ map snd (g_decls o') = seq 0 (g_next o')
    /\ (forall k v, In (k, v) (g_def o') -> exists y, In (k, y) d /\ y <> YNull /\ NodeOf as_str (g_decls o') y v)
    /\ (forall k y, In (k, y) d -> y <> YNull -> exists v, In (k, v) (g_def o') /\ NodeOf as_str (g_decls o') y v)
    /\ (forall f c, In (f, c) (g_decls o') -> Live (g_def o') c).
  Proof.
    intros Y KO E. apply init_inv in E. destruct E as (_ & _ & _ & _ & _ & _ & _ & _ & _ & _ & D). rewrite Y in D.
    destruct (def_spec _ _ _ _ _ _ _ _ KO (SSorted_nil _) D) as (I & _ & new & ND & SN & FW & BW & _ & LI). cbn [gen0 g_decls app] in ND. subst new.
    cbn [gen0 g_next] in SN. rewrite Nat.sub_0_r in SN. split; [exact I|]. split; [exact SN|]. split; [|auto].
    intros k v X. destruct (FW k v X) as [[[] _]|P]. exact P.
  Qed.

  Section Ini.
    Variables (print : Q -> string) (plugin_ok : string -> bool).

    Lemma ini_describes m d o' ws mem (fv : string -> Q) :
      yfind m "metric_map_definition" = Some (YDict d) -> KeysOnce d -> gen_init m gen0 = (o', true) ->
      (forall f c, In (f, c) (g_decls o') -> mem c = fv f) ->
      gen_ini print plugin_ok mem o' = Ok ws ->
      exists cls, Given as_str d "class" cls /\
        forall sec key v, ini_get ws sec key = Some v <-> Describes as_str d cls (fun f v => v = print (fv f)) sec key v.
    Proof.
      intros Y KO E CU G. destruct (fresh_def m d o' Y KO E) as (I & _ & FW & BW & _). unfold gen_ini in G.
      destruct (no_def o'); [discriminate G|]. destruct (smap_get (g_def o') "class") as [[cls|]|] eqn:C; [|discriminate G|discriminate G].
      assert (WS : ws = ("map", (cls ++ "_count")%string, "1") :: flat_map (sec_writes print mem cls) (g_def o')).
      { destruct (smap_get (g_def o') "plugin") as [[p|]|]; [destruct (plugin_ok p)| |]; try discriminate G; injection G as <-; reflexivity. }
      clear G. exists cls. split.
      { apply inc_get in C; [|exact I]. destruct (FW _ _ C) as (y & IY & _ & [(_ & t & T & X)|(es & s & _ & X & _)]); [|discriminate X].
        injection X as <-. exists y. split; [apply yfind_in; [apply KO|exact IY]|exact T]. }
      assert (IFF : forall sec key v, In (sec, key, v) ws <-> Describes as_str d cls (fun f v => v = print (fv f)) sec key v).
      { intros sec key v. subst ws. cbn [In]. unfold Describes. split.
        - intros [X|X]; [injection X as <- <- <-; auto|]. right. apply in_flat_map in X. destruct X as ([s n] & IN & X). unfold sec_writes in X. cbn [fst snd] in X.
          destruct n as [|es']; [destruct X|]. apply in_map_iff in X. destruct X as ([k e] & X & IE). cbn [fst snd] in X. injection X as <- <- <-.
          destruct (FW _ _ IN) as (y & IY & _ & [(_ & t & _ & Z)|(es & s' & -> & Z & FW2 & _)]); [discriminate Z|]. injection Z as <-.
          destruct (FW2 _ _ IE) as (y' & t & IY' & T & EO). exists s, es, y', t. split; [exact IY|]. split; [exact IY'|]. split; [exact T|]. split; [reflexivity|].
          destruct EO as [[P ->]|(f & c & F & D & ->)]; [left; auto|right]. exists f. split; [exact F|]. cbn [ent_text]. rewrite (CU f c D). reflexivity.
        - intros [(-> & -> & ->)|(s & es & y & t & IS & IY & T & -> & V)]; [left; reflexivity|right].
          destruct (BW _ _ IS ltac:(discriminate)) as (n & IN & [(X & _)|(es' & s' & X & -> & _ & BW2 & _)]); [discriminate X|]. injection X as <-.
          destruct (BW2 _ _ _ IY T) as (e & IE & EO). apply in_flat_map. exists (s, DSec s'). split; [exact IN|]. unfold sec_writes. cbn [snd fst].
          apply in_map_iff. exists (key, e). cbn [fst snd]. split; [|exact IE]. f_equal.
          destruct EO as [[P ->]|(f & c & F & D & ->)], V as [[P' ->]|(f' & F' & ->)].
          + reflexivity.
          + exfalso. apply P. unfold Formula in F'. eauto.
          + exfalso. apply P'. unfold Formula in F. eauto.
          + cbn [ent_text]. rewrite (CU f c D). unfold Formula in F, F'. rewrite F in F'. apply app_inj_s in F'.
            assert (f = f').
            { clear -F'. revert f' F'. induction f as [|a f IH]; intros [|b f'] E; cbn in E; try reflexivity.
              - injection E as _ E. destruct f'; discriminate E.
              - injection E as _ E. destruct f; discriminate E.
              - injection E as -> E. f_equal. exact (IH _ E). }
            subst f'. reflexivity. }
      intros sec key v. rewrite <- IFF. apply ini_get_iff. intros v1 v2 X1 X2. apply IFF in X1, X2.
      destruct X1 as [(-> & -> & ->)|(s & es & y & t & IS & IY & T & SE & V)], X2 as [(E1 & E2 & E3)|(s2 & es2 & y2 & t2 & IS2 & IY2 & T2 & SE2 & V2)].
      - congruence.
      - discriminate SE2.
      - subst sec. discriminate E1.
      - assert (s2 = s) by (subst sec; apply app_inj_s in SE2; apply app_inj_s in SE2; apply app_inj_s in SE2; congruence). subst s2.
        apply yfind_in in IS; [|apply KO]. apply yfind_in in IS2; [|apply KO]. assert (es2 = es) by congruence. subst es2.
        assert (NS : NoDup (map fst es)) by (destruct KO as [NK NE]; apply (NE s); apply yfind_in; assumption).
        apply yfind_in in IY; [|exact NS]. apply yfind_in in IY2; [|exact NS]. assert (y2 = y) by congruence. subst y2. assert (t2 = t) by congruence. subst t2.
        destruct V as [[P ->]|(f & F & ->)], V2 as [[P' ->]|(f' & F' & ->)]; try reflexivity.
        + exfalso. apply P. unfold Formula in F'. eauto.
        + exfalso. apply P'. unfold Formula in F. eauto.
        + f_equal. f_equal. assert (B1 := body_formula f). assert (B2 := body_formula f'). unfold Formula in F, F'. rewrite <- F in B1. rewrite <- F' in B2. congruence.
    Qed.

    (** C285: after one initialize() of a fresh generator, its formulas declared, its source attached, updated any number of times and
        realized, the INI block from which the map is made is exactly the one that the configuration describes, with the
        value of each formula for the present values of the variables. *)
    Theorem C285_ini_as_configured : forall (wf : string -> bool) (fvars : string -> list string) (fval : string -> (string -> Q) -> Q) fl junk m d o' ws h w,
      reads_only string fvars fval ->
      yfind m "metric_map_definition" = Some (YDict d) -> KeysOnce d -> gen_init m gen0 = (o', true) ->
      let decl := map (fun fc => (ODeclare string 0%nat (fst fc) KDouble (snd fc), Done)) (g_decls o') in
      ParamModel.run string wf fvars fval fl junk (world0 string) (decl ++ h ++ [(ORealize string, Done)]) w ->
      (forall o f k t r, ~ In (ODeclare string o f k t, r) h) -> attached string h 0%nat -> no_failed_realize string h ->
      gen_ini print plugin_ok (w_mem string w) o' = Ok ws ->
      exists cls, Given as_str d "class" cls /\
        forall sec key v, ini_get ws sec key = Some v <->
          Describes as_str d cls (fun f v => v = print (fval f (value_now string h))) sec key v.
    Proof.
      intros wf fvars fval fl junk m d o' ws h w RO Y KO E decl R NDH AT NF G. eapply ini_describes; [exact Y|exact KO|exact E| |exact G].
      destruct (fresh_def m d o' Y KO E) as (_ & SN & _). intros f c IN.
      assert (DD : decls string decl = map (fun fc => mkDecl string 0%nat (fst fc) KDouble (snd fc)) (g_decls o')).
      { unfold decl, decls. generalize (g_decls o'). clear. intros l0. induction l0 as [|x l IH]; [reflexivity|]. cbn [map flat_map decl_of app]. f_equal. exact IH. }
      assert (DH : decls string h = []).
      { unfold decls. clear -NDH. induction h as [|[op r] h IH]; [reflexivity|]. cbn [flat_map]. rewrite IH; [|intros o f k t r' X; apply (NDH o f k t r'); right; exact X].
        rewrite app_nil_r. destruct op; try reflexivity. exfalso. apply (NDH o f k t r). left. reflexivity. }
      assert (DA : decls string (decl ++ h) = map (fun fc => mkDecl string 0%nat (fst fc) KDouble (snd fc)) (g_decls o')).
      { unfold decls in *. rewrite flat_map_app, DD, DH, app_nil_r. reflexivity. }
      assert (ID : In (mkDecl string 0%nat f KDouble c) (decls string (decl ++ h))) by (rewrite DA; apply in_map_iff; exists (f, c); auto).
      assert (DI : ParamProps.distinct string (decl ++ h)).
      { unfold ParamProps.distinct. rewrite DA, map_map. change (NoDup (map (fun x : string * nat => snd x) (g_decls o'))). change (NoDup (map snd (g_decls o'))). rewrite SN. apply seq_NoDup. }
      assert (NAD : forall o r, ~ In (OAttach string o, r) decl).
      { intros o r X. unfold decl in X. apply in_map_iff in X. destruct X as (x & X & _). discriminate X. }
      assert (STB : stable string (decl ++ h)).
      { intros h1 h2 o r f0 k t r' EQ A1 D2. 
        assert (SP : (exists l, decl = h1 ++ l /\ h2 = l ++ h) \/ exists l, h = l ++ h2 /\ h1 = decl ++ l).
        { clear -EQ. revert h1 EQ. generalize decl as dd. induction dd as [|x dd IH]; intros h1 EQ.
          - right. exists h1. cbn in *. auto.
          - destruct h1 as [|y h1]; cbn in EQ.
            + left. exists (x :: dd). cbn. auto.
            + injection EQ as <- EQ. destruct (IH _ EQ) as [(l & -> & ->)|(l & -> & ->)]; [left|right]; exists l; auto. }
        destruct SP as [(l & EL & _)|(l & EL & ->)].
        - apply (NAD o r). rewrite EL. apply in_or_app. auto.
        - apply (NDH o f0 k t r'). rewrite EL. apply in_or_app. auto. }
      assert (NFA : no_failed_realize string (decl ++ h)).
      { intros X. apply in_app_or in X. destruct X as [X|X]; [|exact (NF X)]. unfold decl in X. apply in_map_iff in X. destruct X as (x & X & _). discriminate X. }
      assert (VN : forall x, value_now string (decl ++ h) x = value_now string h x).
      { intros x. unfold value_now, latest. rewrite fold_left_app. unfold decl.
        replace (fold_left (fun v (e : Op string * out) => match e with (OUpdate _ y u, _) => if String.eqb y x then Some u else v | _ => v end) (map (fun fc => (ODeclare string 0%nat (fst fc) KDouble (snd fc), Done)) (g_decls o')) None) with (@None Q); [reflexivity|].
        generalize (g_decls o'). clear. intros l0. induction l0 as [|y l IH]; [reflexivity|]. exact IH. }
      rewrite (RO f (value_now string h) (value_now string (decl ++ h))) by (intros x _; symmetry; apply VN).
      rewrite app_assoc in R.
      assert (DE : wf f = true /\ fvars f = [] \/ ~ (wf f = true /\ fvars f = [])).
      { destruct (wf f); [destruct (fvars f)|]; [left; auto|right; intros [_ X]; discriminate X|right; intros [X _]; discriminate X]. }
      destruct DE as [CO|NC].
      - assert (X := C39_constants_keep_their_value string wf fvars fval fl junk _ _ (mkDecl string 0%nat f KDouble c) R).
        cbn [d_kind d_expr d_tgt converts] in X. rewrite (RO f (value_now string (decl ++ h)) no_env) by (intros x; destruct CO as [_ ->]; intros []).
        apply X.
        + rewrite Forall_forall. intros e IE. apply in_app_or in IE. destruct IE as [IE|[<-|[]]]; [|discriminate].
          inversion R as [|w0 h' w1 op r w2 R' FU ST EW EH]; subst; [destruct (decl ++ h); discriminate|]. apply app_inj_tail in EH. destruct EH as [-> _].
          rewrite Forall_forall in FU. exact (FU e IE).
        + intros h1 h2 o r f0 k t r' EQ A1 D2. destruct (exists_last (l := h2)) as (h2' & e & ->); [intros ->; destruct D2|].
          rewrite app_assoc in EQ. apply app_inj_tail in EQ. destruct EQ as [EQ <-]. apply in_app_or in D2. destruct D2 as [D2|[D2|[]]]; [|discriminate D2].
          exact (STB h1 h2' o r f0 k t r' EQ A1 D2).
        + unfold ParamProps.distinct, decls. rewrite flat_map_app. cbn [flat_map decl_of]. rewrite app_nil_r. exact DI.
        + unfold decls. rewrite flat_map_app. cbn [flat_map decl_of]. rewrite app_nil_r. exact ID.
        + exact CO.
      - assert (X := C39_realize_uses_latest_values string wf fvars fval fl junk (decl ++ h) w (mkDecl string 0%nat f KDouble c) RO R STB DI NFA ID).
        cbn [d_kind d_expr d_tgt d_obj converts] in X. apply X; [|exact NC]. destruct AT as [r AT]. exists r. apply in_or_app. auto.
    Qed.

    (** C286: a definition that does not name its class is accepted, and then every observation makes process() throw. *)
    Theorem C286_missing_class_accepted_refuted : forall m d o' mem,
      yfind m "metric_map_definition" = Some (YDict d) -> KeysOnce d -> GoodConfig as_bool as_str regex_ok m gen0 ->
      yfind m "metric_map_definition_ini_file" = None ->
      (forall y, ~ In ("class", y) d) -> (exists k y, In (k, y) d /\ y <> YNull) ->
      gen_init m gen0 = (o', snd (gen_init m gen0)) ->
      snd (gen_init m gen0) = true /\ gen_use o' = FromDefinition /\ gen_ini print plugin_ok mem o' = Throw.
    Proof.
      intros m d o' mem Y KO G NI NC (k & y & IK & YN) E. apply C284_accepted_configurations in G. rewrite G in E. split; [exact G|].
      destruct (fresh_def m d o' Y KO E) as (I & _ & FW & BW & _). apply init_inv in E.
      destruct E as (RD & _ & GI & _). destruct (BW k y IK YN) as (v & IV & _). split.
      - unfold gen_use, no_def. rewrite RD. cbn [negb]. destruct GI as [[_ GI]|(z & Z & _)]; [|congruence]. rewrite GI. cbn [gen0 g_inifile String.eqb andb].
        destruct (g_def o'); [destruct IV|reflexivity].
      - unfold gen_ini, no_def. destruct (g_def o') as [|x l] eqn:D; [reflexivity|]. rewrite <- D in *. destruct (smap_get (g_def o') "class") as [v'|] eqn:S; [|reflexivity].
        apply inc_get in S; [|exact I]. destruct (FW _ _ S) as (y' & X & _). destruct (NC y' X).
    Qed.
    (** C286, where it holds: with a class given as a scalar, and no plugin or a scalar plugin that can be loaded, the INI block is made. *)
    Theorem C286_with_class_where : forall m d o' mem cls,
      yfind m "metric_map_definition" = Some (YDict d) -> KeysOnce d -> gen_init m gen0 = (o', true) ->
      (exists y, In ("class", y) d /\ is_scalar y = true /\ as_str y = Some cls) ->
      (forall y, In ("plugin", y) d -> y = YNull \/ (is_scalar y = true /\ exists p, as_str y = Some p /\ plugin_ok p = true)) ->
      exists ws, gen_ini print plugin_ok mem o' = Ok ws /\ ini_get ws "map" (cls ++ "_count") = Some "1".
    Proof.
      intros m d o' mem cls Y KO E (y & IY & SC & T) PL. destruct (fresh_def m d o' Y KO E) as (I & _ & FW & BW & _).
      destruct (BW _ _ IY ltac:(intros ->; discriminate SC)) as (v & IV & [(_ & t & T' & ->)|(es & s & -> & _)]); [|discriminate SC].
      assert (t = cls) by congruence. subst t. apply inc_get in IV; [|exact I].
      assert (FI : forall l, ini_get (("map", (cls ++ "_count")%string, "1") :: flat_map (sec_writes print mem cls) l) "map" (cls ++ "_count") = Some "1").
      { intros l. apply ini_get_iff; [|left; reflexivity]. assert (X : forall v, In ("map", (cls ++ "_count")%string, v) (flat_map (sec_writes print mem cls) l) -> False).
        { intros v X. apply in_flat_map in X. destruct X as ([a b] & _ & X). unfold sec_writes in X. cbn [snd fst] in X. destruct b; [destruct X|].
          apply in_map_iff in X. destruct X as (z & X & _). discriminate X. }
        intros v v' [A|A] [B|B]; [congruence|destruct (X _ B)|destruct (X _ A)|destruct (X _ A)]. }
      unfold gen_ini, no_def. rewrite IV. destruct (g_def o') as [|x l] eqn:D; [discriminate IV|]. rewrite <- D in *. clear D.
      destruct (smap_get (g_def o') "plugin") as [n|] eqn:P.
      - apply inc_get in P; [|exact I]. destruct (FW _ _ P) as (y' & IY' & YN & NO). destruct (PL y' IY') as [->|(SC' & p & TP & OK)]; [contradiction|].
        destruct NO as [(_ & t & TT & ->)|(es & s & -> & _)]; [|discriminate SC']. assert (t = p) by congruence. subst t. rewrite OK. eexists. split; [reflexivity|]. apply FI.
      - eexists. split; [reflexivity|]. apply FI.
    Qed.
  End Ini.

  (** C287: a second initialize() does not replace the definition: a section that only the first configuration has is still there. *)
  Theorem C287_old_sections_stay_refuted : forall m1 m2 d1 d2 o1 o2 s es,
    yfind m1 "metric_map_definition" = Some (YDict d1) -> KeysOnce d1 -> gen_init m1 gen0 = (o1, true) ->
    yfind m2 "metric_map_definition" = Some (YDict d2) -> KeysOnce d2 -> gen_init m2 o1 = (o2, true) ->
    In (s, YDict es) d1 -> (forall y, ~ In (s, y) d2) ->
    exists n, In (s, n) (g_def o1) /\ In (s, n) (g_def o2) /\ NodeOf as_str (g_decls o1) (YDict es) n.
  Proof.
    intros m1 m2 d1 d2 o1 o2 s es Y1 K1 E1 Y2 K2 E2 IN NO. destruct (fresh_def m1 d1 o1 Y1 K1 E1) as (I & _ & FW & BW & _).
    destruct (BW _ _ IN ltac:(discriminate)) as (n & IV & ND). exists n. split; [exact IV|]. split; [|exact ND].
    apply init_inv in E2. destruct E2 as (_ & _ & _ & _ & _ & _ & _ & _ & _ & _ & D). rewrite Y2 in D.
    destruct (def_spec _ _ _ _ _ _ _ _ K2 I D) as (_ & _ & new & _ & _ & _ & _ & KE & _). apply KE; [exact IV|]. intros y X. destruct (NO y X).
  Qed.
  (** C287, what holds of any further initialize(): what the new configuration names is as it says, the rest is as it was. *)
  Theorem C287_named_entries_where : forall m d o o', Inc (g_def o) ->
    yfind m "metric_map_definition" = Some (YDict d) -> KeysOnce d -> gen_init m o = (o', true) ->
    Inc (g_def o') /\
    exists new, g_decls o' = g_decls o ++ new
    /\ (forall k y, In (k, y) d -> y <> YNull -> exists n, In (k, n) (g_def o') /\ NodeOf as_str new y n)
    /\ (forall k n, In (k, n) (g_def o') -> (In (k, n) (g_def o) /\ forall y, In (k, y) d -> y = YNull) \/ exists y, In (k, y) d /\ y <> YNull /\ NodeOf as_str new y n)
    /\ (forall k n, In (k, n) (g_def o) -> (forall y, In (k, y) d -> y = YNull) -> In (k, n) (g_def o')).
  Proof.
    intros m d o o' I Y K E. apply init_inv in E. destruct E as (_ & _ & _ & _ & _ & _ & _ & _ & _ & _ & D). rewrite Y in D.
    destruct (def_spec _ _ _ _ _ _ _ _ K I D) as (I' & _ & new & ND & _ & FW & BW & KE & _). split; [exact I'|]. exists new. auto 6.
  Qed.

  (** C288: initialising twice with a formula in a section leaves a formula declared for a number that no longer exists,
      and the next realize() writes it: undefined behaviour. *)
  Theorem C288_dangling_formula_refuted : forall (wf : string -> bool) (fvars : string -> list string) (fval : string -> (string -> Q) -> Q) fl junk s k f x q y,
    reads_only string fvars fval -> wf f = true -> fvars f = [x] -> as_str y = Some ("$f{" ++ f ++ "}")%string -> regex_ok ".*" = true ->
    let m := [("metric_map_definition", YDict [(s, YDict [(k, y)])])] in
    let o2 := gen_inits [m; m] gen0 in
    g_ready o2 = true /\ g_decls o2 = [(f, 0%nat); (f, 1%nat)] /\ ~ Live (g_def o2) 0
    /\ exists w h, h = [(ODeclare string 0%nat f KDouble 0%nat, Done); (ODeclare string 0%nat f KDouble 1%nat, Done); (OAttach string 0%nat, Done);
                        (OUpdate string x q, Done); (ORealize string, Done)]
       /\ ParamModel.run string wf fvars fval fl junk (world0 string) h w /\ w_mem string w 0%nat = fval f (fun _ => q).
  Proof.
    intros wf fvars fval fl junk s k f x q y RO WF FV T RE m o2.
    assert (FO : is_formula ("$f{" ++ f ++ "}") = true) by (apply is_formula_iff; eauto).
    assert (CL : closed ("$f{" ++ (f ++ "}")) = true) by (apply closed_iff; eauto).
    assert (GO : o2 = mkGen "raw" "" ".*" ".*" false [(s, DSec [(k, DCell 1)])] 2 [(f, 0%nat); (f, 1%nat)] ".*" ".*" true).
    { assert (G1 : forall de ne dc cr lr re, gen_init m (mkGen "raw" "" ".*" ".*" false de ne dc cr lr re) =
        (mkGen "raw" "" ".*" ".*" false (smap_set de s (DSec [(k, DCell ne)])) (S ne) (dc ++ [(f, ne)]) ".*" ".*" true, true)).
      { intros de ne dc cr lr re. unfold GenInitModel.gen_init, gen_load, lseq, lopt, def_load, lassert, m. cbn [yfind String.eqb Ascii.eqb Bool.eqb].
        cbn [g_target g_inifile g_class g_label g_throw g_def g_next g_decls g_class_re g_label_re g_ready def_loop sec_loop].
        rewrite T, FO, CL, body_formula. cbn [g_target g_inifile g_class g_label g_throw g_def g_next g_decls g_class_re g_label_re g_ready smap_set]. rewrite RE. reflexivity. }
      unfold o2. cbn [GenInitModel.gen_inits]. unfold gen0. rewrite G1. cbn [fst smap_set app]. rewrite G1. cbn [fst smap_set app]. rewrite scompare_refl. reflexivity. }
    rewrite GO. cbn [g_ready g_decls g_def]. split; [reflexivity|]. split; [reflexivity|]. split.
    { intros (a & es & b & [X|[]] & X2). injection X as _ <-. destruct X2 as [X2|[]]. discriminate X2. }
    assert (DE : forall w t, declare string wf fvars fval fl w 0 f KDouble t =
      (set_obj string w 0 (let b := grow string (w_objs string w 0) in mkObj string (o_params string b ++ [mkInfo string f KDouble t NotYet false false]) (o_cap string b) (o_gen string b)), Done)).
    { intros w t. unfold declare, compiles. rewrite WF, FV. reflexivity. }
    set (w1 := fst (declare string wf fvars fval fl (world0 string) 0 f KDouble 0)).
    set (w2 := fst (declare string wf fvars fval fl w1 0 f KDouble 1)).
    set (w4 := update string (attach string w2 0) x q).
    assert (VF : vfind [(x, q)] x = Some q) by (cbn [vfind]; rewrite String.eqb_refl; reflexivity).
    assert (CO : compiles string wf fvars f [(x, q)] = true) by (unfold compiles; rewrite WF, FV; cbn [forallb]; rewrite VF; reflexivity).
    assert (VA : fval f (env [(x, q)]) = fval f (fun _ => q)).
    { apply RO. intros z Z. rewrite FV in Z. destruct Z as [<-|[]]. unfold env. rewrite VF. reflexivity. }
    assert (W2 : w2 = set_obj string (set_obj string (world0 string) 0 (mkObj string [mkInfo string f KDouble 0 NotYet false false] 1 1)) 0
      (mkObj string [mkInfo string f KDouble 0 NotYet false false; mkInfo string f KDouble 1 NotYet false false] 2 2)).
    { unfold w2. rewrite DE. unfold w1. rewrite DE. reflexivity. }
    assert (RZ : exists w, realize string wf fvars fval fl junk w4 [mkPtr 0 2 0; mkPtr 0 2 1] = (w, Done) /\ w_mem string w 0%nat = fval f (fun _ => q)).
    { eexists. unfold w4. rewrite W2. unfold realize.
      assert (CC : compile_all string wf fvars (update string (attach string (set_obj string (set_obj string (world0 string) 0 (mkObj string [mkInfo string f KDouble 0 NotYet false false] 1 1)) 0
        (mkObj string [mkInfo string f KDouble 0 NotYet false false; mkInfo string f KDouble 1 NotYet false false] 2 2)) 0) x q) [mkPtr 0 2 0; mkPtr 0 2 1] =
        (set_param string (set_param string (update string (attach string (set_obj string (set_obj string (world0 string) 0 (mkObj string [mkInfo string f KDouble 0 NotYet false false] 1 1)) 0
        (mkObj string [mkInfo string f KDouble 0 NotYet false false; mkInfo string f KDouble 1 NotYet false false] 2 2)) 0) x q) (mkPtr 0 2 0) (mkInfo string f KDouble 0 Compiled false false)) (mkPtr 0 2 1) (mkInfo string f KDouble 1 Compiled false false), Done)).
      { cbn -[compiles]. rewrite CO. reflexivity. }
      rewrite CC. split; [reflexivity|]. cbn. exact VA. }
    destruct RZ as (w & RZ & MV). exists w. eexists. split; [reflexivity|]. split; [|exact MV].
    change [(ODeclare string 0%nat f KDouble 0%nat, Done); (ODeclare string 0%nat f KDouble 1%nat, Done); (OAttach string 0%nat, Done); (OUpdate string x q, Done); (ORealize string, Done)]
      with ((((([] ++ [(ODeclare string 0%nat f KDouble 0%nat, Done)]) ++ [(ODeclare string 0%nat f KDouble 1%nat, Done)]) ++ [(OAttach string 0%nat, Done)]) ++ [(OUpdate string x q, Done)]) ++ [(ORealize string, Done)]).
    assert (FA : forall l : list (Op string), Forall (fun e => snd e <> Undef) (map (fun o => (o, Done)) l)) by (intros l; rewrite Forall_forall; intros e X; apply in_map_iff in X; destruct X as (z & <- & _); discriminate).
    apply run_snoc with (w1 := w4); [|apply (FA [ODeclare string 0%nat f KDouble 0%nat; ODeclare string 0%nat f KDouble 1%nat; OAttach string 0%nat; OUpdate string x q])|].
    - apply run_snoc with (w1 := attach string w2 0); [|apply (FA [ODeclare string 0%nat f KDouble 0%nat; ODeclare string 0%nat f KDouble 1%nat; OAttach string 0%nat])|apply st_update].
      apply run_snoc with (w1 := w2); [|apply (FA [ODeclare string 0%nat f KDouble 0%nat; ODeclare string 0%nat f KDouble 1%nat])|apply st_attach].
      apply run_snoc with (w1 := w1); [|apply (FA [ODeclare string 0%nat f KDouble 0%nat])|apply st_declare; unfold w2; rewrite DE; reflexivity].
      apply run_snoc with (w1 := world0 string); [apply run_nil|constructor|apply st_declare; unfold w1; rewrite DE; reflexivity].
    - eapply st_realize; [| |exact RZ].
      + constructor; [intros [X|[]]; discriminate X|]. constructor; [intros []|constructor].
      + intros p. unfold w4. rewrite W2. cbn. tauto.
  Qed.
  (** C288, where it holds: after one initialize() of a fresh generator every formula is declared for a number of the definition. *)
  Theorem C288_first_initialize_where : forall m d o' f c,
    yfind m "metric_map_definition" = Some (YDict d) -> KeysOnce d -> gen_init m gen0 = (o', true) ->
    In (f, c) (g_decls o') -> Live (g_def o') c.
  Proof. intros m d o' f c Y KO E I. destruct (fresh_def m d o' Y KO E) as (_ & _ & _ & _ & L). exact (L f c I). Qed.

  (** C289: process() refuses to work until an initialize() has succeeded, whatever calls failed before. *)
  Theorem C289_ready_iff_initialised : forall ms,
    (gen_use (gen_inits ms gen0) <> NotReady) <-> exists a m b, ms = a ++ m :: b /\ snd (gen_init m (gen_inits a gen0)) = true.
  Proof.
    intros ms. assert (RU : forall o, gen_use o <> NotReady <-> g_ready o = true).
    { intros o. unfold gen_use. destruct (g_ready o); cbn [negb]; [|split; [intros X; contradiction|discriminate]].
      split; [reflexivity|intros _]. destruct (_ && _); [discriminate|]. destruct (negb _); discriminate. }
    rewrite RU. clear RU.
    assert (STEP : forall m o, g_ready (fst (gen_init m o)) = (g_ready o || snd (gen_init m o))%bool).
    { intros m o. destruct (gen_init m o) as [o' ok] eqn:E. cbn [fst snd]. destruct ok; [apply init_inv in E; destruct E as [-> _]; rewrite orb_true_r; reflexivity|].
      rewrite orb_false_r. revert E. unfold GenInitModel.gen_init, gen_load, lseq, lopt, def_load, lassert. destruct o as [ta ini cl la th de ne dc cr lr re].
      cbn [g_target g_inifile g_class g_label g_throw g_def g_next g_decls g_class_re g_label_re g_ready].
      destruct (yfind m "target_layer") as [v1|]; [destruct (as_str v1)|]; try (intros E; injection E as <-; reflexivity);
      (destruct (yfind m "metric_map_definition_ini_file") as [v2|]; [destruct (as_str v2)|]; try (intros E; injection E as <-; reflexivity));
      (destruct (yfind m "process_class_names_regex") as [v3|]; [destruct (as_str v3)|]; try (intros E; injection E as <-; reflexivity));
      (destruct (yfind m "process_sensor_labels_regex") as [v4|]; [destruct (as_str v4)|]; try (intros E; injection E as <-; reflexivity));
      (destruct (yfind m "throw_on_unhandled_observation_class") as [v5|]; [destruct (as_bool v5)|]; try (intros E; injection E as <-; reflexivity));
      cbn [g_target g_inifile g_class g_label g_throw g_def g_next g_decls g_class_re g_label_re g_ready];
      (destruct (yfind m "metric_map_definition") as [[| | | | |d]|]; [| | | | | destruct (def_loop as_str d de ne dc) as [[[d' n'] ds'] [|]]|]);
      try (intros E; injection E as <-; reflexivity);
      cbn [g_target g_inifile g_class g_label g_throw g_def g_next g_decls g_class_re g_label_re g_ready];
      match goal with |- context [regex_ok ?z] => destruct (regex_ok z) end; try (intros E; injection E as <-; reflexivity);
      cbn [g_target g_inifile g_class g_label g_throw g_def g_next g_decls g_class_re g_label_re g_ready];
      match goal with |- context [regex_ok ?z] => destruct (regex_ok z) end; intros E; try discriminate E; injection E as <-; reflexivity. }
    assert (GEN : forall ms o, g_ready (gen_inits ms o) = true <-> g_ready o = true \/ exists a m b, ms = a ++ m :: b /\ snd (gen_init m (gen_inits a o)) = true).
    { clear ms. induction ms as [|m ms IH]; intros o; cbn [GenInitModel.gen_inits].
      - split; [auto|]. intros [H|(a & m & b & E & _)]; [exact H|destruct a; discriminate E].
      - rewrite IH, STEP, orb_true_iff. split.
        + intros [[H|H]|(a & m' & b & -> & H)]; [auto|right; exists [], m, ms; auto|right; exists (m :: a), m', b; auto].
        + intros [H|(a & m' & b & E & H)]; [auto|]. destruct a as [|m0 a]; injection E as -> ->; [auto|]. right. exists a, m', b. auto. }
    rewrite GEN. split; [intros [X|X]; [discriminate X|exact X]|auto].
  Qed.
End GenP.

(** *** A concrete configuration: texts as they are; a number is printed by its numerator *)
Definition gi_s (y : yml) := match y with YT s => Some s | _ => None end.
Definition gi_b (y : yml) := match y with YB b => Some b | _ => None end.
Definition gi_p (q : Q) : string := if Qeq_bool q 5 then "5" else if Qeq_bool q 7 then "7" else "?".
Definition gi_d : list (string * yml) := [("class", YT "CVoxelMap"); ("plugin", YNull);
  ("creationOpts", YDict [("resolution", YT "$f{R}"); ("shape", YT "cube")]); ("insertOpts", YDict [("range", YT "$f{R+2}")])].
Definition gi_m : list (string * yml) := [("target_layer", YT "map"); ("metric_map_definition", YDict gi_d)].
Definition gi_o := fst (gen_init gi_b gi_s (fun _ => true) gi_m gen0).
Example ex_gen_init : gen_init gi_b gi_s (fun _ => true) gi_m gen0 = (gi_o, true) /\ g_decls gi_o = [("R", 0%nat); ("R+2", 1%nat)].
Proof. split; vm_compute; reflexivity. Qed.
Example ex_gen_keys : KeysOnce gi_d.
Proof.
  split.
  - repeat constructor; cbn; intuition discriminate.
  - intros k es [X|[X|[X|[X|[]]]]]; try discriminate X; injection X as _ <-; repeat constructor; cbn; intuition discriminate.
Qed.
Example ex_gen_ini : gen_ini gi_p (fun _ => true) (fun c => if Nat.eqb c 0 then 5 else 7)%Q gi_o =
  Ok [("map", "CVoxelMap_count", "1"); ("map_CVoxelMap_00_creationOpts", "resolution", "5"); ("map_CVoxelMap_00_creationOpts", "shape", "cube");
      ("map_CVoxelMap_00_insertOpts", "range", "7")].
Proof. vm_compute. reflexivity. Qed.
(** C284: a formula that is not closed, a scalar that is not allowed, a list: rejected; C286: no class: accepted *)
Example ex_gen_bad : map (fun d => snd (gen_init gi_b gi_s (fun _ => true) [("metric_map_definition", YDict d)] gen0))
  [[("o", YDict [("r", YT "$f{R")])]; [("size", YT "3")]; [("o", YSeq [])]; [("o", YDict [("r", YT "3")])]] = [false; false; false; true].
Proof. vm_compute. reflexivity. Qed.
Example ex_gen_no_class : let o := fst (gen_init gi_b gi_s (fun _ => true) [("metric_map_definition", YDict [("o", YDict [("r", YT "3")])])] gen0) in
  gen_use o = FromDefinition /\ gen_ini gi_p (fun _ => true) (fun _ => 0%Q) o = Throw.
Proof. vm_compute. auto. Qed.
(** C287: two configurations, one after the other *)
Example ex_gen_twice : map fst (g_def (gen_inits gi_b gi_s (fun _ => true) [gi_m; [("metric_map_definition", YDict [("class", YT "COther")])]] gen0)) = ["class"; "creationOpts"; "insertOpts"].
Proof. vm_compute. reflexivity. Qed.
(** C289: rejected, then accepted, then rejected *)
Example ex_gen_ready : map (fun ms => gen_use (gen_inits gi_b gi_s (fun _ => true) ms gen0))
  [[]; [[("metric_map_definition", YT "x")]]; [[("metric_map_definition", YT "x")]; gi_m]; [gi_m; [("metric_map_definition", YT "x")]]] = [NotReady; NotReady; FromDefinition; FromDefinition].
Proof. vm_compute. reflexivity. Qed.
