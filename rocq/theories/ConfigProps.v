(** C194-C204: pipelines from YAML. *)
From Coq Require Import String Lqa.
From Verif Require Import Base FilterModel ConfigModel ConfigSpec.
Open Scope string_scope.
Open Scope list_scope.

(** ** C204: plugins *)
Lemma find_first {A} (f : A -> bool) l d : find f l = Some d ->
  exists b a, l = b ++ d :: a /\ f d = true /\ forall x, In x b -> f x = false.
Proof.
  induction l as [|x t IH]; cbn [find]; [discriminate|]. destruct (f x) eqn:E.
  - intro H; injection H as <-. exists [], t. split; [reflexivity|]. split; [exact E|intros ? []].
  - intro H. destruct (IH H) as (b & a & -> & F & N). exists (x :: b), a. split; [reflexivity|]. split; [exact F|].
    intros y [<-|I]; [exact E|apply N, I].
Qed.
Lemma filter_split {A} (g : A -> bool) l : forall b d a, filter g l = b ++ d :: a ->
  exists b' a', l = b' ++ d :: a' /\ g d = true /\ forall x, In x b' -> g x = true -> In x b.
Proof.
  induction l as [|x t IH]; cbn [filter]; intros b d a E.
  - destruct b; discriminate.
  - destruct (g x) eqn:G.
    + destruct b as [|y b]; cbn in E; injection E as -> E.
      * exists [], t. split; [reflexivity|]. split; [exact G|intros ? []].
      * destruct (IH b d a E) as (b' & a' & -> & Gd & H). exists (y :: b'), a'. split; [reflexivity|]. split; [exact Gd|].
        intros z [<-|I] Gz; [left; reflexivity|right; apply H; assumption].
    + destruct (IH b d a E) as (b' & a' & -> & Gd & H). exists (x :: b'), a'. split; [reflexivity|]. split; [exact Gd|].
      intros z [<-|I] Gz; [congruence|apply H; assumption].
Qed.

Lemma plugin_path_iff y s p : plugin_path y s = Some p <-> Resolves y s p.
Proof.
  unfold plugin_path, Resolves. destruct (sy_abs y s) eqn:A.
  - destruct (sy_file y s) eqn:F.
    + split; [intro H; injection H as <-; left; auto|intros [(_ & _ & ->)|(H & _)]; [reflexivity|discriminate]].
    + split; [discriminate|intros [(_ & H & _)|(H & _)]; discriminate].
  - destruct (find (fun d => sy_file y (sy_join y d s)) (search_dirs y)) as [d|] eqn:E.
    + apply find_first in E as (b & a & E & F & N). unfold search_dirs in E.
      destruct (filter_split _ _ _ _ _ E) as (b' & a' & E' & G & H).
      split.
      * intro K; injection K as <-. right. split; [reflexivity|]. exists b', d, a'.
        repeat (split; [assumption || reflexivity|]). intros d' I D. apply N, H; assumption.
      * intros [(K & _)|(_ & b2 & d2 & a2 & E2 & D2 & F2 & -> & N2)]; [discriminate|]. f_equal.
        assert (d = d2); [|subst; reflexivity].
        rewrite E2 in E'. 
        assert (forall b1 x1 a1 b3 x3 a3 (g : string -> bool), b1 ++ x1 :: a1 = b3 ++ x3 :: a3 -> g x1 = true -> g x3 = true ->
          (forall z, In z b1 -> g z = false) -> (forall z, In z b3 -> g z = false) -> x1 = x3) as U.
        { clear. induction b1 as [|z b1 IH]; intros x1 a1 b3 x3 a3 g EQ G1 G3 N1 N3.
          - destruct b3 as [|u b3]; injection EQ as E1 E2; [exact E1|]. subst. specialize (N3 u (or_introl eq_refl)). congruence.
          - destruct b3 as [|u b3]; cbn in EQ; injection EQ as E1 E2.
            + subst. specialize (N1 x3 (or_introl eq_refl)). congruence.
            + apply (IH x1 a1 b3 x3 a3 g E2 G1 G3); intros; [apply N1|apply N3]; right; assumption. }
        symmetry in E'. apply (U b' d a' b2 d2 a2 (fun d => sy_dir y d && sy_file y (sy_join y d s))%bool).
        -- exact E'.
        -- rewrite G, F. reflexivity.
        -- rewrite D2, F2. reflexivity.
        -- intros z I. destruct (sy_dir y z) eqn:D; [|reflexivity]. cbn. apply N, H; assumption.
        -- intros z I. destruct (sy_dir y z) eqn:D; [|reflexivity]. cbn. apply N2; assumption.
    + split; [discriminate|]. intros [(K & _)|(_ & b2 & d2 & a2 & E2 & D2 & F2 & -> & N2)]; [discriminate|]. exfalso.
      pose proof (find_none _ _ E d2) as K. cbn in K. rewrite F2 in K. apply (Bool.diff_true_false), K.
      unfold search_dirs. apply filter_In. split; [rewrite E2; apply in_or_app; right; left; reflexivity|exact D2].
Qed.

(** A plugin is the named file, or the first one of that name in the search path; it is an error
    if there is none or if it cannot be opened. *)
Theorem C204_plugin_resolution : forall y w s w',
  load_plugin y w s = Some w' <-> exists p, Resolves y s p /\ sy_dlopen y p = true /\ w' = p :: w.
Proof.
  intros y w s w'. unfold load_plugin. split.
  - destruct (plugin_path y s) as [p|] eqn:E; [|discriminate]. destruct (sy_dlopen y p) eqn:D; [|discriminate].
    intro H; injection H as <-. exists p. split; [apply plugin_path_iff, E|auto].
  - intros (p & R & D & ->). apply plugin_path_iff in R. rewrite R, D. reflexivity.
Qed.

Section Proofs.
  Context {Cls Obj : Type}.
  Variable sys : Sys.
  Variables (as_bool : yml -> option bool) (as_str : yml -> option string) (as_num : yml -> option Q).
  Variable factory : list string -> string -> option Cls.
  Variable init : Cls -> yml -> option Obj.
  Notation entry := (entry sys as_str factory init).
  Notation init_loop := (init_loop sys as_bool as_str factory init).
  Notation init_list := (init_list sys as_bool as_str factory init).
  Notation PluginLoaded := (PluginLoaded sys as_str).
  Notation Built := (Built as_str factory init).
  Notation On := (On as_bool).
  Notation Off := (Off as_bool).

  Lemma pbnd_some {A B} (x : P A) (f : A -> P B) w w' b :
    pbnd x f w = (w', Some b) <-> exists a w1, x w = (w1, Some a) /\ f a w1 = (w', Some b).
  Proof.
    unfold pbnd. destruct (x w) as [w1 [a|]] eqn:E.
    - split; [intro H; exists a, w1; auto|]. intros (a' & w1' & K & H). injection K as <- <-. exact H.
    - split; [discriminate|]. intros (a' & w1' & K & H). discriminate.
  Qed.
  Lemma plift_some {A} (o : option A) w w' a : plift o w = (w', Some a) <-> w' = w /\ o = Some a.
  Proof. unfold plift. split; [intro H; injection H as <- ->; auto|intros [-> ->]; reflexivity]. Qed.

  Lemma opt_plugin_some m w w' : opt_plugin sys as_str m w = (w', Some tt) <-> PluginLoaded w m w'.
  Proof.
    unfold opt_plugin, ConfigSpec.PluginLoaded. destruct (yfind m "plugin") as [v|].
    - rewrite pbnd_some. split.
      + intros (s & w1 & A & B). apply plift_some in A as [-> A].
        destruct (load_plugin sys w s) as [w2|] eqn:L; [|discriminate]. injection B as <-.
        apply C204_plugin_resolution in L as (p & R & D & ->). right. exists v, s, p. auto.
      + intros [(K & _)|(v' & s & p & K & A & R & D & ->)]; [discriminate|]. injection K as <-.
        exists s, w. split; [apply plift_some; auto|].
        rewrite (proj2 (C204_plugin_resolution sys w s (p :: w))); [reflexivity|eauto].
    - unfold pret. split; [intro H; injection H as <-; left; auto|intros [(_ & ->)|(v & s & p & K & _)]; [reflexivity|discriminate]].
  Qed.

  Lemma make_configure isK key m w w' o :
    pbnd (make as_str factory isK key m) (fun c => configure init c m) w = (w', Some o) <-> w' = w /\ Built isK key w m o.
  Proof.
    rewrite pbnd_some. unfold make, configure. split.
    - intros (c & w1 & A & B). apply pbnd_some in A as (v & w2 & A1 & A). apply plift_some in A1 as [-> A1].
      apply pbnd_some in A as (s & w3 & A2 & A). apply plift_some in A2 as [-> A2].
      destruct (factory w s) as [c'|] eqn:F; [|discriminate]. destruct (isK c') eqn:K; [|discriminate]. injection A as <- <-.
      apply pbnd_some in B as (p & w4 & B1 & B). apply plift_some in B1 as [-> B1]. apply plift_some in B as [-> B].
      split; [reflexivity|]. exists v, s, c', p. auto 10.
    - intros [-> (v & s & c & p & A1 & A2 & F & K & B1 & B)]. exists c, w. split.
      + apply pbnd_some. exists v, w. split; [apply plift_some; auto|]. apply pbnd_some. exists s, w. split; [apply plift_some; auto|].
        rewrite F, K. reflexivity.
      + apply pbnd_some. exists p, w. split; apply plift_some; auto.
  Qed.

  Lemma entry_some {I} isK finish m w w' (x : I) :
    entry isK finish m w = (w', Some x) <-> PluginLoaded w m w' /\ exists o, Built isK "class" w' m o /\ finish m o = Some x.
  Proof.
    unfold ConfigModel.entry. rewrite pbnd_some. split.
    - intros ([] & w1 & A & B). apply opt_plugin_some in A.
      apply pbnd_some in B as (c & w2 & B1 & B). apply pbnd_some in B as (o & w3 & B2 & B).
      apply plift_some in B as [-> B].
      assert (pbnd (make as_str factory isK "class" m) (fun c => configure init c m) w1 = (w3, Some o)) as K by (apply pbnd_some; eauto).
      apply make_configure in K as [-> K]. split; [exact A|eauto].
    - intros (A & o & B & F). exists tt, w'. split; [apply opt_plugin_some, A|].
      pose proof (proj2 (make_configure isK "class" m w' w' o) (conj eq_refl B)) as K. apply pbnd_some in K as (c & w1 & K1 & K2).
      apply pbnd_some. exists c, w1. split; [exact K1|]. apply pbnd_some. exists o, w'. split; [exact K2|]. apply plift_some; auto.
  Qed.

  Lemma disabled_spec m w w' d : disabled as_bool m w = (w', d) -> w' = w
    /\ (d = Some true <-> Off m) /\ (d = Some false <-> On m).
  Proof.
    unfold disabled, ConfigSpec.Off, ConfigSpec.On. destruct (yfind m "enabled") as [v|].
    - unfold pbnd, plift, pret. destruct (as_bool v) as [b|] eqn:B; intro H; injection H as <- <-; (split; [reflexivity|]).
      + split; split.
        * intro H; injection H as H. exists v. split; [reflexivity|]. destruct b; [discriminate|exact B].
        * intros (v' & K & A). injection K as <-. rewrite A in B. injection B as <-. reflexivity.
        * intro H; injection H as H. right. exists v. split; [reflexivity|]. destruct b; [exact B|discriminate].
        * intros [K|(v' & K & A)]; [discriminate|]. injection K as <-. rewrite A in B. injection B as <-. reflexivity.
      + split; split; try discriminate; [intros (v' & K & A)|intros [K|(v' & K & A)]; [discriminate|]]; injection K as <-; congruence.
    - intro H; injection H as <- <-. split; [reflexivity|]. split; split; try discriminate.
      + intros (v & K & _). discriminate.
      + left; reflexivity.
      + reflexivity.
  Qed.

  Section Loop.
    Context {I : Type}.
    Variable isK : Cls -> bool.
    Variable finish : list (string * yml) -> Obj -> option I.
    Variable Item : list (string * yml) -> Obj -> I -> Prop.
    Hypothesis FI : forall m o x, finish m o = Some x <-> Item m o x.
    Notation Conf := (Configures sys as_bool as_str factory init isK Item).

    Lemma init_loop_ok es : forall acc w w' l,
      init_loop isK finish es acc w = (w', l, true) <-> exists l', l = acc ++ l' /\ Conf w es l' w'.
    Proof.
      induction es as [|e t IH]; intros acc w w' l; cbn [ConfigModel.init_loop].
      - split.
        + intro H; injection H as <- <-. exists []. split; [symmetry; apply app_nil_r|constructor].
        + intros (l' & -> & C). inversion C; subst. rewrite app_nil_r. reflexivity.
      - destruct e as [| | | | |m];
          try (split; [discriminate|intros (? & _ & C); inversion C]).
        destruct (disabled as_bool m w) as [w1 d] eqn:D. apply disabled_spec in D as (-> & D1 & D2).
        destruct d as [[|]|].
        + rewrite IH. split; intros (l' & E & C); exists l'; (split; [exact E|]).
          * apply Conf_off; [apply D1; reflexivity|exact C].
          * inversion C as [| ? ? ? ? ? _ C'|? ? ? ? ? ? ? ? On _ _ _ _]; subst; [exact C'|].
            apply D2 in On. discriminate.
        + destruct (entry isK finish m w) as [w2 [x|]] eqn:E.
          * apply entry_some in E as (A & o & B & F). rewrite IH. split.
            -- intros (l' & -> & C). exists (x :: l'). split; [rewrite <- app_assoc; reflexivity|].
               apply Conf_on with o w2; [apply D2; reflexivity|exact A|exact B|apply FI, F|exact C].
            -- intros (l' & -> & C). inversion C as [| ? ? ? ? ? Of C'|? ? ? o' x' l2 w3 ? On' A' B' F' C']; subst.
               { apply D1 in Of. discriminate. }
               assert (entry isK finish m w = (w3, Some x')) as K1 by (apply entry_some; split; [exact A'|]; exists o'; split; [exact B'|apply FI, F']).
               assert (entry isK finish m w = (w2, Some x)) as K2 by (apply entry_some; split; [exact A|]; exists o; auto).
               rewrite K1 in K2. injection K2 as -> ->. exists l2. split; [rewrite <- app_assoc; reflexivity|exact C'].
          * split; [discriminate|]. intros (l' & _ & C). inversion C as [| ? ? ? ? ? Of C'|? ? ? o' x' l2 w3 ? On' A' B' F' C']; subst.
            { apply D1 in Of. discriminate. }
            assert (entry isK finish m w = (w3, Some x')) as K1 by (apply entry_some; split; [exact A'|]; exists o'; split; [exact B'|apply FI, F']).
            congruence.
        + split; [discriminate|]. intros (l' & _ & C). inversion C as [| ? ? ? ? ? Of C'|? ? ? o' x' l2 w3 ? On' A' B' F' C']; subst.
          * apply D1 in Of. discriminate.
          * apply D2 in On'. discriminate.
    Qed.

    (** What is left in the list when an entry is rejected. *)
    Lemma init_loop_failed es : forall acc w w' l,
      init_loop isK finish es acc w = (w', l, false) ->
      exists before e after l' w1, es = before ++ e :: after /\ l = acc ++ l' /\ Conf w before l' w1
        /\ forall x w2, ~ Conf w1 [e] x w2.
    Proof.
      induction es as [|e t IH]; intros acc w w' l; cbn [ConfigModel.init_loop]; [discriminate|].
      intro H.
      assert ((forall x w2, ~ Conf w [e] x w2) -> l = acc ->
        exists before e0 after l' w1, e :: t = before ++ e0 :: after /\ l = acc ++ l' /\ Conf w before l' w1 /\ forall x w2, ~ Conf w1 [e0] x w2) as Stop.
      { intros N ->. exists [], e, t, [], w. split; [reflexivity|]. split; [symmetry; apply app_nil_r|]. split; [constructor|exact N]. }
      destruct e as [| | | | |m]; try (injection H as <- <-; apply Stop; [intros x w2 C; inversion C|reflexivity]).
      destruct (disabled as_bool m w) as [w1 d] eqn:D. apply disabled_spec in D as (-> & D1 & D2).
      destruct d as [[|]|].
      - destruct (IH _ _ _ _ H) as (b & e0 & a & l' & w1 & -> & -> & C & N).
        exists (YDict m :: b), e0, a, l', w1. split; [reflexivity|]. split; [reflexivity|]. split; [|exact N].
        apply Conf_off; [apply D1; reflexivity|exact C].
      - destruct (entry isK finish m w) as [w2 [x|]] eqn:E.
        + apply entry_some in E as (A & o & B & F).
          destruct (IH _ _ _ _ H) as (b & e0 & a & l' & w1 & -> & -> & C & N).
          exists (YDict m :: b), e0, a, (x :: l'), w1. split; [reflexivity|]. split; [rewrite <- app_assoc; reflexivity|]. split; [|exact N].
          apply Conf_on with o w2; [apply D2; reflexivity|exact A|exact B|apply FI, F|exact C].
        + injection H as <- <-. apply Stop; [|reflexivity]. intros y w3 C.
          inversion C as [| ? ? ? ? ? Of C'|? ? ? o' x' l2 w4 ? On' A' B' F' C']; subst.
          * apply D1 in Of. discriminate.
          * assert (entry isK finish m w = (w4, Some x')) as K1 by (apply entry_some; split; [exact A'|]; exists o'; split; [exact B'|apply FI, F']).
            congruence.
      - injection H as <- <-. apply Stop; [|reflexivity]. intros y w3 C.
        inversion C as [| ? ? ? ? ? Of C'|? ? ? o' x' l2 w4 ? On' A' B' F' C']; subst.
        + apply D1 in Of. discriminate.
        + apply D2 in On'. discriminate.
    Qed.
  End Loop.

  Lemma plain_item m (o x : Obj) : plain m o = Some x <-> JustObject m o x.
  Proof. unfold plain, JustObject. split; [intro H; injection H as <-; reflexivity|intros ->; reflexivity]. Qed.
  Lemma weighted_item m (o : Obj) x : weighted as_num m o = Some x <-> WithWeight as_num m o x.
  Proof.
    unfold weighted, WithWeight, Weight. destruct x as [o' q]. cbn [fst snd]. destruct (yfind m "weight") as [v|].
    - destruct (as_num v) as [q'|] eqn:E.
      + split; [intro H; injection H as <- <-; split; [reflexivity|right; eauto]|].
        intros [-> [(K & _)|(v' & K & A)]]; [discriminate|]. injection K as <-. congruence.
      + split; [discriminate|]. intros [-> [(K & _)|(v' & K & A)]]; [discriminate|]. injection K as <-. congruence.
    - split; [intro H; injection H as <- <-; split; [reflexivity|left; auto]|].
      intros [-> [(_ & ->)|(v' & K & A)]]; [reflexivity|discriminate].
  Qed.

  Variables (isSolver isMatcher isQuality isIcp isFilter isGenerator : Cls -> bool).
  Notation init_solvers := (initialize_solvers sys as_bool as_str factory init isSolver).
  Notation init_matchers := (initialize_matchers sys as_bool as_str factory init isMatcher).
  Notation init_quality := (initialize_quality_evaluators sys as_bool as_str as_num factory init isQuality).
  Notation Configures isK Item := (ConfigSpec.Configures sys as_bool as_str factory init isK Item).

  (** ** C194: an accepted configuration replaces the list by one object per enabled entry. *)
  Theorem C194_matchers_as_configured : forall params previous w w' l,
    init_matchers params previous w = (w', l, true)
    <-> exists es, params = YSeq es /\ Configures isMatcher JustObject w es l w'.
  Proof.
    intros. unfold initialize_matchers, ConfigModel.init_list. destruct params;
      try (split; [discriminate|intros (es & K & _); discriminate]).
    rewrite (init_loop_ok isMatcher plain JustObject plain_item). cbn [app]. split.
    - intros (l' & -> & C). eauto.
    - intros (es & K & C). injection K as <-. eauto.
  Qed.
  Theorem C194_solvers_as_configured : forall params previous w w' l,
    init_solvers params previous w = (w', l, true)
    <-> exists es, params = YSeq es /\ Configures isSolver JustObject w es l w'.
  Proof.
    intros. unfold initialize_solvers, ConfigModel.init_list. destruct params;
      try (split; [discriminate|intros (es & K & _); discriminate]).
    rewrite (init_loop_ok isSolver plain JustObject plain_item). cbn [app]. split.
    - intros (l' & -> & C). eauto.
    - intros (es & K & C). injection K as <-. eauto.
  Qed.
  Theorem C194_quality_as_configured : forall params previous w w' l,
    init_quality params previous w = (w', l, true)
    <-> exists es, params = YSeq es /\ Configures isQuality (WithWeight as_num) w es l w'.
  Proof.
    intros. unfold initialize_quality_evaluators, ConfigModel.init_list. destruct params;
      try (split; [discriminate|intros (es & K & _); discriminate]).
    rewrite (init_loop_ok isQuality (weighted as_num) (WithWeight as_num) weighted_item). cbn [app]. split.
    - intros (l' & -> & C). eauto.
    - intros (es & K & C). injection K as <-. eauto.
  Qed.

  (** ** C195: a rejected configuration and the previous content of the list *)
  Theorem C195_rejected_keeps_list_refuted : forall o : Obj,
    ~ (forall params previous w w' l, init_matchers params previous w = (w', l, false) -> l = previous).
  Proof. intros o H. specialize (H YNull [o] [] [] [] eq_refl). discriminate. Qed.

  (** What is left: the objects of the entries before the one that is rejected. *)
  Theorem C195_rejected_where : forall params previous w w' l,
    init_matchers params previous w = (w', l, false) ->
    (l = [] /\ forall es, params <> YSeq es)
    \/ exists before e after w1, params = YSeq (before ++ e :: after)
         /\ Configures isMatcher JustObject w before l w1 /\ forall x w2, ~ Configures isMatcher JustObject w1 [e] x w2.
  Proof.
    intros params previous w w' l H. unfold initialize_matchers, ConfigModel.init_list in H.
    destruct params as [| | | |es|]; try (left; injection H as _ <-; split; [reflexivity|discriminate]).
    right. apply (init_loop_failed isMatcher plain JustObject plain_item) in H as (b & e & a & l' & w1 & -> & -> & C & N).
    exists b, e, a, w1. auto.
  Qed.
  Theorem C195_rejected_quality_where : forall params previous w w' l,
    init_quality params previous w = (w', l, false) ->
    (l = [] /\ forall es, params <> YSeq es)
    \/ exists before e after w1, params = YSeq (before ++ e :: after)
         /\ Configures isQuality (WithWeight as_num) w before l w1 /\ forall x w2, ~ Configures isQuality (WithWeight as_num) w1 [e] x w2.
  Proof.
    intros params previous w w' l H. unfold initialize_quality_evaluators, ConfigModel.init_list in H.
    destruct params as [| | | |es|]; try (left; injection H as _ <-; split; [reflexivity|discriminate]).
    right. apply (init_loop_failed isQuality (weighted as_num) (WithWeight as_num) weighted_item) in H as (b & e & a & l' & w1 & -> & -> & C & N).
    exists b, e, a, w1. auto.
  Qed.

  (** ** C196: a disabled entry is as if it was not there *)
  Lemma loop_skip {I} isK (finish : list (string * yml) -> Obj -> option I) es1 m es2 : Off m -> forall acc w,
    init_loop isK finish (es1 ++ YDict m :: es2) acc w = init_loop isK finish (es1 ++ es2) acc w.
  Proof.
    intro O. induction es1 as [|e t IH]; intros acc w; cbn [app ConfigModel.init_loop].
    - destruct (disabled as_bool m w) as [w1 d] eqn:D. apply disabled_spec in D as (-> & D1 & D2). apply D1 in O. rewrite O. reflexivity.
    - destruct e; try reflexivity. destruct (disabled as_bool m0 w) as [w1 [[|]|]]; [apply IH| |reflexivity].
      destruct (entry isK finish m0 w1) as [w2 [x|]]; [apply IH|reflexivity].
  Qed.
  Theorem C196_disabled_entries_have_no_effect : forall es1 m es2, Off m ->
    (forall prev w, init_matchers (YSeq (es1 ++ YDict m :: es2)) prev w = init_matchers (YSeq (es1 ++ es2)) prev w)
    /\ (forall prev w, init_solvers (YSeq (es1 ++ YDict m :: es2)) prev w = init_solvers (YSeq (es1 ++ es2)) prev w)
    /\ (forall prev w, init_quality (YSeq (es1 ++ YDict m :: es2)) prev w = init_quality (YSeq (es1 ++ es2)) prev w).
  Proof. intros es1 m es2 O. repeat split; intros; apply loop_skip, O. Qed.

  (** ** C197: icp_pipeline_from_yaml *)
  Variable env_debug : bool.
  Variable default_quality : list (Obj * Q).
  Variable default_params : IcpParams.
  Notation icp_pipeline := (icp_pipeline sys as_bool as_str as_num factory init isSolver isMatcher isQuality isIcp env_debug default_quality default_params).
  Notation Section_ isK Item := (ConfigSpec.Section_ sys as_bool as_str factory init isK Item).
  Notation params_load := (params_load as_bool as_str as_num env_debug).

  Lemma section_some {I} isK Item (f : yml -> list I -> list string -> list string * list I * bool) m k old w w' l :
    (forall params prev w w' l, f params prev w = (w', l, true) <-> exists es, params = YSeq es /\ Configures isK Item w es l w') ->
    opt_section m k f old w = (w', Some l) <-> Section_ isK Item m k old w l w'.
  Proof.
    intro H. unfold opt_section, ConfigSpec.Section_. destruct (yfind m k) as [v|].
    - destruct (f v old w) as [[w1 l1] ok] eqn:E. destruct ok.
      + apply H in E as (es & -> & C). split.
        * intro K; injection K as <- <-. right. eauto.
        * intros [(K & _)|(es' & K & C')]; [discriminate|]. injection K as <-.
          assert (f (YSeq es) old w = (w', l, true)) as X by (apply H; eauto).
          assert (f (YSeq es) old w = (w1, l1, true)) as Y by (apply H; eauto). congruence.
      + split; [discriminate|]. intros [(K & _)|(es' & K & C')]; [discriminate|]. injection K as ->.
        assert (f (YSeq es') old w = (w', l, true)) as X by (apply H; eauto). congruence.
    - split; [intro K; injection K as <- <-; left; auto|]. intros [(_ & -> & ->)|(es & K & _)]; [reflexivity|discriminate].
  Qed.

  (** The pipeline: an ICP object of the class named, with the solvers, matchers and quality
      evaluators configured; solvers and matchers are optional, "quality" is not, "params" only
      with "derived". *)
  Theorem C197_pipeline_as_configured : forall y w w' icp ps,
    icp_pipeline y w = (w', Some (icp, ps))
    <-> exists m cn s w1 w2 w3, y = YDict m
        /\ yfind m "class_name" = Some cn /\ as_str cn = Some s
        /\ PluginLoaded w m w1
        /\ factory w1 s = Some (ic_cls icp) /\ isIcp (ic_cls icp) = true
        /\ Section_ isSolver JustObject m "solvers" [] w1 (ic_solvers icp) w2
        /\ Section_ isMatcher JustObject m "matchers" [] w2 (ic_matchers icp) w3
        /\ (exists es, yfind m "quality" = Some (YSeq es) /\ Configures isQuality (WithWeight as_num) w3 es (ic_quality icp) w')
        /\ ic_derived icp = yfind m "derived"
        /\ match yfind m "derived" with
           | Some _ => ps = default_params
           | None => exists p, yfind m "params" = Some p /\ params_load p default_params = Some ps
           end.
  Proof.
    intros y w w' icp ps. unfold ConfigModel.icp_pipeline. split.
    - destruct y as [| | | | |m]; try discriminate. intro H.
      apply pbnd_some in H as (cn & wa & A & H). apply plift_some in A as [-> A].
      apply pbnd_some in H as (s & wa & B & H). apply plift_some in B as [-> B].
      apply pbnd_some in H as ([] & w1 & C & H). apply opt_plugin_some in C.
      apply pbnd_some in H as (c & wa & D & H).
      destruct (factory w1 s) as [c'|] eqn:F; [|discriminate]. destruct (isIcp c') eqn:K; [|discriminate]. injection D as <- <-.
      apply pbnd_some in H as (so & w2 & E1 & H). apply (section_some isSolver JustObject) in E1; [|apply C194_solvers_as_configured].
      apply pbnd_some in H as (ma & w3 & E2 & H). apply (section_some isMatcher JustObject) in E2; [|apply C194_matchers_as_configured].
      apply pbnd_some in H as (qv & wa & E3 & H). apply plift_some in E3 as [-> E3].
      apply pbnd_some in H as (qu & w4 & E4 & H). apply (section_some isQuality (WithWeight as_num)) in E4; [|apply C194_quality_as_configured].
      destruct E4 as [(X & _)|(es & X & E4)]; [congruence|].
      exists m, cn, s, w1, w2, w3.
      destruct (yfind m "derived") as [d|].
      + injection H as <- <- <-. cbn. repeat (split; [first [assumption|reflexivity|eauto]|]). reflexivity.
      + apply pbnd_some in H as (p & wa & G1 & H). apply plift_some in G1 as [-> G1].
        apply pbnd_some in H as (ps' & wa & G2 & H). apply plift_some in G2 as [-> G2].
        injection H as <- <- <-. cbn. repeat (split; [first [assumption|reflexivity|eauto]|]). eauto.
    - intros (m & cn & s & w1 & w2 & w3 & -> & A & B & C & F & K & E1 & E2 & (es & X & E4) & Dv & H).
      apply pbnd_some. exists cn, w. split; [apply plift_some; auto|].
      apply pbnd_some. exists s, w. split; [apply plift_some; auto|].
      apply pbnd_some. exists tt, w1. split; [apply opt_plugin_some, C|].
      apply pbnd_some. exists (ic_cls icp), w1. split; [rewrite F, K; reflexivity|].
      apply pbnd_some. exists (ic_solvers icp), w2. split; [apply (section_some isSolver JustObject); [apply C194_solvers_as_configured|exact E1]|].
      apply pbnd_some. exists (ic_matchers icp), w3. split; [apply (section_some isMatcher JustObject); [apply C194_matchers_as_configured|exact E2]|].
      apply pbnd_some. exists (YSeq es), w3. split; [apply plift_some; auto|].
      apply pbnd_some. exists (ic_quality icp), w'. split; [apply (section_some isQuality (WithWeight as_num)); [apply C194_quality_as_configured|right; eauto]|].
      destruct icp as [ic so ma qu dv]. cbn in *. subst dv.
      destruct (yfind m "derived") as [d|].
      + subst ps. reflexivity.
      + destruct H as (p & G1 & G2). apply pbnd_some. exists p, w'. split; [apply plift_some; auto|].
        apply pbnd_some. exists ps, w'. split; [apply plift_some; auto|reflexivity].
  Qed.

  (** ** C199: Parameters::load_from *)
  Lemma opt_load_iff {A} (conv : yml -> option A) m k old new : opt_load conv m k old = Some new <-> GivenOr conv m k old new.
  Proof.
    unfold opt_load, GivenOr. destruct (yfind m k) as [v|].
    - split; [intro; right; eauto|intros [(K & _)|(v' & K & E)]; [discriminate|injection K as <-; exact E]].
    - split; [intro H; injection H as <-; left; auto|intros [(_ & ->)|(v & K & _)]; [reflexivity|discriminate]].
  Qed.
  Lemma req_load_iff {A} (conv : yml -> option A) m k new : req_load conv m k = Some new <-> exists v, yfind m k = Some v /\ conv v = Some new.
  Proof.
    unfold req_load. destruct (yfind m k) as [v|].
    - split; [eauto|intros (v' & K & E); injection K as <-; exact E].
    - split; [discriminate|intros (v & K & _); discriminate].
  Qed.

  Definition sorted (l : list (Q * Q)) : Prop :=
    forall n m a b, (n < m)%nat -> nth_error l n = Some a -> nth_error l m = Some b -> (fst a < fst b)%Q.
  Lemma sorted_tail a l : sorted (a :: l) -> sorted l.
  Proof. intros S n m x y L E F. apply (S (Datatypes.S n) (Datatypes.S m)); [lia|exact E|exact F]. Qed.
  Lemma sorted_head a l : sorted (a :: l) -> forall b, In b l -> (fst a < fst b)%Q.
  Proof. intros S b I. apply In_nth_error in I as [n E]. apply (S 0%nat (Datatypes.S n)); [lia|reflexivity|exact E]. Qed.
  Lemma sorted_cons a l : sorted l -> (forall b, In b l -> (fst a < fst b)%Q) -> sorted (a :: l).
  Proof.
    intros S H n m x y L E F. destruct m as [|m]; [lia|]. destruct n as [|n].
    - cbn in E. injection E as <-. apply H. eapply nth_error_In. exact F.
    - apply (S n m); [lia|exact E|exact F].
  Qed.

  Lemma qltb_iff a b : Qltb a b = true <-> (a < b)%Q.
  Proof.
    unfold Qltb. destruct (Qle_bool b a) eqn:E; cbn.
    - apply Qle_bool_iff in E. split; [discriminate|lra].
    - split; [intros _|reflexivity]. apply Qnot_le_lt. intro H. apply Qle_bool_iff in H. congruence.
  Qed.
  Lemma cp_in l k v : sorted l -> sorted (cp_emplace l k v) /\
    (forall a, In a (cp_emplace l k v) <-> In a l \/ (a = (k, v) /\ forall b, In b l -> ~ (fst b == k)%Q)).
  Proof.
    induction l as [|[a b] t IH]; intro S; cbn [cp_emplace].
    - split; [intros n m x y L E F; destruct m as [|[|m]]; [lia|discriminate|discriminate]|].
      intro x. cbn. split; [intros [<-|[]]; right; split; [reflexivity|intros ? []]|intros [[]|[-> _]]; left; reflexivity].
    - destruct (Qltb k a) eqn:L.
      + apply qltb_iff in L.
        assert (forall c, In c ((a, b) :: t) -> (k < fst c)%Q) as H.
        { intros c [<-|I]; [exact L|]. pose proof (sorted_head _ _ S c I) as HH. cbn in HH. lra. }
        split; [apply sorted_cons; [exact S|exact H]|]. intro x. split.
        * intros [<-|I]; [|left; exact I]. right. split; [reflexivity|]. intros c I E. specialize (H c I). lra.
        * intros [I|[-> _]]; [right; exact I|left; reflexivity].
      + assert (~ (k < a)%Q) as NL by (intro K; apply qltb_iff in K; congruence).
        destruct (Qeq_bool k a) eqn:E.
        * apply Qeq_bool_iff in E. split; [exact S|]. intro x. split; [tauto|]. intros [I|[-> N]]; [exact I|].
          exfalso. apply (N (a, b) (or_introl eq_refl)). cbn. lra.
        * assert (~ (k == a)%Q) as NE by (intro K; apply Qeq_bool_iff in K; congruence).
          destruct (IH (sorted_tail _ _ S)) as [S' H]. split.
          -- apply sorted_cons; [exact S'|]. intros c I. apply H in I as [I|[-> _]]; [apply (sorted_head _ _ S), I|]. cbn.
             apply Qnot_le_lt. intro K. apply NL. apply Qle_lteq in K as [K|K]; [exact K|contradiction].
          -- intro x. cbn [In]. rewrite H. split.
             ++ intros [<-|[I|[-> N]]]; [left; left; reflexivity|left; right; exact I|].
                right. split; [reflexivity|]. intros c [<-|I]; [cbn; intro K; apply NE; symmetry; exact K|apply N, I].
             ++ intros [[<-|I]|[-> N]]; [left; reflexivity|right; left; exact I|]. right. right. split; [reflexivity|].
                intros c I. apply N. right. exact I.
  Qed.

  (** Invariant of the loop over entries; [ps]: what was read so far. *)
  Definition cp_inv (ps : list (Q * Q)) (l : list (Q * Q)) : Prop :=
    sorted l
    /\ (forall a, In a l -> exists before after, ps = before ++ a :: after /\ forall b, In b before -> ~ (fst b == fst a)%Q)
    /\ (forall b, In b ps -> exists a, In a l /\ (fst a == fst b)%Q).
  Lemma cp_inv_step ps l i q : cp_inv ps l -> cp_inv (ps ++ [(i, q)]) (cp_emplace l i q).
  Proof.
    intros (S & H1 & H2). destruct (cp_in l i q S) as [S' HI]. split; [exact S'|]. split.
    - intros a I. apply HI in I as [I|[-> N]].
      + destruct (H1 a I) as (b & af & -> & N). exists b, (af ++ [(i, q)]). split; [rewrite <- app_assoc; reflexivity|exact N].
      + exists ps, []. split; [reflexivity|]. intros b Ib E. destruct (H2 b Ib) as (c & Ic & Ec). apply (N c Ic). cbn in E. rewrite Ec. exact E.
    - intros b Ib. apply in_app_or in Ib as [Ib|[<-|[]]].
      + destruct (H2 b Ib) as (a & Ia & Ea). exists a. split; [apply HI; left; exact Ia|exact Ea].
      + cbn [fst]. destruct (existsb (fun c => Qeq_bool (fst c) i) l) eqn:X.
        * apply existsb_exists in X as (c & Ic & Ec). apply Qeq_bool_iff in Ec. exists c. split; [apply HI; left; exact Ic|exact Ec].
        * exists (i, q). split; [|reflexivity]. apply HI. right. split; [reflexivity|]. intros c Ic Ec.
          apply Qeq_bool_iff in Ec. assert (existsb (fun c => Qeq_bool (fst c) i) l = true) as Y by (apply existsb_exists; eauto). congruence.
  Qed.

  Lemma load_cps_ok es : forall ps l l', cp_inv ps l -> load_cps as_num es l = Some l' ->
    exists qs, Forall2 (fun e iq => CpEntry as_num e (fst iq) (snd iq)) es qs /\ cp_inv (ps ++ qs) l'.
  Proof.
    induction es as [|e t IH]; intros ps l l' V H; cbn [load_cps] in H.
    - injection H as <-. exists []. split; [constructor|]. rewrite app_nil_r. exact V.
    - destruct e as [| | | | |m]; try discriminate.
      destruct (req_load as_num m "iteration") as [i|] eqn:A; [|discriminate].
      destruct (req_load as_num m "minimum_quality") as [q|] eqn:B; [|discriminate].
      destruct (IH (ps ++ [(i, q)]) _ _ (cp_inv_step _ _ i q V) H) as (qs & F & V').
      exists ((i, q) :: qs). split; [constructor; [|exact F]|rewrite <- app_assoc in V'; exact V'].
      apply req_load_iff in A as (vi & A1 & A2). apply req_load_iff in B as (vq & B1 & B2). exists m, vi, vq. auto 10.
  Qed.
  Lemma load_cps_total es qs : Forall2 (fun e iq => CpEntry as_num e (fst iq) (snd iq)) es qs ->
    forall l, exists l', load_cps as_num es l = Some l'.
  Proof.
    induction 1 as [|e iq t u (m & vi & vq & -> & A1 & A2 & B1 & B2) F IH]; intro l; cbn [load_cps]; [eauto|].
    unfold req_load. rewrite A1, A2, B1, B2. apply IH.
  Qed.

  (** The only maps with this property are equal. *)
  Lemma cp_unique ps l l' : cp_inv ps l -> cp_inv ps l' -> l = l'.
  Proof.
    assert (forall (ps : list (Q * Q)) a b, (fst a == fst b)%Q ->
      (exists bf af, ps = bf ++ a :: af /\ forall c, In c bf -> ~ (fst c == fst a)%Q) ->
      (exists bf af, ps = bf ++ b :: af /\ forall c, In c bf -> ~ (fst c == fst b)%Q) -> a = b) as U.
    { clear. intros ps a b E (b1 & a1 & E1 & N1) (b2 & a2 & E2 & N2). subst ps.
      revert b2 E2 N2. induction b1 as [|x b1 IH]; intros [|y b2] E2 N2; cbn in E2; injection E2 as H1 H2.
      - exact H1.
      - exfalso. apply (N2 y (or_introl eq_refl)). rewrite <- H1. exact E.
      - exfalso. apply (N1 x (or_introl eq_refl)). rewrite H1. symmetry; exact E.
      - apply (IH (fun c I => N1 c (or_intror I)) b2 H2 (fun c I => N2 c (or_intror I))). }
    intros (S & A & B) (S' & A' & B').
    assert (forall l l' : list (Q * Q), sorted l -> sorted l' -> (forall a, In a l <-> In a l') -> l = l') as Ext.
    { clear. induction l as [|x t IH]; intros [|y t'] S S' H.
      - reflexivity.
      - exfalso. apply (proj2 (H y)). left; reflexivity.
      - exfalso. apply (proj1 (H x)). left; reflexivity.
      - assert (x = y) as ->.
        { destruct (proj1 (H x) (or_introl eq_refl)) as [E|I]; [symmetry; exact E|].
          destruct (proj2 (H y) (or_introl eq_refl)) as [E|I2]; [exact E|].
          pose proof (sorted_head _ _ S' x I). pose proof (sorted_head _ _ S y I2). lra. }
        f_equal. apply IH; [eapply sorted_tail; eauto|eapply sorted_tail; eauto|].
        intro a. split; intro I.
        + destruct (proj1 (H a) (or_intror I)) as [<-|J]; [|exact J]. pose proof (sorted_head _ _ S y I). lra.
        + destruct (proj2 (H a) (or_intror I)) as [<-|J]; [|exact J]. pose proof (sorted_head _ _ S' y I). lra. }
    apply Ext; [exact S|exact S'|]. intro a. split; intro I.
    - destruct (A a I) as (bf & af & E & N).
      destruct (B' a) as (c & Ic & Ec); [rewrite E; apply in_or_app; right; left; reflexivity|].
      assert (a = c) as ->; [|exact Ic]. apply (U ps); [symmetry; exact Ec|eauto|apply A', Ic].
    - destruct (A' a I) as (bf & af & E & N).
      destruct (B a) as (c & Ic & Ec); [rewrite E; apply in_or_app; right; left; reflexivity|].
      assert (a = c) as ->; [|exact Ic]. apply (U ps); [symmetry; exact Ec|eauto|apply A, Ic].
  Qed.

  Lemma cp_inv_nil : cp_inv [] [].
  Proof. split; [intros n m a b _ E; destruct n; discriminate|]. split; intros ? []. Qed.

  Lemma cp_entries_unique es ps qs : Forall2 (fun e iq => CpEntry as_num e (fst iq) (snd iq)) es ps ->
    Forall2 (fun e iq => CpEntry as_num e (fst iq) (snd iq)) es qs -> ps = qs.
  Proof.
    intro F. revert qs. induction F as [|e x t u H F IH]; intros qs F'; inversion F' as [|? y ? u' H' F'']; subst; [reflexivity|].
    f_equal; [|apply IH; assumption]. destruct x as [i q], y as [i' q']. cbn [fst snd] in *.
    destruct H as (m & vi & vq & -> & A1 & A2 & B1 & B2). destruct H' as (m' & vi' & vq' & K & A1' & A2' & B1' & B2').
    injection K as <-. congruence.
  Qed.

  Lemma load_checkpoints_iff m old l : load_checkpoints as_num m old = Some l <->
    ((yfind m "quality_checkpoints" = None /\ l = old)
     \/ exists es, yfind m "quality_checkpoints" = Some (YSeq es) /\ es <> [] /\ Checkpoints as_num es l).
  Proof.
    unfold load_checkpoints. destruct (yfind m "quality_checkpoints") as [v|].
    - destruct v as [| | | |es|]; try (split; [discriminate|intros [(K & _)|(es & K & _)]; discriminate]).
      destruct es as [|e t]; [split; [discriminate|intros [(K & _)|(es & K & N & _)]; [discriminate|injection K as <-; contradiction]]|].
      split.
      + intro H. right. exists (e :: t). split; [reflexivity|]. split; [discriminate|].
        destruct (load_cps_ok _ [] [] _ cp_inv_nil H) as (qs & F & V). exists qs. split; [exact F|exact V].
      + intros [(K & _)|(es & K & _ & (ps & F & V))]; [discriminate|]. injection K as <-.
        destruct (load_cps_total _ _ F []) as [l' E]. rewrite E. f_equal.
        destruct (load_cps_ok _ [] [] _ cp_inv_nil E) as (qs & F' & V').
        assert (ps = qs) as <-; [|eapply cp_unique; [exact V'|exact V]].
        exact (cp_entries_unique _ _ _ F F').
    - split; [intro H; injection H as <-; left; auto|intros [(_ & ->)|(es & K & _)]; [reflexivity|discriminate]].
  Qed.

  (** What load_from() does to an object: each parameter given is set, the others stay. *)
  Theorem C199_parameters_as_given : forall y old new,
    params_load y old = Some new <-> exists m, y = YDict m /\ LoadedParams as_bool as_str as_num env_debug m old new.
  Proof.
    intros y old new. unfold ConfigModel.params_load, LoadedParams. split.
    - destruct y as [| | | | |m]; try discriminate. intro H. exists m. split; [reflexivity|].
      destruct (req_load as_num m "maxIterations") as [mi|] eqn:E1; [|discriminate]. cbn [obind] in H.
      destruct (opt_load as_num m "minAbsStep_trans" (ip_trans old)) as [tr|] eqn:E2; [|discriminate]. cbn [obind] in H.
      destruct (opt_load as_num m "minAbsStep_rot" (ip_rot old)) as [ro|] eqn:E3; [|discriminate]. cbn [obind] in H.
      destruct (opt_load as_bool m "generateDebugFiles" (ip_debug old)) as [de|] eqn:E4; [|discriminate]. cbn [obind] in H.
      destruct (opt_load as_str m "debugFileNameFormat" (ip_format old)) as [fo|] eqn:E5; [|discriminate]. cbn [obind] in H.
      destruct (opt_load as_bool m "debugPrintIterationProgress" (ip_print old)) as [pr|] eqn:E6; [|discriminate]. cbn [obind] in H.
      destruct (opt_load as_num m "decimationDebugFiles" (ip_decimDebug old)) as [dd|] eqn:E7; [|discriminate]. cbn [obind] in H.
      destruct (opt_load as_bool m "saveIterationDetails" (ip_details old)) as [sd|] eqn:E8; [|discriminate]. cbn [obind] in H.
      destruct (opt_load as_num m "decimationIterationDetails" (ip_decimDetails old)) as [di|] eqn:E9; [|discriminate]. cbn [obind] in H.
      destruct (load_checkpoints as_num m (ip_checkpoints old)) as [cp|] eqn:E10; [|discriminate]. cbn [obind] in H.
      injection H as <-. cbn [ip_maxIterations ip_trans ip_rot ip_debug ip_format ip_print ip_decimDebug ip_details ip_decimDetails ip_checkpoints].
      apply req_load_iff in E1. apply opt_load_iff in E2, E3, E4, E5, E6, E7, E8, E9. apply load_checkpoints_iff in E10.
      split; [exact E1|]. split; [exact E2|]. split; [exact E3|]. split; [exists de; split; [exact E4|reflexivity]|].
      split; [exact E5|]. split; [exact E6|]. split; [exact E7|]. split; [exact E8|]. split; [exact E9|]. exact E10.
    - intros (m & -> & H). destruct H as (E1 & E2 & E3 & (de & E4 & D) & E5 & E6 & E7 & E8 & E9 & E10).
      apply req_load_iff in E1. apply opt_load_iff in E2, E3, E4, E5, E6, E7, E8, E9. apply load_checkpoints_iff in E10.
      rewrite E1. cbn [obind]. rewrite E2. cbn [obind]. rewrite E3. cbn [obind]. rewrite E4. cbn [obind]. rewrite E5. cbn [obind].
      rewrite E6. cbn [obind]. rewrite E7. cbn [obind]. rewrite E8. cbn [obind]. rewrite E9. cbn [obind]. rewrite E10. cbn [obind].
      rewrite <- D. destruct new; reflexivity.
  Qed.

  (** ** C198: the "params" section *)
  Theorem C198_params_section_where : forall m w w' icp ps,
    icp_pipeline (YDict m) w = (w', Some (icp, ps)) -> yfind m "derived" = None ->
    exists mp, yfind m "params" = Some (YDict mp) /\ LoadedParams as_bool as_str as_num env_debug mp default_params ps.
  Proof.
    intros m w w' icp ps H N. apply C197_pipeline_as_configured in H as (m' & cn & s & w1 & w2 & w3 & K & _ & _ & _ & _ & _ & _ & _ & _ & _ & H).
    injection K as <-. rewrite N in H. destruct H as (p & G & L). apply C199_parameters_as_given in L as (mp & -> & L). eauto.
  Qed.

  (** ** C200, C201: save_to and load_from *)
  Hypothesis num_back : forall q, as_num (YQ q) = Some q.
  Hypothesis bool_back : forall b, as_bool (YB b) = Some b.
  Hypothesis str_back : forall s, as_str (YT s) = Some s.

  Theorem C200_saved_parameters_load : forall p old,
    params_load (params_save p) old
    = Some (mkIcpParams (ip_maxIterations p) (ip_trans p) (ip_rot p) (ip_debug p || env_debug) (ip_format p) (ip_print p)
                        (ip_decimDebug p) (ip_details p) (ip_decimDetails p) (ip_checkpoints old)).
  Proof.
    intros p old. unfold ConfigModel.params_load, params_save, opt_load, req_load, load_checkpoints.
    cbn [yfind String.eqb Ascii.eqb Bool.eqb]. rewrite !num_back, !bool_back, !str_back. reflexivity.
  Qed.

  Theorem C201_checkpoints_survive_saving_refuted :
    ~ (forall p old new, params_load (params_save p) old = Some new -> ip_checkpoints new = ip_checkpoints p).
  Proof.
    intro H. set (p := fun l => mkIcpParams 1 1 1 false "" false 1 false 1 l).
    specialize (H (p [(1, 1)%Q]) (p []) _ (C200_saved_parameters_load (p [(1, 1)%Q]) (p []))). discriminate.
  Qed.
  Theorem C201_checkpoints_where : forall p old new,
    params_load (params_save p) old = Some new -> ip_checkpoints old = ip_checkpoints p ->
    ip_checkpoints new = ip_checkpoints p.
  Proof. intros p old new H E. rewrite C200_saved_parameters_load in H. injection H as <-. exact E. Qed.

  (** ** C202: filters and generators *)
  Notation filters := (filter_pipeline_from_yaml sys as_str factory init isFilter).
  Notation filters_file := (filter_pipeline_from_yaml_file sys as_str factory init isFilter).
  Notation generators := (generators_from_yaml as_str factory init isGenerator).

  Lemma filters_loop_ok es : forall acc w w' l,
    filters_loop sys as_str factory init isFilter es acc w = (w', Some l)
    <-> exists l', l = acc ++ l' /\ Filters sys as_str factory init isFilter w es l' w'.
  Proof.
    induction es as [|e t IH]; intros acc w w' l; cbn [filters_loop].
    - unfold pret. split; [intro H; injection H as <- <-; exists []; split; [symmetry; apply app_nil_r|constructor]|].
      intros (l' & -> & F). inversion F; subst. rewrite app_nil_r. reflexivity.
    - destruct e as [| | | | |m]; try (split; [discriminate|intros (? & _ & F); inversion F]).
      rewrite pbnd_some. split.
      + intros ([] & w1 & A & H). apply opt_plugin_some in A. apply pbnd_some in H as (c & w2 & B1 & H). apply pbnd_some in H as (o & w3 & B2 & H).
        assert (pbnd (make as_str factory isFilter "class_name" m) (fun c => configure init c m) w1 = (w3, Some o)) as K by (apply pbnd_some; eauto).
        apply make_configure in K as [-> K]. apply IH in H as (l' & -> & F). exists (o :: l').
        split; [rewrite <- app_assoc; reflexivity|]. apply Fil_cons with w1; assumption.
      + intros (l' & -> & F). inversion F as [|? ? ? o l2 w1 ? A B F']; subst. exists tt, w1. split; [apply opt_plugin_some, A|].
        pose proof (proj2 (make_configure isFilter "class_name" m w1 w1 o) (conj eq_refl B)) as K. apply pbnd_some in K as (c & w2 & K1 & K2).
        apply pbnd_some. exists c, w2. split; [exact K1|]. apply pbnd_some. exists o, w1. split; [exact K2|].
        apply IH. exists l2. split; [rewrite <- app_assoc; reflexivity|exact F'].
  Qed.

  (** One filter per entry, in order; an empty section gives no filters. *)
  Theorem C202_filters_as_configured : forall y w w' l,
    filters y w = (w', Some l)
    <-> (y = YNull /\ l = [] /\ w' = w) \/ exists es, y = YSeq es /\ Filters sys as_str factory init isFilter w es l w'.
  Proof.
    intros y w w' l. unfold filter_pipeline_from_yaml. destruct y as [| | | |es|];
      try (split; [discriminate|intros [(K & _)|(es & K & _)]; discriminate]).
    - unfold pret. split; [intro H; injection H as <- <-; left; auto|intros [(_ & -> & ->)|(es & K & _)]; [reflexivity|discriminate]].
    - rewrite filters_loop_ok. cbn [app]. split; [intros (l' & -> & F); right; eauto|].
      intros [(K & _)|(es' & K & F)]; [discriminate|]. injection K as <-. eauto.
  Qed.
  Theorem C202_filters_of_a_file : forall file w w' l,
    filters_file file w = (w', Some l)
    <-> exists m es, file = Some (YDict m) /\ yfind m "filters" = Some (YSeq es) /\ Filters sys as_str factory init isFilter w es l w'.
  Proof.
    intros file w w' l. unfold filter_pipeline_from_yaml_file. destruct file as [[| | | | |m]|];
      try (split; [discriminate|intros (m & es & K & _); discriminate]).
    destruct (yfind m "filters") as [[| | | |es|]|] eqn:E;
      try (split; [discriminate|intros (m' & es' & K & K' & _); injection K as <-; congruence]).
    rewrite C202_filters_as_configured. split.
    - intros [(K & _)|(es' & K & F)]; [discriminate|]. injection K as <-. eauto.
    - intros (m' & es' & K & K' & F). injection K as <-. right. exists es'. split; [congruence|exact F].
  Qed.

  (** Generators: the same, without plugins. *)
  Lemma generators_loop_ok es : forall acc w w' l,
    generators_loop as_str factory init isGenerator es acc w = (w', Some l)
    <-> w' = w /\ exists l', l = acc ++ l' /\ Forall2 (fun e o => exists m, e = YDict m /\ Built isGenerator "class_name" w m o) es l'.
  Proof.
    induction es as [|e t IH]; intros acc w w' l; cbn [generators_loop].
    - unfold pret. split; [intro H; injection H as <- <-; split; [reflexivity|]; exists []; split; [symmetry; apply app_nil_r|constructor]|].
      intros (-> & l' & -> & F). inversion F; subst. rewrite app_nil_r. reflexivity.
    - destruct e as [| | | | |m]; try (split; [discriminate|intros (_ & ? & _ & F); inversion F as [|? ? ? ? (m & K & _)]; discriminate]).
      rewrite pbnd_some. split.
      + intros (c & w2 & B1 & H). apply pbnd_some in H as (o & w3 & B2 & H).
        assert (pbnd (make as_str factory isGenerator "class_name" m) (fun c => configure init c m) w = (w3, Some o)) as K by (apply pbnd_some; eauto).
        apply make_configure in K as [-> K]. apply IH in H as (-> & l' & -> & F). split; [reflexivity|]. exists (o :: l').
        split; [rewrite <- app_assoc; reflexivity|]. constructor; [eauto|exact F].
      + intros (-> & l' & -> & F). inversion F as [|? o ? l2 (m' & K & B) F']; subst. injection K as <-.
        pose proof (proj2 (make_configure isGenerator "class_name" m w w o) (conj eq_refl B)) as K. apply pbnd_some in K as (c & w2 & K1 & K2).
        exists c, w2. split; [exact K1|]. apply pbnd_some. exists o, w. split; [exact K2|].
        apply IH. split; [reflexivity|]. exists l2. split; [rewrite <- app_assoc; reflexivity|exact F'].
  Qed.
  Theorem C202_generators_as_configured : forall y w w' l,
    generators y w = (w', Some l)
    <-> w' = w /\ ((y = YNull /\ l = []) \/ exists es, y = YSeq es
          /\ Forall2 (fun e o => exists m, e = YDict m /\ Built isGenerator "class_name" w m o) es l).
  Proof.
    intros y w w' l. unfold generators_from_yaml. destruct y as [| | | |es|];
      try (split; [discriminate|intros (_ & [(K & _)|(es & K & _)]); discriminate]).
    - unfold pret. split; [intro H; injection H as <- <-; auto|intros (-> & [(_ & ->)|(es & K & _)]); [reflexivity|discriminate]].
    - rewrite generators_loop_ok. cbn [app]. split.
      + intros (-> & l' & -> & F). split; [reflexivity|]. right. eauto.
      + intros (-> & [(K & _)|(es' & K & F)]); [discriminate|]. injection K as <-. eauto.
  Qed.
End Proofs.

(** ** A concrete library, for the counterexamples and to show that the hypotheses can be met:
    classes are named by their kind; class "F2" is only known once plugin "/p.so" is loaded. *)
Definition toy_sys : Sys := mkSys (fun s => String.eqb s "/p.so") (fun d => String.eqb d "/lib") (fun f => String.eqb f "/p.so" || String.eqb f "/lib/q.so")%bool
  ["/none"; "/lib"] (fun d s => d ++ "/" ++ s)%string (fun _ => true).
Definition toy_bool (v : yml) : option bool := match v with YB b => Some b | _ => None end.
Definition toy_str (v : yml) : option string := match v with YT s => Some s | _ => None end.
Definition toy_num (v : yml) : option Q := match v with YQ q => Some q | _ => None end.
Definition toy_factory (w : list string) (s : string) : option string :=
  if String.eqb s "X" then (if existsb (String.eqb "/p.so") w then Some s else None) else Some s.
Definition toy_init (c : string) (p : yml) : option (string * yml) := Some (c, p).
Definition is (k s : string) : bool := (String.eqb s k || String.eqb s "X")%bool.
Definition toy_defaults : IcpParams := mkIcpParams 40 (5#10000) (1#10000) false "f" false 1 false 10 [(50, 5#100); (100, 1#10)]%Q.
Definition toy_pipeline : yml -> P (IcpObj * IcpParams) :=
  icp_pipeline toy_sys toy_bool toy_str toy_num toy_factory toy_init (is "S") (is "M") (is "Q") (is "ICP") false [] toy_defaults.

Definition toy_entry (c : string) : yml := YDict [("class", YT c); ("params", YNull)].
Definition toy_config (extra : list (string * yml)) : yml :=
  YDict (extra ++ [("class_name", YT "ICP"); ("matchers", YSeq [toy_entry "M"; YDict [("enabled", YB false)]; YDict [("class", YT "X"); ("plugin", YT "/p.so"); ("params", YNull)]]);
                   ("solvers", YSeq [toy_entry "S"]);
                   ("quality", YSeq [YDict [("class", YT "Q"); ("weight", YQ 2); ("params", YNull)]; toy_entry "Q"]);
                   ("params", YDict [("maxIterations", YQ 7)])]).

(** Non-vacuity: a configuration with a disabled matcher, a plugin and weights is accepted. *)
Example C194_to_C199_case :
  toy_pipeline (toy_config []) []
  = (["/p.so"], Some (mkIcpObj "ICP" [("S", YNull)] [("M", YNull); ("X", YNull)] [(("Q", YNull), 2%Q); (("Q", YNull), 1%Q)] None,
       mkIcpParams 7 (5#10000) (1#10000) false "f" false 1 false 10 [(50, 5#100); (100, 1#10)]%Q)).
Proof. reflexivity. Qed.

(** ** C198: with a "derived" section the parameters given are ignored *)
Theorem C198_params_section_is_honoured_refuted :
  ~ (forall m w w' icp ps mp, toy_pipeline (YDict m) w = (w', Some (icp, ps)) ->
       yfind m "params" = Some (YDict mp) -> LoadedParams toy_bool toy_str toy_num false mp toy_defaults ps).
Proof.
  intro H.
  destruct (toy_pipeline (toy_config [("derived", YNull)]) []) as [w' [[icp ps]|]] eqn:E; [|vm_compute in E; discriminate].
  specialize (H _ _ _ _ _ _ E eq_refl). vm_compute in E. injection E as <- <- <-.
  destruct H as ((v & A & B) & _). cbn in A. injection A as <-. discriminate.
Qed.

(** ** C203: accepted quality evaluators *)
(** An accepted pipeline may have no evaluator at all, or weights that are not positive, both of
    which ICP::evaluate_quality rejects later. *)
Theorem C203_accepted_pipelines_can_be_evaluated_refuted :
  ~ (forall y w w' icp ps, toy_pipeline y w = (w', Some (icp, ps)) -> ic_quality icp <> [])
  /\ ~ (forall y w w' icp ps, toy_pipeline y w = (w', Some (icp, ps)) -> forall o x, In (o, x) (ic_quality icp) -> (0 < x)%Q).
Proof.
  split; intro H.
  - destruct (toy_pipeline (YDict [("class_name", YT "ICP"); ("quality", YSeq []); ("params", YDict [("maxIterations", YQ 7)])]) []) as [w' [[icp ps]|]] eqn:E;
      [|vm_compute in E; discriminate].
    apply (H _ _ _ _ _ E). vm_compute in E. injection E as <- <- <-. reflexivity.
  - destruct (toy_pipeline (YDict [("class_name", YT "ICP"); ("quality", YSeq [YDict [("class", YT "Q"); ("weight", YQ 0); ("params", YNull)]]); ("params", YDict [("maxIterations", YQ 7)])]) []) as [w' [[icp ps]|]] eqn:E;
      [|vm_compute in E; discriminate].
    specialize (H _ _ _ _ _ E ("Q", YNull) 0%Q). vm_compute in E. injection E as <- <- <-.
    specialize (H (or_introl eq_refl)). unfold Qlt in H. cbn in H. lia.
Qed.

(** Where: some entry is enabled, and all the weights given to enabled entries are positive. *)
Theorem C203_evaluable_where : forall {Cls Obj : Type} sys as_bool as_str as_num factory (init : Cls -> yml -> option Obj) isK es w l w',
  ConfigSpec.Configures sys as_bool as_str factory init isK (WithWeight as_num) w es l w' ->
  (l <> [] <-> exists m, In (YDict m) es /\ On as_bool m)
  /\ ((forall m v x, In (YDict m) es -> On as_bool m -> yfind m "weight" = Some v -> as_num v = Some x -> (0 < x)%Q) <->
      forall o x, In (o, x) l -> (0 < x)%Q).
Proof.
  intros Cls Obj sys as_bool as_str as_num factory init isK es w l w' C.
  assert (forall m, On as_bool m -> Off as_bool m -> False) as X.
  { intros m [A|(v & A & B)] (v' & A' & B'); congruence. }
  induction C as [w|w m t l w' O C IH|w m t o x l w1 w' O PL B [Ex W] C IH].
  - split; [split; [contradiction|intros (m & [] & _)]|]. split; [intros _ o x []|intros _ m v x []].
  - destruct IH as [IH1 IH2]. split.
    + rewrite IH1. split; intros (m' & I & K); exists m'; (split; [|exact K]).
      * right; exact I.
      * destruct I as [E|I]; [injection E as ->; exfalso; eauto|exact I].
    + rewrite <- IH2. split; intros H m' v x I K; [apply H; [right; exact I|exact K]|].
      destruct I as [E|I]; [injection E as ->; exfalso; eauto|apply H; assumption].
  - destruct IH as [IH1 IH2]. split.
    + split; [intros _; exists m; split; [left; reflexivity|exact O]|discriminate].
    + split.
      * intros H o' y [E|I].
        -- destruct x as [ox wx]. cbn [fst snd] in *. injection E as <- <-. destruct W as [(_ & ->)|(v & A & N)]; [reflexivity|].
           apply (H m v wx); [left; reflexivity|exact O|exact A|exact N].
        -- apply (proj1 IH2) with o'; [|exact I]. intros m' v z I' K. apply H; [right; exact I'|exact K].
      * intros H m' v z I K A N. destruct I as [E|I].
        -- injection E as <-. destruct W as [(W & _)|(v' & A' & N')]; [congruence|].
           assert (z = snd x) as -> by congruence. apply (H (fst x)). left. destruct x; reflexivity.
        -- apply (proj2 IH2 (fun o' y J => H o' y (or_intror J)) m' v z I K A N).
Qed.

(** ** C205: plugins of generators *)
(** "All pipeline modules" have an optional plugin field; that of a generator is not looked at. *)
Theorem C205_generator_plugin_is_loaded_refuted :
  ~ (forall m w w', ConfigSpec.PluginLoaded toy_sys toy_str w m w' ->
       (exists o, ConfigSpec.Built toy_str toy_factory toy_init (is "G") "class_name" w' m o) ->
       exists l, generators_from_yaml toy_str toy_factory toy_init (is "G") (YSeq [YDict m]) w = (w', Some l)).
Proof.
  intro H. specialize (H [("class_name", YT "X"); ("plugin", YT "/p.so"); ("params", YNull)] [] ["/p.so"]).
  destruct H as [l E].
  - right. exists (YT "/p.so"), "/p.so", "/p.so". repeat (split; [reflexivity|]). split; [left; repeat split|]. split; reflexivity.
  - exists ("X", YNull), (YT "X"), "X", "X", YNull. repeat split.
  - vm_compute in E. discriminate.
Qed.
(** Where: the class is already known, and no plugin is named. *)
Theorem C205_generator_where : forall {Cls Obj : Type} as_str factory (init : Cls -> yml -> option Obj) isK m w o,
  ConfigSpec.Built as_str factory init isK "class_name" w m o ->
  generators_from_yaml as_str factory init isK (YSeq [YDict m]) w = (w, Some [o]).
Proof.
  intros Cls Obj as_str factory init isK m w o B.
  apply (C202_generators_as_configured as_str factory init isK). split; [reflexivity|]. right. eexists. split; [reflexivity|].
  constructor; [eauto|constructor].
Qed.
