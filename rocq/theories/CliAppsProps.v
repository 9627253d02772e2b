(** C307-C311: the programs icp-run, sm2mm and mm-info. *)
From Coq Require Import String.
From Verif Require Import Base CliAppsModel.
Open Scope string_scope.

Section IcpRunMain.
Variables Y Gens M Icp Params Filter TPose Results : Type.
Variable yaml_file : string -> res Y.
Variable entry : Y -> string -> option Y.
Variable gens_file : string -> res Gens.
Variable gens_yaml : Y -> res Gens.
Variable no_gens : Gens.
Variable load_input : Gens -> string -> bool -> res M.
Variable icp_from : Y -> res (Icp * Params).
Variable debug_on : Params -> Params.
Variable parse_pose : string -> res TPose.
Variable filters_file : string -> res (list Filter).
Variable filters_yaml : Y -> res (list Filter).
Variable apply_filters : list Filter -> M -> res M.
Variable align : Icp -> M -> M -> TPose -> Params -> res Results.
Notation run := (icp_run Y Gens M Icp Params Filter TPose Results yaml_file entry gens_file gens_yaml no_gens load_input icp_from debug_on parse_pose filters_file filters_yaml apply_filters align).
Notation run0 := (run_icp Y Gens M Icp Params Filter TPose Results yaml_file entry gens_file gens_yaml no_gens load_input icp_from debug_on parse_pose filters_file filters_yaml apply_filters align).

(** Which of three sources is used: a file given on the command line, else an entry of the configuration, else a default. *)
Inductive chosen {A} (of_file : string -> res A) (of_yaml : Y -> res A) (default : A) (cfg : Y) (name : string) : option string -> A -> Prop :=
| by_file f a : of_file f = Ok a -> chosen of_file of_yaml default cfg name (Some f) a
| by_entry y a : entry cfg name = Some y -> of_yaml y = Ok a -> chosen of_file of_yaml default cfg name None a
| by_default : entry cfg name = None -> chosen of_file of_yaml default cfg name None default.
Definition or_else (o : option string) (d : string) : string := match o with Some s => s | None => d end.
(** the map, filtered unless there are no filters *)
Definition after (fs : list Filter) (m m' : M) : Prop := (fs = [] /\ m' = m) \/ (fs <> [] /\ apply_filters fs m = Ok m').

(** A run that aligns: what is aligned, with what. *)
Inductive aligns (a : RunArgs) (r : Results) : Prop :=
| aligns_ cfg gens l g icp p guess fl fg l' g' :
    yaml_file (ra_config a) = Ok cfg ->
    chosen gens_file gens_yaml no_gens cfg "generators" (ra_generators a) gens ->
    load_input gens (ra_local a) true = Ok l -> load_input gens (ra_global a) false = Ok g ->
    icp_from cfg = Ok (icp, p) -> parse_pose (or_else (ra_guess a) "[0 0 0 0 0 0]") = Ok guess ->
    chosen filters_file filters_yaml [] cfg (or_else (ra_name_local a) "filters") (ra_filters_local a) fl -> after fl l l' ->
    chosen filters_file filters_yaml [] cfg (or_else (ra_name_global a) "filters") (ra_filters_global a) fg -> after fg g g' ->
    align icp l' g' guess (if ra_debug a then debug_on p else p) = Ok r ->
    aligns a r.

Lemma bind_ok {A B} (x : res A) (f : A -> res B) b : rbind x f = Ok b <-> exists a, x = Ok a /\ f a = Ok b.
Proof. destruct x; cbn [rbind]; split; [eauto | intros (a' & E & F); injection E as <-; exact F | discriminate | intros (a' & E & _); discriminate E | discriminate | intros (a' & E & _); discriminate E]. Qed.

Lemma filtered_ok file name cfg m m' :
  filtered Y M Filter entry filters_file filters_yaml apply_filters file name cfg m = Ok m' <->
  exists fs, chosen filters_file filters_yaml [] cfg name file fs /\ after fs m m'.
Proof.
  unfold filtered. rewrite bind_ok. split.
  - intros (fs & E & F). exists fs. split.
    + destruct file as [f|]; [exact (by_file _ _ _ _ _ _ _ E)|]. destruct (entry cfg name) as [y|] eqn:En; [exact (by_entry _ _ _ _ _ _ _ En E)|].
      injection E as <-. apply by_default. exact En.
    + destruct fs as [|x t]; [left; injection F as <-; split; reflexivity | right; split; [discriminate | exact F]].
  - intros (fs & C & A). exists fs. split.
    + destruct C as [f b E | y b En E | En]; [exact E | rewrite En; exact E | rewrite En; reflexivity].
    + destruct A as [[-> ->] | [N A]]; [reflexivity|]. destruct fs as [|x t]; [congruence | exact A].
Qed.

(** C307: icp-run aligns exactly the maps it is told, with the configured pipeline: each map read from its input with
    the generators of the command line or of the configuration, filtered with those of the command line or of the
    named entry, from the guess given (the identity if none), with the parameters of the configuration, debug files
    forced on by the option; it then prints the result and ends with 0.  If any step fails it ends with 1 and prints no result. *)
Theorem C307_icp_run : forall a,
  (forall r, run a = Done 0 (Some r) <-> aligns a r) /\
  (forall code out, run a = Done code out -> (code = 0 /\ exists r, out = Some r) \/ (code = 1 /\ out = None /\ forall r, ~ aligns a r)).
Proof.
  intro a. assert (K : forall r, run0 a = Ok r <-> aligns a r).
  { intro r. unfold run_icp. split.
    - intro H. apply bind_ok in H. destruct H as (cfg & EC & H). apply bind_ok in H. destruct H as (gens & EG & H).
      apply bind_ok in H. destruct H as (l & EL & H). apply bind_ok in H. destruct H as (g & EGl & H).
      apply bind_ok in H. destruct H as ([icp p] & EI & H). apply bind_ok in H. destruct H as (guess & EP & H).
      apply bind_ok in H. destruct H as (l' & FL & H). apply bind_ok in H. destruct H as (g' & FG & H).
      apply filtered_ok in FL. destruct FL as (fl & CL & AL). apply filtered_ok in FG. destruct FG as (fg & CG & AG).
      apply (aligns_ a r cfg gens l g icp p guess fl fg l' g'); try assumption.
      destruct (ra_generators a) as [f|]; [exact (by_file _ _ _ _ _ _ _ EG)|]. destruct (entry cfg "generators") as [y|] eqn:En; [exact (by_entry _ _ _ _ _ _ _ En EG)|].
      injection EG as <-. apply by_default. exact En.
    - intros [cfg gens l g icp p guess fl fg l' g' EC EG EL EGl EI EP CL AL CG AG EA].
      apply bind_ok. exists cfg. split; [exact EC|]. apply bind_ok. exists gens. split.
      { destruct EG as [f b E | y b En E | En]; [exact E | rewrite En; exact E | rewrite En; reflexivity]. }
      apply bind_ok. exists l. split; [exact EL|]. apply bind_ok. exists g. split; [exact EGl|].
      apply bind_ok. exists (icp, p). split; [exact EI|]. apply bind_ok. exists guess. split; [exact EP|].
      apply bind_ok. exists l'. split; [apply filtered_ok; exists fl; split; assumption|].
      apply bind_ok. exists g'. split; [apply filtered_ok; exists fg; split; assumption|]. exact EA. }
  unfold icp_run, main_. split.
  - intro r. rewrite <- K. destruct (run0 a); split; intro E; try discriminate; injection E as ->; reflexivity.
  - intros code out. destruct (run0 a) as [r| |]; intro E; try discriminate; injection E as <- <-.
    + left. split; [reflexivity|]. exists r. reflexivity.
    + right. split; [reflexivity|]. split; [reflexivity|]. intros r A. apply K in A. discriminate A.
Qed.

(** C308: two inputs from the same rawlog file: it is read once, and both see the same entries.  *)
Variable Rawlog : Type.
Variable r_exists : string -> bool.
Variable r_read : string -> bool * Rawlog.
Notation load := (load_rawlog Rawlog r_exists r_read).
(** loads one after the other, starting without anything in the cache *)
Fixpoint loads (fs : list string) (c : Cache Rawlog) : list (res (Rawlog * bool)) :=
  match fs with [] => [] | f :: r => let '(c', x) := load f c in x :: loads r c' end.
Theorem C308_each_rawlog_is_read_once : forall fs, (forall f, In f fs -> r_exists f = true /\ fst (r_read f) = true) ->
  forall i f, nth_error fs i = Some f ->
  nth_error (loads fs []) i = Some (Ok (snd (r_read f), if in_dec string_dec f (firstn i fs) then false else true)).
Proof.
  intros fs OKs. 
  assert (G : forall fs c seen, (forall f, In f fs -> r_exists f = true /\ fst (r_read f) = true) ->
    (forall f, c_find _ c f = if in_dec string_dec f seen then Some (snd (r_read f)) else None) ->
    forall i f, nth_error fs i = Some f ->
    nth_error (loads fs c) i = Some (Ok (snd (r_read f), if in_dec string_dec f (seen ++ firstn i fs) then false else true))).
  { clear. induction fs as [|g fs IH]; intros c seen H C i f N; [destruct i; discriminate N|].
    destruct (H g (or_introl eq_refl)) as [X R]. cbn [loads]. unfold load_rawlog at 1. rewrite X. cbn [negb]. rewrite C.
    destruct (in_dec string_dec g seen) as [I|I].
    - destruct i as [|i]; cbn [nth_error] in N |- *.
      + injection N as <-. cbn [firstn]. rewrite app_nil_r. destruct (in_dec string_dec g seen) as [I'|I']; [reflexivity | contradiction].
      + rewrite (IH c (seen ++ [g])%list) with (f := f).
        * cbn [firstn]. rewrite <- app_assoc. reflexivity.
        * intros x Hx. apply H. right. exact Hx.
        * intro x. rewrite C. destruct (in_dec string_dec x seen) as [A|A], (in_dec string_dec x (seen ++ [g])) as [B|B]; try reflexivity.
          -- exfalso. apply B. apply in_or_app. left. exact A.
          -- exfalso. apply in_app_or in B. destruct B as [B | [<- | []]]; exact (A B) || exact (A I).
        * exact N.
    - destruct (r_read g) as [ok r] eqn:E. cbn [fst] in R. subst ok.
      destruct i as [|i]; cbn [nth_error] in N |- *.
      + injection N as <-. cbn [firstn]. rewrite app_nil_r. rewrite E. destruct (in_dec string_dec g seen) as [I'|I']; [contradiction | reflexivity].
      + rewrite (IH _ (seen ++ [g])%list) with (f := f).
        * cbn [firstn]. rewrite <- app_assoc. reflexivity.
        * intros x Hx. apply H. right. exact Hx.
        * intro x. cbn [c_find]. destruct (String.eqb_spec g x) as [<- | NE].
          -- destruct (in_dec string_dec g (seen ++ [g])) as [B|B]; [rewrite E; reflexivity|]. exfalso. apply B. apply in_or_app. right. left. reflexivity.
          -- rewrite C. destruct (in_dec string_dec x seen) as [A|A], (in_dec string_dec x (seen ++ [g])) as [B|B]; try reflexivity.
             ++ exfalso. apply B. apply in_or_app. left. exact A.
             ++ exfalso. apply in_app_or in B. destruct B as [B | [B | []]]; [exact (A B) | exact (NE B)].
        * exact N. }
  intros i f N. rewrite (G fs [] []%list OKs) with (f := f); [reflexivity | | exact N].
  intro x. reflexivity.
Qed.
(** A rawlog that is not there, or that is not in the cache and cannot be read, is an error. *)
Theorem C308_missing_rawlog : forall f c,
  (r_exists f = false -> load_rawlog Rawlog r_exists r_read f c = (c, Throw)) /\
  (r_exists f = true -> c_find Rawlog c f = None -> fst (r_read f) = false -> snd (load_rawlog Rawlog r_exists r_read f c) = Throw).
Proof.
  intros f c. unfold load_rawlog. split.
  - intros ->. reflexivity.
  - intros -> -> R. cbn [negb]. destruct (r_read f) as [ok r]. cbn [fst] in R. rewrite R. reflexivity.
Qed.

End IcpRunMain.

Section Sm2mm.
Variables SM Y M : Type.
Variable sm_empty : SM -> bool.
Variable sm_load : string -> bool * SM.
Variable file_exists : string -> bool.
Variable yaml_file : string -> res Y.
Variable no_yaml : Y.
Variable to_metric : list string -> SM -> Y -> option nat -> option nat -> res M.
Variable save : string -> M -> bool.
Notation app := (sm2mm_app SM Y M sm_empty sm_load file_exists yaml_file no_yaml to_metric save).

(** The map the pipeline builds with the modules [plugins] loaded, or none. *)
Definition pipeline_of (a : SmArgs) (y : Y) : Prop :=
  match sa_pipeline a with Some f => file_exists f = true /\ yaml_file f = Ok y | None => y = no_yaml end.
Definition builds (plugins : list string) (a : SmArgs) (m : M) : Prop :=
  exists y, pipeline_of a y /\ to_metric plugins (snd (sm_load (sa_input a))) y (sa_from a) (sa_to a) = Ok m.

(** C309, what holds: sm2mm ends with 0 exactly if what was read of the input has keyframes, the pipeline can be read, the
    map is built - without any plugin, from the keyframes between the limits given - and written; then the
    output file has that map. *)
Theorem C309_sm2mm_where : forall a f m, app a = Done 0 (Some (f, m)) <->
  sm_empty (snd (sm_load (sa_input a))) = false /\ builds [] a m /\ f = sa_output a /\ save f m = true.
Proof.
  intros a f m. unfold sm2mm_app, main_, builds, pipeline_of. destruct (sm_load (sa_input a)) as [ok sm]. cbn [snd].
  destruct (sm_empty sm); [split; [discriminate | intros (E & _); discriminate E]|].
  destruct (sa_pipeline a) as [p|].
  - destruct (file_exists p); [|split; [discriminate | intros (_ & (y & (E & _) & _) & _); discriminate E]].
    destruct (yaml_file p) as [y| |]; cbn [rbind]; [|split; [discriminate | intros (_ & (y & (_ & E) & _) & _); discriminate E] ..].
    destruct (to_metric [] sm y (sa_from a) (sa_to a)) as [mm| |] eqn:ET; cbn [rbind].
    + destruct (save (sa_output a) mm) eqn:ES.
      * split.
        -- intro E. injection E as <- <-. split; [reflexivity|]. split; [exists y; split; [split; reflexivity | exact ET]|]. split; [reflexivity | exact ES].
        -- intros (_ & (y' & (_ & EY) & ET') & -> & _). injection EY as <-. rewrite ET in ET'. injection ET' as <-. reflexivity.
      * split; [discriminate|]. intros (_ & (y' & (_ & EY) & ET') & -> & ES'). injection EY as <-. rewrite ET in ET'. injection ET' as <-. congruence.
    + split; [discriminate|]. intros (_ & (y' & (_ & EY) & ET') & _). injection EY as <-. congruence.
    + split; [discriminate|]. intros (_ & (y' & (_ & EY) & ET') & _). injection EY as <-. congruence.
  - cbn [rbind]. destruct (to_metric [] sm no_yaml (sa_from a) (sa_to a)) as [mm| |] eqn:ET; cbn [rbind].
    + destruct (save (sa_output a) mm) eqn:ES.
      * split.
        -- intro E. injection E as <- <-. split; [reflexivity|]. split; [exists no_yaml; split; [reflexivity | exact ET]|]. split; [reflexivity | exact ES].
        -- intros (_ & (y' & -> & ET') & -> & _). rewrite ET in ET'. injection ET' as <-. reflexivity.
      * split; [discriminate|]. intros (_ & (y' & -> & ET') & -> & ES'). rewrite ET in ET'. injection ET' as <-. congruence.
    + split; [discriminate|]. intros (_ & (y' & -> & ET') & _). congruence.
    + split; [discriminate|]. intros (_ & (y' & -> & ET') & _). congruence.
Qed.

(** C309, what holds: if reading the pipeline and applying it end (with a result or an exception), so does sm2mm: with 0 and a map written, or with 1 and none. *)
Theorem C309_sm2mm_ends_where : forall a, (forall f, yaml_file f <> UB) -> (forall ps sm y i j, to_metric ps sm y i j <> UB) ->
  app a = Done 1 None \/ exists m, app a = Done 0 (Some (sa_output a, m)).
Proof.
  intros a NY NT. unfold sm2mm_app, main_. destruct (sm_load (sa_input a)) as [ok sm]. destruct (sm_empty sm); [left; reflexivity|].
  assert (F : forall y, let e := match (let* mm := to_metric [] sm y (sa_from a) (sa_to a) in if save (sa_output a) mm then Ok (sa_output a, mm) else Throw) with
      Ok x => Done 0 (Some x) | Throw => Done 1 None | UB => Crash end in e = Done 1 None \/ exists m, e = Done 0 (Some (sa_output a, m))).
  { intro y. assert (T := NT [] sm y (sa_from a) (sa_to a)). destruct (to_metric [] sm y (sa_from a) (sa_to a)) as [mm| |]; cbn [rbind]; [|left; reflexivity|contradiction T; reflexivity].
    destruct (save (sa_output a) mm); [right; exists mm; reflexivity|left; reflexivity]. }
  destruct (sa_pipeline a) as [p|]; [|cbn [rbind]; apply F].
  destruct (file_exists p); [|left; reflexivity]. assert (Z := NY p). destruct (yaml_file p) as [y| |]; cbn [rbind]; [apply F|left; reflexivity|contradiction Z; reflexivity].
Qed.

(** C309 refuted: the plugins named on the command line are never loaded: the run is the same without them. *)
Theorem C309_plugins_are_ignored_refuted : forall a p,
  app (mkSA (sa_input a) (sa_output a) p (sa_pipeline a) (sa_from a) (sa_to a)) = app a.
Proof. intros a p. reflexivity. Qed.

(** C310 refuted: a simplemap that could not be read completely is converted as if it were the whole map. *)
Theorem C310_incomplete_input_refuted : forall a partial m, sm_load (sa_input a) = (false, partial) ->
  sm_empty partial = false -> builds [] a m -> save (sa_output a) m = true ->
  app a = Done 0 (Some (sa_output a, m)).
Proof.
  intros a partial m E NE B S. apply C309_sm2mm_where. rewrite E. cbn [snd].
  split; [exact NE|]. split; [exact B|]. split; [reflexivity | exact S].
Qed.
(** C310, what holds: if nothing at all could be read, it ends with 1 and writes nothing. *)
Theorem C310_nothing_read_where : forall a, sm_empty (snd (sm_load (sa_input a))) = true -> app a = Done 1 None.
Proof. intros a E. unfold sm2mm_app, main_. destruct (sm_load (sa_input a)) as [ok sm]. cbn [snd] in E. rewrite E. reflexivity. Qed.
End Sm2mm.

Section MmInfo.
Variables M Text : Type.
Variable file_exists : string -> bool.
Variable mm_load : string -> res (bool * M).
Variable summary : M -> res Text.
Notation info := (mm_info M Text file_exists mm_load summary).
(** C311, what holds: for a file that exists and is read, the summary printed is that of its map; with no file, or if reading throws, 1. *)
Theorem C311_mm_info_where : forall f,
  (forall m t, file_exists f = true -> mm_load f = Ok (true, m) -> summary m = Ok t -> info f = Done 0 (Some t)) /\
  (file_exists f = false \/ mm_load f = Throw -> info f = Done 1 None).
Proof.
  intro f. unfold mm_info, main_. split.
  - intros m t X L S. rewrite X, L. cbn [negb rbind snd]. rewrite S. reflexivity.
  - intros [X | X]; [rewrite X; reflexivity|]. destruct (file_exists f); cbn [negb]; [rewrite X|]; reflexivity.
Qed.
(** C311 refuted: a file that cannot be read is shown as the map that load_from_file() left, with exit code 0. *)
Theorem C311_unreadable_file_refuted : forall f m t, file_exists f = true -> mm_load f = Ok (false, m) -> summary m = Ok t ->
  info f = Done 0 (Some t).
Proof. intros f m t X L S. unfold mm_info, main_. rewrite X, L. cbn [negb rbind snd]. rewrite S. reflexivity. Qed.
End MmInfo.

(** The hypotheses are met. *)
Example C307_case :
  icp_run string nat nat nat bool nat nat (nat * nat * bool) (fun _ => Ok "") (fun _ n => if String.eqb n "filters" then Some "f" else None)
    (fun _ => Throw) (fun _ => Throw) 7 (fun g f l => Ok (g + String.length f + if l then 100 else 200)) (fun _ => Ok (1, false)) (fun _ => true)
    (fun s => Ok (String.length s)) (fun _ => Ok [5]) (fun _ => Ok [1]) (fun fs m => Ok (m + list_sum fs)) (fun _ l g _ d => Ok (l, g, d))
    (mkRA "a.mm" "b.mm" "c" None (Some "x") None None None None true) = Done 0 (Some (116, 212, true)).
Proof. reflexivity. Qed.
Example C308_case : loads nat (fun _ => true) (fun f => (true, String.length f)) ["a"; "bb"; "a"] [] = [Ok (1, true); Ok (2, true); Ok (1, false)].
Proof. reflexivity. Qed.
Example C310_case :
  sm2mm_app (list nat) nat nat (fun l => match l with [] => true | _ => false end) (fun _ => (false, [3])) (fun _ => true) (fun _ => Ok 1) 0
    (fun _ l y _ _ => Ok (list_sum l + y)) (fun _ _ => true) (mkSA "in" "out" (Some ["p.so"]) (Some "y") None None) = Done 0 (Some ("out", 4)).
Proof. reflexivity. Qed.
