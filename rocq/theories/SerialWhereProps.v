(** C137-C140: exactly when the serialization properties refuted in SerialProps.v hold. *)
From Coq Require Import String.
From Verif Require Import Base CodecModel CodecProofs PairingsModel SerialModel SerialProofs SerialProps.
Open Scope N_scope.

(** ** C137: reading a version-0 pairings stream gives an object that depends only on the
    stream exactly when the object read into had a zero counter, as a fresh one has. *)
Theorem C137_old_version_where : forall X old p rest q, ext_ok X -> good_pairings X p ->
  r_pairings X old (w_pairings_v0 X p ++ rest) = Ok (q, rest) ->
  (potential_pairings q = 0%nat <-> potential_pairings old = 0%nat)
  /\ paired_pt2pt q = paired_pt2pt p /\ paired_pt2ln q = paired_pt2ln p /\ paired_pt2pl q = paired_pt2pl p
  /\ paired_ln2ln q = paired_ln2ln p /\ paired_pl2pl q = paired_pl2pl p /\ point_weights q = point_weights p.
Proof.
  intros X old p rest q HX H E. rewrite (pairings_back_v0 X HX old p rest H) in E. injection E as <-.
  cbn [paired_pt2pt paired_pt2ln paired_pt2pl paired_ln2ln paired_pl2pl point_weights potential_pairings].
  split; [reflexivity|]. do 5 (split; [reflexivity|]). reflexivity.
Qed.
Print Assumptions C137_old_version_where.

(** ** C138: the parameters come back unchanged exactly when their checkpoints are the default
    ones and the environment variable does not switch the debug files on. *)
Theorem C138_parameters_back_where : forall dflt ENV p rest, good_params p ->
  r_params dflt ENV 2 (w_params p ++ rest) = Ok (p, rest)
  <-> p_quality_checkpoints p = p_quality_checkpoints dflt
      /\ (ENV = false \/ p_generateDebugFiles p = true).
Proof.
  intros dflt ENV p rest H. rewrite (params_back dflt ENV p rest H).
  destruct p as [mi st sr gd sd di dd fn dp qc]. unfold params_read.
  cbn [p_maxIterations p_minAbsStep_trans p_minAbsStep_rot p_generateDebugFiles p_saveIterationDetails
       p_decimationIterationDetails p_decimationDebugFiles p_debugFileNameFormat p_debugPrint p_quality_checkpoints].
  split.
  - intros [= E1 E2]. split; [symmetry; exact E2|]. destruct ENV; [right|left; reflexivity].
    rewrite orb_true_r in E1. symmetry. exact E1.
  - intros [-> [-> | ->]]; [rewrite orb_false_r|]; reflexivity.
Qed.
Print Assumptions C138_parameters_back_where.

(** ** C139: LoadFromFile delivers the stored record whenever the file holds one; on every
    other file it returns an object all the same. *)
Theorem C139_loads_where : forall X (rd : reader (LogRec X)) junk file,
  (forall bytes l rest, file = Some bytes -> rd bytes = Ok (l, rest) -> LoadFromFile X rd junk file = Ok l)
  /\ ((forall bytes l rest, file = Some bytes -> rd bytes <> Ok (l, rest)) -> exists l, LoadFromFile X rd junk file = Ok l).
Proof.
  intros. split.
  - intros bytes l rest -> E. unfold LoadFromFile, load_from_file. rewrite E. reflexivity.
  - intros _. eexists. reflexivity.
Qed.
Print Assumptions C139_loads_where.

(** ** C140: the reader delivers what was stored exactly when something was stored or the
    argument was empty before. *)
Theorem C140_georeferencing_where : forall X old g rest, ext_ok X -> good_georef X g ->
  r_georef X old (w_georef X g ++ rest) = Ok (g, rest) <-> g <> None \/ old = None.
Proof.
  intros X old g rest HX H. rewrite (georef_back X HX old g rest H). destruct g as [g|].
  - split; [left; discriminate|reflexivity].
  - split; [intros [= ->]; right; reflexivity|intros [C| ->]; [exfalso; apply C; reflexivity|reflexivity]].
Qed.
Print Assumptions C140_georeferencing_where.

(** ** Concrete cases *)
Example C140_where_case : r_georef X1 None (w_georef X1 None ++ []) = Ok (None, []).
Proof. apply (C140_georeferencing_where X1 None None [] X1_ok I). right. reflexivity. Qed.
Example C138_where_case : ~ (r_params par0 false 2 (w_params par1 ++ []) = Ok (par1, [])).
Proof. intro H. apply C138_parameters_back_where in H as [H _]; [exact (proj2 par1_good H)|exact (proj1 par1_good)]. Qed.
