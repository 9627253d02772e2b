(** Properties C03, C34, C57-C61: serialization.
    [ext_ok X]: the MRPT wire formats of points, lines, planes, poses, layers and matching
    pairs read back what they write, look only at their own bytes and are memory safe.
    [good_*]: the object fits its wire format (sizes below 2^32 or 2^64, doubles are 64-bit
    patterns, layer names distinct). *)
From Coq Require Import String.
From Verif Require Import Base CodecModel CodecProofs PairingsModel SerialModel SerialProofs.
Open Scope N_scope.

(** ** C03 *)
Theorem C03_roundtrip : forall X old p rest, ext_ok X -> good_pairings X p ->
  r_pairings X old (w_pairings X p ++ rest) = Ok (p, rest).
Proof. intros X old p rest HX H. exact (pairings_back X HX old p rest H). Qed.
Print Assumptions C03_roundtrip.

Theorem C03_truncated_rejected : forall X old p a b, ext_ok X -> good_pairings X p ->
  w_pairings X p = a ++ b -> b <> [] -> r_pairings X old a = Throw.
Proof.
  intros X old p a b HX H E Hb.
  eapply (truncated (r_pairings X old) (w_pairings X p));
    [apply pairings_lo; exact HX|apply pairings_sf; exact HX| |exact E|exact Hb].
  rewrite <- (app_nil_r (w_pairings X p)). exact (pairings_back X HX old p [] H).
Qed.
Print Assumptions C03_truncated_rejected.

Theorem C03_unknown_version_rejected : forall X old v s, v < 256 -> v <> 0 -> v <> 1 ->
  r_pairings X old (v :: s) = Throw.
Proof.
  intros X old v s H H0 H1.
  replace (v :: s) with (enc u8 v ++ s) by (cbn; rewrite N.mod_small by exact H; reflexivity).
  apply pairings_version; lia.
Qed.
Print Assumptions C03_unknown_version_rejected.

(** No input at all, however corrupt, is read with undefined behaviour. *)
Theorem C03_never_undefined : forall X old s, ext_ok X -> r_pairings X old s <> UB.
Proof. intros X old s HX. exact (pairings_sf X HX old s). Qed.
Print Assumptions C03_never_undefined.

(** ** C57: version-0 pairings *)
(** Into a fresh object everything comes back and the counter is 0. *)
Theorem C57_old_version : forall X p rest, ext_ok X -> good_pairings X p ->
  r_pairings X pairings_empty_ctor (w_pairings_v0 X p ++ rest) =
  Ok (mkPairings (paired_pt2pt p) (paired_pt2ln p) (paired_pt2pl p) (paired_ln2ln p) (paired_pl2pl p) (point_weights p) 0%nat, rest).
Proof. intros X p rest HX H. exact (pairings_back_v0 X HX pairings_empty_ctor p rest H). Qed.
Print Assumptions C57_old_version.
(** Into a used object the counter keeps its previous value (Pairings.cpp:51). *)
Theorem C137_old_version_refuted : forall X old p rest, ext_ok X -> good_pairings X p ->
  exists q, r_pairings X old (w_pairings_v0 X p ++ rest) = Ok (q, rest)
    /\ potential_pairings q = potential_pairings old.
Proof. intros X old p rest HX H. eexists. split; [exact (pairings_back_v0 X HX old p rest H)|reflexivity]. Qed.
Print Assumptions C137_old_version_refuted.

(** ** C58: Parameters *)
(** Every field but the quality checkpoints comes back; the debug-files flag is or-ed with
    the environment flag. *)
Theorem C58_parameters_roundtrip : forall dflt ENV p rest, good_params p ->
  exists q, r_params dflt ENV 2 (w_params p ++ rest) = Ok (q, rest)
   /\ p_maxIterations q = p_maxIterations p /\ p_minAbsStep_trans q = p_minAbsStep_trans p
   /\ p_minAbsStep_rot q = p_minAbsStep_rot p /\ p_generateDebugFiles q = (p_generateDebugFiles p || ENV)%bool
   /\ p_saveIterationDetails q = p_saveIterationDetails p
   /\ p_decimationIterationDetails q = p_decimationIterationDetails p
   /\ p_decimationDebugFiles q = p_decimationDebugFiles p
   /\ p_debugFileNameFormat q = p_debugFileNameFormat p /\ p_debugPrint q = p_debugPrint p
   /\ p_quality_checkpoints q = p_quality_checkpoints dflt.
Proof.
  intros dflt ENV p rest H. exists (params_read dflt ENV p).
  split; [exact (params_back dflt ENV p rest H)|]. repeat split; reflexivity.
Qed.
Print Assumptions C58_parameters_roundtrip.
Theorem C138_checkpoints_lost_refuted : forall dflt ENV p rest, good_params p ->
  p_quality_checkpoints p <> p_quality_checkpoints dflt ->
  exists q, r_params dflt ENV 2 (w_params p ++ rest) = Ok (q, rest) /\ q <> p.
Proof.
  intros dflt ENV p rest H Hq. exists (params_read dflt ENV p). split; [exact (params_back dflt ENV p rest H)|].
  intro E. apply Hq. rewrite <- E. reflexivity.
Qed.
Print Assumptions C138_checkpoints_lost_refuted.
(** Older versions: what was not stored takes its default value, never that of a used object. *)
Theorem C58_old_versions : forall dflt ENV p rest, good_params p ->
  (exists q, r_params dflt ENV 0 (w_params_v0 p ++ rest) = Ok (q, rest)
     /\ p_maxIterations q = p_maxIterations p /\ p_debugFileNameFormat q = p_debugFileNameFormat p
     /\ p_decimationDebugFiles q = p_decimationDebugFiles dflt
     /\ p_saveIterationDetails q = p_saveIterationDetails dflt
     /\ p_decimationIterationDetails q = p_decimationIterationDetails dflt)
  /\ (exists q, r_params dflt ENV 1 (w_params_v1 p ++ rest) = Ok (q, rest)
     /\ p_maxIterations q = p_maxIterations p /\ p_debugFileNameFormat q = p_debugFileNameFormat p
     /\ p_decimationDebugFiles q = p_decimationDebugFiles p
     /\ p_saveIterationDetails q = p_saveIterationDetails dflt
     /\ p_decimationIterationDetails q = p_decimationIterationDetails dflt)
  /\ (forall v s, 2 < v -> r_params dflt ENV v s = Throw).
Proof.
  intros dflt ENV p rest H. split; [|split].
  - eexists. split; [exact (params_back_v0 dflt ENV p rest H)|]. repeat split; reflexivity.
  - eexists. split; [exact (params_back_v1 dflt ENV p rest H)|]. repeat split; reflexivity.
  - intros. apply params_version. assumption.
Qed.
Print Assumptions C58_old_versions.

(** ** C59: solver weight parameters *)
Theorem C59_weights_roundtrip : forall X old p rest, ext_ok X -> good_weight_params X p ->
  r_weight_params X old 1 (w_weight_params X p ++ rest) = Ok (p, rest).
Proof. intros X old p rest HX H. exact (weight_params_back X HX old p rest H). Qed.
Print Assumptions C59_weights_roundtrip.
Theorem C59_weights_truncated_and_versions : forall X old p, ext_ok X -> good_weight_params X p ->
  (forall a b, w_weight_params X p = a ++ b -> b <> [] -> r_weight_params X old 1 a = Throw)
  /\ (forall v s, 1 < v -> r_weight_params X old v s = Throw)
  /\ (forall v s, r_weight_params X old v s <> UB).
Proof.
  intros X old p HX H. split; [|split].
  - intros a b E Hb. eapply (truncated (r_weight_params X old 1) (w_weight_params X p));
      [apply weight_params_lo; exact HX|apply weight_params_sf; exact HX| |exact E|exact Hb].
    rewrite <- (app_nil_r (w_weight_params X p)). exact (weight_params_back X HX old p [] H).
  - intros. apply weight_params_version. assumption.
  - intros v s. exact (weight_params_sf X HX old v s).
Qed.
Print Assumptions C59_weights_truncated_and_versions.
(** Version 0 keeps the kernel the object had before reading. *)
Theorem C59_old_version_keeps_kernel : forall X old p ur sc rest, ext_ok X -> good_weight_params X p -> good f64 sc ->
  exists q, r_weight_params X old 0 (w_weight_params_v0 X p ur sc ++ rest) = Ok (q, rest)
   /\ wp_use_scale X q = wp_use_scale X p /\ wp_scale_thr X q = wp_scale_thr X p
   /\ wp_pair_weights X q = wp_pair_weights X p /\ wp_current X q = wp_current X p
   /\ wp_kernel_param X q = wp_kernel_param X p /\ wp_robust_kernel X q = wp_robust_kernel X old.
Proof.
  intros X old p ur sc rest HX H Hs. eexists. split; [exact (weight_params_back_v0 X HX old p ur sc rest H Hs)|].
  repeat split; reflexivity.
Qed.
Print Assumptions C59_old_version_keeps_kernel.

(** ** C34: metric maps *)
Theorem C34_roundtrip : forall X old m rest, ext_ok X -> good_map X m ->
  r_map X old 5 (w_map X m ++ rest) = Ok (m, rest).
Proof. intros X old m rest HX H. exact (map_back X HX old m rest H). Qed.
Print Assumptions C34_roundtrip.

(** Older versions, read over any object: geometry and layers come back; id and label from
    version 1 on; the georeferencing from version 2 on (version 2 only its mean pose); what
    was not stored is empty whatever the object held. *)
Theorem C34_old_versions : forall X old m rest v, ext_ok X -> good_map X m -> good_mean X m -> v < 5 ->
  exists q, r_map X old v (w_map_old X v m ++ rest) = Ok (q, rest)
   /\ m_lines X q = m_lines X m /\ m_planes X q = m_planes X m /\ m_layers X q = m_layers X m
   /\ (1 <= v -> m_id X q = m_id X m /\ m_label X q = m_label X m)
   /\ (v = 0 -> m_id X q = None /\ m_label X q = None)
   /\ (v < 2 -> m_georef X q = None)
   /\ (v = 2 -> m_georef X q = match m_georef X m with None => None | Some g =>
        Some (mkGeo X (geo_lat X g) (geo_lon X g) (geo_height X g) (pdf_of_mean X (pdf_mean X (geo_T X g)))) end)
   /\ (3 <= v -> m_georef X q = m_georef X m)
   /\ m_metadata X q = [].
Proof.
  intros X old m rest v HX H Hm Hv. exists (map_at X v m).
  split; [exact (map_back_old X HX v old m rest Hv H Hm)|].
  unfold map_at. cbn [m_lines m_planes m_layers m_id m_label m_georef m_metadata].
  split; [reflexivity|]. split; [reflexivity|]. split; [reflexivity|].
  split; [intro; destruct (N.leb_spec 1 v); [auto|lia]|].
  split; [intros ->; auto|].
  split; [intro; destruct (N.eqb_spec v 2); [lia|]; destruct (N.leb_spec 3 v); [lia|reflexivity]|].
  split; [intros ->; reflexivity|].
  split; [intro; destruct (N.eqb_spec v 2); [lia|]; destruct (N.leb_spec 3 v); [reflexivity|lia]|reflexivity].
Qed.
Print Assumptions C34_old_versions.

Theorem C34_rejects : forall X old m, ext_ok X -> good_map X m ->
  (forall a b, w_map X m = a ++ b -> b <> [] -> r_map X old 5 a = Throw)
  /\ (forall v s, 5 < v -> r_map X old v s = Throw)
  /\ (forall v s, r_map X old v s <> UB).
Proof.
  intros X old m HX H. split; [|split].
  - intros a b E Hb. eapply (truncated (r_map X old 5) (w_map X m));
      [apply map_lo; exact HX|apply map_sf; exact HX| |exact E|exact Hb].
    rewrite <- (app_nil_r (w_map X m)). exact (map_back X HX old m [] H).
  - intros. apply map_version. assumption.
  - intros v s. exact (map_sf X HX old v s).
Qed.
Print Assumptions C34_rejects.

(** The stand-alone georeferencing reader: exact on a fresh argument; it does not reset a
    used one when the stream says "none" (metricmap.cpp:836-844). *)
Theorem C62_georeferencing : forall X g rest, ext_ok X -> good_georef X g ->
  r_georef X None (w_georef X g ++ rest) = Ok (g, rest).
Proof. intros X g rest HX H. rewrite (georef_back X HX None g rest H). destruct g; reflexivity. Qed.
Print Assumptions C62_georeferencing.
Theorem C140_georeferencing_not_reset_refuted : forall X old rest, ext_ok X ->
  r_georef X old (w_georef X None ++ rest) = Ok (old, rest).
Proof. intros X old rest HX. exact (georef_back X HX old None rest I). Qed.
Print Assumptions C140_georeferencing_not_reset_refuted.

(** ** C60: ICP results and log records *)
Theorem C60_results_roundtrip : forall X old r rest, ext_ok X -> good_results X r ->
  r_results X old (w_results X r ++ rest) = Ok (r, rest).
Proof. intros X old r rest HX H. exact (results_back X HX old r rest H). Qed.
Print Assumptions C60_results_roundtrip.
Theorem C60_results_rejects : forall X old r, ext_ok X -> good_results X r ->
  (forall a b, w_results X r = a ++ b -> b <> [] -> r_results X old a = Throw)
  /\ (forall v s, v < 256 -> v <> 0 -> r_results X old (enc u8 v ++ s) = Throw)
  /\ (forall s, r_results X old s <> UB).
Proof.
  intros X old r HX H. split; [|split].
  - intros a b E Hb. eapply (truncated (r_results X old) (w_results X r));
      [apply results_lo; exact HX|apply results_sf; exact HX| |exact E|exact Hb].
    rewrite <- (app_nil_r (w_results X r)). exact (results_back X HX old r [] H).
  - intros. apply results_version; assumption.
  - intros s. exact (results_sf X HX old s).
Qed.
Print Assumptions C60_results_rejects.

(** Everything in a log record comes back, but for the quality checkpoints of its
    parameters (and the or-ed debug flag), see C58. *)
Theorem C60_log_roundtrip : forall X dflt ENV em dr l rest, ext_ok X -> good_log X l ->
  exists q, r_log X dflt ENV em dr 1 (w_log X l ++ rest) = Ok (q, rest)
   /\ log_global X q = log_global X l /\ log_local X q = log_local X l /\ log_guess X q = log_guess X l
   /\ log_results X q = log_results X l /\ log_iters X q = log_iters X l /\ log_vars X q = log_vars X l
   /\ ((ENV = false \/ p_generateDebugFiles (log_params X l) = true) ->
       p_quality_checkpoints (log_params X l) = p_quality_checkpoints dflt -> q = l).
Proof.
  intros X dflt ENV em dr l rest HX H. exists (log_read X dflt ENV l). split; [exact (log_back X HX dflt ENV em dr l rest H)|].
  do 6 (split; [reflexivity|]). destruct l as [g lo_ ig [mi st sr gd sd di dd fn dp qc] rs its vs].
  cbn [log_params p_generateDebugFiles p_quality_checkpoints]. intros HE HQ.
  unfold log_read, params_read.
  cbn [log_global log_local log_guess log_params log_results log_iters log_vars p_maxIterations p_minAbsStep_trans p_minAbsStep_rot
       p_generateDebugFiles p_saveIterationDetails p_decimationIterationDetails p_decimationDebugFiles p_debugFileNameFormat p_debugPrint p_quality_checkpoints].
  rewrite <- HQ. replace (gd || ENV)%bool with gd; [reflexivity|]. destruct HE as [->| ->]; [symmetry; apply orb_false_r|reflexivity].
Qed.
Print Assumptions C60_log_roundtrip.
Theorem C60_log_rejects : forall X dflt ENV em dr l, ext_ok X -> good_log X l ->
  (forall a b, w_log X l = a ++ b -> b <> [] -> r_log X dflt ENV em dr 1 a = Throw)
  /\ (forall v s, 1 < v -> r_log X dflt ENV em dr v s = Throw)
  /\ (forall v s, r_log X dflt ENV em dr v s <> UB).
Proof.
  intros X dflt ENV em dr l HX H. split; [|split].
  - intros a b E Hb. eapply (truncated (r_log X dflt ENV em dr 1) (w_log X l));
      [apply log_lo; exact HX|apply log_sf; exact HX| |exact E|exact Hb].
    rewrite <- (app_nil_r (w_log X l)). exact (log_back X HX dflt ENV em dr l [] H).
  - intros. apply log_version; assumption.
  - intros v s. exact (log_sf X HX dflt ENV em dr v s).
Qed.
Print Assumptions C60_log_rejects.

(** ** C61: loading a log from a file *)
(** load_from_file reports success iff the file opens and holds a readable record, and then
    delivers it. *)
Theorem C61_load_reports : forall X (rd : reader (LogRec X)) junk file l,
  load_from_file X rd junk file = (true, l) <-> exists bytes rest, file = Some bytes /\ rd bytes = Ok (l, rest).
Proof.
  intros X rd junk file l. unfold load_from_file. split.
  - destruct file as [bytes|]; [|discriminate]. destruct (rd bytes) as [[x r]| |] eqn:E; intro H; [|discriminate|discriminate].
    injection H as <-. exists bytes, r. auto.
  - intros [bytes [rest [-> E]]]. rewrite E. reflexivity.
Qed.
Print Assumptions C61_load_reports.
(** The static LoadFromFile, documented to throw on any error, never throws. *)
Theorem C139_load_throws_refuted : forall X (rd : reader (LogRec X)) junk file,
  LoadFromFile X rd junk file <> Throw /\ LoadFromFile X rd junk None = Ok junk.
Proof. intros. split; [discriminate|reflexivity]. Qed.
Print Assumptions C139_load_throws_refuted.

(** ** Concrete cases *)
Definition X1 : Ext := mkExt N N N N N N N N u64 u64 u64 (counted u64) u64 u64 u64 u64 (fun x => x) (fun x => x).
Example X1_ok : ext_ok X1.
Proof.
  unfold ext_ok, X1. cbn [cPoint cLine cPlane cMatchList cPose cTPose cPdf cLayer].
  repeat first [apply conj | apply u64_ok | apply counted_ok].
Qed.
Definition pr1 : pairings X1 :=
  mkPairings [5; 6] [mkPL X1 1 2] [mkPN X1 (mkPatch X1 3 4) 5] [mkLL X1 6 7]
    [mkNN X1 (mkPatch X1 8 9) (mkPatch X1 10 11)] [(2%nat, 77)] 12.
Lemma Forall_dec_bool {A} (P : A -> Prop) (f : A -> bool) l : (forall a, f a = true -> P a) -> forallb f l = true -> Forall P l.
Proof. intros H. rewrite forallb_forall, Forall_forall. auto. Qed.
Ltac good_tac := repeat first [reflexivity | exact I | apply conj | apply Forall_nil | apply Forall_cons].
Example pr1_good : good_pairings X1 pr1.
Proof. unfold good_pairings. good_tac. Qed.
Example pr1_back : r_pairings X1 pairings_empty_ctor (w_pairings X1 pr1 ++ [1; 2; 3]) = Ok (pr1, [1; 2; 3]).
Proof. exact (C03_roundtrip X1 _ pr1 _ X1_ok pr1_good). Qed.
Definition m1 : MMap X1 := mkMap X1 [1; 2] [mkPatch X1 3 4] [(str "raw", 5); (str "map", 6)] (Some 9) (Some (str "x"))
  (Some (mkGeo X1 1 2 3 4)) (str "a: 1").
Example m1_good : good_map X1 m1 /\ good_mean X1 m1.
Proof.
  split; [|reflexivity]. unfold good_map, m1. cbn [m_lines m_planes m_layers m_id m_label m_georef m_metadata].
  split; [good_tac|]. split; [good_tac|]. split; [good_tac|]. split; [|good_tac].
  constructor; [intros [H|[]]; discriminate|]. constructor; [intros []|constructor].
Qed.
Example m1_back : r_map X1 m1 5 (w_map X1 m1 ++ []) = Ok (m1, []).
Proof. exact (C34_roundtrip X1 m1 m1 [] X1_ok (proj1 m1_good)). Qed.
Definition par1 : Params := mkP 40 1 2 true false 10 1 (str "f") false [(50, 5)].
Definition par0 : Params := mkP 40 1 2 false false 10 1 (str "icp") false [(50, 5); (100, 10)].
Example par1_good : good_params par1 /\ p_quality_checkpoints par1 <> p_quality_checkpoints par0.
Proof. split; [unfold good_params; good_tac|discriminate]. Qed.
Definition log1 : LogRec X1 := mkLog X1 (Some m1) None 3 par1 (mkR X1 1 2 3 4 5 pr1) (Some [(0%nat, mkIter X1 4 pr1)]) [(str "v", 6)].
Example log1_good : good_log X1 log1.
Proof.
  unfold good_log, log1. cbn [log_global log_local log_guess log_params log_results log_iters log_vars].
  split; [exact (proj1 m1_good)|]. split; [exact I|]. split; [reflexivity|]. split; [exact (proj1 par1_good)|].
  split; [unfold good_results, good_pairings; good_tac|]. split; good_tac.
Qed.
