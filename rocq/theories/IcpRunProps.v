(** C242-C248: the inputs of icp-run, load_xyz_file() and rawlog-filter. *)
From Coq Require Import String Ascii Lia.
From Verif Require Import Base MmToolsModel IcpRunModel.
Open Scope nat_scope.

(** ** Vocabulary *)
Definition contains (s pat : string) : Prop := exists a b, s = (a ++ pat ++ b)%string.
(** the extension of a file name *)
Definition has_ext (s e : string) : Prop := exists a, s = (a ++ "." ++ e)%string.

(** ** Substrings *)
Lemma app_str_assoc a b c : ((a ++ b) ++ c)%string = (a ++ b ++ c)%string.
Proof. induction a as [|x a IH]; [reflexivity|]. cbn. rewrite IH. reflexivity. Qed.
Lemma app_str_nil a : (a ++ "")%string = a.
Proof. induction a as [|x a IH]; [reflexivity|]. cbn. rewrite IH. reflexivity. Qed.
Lemma prefix_iff pat : forall s, String.prefix pat s = true <-> exists b, s = (pat ++ b)%string.
Proof.
  induction pat as [|c pat IH]; intro s.
  - split; [intros _; exists s; reflexivity|intros _; destruct s; reflexivity].
  - destruct s as [|d s]; [split; [discriminate|intros [b E]; discriminate]|].
    change (String.prefix (String c pat) (String d s)) with (if ascii_dec c d then String.prefix pat s else false).
    destruct (ascii_dec c d) as [->|N].
    + rewrite IH. split; intros [b E]; exists b; [rewrite E; reflexivity|injection E as E; exact E].
    + split; [discriminate|]. intros [b E]. injection E as E _. exfalso. apply N. symmetry. exact E.
Qed.
Lemma find_some pat : forall s p, find_sub pat s = Some p ->
  s = (take p s ++ pat ++ drop (p + String.length pat) s)%string /\ String.length (take p s) = p /\
  forall q, q < p -> String.prefix pat (drop q s) = false.
Proof.
  induction s as [|c s IH]; intros p; cbn [find_sub].
  - destruct (String.prefix pat "") eqn:E; [|discriminate]. intro H. injection H as <-. apply prefix_iff in E as [b E].
    split; [|split; [reflexivity|intros q Q; lia]]. cbn [take append Nat.add]. destruct pat; [|discriminate]. reflexivity.
  - destruct (String.prefix pat (String c s)) eqn:E.
    + intro H. injection H as <-. apply prefix_iff in E as [b E]. split; [|split; [reflexivity|intros q Q; lia]].
      cbn [take append Nat.add]. rewrite E. f_equal. clear. induction pat as [|x pat IH]; [destruct b; reflexivity|]. cbn [String.length append drop]. exact IH.
    + destruct (find_sub pat s) as [p'|]; [|discriminate]. cbn [option_map]. intro H. injection H as <-.
      destruct (IH p' eq_refl) as (A & B & C). split; [cbn [take append Nat.add drop]; rewrite <- A; reflexivity|]. split; [cbn [take String.length]; rewrite B; reflexivity|].
      intros [|q] Q; [exact E|]. cbn [drop]. apply C. lia.
Qed.
Lemma find_none pat : forall s, find_sub pat s = None <-> ~ contains s pat.
Proof.
  induction s as [|c s IH]; cbn [find_sub].
  - destruct (String.prefix pat "") eqn:E.
    + split; [discriminate|]. intro N. exfalso. apply N. apply prefix_iff in E as [b E]. exists ""%string, b. exact E.
    + split; [|reflexivity]. intros _ (a & b & X). destruct a; [|discriminate]. assert (T : String.prefix pat "" = true) by (apply prefix_iff; exists b; exact X). congruence.
  - destruct (String.prefix pat (String c s)) eqn:E.
    + split; [discriminate|]. intro N. exfalso. apply N. apply prefix_iff in E as [b E]. exists ""%string, b. exact E.
    + destruct (find_sub pat s) as [p|].
      * split; [discriminate|]. intro N. exfalso. assert (X : ~ contains s pat) by (intros (a & b & X); apply N; exists (String c a), b; rewrite X; reflexivity).
        apply IH in X. discriminate.
      * split; [|reflexivity]. intros _ (a & b & X). destruct a as [|c' a].
        -- assert (T : String.prefix pat (String c s) = true) by (apply prefix_iff; exists b; exact X). congruence.
        -- injection X as -> X. apply IH in X as []; [reflexivity|exact (ex_intro _ a (ex_intro _ b X))] || (apply (proj1 IH eq_refl); exists a, b; exact X).
Qed.
Lemma drop_app a s : drop (String.length a) (a ++ s) = s.
Proof. induction a as [|c a IH]; [destruct s; reflexivity|]. exact IH. Qed.
Lemma take_app a s : take (String.length a) (a ++ s) = a.
Proof. induction a as [|c a IH]; [destruct s; reflexivity|]. cbn. rewrite IH. reflexivity. Qed.
Lemma drop_more a s n : drop (String.length a + n) (a ++ s) = drop n s.
Proof. induction a as [|c a IH]; [reflexivity|]. exact IH. Qed.
Lemma take_more a s n : take (String.length a + n) (a ++ s) = (a ++ take n s)%string.
Proof. induction a as [|c a IH]; [reflexivity|]. cbn. rewrite IH. reflexivity. Qed.

Section IcpRun.
Variables M SFrame Obs Pts : Type.
Variables (gen_frame : SFrame -> res M) (gen_obs : Obs -> res M) (rawlog : string -> option (list (Entry SFrame Obs))).
Variables (map_file : string -> option M) (icplog : string -> option (M * M)) (text_points : string -> option (list Pts)) (raw_map : list Pts -> M) (stod : string -> option Q).
Notation input := (load_input_pc M SFrame Obs Pts gen_frame gen_obs rawlog map_file icplog text_points raw_map stod).

(** C242: the kind of input is not chosen by the extension: any name with ".mm" in it, in a directory for
    example, is read as a metric map, *)
Theorem C242_mm_anywhere_in_the_path_refuted : forall a b local, ~ contains (a ++ ".mm" ++ b) ".rawlog:" ->
  input (a ++ ".mm" ++ b)%string local = match map_file (a ++ ".mm" ++ b)%string with Some m => Ok m | None => Throw end.
Proof.
  intros a b local N. unfold load_input_pc, classify. apply find_none in N. rewrite N.
  destruct (find_sub ".mm" (a ++ ".mm" ++ b)) eqn:E; [reflexivity|]. apply find_none in E. exfalso. apply E. exists a, b. reflexivity.
Qed.
(** and any other name with ".icplog" in it as a log. *)
Theorem C242_icplog_anywhere_in_the_path_refuted : forall a b local, let f := (a ++ ".icplog" ++ b)%string in ~ contains f ".rawlog:" -> ~ contains f ".mm" ->
  input f local = match icplog f with Some (l, g) => Ok (if local then l else g) | None => Throw end.
Proof.
  intros a b local f N1 N2. unfold load_input_pc, classify. apply find_none in N1, N2. rewrite N1, N2.
  destruct (find_sub ".icplog" f) eqn:E; [reflexivity|]. apply find_none in E. exfalso. apply E. exists a, b. reflexivity.
Qed.
(** Where the two only occur in the name as its extension the documented rule holds: `.mm` files are read
    as maps; of an `.icplog` file the local map is taken for the local input and the global one for the
    global input; any other file is read as points. *)
Theorem C242_input_kind_where : forall f, ~ contains f ".rawlog:" -> (contains f ".mm" -> has_ext f "mm") -> (contains f ".icplog" -> has_ext f "icplog") ->
  (has_ext f "mm" -> forall local, input f local = match map_file f with Some m => Ok m | None => Throw end) /\
  (has_ext f "icplog" -> ~ has_ext f "mm" -> forall l g, icplog f = Some (l, g) -> input f true = Ok l /\ input f false = Ok g) /\
  (~ has_ext f "mm" -> ~ has_ext f "icplog" -> forall local p, text_points f = Some p -> 1 < List.length p -> input f local = Ok (raw_map p)).
Proof.
  intros f N C1 C2. apply find_none in N. split; [|split].
  - intros [a E] local. assert (X : contains f ".mm") by (exists a, ""%string; rewrite E; reflexivity).
    unfold load_input_pc, classify. rewrite N. destruct (find_sub ".mm" f) eqn:F; [reflexivity|]. apply find_none in F. contradiction.
  - intros [a E] Nm l g I. assert (X : contains f ".icplog") by (exists a, ""%string; rewrite E; reflexivity).
    unfold load_input_pc, classify. rewrite N. destruct (find_sub ".mm" f) eqn:F.
    + exfalso. apply Nm, C1. destruct (find_some _ _ _ F) as (Y & _). exists (take n f), (drop (n + String.length ".mm") f). exact Y.
    + destruct (find_sub ".icplog" f) eqn:F2; [rewrite I; split; reflexivity|]. apply find_none in F2. contradiction.
  - intros Nm Ni local p T L. unfold load_input_pc, classify. rewrite N. destruct (find_sub ".mm" f) eqn:F.
    + exfalso. apply Nm, C1. destruct (find_some _ _ _ F) as (Y & _). exists (take n f), (drop (n + String.length ".mm") f). exact Y.
    + destruct (find_sub ".icplog" f) eqn:F2.
      * exfalso. apply Ni, C2. destruct (find_some _ _ _ F2) as (Y & _). exists (take n f), (drop (n + String.length ".icplog") f). exact Y.
      * unfold load_xyz_file. rewrite T. destruct (Nat.ltb_spec 1 (List.length p)); [reflexivity|lia].
Qed.

(** ".rawlog:" cannot overlap itself *)
Lemma first_rawlog a i : ~ contains a ".rawlog:" -> find_sub ".rawlog:" (a ++ ".rawlog:" ++ i) = Some (String.length a).
Proof.
  intro N. induction a as [|c a IH].
  - destruct i; reflexivity.
  - cbn [append find_sub]. assert (P : String.prefix ".rawlog:" (String c (a ++ ".rawlog:" ++ i)) = false).
    { destruct (String.prefix ".rawlog:" (String c (a ++ ".rawlog:" ++ i))) eqn:E; [|reflexivity]. exfalso.
      apply prefix_iff in E as [b E]. cbn [append] in E.
      destruct a as [|c1 [|c2 [|c3 [|c4 [|c5 [|c6 [|c7 a]]]]]]]; cbn [append] in E; try discriminate E.
      injection E as -> -> -> -> -> -> -> -> E. apply N. exists ""%string, a. reflexivity. }
    cbn [append] in P. cbn [append] in IH. rewrite P. rewrite IH; [reflexivity|]. intros (x & y & E). apply N. exists (String c x), y. rewrite E. reflexivity.
Qed.

(** C243: `F.rawlog:N` is the map made by the generators from entry N of F.rawlog; if there is no such entry, or it is
    neither a frame nor an observation, it fails. *)
Theorem C243_rawlog_entry : forall a i k r local, ~ contains a ".rawlog:" -> stod i = Some (inject_Z (Z.of_nat k)) -> (Z.of_nat k < 2 ^ 64)%Z ->
  rawlog (a ++ ".rawlog")%string = Some r ->
  input (a ++ ".rawlog:" ++ i)%string local =
    match nth_error r k with Some (EFrame _ _ s) => gen_frame s | Some (EObs _ _ o) => gen_obs o | _ => Throw end.
Proof.
  intros a i k r local N S B R. unfold load_input_pc, classify. rewrite (first_rawlog a i N).
  rewrite take_more. replace (String.length a + 7 + 1) with (String.length a + 8) by lia. rewrite drop_more.
  change (take 7 (".rawlog:" ++ i)) with ".rawlog"%string. change (drop 8 (".rawlog:" ++ i)) with (drop 0 i). cbn [drop].
  assert (D : match i with EmptyString => i | String _ _ => i end = i) by (destruct i; reflexivity). try rewrite D.
  rewrite S, R. unfold to_index, inject_Z. cbn [Qnum Qden]. rewrite Z.quot_1_r. destruct (Z.leb_spec 0 (Z.of_nat k)); [|lia].
  destruct (Z.ltb_spec (Z.of_nat k) (2 ^ 64)); [|lia]. cbn [andb rbind]. rewrite Nat2Z.id. unfold pc_from_rawlog.
  destruct (nth_error r k) as [[]|]; reflexivity.
Qed.

(** C244: a wrong index is not always rejected: a fraction is rounded towards zero and a negative number is
    converted to an unsigned one, which is undefined. *)
Theorem C244_negative_index_is_undefined_refuted : forall a i r q local, ~ contains a ".rawlog:" -> stod i = Some q -> (q <= -1)%Q ->
  rawlog (a ++ ".rawlog")%string = Some r -> input (a ++ ".rawlog:" ++ i)%string local = UB.
Proof.
  intros a i r q local N S L R. unfold load_input_pc, classify. rewrite (first_rawlog a i N).
  rewrite take_more. replace (String.length a + 7 + 1) with (String.length a + 8) by lia. rewrite drop_more.
  change (take 7 (".rawlog:" ++ i)) with ".rawlog"%string. change (drop 8 (".rawlog:" ++ i)) with (drop 0 i). cbn [drop].
  assert (D : match i with EmptyString => i | String _ _ => i end = i) by (destruct i; reflexivity). try rewrite D.
  rewrite S, R. unfold to_index. destruct q as [n d]. cbn [Qnum Qden]. unfold Qle in L. cbn in L.
  assert (X : (Z.quot n (Z.pos d) <= -1)%Z).
  { replace n with (- (- n))%Z by lia. rewrite Z.quot_opp_l by lia. assert (1 <= (- n) ÷ Z.pos d)%Z; [|lia]. apply Z.quot_le_lower_bound; lia. }
  destruct (Z.leb_spec 0 (Z.quot n (Z.pos d))); [lia|]. reflexivity.
Qed.
Theorem C244_fraction_is_truncated_refuted : forall a i r k q local, ~ contains a ".rawlog:" -> stod i = Some q ->
  (inject_Z (Z.of_nat k) <= q)%Q -> (q < inject_Z (Z.of_nat k + 1))%Q -> (Z.of_nat k < 2 ^ 64)%Z -> rawlog (a ++ ".rawlog")%string = Some r ->
  input (a ++ ".rawlog:" ++ i)%string local = pc_from_rawlog M SFrame Obs gen_frame gen_obs r k.
Proof.
  intros a i r k q local N S L1 L2 B R. unfold load_input_pc, classify. rewrite (first_rawlog a i N).
  rewrite take_more. replace (String.length a + 7 + 1) with (String.length a + 8) by lia. rewrite drop_more.
  change (take 7 (".rawlog:" ++ i)) with ".rawlog"%string. change (drop 8 (".rawlog:" ++ i)) with (drop 0 i). cbn [drop].
  assert (D : match i with EmptyString => i | String _ _ => i end = i) by (destruct i; reflexivity). try rewrite D.
  rewrite S, R. unfold to_index. destruct q as [n d]. cbn [Qnum Qden]. unfold Qle, Qlt, inject_Z in *. cbn [Qnum Qden] in *.
  assert (X : Z.quot n (Z.pos d) = Z.of_nat k).
  { symmetry. apply Z.quot_unique with (n - Z.pos d * Z.of_nat k)%Z; lia. }
  rewrite X. destruct (Z.leb_spec 0 (Z.of_nat k)); [|lia]. destruct (Z.ltb_spec (Z.of_nat k) (2 ^ 64)); [|lia]. cbn [andb rbind]. rewrite Nat2Z.id. reflexivity.
Qed.

(** C245: load_xyz_file() rejects a file with a single point, *)
Theorem C245_single_point_is_rejected_refuted : forall f p, text_points f = Some [p] -> load_xyz_file Pts text_points f = Throw.
Proof. intros f p E. unfold load_xyz_file. rewrite E. reflexivity. Qed.
(** and otherwise returns all the points of the file, in order, if there are any. *)
Theorem C245_load_xyz_where : forall f p, text_points f = Some p -> List.length p <> 1 ->
  load_xyz_file Pts text_points f = match p with [] => Throw | _ => Ok p end.
Proof. intros f p E L. unfold load_xyz_file. rewrite E. destruct p as [|a [|b p]]; [reflexivity|cbn in L; lia|reflexivity]. Qed.
End IcpRun.

(** ** rawlog-filter *)
Section RawlogFilter.
Variables Obs Pts Other : Type.
Variables (stamp : Obs -> Z) (gens : Obs -> res (bool * Layers Pts Other)) (filters : Layers Pts Other -> res (Layers Pts Other)).
Notation run := (rawlog_filter Obs Pts Other stamp gens filters).
Notation Layers := (Layers Pts Other).
Notation Out := (Out Obs Pts).

(** what is done with one observation: nothing, or the map of the generators goes through the filters *)
Definition skipped (o : Obs) : Prop := exists ls, gens o = Ok (false, ls).
Definition mapped (o : Obs) (ls : Layers) : Prop := exists l0, gens o = Ok (true, l0) /\ filters l0 = Ok ls.
(** the output frame: the observation and then one cloud per point cloud layer, in order, with the name of the layer
    after "out_" and the time of the observation *)
Inductive clouds (t : Z) : Layers -> list Out -> Prop :=
| cl_nil : clouds t [] []
| cl_pts n p ls os : clouds t ls os -> clouds t ((n, RPts _ _ p) :: ls) (OPts _ _ ("out_" ++ n)%string t p :: os)
| cl_skip n l ls os : (forall p, l <> RPts _ _ p) -> clouds t ls os -> clouds t ((n, l) :: ls) os.
Definition frame_of (o : Obs) (f : list Out) : Prop := exists ls os, mapped o ls /\ f = OIn _ _ o :: os /\ clouds (stamp o) ls os.
(** the frames of a list of observations *)
Inductive frames : list Obs -> list (list Out) -> Prop :=
| fr_nil : frames [] []
| fr_skip o l fs : skipped o -> frames l fs -> frames (o :: l) fs
| fr_out o l f fs : frame_of o f -> frames l fs -> frames (o :: l) (f :: fs).
(** the entries with an index from [from] to [to], both included *)
Definition selected {A} (ds : list A) (from to : option N) (l : list A) : Prop :=
  forall k, nth_error l k =
    let i := k + match from with Some i => N.to_nat i | None => 0 end in
    if match to with Some j => Nat.leb i (N.to_nat j) | None => true end then nth_error ds i else None.

Lemma out_layers_clouds t ls : clouds t ls (out_layers Obs Pts Other t ls).
Proof.
  induction ls as [|[n [|p|o]] ls IH]; cbn [out_layers]; [constructor|apply cl_skip; [discriminate|exact IH]|apply cl_pts; exact IH|apply cl_skip; [discriminate|exact IH]].
Qed.
Lemma loop_frames : forall l, Forall (fun o => skipped o \/ exists ls, mapped o ls) l ->
  exists fs, rf_loop Obs Pts Other stamp gens filters (map Some l) = (fs, Ok tt) /\ frames l fs.
Proof.
  induction 1 as [|o l H F (fs & E & Fr)]; [exists []; split; [reflexivity|constructor]|]. cbn [map rf_loop].
  destruct H as [[ls G]|[ls (l0 & G & Fl)]]; rewrite G.
  - exists fs. split; [exact E|]. apply fr_skip; [exists ls; exact G|exact Fr].
  - rewrite Fl, E. eexists. split; [reflexivity|]. apply fr_out; [|exact Fr]. exists ls, (out_layers Obs Pts Other (stamp o) ls).
    split; [exists l0; split; assumption|]. split; [reflexivity|apply out_layers_clouds].
Qed.
Lemma nth_firstn {A} n : forall (l : list A) k, nth_error (firstn n l) k = if Nat.ltb k n then nth_error l k else None.
Proof.
  induction n as [|n IH]; intros l k; [destruct k; reflexivity|]. destruct l as [|x l]; [cbn [firstn]; destruct (Nat.ltb k (S n)); destruct k; reflexivity|].
  destruct k; [reflexivity|]. cbn [firstn nth_error]. rewrite IH. reflexivity.
Qed.
Lemma nth_skipn {A} n : forall (l : list A) k, nth_error (skipn n l) k = nth_error l (n + k).
Proof. induction n as [|n IH]; intros l k; [reflexivity|]. destruct l; [destruct k; reflexivity|]. cbn [skipn plus nth_error]. apply IH. Qed.
Lemma nth_ext_list {A} : forall (l m : list A), (forall k, nth_error l k = nth_error m k) -> l = m.
Proof.
  induction l as [|x l IH]; intros m E.
  - destruct m; [reflexivity|]. specialize (E 0). discriminate.
  - destruct m as [|y m]; [specialize (E 0); discriminate|]. assert (E0 := E 0). injection E0 as ->. f_equal. apply IH. intro n. exact (E (S n)).
Qed.
Lemma range_selected {A} (ds l : list A) from to : selected ds from to l -> (forall j, to = Some j -> (j < 2 ^ 64 - 1)%N) ->
  let '(cur, n) := rf_range (List.length ds) from to in firstn (n - cur) (skipn cur ds) = l.
Proof.
  intros S B. unfold rf_range. cbv beta iota. apply nth_ext_list. intro k. rewrite nth_firstn, nth_skipn, S. cbv zeta.
  set (cur := match from with Some i => N.to_nat i | None => 0 end). rewrite (Nat.add_comm cur k).
  destruct to as [j|].
  - specialize (B j eq_refl). rewrite N.mod_small by lia. replace (N.to_nat (j + 1)) with (N.to_nat j + 1) by lia.
    destruct (Nat.leb_spec (k + cur) (N.to_nat j)).
    + destruct (Nat.ltb_spec k (Nat.min (List.length ds) (N.to_nat j + 1) - cur)); [reflexivity|]. symmetry. apply nth_error_None. lia.
    + destruct (Nat.ltb_spec k (Nat.min (List.length ds) (N.to_nat j + 1) - cur)); [lia|reflexivity].
  - destruct (Nat.ltb_spec k (List.length ds - cur)); [reflexivity|]. symmetry. apply nth_error_None. lia.
Qed.

(** C246: rawlog-filter writes one frame per observation with an index from --from to --to, both included, that some
    generator handles, in order: the observation itself, and then one cloud per point cloud layer of the
    filtered map, named "out_<layer>" and with the time of the observation. *)
Theorem C246_one_frame_per_observation : forall ds from to l, selected ds from to (map Some l) -> (forall j, to = Some j -> (j < 2 ^ 64 - 1)%N) ->
  Forall (fun o => skipped o \/ exists ls, mapped o ls) l ->
  exists fs, run ds from to = (fs, Ok 0) /\ frames l fs.
Proof.
  intros ds from to l S B F. destruct (loop_frames l F) as (fs & E & Fr). exists fs. split; [|exact Fr].
  unfold rawlog_filter. assert (R := range_selected ds (map Some l) from to S B). destruct (rf_range (List.length ds) from to) as [cur n]. rewrite R, E. reflexivity.
Qed.

(** C247: the layers that are not point clouds are not in the output, *)
Theorem C247_other_layers_are_dropped_refuted : forall o n x l0, gens o = Ok (true, l0) -> filters l0 = Ok [(n, ROther _ _ x)] ->
  run [Some o] None None = ([[OIn _ _ o]], Ok 0).
Proof. intros o n x l0 G F. unfold rawlog_filter, rf_range. cbn [List.length firstn skipn Nat.sub rf_loop]. rewrite G, F. reflexivity. Qed.
(** and where all are point clouds every layer is. *)
Theorem C247_all_layers_where : forall t ls os, clouds t ls os -> (forall n l, In (n, l) ls -> exists p, l = RPts _ _ p) ->
  Forall2 (fun l o => exists p, snd l = RPts _ _ p /\ o = OPts _ _ ("out_" ++ fst l)%string t p) ls os.
Proof.
  intros t ls os C. induction C as [|n p ls os C IH|n l ls os N C IH]; intro H.
  - constructor.
  - constructor; [exists p; split; reflexivity|]. apply IH. intros n' l' I. apply (H n'). right. exact I.
  - exfalso. destruct (H n l (or_introl eq_refl)) as [p ->]. exact (N p eq_refl).
Qed.

(** C248: if an entry is not an observation, or the generators or filters throw on it, the program ends with exit code 1 and
    the output file holds exactly the frames of the entries before it. *)
Theorem C248_failure_keeps_the_frames_before : forall ds from to l e rest, selected ds from to (map Some l ++ e :: rest) -> (forall j, to = Some j -> (j < 2 ^ 64 - 1)%N) ->
  Forall (fun o => skipped o \/ exists ls, mapped o ls) l ->
  match e with None => True | Some o => gens o = Throw \/ exists l0, gens o = Ok (true, l0) /\ filters l0 = Throw end ->
  exists fs, run ds from to = (fs, Ok 1) /\ frames l fs.
Proof.
  intros ds from to l e rest S B F Bad. unfold rawlog_filter. assert (R := range_selected ds _ from to S B).
  destruct (rf_range (List.length ds) from to) as [cur n]. rewrite R.
  assert (X : exists fs, rf_loop Obs Pts Other stamp gens filters (map Some l ++ e :: rest) = (fs, Throw) /\ frames l fs).
  { clear -F Bad. induction F as [|o l H F (fs & E & Fr)].
    - exists []. split; [|constructor]. cbn [map app rf_loop]. destruct e as [o|]; [|reflexivity]. destruct Bad as [->|(l0 & -> & ->)]; reflexivity.
    - cbn [map app rf_loop]. destruct H as [[ls G]|[ls (l0 & G & Fl)]]; rewrite G.
      + exists fs. split; [exact E|]. apply fr_skip; [exists ls; exact G|exact Fr].
      + rewrite Fl, E. eexists. split; [reflexivity|]. apply fr_out; [|exact Fr]. exists ls, (out_layers Obs Pts Other (stamp o) ls).
        split; [exists l0; split; assumption|]. split; [reflexivity|apply out_layers_clouds]. }
  destruct X as (fs & -> & Fr). exists fs. split; [reflexivity|exact Fr].
Qed.
End RawlogFilter.

(** ** Examples *)
Example ex_selected : selected [10; 11; 12; 13] (Some 1%N) (Some 2%N) [11; 12].
Proof. intros [|[|[|k]]]; reflexivity. Qed.
Example ex_classify : classify "data.mm.d/cloud.txt" = SMap "data.mm.d/cloud.txt" /\ classify "a.rawlog:12" = SRawlog "a.rawlog" "12".
Proof. split; reflexivity. Qed.
Example ex_frames : rawlog_filter nat nat unit Z.of_nat (fun o => Ok (Nat.even o, [("l"%string, RPts nat unit o)])) (fun l => Ok l) [Some 2; Some 3; Some 4] None None =
  ([[OIn nat nat 2; OPts nat nat "out_l" 2 2]; [OIn nat nat 4; OPts nat nat "out_l" 4 4]], Ok 0).
Proof. reflexivity. Qed.
