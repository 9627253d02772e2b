(** C343, C344, C345: what the texts that describe pairings, maps and results tell. *)
From Coq Require Import String Ascii Decimal DecimalString DecimalN.
From Verif Require Import CodecModel SerialModel SerialProps.
From Verif Require Import Base PairingsModel MatcherModel SolverModel QualityModel IcpModel FilterModel DeskewModel MapModel LogFileModel LogNameProps SummaryModel.
Open Scope nat_scope.
Open Scope string_scope.

(** ** Numbers and separators *)
Lemma digits_dec n : all_digits (dec n) = true.
Proof. unfold dec, NilZero.string_of_uint. destruct (N.to_uint n); try reflexivity; apply digits_uint. Qed.
Lemma dec_inj a b : dec a = dec b -> a = b.
Proof. intro H. assert (A := read_dec a). rewrite H, read_dec in A. congruence. Qed.
Lemma to_string_inj a b : to_string a = to_string b -> a = b.
Proof. unfold to_string. intro H. apply dec_inj in H. lia. Qed.
Lemma to_string_split a b x y : to_string a +++ String " " x = to_string b +++ String " " y -> a = b /\ x = y.
Proof.
  intro H. assert (E : to_string a = to_string b) by (apply (digits_split _ _ " "%char x y); [apply digits_dec|apply digits_dec|reflexivity|exact H]).
  split; [apply to_string_inj, E|]. rewrite E in H. apply append_inj in H. injection H. auto.
Qed.

(** ** The summary of the pairings, as a list of entries *)
Definition five : list string := ["point-point"; "point-line"; "point-plane"; "line-line"; "plane-plane"].
Definition item (e : nat * string) : string := to_string (fst e) +++ String " " (snd e).
Fixpoint more (l : list (nat * string)) : string := match l with [] => "" | e :: t => ", " +++ item e +++ more t end.
Definition body (l : list (nat * string)) : string := match l with [] => "" | e :: t => item e +++ more t end.
Definition entry (n : nat) (name : string) : list (nat * string) := match n with O => [] | _ => [(n, name)] end.

Lemma more_snoc l e : more (l ++ [e]) = more l +++ ", " +++ item e.
Proof. induction l as [|x l IH]; cbn [more app]; [rewrite app_nil; reflexivity|]. rewrite IH, !app_assoc_s. reflexivity. Qed.
Lemma item_not_empty e s : is_empty (item e +++ s) = false.
Proof. unfold item. destruct (to_string (fst e)) as [|c r]; reflexivity. Qed.
Lemma append_body {A} (c : list A) name l : append_container_size c name (body l) = body (l ++ entry (List.length c) name).
Proof.
  unfold append_container_size. destruct c as [|x c]; [rewrite List.app_nil_r; reflexivity|]. cbn [isNil entry List.length].
  change (to_string (S (List.length c)) +++ " " +++ name) with (item (S (List.length c), name)). generalize (S (List.length c), name). intro e.
  destruct l as [|y l]; cbn [body List.app]; [cbn [is_empty]; cbn [more]; rewrite app_nil; reflexivity|].
  rewrite item_not_empty, more_snoc, !app_assoc_s. reflexivity.
Qed.

Section Pairs.
Context {PP PL PN LL NN W : Type}.
Notation pairings := (Pairings PP PL PN LL NN W).
Definition entries (p : pairings) : list (nat * string) :=
  ((((entry (List.length (paired_pt2pt p)) "point-point" ++ entry (List.length (paired_pt2ln p)) "point-line")
     ++ entry (List.length (paired_pt2pl p)) "point-plane") ++ entry (List.length (paired_ln2ln p)) "line-line")
     ++ entry (List.length (paired_pl2pl p)) "plane-plane")%list.
Lemma summary_entries p : pairings_empty p = false -> pairings_summary p = body (entries p) +++ " out of " +++ to_string (potential_pairings p).
Proof.
  intro E. unfold pairings_summary. rewrite E. cbv zeta. change "" with (body []). rewrite !append_body. reflexivity.
Qed.
Lemma entry_in n name e : In e (entry n name) -> snd e = name.
Proof. destruct n; [contradiction|]. intros [<- | []]. reflexivity. Qed.
Lemma entries_named p : forall e, In e (entries p) -> In (snd e) five.
Proof.
  unfold entries. intros e H. rewrite !in_app_iff in H. unfold five.
  destruct H as [[[[H | H] | H] | H] | H]; apply entry_in in H; rewrite H; cbn; tauto.
Qed.
Lemma entries_nonempty p : pairings_empty p = false -> entries p <> [].
Proof.
  unfold pairings_empty, entries. destruct (paired_pt2pt p), (paired_pt2ln p), (paired_pt2pl p), (paired_ln2ln p), (paired_pl2pl p); cbn; try discriminate.
Qed.
Fixpoint count (name : string) (l : list (nat * string)) : nat :=
  match l with [] => 0 | (n, k) :: t => (if String.eqb k name then n else 0) + count name t end.
Lemma count_app name a b : count name (a ++ b) = count name a + count name b.
Proof. induction a as [|[n k] a IH]; [reflexivity|]. cbn [count List.app]. rewrite IH. lia. Qed.
Lemma count_entry name n k : count name (entry n k) = if String.eqb k name then n else 0.
Proof. destruct n; cbn [entry count]; destruct (String.eqb k name); lia. Qed.
Lemma count_entries p :
  count "point-point" (entries p) = List.length (paired_pt2pt p) /\ count "point-line" (entries p) = List.length (paired_pt2ln p) /\
  count "point-plane" (entries p) = List.length (paired_pt2pl p) /\ count "line-line" (entries p) = List.length (paired_ln2ln p) /\
  count "plane-plane" (entries p) = List.length (paired_pl2pl p).
Proof. unfold entries. rewrite !count_app, !count_entry. cbn [String.eqb Ascii.eqb Bool.eqb]. repeat split; lia. Qed.
End Pairs.

Lemma more_inj l l' p p' : (forall e, In e l -> In (snd e) five) -> (forall e, In e l' -> In (snd e) five) ->
  more l +++ " out of " +++ to_string p = more l' +++ " out of " +++ to_string p' -> l = l' /\ p = p'.
Proof.
  revert l'. induction l as [|[n k] l IH]; intros [|[n' k'] l'] H H' E; cbn [more] in E.
  - split; [reflexivity|]. apply append_inj, append_inj in E. apply to_string_inj, E.
  - discriminate E.
  - discriminate E.
  - rewrite !app_assoc_s in E. apply (append_inj ", ") in E. unfold item in E. cbn [fst snd] in E. rewrite !app_assoc_s in E. cbn [String.append] in E.
    apply to_string_split in E as [<- E].
    assert (K := H _ (or_introl eq_refl)). assert (K' := H' _ (or_introl eq_refl)). cbn [snd] in K, K'.
    assert (KK : k = k' /\ more l +++ " out of " +++ to_string p = more l' +++ " out of " +++ to_string p').
    { clear IH H H'. unfold five in K, K'. cbn [In] in K, K'.
      destruct K as [<- | [<- | [<- | [<- | [<- | []]]]]]; destruct K' as [<- | [<- | [<- | [<- | [<- | []]]]]]; cbn [String.append] in E;
        first [discriminate E | split; [reflexivity|]; injection E as E; exact E]. }
    destruct KK as [<- EE]. apply IH in EE; [|intros e X; apply H; right; exact X|intros e X; apply H'; right; exact X].
    destruct EE as [-> ->]. split; reflexivity.
Qed.
Lemma body_inj l l' p p' : l <> [] -> l' <> [] -> (forall e, In e l -> In (snd e) five) -> (forall e, In e l' -> In (snd e) five) ->
  body l +++ " out of " +++ to_string p = body l' +++ " out of " +++ to_string p' -> l = l' /\ p = p'.
Proof.
  intros N N' H H' E. apply more_inj; [assumption|assumption|].
  destruct l as [|e l]; [contradiction|]. destruct l' as [|e' l']; [contradiction|]. cbn [body more] in *.
  rewrite !app_assoc_s in *. f_equal. exact E.
Qed.
Lemma body_not_none l s : l <> [] -> body l +++ s <> "none".
Proof.
  destruct l as [|[n k] l]; [contradiction|]. intros _ H. cbn [body item fst snd] in H. unfold item in H. cbn [fst snd] in H. rewrite !app_assoc_s in H.
  assert (D := digits_dec (N.of_nat n)). unfold to_string in H. destruct (dec (N.of_nat n)) as [|c r]; [discriminate H|].
  cbn [String.append] in H. injection H as -> _. discriminate D.
Qed.

(** C343: the summary of a set of pairings is "none" exactly when there is no pairing; otherwise it shows the number
    of pairings of each of the five kinds and the number of potential pairings: two sets with the same summary have the same numbers *)
Theorem C343_none_iff_empty : forall {PP PL PN LL NN W} (p : Pairings PP PL PN LL NN W),
  pairings_summary p = "none" <->
  paired_pt2pt p = [] /\ paired_pt2ln p = [] /\ paired_pt2pl p = [] /\ paired_ln2ln p = [] /\ paired_pl2pl p = [].
Proof.
  intros. split.
  - intro H. destruct (pairings_empty p) eqn:E.
    + unfold pairings_empty in E. destruct (paired_pt2pt p), (paired_pt2ln p), (paired_pt2pl p), (paired_ln2ln p), (paired_pl2pl p); cbn in E; try discriminate E. auto.
    + rewrite (summary_entries p E) in H. apply body_not_none in H; [contradiction|]. apply entries_nonempty, E.
  - intros (A & B & C & D & E). unfold pairings_summary, pairings_empty. rewrite A, B, C, D, E. reflexivity.
Qed.
Print Assumptions C343_none_iff_empty.

Theorem C343_summary_shows_the_numbers : forall {PP PL PN LL NN W PP' PL' PN' LL' NN' W'} (p : Pairings PP PL PN LL NN W) (q : Pairings PP' PL' PN' LL' NN' W'),
  pairings_summary p <> "none" -> pairings_summary p = pairings_summary q ->
  List.length (paired_pt2pt p) = List.length (paired_pt2pt q) /\ List.length (paired_pt2ln p) = List.length (paired_pt2ln q) /\
  List.length (paired_pt2pl p) = List.length (paired_pt2pl q) /\ List.length (paired_ln2ln p) = List.length (paired_ln2ln q) /\
  List.length (paired_pl2pl p) = List.length (paired_pl2pl q) /\ potential_pairings p = potential_pairings q.
Proof.
  intros * N H.
  assert (Ep : pairings_empty p = false). { destruct (pairings_empty p) eqn:E; [|reflexivity]. exfalso. apply N. unfold pairings_summary. rewrite E. reflexivity. }
  assert (Eq : pairings_empty q = false). { destruct (pairings_empty q) eqn:E; [|reflexivity]. exfalso. apply N. rewrite H. unfold pairings_summary. rewrite E. reflexivity. }
  rewrite (summary_entries p Ep), (summary_entries q Eq) in H.
  apply body_inj in H; [|apply entries_nonempty, Ep|apply entries_nonempty, Eq|apply entries_named|apply entries_named]. destruct H as [H PQ].
  destruct (count_entries p) as (A & B & C & D & E). destruct (count_entries q) as (A' & B' & C' & D' & E'). rewrite H in A, B, C, D, E.
  rewrite <- A, <- B, <- C, <- D, <- E, <- A', <- B', <- C', <- D', <- E'. auto 10.
Qed.
Print Assumptions C343_summary_shows_the_numbers.
Example C343_case :
  pairings_summary (@mkPairings nat nat nat nat nat nat [7; 7; 7] [] [5] [] [] [] 12) = "3 point-point, 1 point-plane out of 12" /\
  pairings_summary (@mkPairings nat nat nat nat nat nat [] [] [] [] [] [(3, 1)] 12) = "none".
Proof. split; reflexivity. Qed.

(** ** The summary of a map *)
(** [part] is read somewhere in [whole] *)
Definition inside (part whole : string) : Prop := exists u v, whole = u +++ part +++ v.
Definition valid_heap (h : Heap) (m : MMap) : Prop := forall n a, In (n, Some a) (mm_layers m) -> nth_error h a <> None.

Lemma inside_left a b w : inside w a -> inside w (a +++ b).
Proof. intros (u & v & ->). exists u, (v +++ b). rewrite !app_assoc_s. reflexivity. Qed.
Lemma inside_right a b w : inside w b -> inside w (a +++ b).
Proof. intros (u & v & ->). exists (a +++ u), v. rewrite !app_assoc_s. reflexivity. Qed.
Lemma inside_refl a : inside a a.
Proof. exists "", "". cbn. rewrite app_nil. reflexivity. Qed.
Lemma inside_append r s w : inside w r -> inside w (ret_append r s).
Proof. intro H. unfold ret_append. destruct (is_empty r); apply inside_left; [exact H|apply inside_left, H]. Qed.
Lemma inside_appended r s w : inside w s -> inside w (ret_append r s).
Proof. intro H. unfold ret_append. apply inside_right, H. Qed.

Definition opt_nat_dec (a b : option nat) : {a = b} + {a <> b}.
Proof. decide equality. apply Nat.eq_dec. Defined.

Section Map.
Variable show : Obj -> string.
Variable voxels : Other -> option nat.
Variable units : nat -> string.
Variable geo_text : Georef -> string.
Variable meta_text : list (string * string) -> string.
Notation summary := (map_summary show voxels units geo_text meta_text).

(** the cells of the voxel maps among the layers *)
Fixpoint total_voxels (h : Heap) (ls : list (Name * option Addr)) : nat :=
  match ls with
  | [] => 0
  | (_, Some a) :: t => match nth_error h a with Some (OOther o) => match voxels o with Some n => n | None => 0 end | _ => 0 end + total_voxels h t
  | (_, None) :: t => total_voxels h t
  end.
(** a layer of another class *)
Definition other_layer (h : Heap) (m : MMap) : Prop :=
  exists n a o, In (n, Some a) (mm_layers m) /\ nth_error h a = Some (OOther o) /\ voxels o = None.

Lemma scan_ok h ls : (forall n p, In (n, p) ls -> exists a o, p = Some a /\ nth_error h a = Some o) -> forall np nv b,
  exists b', scan voxels h ls np nv b = Ok (np + size_pts h ls, nv + total_voxels h ls, b') /\
    (b' = true <-> b = true \/ exists n a o, In (n, Some a) ls /\ nth_error h a = Some (OOther o) /\ voxels o = None).
Proof.
  induction ls as [|[n p] ls IH]; intros H np nv b; cbn [scan size_pts total_voxels].
  { exists b. rewrite !Nat.add_0_r. split; [reflexivity|]. split; [auto|]. intros [X | (? & ? & ? & [] & _)]. exact X. }
  destruct (H n p (or_introl eq_refl)) as (a & o & -> & E). rewrite E.
  assert (H' : forall n p, In (n, p) ls -> exists a o, p = Some a /\ nth_error h a = Some o) by (intros n0 p0 X; apply (H n0 p0); right; exact X).
  destruct o as [c | o].
  - destruct (IH H' (np + List.length (cl_pts c)) nv b) as (b' & -> & B). exists b'. split; [f_equal; f_equal; f_equal; lia|].
    rewrite B. split; (intros [X | (m & x & o & I & Eo & V)]; [left; exact X|]).
    + right. exists m, x, o. split; [right; exact I|auto].
    + right. destruct I as [I | I]; [injection I as <- <-; congruence|]. exists m, x, o. auto.
  - destruct (voxels o) as [k|] eqn:V0.
    + destruct (IH H' np (nv + k) b) as (b' & -> & B). exists b'. split; [f_equal; f_equal; f_equal; lia|].
      rewrite B. split; (intros [X | (m & x & o' & I & Eo & V)]; [left; exact X|]).
      * right. exists m, x, o'. split; [right; exact I|auto].
      * right. destruct I as [I | I]; [injection I as <- <-; congruence|]. exists m, x, o'. auto.
    + destruct (IH H' np nv true) as (b' & -> & B). exists b'. split; [f_equal; f_equal; f_equal; lia|].
      rewrite B. split; [intros _; right; exists n, a, o; split; [left; reflexivity|auto]|left; reflexivity].
Qed.
Lemma scan_throws h ls : (forall n a, In (n, Some a) ls -> nth_error h a <> None) -> (exists n, In (n, None) ls) -> forall np nv b, scan voxels h ls np nv b = Throw.
Proof.
  induction ls as [|[n p] ls IH]; intros V [k K] np nv b; [contradiction|]. cbn [scan].
  destruct p as [a|]; [|reflexivity]. destruct K as [K | K]; [discriminate K|].
  assert (V' : forall n a, In (n, Some a) ls -> nth_error h a <> None) by (intros n0 a0 X; apply (V n0 a0); right; exact X).
  assert (N := V n a (or_introl eq_refl)). destruct (nth_error h a) as [[c | o]|]; [| |contradiction].
  - apply IH; [exact V'|exists k; exact K].
  - destruct (voxels o); apply IH; solve [exact V'|exists k; exact K].
Qed.
Lemma names_keep h ls : forall ret w, inside w ret -> inside w (layer_names show h ls ret).
Proof. induction ls as [|[n p] ls IH]; intros ret w H; cbn [layer_names]; [exact H|]. apply IH, inside_left, H. Qed.
Lemma names_inside h ls : forall ret n a o, In (n, Some a) ls -> nth_error h a = Some o ->
  inside (String """" n +++ String """" (":" +++ show o)) (layer_names show h ls ret).
Proof.
  induction ls as [|[k p] ls IH]; intros ret n a o I E; [contradiction|]. cbn [layer_names]. destruct I as [I | I]; [|apply (IH _ n a o I E)].
  injection I as -> ->. apply names_keep, inside_right. rewrite E. exists "", " ". repeat first [rewrite !app_assoc_s | progress cbn [String.append]]. reflexivity.
Qed.

(** C344: a summary is always given, except for a map with a null layer, which throws *)
Theorem C344_throws : forall h m, valid_heap h m ->
  (summary h m = Throw <-> exists n, In (n, None) (mm_layers m)) /\ (summary h m <> Throw -> exists s, summary h m = Ok s).
Proof.
  intros h m V. unfold map_summary. destruct (mm_empty m) eqn:E.
  - split; [|intros _; eexists; reflexivity]. split; [discriminate|]. intros [n I]. exfalso. unfold mm_empty in E. destruct (mm_layers m); [contradiction|discriminate E].
  - cbv zeta. destruct (in_dec opt_nat_dec None (map snd (mm_layers m))) as [N | N].
    + apply in_map_iff in N as ([n p] & P & I). cbn [snd] in P. subst p.
      rewrite (scan_throws h (mm_layers m) V) by (exists n; exact I). cbn [rbind]. split; [|intro X; contradiction X; reflexivity].
      split; [intros _; exists n; exact I|reflexivity].
    + destruct (scan_ok h (mm_layers m)) with (np := 0) (nv := 0) (b := false) as (b' & Ek & _).
      { intros n [a|] I; [|exfalso; apply N, in_map_iff; exists (n, None); auto]. assert (X := V n a I). destruct (nth_error h a) as [o|] eqn:Eo; [|contradiction]. exists a, o. auto. }
      rewrite Ek. cbn [rbind]. split; [|intros _; eexists; reflexivity]. split; [discriminate|].
      intros [n I]. exfalso. apply N, in_map_iff. exists (n, None). auto.
Qed.

(** C344 (refuted): the summary of a map that is not empty names its layers.  A map whose layers hold no points is not
    empty and may have a blank summary. *)
Theorem C344_names_every_layer_refuted : exists h m, valid_heap h m /\ mm_empty m = false /\ List.length (mm_layers m) = 1 /\ summary h m = Ok "".
Proof.
  exists [OPts (mkCloud SimplePoints [])], (mkMM [("raw", Some 0)] [] [] None None None []). split; [|split; [|split]; reflexivity].
  intros n a [H | []]. injection H as <- <-. discriminate.
Qed.

(** where it does, exactly: some layer has a point or a voxel, or is of another class.  Then it shows the number of
    points (that of size_points_only()), of voxels and of layers, and each layer by its name and its own text; the
    number of lines and of planes whenever there is one *)
Theorem C344_names_every_layer_where : forall h m s, valid_heap h m -> summary h m = Ok s ->
  (0 < size_pts h (mm_layers m) \/ 0 < total_voxels h (mm_layers m) \/ other_layer h m) ->
  inside (units (size_pts h (mm_layers m)) +++ " points, " +++ units (total_voxels h (mm_layers m)) +++ " voxels in " +++ to_string (List.length (mm_layers m)) +++ " layers (") s /\
  forall n a o, In (n, Some a) (mm_layers m) -> nth_error h a = Some o -> inside (String """" n +++ String """" (":" +++ show o)) s.
Proof.
  intros h m s V S C. assert (NN : forall n, ~ In (n, None) (mm_layers m)).
  { intros n I. destruct (C344_throws h m V) as [[_ T] _]. rewrite (T (ex_intro _ n I)) in S. discriminate S. }
  destruct (scan_ok h (mm_layers m)) with (np := 0) (nv := 0) (b := false) as (b' & Ek & B).
  { intros n [a|] I; [|destruct (NN n I)]. assert (X := V n a I). destruct (nth_error h a) as [o|] eqn:Eo; [|contradiction]. exists a, o. auto. }
  unfold map_summary in S. destruct (mm_empty m) eqn:E.
  { exfalso. unfold mm_empty in E. unfold other_layer in C. destruct (mm_layers m); [|discriminate E]. cbn in C.
    destruct C as [C | [C | (n & a & o & [] & _)]]; lia. }
  cbv zeta in S. rewrite Ek in S. cbn [rbind] in S. rewrite !Nat.add_0_l in S.
  assert (CC : negb (Nat.eqb (size_pts h (mm_layers m)) 0) || negb (Nat.eqb (total_voxels h (mm_layers m)) 0) || b' = true).
  { rewrite !orb_true_iff, !negb_true_iff, !Nat.eqb_neq. destruct C as [C | [C | C]]; [left; left; lia|left; right; lia|right; apply B; right; exact C]. }
  rewrite CC in S. injection S as <-.
  match goal with |- context [layer_names show h (mm_layers m) (ret_append ?r ?t)] => set (r0 := r); set (t0 := t) end.
  assert (K : forall w, inside w (layer_names show h (mm_layers m) (ret_append r0 t0)) ->
     inside w (if isNil (mm_meta m) then layer_names show h (mm_layers m) (ret_append r0 t0) +++ ")"
       else ret_append (layer_names show h (mm_layers m) (ret_append r0 t0) +++ ")") ("metadata: '" +++ meta_text (mm_meta m) +++ "' "))).
  { intros w H. destruct (isNil (mm_meta m)); [|apply inside_append]; apply inside_left, H. }
  split; [apply K, names_keep, inside_appended, inside_refl|]. intros n a o I Eo. apply K. apply (names_inside _ _ _ n a o I Eo).
Qed.

Theorem C344_lines_and_planes : forall h m s, summary h m = Ok s ->
  (mm_lines m <> [] -> inside (to_string (List.length (mm_lines m)) +++ " lines") s) /\
  (mm_planes m <> [] -> inside (to_string (List.length (mm_planes m)) +++ " planes") s) /\
  (mm_meta m <> [] -> mm_empty m = false -> inside ("metadata: '" +++ meta_text (mm_meta m) +++ "' ") s) /\
  (forall i, mm_id m = Some i -> inside ("id=" +++ to_string i +++ " ") s) /\
  (forall l, mm_label m = Some l -> inside ("label='" +++ l +++ "' ") s) /\
  (forall g, mm_geo m = Some g -> inside ("georeferenced: " +++ geo_text g) s).
Proof.
  intros h m s S. unfold map_summary in S. cbv zeta in S.
  set (r1 := match mm_id m with Some i => "" +++ ("id=" +++ to_string i +++ " ") | None => "" end) in S.
  set (r2 := match mm_label m with Some l => r1 +++ ("label='" +++ l +++ "' ") | None => r1 end) in S.
  set (r3 := match mm_geo m with Some g => r2 +++ ("georeferenced: " +++ geo_text g) | None => r2 end) in S.
  assert (I1 : forall i, mm_id m = Some i -> inside ("id=" +++ to_string i +++ " ") r1) by (intros i E; unfold r1; rewrite E; apply inside_right, inside_refl).
  assert (K2 : forall w, inside w r1 -> inside w r2) by (intros w H; unfold r2; destruct (mm_label m); [apply inside_left|]; exact H).
  assert (I2 : forall l, mm_label m = Some l -> inside ("label='" +++ l +++ "' ") r2) by (intros l E; unfold r2; rewrite E; apply inside_right, inside_refl).
  assert (K3 : forall w, inside w r2 -> inside w r3) by (intros w H; unfold r3; destruct (mm_geo m); [apply inside_left|]; exact H).
  assert (I3 : forall g, mm_geo m = Some g -> inside ("georeferenced: " +++ geo_text g) r3) by (intros g E; unfold r3; rewrite E; apply inside_right, inside_refl).
  destruct (mm_empty m) eqn:Em.
  - injection S as <-. unfold mm_empty in Em. destruct (mm_layers m); [|discriminate Em]. destruct (mm_lines m); [|discriminate Em]. destruct (mm_planes m); [|discriminate Em].
    split; [intro X; contradiction X; reflexivity|]. split; [intro X; contradiction X; reflexivity|]. split; [discriminate|].
    split; [|split]; intros x E; apply inside_left; auto.
  - set (r4 := if isNil (mm_lines m) then r3 else _) in S. set (r5 := if isNil (mm_planes m) then r4 else _) in S.
    assert (K4 : forall w, inside w r3 -> inside w r4) by (intros w H; unfold r4; destruct (isNil (mm_lines m)); [|apply inside_append]; exact H).
    assert (I4 : mm_lines m <> [] -> inside (to_string (List.length (mm_lines m)) +++ " lines") r4).
    { intro X. unfold r4. destruct (mm_lines m); [contradiction X; reflexivity|]. apply inside_appended, inside_refl. }
    assert (K5 : forall w, inside w r4 -> inside w r5) by (intros w H; unfold r5; destruct (isNil (mm_planes m)); [|apply inside_append]; exact H).
    assert (I5 : mm_planes m <> [] -> inside (to_string (List.length (mm_planes m)) +++ " planes") r5).
    { intro X. unfold r5. destruct (mm_planes m); [contradiction X; reflexivity|]. apply inside_appended, inside_refl. }
    clearbody r1 r2 r3 r4 r5.
    destruct (scan voxels h (mm_layers m) 0 0 false) as [[[np nv] b]| |]; [|discriminate S|discriminate S]. cbn [rbind] in S. injection S as S.
    set (r6 := if negb (Nat.eqb np 0) || negb (Nat.eqb nv 0) || b then _ else r5) in S.
    assert (K6 : forall w, inside w r5 -> inside w r6).
    { intros w H. unfold r6. destruct (negb (Nat.eqb np 0) || negb (Nat.eqb nv 0) || b); [|exact H]. apply inside_left, names_keep, inside_append, H. }
    clearbody r6.
    assert (K7 : forall w, inside w r6 -> inside w s) by (intros w H; rewrite <- S; destruct (isNil (mm_meta m)); [|apply inside_append]; exact H).
    split; [auto|]. split; [auto|]. split; [|split; [|split]; intros x E; auto 10].
    intros X _. rewrite <- S. destruct (mm_meta m); [contradiction X; reflexivity|]. cbn [isNil]. apply inside_appended, inside_refl.
Qed.
(** an empty map says so (its metadata is not shown) *)
Theorem C344_empty_map : forall h m, mm_empty m = true -> exists head, summary h m = Ok (head +++ "empty") /\
  (mm_id m = None -> mm_label m = None -> mm_geo m = None -> head = "").
Proof.
  intros h m E. unfold map_summary. rewrite E. eexists. split; [reflexivity|]. intros A B C. rewrite A, B, C. reflexivity.
Qed.
End Map.
Print Assumptions C344_throws.
Print Assumptions C344_names_every_layer_where.
Print Assumptions C344_lines_and_planes.
Print Assumptions C344_empty_map.

Definition a_cloud (n : nat) : Cloud := mkCloud SimplePoints (repeat (mkPt 0 0 0 0 0 0) n).
Example C344_case :
  let show := fun o => match o with OPts _ => "P" | OOther _ => "G" end in
  map_summary show (fun _ => None) to_string (fun _ => "") (fun _ => "")
    [OPts (a_cloud 2); OOther (mkOther 0 None None)] (mkMM [("raw", Some 0); ("grid", Some 1)] [] [] (Some 7) (Some "a") None [])
  = Ok ("id=7 label='a' , 2 points, 0 voxels in 2 layers (" +++ String """" "raw" +++ String """" ":P " +++ String """" "grid" +++ String """" ":G )").
Proof. reflexivity. Qed.

(** ** Printing results *)
(** C345: the results of ICP::align() can be printed whatever the reason to stop was, also after they were written to an archive and read
    back; the text has the name of the reason and the summary of the pairings *)
Theorem C345_results_print : forall (X : Ext) (old r : SerialModel.Results X) rest names k pose quality iters, ext_ok X -> good_results X r ->
  res_reason X r = reason_code k ->
  exists r' s, r_results X old (w_results X r ++ rest)%list = Ok (r', rest) /\
    results_print (value2name names) pose quality iters (res_reason X r') (res_pairings X r') = Ok s /\
    inside (String "010" "- terminationReason: " +++ names k +++ String "010" "") s /\
    inside ("- finalPairings: " +++ pairings_summary (res_pairings X r) +++ String "010" "") s /\
    inside ("- quality: " +++ quality +++ " %") s /\ inside ("- iterations: " +++ iters) s /\ inside ("- optimalPoseLocalWrtGlobal: " +++ pose) s.
Proof.
  intros X old r rest names k pose quality iters HX G E. exists r. eexists. split; [apply C60_results_roundtrip; assumption|]. rewrite E.
  assert (V : value2name names (reason_code k) = Some (names k)) by (destruct k; reflexivity).
  unfold results_print. rewrite V. split; [reflexivity|].
  generalize (pairings_summary (res_pairings X r)) (names k). intros ps nm.
  split; [exists ("- optimalPoseLocalWrtGlobal: " +++ pose +++ String "010" "- quality: " +++ quality +++ " %" +++ String "010" "- iterations: " +++ iters), ("- finalPairings: " +++ ps +++ String "010" "")
   |split; [exists ("- optimalPoseLocalWrtGlobal: " +++ pose +++ String "010" "- quality: " +++ quality +++ " %" +++ String "010" "- iterations: " +++ iters +++ String "010" "- terminationReason: " +++ nm +++ String "010" ""), ""
   |split; [exists ("- optimalPoseLocalWrtGlobal: " +++ pose +++ String "010" ""), (String "010" "- iterations: " +++ iters +++ String "010" "- terminationReason: " +++ nm +++ String "010" "- finalPairings: " +++ ps +++ String "010" "")
   |split; [exists ("- optimalPoseLocalWrtGlobal: " +++ pose +++ String "010" "- quality: " +++ quality +++ " %" +++ String "010" ""), (String "010" "- terminationReason: " +++ nm +++ String "010" "- finalPairings: " +++ ps +++ String "010" "")
   |exists "", (String "010" "- quality: " +++ quality +++ " %" +++ String "010" "- iterations: " +++ iters +++ String "010" "- terminationReason: " +++ nm +++ String "010" "- finalPairings: " +++ ps +++ String "010" "")]]]];
  repeat first [rewrite !app_assoc_s | progress cbn [String.append] | rewrite !app_nil]; reflexivity.
Qed.
Print Assumptions C345_results_print.

(** C345 (refuted): whatever is read from an archive without an error can be printed.  The byte of the reason is not checked when it is read. *)
Theorem C345_what_is_read_prints_refuted : forall (X : Ext) (old r : SerialModel.Results X) rest names pose quality iters, ext_ok X -> good_results X r ->
  (6 < res_reason X r)%N ->
  r_results X old (w_results X r ++ rest)%list = Ok (r, rest) /\
  results_print (value2name names) pose quality iters (res_reason X r) (res_pairings X r) = Throw.
Proof.
  intros X old r rest names pose quality iters HX G E. split; [apply C60_results_roundtrip; assumption|].
  unfold results_print. assert (V : value2name names (res_reason X r) = None); [|rewrite V; reflexivity].
  destruct (res_reason X r) as [|[[[p|p|]|[p|p|]|]|[[p|p|]|[p|p|]|]|]]; try reflexivity; lia.
Qed.
Print Assumptions C345_what_is_read_prints_refuted.
Theorem C345_what_is_read_prints_where : forall (X : Ext) (r : SerialModel.Results X) names pose quality iters,
  (exists s, results_print (value2name names) pose quality iters (res_reason X r) (res_pairings X r) = Ok s) <-> (res_reason X r <= 6)%N.
Proof.
  intros X r names pose quality iters. unfold results_print. split.
  - intros [s H]. destruct (value2name names (res_reason X r)) eqn:V; [|discriminate H].
    destruct (res_reason X r) as [|[[[p|p|]|[p|p|]|]|[[p|p|]|[p|p|]|]|]]; first [discriminate V | lia].
  - intro H. assert (K : exists k, res_reason X r = reason_code k).
    { destruct (res_reason X r) as [|[[[p|p|]|[p|p|]|]|[[p|p|]|[p|p|]|]|]];
      first [exfalso; lia | exists Undefined; reflexivity | exists NoPairings; reflexivity | exists SolverError; reflexivity | exists MaxIterations; reflexivity
        | exists Stalled; reflexivity | exists QualityCheckpointFailed; reflexivity | exists HookRequest; reflexivity]. }
    destruct K as [k ->]. destruct k; eexists; reflexivity.
Qed.
Print Assumptions C345_what_is_read_prints_where.
Example C345_case : ext_ok X1 /\ good_results X1 (mkR X1 1 2 3 4 5 pr1)%N /\ res_reason X1 (mkR X1 1 2 3 4 5 pr1)%N = reason_code Stalled /\
  good_results X1 (mkR X1 1 2 3 200 5 pr1)%N /\ (6 < res_reason X1 (mkR X1 1 2 3 200 5 pr1))%N.
Proof.
  split; [exact X1_ok|]. assert (G := pr1_good). split; [|split; [reflexivity|split; [|reflexivity]]];
  (split; [reflexivity|split; [reflexivity|split; [reflexivity|split; [reflexivity|split; [reflexivity|exact G]]]]]).
Qed.
