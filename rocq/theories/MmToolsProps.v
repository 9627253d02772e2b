(** C226-C237: the programs mm-georef, mm-filter and mm2txt. *)
From Coq Require Import String Ascii Lia OrderedTypeEx.
From Verif Require Import Base MmToolsModel.
Open Scope nat_scope.

Section Props.
Variables (Line Plane G Yaml : Type) (to_yaml : option G -> Yaml) (from_yaml : Yaml -> res (option G)).
Notation MM := (MM Line Plane G).
Notation Content := (Content Line Plane G Yaml).
Notation FS := (FS Line Plane G Yaml).
Notation Files := (Files Line Plane G Yaml).
Notation Step := (Step Line Plane G Yaml).
Variables (pipeline : string -> option (MM -> res MM)) (base_name : string -> string).
Notation CM := (CMap Line Plane G Yaml).
Notation CG := (CGeo Line Plane G Yaml).
Notation CY := (CYaml Line Plane G Yaml).
Notation CT := (CText Line Plane G Yaml).
Notation Junk := (CJunk Line Plane G Yaml).
Notation georef ot := (mm_georef Line Plane G Yaml ot to_yaml from_yaml).
Notation filter_ ot := (mm_filter Line Plane G Yaml ot pipeline).
Notation mm2txt_ ot := (mm2txt Line Plane G Yaml ot base_name).
Notation after := (after Line Plane G Yaml).
Notation crash_at := (crash_at Line Plane G Yaml).
Notation wbnd := (wbnd Line Plane G Yaml).

(** ** Vocabulary *)
(** the file [f] can be opened and holds [c] *)
Definition has (fs : FS) (f : string) (c : Content) : Prop := fs_files _ _ _ _ fs f = Some c /\ fs_read _ _ _ _ fs f = true.
Definition can_write (fs : FS) (f : string) : Prop := fs_write _ _ _ _ fs f = true.
(** [fs] with the files [s] *)
Definition with_files (fs : FS) (s : Files) : FS := mkFS Line Plane G Yaml s (fs_read _ _ _ _ fs) (fs_write _ _ _ _ fs).
(** [m'] is [m] but for the georeferencing, which is [g] *)
Definition same_but_geo (m m' : MM) (g : option G) : Prop :=
  m_layers _ _ _ m' = m_layers _ _ _ m /\ m_lines _ _ _ m' = m_lines _ _ _ m /\ m_planes _ _ _ m' = m_planes _ _ _ m /\
  m_id _ _ _ m' = m_id _ _ _ m /\ m_label _ _ _ m' = m_label _ _ _ m /\ m_geo _ _ _ m' = g.
(** the file [f] holds the georeferencing [g], in the format that its extension tells *)
Definition has_geo (fs : FS) (f : string) (g : option G) : Prop :=
  (is_binary_file f = true /\ has fs f (CG g)) \/
  (is_binary_file f = false /\ exists y, has fs f (CY y) /\ from_yaml y = Ok g).

(** ** Lemmas *)
Lemma wbnd_ok {A B} (a : A) (f : A -> W Line Plane G Yaml B) : wbnd ([], Ok a) f = f a.
Proof. cbn. destruct (f a); reflexivity. Qed.
Lemma load_ok ot fs f m : has fs f (CM m) -> load_from_file Line Plane G Yaml ot fs f = ([], Ok (true, m)).
Proof. intros [E R]. unfold load_from_file, opens. rewrite R, E. reflexivity. Qed.
Lemma read_geo_ok fs f g : has_geo fs f g -> read_geo Line Plane G Yaml from_yaml fs f = Ok g.
Proof.
  unfold read_geo, opens. intros [[B [E R]]|[B (y & [E R] & Y)]]; rewrite R, E, B; [reflexivity|exact Y].
Qed.
Lemma put_same s f c : put Line Plane G Yaml s f c f = Some c.
Proof. unfold put. rewrite String.eqb_refl. reflexivity. Qed.
Lemma put_other s f c g : g <> f -> put Line Plane G Yaml s f c g = s g.
Proof. intro N. unfold put. destruct (String.eqb_spec g f); [contradiction|reflexivity]. Qed.
Lemma write_at s f c k g : crash_at s [Trunc _ _ _ _ f; Put _ _ _ _ f c] k g =
  if String.eqb g f then match k with 0 => s f | 1 => Some Junk | _ => Some c end else s g.
Proof.
  unfold MmToolsModel.crash_at. destruct k as [|[|k]]; cbn [firstn fold_left do_step].
  - destruct (String.eqb_spec g f) as [->|N]; reflexivity.
  - destruct (String.eqb_spec g f) as [->|N]; [apply put_same|apply put_other; exact N].
  - rewrite firstn_nil. cbn [fold_left]. destruct (String.eqb_spec g f) as [->|N]; [apply put_same|]. rewrite !put_other by exact N. reflexivity.
Qed.
Lemma write_after s f c g : after s [Trunc _ _ _ _ f; Put _ _ _ _ f c] g = if String.eqb g f then Some c else s g.
Proof. change (after s _ g) with (crash_at s [Trunc _ _ _ _ f; Put _ _ _ _ f c] 2 g). rewrite write_at. reflexivity. Qed.

(** ** mm-georef *)
Definition geo_set (m : MM) (g : option G) : MM := mkMM Line Plane G (m_layers _ _ _ m) (m_lines _ _ _ m) (m_planes _ _ _ m) g (m_id _ _ _ m) (m_label _ _ _ m).
Lemma inject_run ot fs map geo m g : has fs map (CM m) -> has_geo fs geo g -> can_write fs map ->
  georef ot fs map geo false true = ([Trunc _ _ _ _ map; Put _ _ _ _ map (CM (geo_set m g))], Ok 0).
Proof.
  intros M Gg Wr. unfold mm_georef, run_mm_inject, lift. rewrite (read_geo_ok fs geo g Gg), wbnd_ok, (load_ok ot fs map m M), wbnd_ok.
  unfold save_to_file. rewrite Wr. reflexivity.
Qed.

(** C226: `mm-georef --inject-to-map` sets the georeferencing of the map to that of the file and keeps the
    rest of the map and all the other files. *)
Theorem C226_inject_sets_only_the_georeferencing : forall ot fs map geo m g,
  has fs map (CM m) -> has_geo fs geo g -> can_write fs map ->
  exists ss, georef ot fs map geo false true = (ss, Ok 0) /\
    (exists m', after (fs_files _ _ _ _ fs) ss map = Some (CM m') /\ same_but_geo m m' g) /\
    forall f, f <> map -> after (fs_files _ _ _ _ fs) ss f = fs_files _ _ _ _ fs f.
Proof.
  intros ot fs map geo m g M Gg Wr. eexists. split; [exact (inject_run ot fs map geo m g M Gg Wr)|]. split.
  - exists (geo_set m g). split; [rewrite write_after, String.eqb_refl; reflexivity|]. unfold same_but_geo, geo_set. cbn. auto 10.
  - intros f N. rewrite write_after. destruct (String.eqb_spec f map); [contradiction|reflexivity].
Qed.

(** C227: extracting from a map (with layers) to a `.georef` file and injecting that into a second map
    gives the second map exactly the georeferencing of the first. *)
Theorem C227_extract_then_inject : forall ot fs map1 map2 geo m1 m2, is_binary_file geo = true ->
  geo <> map2 -> has fs map1 (CM m1) -> is_empty _ _ _ m1 = false -> has fs map2 (CM m2) -> can_write fs geo -> fs_read _ _ _ _ fs geo = true -> can_write fs map2 ->
  exists ss ss', georef ot fs map1 geo true false = (ss, Ok 0) /\
    georef ot (with_files fs (after (fs_files _ _ _ _ fs) ss)) map2 geo false true = (ss', Ok 0) /\
    exists m', after (after (fs_files _ _ _ _ fs) ss) ss' map2 = Some (CM m') /\ same_but_geo m2 m' (m_geo _ _ _ m1).
Proof.
  intros ot fs map1 map2 geo m1 m2 B N M1 E1 M2 Wg Rg W2.
  exists [Trunc _ _ _ _ geo; Put _ _ _ _ geo (CG (m_geo _ _ _ m1))], [Trunc _ _ _ _ map2; Put _ _ _ _ map2 (CM (geo_set m2 (m_geo _ _ _ m1)))]. split; [|split].
  - unfold mm_georef, run_mm_extract. rewrite (load_ok ot fs map1 m1 M1), wbnd_ok, E1. unfold wassert, wret. cbn [negb]. rewrite wbnd_ok, B, Wg. reflexivity.
  - apply inject_run.
    + split; [|exact (proj2 M2)]. cbn [with_files fs_files]. rewrite write_after. destruct (String.eqb_spec map2 geo) as [->|_]; [contradiction|exact (proj1 M2)].
    + left. split; [exact B|]. split; [|exact Rg]. cbn [with_files fs_files]. rewrite write_after, String.eqb_refl. reflexivity.
    + exact W2.
  - exists (geo_set m2 (m_geo _ _ _ m1)). split; [rewrite write_after, String.eqb_refl; reflexivity|]. unfold same_but_geo, geo_set. cbn. auto 10.
Qed.

(** C228: injecting into a map file that cannot be read does not fail: the result of loading is ignored
    and the file is replaced by a map with nothing but the georeferencing. *)
Theorem C228_unreadable_map_is_replaced_refuted : forall fs map geo m g, fs_files _ _ _ _ fs map = Some (CM m) ->
  fs_read _ _ _ _ fs map = false -> has_geo fs geo g -> can_write fs map ->
  exists ss, georef false fs map geo false true = (ss, Ok 0) /\
    after (fs_files _ _ _ _ fs) ss map = Some (CM (mkMM Line Plane G [] [] [] g None None)).
Proof.
  intros fs map geo m g E R Gg Wr. unfold mm_georef, run_mm_inject, lift. rewrite (read_geo_ok fs geo g Gg), wbnd_ok.
  unfold load_from_file, opens. rewrite R. unfold wret. rewrite wbnd_ok. unfold save_to_file. rewrite Wr. cbn [MmToolsModel.wbnd wret app exit_code wassert]. eexists. split; [reflexivity|].
  rewrite write_after, String.eqb_refl. reflexivity.
Qed.
(** Where the file can be opened, or the stream constructor throws, a file that is not a map makes it fail
    and is left as it was. *)
Theorem C228_bad_map_where : forall ot fs map geo, (forall m, ~ has fs map (CM m)) ->
  ot = true \/ (fs_read _ _ _ _ fs map = true /\ fs_files _ _ _ _ fs map <> None) ->
  georef ot fs map geo false true = ([], Ok 1) \/ georef ot fs map geo false true = ([], UB).
Proof.
  intros ot fs map geo N D. unfold mm_georef, run_mm_inject, lift. destruct (read_geo Line Plane G Yaml from_yaml fs geo) as [g| |]; [|left; reflexivity|right; reflexivity].
  left. rewrite wbnd_ok. unfold load_from_file, opens.
  destruct (fs_read _ _ _ _ fs map) eqn:R.
  - destruct (fs_files _ _ _ _ fs map) as [[m| | | |]|] eqn:E; try reflexivity.
    + exfalso. exact (N m (conj E R)).
    + destruct D as [->|[_ D]]; [reflexivity|contradiction].
  - destruct D as [->|[D _]]; [reflexivity|discriminate].
Qed.

(** C229: exit code 0 of an injection does not mean that the map was updated: the result of saving is ignored. *)
Theorem C229_unwritable_map_exits_with_0_refuted : forall fs map geo m g, has fs map (CM m) -> has_geo fs geo g -> fs_write _ _ _ _ fs map = false ->
  georef false fs map geo false true = ([], Ok 0).
Proof.
  intros fs map geo m g M Gg Wr. unfold mm_georef, run_mm_inject, lift. rewrite (read_geo_ok fs geo g Gg), wbnd_ok, (load_ok false fs map m M), wbnd_ok.
  unfold save_to_file. rewrite Wr. reflexivity.
Qed.
(** Where the map can be written, or the stream constructor throws, it does. *)
Theorem C229_exit_code_where : forall ot fs map geo ss, ot = true \/ can_write fs map ->
  georef ot fs map geo false true = (ss, Ok 0) ->
  exists m g, read_geo Line Plane G Yaml from_yaml fs geo = Ok g /\ after (fs_files _ _ _ _ fs) ss map = Some (CM m) /\ m_geo _ _ _ m = g.
Proof.
  intros ot fs map geo ss D. unfold mm_georef, run_mm_inject, lift. destruct (read_geo Line Plane G Yaml from_yaml fs geo) as [g| |]; [|discriminate|discriminate].
  rewrite wbnd_ok. destruct (load_from_file Line Plane G Yaml ot fs map) as [e0 r] eqn:L. 
  assert (e0 = []) as -> by (unfold load_from_file, wthrow, wret in L; destruct (opens _ _ _ _ fs map) as [[]|]; try destruct ot; congruence).
  destruct r as [[b m]| |]; [|discriminate|discriminate]. rewrite wbnd_ok. unfold save_to_file. destruct (fs_write _ _ _ _ fs map) eqn:Wr.
  - cbn [MmToolsModel.wbnd wret app exit_code]. intro H. injection H as <-. eexists _, g. split; [reflexivity|]. split; [rewrite write_after, String.eqb_refl; reflexivity|reflexivity].
  - destruct D as [->|D]; [discriminate|]. unfold can_write in D. congruence.
Qed.

(** C230: an injection that is interrupted may leave the map file in neither its old nor its new state: the
    file is written in place, *)
Theorem C230_interrupted_injection_loses_the_map_refuted : forall ot fs map geo m g, has fs map (CM m) -> has_geo fs geo g -> can_write fs map ->
  exists ss k, georef ot fs map geo false true = (ss, Ok 0) /\ crash_at (fs_files _ _ _ _ fs) ss k map = Some Junk.
Proof.
  intros ot fs map geo m g M Gg Wr. eexists _, 1. split; [exact (inject_run ot fs map geo m g M Gg Wr)|]. rewrite write_at, String.eqb_refl. reflexivity.
Qed.
(** and this window is the only one: before it the map is the old one, after it the new one, and the other
    files, that with the georeferencing included, are as before at every point. *)
Theorem C230_crash_points_where : forall ot fs map geo m g, has fs map (CM m) -> has_geo fs geo g -> can_write fs map ->
  exists ss m', georef ot fs map geo false true = (ss, Ok 0) /\ same_but_geo m m' g /\
    forall k, (k <> 1 -> crash_at (fs_files _ _ _ _ fs) ss k map = Some (CM m) \/ crash_at (fs_files _ _ _ _ fs) ss k map = Some (CM m')) /\
      forall f, f <> map -> crash_at (fs_files _ _ _ _ fs) ss k f = fs_files _ _ _ _ fs f.
Proof.
  intros ot fs map geo m g M Gg Wr. eexists _, (geo_set m g). split; [exact (inject_run ot fs map geo m g M Gg Wr)|].
  split; [unfold same_but_geo, geo_set; cbn; auto 10|]. intro k. split.
  - intro N. rewrite write_at, String.eqb_refl. destruct k as [|[|k]]; [left; exact (proj1 M)|contradiction|right; reflexivity].
  - intros f N. rewrite write_at. destruct (String.eqb_spec f map); [contradiction|reflexivity].
Qed.

(** ** mm-filter *)
(** [s] has no character '|' *)
Fixpoint no_bar (s : string) : Prop := match s with EmptyString => True | String c r => c <> "|"%char /\ no_bar r end.
Lemma append_nil s : (s ++ "")%string = s.
Proof. induction s as [|c s IH]; [reflexivity|]. cbn. rewrite IH. reflexivity. Qed.
Lemma append_assoc a b c : ((a ++ b) ++ c)%string = (a ++ b ++ c)%string.
Proof. induction a as [|x a IH]; [reflexivity|]. cbn. rewrite IH. reflexivity. Qed.
Lemma tokens_run : forall s cur rest, no_bar s -> tokens "|" cur (s ++ String "|" rest) =
  if String.eqb (cur ++ s) "" then tokens "|" "" rest else (cur ++ s)%string :: tokens "|" "" rest.
Proof.
  induction s as [|c s IH]; intros cur rest N.
  - cbn [append tokens]. rewrite append_nil. reflexivity.
  - destruct N as [N1 N2]. cbn [append tokens]. destruct (Ascii.eqb_spec c "|"); [contradiction|]. rewrite (IH _ rest N2), append_assoc. reflexivity.
Qed.
Lemma tokens_end : forall s cur, no_bar s -> tokens "|" cur s = if String.eqb (cur ++ s) "" then [] else [(cur ++ s)%string].
Proof.
  induction s as [|c s IH]; intros cur N; cbn [tokens]; [rewrite append_nil; reflexivity|].
  destruct N as [N1 N2]. destruct (Ascii.eqb_spec c "|"); [contradiction|]. rewrite (IH _ N2), append_assoc. reflexivity.
Qed.
Lemma tokenize_pair a b : no_bar a -> no_bar b -> a <> ""%string -> b <> ""%string -> tokenize (a ++ "|" ++ b) = [a; b].
Proof.
  intros Na Nb Ea Eb. unfold tokenize. cbn [append]. rewrite (tokens_run a "" b Na), (tokens_end b "" Nb). cbn [append].
  destruct (String.eqb_spec a ""); [contradiction|]. destruct (String.eqb_spec b ""); [contradiction|]. reflexivity.
Qed.

Notation layer m n := (MmToolsModel.find (m_layers Line Plane G m) n).
Lemma find_set {A} (l : list (string * A)) n v k : MmToolsModel.find (set_ l n v) k = if String.eqb n k then Some v else MmToolsModel.find l k.
Proof.
  induction l as [|[k0 w] l IH]; cbn [set_ MmToolsModel.find].
  - destruct (String.eqb n k); reflexivity.
  - destruct (String.eqb_spec k0 n) as [->|N].
    + cbn [MmToolsModel.find]. destruct (String.eqb n k); reflexivity.
    + destruct (String.ltb n k0).
      * cbn [MmToolsModel.find]. destruct (String.eqb n k); reflexivity.
      * cbn [MmToolsModel.find]. rewrite IH. destruct (String.eqb_spec k0 k) as [->|]; [|reflexivity].
        destruct (String.eqb_spec n k) as [->|]; [contradiction|reflexivity].
Qed.
Definition keys {A} (l : list (string * A)) : list string := map fst l.
Lemma find_none {A} (l : list (string * A)) n : ~ In n (keys l) -> MmToolsModel.find l n = None.
Proof.
  induction l as [|[k v] l IH]; cbn [keys map fst MmToolsModel.find]; intro N; [reflexivity|].
  destruct (String.eqb_spec k n) as [->|_]; [exfalso; apply N; left; reflexivity|]. apply IH. intro I. apply N. right. exact I.
Qed.
Lemma find_some_in {A} (l : list (string * A)) n : In n (keys l) -> MmToolsModel.find l n <> None.
Proof.
  induction l as [|[k v] l IH]; cbn [keys map fst MmToolsModel.find]; [intros []|]. destruct (String.eqb_spec k n) as [->|N]; [discriminate|].
  intros [E|I]; [contradiction|exact (IH I)].
Qed.
Lemma set_keys {A} (l : list (string * A)) n v : ~ In n (keys l) -> NoDup (keys l) -> NoDup (keys (set_ l n v)) /\ (forall k, In k (keys (set_ l n v)) <-> k = n \/ In k (keys l)).
Proof.
  induction l as [|[k0 w] l IH]; cbn [set_]; intros N D.
  - split; [repeat constructor; intros []|]. intro k. cbn. intuition.
  - cbn [keys map fst] in N, D. inversion D as [|? ? D1 D2]; subst. destruct (String.eqb_spec k0 n) as [->|Nk]; [exfalso; apply N; left; reflexivity|].
    destruct (String.ltb n k0).
    + split; [constructor; [exact N|exact D]|]. intro k. cbn. intuition.
    + destruct IH as [I1 I2]; [intro I; apply N; right; exact I|exact D2|]. split.
      * cbn [keys map fst]. constructor; [|exact I1]. intro I. apply I2 in I as [E|I]; [exact (Nk E)|exact (D1 I)].
      * intro k. cbn [keys map fst In]. rewrite I2. intuition.
Qed.
Lemma find_erase {A} (l : list (string * A)) n k : NoDup (keys l) -> MmToolsModel.find (erase l n) k = if String.eqb n k then None else MmToolsModel.find l k.
Proof.
  induction l as [|[k0 w] l IH]; intro D; cbn [erase MmToolsModel.find]; [destruct (String.eqb n k); reflexivity|].
  cbn [keys map fst] in D. inversion D as [|? ? D1 D2]; subst. destruct (String.eqb_spec k0 n) as [->|N].
  - destruct (String.eqb_spec n k) as [->|N2]; [|reflexivity]. apply find_none. exact D1.
  - cbn [MmToolsModel.find]. rewrite (IH D2). destruct (String.eqb_spec k0 k) as [->|]; [|reflexivity].
    destruct (String.eqb_spec n k) as [->|]; [contradiction|reflexivity].
Qed.

(** C231: `mm-filter --rename-layer "A|B"` writes the same map with the layer A called B; if there is no
    layer A, or there is one called B already, it fails and writes nothing. *)
Theorem C231_rename_layer : forall ot fs inp out a b m, has fs inp (CM m) -> can_write fs out -> NoDup (keys (m_layers _ _ _ m)) ->
  no_bar a -> no_bar b -> a <> ""%string -> b <> ""%string ->
  let r := filter_ ot fs inp out None (Some (a ++ "|" ++ b)%string) in
  (In a (keys (m_layers _ _ _ m)) -> ~ In b (keys (m_layers _ _ _ m)) ->
   exists ss m', r = (ss, Ok 0) /\ after (fs_files _ _ _ _ fs) ss out = Some (CM m') /\
     layer m' b = layer m a /\ layer m' a = None /\ (forall n, n <> a -> n <> b -> layer m' n = layer m n) /\
     m_lines _ _ _ m' = m_lines _ _ _ m /\ m_planes _ _ _ m' = m_planes _ _ _ m /\ m_geo _ _ _ m' = m_geo _ _ _ m /\
     m_id _ _ _ m' = m_id _ _ _ m /\ m_label _ _ _ m' = m_label _ _ _ m) /\
  (~ In a (keys (m_layers _ _ _ m)) \/ In b (keys (m_layers _ _ _ m)) -> r = ([], Ok 1)).
Proof.
  intros ot fs inp out a b m M Wr D Na Nb Ea Eb r. subst r. unfold mm_filter, run_mm_filter, wassert, wret at 1 2.
  rewrite !wbnd_ok, (load_ok ot fs inp m M), wbnd_ok. unfold rename_layer. rewrite (tokenize_pair a b Na Nb Ea Eb). split.
  - intros Ia Ib. assert (Fa := find_some_in _ _ Ia). assert (Fb := find_none _ _ Ib).
    destruct (layer m a) as [l|] eqn:La; [|contradiction]. rewrite Fb.
    assert (E : is_empty _ _ _ m = false) by (unfold is_empty; destruct (m_layers _ _ _ m); [discriminate|reflexivity]).
    rewrite E. cbn [negb]. unfold wret at 1, lift. rewrite !wbnd_ok. unfold save_to_file. rewrite Wr. cbn [MmToolsModel.wbnd wret app exit_code wassert]. eexists _, _. split; [reflexivity|].
    split; [rewrite write_after, String.eqb_refl; reflexivity|]. cbn [m_layers m_lines m_planes m_geo m_id m_label].
    destruct (set_keys (m_layers _ _ _ m) b l Ib D) as [D' _]. assert (Nab : a <> b) by (intros ->; contradiction).
    split; [rewrite find_erase, find_set, String.eqb_refl by exact D'; destruct (String.eqb_spec a b); [contradiction|reflexivity]|].
    split; [rewrite find_erase, String.eqb_refl by exact D'; reflexivity|].
    split; [|auto 10]. intros n N1 N2. rewrite find_erase, find_set by exact D'.
    destruct (String.eqb_spec a n) as [->|]; [contradiction|]. destruct (String.eqb_spec b n) as [->|]; [contradiction|reflexivity].
  - intro H. destruct (is_empty _ _ _ m); cbn [negb]; [reflexivity|]. unfold wret at 1, lift. rewrite wbnd_ok.
    destruct H as [H|H].
    + rewrite (find_none _ _ H). reflexivity.
    + assert (F := find_some_in _ _ H). destruct (layer m a); [|reflexivity]. destruct (layer m b); [reflexivity|contradiction].
Qed.

(** C232: `--rename-layer` is ignored without notice if `--pipeline` is given too: the result is the same
    as without it. *)
Theorem C232_rename_ignored_with_pipeline_refuted : forall ot fs inp out p s,
  filter_ ot fs inp out (Some p) (Some s) = filter_ ot fs inp out (Some p) None.
Proof. reflexivity. Qed.
(** Where only one is given it is what is done (for the pipeline: *)
Theorem C232_pipeline_where : forall ot fs inp out p f m, has fs inp (CM m) -> is_empty _ _ _ m = false -> pipeline p = Some f -> can_write fs out ->
  (forall m', f m = Ok m' -> exists ss, filter_ ot fs inp out (Some p) None = (ss, Ok 0) /\ after (fs_files _ _ _ _ fs) ss out = Some (CM m')) /\
  (f m = Throw -> filter_ ot fs inp out (Some p) None = ([], Ok 1)).
Proof.
  intros ot fs inp out p f m M E P Wr. unfold mm_filter, run_mm_filter, wassert, wret at 1. rewrite !wbnd_ok, P. unfold wret at 1. rewrite wbnd_ok, (load_ok ot fs inp m M), wbnd_ok, E.
  cbn [negb]. unfold wret at 1, lift. rewrite wbnd_ok. split.
  - intros m' ->. rewrite wbnd_ok. unfold save_to_file. rewrite Wr. cbn [MmToolsModel.wbnd wret app exit_code wassert]. eexists. split; [reflexivity|]. rewrite write_after, String.eqb_refl. reflexivity.
  - intros ->. reflexivity.
Qed.

Lemma filter_inv ot fs inp out pipe ren ss r : filter_ ot fs inp out pipe ren = (ss, r) ->
  (ss = [] /\ r <> Ok 0) \/ exists m, ss = [Trunc _ _ _ _ out; Put _ _ _ _ out (CM m)] /\ r = Ok 0.
Proof.
  unfold mm_filter, run_mm_filter, wassert, wret, wthrow, lift.
  destruct (match pipe, ren with None, None => false | _, _ => true end); [|intro H; injection H as <- <-; left; split; [reflexivity|discriminate]].
  rewrite wbnd_ok. destruct (match pipe with Some p => _ | None => true end); [|intro H; injection H as <- <-; left; split; [reflexivity|discriminate]].
  rewrite wbnd_ok. assert (Ld : exists x, load_from_file Line Plane G Yaml ot fs inp = ([], x)).
  { unfold load_from_file, wret, wthrow. destruct (opens _ _ _ _ fs inp) as [[]|]; try destruct ot; eexists; reflexivity. }
  destruct Ld as [[[b m]| |] ->]; [|intro H; injection H as <- <-; left; split; [reflexivity|discriminate]|intro H; injection H as <- <-; left; split; [reflexivity|discriminate]].
  rewrite wbnd_ok. destruct (negb (is_empty _ _ _ m)); [|intro H; injection H as <- <-; left; split; [reflexivity|discriminate]].
  rewrite wbnd_ok. destruct (match pipe with Some p => _ | None => match ren with Some s => rename_layer Line Plane G s m | None => Throw end end) as [m'| |];
    [|intro H; injection H as <- <-; left; split; [reflexivity|discriminate]|intro H; injection H as <- <-; left; split; [reflexivity|discriminate]].
  rewrite wbnd_ok. unfold save_to_file. destruct (fs_write _ _ _ _ fs out).
  - intro H. injection H as <- <-. right. exists m'. split; reflexivity.
  - destruct ot; intro H; injection H as <- <-; left; (split; [reflexivity|discriminate]).
Qed.

(** C233: mm-filter exits with code 0 exactly if it wrote the output (whatever the options and the state
    of the files); otherwise nothing is written.  It only ever writes to the output file: every
    other file, such as the input, is as before at every crash point. *)
Theorem C233_filter_exit_code_and_crash_points : forall ot fs inp out pipe ren ss r, filter_ ot fs inp out pipe ren = (ss, r) ->
  (r = Ok 0 -> exists m, after (fs_files _ _ _ _ fs) ss out = Some (CM m)) /\ (r <> Ok 0 -> ss = []) /\
  forall k f, f <> out -> crash_at (fs_files _ _ _ _ fs) ss k f = fs_files _ _ _ _ fs f.
Proof.
  intros ot fs inp out pipe ren ss r H. destruct (filter_inv _ _ _ _ _ _ _ _ H) as [[-> N]|(m & -> & ->)].
  - split; [intro E; contradiction|]. split; [reflexivity|]. intros k f _. unfold MmToolsModel.crash_at. rewrite firstn_nil. reflexivity.
  - split; [intros _; exists m; rewrite write_after, String.eqb_refl; reflexivity|]. split; [intro N; contradiction|].
    intros k f N. rewrite write_at. destruct (String.eqb_spec f out); [contradiction|reflexivity].
Qed.
(** An input that cannot be read makes it fail without output. *)
Theorem C233_unreadable_input_fails : forall ot fs inp out pipe ren, (forall m, ~ has fs inp (CM m)) ->
  filter_ ot fs inp out pipe ren = ([], Ok 1).
Proof.
  intros ot fs inp out pipe ren N. unfold mm_filter, run_mm_filter, wassert, wret, wthrow, lift.
  destruct (match pipe, ren with None, None => false | _, _ => true end); [|reflexivity].
  rewrite wbnd_ok. destruct (match pipe with Some p => _ | None => true end); [|reflexivity]. rewrite wbnd_ok.
  unfold load_from_file, opens, wret, wthrow. destruct (fs_read _ _ _ _ fs inp) eqn:R.
  - destruct (fs_files _ _ _ _ fs inp) as [[m| | | |]|] eqn:E; try reflexivity; [exfalso; exact (N m (conj E R))|]. destruct ot; reflexivity.
  - destruct ot; reflexivity.
Qed.

(** C234: with the same file as input and output an interrupted mm-filter may leave no readable map. *)
Theorem C234_interrupted_filter_in_place_loses_the_map_refuted : forall ot fs f p g m m', has fs f (CM m) -> is_empty _ _ _ m = false ->
  pipeline p = Some g -> g m = Ok m' -> can_write fs f ->
  exists ss k, filter_ ot fs f f (Some p) None = (ss, Ok 0) /\ crash_at (fs_files _ _ _ _ fs) ss k f = Some Junk.
Proof.
  intros ot fs f p g m m' M E P Gm Wr. destruct (proj1 (C232_pipeline_where ot fs f f p g m M E P Wr) m' Gm) as (ss & R & A).
  exists ss, 1. split; [exact R|]. destruct (filter_inv _ _ _ _ _ _ _ _ R) as [[_ X]|(m2 & -> & _)]; [contradiction|].
  rewrite write_at, String.eqb_refl. reflexivity.
Qed.
(** Where they differ the input is intact at every crash point. *)
Theorem C234_input_intact_where : forall ot fs inp out pipe ren ss r k, inp <> out -> filter_ ot fs inp out pipe ren = (ss, r) ->
  crash_at (fs_files _ _ _ _ fs) ss k inp = fs_files _ _ _ _ fs inp.
Proof. intros. eapply C233_filter_exit_code_and_crash_points; eassumption. Qed.

(** ** mm2txt *)
(** one text row per point, in order: coordinates, then intensity, then ring and time, if the cloud has them *)
Definition rows_of (c : Cloud) (rows : list (list Q)) : Prop :=
  List.length rows = List.length (c_xyz c) /\
  forall i x y z, nth_error (c_xyz c) i = Some (x, y, z) ->
    match c_kind c with
    | KXYZIRT => forall a r t, nth_error (c_int c) i = Some a -> nth_error (c_ring c) i = Some r -> nth_error (c_time c) i = Some t ->
                   nth_error rows i = Some [x; y; z; a; r; t]
    | KXYZI => forall a, nth_error (c_int c) i = Some a -> nth_error rows i = Some [x; y; z; a]
    | _ => nth_error rows i = Some [x; y; z]
    end.
(** the channels have one entry per point *)
Definition sane (c : Cloud) : Prop :=
  match c_kind c with
  | KXYZIRT => List.length (c_int c) = List.length (c_xyz c) /\ List.length (c_ring c) = List.length (c_xyz c) /\ List.length (c_time c) = List.length (c_xyz c)
  | KXYZI => List.length (c_int c) = List.length (c_xyz c)
  | _ => True
  end.
Lemma zip3_len : forall l e, List.length e = List.length l -> List.length (zip3 l e) = List.length l.
Proof. induction l as [|[[x y] z] l IH]; intros [|e0 e] H; try discriminate; [reflexivity|]. cbn [zip3 List.length] in *. rewrite IH by lia. reflexivity. Qed.
Lemma zip3_nth : forall l e i x y z v, nth_error l i = Some (x, y, z) -> nth_error e i = Some v -> nth_error (zip3 l e) i = Some (x :: y :: z :: v).
Proof.
  induction l as [|[[a b] c] l IH]; intros [|e0 e] [|i] x y z v H1 H2; try discriminate; cbn in *.
  - congruence.
  - apply IH; assumption.
Qed.
Lemma combine_nth {A B} : forall (l : list A) (m : list B) i a b, nth_error l i = Some a -> nth_error m i = Some b -> nth_error (combine l m) i = Some (a, b).
Proof. induction l as [|x l IH]; intros [|y m] [|i] a b H1 H2; try discriminate; cbn in *; [congruence|apply IH; assumption]. Qed.
Lemma text_rows c : sane c -> rows_of c (text_of c).
Proof.
  unfold sane, rows_of, text_of. destruct (c_kind c); intro S.
  - split; [rewrite zip3_len by apply map_length; reflexivity|]. intros i x y z E. apply zip3_nth; [exact E|]. erewrite map_nth_error; [reflexivity|exact E].
  - split; [rewrite zip3_len by (rewrite map_length; exact S); reflexivity|]. intros i x y z E a A. apply zip3_nth; [exact E|]. erewrite map_nth_error; [reflexivity|exact A].
  - destruct S as (S1 & S2 & S3). split; [rewrite zip3_len; [reflexivity|rewrite map_length, !combine_length; lia]|].
    intros i x y z E a r t A R T. apply zip3_nth; [exact E|].
    rewrite (map_nth_error _ _ _ (combine_nth _ _ _ _ _ A (combine_nth _ _ _ _ _ R T))). reflexivity.
  - split; [rewrite zip3_len by apply map_length; reflexivity|]. intros i x y z E. apply zip3_nth; [exact E|]. erewrite map_nth_error; [reflexivity|exact E].
Qed.

Lemma append_inj_l a : forall x y, (a ++ x)%string = (a ++ y)%string -> x = y.
Proof. induction a as [|c a IH]; intros x y E; [exact E|]. cbn in E. injection E as E. exact (IH _ _ E). Qed.
Lemma append_len a b : String.length (a ++ b) = String.length a + String.length b.
Proof. induction a as [|c a IH]; [reflexivity|]. cbn. rewrite IH. reflexivity. Qed.
Lemma append_inj_r : forall x y s, (x ++ s)%string = (y ++ s)%string -> x = y.
Proof.
  induction x as [|c x IH]; intros [|d y] s E.
  - reflexivity.
  - exfalso. apply (f_equal String.length) in E. cbn in E. rewrite append_len in E. lia.
  - exfalso. apply (f_equal String.length) in E. cbn in E. rewrite append_len in E. lia.
  - cbn in E. injection E as -> E. rewrite (IH _ _ E). reflexivity.
Qed.
Lemma txt_name_inj base x y : txt_name base x = txt_name base y -> x = y.
Proof. unfold txt_name. intro E. apply append_inj_l in E. apply append_inj_l in E. exact (append_inj_r _ _ _ E). Qed.

Lemma after_app s a b : after s (a ++ b) = after (after s a) b.
Proof. apply fold_left_app. Qed.
Lemma export_ok fs base mm : forall names, (forall n, In n names -> exists l c, layer mm n = Some (Some l) /\ to_points l = Some c) ->
  (forall n, In n names -> can_write fs (txt_name base n)) ->
  exists ss, export_layers Line Plane G Yaml fs base mm names = (ss, Ok tt) /\
    (forall s n l c, In n names -> layer mm n = Some (Some l) -> to_points l = Some c -> after s ss (txt_name base n) = Some (CT (text_of c))) /\
    forall s f, (forall n, In n names -> f <> txt_name base n) -> after s ss f = s f.
Proof.
  induction names as [|n names IH]; intros H Wr.
  - exists []. split; [reflexivity|]. split; [intros s n l c []|reflexivity].
  - destruct IH as (ss & E & A & B); [intros n' I; apply H; right; exact I|intros n' I; apply Wr; right; exact I|].
    destruct (H n (or_introl eq_refl)) as (l & c & L & P). cbn [export_layers]. rewrite L, P, (Wr n (or_introl eq_refl)). cbn [MmToolsModel.wbnd]. rewrite E.
    eexists. split; [reflexivity|]. split.
    + intros s n' l' c' I L' P'. rewrite after_app. destruct (in_dec String.string_dec n' names) as [I'|I'].
      * exact (A _ n' l' c' I' L' P').
      * destruct I as [<-|I]; [|contradiction]. rewrite B.
        -- rewrite write_after, String.eqb_refl. congruence.
        -- intros n2 I2 X. apply txt_name_inj in X. subst n2. contradiction.
    + intros s f N. rewrite after_app, B by (intros n' I; apply N; right; exact I). rewrite write_after.
      destruct (String.eqb_spec f (txt_name base n)) as [->|]; [exfalso; exact (N n (or_introl eq_refl) eq_refl)|reflexivity].
Qed.

(** C235: mm2txt writes, for each selected layer (all of them by default), the file
    <base name>_<layer>.txt with one row per point, in order; different layers go to different files;
    no other file changes. *)
Theorem C235_mm2txt_exports_the_layers : forall ot fs inp sel m, has fs inp (CM m) ->
  let names := match sel with Some l => l | None => keys (m_layers _ _ _ m) end in
  (forall n, In n names -> exists l c, layer m n = Some (Some l) /\ to_points l = Some c /\ sane c) ->
  (forall n, In n names -> can_write fs (txt_name (base_name inp) n)) ->
  exists ss, mm2txt_ ot fs inp sel = (ss, Ok 0) /\
    (forall n l c, In n names -> layer m n = Some (Some l) -> to_points l = Some c ->
       exists rows, after (fs_files _ _ _ _ fs) ss (txt_name (base_name inp) n) = Some (CT rows) /\ (sane c -> rows_of c rows)) /\
    forall f, (forall n, In n names -> f <> txt_name (base_name inp) n) -> after (fs_files _ _ _ _ fs) ss f = fs_files _ _ _ _ fs f.
Proof.
  intros ot fs inp sel m M names H Wr. destruct (export_ok fs (base_name inp) m names) as (ss & E & A & B).
  - intros n I. destruct (H n I) as (l & c & L & P & _). exists l, c. split; assumption.
  - exact Wr.
  - exists ss. split.
    + unfold mm2txt, wassert. rewrite (proj1 M). unfold wret at 1. rewrite wbnd_ok, (load_ok ot fs inp m M), wbnd_ok.
      change (match sel with Some l => l | None => map fst (m_layers _ _ _ m) end) with names. rewrite E. reflexivity.
    + split; [|intros f N; apply B; exact N]. intros n l c I L P. exists (text_of c). split; [exact (A _ n l c I L P)|]. apply text_rows.
Qed.

(** C236: exit code 0 of mm2txt does not mean that something was exported: a map file that cannot be
    opened counts as an empty map. *)
Theorem C236_unreadable_map_exits_with_0_refuted : forall fs inp c, fs_files _ _ _ _ fs inp = Some c -> fs_read _ _ _ _ fs inp = false ->
  mm2txt_ false fs inp None = ([], Ok 0).
Proof.
  intros fs inp c E R. unfold mm2txt, wassert. rewrite E. unfold wret at 1. rewrite wbnd_ok. unfold load_from_file, opens. rewrite R. reflexivity.
Qed.
(** Where the map can be opened, or the stream constructor throws, a file that holds no map makes it fail. *)
Theorem C236_bad_map_where : forall ot fs inp sel, (forall m, ~ has fs inp (CM m)) -> ot = true \/ fs_read _ _ _ _ fs inp = true ->
  mm2txt_ ot fs inp sel = ([], Ok 1).
Proof.
  intros ot fs inp sel N D. unfold mm2txt, wassert. destruct (fs_files _ _ _ _ fs inp) as [c|] eqn:E; [|reflexivity].
  unfold wret at 1. rewrite wbnd_ok. unfold load_from_file, opens. destruct (fs_read _ _ _ _ fs inp) eqn:R.
  - rewrite E. destruct c as [m| | | |]; try reflexivity. exfalso. exact (N m (conj E R)).
  - destruct D as [->|D]; [reflexivity|discriminate].
Qed.

(** C237: a text file that cannot be written is not reported either. *)
Theorem C237_unwritten_text_exits_with_0_refuted : forall ot fs inp n l c m, has fs inp (CM m) -> layer m n = Some (Some l) -> to_points l = Some c ->
  fs_write _ _ _ _ fs (txt_name (base_name inp) n) = false -> mm2txt_ ot fs inp (Some [n]) = ([], Ok 0).
Proof.
  intros ot fs inp n l c m M L P Wr. unfold mm2txt, wassert. rewrite (proj1 M). unfold wret at 1. rewrite wbnd_ok, (load_ok ot fs inp m M), wbnd_ok.
  cbn [export_layers]. rewrite L, P, Wr. reflexivity.
Qed.
(** Where every file can be written, exit code 0 means that every selected layer was exported. *)
Theorem C237_exit_code_where : forall ot fs inp sel m ss, has fs inp (CM m) -> (forall f, can_write fs f) ->
  mm2txt_ ot fs inp sel = (ss, Ok 0) ->
  forall n, In n (match sel with Some l => l | None => keys (m_layers _ _ _ m) end) ->
    exists l c, layer m n = Some (Some l) /\ to_points l = Some c /\
      after (fs_files _ _ _ _ fs) ss (txt_name (base_name inp) n) = Some (CT (text_of c)).
Proof.
  intros ot fs inp sel m ss M Wr. unfold mm2txt, wassert. rewrite (proj1 M). unfold wret at 1. rewrite wbnd_ok, (load_ok ot fs inp m M), wbnd_ok.
  change (match sel with Some l => l | None => map fst (m_layers _ _ _ m) end) with (match sel with Some l => l | None => keys (m_layers _ _ _ m) end).
  generalize (match sel with Some l => l | None => keys (m_layers _ _ _ m) end). intros names R.
  assert (H : forall n, In n names -> exists l c, layer m n = Some (Some l) /\ to_points l = Some c).
  { assert (R' : exists ss', export_layers Line Plane G Yaml fs (base_name inp) m names = (ss', Ok tt)).
    { destruct (export_layers Line Plane G Yaml fs (base_name inp) m names) as [es [[]| |]]; [exists es; reflexivity|discriminate|discriminate]. }
    clear R. induction names as [|n0 names IH]; [intros n []|]. destruct R' as [ss' R']. cbn [export_layers] in R'.
    destruct (layer m n0) as [[l|]|] eqn:L; [|discriminate|discriminate]. destruct (to_points l) as [c|] eqn:P; [|discriminate].
    rewrite (Wr _) in R'. cbn [MmToolsModel.wbnd] in R'. intros n [<-|I]; [exists l, c; split; assumption|]. apply IH; [|exact I].
    destruct (export_layers Line Plane G Yaml fs (base_name inp) m names) as [es [[]| |]]; [exists es; reflexivity|discriminate|discriminate]. }
  intros n I. destruct (H n I) as (l & c & L & P). exists l, c. split; [exact L|]. split; [exact P|].
  destruct (export_ok fs (base_name inp) m names H (fun n _ => Wr _)) as (ss2 & E & A & _). rewrite E in R. cbn [exit_code] in R. injection R as <-.
  exact (A _ n l c I L P).
Qed.
End Props.

Open Scope string_scope.
Open Scope list_scope.
(** ** Example: a map file with two layers and a file with georeferencing data *)
Definition ex_cloud : Cloud := mkCloud KXYZI [(1, 2, 3); (4, 5, 6)]%Q [9; 8]%Q [] [] [].
Definition ex_map : MM unit unit nat :=
  mkMM unit unit nat [("a"%string, Some (LCloud ex_cloud)); ("c"%string, Some (LOther None))] [tt] [] None (Some 3) None.
Definition ex_files : Files unit unit nat (option nat) := fun f =>
  if String.eqb f "m.mm" then Some (CMap _ _ _ _ ex_map) else if String.eqb f "g.georef" then Some (CGeo _ _ _ _ (Some 5)) else None.
Definition ex_fs : FS unit unit nat (option nat) := mkFS _ _ _ _ ex_files (fun _ => true) (fun _ => true).
Example ex_has : has unit unit nat (option nat) ex_fs "m.mm" (CMap _ _ _ _ ex_map) /\ has_geo unit unit nat (option nat) (fun y => Ok y) ex_fs "g.georef" (Some 5).
Proof. split; [split; reflexivity|]. left. split; [reflexivity|split; reflexivity]. Qed.
(** injecting, and renaming a layer into another file *)
Example ex_inject : exists ss, mm_georef _ _ _ _ true (fun g => g) (fun y => Ok y) ex_fs "m.mm" "g.georef" false true = (ss, Ok 0) /\
  after _ _ _ _ ex_files ss "m.mm" = Some (CMap unit unit nat (option nat) (mkMM unit unit nat (m_layers _ _ _ ex_map) [tt] [] (Some 5) (Some 3) None)).
Proof. eexists. split; reflexivity. Qed.
Example ex_rename : exists ss, mm_filter _ _ _ _ true (fun _ => None) ex_fs "m.mm" "o.mm" None (Some "a|b"%string) = (ss, Ok 0) /\
  after _ _ _ _ ex_files ss "o.mm" =
    Some (CMap unit unit nat (option nat) (mkMM unit unit nat [("b"%string, Some (LCloud ex_cloud)); ("c"%string, Some (LOther None))] [tt] [] None (Some 3) None)).
Proof. eexists. split; reflexivity. Qed.
Example ex_text : mm2txt _ _ _ _ true (fun f => f) ex_fs "m.mm" (Some ["a"%string]) =
  ([Trunc _ _ _ _ "m.mm_a.txt"; Put _ _ _ _ "m.mm_a.txt" (CText unit unit nat (option nat) [[1; 2; 3; 9]; [4; 5; 6; 8]]%Q)], Ok 0).
Proof. reflexivity. Qed.
