(** C330, C331: the names of the log files of ICP::align(). *)
From Coq Require Import String Ascii Decimal DecimalString DecimalN.
From Verif Require Import Base FilterModel DeskewModel MapModel LogFileModel.
Open Scope nat_scope.
Open Scope string_scope.

(** ** Specification *)
(** a format: plain texts and placeholders *)
Inductive Token := Lit (s : string) | UniqueId | GlobalId | GlobalLabel | LocalId | LocalLabel.
Definition text (t : Token) : string :=
  match t with
  | Lit s => s | UniqueId => "$UNIQUE_ID" | GlobalId => "$GLOBAL_ID" | GlobalLabel => "$GLOBAL_LABEL"
  | LocalId => "$LOCAL_ID" | LocalLabel => "$LOCAL_LABEL"
  end.
Fixpoint join (l : list string) : string := match l with [] => "" | s :: r => s +++ join r end.
(** what is to be read in the place of each *)
Definition value (n : N) (global local : MMap) (t : Token) : string :=
  match t with
  | Lit s => s | UniqueId => fmt05u n
  | GlobalId => fmt05u (id32 global) | GlobalLabel => label_or_empty global
  | LocalId => fmt05u (id32 local) | LocalLabel => label_or_empty local
  end.
Fixpoint no_dollar (s : string) : bool := match s with "" => true | String c r => negb (Ascii.eqb c "$") && no_dollar r end.
Definition plain_token (t : Token) : bool := match t with Lit s => no_dollar s | _ => true end.

(** ** Replacement *)
Lemma app_nil s : s +++ "" = s.
Proof. induction s as [|c s IH]; cbn; [reflexivity|]. rewrite IH. reflexivity. Qed.
Lemma app_assoc_s a b c : (a +++ b) +++ c = a +++ (b +++ c).
Proof. induction a as [|x a IH]; cbn; [reflexivity|]. rewrite IH. reflexivity. Qed.
Lemma no_dollar_app a b : no_dollar (a +++ b) = no_dollar a && no_dollar b.
Proof. induction a as [|c a IH]; cbn; [reflexivity|]. rewrite IH, andb_assoc. reflexivity. Qed.

Lemma fmt_plain f m p s : no_dollar f = true -> fmt_go f m p s = f.
Proof.
  induction f as [|c f IH]; intro H; [reflexivity|]. cbn in H. apply andb_true_iff in H as [C H]. specialize (IH H).
  destruct (Ascii.eqb_spec c "$") as [->|N]; [discriminate|]. cbn [fmt_go].
  destruct c as [b0 b1 b2 b3 b4 b5 b6 b7]. destruct b0, b1, b2, b3, b4, b5, b6, b7; try (rewrite IH; reflexivity); exfalso; apply N; reflexivity.
Qed.

(** nothing to replace in a text without dollars *)
Lemma replace_lit name f s : forall pre rest, no_dollar s = true ->
  exists pre', replace_go (String "$" name) f 0 pre (s +++ rest) = s +++ replace_go (String "$" name) f 0 pre' rest.
Proof.
  induction s as [|c s IH]; intros pre rest H; [exists pre; reflexivity|]. cbn in H. apply andb_true_iff in H as [C H].
  destruct (Ascii.eqb_spec c "$") as [->|N]; [discriminate|].
  destruct (IH (pre +++ String c "") rest H) as (pre' & E). exists pre'. cbn [String.append replace_go prefix].
  destruct (ascii_dec "$" c) as [<-|_]; [contradiction N; reflexivity|]. rewrite E. reflexivity.
Qed.
Lemma skip_all pat f a : forall b, replace_go pat f (String.length a) "" (a +++ b) = replace_go pat f 0 "" b.
Proof. induction a as [|c a IH]; intro b; [reflexivity|]. cbn [String.length String.append replace_go]. apply IH. Qed.
Lemma prefix_self a b : prefix a (a +++ b) = true.
Proof. induction a as [|c a IH]; cbn; [destruct b; reflexivity|]. destruct (ascii_dec c c); [exact IH|contradiction]. Qed.
Lemma replace_hit name f pre rest : no_dollar f = true ->
  replace_go (String "$" name) f 0 pre (String "$" name +++ rest) = f +++ replace_go (String "$" name) f 0 "" rest.
Proof.
  intro H. change (String "$" name +++ rest) with (String "$" (name +++ rest)). cbn [replace_go].
  change (String "$" (name +++ rest)) with (String "$" name +++ rest). rewrite prefix_self, fmt_plain by exact H. f_equal.
  cbn [String.length]. rewrite Nat.sub_1_r. cbn [Nat.pred]. apply skip_all.
Qed.
(** another placeholder *)
Lemma replace_miss name other f pre rest : prefix name (other +++ rest) = false -> no_dollar other = true ->
  exists pre', replace_go (String "$" name) f 0 pre (String "$" other +++ rest) = String "$" other +++ replace_go (String "$" name) f 0 pre' rest.
Proof.
  intros NP ND. change (String "$" other +++ rest) with (String "$" (other +++ rest)). cbn [replace_go prefix].
  destruct (ascii_dec "$" "$") as [_|]; [|contradiction]. rewrite NP. destruct (replace_lit name f other (pre +++ "$") rest ND) as (pre' & E).
  exists pre'. rewrite E. reflexivity.
Qed.

Definition tok_eqb (a b : Token) : bool :=
  match a, b with
  | UniqueId, UniqueId | GlobalId, GlobalId | GlobalLabel, GlobalLabel | LocalId, LocalId | LocalLabel, LocalLabel => true
  | _, _ => false
  end.
Definition subst (k : Token) (v : string) (t : Token) : Token := if tok_eqb k t then Lit v else t.

Lemma miss_two k t rest : (match k with Lit _ => False | _ => True end) -> (match t with Lit _ => False | _ => True end) -> tok_eqb k t = false ->
  exists nk nt, text k = String "$" nk /\ text t = String "$" nt /\ prefix nk (nt +++ rest) = false /\ no_dollar nt = true.
Proof. destruct k, t; cbn [text tok_eqb]; intros K T E; try contradiction; try discriminate; eexists _, _; repeat split. Qed.

Lemma replace_tokens k v : (match k with Lit _ => False | _ => True end) -> no_dollar v = true -> forall ts pre,
  forallb plain_token ts = true -> replace_go (text k) v 0 pre (join (map text ts)) = join (map text (map (subst k v) ts)).
Proof.
  intros K V. assert (NK : exists nk, text k = String "$" nk) by (destruct k; [contradiction|eexists; reflexivity..]). destruct NK as (nk & EK).
  induction ts as [|t ts IH]; intros pre H; [reflexivity|]. cbn [forallb] in H. apply andb_true_iff in H as [T H].
  cbn [map join]. unfold subst at 1.
  destruct (tok_eqb k t) eqn:E.
  - assert (t = k) as -> by (destruct k, t; try discriminate; reflexivity). rewrite EK, replace_hit by exact V. rewrite <- EK, IH by exact H. reflexivity.
  - destruct t as [s| | | | |] eqn:Et.
    1: { destruct (replace_lit nk v s pre (join (map text ts)) T) as (pre' & R). rewrite EK. cbn [text]. rewrite R, <- EK, IH by exact H. reflexivity. }
    all: destruct (miss_two k t (join (map text ts)) K ltac:(rewrite Et; exact I) ltac:(rewrite Et; exact E)) as (nk' & nt & E1 & E2 & NP & ND);
      rewrite EK in E1; injection E1 as <-; rewrite <- Et, E2; destruct (replace_miss nk nt v pre (join (map text ts)) NP ND) as (pre' & R);
      rewrite EK, R, <- EK, IH by exact H; reflexivity.
Qed.

Lemma plain_subst k v ts : no_dollar v = true -> forallb plain_token ts = true -> forallb plain_token (map (subst k v) ts) = true.
Proof.
  intros V. induction ts as [|t ts IH]; cbn; [reflexivity|]. intro H. apply andb_true_iff in H as [T H]. rewrite (IH H), andb_true_r.
  unfold subst. destruct (tok_eqb k t); [exact V|exact T].
Qed.
Lemma no_dollar_uint d : no_dollar (NilEmpty.string_of_uint d) = true.
Proof. induction d; cbn; auto. Qed.
Lemma no_dollar_05 n : no_dollar (fmt05u n) = true.
Proof.
  unfold fmt05u, dec. rewrite no_dollar_app. apply andb_true_iff. split.
  - generalize (5 - String.length (NilZero.string_of_uint (N.to_uint n))). intro k. induction k; cbn; auto.
  - unfold NilZero.string_of_uint. destruct (N.to_uint n); try reflexivity; apply no_dollar_uint.
Qed.

(** C330, where the labels have no dollar: the placeholders, wherever and however often they occur in the format, are replaced by
    their values, and everything else is kept *)
Theorem C330_filename_where : forall ts n global local,
  forallb plain_token ts = true -> no_dollar (label_or_empty global) = true -> no_dollar (label_or_empty local) = true ->
  log_filename (join (map text ts)) n global local = join (map (value n global local) ts).
Proof.
  intros ts n g l P G L. unfold log_filename, regex_replace.
  change "$UNIQUE_ID" with (text UniqueId). change "$GLOBAL_ID" with (text GlobalId). change "$GLOBAL_LABEL" with (text GlobalLabel).
  change "$LOCAL_ID" with (text LocalId). change "$LOCAL_LABEL" with (text LocalLabel).
  assert (V1 := no_dollar_05 n). assert (V2 := no_dollar_05 (id32 g)). assert (V3 := no_dollar_05 (id32 l)).
  rewrite replace_tokens by (auto || exact I). rewrite replace_tokens by (auto using plain_subst || exact I).
  rewrite replace_tokens by (auto using plain_subst || exact I). rewrite replace_tokens by (auto 6 using plain_subst || exact I).
  rewrite replace_tokens by (auto 7 using plain_subst || exact I).
  f_equal. rewrite !map_map. apply map_ext_in. intros t T. destruct t; reflexivity.
Qed.
Print Assumptions C330_filename_where.

Definition labelled (i : nat) (s : string) : MMap := mkMM [] [] [] (Some i) (Some s) None [].
Example C330_case : log_filename default_format 7%N (labelled 12 "_map") (labelled 345 "_scan") =
  "icp-run-00007-local-00345_scan-global-00012_map.icplog" /\
  default_format = join (map text [Lit "icp-run-"; UniqueId; Lit "-local-"; LocalId; LocalLabel; Lit "-global-"; GlobalId; GlobalLabel; Lit ".icplog"]).
Proof. split; reflexivity. Qed.

(** C330 (refuted): a label is kept as it is *)
Theorem C330_label_is_kept_refuted :
  log_filename "$GLOBAL_LABEL.icplog" 0%N (labelled 1 "cost: 5$$") (labelled 2 "") = "cost: 5$.icplog" /\
  log_filename "$GLOBAL_LABEL.icplog" 0%N (labelled 1 "of $LOCAL_ID") (labelled 2 "") = "of 00002.icplog" /\
  log_filename "run-$GLOBAL_LABEL.icplog" 0%N (labelled 1 "R$&D") (labelled 2 "") = "run-R$GLOBAL_LABELD.icplog" /\
  log_filename "run-$GLOBAL_LABEL.icplog" 0%N (labelled 1 "a$`b") (labelled 2 "") = "run-arun-b.icplog" /\
  log_filename "run-$GLOBAL_LABEL.icplog" 0%N (labelled 1 "a$'b") (labelled 2 "") = "run-a.icplogb.icplog" /\
  log_filename "run-$GLOBAL_LABEL.icplog" 0%N (labelled 1 "paid $5, $12") (labelled 2 "") = "run-paid , .icplog" /\
  log_filename "$GLOBAL_LABEL-$GLOBAL_LABEL" 0%N (labelled 1 "<$`>") (labelled 2 "") = "<>-<->".
Proof. repeat split; reflexivity. Qed.

(** ** C331 *)
Fixpoint all_digits (s : string) : bool := match s with "" => true | String c r => is_digit c && all_digits r end.
Lemma all_digits_app a b : all_digits (a +++ b) = all_digits a && all_digits b.
Proof. induction a as [|c a IH]; cbn [String.append all_digits]; [reflexivity|]. rewrite IH, andb_assoc. reflexivity. Qed.
Lemma digits_uint d : all_digits (NilEmpty.string_of_uint d) = true.
Proof. induction d; cbn [NilEmpty.string_of_uint all_digits]; try rewrite IHd; reflexivity. Qed.
Lemma digits_05 n : all_digits (fmt05u n) = true.
Proof.
  unfold fmt05u, dec. rewrite all_digits_app. apply andb_true_iff. split.
  - generalize (5 - String.length (NilZero.string_of_uint (N.to_uint n))). intro k. induction k; cbn [zeros all_digits]; [reflexivity|]. rewrite IHk. reflexivity.
  - unfold NilZero.string_of_uint. destruct (N.to_uint n); try reflexivity; apply digits_uint.
Qed.
(** reading the number back *)
Definition read (s : string) : option N := option_map N.of_uint (NilEmpty.uint_of_string s).
Lemma read_zeros k s : match read s with Some n => read (zeros k +++ s) = Some n | None => True end.
Proof.
  unfold read. induction k as [|k IH]; cbn [zeros String.append]; [destruct (NilEmpty.uint_of_string s); cbn; auto|].
  destruct (NilEmpty.uint_of_string s) as [d|] eqn:E; cbn [option_map] in *; [|exact I].
  cbn [NilEmpty.uint_of_string]. destruct (NilEmpty.uint_of_string (zeros k +++ s)) as [d'|]; cbn [option_map] in *; [|discriminate].
  injection IH as IH. cbn. f_equal. rewrite <- IH. reflexivity.
Qed.
Lemma read_dec n : read (dec n) = Some n.
Proof.
  unfold dec, read, NilZero.string_of_uint. assert (E := DecimalN.Unsigned.of_to n).
  destruct (N.to_uint n) eqn:U; [rewrite <- E; reflexivity|..]; rewrite NilEmpty.usu; cbn [option_map]; rewrite E; reflexivity.
Qed.
Lemma fmt05u_inj a b : fmt05u a = fmt05u b -> a = b.
Proof.
  unfold fmt05u. intro H. assert (A := read_zeros (5 - String.length (dec a)) (dec a)). assert (B := read_zeros (5 - String.length (dec b)) (dec b)).
  rewrite read_dec in A, B. rewrite H in A. congruence.
Qed.

Lemma keep_prefix name f s pre rest : no_dollar s = true -> exists rest', replace_go (String "$" name) f 0 pre (s +++ rest) = s +++ rest'.
Proof. intro H. destruct (replace_lit name f s pre rest H) as (pre' & E). eexists. exact E. Qed.

Lemma digits_split a b c x y : all_digits a = true -> all_digits b = true -> is_digit c = false ->
  a +++ String c x = b +++ String c y -> a = b.
Proof.
  revert b. induction a as [|u a IH]; intros [|v b] A B C H; cbn [String.append all_digits] in *; [reflexivity| | |].
  - injection H as <- _. apply andb_true_iff in B as [B _]. congruence.
  - injection H as -> _. apply andb_true_iff in A as [A _]. congruence.
  - injection H as <- H. apply andb_true_iff in A as [_ A], B as [_ B]. f_equal. apply (IH b); assumption.
Qed.
Lemma append_inj a b c : a +++ b = a +++ c -> b = c.
Proof. induction a as [|x a IH]; cbn; [auto|]. intro H. injection H as H. auto. Qed.

Lemma name_prefix pre c rest n g l : no_dollar pre = true -> c <> "$"%char ->
  exists rest', log_filename (pre +++ "$UNIQUE_ID" +++ String c rest) n g l = pre +++ fmt05u n +++ String c rest'.
Proof.
  intros P C. unfold log_filename, regex_replace.
  destruct (replace_lit "UNIQUE_ID" (fmt05u n) pre "" ("$UNIQUE_ID" +++ String c rest) P) as (pre1 & E1). rewrite E1.
  rewrite replace_hit by apply no_dollar_05.
  set (s := pre +++ (fmt05u n +++ String c "")).
  assert (S1 : no_dollar s = true).
  { unfold s. rewrite !no_dollar_app, P, no_dollar_05. cbn [no_dollar]. destruct (Ascii.eqb_spec c "$"); [contradiction|reflexivity]. }
  assert (K1 : exists r1, replace_go "$UNIQUE_ID" (fmt05u n) 0 "" (String c rest) = String c r1).
  { destruct (keep_prefix "UNIQUE_ID" (fmt05u n) (String c "") "" rest) as (r1 & E); [cbn [no_dollar]; destruct (Ascii.eqb_spec c "$"); [contradiction|reflexivity]|].
    exists r1. exact E. }
  destruct K1 as (r1 & ->).
  replace (pre +++ fmt05u n +++ String c r1) with (s +++ r1) by (unfold s; rewrite !app_assoc_s; reflexivity).
  destruct (keep_prefix "GLOBAL_ID" (fmt05u (id32 g)) s "" r1 S1) as (r2 & ->).
  destruct (keep_prefix "GLOBAL_LABEL" (label_or_empty g) s "" r2 S1) as (r3 & ->).
  destruct (keep_prefix "LOCAL_ID" (fmt05u (id32 l)) s "" r3 S1) as (r4 & ->).
  destruct (keep_prefix "LOCAL_LABEL" (label_or_empty l) s "" r4 S1) as (r5 & ->).
  exists r5. unfold s. rewrite !app_assoc_s. reflexivity.
Qed.

(** C331: if the number is the first placeholder of the format and is followed by something else than a digit or a dollar (as in the
    default format), then records of different numbers go to different files, whatever the identifiers and labels of the maps are *)
Theorem C331_one_file_per_number_where : forall pre c rest n1 n2 g1 l1 g2 l2,
  no_dollar pre = true -> c <> "$"%char -> is_digit c = false -> n1 <> n2 ->
  log_filename (pre +++ "$UNIQUE_ID" +++ String c rest) n1 g1 l1 <> log_filename (pre +++ "$UNIQUE_ID" +++ String c rest) n2 g2 l2.
Proof.
  intros pre c rest n1 n2 g1 l1 g2 l2 P C D N H.
  destruct (name_prefix pre c rest n1 g1 l1 P C) as (r1 & E1). destruct (name_prefix pre c rest n2 g2 l2 P C) as (r2 & E2).
  rewrite E1, E2 in H. apply append_inj in H. apply digits_split in H; [|apply digits_05|apply digits_05|exact D]. apply N, fmt05u_inj, H.
Qed.
Print Assumptions C331_one_file_per_number_where.
Example C331_case : default_format = "icp-run-" +++ "$UNIQUE_ID" +++ String "-" "local-$LOCAL_ID$LOCAL_LABEL-global-$GLOBAL_ID$GLOBAL_LABEL.icplog" /\
  no_dollar "icp-run-" = true /\ "-"%char <> "$"%char /\ is_digit "-" = false.
Proof. repeat split. discriminate. Qed.

(** C331 (refuted): with $UNIQUE_ID anywhere in the format, no record replaces another *)
Theorem C331_same_file_refuted :
  log_filename "$UNIQUE_ID$LOCAL_LABEL" 10000%N new_map (labelled 1 "0") = log_filename "$UNIQUE_ID$LOCAL_LABEL" 100000%N new_map new_map.
Proof. reflexivity. Qed.

(** C332 (refuted): maps of different identifiers have different file names: the identifier has 64 bits, the name shows 32 of them, and a
    map without identifier is shown as 0 *)
Theorem C332_ids_distinguish_refuted :
  log_filename "$GLOBAL_ID" 0%N (labelled 0 "") new_map = log_filename "$GLOBAL_ID" 0%N new_map new_map /\
  exists i j, i <> j /\ log_filename "$GLOBAL_ID" 0%N (labelled i "") new_map = log_filename "$GLOBAL_ID" 0%N (labelled j "") new_map.
Proof.
  split; [reflexivity|]. exists 0, (N.to_nat (2 ^ 32)). split.
  - intro H. apply (f_equal N.of_nat) in H. rewrite N2Nat.id in H. discriminate H.
  - unfold log_filename, id32, labelled. cbn [mm_id]. rewrite N2Nat.id. reflexivity.
Qed.
(** where they do: 32-bit identifiers *)
Theorem C332_ids_distinguish_where : forall i j s t l, (N.of_nat i < 2 ^ 32)%N -> (N.of_nat j < 2 ^ 32)%N -> i <> j ->
  log_filename "$GLOBAL_ID" 0%N (labelled i s) l <> log_filename "$GLOBAL_ID" 0%N (labelled j t) l.
Proof.
  intros i j s t l I J N H.
  assert (K : forall i s, (N.of_nat i < 2 ^ 32)%N -> log_filename "$GLOBAL_ID" 0%N (labelled i s) l = fmt05u (N.of_nat i)).
  { clear. intros i s I. unfold log_filename, regex_replace.
    assert (ID : id32 (labelled i s) = N.of_nat i) by (unfold id32; cbn [mm_id labelled]; apply N.mod_small, I). rewrite ID.
    change (replace_go "$UNIQUE_ID" (fmt05u 0) 0 "" "$GLOBAL_ID") with "$GLOBAL_ID".
    assert (E : replace_go "$GLOBAL_ID" (fmt05u (N.of_nat i)) 0 "" "$GLOBAL_ID" = fmt05u (N.of_nat i)).
    { change "$GLOBAL_ID" with ("$GLOBAL_ID" +++ "") at 2. rewrite (replace_hit "GLOBAL_ID") by apply no_dollar_05. apply app_nil. }
    rewrite E. assert (F : forall name f, replace_go (String "$" name) f 0 "" (fmt05u (N.of_nat i)) = fmt05u (N.of_nat i)).
    { intros name f. rewrite <- (app_nil (fmt05u (N.of_nat i))) at 1. destruct (replace_lit name f (fmt05u (N.of_nat i)) "" "" (no_dollar_05 _)) as (pre' & ->). cbn [replace_go]. apply app_nil. }
    rewrite !F. reflexivity. }
  rewrite (K i s I), (K j t J) in H. apply fmt05u_inj in H. apply N, Nat2N.inj, H.
Qed.
Print Assumptions C332_ids_distinguish_where.
