(** C206-C208: the velocity buffer as YAML. *)
From Coq Require Import String.
From Verif Require Import Base FilterModel VelocityModel ConfigModel VelYamlModel.
Open Scope string_scope.
Open Scope list_scope.

(** ** Specification *)
(** Entries of a std::map: stamps strictly increasing. *)
Definition increasing {V} (l : list (Z * V)) : Prop :=
  forall n m a b, (n < m)%nat -> nth_error l n = Some a -> nth_error l m = Some b -> (fst a < fst b)%Z.

Section Spec.
  Context {V : Type}.
  Variable fmt_time : Z -> string.
  Variable parse_time : string -> option Z.
  Variable fmt_vel : V -> string.
  Variable parse_vel : string -> option V.
  Variables (fmt_num : Q -> yml) (as_num : yml -> option Q) (as_str : yml -> option string).
  Variables (put_stamp : Q -> yml) (as_stamp : yml -> option Q).

  (** What is printed can be read; [rt] and [rv] are the numbers as printed, in the same order. *)
  Record Readable (rt : Z -> Z) (rv : V -> V) : Prop := {
    rd_time : forall t, parse_time (fmt_time t) = Some (rt t);
    rd_key : forall t u, fmt_time t = fmt_time u <-> rt t = rt u;
    rd_mono : forall t u, (t <= u)%Z -> (rt t <= rt u)%Z;
    rd_vel : forall v, parse_vel (fmt_vel v) = Some (rv v);
    rd_str : forall s, as_str (YT s) = Some s;
    rd_num : forall q, as_num (fmt_num q) = Some q;
    rd_stamp : forall q, as_stamp (put_stamp q) = Some q }.
End Spec.

(** ** Proofs *)
Section Proofs.
  Context {V : Type}.
  Variable fmt_time : Z -> string.
  Variable parse_time : string -> option Z.
  Variable fmt_vel : V -> string.
  Variable parse_vel : string -> option V.
  Variables (fmt_num : Q -> yml) (as_num : yml -> option Q) (as_str : yml -> option string).
  Variables (put_stamp : Q -> yml) (as_stamp : yml -> option Q).
  Notation to_yaml := (to_yaml fmt_time fmt_vel fmt_num put_stamp).
  Notation from_yaml := (from_yaml parse_time parse_vel as_num as_str as_stamp).
  Notation Readable := (Readable fmt_time parse_time fmt_vel parse_vel fmt_num as_num as_str put_stamp as_stamp).

  Lemma increasing_tail (a : Z * V) l : increasing (a :: l) -> increasing l.
  Proof. intros S n m x y L E F. apply (S (Datatypes.S n) (Datatypes.S m)); [lia|exact E|exact F]. Qed.
  Lemma increasing_head (a : Z * V) l : increasing (a :: l) -> forall b, In b l -> (fst a < fst b)%Z.
  Proof. intros S b I. apply In_nth_error in I as [n E]. apply (S 0%nat (Datatypes.S n)); [lia|reflexivity|exact E]. Qed.

  Lemma tm_set_last (l : list (Z * V)) t v : (forall a, In a l -> (fst a < t)%Z) -> tm_set l t v = l ++ [(t, v)].
  Proof.
    induction l as [|[k x] r IH]; intro H; [reflexivity|]. cbn [tm_set app].
    assert (k < t)%Z by (apply (H (k, x)); left; reflexivity).
    destruct (Z.ltb_spec t k); [lia|]. destruct (Z.eqb_spec t k); [lia|]. f_equal. apply IH. intros a I. apply H. right; exact I.
  Qed.
  Lemma tm_set_over (l : list (Z * V)) t v w : (forall a, In a l -> (fst a < t)%Z) -> tm_set (l ++ [(t, w)]) t v = l ++ [(t, v)].
  Proof.
    induction l as [|[k x] r IH]; intro H; cbn [tm_set app].
    - rewrite Z.ltb_irrefl, Z.eqb_refl. reflexivity.
    - assert (k < t)%Z by (apply (H (k, x)); left; reflexivity).
      destruct (Z.ltb_spec t k); [lia|]. destruct (Z.eqb_spec t k); [lia|]. f_equal. apply IH. intros a I. apply H. right; exact I.
  Qed.

  Variables (rt : Z -> Z) (rv : V -> V).
  Hypothesis RD : Readable rt rv.

  (** Stamps printed differently. *)
  Definition Distinct (l : list (Z * V)) : Prop := NoDup (map (fun tv => rt (fst tv)) l).

  Lemma ydict_set_fresh m k v : ~ In k (map fst m) -> ydict_set m k v = m ++ [(k, v)].
  Proof.
    induction m as [|[n x] t IH]; cbn; intro H; [reflexivity|].
    destruct (String.eqb_spec n k) as [->|]; [exfalso; apply H; left; reflexivity|]. f_equal. apply IH. tauto.
  Qed.
  Lemma vels_dict l : forall m, (forall a, In a l -> ~ In (fmt_time (fst a)) (map fst m)) -> Distinct l ->
    fold_left (fun m tv => ydict_set m (fmt_time (fst tv)) (YT (fmt_vel (snd tv)))) l m
    = m ++ map (fun tv => (fmt_time (fst tv), YT (fmt_vel (snd tv)))) l.
  Proof.
    induction l as [|a t IH]; intros m N D; cbn [fold_left map]; [symmetry; apply app_nil_r|].
    rewrite ydict_set_fresh by (apply N; left; reflexivity).
    rewrite IH; [rewrite <- app_assoc; reflexivity| |inversion D; assumption].
    intros b I K. rewrite map_app in K. apply in_app_or in K as [K|[K|[]]].
    - apply (N b (or_intror I) K).
    - apply (rd_key _ _ _ _ _ _ _ _ _ _ _ RD) in K. inversion D as [|? ? D1 D2]; subst. apply D1. apply in_map_iff. exists b. split; [symmetry; exact K|exact I].
  Qed.
  Lemma read_back l : forall acc, increasing l -> Distinct l -> (forall a b, In a acc -> In b l -> (fst a < rt (fst b))%Z) ->
    read_vels parse_time parse_vel as_str (map (fun tv => (fmt_time (fst tv), YT (fmt_vel (snd tv)))) l) acc
    = (acc ++ map (fun tv => (rt (fst tv), rv (snd tv))) l, true).
  Proof.
    induction l as [|a t IH]; intros acc S D B; cbn [map read_vels]; [rewrite app_nil_r; reflexivity|].
    rewrite (rd_time _ _ _ _ _ _ _ _ _ _ _ RD), (rd_str _ _ _ _ _ _ _ _ _ _ _ RD), (rd_vel _ _ _ _ _ _ _ _ _ _ _ RD).
    rewrite tm_set_last by (intros c I; apply (B c a); [exact I|left; reflexivity]).
    rewrite IH; [rewrite <- app_assoc; reflexivity|eapply increasing_tail; exact S|inversion D; assumption|].
    intros c b I J. apply in_app_or in I as [I|[<-|[]]]; [apply B; [exact I|right; exact J]|]. cbn [fst].
    pose proof (increasing_head _ _ S b J) as L.
    pose proof (rd_mono _ _ _ _ _ _ _ _ _ _ _ RD (fst a) (fst b)).
    assert (rt (fst a) <> rt (fst b)); [|lia]. intro K. inversion D as [|? ? D1 D2]; subst. apply D1. apply in_map_iff. exists b. split; [symmetry; exact K|exact J].
  Qed.
  Lemma vels_round l : increasing l -> Distinct l ->
    match vels_yaml fmt_time fmt_vel l with YDict e => read_vels parse_time parse_vel as_str e [] | _ => ([], false) end
    = (map (fun tv => (rt (fst tv), rv (snd tv))) l, true).
  Proof.
    intros S D. unfold vels_yaml. rewrite (vels_dict l [] (fun _ _ F => F) D). cbn [app].
    rewrite read_back; [reflexivity|assumption|assumption|intros ? ? []].
  Qed.

  (** C206: whatever the buffer that reads it had, it becomes the buffer that was written, with
      stamps and velocities as printed. *)
  Theorem C206_written_buffer_is_read_back : forall b old,
    increasing (b_lin b) -> increasing (b_ang b) -> Distinct (b_lin b) -> Distinct (b_ang b) ->
    from_yaml (to_yaml b) old
    = (mkBuffer (b_window b) (b_tolerance b) (b_ref b)
         (map (fun tv => (rt (fst tv), rv (snd tv))) (b_lin b)) (map (fun tv => (rt (fst tv), rv (snd tv))) (b_ang b)), true).
  Proof.
    intros b old S1 S2 D1 D2. unfold VelYamlModel.from_yaml, VelYamlModel.to_yaml, read_params, read_state.
    cbn [yfind String.eqb Ascii.eqb Bool.eqb sub].
    rewrite !(rd_num _ _ _ _ _ _ _ _ _ _ _ RD), (rd_stamp _ _ _ _ _ _ _ _ _ _ _ RD).
    pose proof (vels_round (b_lin b) S1 D1) as R1. pose proof (vels_round (b_ang b) S2 D2) as R2.
    unfold read_section, vels_yaml in *.
    destruct (b_lin b) as [|l1 l]; destruct (b_ang b) as [|a1 a]; cbn [app yfind String.eqb Ascii.eqb Bool.eqb map] in *.
    - reflexivity.
    - rewrite R2. reflexivity.
    - rewrite R1. reflexivity.
    - rewrite R1, R2. reflexivity.
  Qed.

  (** C207 (refuted): no entry is lost.  Two stamps that print alike become one entry. *)
  Theorem C207_no_entry_is_lost_refuted : forall (t u : Z) (v w : V), (t < u)%Z -> rt t = rt u ->
    ~ (forall b old, increasing (b_lin b) -> increasing (b_ang b) ->
         exists b', from_yaml (to_yaml b) old = (b', true) /\ List.length (b_lin b') = List.length (b_lin b)).
  Proof.
    intros t u v w L E H.
    specialize (H (mkBuffer 1 1 0 [(t, v); (u, w)] []) (mkBuffer 1 1 0 [] [])). cbn [b_lin b_ang] in H.
    assert (increasing [(t, v); (u, w)]) as S1.
    { intros n m a b N A B. destruct n as [|[|n]], m as [|[|m]]; cbn in A, B; try lia; try discriminate.
      - injection A as <-. injection B as <-. exact L.
      - destruct m; discriminate. 
      - destruct m; discriminate.
      - destruct n; discriminate. }
    assert (@increasing V []) as S2 by (intros n m a b _ A; destruct n; discriminate).
    destruct (H S1 S2) as (b' & K & N). clear H.
    unfold VelYamlModel.from_yaml, VelYamlModel.to_yaml, read_params, read_state in K.
    cbn [yfind String.eqb Ascii.eqb Bool.eqb sub b_window b_tolerance b_ref b_lin b_ang app] in K.
    rewrite !(rd_num _ _ _ _ _ _ _ _ _ _ _ RD), (rd_stamp _ _ _ _ _ _ _ _ _ _ _ RD) in K.
    assert (fmt_time t = fmt_time u) as F by (apply (rd_key _ _ _ _ _ _ _ _ _ _ _ RD); exact E).
    unfold read_section, vels_yaml in K. cbn [yfind String.eqb Ascii.eqb Bool.eqb fold_left fst snd ydict_set] in K.
    rewrite F, String.eqb_refl in K. cbn [read_vels] in K.
    rewrite (rd_time _ _ _ _ _ _ _ _ _ _ _ RD), (rd_str _ _ _ _ _ _ _ _ _ _ _ RD), (rd_vel _ _ _ _ _ _ _ _ _ _ _ RD) in K.
    cbn in K. injection K as <-. discriminate.
  Qed.
  Theorem C207_entries_kept_where : forall b old b',
    increasing (b_lin b) -> increasing (b_ang b) -> Distinct (b_lin b) -> Distinct (b_ang b) ->
    from_yaml (to_yaml b) old = (b', true) ->
    List.length (b_lin b') = List.length (b_lin b) /\ List.length (b_ang b') = List.length (b_ang b).
  Proof. intros b old b' S1 S2 D1 D2 E. rewrite C206_written_buffer_is_read_back in E by assumption. injection E as <-. cbn. rewrite !map_length. auto. Qed.
End Proofs.

Section Partial.
  Context {V : Type}.
  Variable parse_time : string -> option Z.
  Variable parse_vel : string -> option V.
  Variables (as_num : yml -> option Q) (as_str : yml -> option string) (as_stamp : yml -> option Q).
  Notation from_yaml := (from_yaml parse_time parse_vel as_num as_str as_stamp).

  (** C206: sections that are absent leave what they describe. *)
  Theorem C206_absent_sections_keep : forall m b b',
    from_yaml (YDict m) b = (b', true) ->
    (yfind m "parameters" = None -> b_window b' = b_window b /\ b_tolerance b' = b_tolerance b)
    /\ (yfind m "state" = None -> b_ref b' = b_ref b /\ b_lin b' = b_lin b /\ b_ang b' = b_ang b).
  Proof.
    intros m b b' E. unfold VelYamlModel.from_yaml in E. destruct (read_params as_num m b) as [b1 [|]] eqn:P; [|discriminate].
    split; intro N.
    - unfold read_params in P. rewrite N in P. injection P as <-. unfold read_state in E.
      destruct (yfind m "state") as [s|]; [|injection E as <-; auto].
      destruct (match sub s "reference_zero_time" with Some v => as_stamp v | None => None end) as [r|]; [|discriminate].
      destruct (read_section parse_time parse_vel as_str (match s with YDict x => x | _ => [] end) "linear_velocities") as [li [|]]; [|discriminate].
      destruct (read_section parse_time parse_vel as_str (match s with YDict x => x | _ => [] end) "angular_velocities") as [an ok2].
      injection E as <- _. auto.
    - unfold read_state in E. rewrite N in E. injection E as <-. unfold read_params in P.
      destruct (yfind m "parameters") as [p|]; [|injection P as <-; auto].
      destruct (match sub p "max_time_window" with Some v => as_num v | None => None end) as [mw|]; [|discriminate].
      destruct (match sub p "tolerance_search_stamp" with Some v => as_num v | None => None end) as [tl|]; [|discriminate].
      injection P as <-. auto.
  Qed.
  Theorem C206_only_maps : forall y b b', from_yaml y b = (b', true) -> exists m, y = YDict m.
  Proof. intros y b b' E. destruct y; try discriminate. eauto. Qed.

  (** C208 (refuted): a document that is rejected leaves the buffer as it was. *)
  Theorem C208_rejected_document_changes_nothing_refuted : (exists v, as_num v = Some 7%Q) ->
    ~ (forall y b b', from_yaml y b = (b', false) -> b' = b).
  Proof.
    intros [v Ev] H.
    specialize (H (YDict [("parameters", YDict [("max_time_window", v)])]) (mkBuffer 1 1 0 [] [])
                  (mkBuffer 7 1 0 [] [])).
    unfold VelYamlModel.from_yaml, read_params in H. cbn [yfind String.eqb Ascii.eqb Bool.eqb sub] in H. rewrite Ev in H.
    specialize (H eq_refl). discriminate.
  Qed.
  (** Where: the parameters are rejected at their first field, or the document is not a map. *)
  Theorem C208_rejected_where : forall y b b', from_yaml y b = (b', false) ->
    match y with
    | YDict m => match yfind m "parameters" with
                 | Some p => match sub p "max_time_window" with Some v => as_num v = None | None => True end
                 | None => match yfind m "state" with
                           | Some s => match sub s "reference_zero_time" with Some v => as_stamp v = None | None => True end
                           | None => True
                           end
                 end
    | _ => True
    end -> b' = b.
  Proof.
    intros y b b' E H. unfold VelYamlModel.from_yaml in E. destruct y as [| | | | |m]; try (injection E as <-; reflexivity).
    unfold read_params in E. destruct (yfind m "parameters") as [p|].
    - destruct (sub p "max_time_window") as [v|]; [rewrite H in E|]; injection E as <-; reflexivity.
    - unfold read_state in E. destruct (yfind m "state") as [s|]; [|discriminate].
      destruct (sub s "reference_zero_time") as [v|]; [rewrite H in E|]; injection E as <-; reflexivity.
  Qed.
End Partial.

(** Non-vacuity: stamps in tenths of the printed unit, printed in unary; velocities printed exactly. *)
Fixpoint unary (n : nat) : string := match n with O => "" | S k => String (Ascii.Ascii true false false false true true false false) (unary k) end.
Lemma unary_length n : String.length (unary n) = n.
Proof. induction n; cbn; congruence. Qed.
Definition toy_time (t : Z) : string := if (t <? 0)%Z then String (Ascii.Ascii true false true true false true false false) (unary (Z.to_nat (- (t / 10)))) else unary (Z.to_nat (t / 10)).
Definition toy_parse (s : string) : option Z :=
  match s with String (Ascii.Ascii true false true true false true false false) u => Some (- Z.of_nat (String.length u))%Z | _ => Some (Z.of_nat (String.length s)) end.
Example C206_C207_case :
  Readable toy_time toy_parse (fun u : unit => "v") (fun s => Some tt) (fun q => YQ q) (fun y => match y with YQ q => Some q | _ => None end)
    (fun y => match y with YT s => Some s | _ => None end) (fun q => YQ q) (fun y => match y with YQ q => Some q | _ => None end)
    (fun t => (t / 10)%Z) (fun u => u)
  /\ ((3 / 10) = (4 / 10))%Z.
Proof.
  assert (forall t, toy_parse (toy_time t) = Some (t / 10)%Z) as PT.
  { intro t. unfold toy_time, toy_parse. destruct (Z.ltb_spec t 0) as [N|N].
    - assert (t / 10 < 0)%Z by (apply Z.div_lt_upper_bound; lia). rewrite unary_length. f_equal. lia.
    - assert (0 <= t / 10)%Z by (apply Z.div_pos; lia). 
      destruct (Z.to_nat (t / 10)) as [|k] eqn:K; [cbn; f_equal; lia|]. cbn [unary]. 
      change (String (Ascii.Ascii true false false false true true false false) (unary k)) with (unary (S k)). 
      replace (match unary (S k) with String (Ascii.Ascii true false true true false true false false) u => Some (- Z.of_nat (String.length u))%Z | _ => Some (Z.of_nat (String.length (unary (S k)))) end)
        with (Some (Z.of_nat (String.length (unary (S k))))) by reflexivity.
      rewrite unary_length. f_equal. lia. }
  split; [|reflexivity]. split; try reflexivity.
  - exact PT.
  - intros t u. split.
    + intro E. pose proof (PT t) as A. rewrite E, PT in A. congruence.
    + intro E. unfold toy_time. rewrite E.
      destruct (Z.ltb_spec t 0), (Z.ltb_spec u 0); try reflexivity; exfalso.
      * assert (t / 10 < 0)%Z by (apply Z.div_lt_upper_bound; lia). assert (0 <= u / 10)%Z by (apply Z.div_pos; lia). lia.
      * assert (u / 10 < 0)%Z by (apply Z.div_lt_upper_bound; lia). assert (0 <= t / 10)%Z by (apply Z.div_pos; lia). lia.
  - intros t u L. apply Z.div_le_mono; lia.
  - intros []. reflexivity.
Qed.
