(** Lemmas on the configuration of filters, for FInitProps. *)
From Coq Require Import String.
From Verif Require Import Base ConfigModel ConfigSpec FilterModel VoxelModel CurvModel QuadModel EdgesModel InitModel InitSpec InitProofs FInitModel FInitSpec.
Open Scope string_scope.
Open Scope list_scope.

Section FInitPr.
  Variables (as_str : yml -> option string) (as_int : yml -> option Z).
  Notation Cfg := (list (string * yml)).
  Context {S : Type}.

  Lemma lst_iff (f : Load S) o o' : lst f o = (o', true) <-> exists s, f (fo_st o) = (s, true) /\ o' = mkFO s (fo_forms o).
  Proof. unfold lst. rewrite lpart_iff. reflexivity. Qed.
  Lemma freq_iff (m : Cfg) k (o o' : FO S) : freq as_str m k o = (o', true) <-> exists t, Given as_str m k t /\ o' = mkFO (fo_st o) (fo_forms o ++ [(k, Some t)]).
  Proof. unfold freq. rewrite lreq_iff. reflexivity. Qed.
  Lemma fopt_iff (m : Cfg) k (o o' : FO S) : fopt as_str m k o = (o', true) <->
    exists t, ((yfind m k = None /\ t = None) \/ exists x, Given as_str m k x /\ t = Some x) /\ o' = mkFO (fo_st o) (fo_forms o ++ [(k, t)]).
  Proof.
    unfold fopt, Given. split.
    - destruct (yfind m k) as [v|].
      + destruct (as_str v) as [t|] eqn:C; [|discriminate]. intros E. injection E as <-. exists (Some t). split; [right; eauto 6|reflexivity].
      + intros E. injection E as <-. exists None. auto.
    - intros (t & [[Y ->]|(x & (v & Y & C) & ->)] & ->); rewrite Y; [reflexivity|]. rewrite C. reflexivity.
  Qed.
  Lemma fdecls_iff l : forall (o o' : FO S), fdecls as_str l o = (o', true) <->
    exists ts, Forall2 (fun y t => as_str y = Some t) (map snd l) ts /\ o' = mkFO (fo_st o) (fo_forms o ++ combine (map fst l) (map Some ts)).
  Proof.
    induction l as [|[c y] l IH]; intros o o'.
    - cbn [fdecls]. unfold lskip. split.
      + intros E. injection E as <-. exists []. split; [constructor|]. cbn. rewrite app_nil_r. destruct o; reflexivity.
      + intros (ts & F & ->). inversion F; subst. cbn. rewrite app_nil_r. destruct o; reflexivity.
    - cbn [fdecls]. rewrite lseq_iff. split.
      + intros (o1 & E & H). destruct (as_str y) as [t|] eqn:C; [|discriminate E]. injection E as <-. apply IH in H. destruct H as (ts & F & ->).
        exists (t :: ts). split; [constructor; assumption|]. cbn. rewrite <- app_assoc. reflexivity.
      + intros (ts & F & ->). cbn [map snd] in F. inversion F as [|? t ? ts' C F']; subst. rewrite C. eexists. split; [reflexivity|].
        apply IH. exists ts'. split; [assumption|]. cbn. rewrite <- app_assoc. reflexivity.
  Qed.
  Lemma names_loop_iff ys : forall acc ns, names_loop as_str ys acc = (ns, true) <->
    exists l, Forall2 (fun y a => as_str y = Some a) ys l /\ ns = acc ++ l.
  Proof.
    induction ys as [|y ys IH]; intros acc ns; cbn [names_loop].
    - split.
      + intros E. injection E as <-. exists []. rewrite app_nil_r. auto.
      + intros (l & F & ->). inversion F. rewrite app_nil_r. reflexivity.
    - split.
      + destruct (as_str y) as [n|] eqn:C; [|discriminate]. intros H. apply IH in H. destruct H as (l & F & ->). exists (n :: l). rewrite <- app_assoc. auto.
      + intros (l & F & ->). inversion F as [|? n ? l' C F']; subst. rewrite C. apply IH. exists l'. rewrite <- app_assoc. auto.
  Qed.
  Lemma scalar_iff y : GenInitModel.is_scalar y = true <-> Scalar y.
  Proof. destruct y; cbn; split; intros; try discriminate; try contradiction; auto. Qed.
  Lemma names_of_iff y ns : names_of as_str y = (ns, true) <->
    (Scalar y /\ exists a, as_str y = Some a /\ ns = [a]) \/ exists ys, y = YSeq ys /\ Forall2 (fun y a => as_str y = Some a) ys ns.
  Proof.
    unfold names_of. destruct (GenInitModel.is_scalar y) eqn:E.
    - rewrite names_loop_iff. apply scalar_iff in E. split.
      + intros (l & F & ->). inversion F as [|? a ? l' C F']; subst. inversion F'; subst. left. eauto.
      + intros [(_ & a & C & ->)|(ys & -> & _)]; [|destruct E]. exists [a]. auto.
    - assert (N : ~ Scalar y) by (rewrite <- scalar_iff; congruence). split.
      + destruct y; intros H; try discriminate H. apply names_loop_iff in H. destruct H as (l' & F & ->). right. exists l. auto.
      + intros [[X _]|(ys & -> & F)]; [contradiction|]. apply names_loop_iff. exists ns. auto.
  Qed.
  Lemma lnames_iff (m : Cfg) k (get : S -> list Name) set o o' : (forall ns o, get (set ns o) = ns) ->
    (lnames as_str m k get set o = (o', true) <-> exists ns, Values as_str m k ns /\ ns <> [] /\ o' = set ns o).
  Proof.
    intros G. unfold lnames. rewrite lseq_iff. unfold Values. split.
    - intros (o1 & E & H). apply lassert_iff in H. destruct H as [H ->]. destruct (yfind m k) as [y|]; [|discriminate E].
      destruct (names_of as_str y) as [ns ok] eqn:N. injection E as <- ->. apply names_of_iff in N. exists ns.
      rewrite G in H. split; [eauto|]. split; [intros ->; discriminate H|reflexivity].
    - intros (ns & (y & Y & V) & NE & ->). rewrite Y. apply names_of_iff in V. rewrite V. eexists. split; [reflexivity|]. apply lassert_iff.
      split; [|reflexivity]. rewrite G. destruct ns; [contradiction|reflexivity].
  Qed.

  Lemma set_insert_in l z x : In x (set_insert l z) <-> In x l \/ x = z.
  Proof.
    unfold set_insert. destruct (existsb (Z.eqb z) l) eqn:E.
    - apply existsb_exists in E. destruct E as (y & I & Q). apply Z.eqb_eq in Q. subst y. split; [auto|intros [A | ->]; assumption].
    - rewrite in_app_iff. cbn. intuition.
  Qed.
  Lemma NoDup_snoc {A} (l : list A) x : NoDup l -> ~ In x l -> NoDup (l ++ [x]).
  Proof.
    induction 1 as [|y l NI N IH]; intros NX; cbn [app].
    - constructor; [intros []|constructor].
    - constructor; [|apply IH; intros I; apply NX; right; exact I].
      rewrite in_app_iff. intros [I|[E|[]]]; [exact (NI I)|]. apply NX. left. congruence.
  Qed.
  Lemma set_insert_nodup l z : NoDup l -> NoDup (set_insert l z).
  Proof.
    intros N. unfold set_insert. destruct (existsb (Z.eqb z) l) eqn:E; [exact N|].
    apply NoDup_snoc; [exact N|]. intros I. assert (existsb (Z.eqb z) l = true) by (apply existsb_exists; exists z; split; [exact I|apply Z.eqb_refl]). congruence.
  Qed.
  Lemma rings_loop_spec ys : forall acc ns, rings_loop as_int ys acc = (ns, true) -> NoDup acc ->
    exists l, Forall2 (fun y a => as_int y = Some a) ys l /\ NoDup ns /\ forall z, In z ns <-> In z acc \/ In z l.
  Proof.
    induction ys as [|y ys IH]; intros acc ns H N; cbn [rings_loop] in H.
    - injection H as <-. exists []. split; [constructor|]. split; [exact N|]. intros z. cbn. tauto.
    - destruct (as_int y) as [n|] eqn:C; [|discriminate H]. destruct (IH _ _ H (set_insert_nodup _ _ N)) as (l & F & ND & I).
      exists (n :: l). split; [auto|]. split; [exact ND|]. intros z. rewrite I, set_insert_in. cbn. intuition.
  Qed.
  Lemma rings_loop_ok ys l : forall acc, Forall2 (fun y a => as_int y = Some a) ys l -> exists ns, rings_loop as_int ys acc = (ns, true).
  Proof.
    intros acc F. revert acc. induction F as [|y n ys l C F IH]; intros acc; cbn [rings_loop]; [eexists; reflexivity|]. rewrite C. apply IH.
  Qed.
  Definition SetOf (ns ids : list Z) : Prop := NoDup ns /\ forall z, In z ns <-> In z ids.
  Lemma rings_of_fwd y ns : rings_of as_int y = (ns, true) -> exists l,
    ((Scalar y /\ exists a, as_int y = Some a /\ l = [a]) \/ exists ys, y = YSeq ys /\ Forall2 (fun y a => as_int y = Some a) ys l) /\ SetOf ns l.
  Proof.
    unfold rings_of. destruct (GenInitModel.is_scalar y) eqn:E.
    - intros H. apply scalar_iff in E. apply rings_loop_spec in H; [|constructor]. destruct H as (l & F & N & I). exists l. split.
      + inversion F as [|? a ? l' C F']; subst. inversion F'; subst. left. eauto.
      + split; [exact N|]. intros z. rewrite I. cbn. tauto.
    - destruct y as [| | | |ys|]; intros H; try discriminate H. apply rings_loop_spec in H; [|constructor]. destruct H as (l & F & N & I). exists l. split.
      + right. eauto.
      + split; [exact N|]. intros z. rewrite I. cbn. tauto.
  Qed.
  Lemma rings_of_bwd y l :
    ((Scalar y /\ exists a, as_int y = Some a /\ l = [a]) \/ exists ys, y = YSeq ys /\ Forall2 (fun y a => as_int y = Some a) ys l) ->
    exists ns, rings_of as_int y = (ns, true) /\ SetOf ns l.
  Proof.
    intros H.
    assert (X : exists ns, rings_of as_int y = (ns, true)).
    { unfold rings_of. destruct H as [(SC & a & C & ->)|(ys & -> & F)].
      - apply scalar_iff in SC. rewrite SC. apply (rings_loop_ok [y] [a]). auto.
      - apply (rings_loop_ok ys l). exact F. }
    destruct X as (ns & E). exists ns. split; [exact E|]. destruct (rings_of_fwd _ _ E) as (l' & V & SO).
    replace l with l'; [exact SO|]. destruct H as [(SC & a & C & ->)|(ys & -> & F)], V as [(SC' & a' & C' & ->)|(ys' & Q & F')].
    - congruence.
    - subst y. destruct SC.
    - destruct SC'.
    - injection Q as <-. clear -F F'. revert l' F'. induction F as [|y n ys l C F IH]; intros l' F'; inversion F'; subst; [reflexivity|]. f_equal; [congruence|auto].
  Qed.
End FInitPr.

Lemma one_output_iff a b : one_output a b = true <-> a <> "" \/ b <> "".
Proof. unfold one_output. rewrite orb_true_iff, !negb_true_iff, !String.eqb_neq. tauto. Qed.
Lemma forall2_3 {A B} (P : A -> B -> Prop) ys a b c : Forall2 P ys [a; b; c] <-> exists x y z, ys = [x; y; z] /\ P x a /\ P y b /\ P z c.
Proof.
  split.
  - intros F. inversion F as [|x ? ? ? X F1]; subst. inversion F1 as [|y ? ? ? Y F2]; subst. inversion F2 as [|z ? ? ? Z F3]; subst. inversion F3; subst. eauto 10.
  - intros (x & y & z & -> & X & Y & Z). auto.
Qed.
Lemma forall2_6 {A B} (P : A -> B -> Prop) ys a b c d e f : Forall2 P ys [a; b; c; d; e; f] <->
  exists u v w x y z, ys = [u; v; w; x; y; z] /\ P u a /\ P v b /\ P w c /\ P x d /\ P y e /\ P z f.
Proof.
  split.
  - intros F. do 6 (inversion F as [|? ? ? ? ? F']; subst; clear F; rename F' into F). inversion F; subst. do 6 eexists. split; [reflexivity|]. auto 8.
  - intros (u & v & w & x & y & z & -> & U & V & W & X & Y & Z). auto 8.
Qed.

(** ** What an entry says is unique *)
Lemma forall2_unique {A} (conv : yml -> option A) ys l l' :
  Forall2 (fun y a => conv y = Some a) ys l -> Forall2 (fun y a => conv y = Some a) ys l' -> l = l'.
Proof.
  intros F. revert l'. induction F as [|y n ys l C F IH]; intros l' F'; inversion F'; subst; [reflexivity|]. f_equal; [congruence|auto].
Qed.
Lemma values_unique {A} (conv : yml -> option A) m k l l' : Values conv m k l -> Values conv m k l' -> l = l'.
Proof.
  intros (y & Y & V) (y' & Y' & V'). rewrite Y in Y'. injection Y' as <-.
  destruct V as [(SC & a & C & ->)|(ys & -> & F)], V' as [(SC' & a' & C' & ->)|(ys' & Q & F')].
  - congruence.
  - subst y. destruct SC.
  - destruct SC'.
  - injection Q as <-. exact (forall2_unique _ _ _ _ F F').
Qed.
Lemma formulas_unique as_str m k l l' : Formulas as_str m k l -> Formulas as_str m k l' -> l = l'.
Proof. intros (ys & Y & F) (ys' & Y' & F'). rewrite Y in Y'. injection Y' as <-. exact (forall2_unique _ _ _ _ F F'). Qed.
Lemma given_unique {A} (conv : yml -> option A) m k a b : Given conv m k a -> Given conv m k b -> a = b.
Proof. intros (y & Y & C) (y' & Y' & C'). congruence. Qed.
Lemma single_iff o : ds_single o = true <-> ds_method o = FirstPoint.
Proof. unfold ds_single. destruct (ds_method o); split; congruence. Qed.
