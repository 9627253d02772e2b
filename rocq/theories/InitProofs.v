(** Lemmas on loading, for InitProps. *)
From Coq Require Import String.
From Verif Require Import Base ConfigModel ConfigSpec FeatModel InitModel InitSpec.
Open Scope string_scope.
Open Scope list_scope.

Lemma Qltb_lt a b : Qltb a b = true <-> (a < b)%Q.
Proof.
  unfold Qltb. rewrite negb_true_iff. split.
  - intros H. apply Qnot_le_lt. intros C. apply Qle_bool_iff in C. congruence.
  - intros H. apply not_true_is_false. intros C. apply Qle_bool_iff in C. exact (Qlt_not_le _ _ H C).
Qed.

Section Gen.
  Context {O : Type}.
  Notation Cfg := (list (string * yml)).
  Lemma lseq_iff (f g : Load O) o o' : lseq f g o = (o', true) <-> exists o1, f o = (o1, true) /\ g o1 = (o', true).
  Proof.
    unfold lseq. destruct (f o) as [o1 [|]].
    - split; [intros E; exists o1; auto|]. intros (o2 & E & G). injection E as <-. exact G.
    - split; [discriminate|]. intros (o2 & E & _). discriminate E.
  Qed.
  Lemma lreq_iff {A} (conv : yml -> option A) (m : Cfg) k (set : A -> O -> O) o o' :
    lreq conv m k set o = (o', true) <-> exists a, Given conv m k a /\ o' = set a o.
  Proof.
    unfold lreq, Given. split.
    - destruct (yfind m k) as [v|]; [|discriminate]. destruct (conv v) as [a|] eqn:C; [|discriminate]. intros E. injection E as <-. eauto 6.
    - intros (a & (v & -> & ->) & ->). reflexivity.
  Qed.
  Lemma lopt_iff {A} (conv : yml -> option A) (m : Cfg) k (set : A -> O -> O) (get : O -> A) o o' : set (get o) o = o ->
    (lopt conv m k set o = (o', true) <-> exists a, GivenOr conv m k (get o) a /\ o' = set a o).
  Proof.
    intros SG. unfold lopt, GivenOr. split.
    - destruct (yfind m k) as [v|].
      + destruct (conv v) as [a|] eqn:C; [|discriminate]. intros E. injection E as <-. eauto 8.
      + intros E. injection E as <-. exists (get o). rewrite SG. auto.
    - intros (a & [[N ->]|(v & N & C)] & ->); rewrite N; [rewrite SG; reflexivity|rewrite C; reflexivity].
  Qed.
  Lemma lassert_iff (c : O -> bool) o o' : lassert c o = (o', true) <-> c o = true /\ o' = o.
  Proof. unfold lassert. split; [intros E; injection E as <- E; auto|intros [-> ->]; reflexivity]. Qed.
  Lemma lpart_iff {S} (get : O -> S) (set : S -> O -> O) (f : Load S) o o' :
    lpart get set f o = (o', true) <-> exists s, f (get o) = (s, true) /\ o' = set s o.
  Proof.
    unfold lpart. destruct (f (get o)) as [s ok]. split.
    - intros E. injection E as <- ->. eauto.
    - intros (s' & E & ->). injection E as <- ->. reflexivity.
  Qed.
End Gen.

(** std::map *)
Lemma smap_get_set {A} (l : list (string * A)) k v k' : smap_get (smap_set l k v) k' = if String.eqb k k' then Some v else smap_get l k'.
Proof.
  induction l as [|[a b] l IH]; [reflexivity|]. cbn [smap_set].
  destruct (String.compare k a) eqn:C.
  - apply String.compare_eq_iff in C. subst a. cbn [smap_get]. destruct (String.eqb k k'); reflexivity.
  - reflexivity.
  - cbn [smap_get]. rewrite IH. destruct (String.eqb_spec a k') as [->|]; [|reflexivity].
    destruct (String.eqb_spec k k') as [->|]; [|reflexivity].
    exfalso. assert (D := String.compare_antisym k' k'). rewrite C in D. discriminate D.
Qed.
Lemma smap_set_nonempty {A} (l : list (string * A)) k v : smap_set l k v <> [].
Proof. destruct l as [|[a b] l]; cbn [smap_set]; [discriminate|]. destruct (String.compare k a); discriminate. Qed.
Lemma weight_table_set t g l w g' l' :
  weight_of (table_set t g l w) g' l' = if String.eqb g g' && String.eqb l l' then Some w else weight_of t g' l'.
Proof.
  unfold weight_of, table_set. rewrite smap_get_set. destruct (String.eqb_spec g g') as [<-|]; cbn [andb]; [|reflexivity].
  rewrite smap_get_set. destruct (String.eqb l l'); [reflexivity|]. destruct (smap_get t g); reflexivity.
Qed.

Section Layers.
  Variables (as_str : yml -> option string) (as_num : yml -> option Q).
  Notation Entry := (Entry as_str as_num).
  Notation layers_loop := (layers_loop as_str as_num).

  Lemma entry_cons e r t t' : layers_loop (e :: r) t = (t', true) <->
    exists g l w, Entry e (g, l, w) /\ layers_loop r (table_set t g l w) = (t', true).
  Proof.
    split.
    - cbn [InitModel.layers_loop]. destruct e as [| | | | |m]; try discriminate.
      destruct (yfind m "global") as [yg|] eqn:YG; [|discriminate]. destruct (yfind m "local") as [yl|] eqn:YL; [|discriminate].
      destruct (as_str yg) as [g|] eqn:G; [|discriminate]. destruct (as_str yl) as [l|] eqn:L; [|discriminate].
      destruct (yfind m "weight") as [yw|] eqn:YW.
      + destruct (as_num yw) as [w|] eqn:W; [|discriminate]. intros E. exists g, l, w. split; [|exact E].
        exists m. split; [reflexivity|]. split; [exists yg; auto|]. split; [exists yl; auto|]. right. exists yw. auto.
      + intros E. exists g, l, 1%Q. split; [|exact E]. exists m. split; [reflexivity|]. split; [exists yg; auto|]. split; [exists yl; auto|]. left. auto.
    - intros (g & l & w & (m & -> & (yg & YG & G) & (yl & YL & L) & W) & E). cbn [fst snd] in *. cbn [InitModel.layers_loop]. rewrite YG, YL, G, L.
      destruct W as [[-> ->]|(yw & -> & ->)]; exact E.
  Qed.

  Lemma layers_spec es : forall t t', layers_loop es t = (t', true) ->
    exists ps, Forall2 Entry es ps /\
      (forall g l w, weight_of t' g l = Some w <->
        (exists before after, ps = before ++ (g, l, w) :: after /\ forall g' l' w', In (g', l', w') after -> ~ (g' = g /\ l' = l))
        \/ (weight_of t g l = Some w /\ forall g' l' w', In (g', l', w') ps -> ~ (g' = g /\ l' = l)))
      /\ (t' = [] <-> es = [] /\ t = []).
  Proof.
    induction es as [|e r IH]; intros t t' E.
    - injection E as <-. exists []. split; [constructor|]. split; [|tauto]. intros g l w. split.
      + intros H. right. split; [exact H|]. intros ? ? ? [].
      + intros [(b & a & N & _)|[H _]]; [destruct b; discriminate N|exact H].
    - apply entry_cons in E. destruct E as (g & l & w & EN & E). destruct (IH _ _ E) as (ps & F & P & Z).
      exists ((g, l, w) :: ps). split; [constructor; assumption|]. split.
      2:{ rewrite Z. split; [intros [_ X]|intros [X _]; discriminate X]. exfalso. revert X. apply smap_set_nonempty. }
      intros g0 l0 w0. rewrite P, weight_table_set.
      assert (DEC : (g = g0 /\ l = l0) \/ ~ (g = g0 /\ l = l0)).
      { destruct (String.eqb_spec g g0) as [->|]; [destruct (String.eqb_spec l l0) as [->|]|]; tauto. }
      split.
      + intros [(b & a & -> & N)|[W N]].
        * left. exists ((g, l, w) :: b), a. split; [reflexivity|exact N].
        * destruct (String.eqb_spec g g0) as [->|NG]; cbn [andb] in W; [destruct (String.eqb_spec l l0) as [->|NL]|].
          -- injection W as <-. left. exists [], ps. split; [reflexivity|exact N].
          -- right. split; [exact W|]. intros g' l' w' [EQ|I]; [injection EQ as <- <- <-; tauto|exact (N _ _ _ I)].
          -- right. split; [exact W|]. intros g' l' w' [EQ|I]; [injection EQ as <- <- <-; tauto|exact (N _ _ _ I)].
      + intros [(b & a & EQ & N)|[W N]].
        * destruct b as [|x b]; cbn [app] in EQ.
          -- injection EQ as -> -> -> ->. right. rewrite !String.eqb_refl. cbn [andb]. split; [reflexivity|exact N].
          -- injection EQ as _ E2. left. exists b, a. split; [exact E2|exact N].
        * right. assert (NE : ~ (g = g0 /\ l = l0)) by (apply (N g l w); left; reflexivity).
          split; [|intros g' l' w' I; apply (N g' l' w'); right; exact I].
          destruct (String.eqb_spec g g0) as [->|]; cbn [andb]; [destruct (String.eqb_spec l l0) as [->|]|]; tauto.
  Qed.
  Lemma layers_accept es : forall t ps, Forall2 Entry es ps -> exists t', layers_loop es t = (t', true).
  Proof.
    induction es as [|e r IH]; intros t ps F; [eexists; reflexivity|]. inversion F as [|? [[g l] w] ? ps' EN F']; subst.
    destruct (IH (table_set t g l w) ps' F') as [t' E]. exists t'. apply entry_cons. eauto 6.
  Qed.
End Layers.
