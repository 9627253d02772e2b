(** More lemmas: totality, exceptions and in-place filtering. *)
From Coq Require Import String.
From Verif Require Import Base FilterModel FilterSpec FilterProofs.
Open Scope string_scope.
Open Scope Q_scope.
Open Scope list_scope.

Definition Preserved (m m' : Layers) : Prop :=
  forall n l, lfind m n = Some l -> lfind m' n = Some l.

Lemma Preserved_refl m : Preserved m m. Proof. intros n l H. exact H. Qed.
Lemma Preserved_trans a b c : Preserved a b -> Preserved b c -> Preserved a c.
Proof. intros H K n l E. apply K, H, E. Qed.

(** Steps that may throw, and keep every existing layer whatever they do. *)
Definition Safe {A} (x : M A) : Prop := forall m m' o, x m = (m', o) -> Preserved m m'.
(** Steps that never throw. *)
Definition NoExc {A} (x : M A) : Prop := forall m m', x m <> (m', Exc).

Lemma safe_input n : Safe (input_layer n).
Proof.
  intros m m' o H. unfold input_layer, bnd, point_layer, ret, throw in H.
  destruct (lfind m n) as [[c|x|]|]; injection H as <- _; apply Preserved_refl.
Qed.

Lemma safe_goc n a c : Safe (get_or_create n a c).
Proof.
  intros m m' o H. unfold get_or_create in H.
  destruct (String.eqb n ""); [destruct a; injection H as <- _; apply Preserved_refl|].
  destruct (lfind m n) as [[d|x|]|] eqn:E; injection H as <- _; try apply Preserved_refl.
  intros k l K. rewrite lfind_lset. destruct (String.eqb n k) eqn:F; [|exact K].
  apply String.eqb_eq in F. subst k. congruence.
Qed.

Lemma safe_assert b : Safe (massert b).
Proof. intros m m' o H. destruct b; injection H as <- _; apply Preserved_refl. Qed.

(** A throwing sequence of safe steps followed by steps that do not throw preserves
    every layer that existed. *)
Definition ExcSafe {A} (x : M A) : Prop := forall m m', x m = (m', Exc) -> Preserved m m'.

Lemma excsafe_bnd {A B} (x : M A) (f : A -> M B) :
  Safe x -> (forall a, ExcSafe (f a)) -> ExcSafe (bnd x f).
Proof.
  intros S F m m' H. unfold bnd in H. destruct (x m) as [m1 o] eqn:E.
  apply S in E. destruct o as [a| | |]; try discriminate.
  - eapply Preserved_trans; [exact E|]. eapply F. exact H.
  - injection H as <-. exact E.
Qed.

Lemma excsafe_noexc {A} (x : M A) : NoExc x -> ExcSafe x.
Proof. intros N m m' H. exfalso. exact (N m m' H). Qed.

Lemma noexc_bnd {A B} (x : M A) (f : A -> M B) :
  NoExc x -> (forall a, NoExc (f a)) -> NoExc (bnd x f).
Proof.
  intros N F m m' H. unfold bnd in H. destruct (x m) as [m1 o] eqn:E.
  destruct o as [a| | |]; try discriminate; [exact (F a _ _ H)|exact (N _ _ E)].
Qed.

Lemma noexc_insert n p : NoExc (insert_from n p).
Proof. intros m m' H. unfold insert_from in H. destruct (lfind m n) as [[d|x|]|]; discriminate. Qed.

Lemma noexc_route_one inp dest i : NoExc (route_one inp dest i).
Proof.
  intros m m' H. unfold route_one in H. destruct (lfind m inp) as [[d|x|]|]; try discriminate.
  destruct (nth_error (cl_pts d) i); [|discriminate].
  destruct (String.eqb (dest p) ""); [discriminate|]. exact (noexc_insert _ _ _ _ H).
Qed.

Lemma noexc_live : forall fuel inp dest i, NoExc (route_live fuel inp dest i).
Proof.
  induction fuel as [|k IH]; intros inp dest i m m' H; cbn [route_live] in H;
    destruct (lfind m inp) as [[d|x|]|]; try discriminate;
    destruct (i <? List.length (cl_pts d))%nat; try discriminate.
  revert H. apply noexc_bnd; [apply noexc_route_one|]. intros _. apply IH.
Qed.

Lemma noexc_n : forall n inp dest i, NoExc (route_n n inp dest i).
Proof.
  induction n as [|k IH]; intros inp dest i; [intros m m' H; discriminate|].
  simpl. apply noexc_bnd; [apply noexc_route_one|]. intros _. apply IH.
Qed.

Lemma noexc_list : forall l dest, NoExc (route_list l dest).
Proof.
  induction l as [|p l IH]; intros dest; [intros m m' H; discriminate|].
  simpl. apply noexc_bnd; [|intros _; apply IH].
  destruct (String.eqb (dest p) ""); [intros m m' H; discriminate|apply noexc_insert].
Qed.

(** ** Unusable outputs and missing inputs *)
Lemma input_ok m n src : lfind m n = Some (LPts src) -> input_layer n m = (m, Val src).
Proof. intros H. unfold input_layer, bnd, point_layer. rewrite H. reflexivity. Qed.

Lemma input_bad m n : ~ is_pts m n -> input_layer n m = (m, Exc).
Proof.
  intros H. unfold input_layer, bnd, point_layer.
  destruct (lfind m n) as [[d|x|]|] eqn:E; try reflexivity. exfalso. apply H. exists d. exact E.
Qed.

Lemma goc_bad m n c : ~ usable m n -> get_or_create n true c m = (m, Exc).
Proof.
  intros H. unfold get_or_create. destruct (String.eqb n "") eqn:E.
  - exfalso. apply H. left. apply String.eqb_eq. exact E.
  - destruct (lfind m n) as [[d|x|]|] eqn:F; try reflexivity; exfalso; apply H; right;
      [right; exists d; exact F|left; exact F].
Qed.

Lemma unusable_created m n outs c : ~ usable m n -> ~ usable (created m outs c) n.
Proof.
  intros H [U|[U|[d U]]]; apply H; [left; exact U| |].
  - rewrite created_find in U. destruct (lfind m n) eqn:E; [discriminate|right; left; exact E].
  - rewrite created_find in U. destruct (lfind m n) as [l|] eqn:E.
    + injection U as ->. right; right. exists d. exact E.
    + right; left. exact E.
Qed.

Lemma usable_dec m n : usable m n \/ ~ usable m n.
Proof.
  unfold usable. destruct (String.eqb n "") eqn:E.
  - left; left. apply String.eqb_eq. exact E.
  - apply String.eqb_neq in E. destruct (lfind m n) as [[d|x|]|].
    + left; right; right. exists d. reflexivity.
    + right. intros [H|[H|[d H]]]; congruence.
    + right. intros [H|[H|[d H]]]; congruence.
    + left; right; left. reflexivity.
Qed.

(** ** In-place filtering: the input layer is one of the outputs *)

Lemma conv_pos c p : px (conv c p) = px p /\ py (conv c p) = py p /\ pz (conv c p) = pz p.
Proof. repeat split. Qed.

Lemma live_in_place_spins : forall fuel inp dest i m c,
  inp <> "" ->
  (forall k p, dest (conv k p) = dest p) ->
  (forall p, dest p <> "" -> is_pts m (dest p)) ->
  lfind m inp = Some (LPts c) ->
  (exists j p, (i <= j)%nat /\ nth_error (cl_pts c) j = Some p /\ dest p = inp) ->
  exists m', route_live fuel inp dest i m = (m', Spin).
Proof.
  induction fuel as [|k IH]; intros inp dest i m c NE DC K H [j [p [Hj [Np Dp]]]].
  - exists m. cbn [route_live]. rewrite H.
    assert (L : (i <? List.length (cl_pts c))%nat = true).
    { apply Nat.ltb_lt. assert (j < List.length (cl_pts c))%nat by (apply nth_error_Some; congruence). lia. }
    rewrite L. reflexivity.
  - cbn [route_live]. rewrite H.
    assert (LJ : (j < List.length (cl_pts c))%nat) by (apply nth_error_Some; congruence).
    assert (L : (i <? List.length (cl_pts c))%nat = true) by (apply Nat.ltb_lt; lia).
    rewrite L. unfold bnd.
    destruct (nth_error (cl_pts c) i) as [q|] eqn:Nq.
    2:{ apply nth_error_None in Nq. lia. }
    rewrite (route_one_fst inp dest i m c q H Nq).
    destruct (String.eqb (dest q) "") eqn:Z.
    + unfold ret. eapply IH; [exact NE|exact DC|exact K|exact H|].
      exists j, p. split; [|split; [exact Np|exact Dp]].
      assert (i <> j); [|lia]. intros ->. rewrite Np in Nq. injection Nq as <-.
      apply String.eqb_eq in Z. congruence.
    + destruct (K q) as [d Hd]. { apply String.eqb_neq; exact Z. }
      unfold insert_from. rewrite Hd.
      destruct (String.eqb (dest q) inp) eqn:S.
      * apply String.eqb_eq in S. rewrite S in *. rewrite H in Hd. injection Hd as <-.
        eapply IH; [exact NE|exact DC| |rewrite lfind_lset, seqb_refl; reflexivity|].
        { intros r Nr. unfold is_pts. rewrite lfind_lset.
          destruct (String.eqb inp (dest r)); [eexists; reflexivity|]. apply K; exact Nr. }
        exists (List.length (cl_pts c)), (conv (cl_cls c) q). simpl.
        split; [lia|]. split; [|rewrite DC; exact S].
        rewrite nth_error_app2 by lia. rewrite Nat.sub_diag. reflexivity.
      * eapply IH; [exact NE|exact DC| |rewrite lfind_lset, S; exact H|].
        { intros r Nr. unfold is_pts. rewrite lfind_lset.
          destruct (String.eqb (dest q) (dest r)); [eexists; reflexivity|]. apply K; exact Nr. }
        exists j, p. split; [|split; [exact Np|exact Dp]].
        assert (i <> j); [|lia]. intros ->. rewrite Np in Nq. injection Nq as <-.
        rewrite Dp in S. rewrite seqb_refl in S. discriminate.
Qed.

Lemma is_pts_created m outs c n :
  (forall k, In k outs -> usable m k) -> In n outs -> n <> "" -> is_pts (created m outs c) n.
Proof.
  intros U I N. unfold is_pts. rewrite created_find.
  destruct (U _ I) as [E|[E|[d E]]]; [congruence| |].
  - rewrite E. assert (X : existsb (String.eqb n) outs = true).
    { apply existsb_exists. exists n. split; [exact I|apply seqb_refl]. }
    rewrite X. apply String.eqb_neq in N. rewrite N. eexists; reflexivity.
  - rewrite E. eexists; reflexivity.
Qed.

Lemma created_keeps m outs c n l : lfind m n = Some l -> lfind (created m outs c) n = Some l.
Proof. intros H. rewrite created_find, H. reflexivity. Qed.

Lemma goc_shape n c m m' o :
  get_or_create n true c m = (m', o) -> o = Exc \/ exists b, o = Val b.
Proof.
  unfold get_or_create. destruct (String.eqb n "").
  - intros H. injection H as _ <-. right. eexists; reflexivity.
  - destruct (lfind m n) as [[?|?|]|]; intros H; injection H as _ <-;
      first [left; reflexivity|right; eexists; reflexivity].
Qed.

Lemma bnd_val {A B} (x : M A) (f : A -> M B) m m' a :
  x m = (m', Val a) -> bnd x f m = f a m'.
Proof. intros H. unfold bnd. rewrite H. reflexivity. Qed.
Lemma assert_true b m : b = true -> massert b m = (m, Val tt).
Proof. intros ->. reflexivity. Qed.
