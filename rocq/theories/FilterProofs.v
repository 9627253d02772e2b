(** Proofs about the routing filters. *)
From Coq Require Import String.
From Verif Require Import Base FilterModel FilterSpec.
Open Scope string_scope.
Open Scope Q_scope.
Open Scope list_scope.

Lemma seqb_refl s : String.eqb s s = true. Proof. apply String.eqb_refl. Qed.
Lemma seqb_neq a b : a <> b -> String.eqb a b = false. Proof. apply String.eqb_neq. Qed.

Lemma lfind_lset m n l k :
  lfind (lset m n l) k = if String.eqb n k then Some l else lfind m k.
Proof.
  induction m as [|[a v] t IH]; simpl.
  - reflexivity.
  - destruct (String.eqb a n) eqn:E; simpl.
    + apply String.eqb_eq in E; subst a. destruct (String.eqb n k); reflexivity.
    + rewrite IH. destruct (String.eqb a k) eqn:F; [|reflexivity].
      apply String.eqb_eq in F; subst k. rewrite String.eqb_sym in E. rewrite E. reflexivity.
Qed.

Lemma lfind_ldel m n k :
  lfind (ldel m n) k = if String.eqb n k then None else lfind m k.
Proof.
  induction m as [|[a v] t IH]; simpl.
  - destruct (String.eqb n k); reflexivity.
  - destruct (String.eqb a n) eqn:E; simpl.
    + apply String.eqb_eq in E; subst a. rewrite IH. destruct (String.eqb n k); reflexivity.
    + rewrite IH. destruct (String.eqb a k) eqn:F; [|reflexivity].
      apply String.eqb_eq in F; subst k. rewrite String.eqb_sym in E. rewrite E. reflexivity.
Qed.

Definition is_pts (m : Layers) (n : Name) : Prop := exists c, lfind m n = Some (LPts c).

Lemma conv_id c p : pt_of_class c p -> conv c p = p.
Proof.
  intros [A [B C]]. destruct p as [x y z i r t]; unfold conv; simpl in *.
  destruct (has_I c), (has_R c), (has_T c); f_equal; symmetry; auto.
Qed.

(** ** Abstract effect of appending [src] according to [dest] *)
Definition grown (m : Layers) (dest : Pt -> Name) (l : list Pt) (n : Name) : option Layer :=
  match lfind m n with
  | Some (LPts c) =>
      if String.eqb n "" then lfind m n
      else Some (LPts (mkCloud (cl_cls c) (cl_pts c ++ map (conv (cl_cls c)) (sent dest n l))))
  | x => x
  end.

Lemma route_list_grown : forall l dest m,
  (forall p, In p l -> dest p <> "" -> is_pts m (dest p)) ->
  exists m', route_list l dest m = (m', Val tt) /\ forall n, lfind m' n = grown m dest l n.
Proof.
  induction l as [|p l IH]; intros dest m H.
  - exists m. split; [reflexivity|]. intro n. unfold grown. simpl.
    destruct (lfind m n) as [[c| |]|]; try reflexivity.
    destruct (String.eqb n ""); [reflexivity|]. rewrite app_nil_r. destruct c; reflexivity.
  - simpl. unfold bnd. destruct (String.eqb (dest p) "") eqn:E.
    + unfold ret. destruct (IH dest m) as [m' [R G]].
      { intros q Hq. apply H. right; exact Hq. }
      exists m'. split; [exact R|]. intro n. rewrite G. unfold grown.
      destruct (lfind m n) as [[c| |]|]; try reflexivity.
      destruct (String.eqb n "") eqn:F; [reflexivity|].
      simpl. apply String.eqb_eq in E. rewrite E.
      rewrite String.eqb_sym in F. rewrite F. reflexivity.
    + destruct (H p (or_introl eq_refl)) as [c Hc].
      { apply String.eqb_neq; exact E. }
      unfold insert_from. rewrite Hc.
      set (m1 := lset m (dest p) _).
      assert (K : forall q, In q l -> dest q <> "" -> is_pts m1 (dest q)).
      { intros q Hq Nq. unfold is_pts, m1. rewrite lfind_lset.
        destruct (String.eqb (dest p) (dest q)); [eexists; reflexivity|].
        apply H; [right; exact Hq|exact Nq]. }
      destruct (IH dest m1 K) as [m' [R G]]. exists m'. split; [exact R|].
      intro n. rewrite G. unfold grown, m1. rewrite lfind_lset.
      destruct (String.eqb (dest p) n) eqn:F.
      * apply String.eqb_eq in F; subst n. rewrite Hc, E. simpl.
        rewrite seqb_refl. simpl. rewrite <- app_assoc. reflexivity.
      * destruct (lfind m n) as [[d| |]|] eqn:D; try reflexivity.
        destruct (String.eqb n ""); [reflexivity|]. simpl. rewrite F. reflexivity.
Qed.

(** ** The two loops are [route_list] *)

Lemma route_one_fst inp dest i m c p :
  lfind m inp = Some (LPts c) -> nth_error (cl_pts c) i = Some p ->
  route_one inp dest i m = (if String.eqb (dest p) "" then ret tt else insert_from (dest p) p) m.
Proof.
  intros H N. unfold route_one. rewrite H, N. destruct (String.eqb (dest p) ""); reflexivity.
Qed.

Lemma insert_keeps_prefix n p m inp c :
  lfind m inp = Some (LPts c) -> forall m', insert_from n p m = (m', Val tt) ->
  exists tl, lfind m' inp = Some (LPts (mkCloud (cl_cls c) (cl_pts c ++ tl))).
Proof.
  intros H m' E. unfold insert_from in E.
  destruct (lfind m n) as [[d| |]|] eqn:D; try discriminate.
  injection E as <-. rewrite lfind_lset. destruct (String.eqb n inp) eqn:F.
  - apply String.eqb_eq in F; subst n. rewrite H in D. injection D as <-.
    eexists; reflexivity.
  - exists []. rewrite app_nil_r, H. destruct c; reflexivity.
Qed.

Lemma route_n_list : forall l inp dest i m c pre post,
  lfind m inp = Some (LPts c) -> cl_pts c = pre ++ l ++ post -> i = List.length pre ->
  (forall p, In p l -> dest p <> "" -> is_pts m (dest p)) ->
  route_n (List.length l) inp dest i m = route_list l dest m.
Proof.
  induction l as [|p l IH]; intros inp dest i m c pre post H E Hi K; [reflexivity|].
  simpl. unfold bnd. rewrite (route_one_fst inp dest i m c p H).
  2:{ rewrite E, Hi. rewrite nth_error_app2 by lia. rewrite Nat.sub_diag. reflexivity. }
  destruct (String.eqb (dest p) "") eqn:Z.
  - unfold ret. eapply IH with (pre := pre ++ [p]) (post := post); [exact H| | |].
    + rewrite E, <- app_assoc. reflexivity.
    + rewrite app_length. simpl. lia.
    + intros q Hq. apply K. right; exact Hq.
  - destruct (K p (or_introl eq_refl)) as [d Hd]. { apply String.eqb_neq; exact Z. }
    destruct (insert_from (dest p) p m) as [m1 o] eqn:I.
    assert (o = Val tt). { unfold insert_from in I. rewrite Hd in I. congruence. } subst o.
    destruct (insert_keeps_prefix (dest p) p m inp c H m1 I) as [tl T].
    eapply IH with (pre := pre ++ [p]) (post := post ++ tl); [exact T| | |].
    + simpl. rewrite E, <- !app_assoc. reflexivity.
    + rewrite app_length. simpl. lia.
    + intros q Hq Nq. unfold insert_from in I. rewrite Hd in I. injection I as <-.
      unfold is_pts. rewrite lfind_lset.
      destruct (String.eqb (dest p) (dest q)); [eexists; reflexivity|].
      apply K; [right; exact Hq|exact Nq].
Qed.

Lemma route_live_list : forall l fuel inp dest i m c pre,
  lfind m inp = Some (LPts c) -> cl_pts c = pre ++ l -> i = List.length pre ->
  (List.length l <= fuel)%nat ->
  (forall p, In p l -> dest p <> "" -> is_pts m (dest p)) ->
  (forall p, In p l -> dest p <> inp) ->
  route_live fuel inp dest i m = route_list l dest m.
Proof.
  induction l as [|p l IH]; intros fuel inp dest i m c pre H E Hi F K A.
  - destruct fuel; simpl; rewrite H, E, app_nil_r;
      (destruct (i <? List.length pre)%nat eqn:L; [apply Nat.ltb_lt in L; lia|reflexivity]).
  - destruct fuel as [|k]; [simpl in F; lia|].
    assert (L : (i <? List.length (cl_pts c))%nat = true).
    { apply Nat.ltb_lt. rewrite E, app_length. simpl. lia. }
    cbn [route_live]. rewrite H, L. cbn [route_list]. unfold bnd.
    rewrite (route_one_fst inp dest i m c p H).
    2:{ rewrite E, Hi. rewrite nth_error_app2 by lia. rewrite Nat.sub_diag. reflexivity. }
    destruct (String.eqb (dest p) "") eqn:Z.
    + unfold ret. eapply IH with (pre := pre ++ [p]); [exact H| | | | |].
      * rewrite E, <- app_assoc. reflexivity.
      * rewrite app_length. simpl. lia.
      * simpl in F. lia.
      * intros q Hq. apply K. right; exact Hq.
      * intros q Hq. apply A. right; exact Hq.
    + destruct (K p (or_introl eq_refl)) as [d Hd]. { apply String.eqb_neq; exact Z. }
      assert (NI : dest p <> inp) by (apply A; left; reflexivity).
      unfold insert_from. rewrite Hd.
      eapply IH with (pre := pre ++ [p]).
      * rewrite lfind_lset. apply String.eqb_neq in NI. rewrite NI. exact H.
      * rewrite E, <- app_assoc. reflexivity.
      * rewrite app_length. simpl. lia.
      * simpl in F. lia.
      * intros q Hq Nq. unfold is_pts. rewrite lfind_lset.
        destruct (String.eqb (dest p) (dest q)); [eexists; reflexivity|].
        apply K; [right; exact Hq|exact Nq].
      * intros q Hq. apply A. right; exact Hq.
Qed.

(** ** Creating the outputs *)

Definition created (m : Layers) (outs : list Name) (c : Cls) : Layers :=
  fold_left (fun a n => if String.eqb n "" then a
                        else match lfind a n with
                             | None => lset a n (LPts (mkCloud c [])) | _ => a end) outs m.

Lemma goc_usable m n c : usable m n ->
  get_or_create n true c m = (created m [n] c, Val (negb (String.eqb n ""))).
Proof.
  intros U. unfold get_or_create, created. simpl. destruct (String.eqb n "") eqn:E; [reflexivity|].
  destruct U as [U|[U|[d U]]].
  - subst n. discriminate.
  - rewrite U. reflexivity.
  - rewrite U. reflexivity.
Qed.

Lemma created_find : forall outs m c n,
  lfind (created m outs c) n =
  match lfind m n with
  | Some l => Some l
  | None => if existsb (String.eqb n) outs && negb (String.eqb n "")
            then Some (LPts (mkCloud c [])) else None
  end.
Proof.
  induction outs as [|o outs IH]; intros m c n.
  - simpl. destruct (lfind m n); reflexivity.
  - change (created m (o :: outs) c) with
      (created (if String.eqb o "" then m
                else match lfind m o with None => lset m o (LPts (mkCloud c [])) | _ => m end) outs c).
    rewrite IH. destruct (String.eqb o "") eqn:E.
    + destruct (lfind m n); [reflexivity|]. simpl.
      destruct (String.eqb n o) eqn:F; [|reflexivity].
      apply String.eqb_eq in F; subst o. rewrite E. simpl. rewrite !andb_false_r. reflexivity.
    + destruct (lfind m o) eqn:D.
      * destruct (lfind m n) eqn:N; [reflexivity|]. simpl.
        destruct (String.eqb n o) eqn:F; [|reflexivity].
        apply String.eqb_eq in F; subst o. congruence.
      * rewrite lfind_lset. destruct (String.eqb o n) eqn:F.
        -- apply String.eqb_eq in F; subst o. rewrite D. simpl. rewrite seqb_refl, E. reflexivity.
        -- destruct (lfind m n); [reflexivity|]. simpl.
           rewrite String.eqb_sym in F. rewrite F. reflexivity.
Qed.

Lemma usable_created m n outs c : usable m n -> usable (created m outs c) n.
Proof.
  intros [U|[U|[d U]]]; [left; exact U| |].
  - right. rewrite created_find, U.
    destruct (existsb (String.eqb n) outs && negb (String.eqb n "")); [right; eexists; reflexivity|left; reflexivity].
  - right; right. exists d. rewrite created_find, U. reflexivity.
Qed.

Lemma created_app m a b c : created (created m a c) b c = created m (a ++ b) c.
Proof. unfold created. rewrite fold_left_app. reflexivity. Qed.

(** ** Main lemma: creating [outs] then routing to them meets the specification *)
Lemma routed_spec m outs src dest :
  (forall n, In n outs -> usable m n) ->
  (forall p, dest p = "" \/ In (dest p) outs) ->
  wf_cloud src ->
  exists m', route_list (cl_pts src) dest (created m outs (cl_cls src)) = (m', Val tt)
             /\ Routed m m' src dest outs.
Proof.
  intros U D W.
  set (m1 := created m outs (cl_cls src)).
  assert (K : forall p, In p (cl_pts src) -> dest p <> "" -> is_pts m1 (dest p)).
  { intros p _ Np. destruct (D p) as [E|I]; [congruence|]. unfold is_pts, m1. rewrite created_find.
    destruct (U _ I) as [E|[E|[d E]]]; [congruence| |].
    - rewrite E. assert (X : existsb (String.eqb (dest p)) outs = true).
      { apply existsb_exists. exists (dest p). split; [exact I|apply seqb_refl]. }
      rewrite X. apply String.eqb_neq in Np. rewrite Np. eexists; reflexivity.
    - rewrite E. eexists; reflexivity. }
  destruct (route_list_grown (cl_pts src) dest m1 K) as [m' [R G]].
  exists m'. split; [exact R|]. intro n. split.
  - intros [I N]. rewrite G. unfold grown, m1. rewrite created_find.
    assert (N' : String.eqb n "" = false) by (apply String.eqb_neq; exact N).
    destruct (U _ I) as [E|[E|[d E]]]; [congruence| |].
    + rewrite E. assert (X : existsb (String.eqb n) outs = true).
      { apply existsb_exists. exists n. split; [exact I|apply seqb_refl]. }
      rewrite X, N'. simpl. f_equal. f_equal. f_equal.
      assert (Fi : Forall (pt_of_class (cl_cls src)) (sent dest n (cl_pts src))).
      { apply Forall_forall. intros p Hp. apply filter_In in Hp.
        unfold wf_cloud in W. rewrite Forall_forall in W. apply W. tauto. }
      induction Fi as [|p l Hp Fi IH]; [reflexivity|]. simpl. rewrite (conv_id _ _ Hp), IH. reflexivity.
    + rewrite E, N'. reflexivity.
  - intros O. rewrite G. unfold grown, m1. rewrite created_find.
    destruct (lfind m n) as [[d| |]|] eqn:E; try reflexivity.
    + destruct O as [O|O].
      * destruct (String.eqb n "") eqn:Y; [reflexivity|].
        assert (S : sent dest n (cl_pts src) = []).
        { clear - D O Y. unfold sent. induction (cl_pts src) as [|p l IH]; [reflexivity|]. simpl.
          destruct (String.eqb (dest p) n) eqn:F; [|exact IH].
          exfalso. apply String.eqb_eq in F. destruct (D p) as [X|X].
          - rewrite X in F. subst n. discriminate.
          - subst n. contradiction. }
        rewrite S. simpl. rewrite app_nil_r. destruct d; reflexivity.
      * subst n. reflexivity.
    + assert (X : existsb (String.eqb n) outs && negb (String.eqb n "") = false).
      { destruct O as [O|O].
        - apply andb_false_iff. left. destruct (existsb (String.eqb n) outs) eqn:Y; [|reflexivity].
          apply existsb_exists in Y. destruct Y as [x [I2 F]]. apply String.eqb_eq in F. subst x. contradiction.
        - subst n. rewrite andb_false_r. reflexivity. }
      rewrite X. reflexivity.
Qed.
