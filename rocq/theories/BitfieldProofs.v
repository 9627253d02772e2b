From Verif Require Import Base BitfieldModel BitfieldSpec.

Lemma nth_error_upd {A} (l : list A) : forall i j (x : A),
  i < length l -> nth_error (upd l i x) j = if Nat.eqb j i then Some x else nth_error l j.
Proof.
  induction l as [|h t IH]; intros i j x H; cbn in H; [lia|].
  destruct i as [|i]; destruct j as [|j]; cbn; try reflexivity.
  apply IH. lia.
Qed.
Lemma length_upd {A} (l : list A) : forall i (x : A), length (upd l i x) = length l.
Proof. induction l as [|h t IH]; intros [|i] x; cbn; auto. Qed.

(** Refinement: [b] represents the set [s] with capacity [c]. *)
Definition rep (b : BitField) (c : option nat) (s : list nat) : Prop :=
  match dense_ b, c with
  | Some v, Some n => length v = n /\ forall i, i < n -> (nth_error v i = Some true <-> In i s)
  | None, None => forall i, In i (sparse_ b) <-> In i s
  | _, _ => False
  end.

Lemma rep_default : rep bits_default None [].
Proof. cbn. tauto. Qed.

Lemma rep_assign b n d : rep (bits_assign n d b) (if d then Some n else None) [].
Proof.
  unfold bits_assign. destruct d; cbn; [|tauto].
  split; [apply repeat_length|]. intros i Hi. split; [|intros []].
  intro H. apply nth_error_In, repeat_spec in H. discriminate.
Qed.

Lemma rep_mark b c s i : rep b c s -> (forall n, c = Some n -> i < n) ->
  exists b', bits_mark b i = Ok b' /\ rep b' c (i :: s).
Proof.
  unfold rep, bits_mark. intros H Hi. destruct (dense_ b) as [v|], c as [n|]; try contradiction.
  - destruct H as [Hl H]. specialize (Hi n eq_refl).
    destruct (Nat.ltb_spec i (length v)); [|lia].
    eexists; split; [reflexivity|]. cbn. rewrite length_upd. split; [exact Hl|].
    intros j Hj. rewrite nth_error_upd by assumption.
    destruct (Nat.eqb_spec j i) as [->|Hne]; [tauto|].
    rewrite H by exact Hj. split; [auto|]. intros [E|E]; [congruence|exact E].
  - eexists; split; [reflexivity|]. cbn. intro j. rewrite H. tauto.
Qed.

Lemma rep_mark_ub b n s i : rep b (Some n) s -> n <= i -> bits_mark b i = UB.
Proof.
  unfold rep, bits_mark. destruct (dense_ b) as [v|]; [|contradiction].
  intros [Hl _] Hi. destruct (Nat.ltb_spec i (length v)); [lia|reflexivity].
Qed.

Lemma rep_get b c s i : rep b c s -> (forall n, c = Some n -> i < n) ->
  exists x, bits_get b i = Ok x /\ (x = true <-> In i s).
Proof.
  unfold rep, bits_get. intros H Hi. destruct (dense_ b) as [v|], c as [n|]; try contradiction.
  - destruct H as [Hl H]. specialize (Hi n eq_refl).
    destruct (nth_error v i) as [x|] eqn:E; [|apply nth_error_None in E; lia].
    exists x. split; [reflexivity|]. rewrite <- H by exact Hi. rewrite E. split; congruence.
  - eexists; split; [reflexivity|]. rewrite <- H. rewrite existsb_exists. split.
    + intros [x [Hx E]]. apply Nat.eqb_eq in E. subst. exact Hx.
    + intro Hx. exists i. rewrite Nat.eqb_refl. auto.
Qed.

Lemma rep_get_ub b n s i : rep b (Some n) s -> n <= i -> bits_get b i = UB.
Proof.
  unfold rep, bits_get. destruct (dense_ b) as [v|]; [|contradiction].
  intros [Hl _] Hi. destruct (nth_error v i) eqn:E; [|reflexivity].
  assert (i < length v) by (apply nth_error_Some; congruence). lia.
Qed.

Lemma run_rep ops : forall b c s, rep b c s -> in_range ops c ->
  exists b', bits_run ops b = Ok b' /\ rep b' (capacity ops c) (marked_since ops s).
Proof.
  induction ops as [|[n d|i] ops IH]; intros b c s H HR; cbn.
  - eauto.
  - apply IH; [apply rep_assign|exact HR].
  - destruct HR as [Hi HR]. destruct (rep_mark b c s i H Hi) as [b' [-> Hb]]. cbn [rbind].
    apply IH; assumption.
Qed.

(** ** initialize_from *)
Lemma lb_find_set m k v j : lb_find (lb_set m k v) j = if Nat.eqb k j then Some v else lb_find m j.
Proof.
  induction m as [|[k' v'] m IH]; cbn.
  - destruct (Nat.eqb_spec k j); reflexivity.
  - destruct (Nat.eqb_spec k' k) as [->|Hne]; cbn.
    + destruct (Nat.eqb_spec k j); reflexivity.
    + rewrite IH. destruct (Nat.eqb_spec k' j) as [->|], (Nat.eqb_spec k j); try congruence; reflexivity.
Qed.

Lemma lb_find_filter m (f : nat -> bool) k :
  lb_find (filter (fun kv => f (fst kv)) m) k = if f k then lb_find m k else None.
Proof.
  induction m as [|[k' v] m IH]; cbn; [destruct (f k); reflexivity|].
  destruct (f k') eqn:E; cbn; rewrite IH; destruct (Nat.eqb_spec k' k) as [->|]; try rewrite E; reflexivity.
Qed.

Lemma init_layers_find pc : forall m m', NoDup (map fst pc) -> init_layers pc m = Ok m' ->
  forall k, match find (fun kl => Nat.eqb (fst kl) k) pc with
            | Some (_, Some (Some (n, d))) => lb_find m' k = Some (bits_assign n d bits_default)
            | Some (_, Some None) => lb_find m' k = lb_find m k
            | Some (_, None) => False
            | None => lb_find m' k = lb_find m k
            end.
Proof.
  induction pc as [|[name i] pc IH]; intros m m' HN H k; cbn in *.
  - injection H as ->. reflexivity.
  - inversion HN as [|? ? Hn HN']; subst.
    assert (Hf : find (fun kl : nat * LayerInfo => Nat.eqb (fst kl) name) pc = None).
    { destruct (find _ pc) as [[a b]|] eqn:E; [|reflexivity]. apply find_some in E as [E1 E2].
      cbn in E2. apply Nat.eqb_eq in E2. subst. exfalso. apply Hn. apply in_map_iff. exists (name, b). auto. }
    destruct i as [[[n d]|]|]; [| |discriminate].
    + specialize (IH _ _ HN' H). destruct (Nat.eqb_spec name k) as [<-|Hne].
      * specialize (IH name). rewrite Hf in IH. rewrite IH, lb_find_set, Nat.eqb_refl.
        unfold bits_assign. destruct d; reflexivity.
      * specialize (IH k). rewrite lb_find_set in IH.
        destruct (Nat.eqb_spec name k); [contradiction|]. exact IH.
    + specialize (IH _ _ HN' H). destruct (Nat.eqb_spec name k) as [<-|Hne].
      * specialize (IH name). rewrite Hf in IH. exact IH.
      * exact (IH k).
Qed.

Lemma bits_init_find pc m m' : NoDup (map fst pc) -> bits_initialize_from pc m = Ok m' ->
  forall k, lb_find m' k = match find (fun kl => Nat.eqb (fst kl) k) pc with
            | Some (_, Some (Some (n, d))) => Some (bits_assign n d bits_default)
            | Some (_, _) => lb_find m k
            | None => None
            end.
Proof.
  unfold bits_initialize_from. intros HN H k.
  destruct (init_layers pc m) as [m1| |] eqn:E; cbn [rbind] in H; try discriminate.
  injection H as <-.
  rewrite (lb_find_filter m1 (fun x => existsb (fun kl => Nat.eqb (fst kl) x) pc) k).
  pose proof (init_layers_find pc m m1 HN E k) as HF.
  destruct (find (fun kl => Nat.eqb (fst kl) k) pc) as [[a i]|] eqn:EF.
  - assert (existsb (fun kl => Nat.eqb (fst kl) k) pc = true) as ->.
    { apply existsb_exists. apply find_some in EF. exists (a, i). exact EF. }
    destruct i as [[[n d]|]|]; auto. contradiction.
  - assert (existsb (fun kl => Nat.eqb (fst kl) k) pc = false) as ->; [|reflexivity].
    apply not_true_is_false. intro X. apply existsb_exists in X as [x [Hx Hk]].
    pose proof (find_none _ _ EF x Hx). congruence.
Qed.
