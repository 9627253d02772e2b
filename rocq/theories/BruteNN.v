(** A concrete map with a correct nearest-neighbour search (brute force), used only to show
    that the hypotheses of the matcher theorems can be met.  No code of /repo is modelled. *)
From Verif Require Import Base PairingsModel PipelineProofs BitfieldModel PointMatcherModel PointMatcherSpec
  PointMatcherProofs.
From Coq Require Import Lqa Permutation Sorted.

Definition Cand := (nat * P3 * Q)%type.
Fixpoint ins (x : Cand) (l : list Cand) : list Cand :=
  match l with
  | [] => [x]
  | y :: r => if Qle_bool (snd x) (snd y) then x :: l else y :: ins x r
  end.
Fixpoint cands (q : P3) (i : nat) (pts : list P3) : list Cand :=
  match pts with [] => [] | p :: r => (i, p, sqd q p) :: cands q (S i) r end.
Definition brute_search (pts : list P3) (q : P3) (k : nat) : list Cand :=
  firstn k (fold_right ins [] (cands q 0 pts)).
Definition bbox_of (pts : list P3) : P3 * P3 :=
  match pts with [] => (mkP3 0 0 0, mkP3 0 0 0) | p :: _ => fold_left keep_bbox pts (p, p) end.
Definition brute (pts : list P3) : NNMap := mkNN pts (bbox_of pts) true (brute_search pts).

Definition cle (a b : Cand) : Prop := (snd a <= snd b)%Q.
Lemma ins_perm x l : Permutation (ins x l) (x :: l).
Proof.
  induction l as [|y l IH]; cbn; [reflexivity|]. destruct (Qle_bool (snd x) (snd y)); [reflexivity|].
  rewrite IH. apply perm_swap.
Qed.
Lemma ins_sorted x l : StronglySorted cle l -> StronglySorted cle (ins x l).
Proof.
  induction 1 as [|y l Hs IH HF]; cbn; [repeat constructor|].
  destruct (Qle_bool (snd x) (snd y)) eqn:E.
  - apply Qle_bool_iff in E. constructor; [constructor; assumption|]. constructor; [exact E|].
    eapply Forall_impl; [|exact HF]. unfold cle. intros z Hz. lra.
  - apply Qle_bool_false in E. constructor; [exact IH|]. rewrite Forall_forall in *. intros z Hz.
    apply (Permutation_in _ (ins_perm x l)) in Hz. destruct Hz as [<-|Hz]; [unfold cle; lra|apply HF; exact Hz].
Qed.
Lemma sort_perm l : Permutation (fold_right ins [] l) l.
Proof. induction l as [|x l IH]; cbn; [reflexivity|]. rewrite ins_perm, IH. reflexivity. Qed.
Lemma sort_sorted l : StronglySorted cle (fold_right ins [] l).
Proof. induction l as [|x l IH]; cbn; [constructor|]. apply ins_sorted. exact IH. Qed.

Lemma cands_in q pts : forall i0 i g d, In (i, g, d) (cands q i0 pts) <->
  i0 <= i /\ nth_error pts (i - i0) = Some g /\ d = sqd q g.
Proof.
  induction pts as [|p pts IH]; intros i0 i g d; cbn.
  - split; [intros []|]. intros [_ [H _]]. destruct (i - i0); discriminate.
  - rewrite IH. split.
    + intros [[= <- <- <-]|[H1 [H2 ->]]].
      * rewrite Nat.sub_diag. auto.
      * split; [lia|]. replace (i - i0) with (S (i - S i0)) by lia. auto.
    + intros [H1 [H2 ->]]. destruct (Nat.eq_dec i0 i) as [<-|Hne].
      * left. rewrite Nat.sub_diag in H2. injection H2 as <-. reflexivity.
      * right. split; [lia|]. replace (i - i0) with (S (i - S i0)) in H2 by lia. auto.
Qed.
Lemma cands_ids q pts : forall i0, map (fun x => fst (fst x)) (cands q i0 pts) = seq i0 (length pts).
Proof. induction pts as [|p pts IH]; intro i0; cbn; [reflexivity|]. rewrite IH. reflexivity. Qed.

Lemma firstn_incl {A} n (l : list A) x : In x (firstn n l) -> In x l.
Proof. intro H. rewrite <- (firstn_skipn n l). apply in_or_app. auto. Qed.
Lemma NoDup_app_l {A} (l1 l2 : list A) : NoDup (l1 ++ l2) -> NoDup l1.
Proof.
  induction l1 as [|x l1 IH]; intro H; [constructor|]. cbn in H. inversion H; subst. constructor.
  - intro X. apply H2. apply in_or_app. auto.
  - apply IH. assumption.
Qed.

Lemma sorted_after {A} (R : A -> A -> Prop) a x b y c :
  StronglySorted R (a ++ x :: b ++ y :: c) -> R x y.
Proof.
  induction a as [|z a IH]; cbn; intro H; inversion H; subst; [|apply IH; assumption].
  rewrite Forall_forall in H3. apply H3. apply in_or_app. right. left. reflexivity.
Qed.

Lemma brute_correct pts : nn_correct (brute pts).
Proof.
  intros q k. cbn [nn_search nn_points brute]. set (S := fold_right ins [] (cands q 0 pts)).
  assert (HP : Permutation S (cands q 0 pts)) by apply sort_perm.
  assert (HS : StronglySorted cle S) by apply sort_sorted.
  unfold brute_search. fold S. cbv zeta.
  refine (conj _ (conj _ (conj _ (conj _ _)))).
  - intros i g d H. apply firstn_incl in H. apply (Permutation_in _ HP) in H.
    apply cands_in in H as [_ [H ->]]. rewrite Nat.sub_0_r in H. split; [exact H|reflexivity].
  - rewrite <- firstn_map. eapply NoDup_app_l. rewrite firstn_skipn.
    eapply Permutation_NoDup; [symmetry; apply Permutation_map; exact HP|]. rewrite cands_ids. apply seq_NoDup.
  - rewrite firstn_length. lia.
  - intros a i g d b j h e c H.
    assert (HS' : S = a ++ (i, g, d) :: b ++ (j, h, e) :: (c ++ skipn k S)).
    { rewrite <- (firstn_skipn k S) at 1. rewrite H. rewrite <- app_assoc. cbn. rewrite <- app_assoc. reflexivity. }
    rewrite HS' in HS. apply sorted_after in HS. exact HS.
  - intros j h Hj. assert (In (j, h, sqd q h) S) as HI.
    { apply (Permutation_in _ (Permutation_sym HP)). apply cands_in. rewrite Nat.sub_0_r. split; [lia|auto]. }
    rewrite <- (firstn_skipn k S) in HI. apply in_app_or in HI as [HI|HI]; [left; eexists; exact HI|].
    right. split.
    + rewrite firstn_length. apply Nat.min_l. destruct (Nat.le_gt_cases k (length S)) as [|X]; [assumption|].
      rewrite skipn_all2 in HI by lia. destruct HI.
    + intros i g d Hi. change (cle (i, g, d) (j, h, sqd q h)).
      rewrite <- (firstn_skipn k S) in HS. clear -HS Hi HI.
      apply in_split in Hi as [a [b E]]. apply in_split in HI as [c [e E']]. rewrite E, E' in HS.
      rewrite <- app_assoc in HS. cbn [app] in HS. rewrite app_assoc in HS.
      eapply (sorted_after cle a _ (b ++ c)). rewrite <- app_assoc in HS. cbn [app] in HS.
      rewrite <- app_assoc. exact HS.
Qed.

Lemma brute_bbox pts : bbox_correct (brute pts).
Proof.
  intros p H. cbn in *. destruct pts as [|x pts]; [destruct H|]. unfold bbox_of.
  apply keep_bbox_contains. exact H.
Qed.

(** A points layer and a map with one such layer per entry. *)
Definition pts_layer (pts : list P3) : Layer := mkLayer (Some pts) (Some (brute pts)).
Definition pts_layers (l : list (nat * list P3)) : Layers := map (fun kv => (fst kv, pts_layer (snd kv))) l.
Lemma pts_layers_correct l : layers_correct (pts_layers l).
Proof.
  intros k ly nn H E. apply in_map_iff in H as [[k' pts] [[= <- <-] _]]. cbn in E. injection E as <-.
  split; [apply brute_correct|apply brute_bbox].
Qed.
