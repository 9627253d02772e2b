(** Proofs about the voxel grids. *)
From Coq Require Import String Permutation.
From Verif Require Import Base FilterModel FilterSpec FilterProofs FilterProofs2 VoxelModel VoxelSpec.
Open Scope Q_scope.
Open Scope list_scope.

Lemma key_eqb_eq a b : key_eqb a b = true <-> a = b.
Proof.
  destruct a as [[a1 a2] a3], b as [[b1 b2] b3]. unfold key_eqb.
  rewrite !andb_true_iff, !Z.eqb_eq. split; [intros [[-> ->] ->]; reflexivity|].
  intros H; injection H as -> -> ->. repeat split.
Qed.
Lemma key_eqb_refl a : key_eqb a a = true. Proof. apply key_eqb_eq. reflexivity. Qed.
Lemma key_eqb_neq a b : key_eqb a b = false <-> a <> b.
Proof. rewrite <- key_eqb_eq. destruct (key_eqb a b); split; congruence. Qed.
Lemma key_eqb_sym a b : key_eqb a b = key_eqb b a.
Proof.
  destruct (key_eqb a b) eqn:E; symmetry.
  - apply key_eqb_eq. symmetry. apply key_eqb_eq. exact E.
  - apply key_eqb_neq. intros X. apply key_eqb_neq in E. congruence.
Qed.

Section A.
  Context {V : Type}.
  Implicit Type m : list (Key * V).
  Lemma afind_aupd m k f j :
    afind (aupd m k f) j = if key_eqb k j then Some (f (afind m k)) else afind m j.
  Proof.
    induction m as [|[a v] t IH]; simpl.
    - reflexivity.
    - destruct (key_eqb a k) eqn:E; simpl.
      + apply key_eqb_eq in E; subst a. destruct (key_eqb k j); reflexivity.
      + rewrite IH. destruct (key_eqb a j) eqn:F; [|reflexivity].
        apply key_eqb_eq in F; subst j. rewrite key_eqb_sym in E. rewrite E. reflexivity.
  Qed.
  Lemma aupd_in_keys m k f j : In j (map fst (aupd m k f)) <-> k = j \/ In j (map fst m).
  Proof.
    induction m as [|[a v] t IH]; simpl; [tauto|].
    destruct (key_eqb a k) eqn:E; simpl.
    - apply key_eqb_eq in E; subst a. tauto.
    - rewrite IH. tauto.
  Qed.
  Lemma aupd_nodup m k f : NoDup (map fst m) -> NoDup (map fst (aupd m k f)).
  Proof.
    induction m as [|[a v] t IH]; simpl; intros H.
    - constructor; [intros []|constructor].
    - inversion H as [|? ? N D]; subst. destruct (key_eqb a k) eqn:E; simpl.
      + constructor; assumption.
      + constructor; [|apply IH; exact D]. rewrite aupd_in_keys. intros [X|X]; [|contradiction].
        subst k. rewrite key_eqb_refl in E. discriminate.
  Qed.
  Lemma afind_in m k v : NoDup (map fst m) -> (In (k, v) m <-> afind m k = Some v).
  Proof.
    induction m as [|[a w] t IH]; simpl; intros H.
    - split; [intros []|discriminate].
    - inversion H as [|? ? N D]; subst. destruct (key_eqb a k) eqn:E.
      + apply key_eqb_eq in E; subst a. split.
        * intros [X|X]; [injection X as ->; reflexivity|].
          exfalso. apply N. apply (in_map fst) in X. exact X.
        * intros X; injection X as ->. left; reflexivity.
      + rewrite <- (IH D). split; [|intros X; right; exact X].
        intros [X|X]; [|exact X]. injection X as -> ->. rewrite key_eqb_refl in E. discriminate.
  Qed.
End A.

(** ** Full grid, no skipping *)

Definition add_ids (o : option (list nat)) (l : list nat) : option (list nat) :=
  match l with [] => o | _ => Some (match o with None => l | Some v => v ++ l end) end.

Definition in_voxel_from (i : nat) (res : Q) (k : Key) (l : list Pt) : list nat :=
  map fst (filter (fun ip => key_eqb (key_of res (snd ip)) k) (combine (seq i (List.length l)) l)).

Lemma in_voxel_cons i res k p l :
  in_voxel_from i res k (p :: l) =
  (if key_eqb (key_of res p) k then [i] else []) ++ in_voxel_from (S i) res k l.
Proof. unfold in_voxel_from. simpl. destruct (key_eqb (key_of res p) k); reflexivity. Qed.

Lemma too_close_0 d prev p : d == 0 -> too_close d prev p = false.
Proof. intros D. unfold too_close. apply Qeq_bool_iff in D. rewrite D. reflexivity. Qed.

Lemma add_ids_app o a b : add_ids (add_ids o a) b = add_ids o (a ++ b).
Proof.
  destruct a as [|x a]; [reflexivity|]. simpl. destruct b as [|y b].
  - simpl. rewrite app_nil_r. reflexivity.
  - simpl. destruct o; rewrite <- ?app_assoc; reflexivity.
Qed.

Lemma g_loop_find : forall l res d prev i m k, d == 0 ->
  afind (g_loop res d prev i l m) k = add_ids (afind m k) (in_voxel_from i res k l).
Proof.
  induction l as [|p l IH]; intros res d prev i m k D; [reflexivity|].
  simpl g_loop. rewrite (too_close_0 _ _ _ D), (IH _ _ _ _ _ _ D), in_voxel_cons, <- add_ids_app.
  f_equal. rewrite afind_aupd. destruct (key_eqb (key_of res p) k) eqn:E; [|reflexivity].
  apply key_eqb_eq in E. rewrite E. simpl. destruct (afind m k); reflexivity.
Qed.

Lemma g_loop_nodup : forall l res d prev i m,
  NoDup (map fst m) -> NoDup (map fst (g_loop res d prev i l m)).
Proof.
  induction l as [|p l IH]; intros res d prev i m N; [exact N|].
  simpl. destruct (too_close d prev p); [apply IH; exact N|]. apply IH, aupd_nodup, N.
Qed.

Lemma g_processes clouds : forall g, g_min_dist g == 0 ->
  let g' := fold_left g_process clouds g in
  g_robin g' = g_robin g /\ g_std g' = g_std g /\ g_res g' = g_res g /\
  (NoDup (map fst (g_tsl g)) -> NoDup (map fst (g_tsl g'))) /\
  forall k, afind (g_tsl g') k = add_ids (afind (g_tsl g) k) (flat_map (in_voxel (g_res g) k) clouds).
Proof.
  induction clouds as [|l t IH]; intros g D; simpl.
  - repeat split; auto.
  - destruct (IH (g_process g l) D) as [A [B [C [N F]]]]. simpl in *.
    split; [exact A|]. split; [exact B|]. split; [exact C|]. split.
    + intros X. apply N. apply g_loop_nodup. exact X.
    + intros k. rewrite F. rewrite (g_loop_find _ _ _ _ _ _ _ D). apply add_ids_app.
Qed.

(** ** Single grid *)
Definition Tagged := (nat * nat * Pt)%type.
Definition tag_from (i src : nat) (l : list Pt) : list Tagged :=
  map (fun ip => (src, fst ip, snd ip)) (combine (seq i (List.length l)) l).
Definition tagged_in (res : Q) (k : Key) (l : list Tagged) : list Tagged :=
  filter (fun t => key_eqb (key_of res (snd t)) k) l.

Definition add_tagged (o : option SVoxel) (l : list Tagged) : option SVoxel :=
  match l with
  | [] => o
  | (s, i, p) :: t =>
      match o with
      | None => Some (mkSV p i s (List.length l))
      | Some v => Some (mkSV (sv_pt v) (sv_idx v) (sv_src v) (sv_count v + List.length l))
      end
  end.

Definition sane (o : option SVoxel) : Prop :=
  match o with None => True | Some v => (0 < sv_count v)%nat end.

Lemma add_tagged_app o a b : add_tagged (add_tagged o a) b = add_tagged o (a ++ b).
Proof.
  destruct a as [|[[s i] p] a]; [reflexivity|]. simpl. destruct b as [|[[s' i'] p'] b].
  - simpl. rewrite app_nil_r. destruct o; reflexivity.
  - destruct o; simpl; rewrite app_length; simpl; do 2 f_equal; lia.
Qed.

Lemma add_tagged_sane o l : sane o -> sane (add_tagged o l).
Proof. intros S. destruct l as [|[[s i] p] l]; [exact S|]. destruct o; simpl in *; lia. Qed.

Lemma s_put_add src i p o : sane o -> Some (s_put src i p o) = add_tagged o [(src, i, p)].
Proof.
  intros S. destruct o as [v|]; simpl in *; [|reflexivity].
  destruct (Nat.eqb (sv_count v) 0) eqn:E; [apply Nat.eqb_eq in E; lia|].
  do 2 f_equal. lia.
Qed.

Lemma s_loop_find : forall l res src i m,
  (forall k, sane (afind m k)) ->
  forall k, afind (s_loop res src i l m) k = add_tagged (afind m k) (tagged_in res k (tag_from i src l)).
Proof.
  induction l as [|p l IH]; intros res src i m S k; [reflexivity|].
  simpl s_loop. rewrite IH.
  2:{ intros j. rewrite afind_aupd. destruct (key_eqb (key_of res p) j); [|apply S].
      rewrite s_put_add by apply S. apply add_tagged_sane, S. }
  unfold tag_from. simpl. fold (tag_from (Datatypes.S i) src l).
  rewrite afind_aupd. destruct (key_eqb (key_of res p) k) eqn:E.
  - rewrite s_put_add by apply S. rewrite add_tagged_app.
    apply key_eqb_eq in E. rewrite E. reflexivity.
  - reflexivity.
Qed.

Lemma s_loop_nodup : forall l res src i m,
  NoDup (map fst m) -> NoDup (map fst (s_loop res src i l m)).
Proof.
  induction l as [|p l IH]; intros res src i m N; [exact N|]. simpl. apply IH, aupd_nodup, N.
Qed.

Fixpoint tag_all (tag : nat) (clouds : list (list Pt)) : list Tagged :=
  match clouds with
  | [] => []
  | l :: t => tag_from 0 tag l ++ tag_all (S tag) t
  end.

Lemma s_process_visit g tag l :
  s_visit (s_process g tag l) = s_loop (s_res g) tag 0 l (s_visit g)
  /\ s_res (s_process g tag l) = s_res g.
Proof. unfold s_visit, s_process. destruct (s_robin g) eqn:E; simpl; rewrite ?E; split; reflexivity. Qed.

Lemma s_processes : forall clouds g tag,
  (forall k, sane (afind (s_visit g) k)) -> NoDup (map fst (s_visit g)) ->
  NoDup (map fst (s_visit (s_process_all g tag clouds))) /\
  forall k, afind (s_visit (s_process_all g tag clouds)) k =
            add_tagged (afind (s_visit g) k) (tagged_in (s_res g) k (tag_all tag clouds)).
Proof.
  induction clouds as [|l t IH]; intros g tag S N; simpl.
  - split; [exact N|reflexivity].
  - destruct (s_process_visit g tag l) as [V R]. destruct (IH (s_process g tag l) (Datatypes.S tag)) as [A B].
    + intros k. rewrite V, s_loop_find by exact S. apply add_tagged_sane, S.
    + rewrite V. apply s_loop_nodup. exact N.
    + split; [exact A|]. intros k. rewrite B, V, R, s_loop_find by exact S.
      rewrite add_tagged_app. unfold tagged_in. rewrite filter_app. reflexivity.
Qed.

Lemma s_fresh g res robin :
  s_visit (s_configure g res robin) = [] /\ s_visit (s_clear (s_configure g res robin)) = []
  /\ s_res (s_configure g res robin) = res /\ s_res (s_clear (s_configure g res robin)) = res.
Proof.
  unfold s_visit, s_clear, s_configure, s_clear. destruct robin; simpl; repeat split.
Qed.

Lemma g_fresh g res :
  g_tsl (g_configure g res true) = [] /\ g_robin (g_configure g res true) = true
  /\ g_res (g_configure g res true) = res /\ g_min_dist (g_configure g res true) = g_min_dist g.
Proof. unfold g_configure, g_clear. simpl. repeat split. Qed.

Lemma tag_all_pts : forall clouds tag, map snd (tag_all tag clouds) = concat clouds.
Proof.
  induction clouds as [|l t IH]; intros tag; [reflexivity|]. simpl. rewrite map_app, IH. f_equal.
  unfold tag_from. rewrite map_map. simpl.
  assert (G : forall i, map (fun x : nat * Pt => snd x) (combine (seq i (List.length l)) l) = l).
  { induction l as [|p l IHl]; intros i; [reflexivity|]. simpl. rewrite IHl. reflexivity. }
  apply G.
Qed.

Lemma tagged_pts res k l : map snd (tagged_in res k l) = pts_in res k (map snd l).
Proof.
  unfold tagged_in, pts_in. induction l as [|[[s i] p] l IH]; [reflexivity|]. simpl.
  destruct (key_eqb (key_of res p) k); simpl; rewrite IH; reflexivity.
Qed.
