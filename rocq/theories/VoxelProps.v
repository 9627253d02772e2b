(** C42 (voxel grids), C43 (voxel decimation) and the findings split from them. *)
From Coq Require Import String Permutation Sorted Qabs Lqa.
From Verif Require Import Base FilterModel FilterSpec FilterProofs FilterProofs2 VoxelModel VoxelSpec VoxelProofs VoxelProofs2.
Open Scope string_scope.
Open Scope Q_scope.
Open Scope list_scope.

(** ** C42 *)

(** Numbered occurrences: the [i]-th point of [l] is in the voxel [k]. *)
Lemma in_voxel_iff res k l i :
  In i (in_voxel res k l) <-> exists p, nth_error l i = Some p /\ key_of res p = k.
Proof.
  unfold in_voxel, numbered. rewrite in_map_iff. split.
  - intros [[j p] [E H]]. simpl in E. subst j. apply filter_In in H. destruct H as [H K].
    exists p. split; [|apply key_eqb_eq; exact K]. simpl in K.
    apply (In_nth_error) in H. destruct H as [n H].
    assert (G : forall (l : list Pt) o n i p, nth_error (combine (seq o (List.length l)) l) n = Some (i, p) ->
       i = (o + n)%nat /\ nth_error l n = Some p).
    { clear. induction l as [|a l IH]; intros o n i p H; [destruct n; discriminate|].
      destruct n as [|n]; simpl in H.
      - injection H as <- <-. split; [lia|reflexivity].
      - apply IH in H. destruct H as [-> H]. split; [lia|exact H]. }
    apply G in H. destruct H as [-> H]. exact H.
  - intros [p [H K]]. exists (i, p). split; [reflexivity|]. apply filter_In. split.
    + assert (G : forall (l : list Pt) o n p, nth_error l n = Some p -> In ((o + n)%nat, p) (combine (seq o (List.length l)) l)).
      { clear. induction l as [|a l IH]; intros o n p H; [destruct n; discriminate|].
        destruct n as [|n]; simpl in H; simpl.
        - injection H as <-. left. f_equal. lia.
        - right. replace (o + S n)%nat with (S o + n)%nat by lia. apply IH. exact H. }
      apply (G l 0%nat i p H).
    + simpl. apply key_eqb_eq. exact K.
Qed.

(** Full grid (hash-map flavour), whatever it contained before it was configured, with the
    consecutive-distance filter off: after any sequence of clouds, visiting reports each
    voxel once, and a voxel is reported, with exactly the indices of the points that fall in
    it (cloud after cloud, in order), iff some point falls in it. *)
Theorem C42_full_grid : forall g res clouds, g_min_dist g == 0 ->
  let v := g_visit (fold_left g_process clouds (g_configure g res true)) in
  NoDup (map fst v) /\
  forall k is, In (k, is) v <-> is <> [] /\ is = flat_map (in_voxel res k) clouds.
Proof.
  intros g res clouds D v. destruct (g_fresh g res) as [T [R [S M]]].
  destruct (g_processes clouds (g_configure g res true)) as [A [_ [_ [N F]]]].
  { rewrite M. exact D. }
  unfold v, g_visit. rewrite A, R. rewrite T in N. specialize (N (NoDup_nil _)).
  split; [exact N|]. intros k is. rewrite (afind_in _ k is N), F, T, S. simpl. unfold add_ids.
  destruct (flat_map (in_voxel res k) clouds) as [|i l].
  - split; [discriminate|]. intros [X Y]. congruence.
  - split; [intros X; injection X as <-; split; [discriminate|reflexivity]|intros [_ ->]; reflexivity].
Qed.

(** Hence each point of a cloud is in exactly one reported voxel: the one its coordinates give. *)
Theorem C42_full_grid_exactly_one : forall g res l i p, g_min_dist g == 0 ->
  nth_error l i = Some p ->
  exists! k, exists is, In (k, is) (g_visit (g_process (g_configure g res true) l)) /\ In i is.
Proof.
  intros g res l i p D H. destruct (C42_full_grid g res [l] D) as [_ V]. simpl in V.
  exists (key_of res p). split.
  - exists (in_voxel res (key_of res p) l).
    assert (X : In i (in_voxel res (key_of res p) l)) by (apply in_voxel_iff; exists p; split; [exact H|reflexivity]).
    split; [|exact X]. apply V. rewrite app_nil_r. split; [|reflexivity].
    intros Y. rewrite Y in X. exact X.
  - intros k [is [I0 J]]. apply V in I0. destruct I0 as [_ ->]. rewrite app_nil_r in J.
    apply in_voxel_iff in J. destruct J as [q [Q K]]. congruence.
Qed.

(** ** With the consecutive-distance filter on *)
Lemma Qltb_true a b : Qltb a b = true -> a < b.
Proof. destruct (Qltb_spec a b) as [[H X]|[H X]]; [intros _; exact X|congruence]. Qed.
Lemma Qltb_false a b : Qltb a b = false -> b <= a.
Proof. destruct (Qltb_spec a b) as [[H X]|[H X]]; [congruence|intros _; exact X]. Qed.
Fixpoint kept (d : Q) (prev : option Pt) (i : nat) (l : list Pt) : list nat :=
  match l with
  | [] => []
  | p :: t => if too_close d prev p then kept d prev (S i) t else i :: kept d (Some p) (S i) t
  end.
Definition sel (res : Q) (k : Key) (off : nat) (l : list Pt) (i : nat) : bool :=
  match nth_error l (i - off) with Some p => key_eqb (key_of res p) k | None => false end.

Lemma kept_bounds d : forall l prev i j, In j (kept d prev i l) -> (i <= j < i + List.length l)%nat.
Proof.
  induction l as [|p l IH]; intros prev i j H; [destruct H|]. cbn [kept] in H. cbn [List.length].
  destruct (too_close d prev p).
  - apply IH in H. lia.
  - destruct H as [<-|H]; [lia|]. apply IH in H. lia.
Qed.
Lemma kept_sorted d : forall l prev i, StronglySorted lt (kept d prev i l).
Proof.
  induction l as [|p l IH]; intros prev i; cbn [kept]; [constructor|].
  destruct (too_close d prev p); [apply IH|]. constructor; [apply IH|].
  apply Forall_forall. intros j J. apply kept_bounds in J. lia.
Qed.
Lemma sel_shift res k off p l L : (forall j, In j L -> (S off <= j)%nat) ->
  filter (sel res k off (p :: l)) L = filter (sel res k (S off) l) L.
Proof.
  intros H. apply filter_ext_in. intros j J. specialize (H j J). unfold sel.
  replace (j - off)%nat with (S (j - S off)) by lia. reflexivity.
Qed.
Lemma g_loop_kept : forall l res d prev i m k,
  afind (g_loop res d prev i l m) k = add_ids (afind m k) (filter (sel res k i l) (kept d prev i l)).
Proof.
  induction l as [|p l IH]; intros res d prev i m k; [reflexivity|].
  cbn [g_loop kept]. destruct (too_close d prev p).
  - rewrite IH, sel_shift; [reflexivity|]. intros j J. apply kept_bounds in J. lia.
  - rewrite IH. cbn [filter]. rewrite sel_shift by (intros j J; apply kept_bounds in J; lia).
    unfold sel at 2. rewrite Nat.sub_diag. cbn [nth_error]. rewrite afind_aupd.
    destruct (key_eqb (key_of res p) k) eqn:E.
    + change (i :: ?L) with ([i] ++ L). rewrite <- add_ids_app. f_equal.
      apply key_eqb_eq in E. rewrite E. simpl. destruct (afind m k); reflexivity.
    + reflexivity.
Qed.
Lemma qabs'_abs x : Qabs' x == Qabs x.
Proof.
  unfold Qabs'. destruct (Qltb x 0) eqn:E.
  - apply Qltb_true in E. rewrite Qabs_neg by lra. reflexivity.
  - apply Qltb_false in E. rewrite Qabs_pos by lra. reflexivity.
Qed.
Lemma qmax'_lt a b d : Qmax' a b < d <-> a < d /\ b < d.
Proof.
  unfold Qmax'. destruct (Qltb a b) eqn:E; [apply Qltb_true in E|apply Qltb_false in E]; split; intro H; lra.
Qed.
Lemma too_close_near d q p : 0 < d -> too_close d (Some q) p = true <-> near d q p.
Proof.
  intro D. unfold too_close, near. assert (Z : Qeq_bool d 0 = false).
  { destruct (Qeq_bool d 0) eqn:E; [|reflexivity]. apply Qeq_bool_iff in E. lra. }
  rewrite Z. cbn [negb andb]. split.
  - intro H. apply Qltb_true in H. rewrite !qmax'_lt, !qabs'_abs in H. tauto.
  - intro H. apply not_false_iff_true. intro E. apply Qltb_false in E.
    assert (X : Qmax' (Qmax' (Qabs' (px q - px p)) (Qabs' (py q - py p))) (Qabs' (pz q - pz p)) < d)
      by (rewrite !qmax'_lt, !qabs'_abs; tauto). lra.
Qed.
Lemma kept_thin d : 0 < d -> forall l prev off i p, nth_error l i = Some p ->
  let ks := kept d prev off l in
  (~ In (off + i)%nat ks <->
    (exists j q, (j < i)%nat /\ In (off + j)%nat ks /\ nth_error l j = Some q
       /\ (forall k, (j < k < i)%nat -> ~ In (off + k)%nat ks) /\ near d q p)
    \/ (exists q, prev = Some q /\ (forall k, (k < i)%nat -> ~ In (off + k)%nat ks) /\ near d q p)).
Proof.
  intros D. induction l as [|a l IH]; intros prev off i p H; [destruct i; discriminate|].
  cbn [kept]. destruct (too_close d prev a) eqn:E.
  - destruct prev as [q0|]; [|unfold too_close in E; rewrite andb_false_r in E; discriminate].
    destruct i as [|i].
    + cbn in H. injection H as ->. rewrite Nat.add_0_r. split.
      * intros _. right. exists q0. split; [reflexivity|]. split; [lia|]. apply too_close_near; assumption.
      * intros _ X. apply kept_bounds in X. lia.
    + cbn in H. specialize (IH (Some q0) (S off) i p H). cbn zeta in *.
      replace (off + S i)%nat with (S off + i)%nat by lia. rewrite IH. split.
      * intros [(j & q & A & B & C & K & N)|(q & A & K & N)].
        -- left. exists (S j), q. split; [lia|]. replace (off + S j)%nat with (S off + j)%nat by lia.
           split; [exact B|]. split; [exact C|]. split; [|exact N].
           intros k Hk. replace (off + k)%nat with (S off + (k - 1))%nat by lia. apply K. lia.
        -- right. exists q. split; [exact A|]. split; [|exact N]. intros k Hk X. destruct k as [|k].
           ++ apply kept_bounds in X. lia.
           ++ replace (off + S k)%nat with (S off + k)%nat in X by lia. revert X. apply K. lia.
      * intros [(j & q & A & B & C & K & N)|(q & A & K & N)].
        -- destruct j as [|j]; [apply kept_bounds in B; lia|]. left. exists j, q. split; [lia|].
           replace (off + S j)%nat with (S off + j)%nat in B by lia. split; [exact B|]. split; [exact C|]. split; [|exact N].
           intros k Hk. replace (S off + k)%nat with (off + S k)%nat by lia. apply K. lia.
        -- right. exists q. split; [exact A|]. split; [|exact N]. intros k Hk.
           replace (S off + k)%nat with (off + S k)%nat by lia. apply K. lia.
  - destruct i as [|i].
    + cbn in H. injection H as ->. rewrite Nat.add_0_r. split.
      * intro X. exfalso. apply X. left. reflexivity.
      * intros [(j & q & A & _)|(q & A & K & N)]; [lia|]. subst prev.
        apply too_close_near in N; [congruence|exact D].
    + cbn in H. specialize (IH (Some a) (S off) i p H). cbn zeta in *.
      assert (IN : forall k, In (off + S k)%nat (off :: kept d (Some a) (S off) l) <-> In (S off + k)%nat (kept d (Some a) (S off) l)).
      { intro k. replace (off + S k)%nat with (S off + k)%nat by lia. split; [intros [X|X]; [lia|exact X]|right; assumption]. }
      rewrite IN, IH. split.
      * intros [(j & q & A & B & C & K & N)|(q & A & K & N)].
        -- left. exists (S j), q. split; [lia|]. split; [apply IN; exact B|]. split; [exact C|]. split; [|exact N].
           intros k Hk. destruct k as [|k]; [lia|]. rewrite IN. apply K. lia.
        -- left. injection A as ->. exists 0%nat, q. split; [lia|]. split; [left; lia|]. split; [reflexivity|].
           split; [|exact N]. intros k Hk. destruct k as [|k]; [lia|]. rewrite IN. apply K. lia.
      * intros [(j & q & A & B & C & K & N)|(q & A & K & N)].
        -- destruct j as [|j].
           ++ right. injection C as <-. exists a. split; [reflexivity|]. split; [|exact N].
              intros k Hk. rewrite <- IN. apply K. lia.
           ++ left. exists j, q. split; [lia|]. split; [apply IN; exact B|]. split; [exact C|]. split; [|exact N].
              intros k Hk. rewrite <- IN. apply K. lia.
        -- exfalso. apply (K 0%nat); [lia|]. left. lia.
Qed.

(** The indices of [ks] whose point of [l] falls in the voxel [k]. *)
Definition of_voxel (res : Q) (k : Key) (l : list Pt) (ks : list nat) : list nat :=
  filter (fun i => match nth_error l i with Some p => key_eqb (key_of res p) k | None => false end) ks.

Lemma g_processes_kept clouds : forall g,
  let g' := fold_left g_process clouds g in
  g_robin g' = g_robin g /\ (NoDup (map fst (g_tsl g)) -> NoDup (map fst (g_tsl g'))) /\
  forall k, afind (g_tsl g') k = add_ids (afind (g_tsl g) k)
     (flat_map (fun l => of_voxel (g_res g) k l (kept (g_min_dist g) None 0 l)) clouds).
Proof.
  induction clouds as [|l t IH]; intros g; simpl.
  - repeat split; auto.
  - destruct (IH (g_process g l)) as [A [N F]]. simpl in *.
    split; [exact A|]. split.
    + intros X. apply N. apply g_loop_nodup. exact X.
    + intros k. rewrite F. rewrite g_loop_kept. unfold of_voxel at 2.
      rewrite (filter_ext (sel (g_res g) k 0 l)
        (fun i => match nth_error l i with Some p => key_eqb (key_of (g_res g) p) k | None => false end));
        [apply add_ids_app|]. intros i. unfold sel. rewrite Nat.sub_0_r. reflexivity.
Qed.

(** With a minimum distance between consecutive points, the same holds of the points kept:
    in each cloud, a point is left out iff it is near (on all three axes) the last point of
    that cloud kept before it. *)
Theorem C42_full_grid_min_distance : forall g res clouds, 0 < g_min_dist g ->
  let v := g_visit (fold_left g_process clouds (g_configure g res true)) in
  NoDup (map fst v) /\
  exists keeps, Forall2 (Thinned (g_min_dist g)) clouds keeps /\
    forall k is, In (k, is) v <->
      is <> [] /\ is = concat (map (fun lk => of_voxel res k (fst lk) (snd lk)) (combine clouds keeps)).
Proof.
  intros g res clouds D v. destruct (g_fresh g res) as [T [R [S M]]].
  destruct (g_processes_kept clouds (g_configure g res true)) as [A [N F]].
  unfold v, g_visit. rewrite A, R. rewrite T in N. specialize (N (NoDup_nil _)).
  split; [exact N|]. exists (map (kept (g_min_dist g) None 0) clouds). split.
  - clear -D. induction clouds as [|l t IH]; cbn [map]; constructor; [|exact IH].
    split; [apply kept_sorted|]. split; [intros i H; apply kept_bounds in H; lia|].
    intros i p H. pose proof (kept_thin _ D l None 0 i p H) as X. cbn zeta in X. rewrite !Nat.add_0_l in X.
    rewrite X. split; [intros [Y|(q & Y & _)]; [exact Y|discriminate]|left; assumption].
  - assert (EQ : forall k, concat (map (fun lk => of_voxel res k (fst lk) (snd lk)) (combine clouds (map (kept (g_min_dist g) None 0) clouds)))
       = flat_map (fun l => of_voxel res k l (kept (g_min_dist g) None 0 l)) clouds).
    { intro k. clear. induction clouds as [|l t IH]; [reflexivity|]. cbn. rewrite IH. reflexivity. }
    intros k is. rewrite (afind_in _ k is N), F, T, S, M, EQ. simpl. unfold add_ids.
    destruct (flat_map _ clouds) as [|i l].
    + split; [discriminate|]. intros [X Y]. congruence.
    + split; [intros X; injection X as <-; split; [discriminate|reflexivity]|intros [_ ->]; reflexivity].
Qed.

Example C42_min_distance_example :
  g_visit (g_process (g_configure (mkGrid 1 true (1#2) [] []) 1 true)
    [mkPt 0 0 0 0 0%Z 0; mkPt (1#4) 0 0 0 0%Z 0; mkPt (1#4) 0 (1#2) 0 0%Z 0; mkPt (3#2) 0 (1#2) 0 0%Z 0])
  = [((0, 0, 0)%Z, [0; 2]%nat); ((1, 0, 0)%Z, [3]%nat)].
Proof. reflexivity. Qed.

(** Single-point grid, both container flavours, whatever it contained before: after any
    sequence of clouds, each voxel is reported once, iff some point falls in it, with the
    first such point and how many there are. *)
Theorem C42_single_grid : forall g res robin clouds,
  let v := s_visit (s_process_all (s_configure g res robin) 0 clouds) in
  NoDup (map fst v) /\
  (forall k, In k (map fst v) <-> exists p, In p (concat clouds) /\ key_of res p = k) /\
  (forall k sv, In (k, sv) v ->
     sv_count sv = List.length (pts_in res k (concat clouds)) /\
     (exists t, pts_in res k (concat clouds) = sv_pt sv :: t) /\
     (exists l, nth_error clouds (sv_src sv) = Some l /\ nth_error l (sv_idx sv) = Some (sv_pt sv))).
Proof.
  intros g res robin clouds v. destruct (s_fresh g res robin) as [V0 [_ [R0 _]]].
  destruct (s_processes clouds (s_configure g res robin) 0) as [N F].
  { intros k. rewrite V0. exact I. }
  { rewrite V0. constructor. }
  fold v in N, F. rewrite R0 in F.
  assert (PT : forall k, map snd (tagged_in res k (tag_all 0 clouds)) = pts_in res k (concat clouds)).
  { intros k. rewrite tagged_pts, tag_all_pts. reflexivity. }
  assert (TAG : forall cl tag s i p, In (s, i, p) (tag_all tag cl) ->
     (tag <= s)%nat /\ exists l, nth_error cl (s - tag) = Some l /\ nth_error l i = Some p).
  { clear. induction cl as [|l t IH]; intros tag s i p H; [destruct H|].
    simpl in H. apply in_app_or in H. destruct H as [H|H].
    - unfold tag_from in H. apply in_map_iff in H. destruct H as [[j q] [E H]]. simpl in E.
      injection E as <- <- <-. split; [lia|]. exists l. rewrite Nat.sub_diag. split; [reflexivity|].
      assert (G : forall (l : list Pt) o i p, In (i, p) (combine (seq o (List.length l)) l) ->
          (o <= i)%nat /\ nth_error l (i - o) = Some p).
      { clear. induction l as [|a l IH]; intros o i p H; [destruct H|]. simpl in H. destruct H as [H|H].
        - injection H as <- <-. split; [lia|]. rewrite Nat.sub_diag. reflexivity.
        - apply IH in H. destruct H as [L H]. split; [lia|].
          replace (i - o)%nat with (S (i - S o))%nat by lia. exact H. }
      apply G in H. destruct H as [_ H]. rewrite Nat.sub_0_r in H. exact H.
    - apply IH in H. destruct H as [L [l' [A B]]]. split; [lia|]. exists l'. split; [|exact B].
      replace (s - tag)%nat with (S (s - S tag))%nat by lia. exact A. }
  assert (IN : forall k sv, In (k, sv) v <-> add_tagged None (tagged_in res k (tag_all 0 clouds)) = Some sv).
  { intros k sv. rewrite (afind_in v k sv N), F, V0. reflexivity. }
  split; [exact N|]. split.
  - intros k. rewrite <- pts_in_nonempty, <- PT. split.
    + intros H. apply in_map_iff in H. destruct H as [[k' sv] [E H]]. simpl in E. subst k'.
      apply IN in H. destruct (tagged_in res k (tag_all 0 clouds)); [discriminate|simpl; discriminate].
    + intros H. destruct (tagged_in res k (tag_all 0 clouds)) as [|[[s i] p] tl] eqn:E; [exfalso; apply H; reflexivity|].
      apply in_map_iff. exists (k, mkSV p i s (List.length ((s, i, p) :: tl))). split; [reflexivity|].
      apply IN. rewrite E. reflexivity.
  - intros k sv H. apply IN in H. rewrite <- PT.
    destruct (tagged_in res k (tag_all 0 clouds)) as [|[[s i] p] tl] eqn:E; [discriminate|].
    simpl in H. injection H as <-. simpl. rewrite map_length. split; [reflexivity|]. split; [eexists; reflexivity|].
    assert (X : In (s, i, p) (tag_all 0 clouds)).
    { assert (Y : In (s, i, p) (tagged_in res k (tag_all 0 clouds))) by (rewrite E; left; reflexivity).
      apply filter_In in Y. tauto. }
    apply TAG in X. destruct X as [_ X]. rewrite Nat.sub_0_r in X. exact X.
Qed.

(** Same voxel means same truncated coordinates: the voxels are the cells of the grid. *)
Theorem C42_voxel_geometry : forall res p q, 0 < res ->
  key_of res p = key_of res q ->
  (px p - px q) < 2 * res /\ (py p - py q) < 2 * res /\ (pz p - pz q) < 2 * res.
Proof.
  intros res p q R H. unfold key_of in H. injection H as Hx Hy Hz.
  assert (G : forall a b, coord2idx res a = coord2idx res b -> a - b < 2 * res).
  { clear - R. intros a b E. unfold coord2idx in E.
    assert (B : forall x : Q, inject_Z (Z.quot (Qnum x) (Zpos (Qden x))) - 1 < x /\
                  x < inject_Z (Z.quot (Qnum x) (Zpos (Qden x))) + 1).
    { intros [n d]. unfold Qlt, Qminus, Qplus, Qopp, inject_Z. simpl.
      assert (Q1 := Z.quot_rem' n (Zpos d)).
      assert (Q2 := Z.rem_bound_abs n (Zpos d) ltac:(lia)).
      set (z := Z.quot n (Zpos d)) in *. nia. }
    assert (Ba := proj2 (B (a / res))). assert (Bb := proj1 (B (b / res))). rewrite E in Ba.
    set (z := inject_Z _) in *.
    assert (D : a / res - b / res < 2) by lra.
    assert (X : a == (a / res) * res) by (field; lra).
    assert (Y : b == (b / res) * res) by (field; lra).
    rewrite X, Y. set (u := a / res) in *. set (w := b / res) in *. nra. }
  split; [apply G; exact Hx|split; apply G; assumption].
Qed.

Definition vx (x : Q) : Pt := mkPt x 0 0 0 0%Z 0.

Example C42_example :
  g_visit (fold_left g_process [[vx (1#2); vx (3#2); vx (-1#2)]; [vx (8#5)]]
             (g_configure (mkGrid 7 false 0 [((9, 9, 9)%Z, [4%nat])] []) 1 true))
  = [((0, 0, 0)%Z, [0; 2]%nat); ((1, 0, 0)%Z, [1; 0]%nat)] /\
  map (fun kv => (fst kv, sv_count (snd kv))) (s_visit (s_process_all (s_configure (mkSGrid 7 true [] []) 1 false) 0
     [[vx (1#2); vx (3#2); vx (-1#2)]; [vx (8#5)]]))
  = [((0, 0, 0)%Z, 2%nat); ((1, 0, 0)%Z, 2%nat)].
Proof. split; reflexivity. Qed.

(** ** C68: the std::map flavour of the full grid *)

(** Finding: with the hash-map flavour off, processing writes the hash map but visiting,
    counting and clearing use the std::map: no point is ever reported. *)
Theorem C68_std_map_flavour_reports_nothing_refuted : forall g res clouds,
  g_visit (fold_left g_process clouds (g_configure g res false)) = [] /\
  g_size (fold_left g_process clouds (g_configure g res false)) = 0%nat.
Proof.
  intros g res clouds.
  assert (X : forall g', g_robin g' = false -> g_std g' = [] ->
     g_visit (fold_left g_process clouds g') = []).
  { induction clouds as [|l t IH]; intros g' A B; simpl.
    - unfold g_visit. rewrite A. exact B.
    - apply IH; [exact A|exact B]. }
  assert (Y : g_visit (fold_left g_process clouds (g_configure g res false)) = []) by (apply X; reflexivity).
  split; [exact Y|]. unfold g_size. rewrite Y. reflexivity.
Qed.
