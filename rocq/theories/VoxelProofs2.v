(** Proofs about the decimation filters. *)
From Coq Require Import String Permutation Lqa.
From Verif Require Import Base FilterModel FilterSpec FilterProofs FilterProofs2 VoxelModel VoxelSpec VoxelProofs.
Open Scope Q_scope.
Open Scope list_scope.

Lemma conv_idem c p : conv c (conv c p) = conv c p.
Proof. unfold conv; simpl. destruct (has_I c), (has_R c), (has_T c); reflexivity. Qed.

Lemma each_insert {A} (f : A -> Pt) n : forall l m c,
  lfind m n = Some (LPts c) ->
  exists m', each (fun a => insert_from n (f a)) l m = (m', Val tt) /\
    Appended m m' n (map f l).
Proof.
  induction l as [|a l IH]; intros m c H.
  - exists m. split; [reflexivity|]. exists c. split; [exact H|]. simpl. rewrite app_nil_r.
    split; [destruct c; exact H|reflexivity].
  - simpl. unfold bnd. unfold insert_from at 1. rewrite H.
    set (c1 := mkCloud (cl_cls c) (cl_pts c ++ [conv (cl_cls c) (f a)])).
    destruct (IH (lset m n (LPts c1)) c1) as [m' [R [c2 [E [G O]]]]].
    { rewrite lfind_lset, seqb_refl. reflexivity. }
    exists m'. split; [exact R|]. exists c. split; [exact H|].
    rewrite lfind_lset, seqb_refl in E. injection E as <-. split.
    + rewrite G. unfold c1. simpl. rewrite <- app_assoc. reflexivity.
    + intros k K. rewrite (O k K), lfind_lset, seqb_neq by congruence. reflexivity.
Qed.

Lemma Appended_trans m1 m2 m3 n a b :
  Appended m1 m2 n a -> Appended m2 m3 n b -> Appended m1 m3 n (a ++ b).
Proof.
  intros [c [A [B C]]] [d [D [E F]]]. exists c. split; [exact A|].
  rewrite B in D. injection D as <-. simpl in E. split.
  - rewrite E, map_app, app_assoc. reflexivity.
  - intros k K. rewrite (F k K). apply C. exact K.
Qed.

Lemma Appended_nil m n c : lfind m n = Some (LPts c) -> Appended m m n [].
Proof.
  intros H. exists c. split; [exact H|]. simpl. rewrite app_nil_r.
  split; [destruct c; exact H|reflexivity].
Qed.

(** ** Collecting the inputs *)

Lemma collect_ok err : forall ins m, inputs_ok m ins ->
  collect ins err m = (m, Val (map SLayer ins)).
Proof.
  induction ins as [|n t IH]; intros m H; [reflexivity|].
  simpl. destruct (H n (or_introl eq_refl)) as [c ->]. unfold bnd.
  rewrite IH by (intros k K; apply H; right; exact K). reflexivity.
Qed.

(** ** Pass-through *)
Lemma read_src_pts m n : cl_pts (read_src m (SLayer n)) = pts_of m n.
Proof. unfold read_src, pts_of. destruct (lfind m n) as [[c|o|]|]; reflexivity. Qed.

Lemma pass_pt_flat c p : pass_pt c p = insert_from (de_out c) (flat c p).
Proof. unfold pass_pt, flat, insert_xyz. destruct (de_flatten c); reflexivity. Qed.

Lemma each_ext {A} (f g : A -> M unit) l : (forall a, f a = g a) -> each f l = each g l.
Proof. intros H. induction l as [|a l IH]; [reflexivity|]. simpl. rewrite H, IH. reflexivity. Qed.

Lemma pass_small_ok c : forall ins m d,
  (0 < de_min_pts c)%nat ->
  lfind m (de_out c) = Some (LPts d) -> inputs_ok m ins -> ~ In (de_out c) ins ->
  exists m', pass_small c (map SLayer ins) m
      = (m', Val (map SLayer (filter (fun n => negb (small c (pts_of m n))) ins))) /\
    Appended m m' (de_out c)
      (map (flat c) (concat (map (pts_of m) (filter (fun n => small c (pts_of m n)) ins)))).
Proof.
  induction ins as [|n t IH]; intros m d P H I N.
  - exists m. split; [reflexivity|]. simpl. eapply Appended_nil. exact H.
  - assert (NO : n <> de_out c) by (intros ->; apply N; left; reflexivity).
    assert (I' : inputs_ok m t) by (intros k K; apply I; right; exact K).
    assert (N' : ~ In (de_out c) t) by (intros X; apply N; right; exact X).
    assert (SM : small c (pts_of m n) = negb (de_min_pts c <? List.length (pts_of m n))%nat).
    { unfold small. apply Nat.ltb_lt in P. rewrite P. simpl. rewrite Nat.ltb_antisym, negb_involutive. reflexivity. }
    cbn [map pass_small]. rewrite (read_src_pts m n).
    destruct (de_min_pts c <? List.length (pts_of m n))%nat eqn:E.
    + destruct (IH m d P H I' N') as [m' [R A]]. exists m'. cbn [filter map concat]. rewrite SM. simpl.
      split; [|exact A]. unfold bnd. rewrite R. reflexivity.
    + rewrite seqb_neq by exact NO. cbn [andb].
      unfold bnd. rewrite (each_ext _ (fun p => insert_from (de_out c) (flat c p))) by (intros a; apply pass_pt_flat).
      destruct (each_insert (flat c) (de_out c) (pts_of m n) m d H) as [m1 [R1 A1]].
      rewrite R1. destruct A1 as [d' [D1 [D2 D3]]]. rewrite H in D1. injection D1 as <-.
      assert (SAME : forall k, In k t -> pts_of m1 k = pts_of m k).
      { intros k K. unfold pts_of, read_src. rewrite D3; [reflexivity|]. intros ->. contradiction. }
      destruct (IH m1 (mkCloud (cl_cls d) (cl_pts d ++ map (conv (cl_cls d)) (map (flat c) (pts_of m n)))) P D2) as [m' [R A]].
      { intros k K. destruct (I' k K) as [e Ek]. exists e. rewrite D3; [exact Ek|]. intros ->. contradiction. }
      { exact N'. }
      exists m'. cbn [filter map concat]. rewrite SM. simpl.
      assert (F1 : forall l : list Name, (forall k, In k l -> In k t) ->
          filter (fun k => negb (small c (pts_of m1 k))) l = filter (fun k => negb (small c (pts_of m k))) l).
      { induction l as [|k l IHl]; intros Q; [reflexivity|]. simpl. rewrite (SAME k) by (apply Q; left; reflexivity).
        rewrite IHl by (intros j J; apply Q; right; exact J). reflexivity. }
      assert (F2 : forall l : list Name, (forall k, In k l -> In k t) ->
          concat (map (pts_of m1) (filter (fun k => small c (pts_of m1 k)) l))
          = concat (map (pts_of m) (filter (fun k => small c (pts_of m k)) l))).
      { induction l as [|k l IHl]; intros Q; [reflexivity|]. simpl. rewrite (SAME k) by (apply Q; left; reflexivity).
        assert (IHl' : concat (map (pts_of m1) (filter (fun k => small c (pts_of m1 k)) l))
          = concat (map (pts_of m) (filter (fun k => small c (pts_of m k)) l)))
          by (apply IHl; intros j J; apply Q; right; exact J).
        destruct (small c (pts_of m k)); simpl; rewrite ?IHl'; [|reflexivity].
        rewrite (SAME k) by (apply Q; left; reflexivity). reflexivity. }
      rewrite F1 in R by (intros; assumption). rewrite F2 in A by (intros; assumption).
      split; [exact R|]. rewrite map_app. eapply Appended_trans; [|exact A].
      exists d. split; [exact H|]. split; [exact D2|exact D3].
Qed.

(** ** Single-grid representatives *)
Lemma pts_in_head res k l p t : pts_in res k l = p :: t -> In p l /\ key_of res p = k.
Proof.
  intros H. assert (X : In p (pts_in res k l)) by (rewrite H; left; reflexivity).
  apply filter_In in X. destruct X as [A B]. split; [exact A|apply key_eqb_eq; exact B].
Qed.

Lemma pts_in_nonempty res k l : pts_in res k l <> [] <-> exists p, In p l /\ key_of res p = k.
Proof.
  split.
  - destruct (pts_in res k l) as [|p t] eqn:E; [intros X; congruence|]. intros _. exists p.
    eapply pts_in_head. exact E.
  - intros [p [I K]] E. assert (X : In p (pts_in res k l)).
    { apply filter_In. split; [exact I|]. apply key_eqb_eq. exact K. }
    rewrite E in X. exact X.
Qed.

Lemma single_voxels g res robin clouds ord :
  (forall l, Permutation (ord l) l) ->
  OnePerVoxel res (concat clouds) (fun l p => exists t, l = p :: t)
    (map (fun kv => (fst kv, sv_pt (snd kv)))
       (ord (s_visit (s_process_all (s_clear (s_configure g res robin)) 0 clouds)))).
Proof.
  intros P. set (g0 := s_clear (s_configure g res robin)).
  destruct (s_fresh g res robin) as [_ [V0 [_ R0]]].
  destruct (s_processes clouds g0 0) as [N F].
  { intros k. unfold g0. rewrite V0. exact I. }
  { unfold g0. rewrite V0. constructor. }
  set (v := s_visit (s_process_all g0 0 clouds)) in *.
  assert (Q := P v).
  assert (KV : forall k v0, In (k, v0) (ord v) <-> afind v k = Some v0).
  { intros k v0. rewrite <- (afind_in v k v0 N). split; apply Permutation_in; [exact Q|symmetry; exact Q]. }
  assert (FF : forall k, afind v k = add_tagged None (tagged_in res k (tag_all 0 clouds))).
  { intros k. rewrite F. unfold g0. rewrite V0, R0. reflexivity. }
  assert (PT : forall k, map snd (tagged_in res k (tag_all 0 clouds)) = pts_in res k (concat clouds)).
  { intros k. rewrite tagged_pts, tag_all_pts. reflexivity. }
  assert (HEAD : forall k v0, afind v k = Some v0 -> exists t, pts_in res k (concat clouds) = sv_pt v0 :: t).
  { intros k v0 E. rewrite FF in E. rewrite <- PT.
    destruct (tagged_in res k (tag_all 0 clouds)) as [|[[s i] p] tl]; [discriminate|].
    simpl in E. injection E as <-. simpl. eexists; reflexivity. }
  split; [|split].
  - rewrite map_map. simpl. eapply Permutation_NoDup; [|exact N]. symmetry. apply Permutation_map. exact Q.
  - intros k. rewrite map_map. simpl. rewrite <- pts_in_nonempty. split.
    + intros H. apply in_map_iff in H. destruct H as [[k' v0] [E H]]. simpl in E. subst k'.
      apply KV in H. destruct (HEAD _ _ H) as [t ->]. discriminate.
    + intros H. rewrite <- PT in H.
      destruct (tagged_in res k (tag_all 0 clouds)) as [|[[s i] p] tl] eqn:E; [exfalso; apply H; reflexivity|].
      assert (X : exists v0, afind v k = Some v0) by (rewrite FF, E; simpl; eexists; reflexivity).
      destruct X as [v0 X]. apply KV in X. apply in_map_iff. exists (k, v0). split; [reflexivity|exact X].
  - intros k p H. apply in_map_iff in H. destruct H as [[k' v0] [E H]]. simpl in E. injection E as -> <-.
    apply KV in H. apply HEAD. exact H.
Qed.

(** ** Multi-point grid: the points listed in a voxel *)
Lemma points_at_in_voxel : forall l pre res k,
  points_at (pre ++ l) (in_voxel_from (List.length pre) res k l) = pts_in res k l.
Proof.
  induction l as [|p l IH]; intros pre res k; [reflexivity|].
  rewrite in_voxel_cons. unfold points_at in *. rewrite flat_map_app. 
  assert (T : flat_map (fun i => match nth_error (pre ++ p :: l) i with Some q => [q] | None => [] end)
              (in_voxel_from (S (List.length pre)) res k l) = pts_in res k l).
  { specialize (IH (pre ++ [p]) res k). rewrite app_length in IH. simpl in IH.
    rewrite Nat.add_1_r, <- app_assoc in IH. exact IH. }
  rewrite T. simpl. destruct (key_eqb (key_of res p) k); [|reflexivity].
  simpl. rewrite nth_error_app2 by lia. rewrite Nat.sub_diag. reflexivity.
Qed.

Lemma in_voxel_points l res k : points_at l (in_voxel res k l) = pts_in res k l.
Proof. apply (points_at_in_voxel l []). Qed.

Lemma in_voxel_len l res k : List.length (in_voxel res k l) = List.length (pts_in res k l).
Proof.
  unfold in_voxel, pts_in, numbered. rewrite map_length. generalize 0%nat as i.
  induction l as [|p l IH]; intros i; [reflexivity|]. simpl.
  destruct (key_eqb (key_of res p) k); simpl; rewrite IH; reflexivity.
Qed.

Lemma fold_sum_plus f : forall l a, fold_left (fun s (p : Pt) => s + f p) l a
   == a + fold_right Qplus 0 (map f l).
Proof.
  induction l as [|p l IH]; intros a; simpl; [lra|]. rewrite IH. lra.
Qed.

Lemma mean_by_spec f l : l <> [] ->
  inject_Z (Z.of_nat (List.length l)) * mean_by f l == fold_right Qplus 0 (map f l).
Proof.
  intros N. unfold mean_by, sum_by. rewrite fold_sum_plus.
  assert (D : ~ inject_Z (Z.of_nat (List.length l)) == 0).
  { destruct l as [|p l]; [congruence|]. simpl List.length. intros X.
    unfold Qeq in X. simpl in X. lia. }
  field. exact D.
Qed.

Lemma mean_is_mean l : l <> [] -> IsMean l (mean_by px l) (mean_by py l) (mean_by pz l).
Proof. intros N. unfold IsMean. split; [|split]; apply mean_by_spec; exact N. Qed.

Lemma closest_some o : forall l b, (b <> None \/ l <> []) -> exists e p, closest o b l = Some (e, p).
Proof.
  induction l as [|p l IH]; intros b H; simpl.
  - destruct b as [[e p]|]; [exists e, p; reflexivity|destruct H; congruence].
  - apply IH. left. destruct b as [[e q]|]; [destruct (Qltb _ _)|]; discriminate.
Qed.

Lemma Qlt_cases a b : a < b \/ b <= a.
Proof. destruct (Qlt_le_dec a b); [left|right]; assumption. Qed.

Lemma Qltb_spec a b : (Qltb a b = true /\ a < b) \/ (Qltb a b = false /\ b <= a).
Proof.
  unfold Qltb. destruct (Qle_bool b a) eqn:E.
  - right. split; [reflexivity|]. apply Qle_bool_iff. exact E.
  - left. split; [reflexivity|]. apply Qnot_le_lt. intros K. apply Qle_bool_iff in K. congruence.
Qed.

Lemma closest_spec o : forall l b e p, closest o b l = Some (e, p) ->
  (forall e' q, b = Some (e', q) -> e' == sq_norm_from o q) ->
  e == sq_norm_from o p /\ (b = Some (e, p) \/ In p l) /\
  (forall q, In q l -> e <= sq_norm_from o q) /\ (forall e' q, b = Some (e', q) -> e <= e').
Proof.
  induction l as [|a l IH]; intros b e p H B; simpl in H.
  - subst b. split; [apply B; reflexivity|]. split; [left; reflexivity|].
    split; [intros q []|]. intros e' q X. injection X as -> ->. apply Qle_refl.
  - apply IH in H.
    2:{ intros e' q X. destruct b as [[eb qb]|].
        - destruct (Qltb (sq_norm_from o a) eb).
          + injection X as <- <-. reflexivity.
          + injection X as <- <-. apply B. reflexivity.
        - injection X as <- <-. reflexivity. }
    destruct H as [H1 [H2 [H3 H4]]]. split; [exact H1|].
    destruct b as [[eb qb]|].
    + destruct (Qltb_spec (sq_norm_from o a) eb) as [[E L]|[E L]]; rewrite E in *.
      * assert (X := H4 _ _ eq_refl). split.
        -- destruct H2 as [H2|H2]; [injection H2 as _ <-; right; left; reflexivity|right; right; exact H2].
        -- split; [intros q [<-|Q]; [exact X|apply H3; exact Q]|].
           intros e' q Y. injection Y as <- _. lra.
      * assert (X := H4 _ _ eq_refl). split.
        -- destruct H2 as [H2|H2]; [left; exact H2|right; right; exact H2].
        -- split; [intros q [<-|Q]; [lra|apply H3; exact Q]|].
           intros e' q Y. injection Y as <- _. exact X.
    + assert (X := H4 _ _ eq_refl). split.
      * destruct H2 as [H2|H2]; [injection H2 as _ <-; right; left; reflexivity|right; right; exact H2].
      * split; [intros q [<-|Q]; [exact X|apply H3; exact Q]|]. intros e' q Y. discriminate.
Qed.

Lemma represent_spec me r l : l <> [] ->
  exists b p, represent me r l = Some (b, p) /\ Promise me l p /\ (b = true <-> me = VoxelAverage).
Proof.
  intros N. destruct me; unfold represent.
  - destruct l as [|p t]; [congruence|]. exists false, p. split; [reflexivity|].
    split; [exists t; reflexivity|split; discriminate].
  - destruct (closest_some (mean_pt l) l None (or_intror N)) as [e [p E]]. rewrite E.
    exists false, p. split; [reflexivity|]. split; [|split; discriminate].
    apply closest_spec in E; [|intros ? ? X; discriminate]. destruct E as [E1 [E2 [E3 _]]].
    destruct E2 as [E2|E2]; [discriminate|]. split; [exact E2|].
    exists (mean_by px l), (mean_by py l), (mean_by pz l). split; [apply mean_is_mean; exact N|].
    intros q Q. unfold mean_pt in *. rewrite <- E1. apply E3. exact Q.
  - unfold mean_pt. destruct l as [|p0 t]; [congruence|]. eexists true, _. split; [reflexivity|].
    split; [|split; reflexivity]. simpl. split; [apply (mean_is_mean (p0 :: t)); discriminate|].
    split; [reflexivity|split; reflexivity].
  - destruct (nth_error l (Nat.modulo r (List.length l))) as [p|] eqn:E.
    + exists false, p. split; [reflexivity|]. split; [|split; discriminate].
      eapply nth_error_In. exact E.
    + exfalso. apply nth_error_None in E.
      assert (Nat.modulo r (List.length l) < List.length l)%nat; [|lia].
      apply Nat.mod_upper_bound. destruct l; [congruence|discriminate].
Qed.

(** Representatives of all the voxels visited *)
Definition reps_of (me : DMethod) (rnd : nat -> nat) (pc : list Pt) (vs : list (Key * list nat))
  : list (Key * (bool * Pt)) :=
  flat_map (fun kvr => match represent me (snd kvr) (points_at pc (snd (fst kvr))) with
                       | Some bp => [(fst (fst kvr), bp)] | None => [] end)
           (with_draws rnd 0 vs).

Lemma reps_of_spec me rnd pc : forall vs,
  (forall k is, In (k, is) vs -> points_at pc is <> []) ->
  map fst (reps_of me rnd pc vs) = map fst vs /\
  forall k b p, In (k, (b, p)) (reps_of me rnd pc vs) ->
    exists is, In (k, is) vs /\ Promise me (points_at pc is) p /\ (b = true <-> me = VoxelAverage).
Proof.
  unfold reps_of. generalize 0%nat as n. intros n vs. revert n.
  induction vs as [|[k is] t IH]; intros n H.
  - split; [reflexivity|intros k b p []].
  - simpl. destruct (represent_spec me (rnd n) (points_at pc is)) as [b [p [E [P B]]]].
    { apply (H k is). left; reflexivity. }
    rewrite E. destruct (IH (S n)) as [A C]. { intros k' is' I'. apply (H k'). right; exact I'. }
    split.
    + simpl. f_equal. exact A.
    + intros k' b' p' [X|X].
      * injection X as <- <- <-. exists is. split; [left; reflexivity|]. split; assumption.
      * destruct (C _ _ _ X) as [is' [I' R']]. exists is'. split; [right; exact I'|exact R'].
Qed.

Lemma multi_voxels me rnd g0 res pc ord :
  g_min_dist g0 == 0 -> (forall l, Permutation (ord l) l) ->
  let vs := filter (fun kv => negb (Nat.eqb (List.length (snd kv)) 0))
              (ord (g_visit (g_process (g_clear (g_configure g0 res true)) pc))) in
  OnePerVoxel res pc (Promise me) (map (fun kv => (fst kv, snd (snd kv))) (reps_of me rnd pc vs)) /\
  (forall kv, In kv (reps_of me rnd pc vs) -> (fst (snd kv) = true <-> me = VoxelAverage)).
Proof.
  intros D P vs. set (g1 := g_clear (g_configure g0 res true)) in *.
  assert (G1 : g_robin g1 = true /\ g_tsl g1 = [] /\ g_res g1 = res /\ g_min_dist g1 == 0).
  { unfold g1, g_clear, g_configure, g_clear. simpl. split; [reflexivity|]. split; [reflexivity|]. split; [reflexivity|exact D]. }
  destruct G1 as [GR [GT [GS GD]]].
  destruct (g_processes [pc] g1 GD) as [A [_ [_ [N F]]]]. simpl fold_left in *.
  rewrite GT in N, F. specialize (N (NoDup_nil _)).
  assert (V : g_visit (g_process g1 pc) = g_tsl (g_process g1 pc)).
  { unfold g_visit. rewrite A, GR. reflexivity. }
  set (v := g_tsl (g_process g1 pc)) in *.
  assert (VS : vs = filter (fun kv => negb (Nat.eqb (List.length (snd kv)) 0)) (ord v)) by (unfold vs; rewrite V; reflexivity).
  clearbody vs.
  assert (KV : forall k is, In (k, is) vs <-> is = in_voxel res k pc /\ is <> []).
  { intros k is. rewrite VS. rewrite filter_In. simpl snd.
    assert (X : In (k, is) (ord v) <-> afind v k = Some is).
    { rewrite <- (afind_in v k is N). split; apply Permutation_in; [apply P|symmetry; apply P]. }
    rewrite X, F. rewrite GS. simpl. rewrite app_nil_r. unfold add_ids.
    destruct (in_voxel res k pc) as [|i t] eqn:E.
    - split; [intros [Y _]; discriminate|intros [-> Y]; congruence].
    - split.
      + intros [Y _]. injection Y as <-. split; [reflexivity|discriminate].
      + intros [-> _]. split; reflexivity. }
  assert (NE : forall k is, In (k, is) vs -> points_at pc is <> []).
  { intros k is I0. apply KV in I0. destruct I0 as [-> Y]. rewrite in_voxel_points.
    intros Z. assert (L := in_voxel_len pc res k). rewrite Z in L. simpl in L.
    destruct (in_voxel res k pc); [congruence|discriminate]. }
  destruct (reps_of_spec me rnd pc vs NE) as [K R].
  split.
  - split; [|split].
    + rewrite map_map. simpl. change (map (fun x : Key * (bool * Pt) => fst x) (reps_of me rnd pc vs)) with (map fst (reps_of me rnd pc vs)).
      rewrite K, VS. clear - N P.
      assert (X : NoDup (map fst (ord v))).
      { eapply Permutation_NoDup; [|exact N]. symmetry. apply Permutation_map, P. }
      induction (ord v) as [|[a w] t IH]; [constructor|]. simpl in *. inversion X as [|? ? X1 X2]; subst.
      destruct (negb _); simpl; [|apply IH; exact X2]. constructor; [|apply IH; exact X2].
      intros Y. apply X1. apply in_map_iff in Y. destruct Y as [z [Z1 Z2]]. apply filter_In in Z2.
      rewrite <- Z1. apply in_map. tauto.
    + intros k. rewrite map_map. simpl. change (map (fun x : Key * (bool * Pt) => fst x) (reps_of me rnd pc vs)) with (map fst (reps_of me rnd pc vs)).
      rewrite K, <- pts_in_nonempty. split.
      * intros H. apply in_map_iff in H. destruct H as [[k' is] [E H]]. simpl in E. subst k'.
        rewrite <- in_voxel_points. assert (H' := H). apply KV in H'. destruct H' as [-> _]. eapply NE. exact H.
      * intros H. apply in_map_iff. exists (k, in_voxel res k pc). split; [reflexivity|]. apply KV.
        split; [reflexivity|]. intros Z. apply H. assert (L := in_voxel_len pc res k). rewrite Z in L.
        destruct (pts_in res k pc); [reflexivity|discriminate].
    + intros k p H. apply in_map_iff in H. destruct H as [[k' [b q]] [E H]]. simpl in E. injection E as -> ->.
      destruct (R _ _ _ H) as [is [I0 [PR _]]]. apply KV in I0. destruct I0 as [-> _].
      rewrite in_voxel_points in PR. exact PR.
  - intros [k [b p]] H. simpl. destruct (R _ _ _ H) as [is [_ [_ B]]]. exact B.
Qed.

(** ** Flattening *)
Lemma existsb_col used x y :
  existsb (fun u : Z * Z => Z.eqb (fst u) x && Z.eqb (snd u) y) used = true <-> In (x, y) used.
Proof.
  rewrite existsb_exists. split.
  - intros [[a b] [I E]]. simpl in E. apply andb_true_iff in E. rewrite !Z.eqb_eq in E. destruct E as [-> ->]. exact I.
  - intros I. exists (x, y). split; [exact I|]. simpl. rewrite !Z.eqb_refl. reflexivity.
Qed.

Lemma first_columns_spec {A} : forall (l : list (Key * A)) used,
  NoDup (map (fun kv => column (fst kv)) (first_columns used l)) /\
  (forall kv, In kv (first_columns used l) -> In kv l /\ ~ In (column (fst kv)) used) /\
  (forall kv, In kv l -> In (column (fst kv)) used \/
       In (column (fst kv)) (map (fun kv => column (fst kv)) (first_columns used l))).
Proof.
  induction l as [|[[[x y] z] a] t IH]; intros used.
  - split; [constructor|]. split; intros kv [].
  - simpl. destruct (existsb _ used) eqn:E.
    + apply existsb_col in E. destruct (IH used) as [N [S C]]. split; [exact N|]. split.
      * intros kv H. destruct (S kv H) as [I0 U]. split; [right; exact I0|exact U].
      * intros kv [<-|H]; [left; exact E|apply C; exact H].
    + assert (NE : ~ In (x, y) used) by (rewrite <- existsb_col, E; discriminate).
      destruct (IH ((x, y) :: used)) as [N [S C]]. split; [|split].
      * simpl. constructor; [|exact N]. intros H. apply in_map_iff in H. destruct H as [kv [X H]].
        destruct (S kv H) as [_ U]. apply U. left. symmetry. exact X.
      * intros kv [<-|H]; [split; [left; reflexivity|exact NE]|].
        destruct (S kv H) as [I0 U]. split; [right; exact I0|]. intros X. apply U. right. exact X.
      * intros kv [<-|H]; [right; left; reflexivity|].
        destruct (C kv H) as [[X|X]|X]; [right; left; exact X|left; exact X|right; right; exact X].
Qed.
