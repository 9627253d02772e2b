(** Proofs about FilterDecimateVoxelsQuadratic. *)
From Coq Require Import String Permutation Reals Qreals Qround Lqa.
From Verif Require Import Base FilterModel FilterSpec FilterProofs FilterProofs2 VoxelModel VoxelSpec VoxelProofs
  VoxelProofs2 DecimateProps QuadModel QuadSpec.
Open Scope string_scope.
Open Scope Q_scope.
Open Scope list_scope.

Definition qkey (c : QuadCfg) (p : Pt) : Key := key_of (qd_res c) (warp c p).

Lemma pts_at_warp c : forall l pre k,
  points_at (pre ++ l) (in_voxel_from (List.length pre) (qd_res c) k (map (warp c) l))
  = pts_at (qkey c) k l.
Proof.
  induction l as [|p l IH]; intros pre k; [reflexivity|].
  cbn [map]. rewrite in_voxel_cons. unfold points_at in *. rewrite flat_map_app.
  specialize (IH (pre ++ [p]) k). rewrite app_length, Nat.add_1_r, <- app_assoc in IH. cbn [app] in IH.
  rewrite IH. unfold pts_at. cbn [filter]. fold (qkey c p).
  destruct (key_eqb (qkey c p) k); [|reflexivity].
  cbn [flat_map]. rewrite nth_error_app2, Nat.sub_diag by lia. reflexivity.
Qed.

Lemma pts_at_warp0 c l k : points_at l (in_voxel (qd_res c) k (map (warp c) l)) = pts_at (qkey c) k l.
Proof. apply (pts_at_warp c l []). Qed.

Lemma in_voxel_len_warp c l k :
  List.length (in_voxel (qd_res c) k (map (warp c) l)) = List.length (pts_at (qkey c) k l).
Proof.
  rewrite in_voxel_len. unfold pts_in, pts_at. induction l as [|p l IH]; [reflexivity|].
  cbn [map filter]. fold (qkey c p). destruct (key_eqb (qkey c p) k); cbn [List.length]; rewrite IH; reflexivity.
Qed.

Lemma reps_snd me rnd pc vs : map (fun kv => snd (snd kv)) (reps_of me rnd pc vs) =
  flat_map (fun kvr => match represent me (snd kvr) (points_at pc (snd (fst kvr))) with
                       | Some bp => [snd bp] | None => [] end) (with_draws rnd 0 vs).
Proof.
  unfold reps_of. induction (with_draws rnd 0 vs) as [|x l IH]; [reflexivity|]. cbn [flat_map].
  rewrite map_app, IH. f_equal. destruct (represent _ _ _); reflexivity.
Qed.

Lemma quad_voxels me rnd g c pc ord :
  g_robin g = true -> g_res g = qd_res c -> g_min_dist g == 0 -> (forall l, Permutation (ord l) l) ->
  let vs := filter (fun kv => negb (Nat.eqb (List.length (snd kv)) 0))
              (ord (g_visit (g_process (g_clear g) (map (warp c) pc)))) in
  OnePer (qkey c) pc (Promise me) (map (fun kv => (fst kv, snd (snd kv))) (reps_of me rnd pc vs)).
Proof.
  intros GR0 GS0 D P vs. set (g1 := g_clear g) in *.
  assert (G1 : g_robin g1 = true /\ g_tsl g1 = [] /\ g_res g1 = qd_res c /\ g_min_dist g1 == 0).
  { unfold g1, g_clear. rewrite GR0. cbn. auto. }
  destruct G1 as [GR [GT [GS GD]]]. set (wp := map (warp c) pc) in *.
  destruct (g_processes [wp] g1 GD) as [A [_ [_ [N F]]]]. simpl fold_left in *.
  rewrite GT in N, F. specialize (N (NoDup_nil _)).
  assert (V : g_visit (g_process g1 wp) = g_tsl (g_process g1 wp)).
  { unfold g_visit. rewrite A, GR. reflexivity. }
  set (v := g_tsl (g_process g1 wp)) in *.
  assert (VS : vs = filter (fun kv => negb (Nat.eqb (List.length (snd kv)) 0)) (ord v)) by (unfold vs; rewrite V; reflexivity).
  clearbody vs.
  assert (KV : forall k is, In (k, is) vs <-> is = in_voxel (qd_res c) k wp /\ is <> []).
  { intros k is. rewrite VS. rewrite filter_In. simpl snd.
    assert (X : In (k, is) (ord v) <-> afind v k = Some is).
    { rewrite <- (afind_in v k is N). split; apply Permutation_in; [apply P|symmetry; apply P]. }
    rewrite X, F. rewrite GS. simpl. rewrite app_nil_r. unfold add_ids.
    destruct (in_voxel (qd_res c) k wp) as [|i t] eqn:E.
    - split; [intros [Y _]; discriminate|intros [-> Y]; congruence].
    - split.
      + intros [Y _]. injection Y as <-. split; [reflexivity|discriminate].
      + intros [-> _]. split; reflexivity. }
  assert (NE : forall k is, In (k, is) vs -> points_at pc is <> []).
  { intros k is I0. apply KV in I0. destruct I0 as [-> Y]. unfold wp. rewrite pts_at_warp0.
    intros Z. assert (L := in_voxel_len_warp c pc k). rewrite Z in L. simpl in L.
    unfold wp in Y. destruct (in_voxel (qd_res c) k (map (warp c) pc)); [congruence|discriminate]. }
  destruct (reps_of_spec me rnd pc vs NE) as [K R].
  assert (MK : map fst (map (fun kv : Key * (bool * Pt) => (fst kv, snd (snd kv))) (reps_of me rnd pc vs)) = map fst vs).
  { rewrite map_map. cbn [fst]. exact K. }
  assert (PN : forall k, pts_at (qkey c) k pc <> [] <-> exists p, In p pc /\ qkey c p = k).
  { intro k. unfold pts_at. split.
    - destruct (filter (fun p => key_eqb (qkey c p) k) pc) as [|p t] eqn:E; [congruence|]. intros _.
      assert (X : In p (p :: t)) by (left; reflexivity). rewrite <- E in X. apply filter_In in X as [X1 X2].
      apply key_eqb_eq in X2. eauto.
    - intros [p [X1 X2]] E. assert (X : In p []); [|destruct X]. rewrite <- E. apply filter_In.
      split; [exact X1|apply key_eqb_eq; exact X2]. }
  split; [|split].
  - rewrite MK, VS. clear - N P.
    assert (X : NoDup (map fst (ord v))).
    { eapply Permutation_NoDup; [|exact N]. symmetry. apply Permutation_map, P. }
    induction (ord v) as [|[a w] t IH]; [constructor|]. simpl in *. inversion X as [|? ? X1 X2]; subst.
    destruct (negb _); simpl; [|apply IH; exact X2]. constructor; [|apply IH; exact X2].
    intros Y. apply X1. apply in_map_iff in Y. destruct Y as [z [Z1 Z2]]. apply filter_In in Z2.
    rewrite <- Z1. apply in_map. tauto.
  - intros k. rewrite MK, <- PN. split.
    + intros H. apply in_map_iff in H. destruct H as [[k' is] [E H]]. simpl in E. subst k'.
      rewrite <- pts_at_warp0. assert (H' := H). apply KV in H'. destruct H' as [-> _]. eapply NE. exact H.
    + intros H. apply in_map_iff. exists (k, in_voxel (qd_res c) k wp). split; [reflexivity|]. apply KV.
      split; [reflexivity|]. intros Z. apply H. assert (L := in_voxel_len_warp c pc k). fold wp in L. rewrite Z in L.
      destruct (pts_at (qkey c) k pc); [reflexivity|discriminate].
  - intros k p H. apply in_map_iff in H. destruct H as [[k' [b q]] [E H]]. simpl in E. injection E as -> ->.
    destruct (R _ _ _ H) as [is [I0 [PR _]]]. apply KV in I0. destruct I0 as [-> _].
    unfold wp in PR. rewrite pts_at_warp0 in PR. exact PR.
Qed.

Lemma quad_method_asked c : quad_method c = asked c.
Proof. unfold quad_method, asked. destruct (qd_average c), (qd_closest c); reflexivity. Qed.

Lemma Qabs'_cases x : (0 <= x /\ Qabs' x = x) \/ (x < 0 /\ Qabs' x = - x).
Proof.
  unfold Qabs'. destruct (Qltb_spec x 0) as [[E L]|[E L]]; rewrite E; [right|left]; auto.
Qed.

Lemma sgn_cases x : (0 <= x /\ sgn x = 1) \/ (x < 0 /\ sgn x = - (1)).
Proof. unfold sgn. destruct (Qltb_spec x 0) as [[E L]|[E L]]; rewrite E; [right|left]; auto. Qed.

Lemma mapped_iff c x : 0 < qd_radius c -> Mapped (qd_radius c) x (real2grid c x).
Proof.
  intro R. unfold real2grid, radius_inv.
  assert (I : 1 / qd_radius c * qd_radius c == 1) by (field; lra).
  set (v := 1 / qd_radius c) in *. clearbody v.
  destruct (Qltb_spec (qd_radius c) (Qabs' x)) as [[E L]|[E L]]; rewrite E;
    destruct (Qabs'_cases x) as [[A B]|[A B]]; rewrite B in L.
  - split; [intros _; reflexivity|]. split; intros [X1 X2]; lra.
  - split; [intros _; reflexivity|]. split; intros [X1 X2]; lra.
  - assert (sgn x = 1) as -> by (destruct (sgn_cases x) as [[_ S]|[S _]]; [exact S|lra]).
    split; [intros [X|X]; lra|]. split.
    + intros _. transitivity (x * x * (v * qd_radius c)); [ring|]. rewrite I. ring.
    + intros [X1 X2]. assert (Z : x == 0) by lra. rewrite Z. ring.
  - assert (sgn x = - (1)) as -> by (destruct (sgn_cases x) as [[S _]|[_ S]]; [lra|exact S]).
    split; [intros [X|X]; lra|]. split.
    + intros [X1 X2]. lra.
    + intros _. transitivity (- (x * x) * (v * qd_radius c)); [ring|]. rewrite I. ring.
Qed.

Lemma quad_run_ok c ord rnd g m pts d :
  g_robin g = true -> g_res g = qd_res c -> g_min_dist g == 0 -> (forall l, Permutation (ord l) l) ->
  lfind m (qd_out c) = Some (LPts d) ->
  exists m' kr, quad_run c ord rnd g pts m = (m', Val tt)
    /\ OnePer (qkey c) pts (Promise (asked c)) kr
    /\ Appended m m' (qd_out c) (map bare (map snd kr)).
Proof.
  intros A B C D H. unfold quad_run.
  pose proof (quad_voxels (quad_method c) rnd g c pts ord A B C D) as K. cbv zeta in K.
  set (vs := filter _ _) in *. rewrite <- reps_snd.
  destruct (each_insert bare (qd_out c) (map (fun kv => snd (snd kv)) (reps_of (quad_method c) rnd pts vs)) m d H)
    as [m' [E1 E2]].
  exists m'. eexists. split; [exact E1|]. rewrite <- quad_method_asked. split; [exact K|].
  rewrite (map_map _ snd). cbn [snd]. exact E2.
Qed.
