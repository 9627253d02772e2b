(** C44: adaptive decimation (FilterDecimateAdaptive), and C72, split from it. *)
From Coq Require Import String Permutation.
From Verif Require Import Base FilterModel FilterSpec FilterProofs FilterProofs2 VoxelModel VoxelSpec VoxelProofs VoxelProofs2 VoxelProps DecimateProps.
Open Scope string_scope.
Open Scope Q_scope.
Open Scope list_scope.
Open Scope nat_scope.

Opaque big_prime.

Lemma upd_len {A} (l : list A) i x : List.length (upd l i x) = List.length l.
Proof. revert i. induction l as [|a l IH]; intros [|i]; simpl; try reflexivity. rewrite IH. reflexivity. Qed.
Lemma nth_upd {A} (l : list A) : forall i j x, i < List.length l ->
  nth_error (upd l i x) j = if Nat.eqb i j then Some x else nth_error l j.
Proof.
  induction l as [|a l IH]; intros i j x H; [simpl in H; lia|].
  destruct i as [|i], j as [|j]; simpl; try reflexivity. simpl in H. apply IH. lia.
Qed.
Lemma concat_upd : forall (l : list (list nat)) i x r, nth_error l i = Some (x :: r) ->
  Permutation (concat l) (x :: concat (upd l i r)).
Proof.
  induction l as [|a l IH]; intros [|i] x r H; try discriminate; simpl in *.
  - injection H as ->. reflexivity.
  - rewrite (IH _ _ _ H). apply Permutation_sym, Permutation_middle.
Qed.

(** Safety: what has been output and what remains are together the points of the voxels. *)
Lemma ad_loop_safe : forall fuel n0 desired incr nvox i vox any out r,
  ad_loop fuel n0 desired incr nvox i vox any out = Some (Ok r) ->
  (exists left, Permutation (out ++ concat vox) (r ++ left)) /\
  (exists t, r = out ++ t) /\
  (n0 + List.length out <= Nat.max n0 desired -> n0 + List.length r <= Nat.max n0 desired).
Proof.
  induction fuel as [|fuel IH]; intros n0 desired incr nvox i vox any out r H; simpl in H.
  - destruct (n0 + List.length out <? desired); [discriminate|]. injection H as <-.
    split; [exists (concat vox); reflexivity|]. split; [exists []; rewrite app_nil_r; reflexivity|auto].
  - destruct (n0 + List.length out <? desired) eqn:LT.
    2:{ injection H as <-. split; [exists (concat vox); reflexivity|].
        split; [exists []; rewrite app_nil_r; reflexivity|auto]. }
    apply Nat.ltb_lt in LT.
    destruct (nth_error vox i) as [[|x rest]|] eqn:E; [| |discriminate].
    + destruct (nvox <=? i + incr); [|eapply IH; exact H].
      destruct any; [eapply IH; exact H|]. injection H as <-.
      split; [exists (concat vox); reflexivity|]. split; [exists []; rewrite app_nil_r; reflexivity|auto].
    + assert (G : forall i', ad_loop fuel n0 desired incr nvox i' (upd vox i rest) false (out ++ [x]) = Some (Ok r) \/
                    ad_loop fuel n0 desired incr nvox i' (upd vox i rest) true (out ++ [x]) = Some (Ok r) ->
       (exists left, Permutation (out ++ concat vox) (r ++ left)) /\
       (exists t, r = out ++ t) /\
       (n0 + List.length out <= Nat.max n0 desired -> n0 + List.length r <= Nat.max n0 desired)).
      { intros i' [K|K]; apply IH in K; destruct K as [[l L] [[t T] B]];
        (split; [|split]);
        [exists l; rewrite <- L, <- app_assoc; apply Permutation_app_head; apply concat_upd; exact E
        |exists ([x] ++ t); rewrite T, <- app_assoc; reflexivity
        |intros _; apply B; rewrite app_length; simpl; lia
        |exists l; rewrite <- L, <- app_assoc; apply Permutation_app_head; apply concat_upd; exact E
        |exists ([x] ++ t); rewrite T, <- app_assoc; reflexivity
        |intros _; apply B; rewrite app_length; simpl; lia]. }
      destruct (nvox <=? i + incr); [eapply G; left; exact H|eapply G; right; exact H].
Qed.

(** Liveness: the loop ends. *)
Lemma ad_loop_ends : forall fuel n0 desired incr nvox i vox any out,
  List.length vox = nvox -> i < nvox -> 1 <= incr ->
  (nvox - i) + nvox * (List.length (concat vox) + (if any : bool then 1 else 0)) <= fuel ->
  exists r, ad_loop fuel n0 desired incr nvox i vox any out = Some (Ok r).
Proof.
  induction fuel as [|fuel IH]; intros n0 desired incr nvox i vox any out L I C F; [lia|].
  simpl. destruct (n0 + List.length out <? desired); [|eexists; reflexivity].
  destruct (nth_error vox i) as [cur|] eqn:E.
  2:{ apply nth_error_None in E. lia. }
  assert (MOD : forall k, Nat.modulo k nvox < nvox) by (intros k; apply Nat.mod_upper_bound; lia).
  destruct cur as [|x rest].
  - destruct (nvox <=? i + incr) eqn:R.
    + destruct any; [|eexists; reflexivity]. apply IH; [exact L|apply MOD|exact C|]. 
      assert (M := MOD (i + incr + big_prime)). set (z := Nat.modulo _ nvox) in *. nia.
    + apply Nat.leb_gt in R. apply IH; [exact L|lia|exact C|]. lia.
  - assert (LC : List.length (concat vox) = S (List.length (concat (upd vox i rest)))).
    { rewrite (Permutation_length (concat_upd vox i x rest E)). reflexivity. }
    destruct (nvox <=? i + incr) eqn:R.
    + apply IH; [rewrite upd_len; exact L|apply MOD|exact C|].
      assert (M := MOD (i + incr + big_prime)). set (z := Nat.modulo _ nvox) in *.
      rewrite LC in F. destruct any; nia.
    + apply Nat.leb_gt in R. apply IH; [rewrite upd_len; exact L|lia|exact C|].
      rewrite LC in F. destruct any; nia.
Qed.

(** Progress: the first round takes one point of each voxel it visits. *)
Lemma ad_loop_first_round : forall fuel n0 desired incr nvox i vox any out r,
  List.length vox = nvox -> 1 <= incr ->
  (forall j cur, i <= j -> nth_error vox j = Some cur -> cur <> []) ->
  ad_loop fuel n0 desired incr nvox i vox any out = Some (Ok r) ->
  desired <= n0 + List.length r \/ nvox <= i + incr * (List.length r - List.length out).
Proof.
  induction fuel as [|fuel IH]; intros n0 desired incr nvox i vox any out r L C N H; simpl in H.
  - destruct (n0 + List.length out <? desired) eqn:E; [discriminate|]. injection H as <-.
    apply Nat.ltb_ge in E. left; exact E.
  - destruct (n0 + List.length out <? desired) eqn:LT.
    2:{ injection H as <-. apply Nat.ltb_ge in LT. left; exact LT. }
    destruct (nth_error vox i) as [[|x rest]|] eqn:E; [|  |discriminate].
    + exfalso. apply (N i [] (le_n _) E). reflexivity.
    + destruct (nvox <=? i + incr) eqn:R.
      * apply Nat.leb_le in R. right. apply ad_loop_safe in H. destruct H as [_ [[t ->] _]].
        rewrite !app_length. simpl. nia.
      * apply Nat.leb_gt in R. assert (H' := H). apply ad_loop_safe in H'. destruct H' as [_ [[t T] _]].
        apply IH in H.
        -- destruct H as [H|H]; [left; exact H|right]. rewrite T in *. rewrite !app_length in *. simpl in *. nia.
        -- rewrite upd_len. exact L.
        -- exact C.
        -- intros j cur J K. rewrite nth_upd in K by (rewrite L; lia).
           destruct (Nat.eqb i j) eqn:Q; [apply Nat.eqb_eq in Q; lia|]. apply (N j cur); [lia|exact K].
Qed.

(** ** The voxels of the input *)

(** Indices of the input points that lie in a voxel with at least [mn] points. *)
Definition eligible (res : Q) (mn : nat) (l : list Pt) (i : nat) : Prop :=
  exists p, nth_error l i = Some p /\ mn <= List.length (pts_in res (key_of res p) l).

(** [ks]: the voxels with at least one and at least [mn] points, each once. *)
Definition DenseVoxels (res : Q) (mn : nat) (l : list Pt) (ks : list Key) : Prop :=
  NoDup ks /\ forall k, In k ks <-> pts_in res k l <> [] /\ mn <= List.length (pts_in res k l).

Lemma in_voxel_nodup res k l : NoDup (in_voxel res k l).
Proof.
  unfold in_voxel, numbered.
  assert (G : forall (l : list Pt) o, NoDup (map fst (filter (fun ip : nat * Pt => key_eqb (key_of res (snd ip)) k) (combine (seq o (List.length l)) l)))
      /\ forall i, In i (map fst (filter (fun ip : nat * Pt => key_eqb (key_of res (snd ip)) k) (combine (seq o (List.length l)) l))) -> o <= i).
  { clear. induction l as [|p l IH]; intros o.
    - simpl. split; [constructor|intros i []].
    - simpl. destruct (IH (S o)) as [A B].
      destruct (key_eqb (key_of res p) k); simpl.
      + split; [constructor; [intros X; apply B in X; lia|exact A]|]. intros i [<-|X]; [lia|apply B in X; lia].
      + split; [exact A|]. intros i X. apply B in X. lia. }
  apply G.
Qed.

Lemma voxels_of g res mn l ord : g_min_dist g == 0 -> (forall v, Permutation (ord v) v) ->
  let vs := filter (fun kv : Key * list nat => mn <=? List.length (snd kv))
     (ord (g_visit (g_process (g_configure (g_clear g) res true) l))) in
  DenseVoxels res mn l (map fst vs) /\
  NoDup (concat (map snd vs)) /\
  (forall i, In i (concat (map snd vs)) <-> eligible res mn l i) /\
  (forall is, In is (map snd vs) -> is <> []).
Proof.
  intros D P vs.
  assert (D' : g_min_dist (g_clear g) == 0) by (unfold g_clear; destruct (g_robin g); exact D).
  destruct (C42_full_grid (g_clear g) res [l] D') as [N V]. simpl in N, V.
  set (v := g_visit (g_process (g_configure (g_clear g) res true) l)) in *.
  assert (IN : forall k is, In (k, is) vs <-> is <> [] /\ is = in_voxel res k l /\ mn <= List.length is).
  { intros k is. unfold vs. rewrite filter_In. simpl. rewrite Nat.leb_le.
    assert (X : In (k, is) (ord v) <-> In (k, is) v) by (split; apply Permutation_in; [apply P|symmetry; apply P]).
    rewrite X, V, app_nil_r. tauto. }
  assert (NK : NoDup (map fst vs)).
  { unfold vs. assert (X : NoDup (map fst (ord v))).
    { eapply Permutation_NoDup; [|exact N]. symmetry. apply Permutation_map, P. }
    clear - X. induction (ord v) as [|a t IH]; [constructor|]. simpl in *. inversion X as [|? ? X1 X2]; subst.
    destruct (mn <=? _); simpl; [|apply IH; exact X2]. constructor; [|apply IH; exact X2].
    intros Y. apply X1. apply in_map_iff in Y. destruct Y as [z [Z1 Z2]]. apply filter_In in Z2.
    rewrite <- Z1. apply in_map. tauto. }
  split; [|split; [|split]].
  - split; [exact NK|]. intros k. split.
    + intros H. apply in_map_iff in H. destruct H as [[k' is] [E H]]. simpl in E. subst k'.
      apply IN in H. destruct H as [A [-> B]]. rewrite in_voxel_len in B. split; [|exact B].
      intros X. assert (Y := in_voxel_len l res k). rewrite X in Y. destruct (in_voxel res k l); [congruence|discriminate].
    + intros [A B]. apply in_map_iff. exists (k, in_voxel res k l). split; [reflexivity|]. apply IN.
      rewrite in_voxel_len. split; [|split; [reflexivity|exact B]].
      intros X. assert (Y := in_voxel_len l res k). rewrite X in Y. destruct (pts_in res k l); [congruence|discriminate].
  - assert (S : forall w, incl w vs -> NoDup (map fst w) -> NoDup (concat (map snd w))).
    { induction w as [|[k is] t IH]; intros I0 NW; [constructor|]. simpl in *. inversion NW as [|? ? N1 N2]; subst.
      assert (K : is = in_voxel res k l) by (apply (IN k is), I0; left; reflexivity).
      assert (T : NoDup (concat (map snd t))) by (apply IH; [intros x X; apply I0; right; exact X|exact N2]).
      assert (NA : NoDup is) by (rewrite K; apply in_voxel_nodup).
      assert (DJ : forall j, In j is -> ~ In j (concat (map snd t))).
      { intros j J Q. apply in_concat in Q. destruct Q as [is' [Q1 Q2]]. apply in_map_iff in Q1.
        destruct Q1 as [[k' is''] [Q3 Q4]]. simpl in Q3. subst is''.
        assert (K' : is' = in_voxel res k' l) by (apply (IN k' is'), I0; right; exact Q4).
        rewrite K in J. rewrite K' in Q2. apply in_voxel_iff in J. apply in_voxel_iff in Q2.
        destruct J as [p [J1 J2]]. destruct Q2 as [q [Q5 Q6]].
        apply N1. apply in_map_iff. exists (k', is'). split; [simpl; congruence|exact Q4]. }
      clear - NA T DJ. induction is as [|a is IHis]; [exact T|]. simpl. inversion NA as [|? ? A1 A2]; subst.
      constructor.
      + intros X. apply in_app_or in X. destruct X as [X|X]; [contradiction|]. apply (DJ a); [left; reflexivity|exact X].
      + apply IHis; [exact A2|]. intros j J. apply DJ. right. exact J. }
    apply S; [intros x X; exact X|exact NK].
  - intros i. rewrite in_concat. split.
    + intros [is [A B]]. apply in_map_iff in A. destruct A as [[k is'] [E A]]. simpl in E. subst is'.
      apply IN in A. destruct A as [_ [-> C]]. rewrite in_voxel_len in C. apply in_voxel_iff in B.
      destruct B as [p [B1 B2]]. exists p. split; [exact B1|]. rewrite B2. exact C.
    + intros [p [A B]]. exists (in_voxel res (key_of res p) l).
      assert (X : In i (in_voxel res (key_of res p) l)) by (apply in_voxel_iff; exists p; split; [exact A|reflexivity]).
      split; [|exact X]. apply in_map_iff. exists (key_of res p, in_voxel res (key_of res p) l). split; [reflexivity|].
      apply IN. split; [intros Y; rewrite Y in X; exact X|]. split; [reflexivity|]. rewrite in_voxel_len. exact B.
  - intros is H. apply in_map_iff in H. destruct H as [[k is'] [E H]]. simpl in E. subst is'. apply IN in H. tauto.
Qed.

(** ** C44 *)

(** FilterDecimateAdaptive, for any voxel size, visiting order and rounding: if some voxel
    has enough points, the call ends (with enough steps); the output layer grows by
    distinct points of the input, all from voxels with enough points, never past the
    target (nor past its previous size if that was larger), and
    - the target is reached, or there is at least one point per voxel [incr] apart, where
      the increment is 1 whenever the target is not below the number of voxels. *)
Theorem C44_distinct_bounded : forall c res rnd_div ordm g0 m src ks,
  ad_enabled c = true -> g_min_dist g0 == 0 -> (forall v, Permutation (ordm v) v) ->
  lfind m (ad_in c) = Some (LPts src) -> ad_out c <> "" -> usable m (ad_out c) -> ad_in c <> ad_out c ->
  DenseVoxels res (ad_min_per_voxel c) (cl_pts src) ks -> ks <> [] ->
  let had := List.length (pts_of m (ad_out c)) in
  exists fuel0 m' idxs, forall fuel, fuel0 <= fuel ->
    filter_adaptive fuel c res rnd_div ordm g0 m = (m', Val tt) /\
    Grew m m' (ad_out c) SimplePoints (points_at (cl_pts src) idxs) /\
    NoDup idxs /\ (forall i, In i idxs -> eligible res (ad_min_per_voxel c) (cl_pts src) i) /\
    had + List.length idxs <= Nat.max had (ad_desired c) /\
    (ad_desired c <= had + List.length idxs \/
     List.length ks <= increment (ad_desired c) (List.length ks) rnd_div * List.length idxs) /\
    (List.length ks <= ad_desired c ->
     Nat.min (ad_desired c - had) (List.length ks) <= List.length idxs).
Proof.
  intros c res rnd_div ordm g0 m src ks EN MD P F NE U NI [DN DK] KS had.
  set (m1 := created m [ad_out c] SimplePoints).
  assert (F1 : lfind m1 (ad_in c) = Some (LPts src)).
  { unfold m1. rewrite (created_find [ad_out c] m SimplePoints (ad_in c)), F. reflexivity. }
  assert (OUT1 : exists d, lfind m1 (ad_out c) = Some (LPts d) /\ List.length (cl_pts d) = had).
  { unfold m1. rewrite (created_find [ad_out c] m SimplePoints (ad_out c)). unfold had, pts_of.
    destruct U as [U|[U|[d U]]]; [contradiction| |].
    - rewrite U. simpl. rewrite seqb_refl, (seqb_neq _ _ NE). simpl. eexists; split; reflexivity.
    - rewrite U. exists d. split; reflexivity. }
  destruct OUT1 as [d [OUT1 HAD]].
  destruct (voxels_of g0 res (ad_min_per_voxel c) (cl_pts src) ordm MD P) as [[VN VK] [NC [EL NEs]]].
  set (vs := filter (fun kv : Key * list nat => ad_min_per_voxel c <=? List.length (snd kv))
     (ordm (g_visit (g_process (g_configure (g_clear g0) res true) (cl_pts src))))) in *.
  assert (LEN : List.length ks = List.length (map snd vs)).
  { rewrite map_length, <- (map_length fst vs). apply Permutation_length. apply NoDup_Permutation; [exact DN|exact VN|].
    intros k. rewrite DK, VK. reflexivity. }
  set (vox := map snd vs) in *.
  set (incr := increment (ad_desired c) (List.length vox) rnd_div).
  assert (INCR : 1 <= incr).
  { unfold incr, increment. destruct (ad_desired c <? List.length vox); lia. }
  assert (NV : 0 < List.length vox).
  { rewrite <- LEN. destruct ks; [congruence|simpl; lia]. }
  set (fuel0 := List.length vox + List.length vox * (List.length (concat vox) + 0)).
  assert (RUN0 : forall fuel, fuel0 <= fuel -> exists r, ad_loop fuel had (ad_desired c) incr (List.length vox) 0 vox false [] = Some (Ok r)).
  { intros fuel FF. apply ad_loop_ends; [reflexivity|exact NV|exact INCR|]. unfold fuel0 in FF. lia. }
  assert (MONO : forall f1 f2 n0 desired inc nvox i vx any out r, f1 <= f2 ->
     ad_loop f1 n0 desired inc nvox i vx any out = Some r -> ad_loop f2 n0 desired inc nvox i vx any out = Some r).
  { clear. induction f1 as [|f1 IH]; intros f2 n0 desired inc nvox i vx any out r L H.
    - destruct f2; simpl in *; destruct (n0 + List.length out <? desired); try discriminate; exact H.
    - destruct f2 as [|f2]; [lia|]. simpl in *. destruct (n0 + List.length out <? desired); [|exact H].
      destruct (nth_error vx i) as [[|x rest]|]; [| |exact H].
      + destruct (nvox <=? i + inc); [destruct any; [|exact H]|]; (apply IH; [lia|exact H]).
      + destruct (nvox <=? i + inc); (apply IH; [lia|exact H]). }
  destruct (RUN0 fuel0 (le_n _)) as [idxs RUN].
  destruct (each_insert (fun p : Pt => p) (ad_out c) (points_at (cl_pts src) idxs) m1 d OUT1) as [m' [R' A']].
  rewrite map_id in A'.
  destruct (ad_loop_safe _ _ _ _ _ _ _ _ _ _ RUN) as [[lft PERM] [_ BND]].
  exists fuel0, m', idxs. intros fuel FF. split; [|split; [|split; [|split; [|split; [|split]]]]].
  - unfold filter_adaptive. rewrite EN. cbn [negb].
    erewrite bnd_val by (apply input_ok; exact F).
    erewrite bnd_val with (m' := m1) (a := negb (String.eqb (ad_out c) "")) by (apply goc_usable; exact U).
    rewrite (seqb_neq _ _ NE). unfold read_src. rewrite F1, OUT1, HAD.
    fold vs. fold vox. fold incr. rewrite (MONO fuel0 fuel _ _ _ _ _ _ _ _ _ FF RUN). exact R'.
  - eapply appended_grew; [exact NE|exact U|reflexivity|exact A'].
  - simpl in PERM. apply (Permutation_NoDup PERM) in NC. clear - NC. induction idxs as [|a l IH]; [constructor|].
    simpl in NC. inversion NC as [|? ? A B]; subst. constructor; [intros X; apply A; apply in_or_app; left; exact X|apply IH; exact B].
  - intros i H. apply EL. apply (Permutation_in (l := idxs ++ lft)); [symmetry; exact PERM|]. apply in_or_app. left. exact H.
  - apply BND. simpl. lia.
  - destruct (ad_loop_first_round _ _ _ _ _ _ _ _ _ _ eq_refl INCR (fun j cur _ E => NEs cur (nth_error_In _ _ E)) RUN) as [X|X].
    + left. exact X.
    + right. rewrite LEN. fold incr. simpl in X. rewrite Nat.sub_0_r in X. exact X.
  - intros KD. assert (INC1 : incr = 1).
    { unfold incr, increment. rewrite <- LEN. apply Nat.ltb_ge in KD. rewrite KD. reflexivity. }
    destruct (ad_loop_first_round _ _ _ _ _ _ _ _ _ _ eq_refl INCR (fun j cur _ E => NEs cur (nth_error_In _ _ E)) RUN) as [X|X].
    + lia.
    + rewrite INC1 in X. rewrite LEN. simpl in X. lia.
Qed.

(** A disabled filter changes nothing. *)
Theorem C44_disabled : forall fuel c res rnd_div ordm g0 m,
  ad_enabled c = false -> filter_adaptive fuel c res rnd_div ordm g0 m = (m, Val tt).
Proof. intros fuel c res rnd_div ordm g0 m E. unfold filter_adaptive. rewrite E. reflexivity. Qed.
Transparent big_prime.

Definition row (x : Q) (n : nat) : list Pt := map (fun k => v3 x 0 0 (inject_Z (Z.of_nat k))) (seq 0 n).
Definition ad_map : Layers := [("raw", LPts (mkCloud XYZI (row 0 10 ++ row 5 10)))].
Definition ad_cfg (desired mn : nat) : AdCfg := mkAd true "raw" "out" desired mn.
Definition counted (r : Layers * outc unit) : option nat * outc unit :=
  (match lfind (fst r) "out" with Some (LPts c) => Some (List.length (cl_pts c)) | _ => None end, snd r).

Lemma ad_map_voxels : DenseVoxels 1 1 (row 0 10 ++ row 5 10) [(0, 0, 0)%Z; (5, 0, 0)%Z].
Proof.
  split.
  - repeat constructor; simpl; intuition congruence.
  - intros k. split.
    + intros [<-|[<-|[]]]; (split; [vm_compute; discriminate|vm_compute; lia]).
    + intros [H _]. apply pts_in_nonempty in H. destruct H as [p [I0 <-]].
      apply in_app_or in I0. destruct I0 as [I0|I0]; unfold row in I0; apply in_map_iff in I0; destruct I0 as [j [<- _]].
      * left. reflexivity.
      * right. left. reflexivity.
Qed.

Example C44_example :
  counted (filter_adaptive 50 (ad_cfg 7 1) 1 Nat.div (fun v => v) mg0 ad_map) = (Some 7, Val tt).
Proof. vm_compute. reflexivity. Qed.

(** ** C72: the target is reached when there are enough points *)

(** Finding: after the first round, rounds start at voxel 123653 mod (number of voxels), so
    the voxels before it are never visited again.  With 20 points in two dense voxels and a
    target of 20, the filter outputs 11 and stops (whatever the fuel). *)
Theorem C72_target_not_reached_refuted :
  DenseVoxels 1 1 (row 0 10 ++ row 5 10) [(0, 0, 0)%Z; (5, 0, 0)%Z] /\
  (forall i, i < 20 -> eligible 1 1 (row 0 10 ++ row 5 10) i) /\
  counted (filter_adaptive 100 (ad_cfg 20 1) 1 Nat.div (fun v => v) mg0 ad_map) = (Some 11, Val tt).
Proof.
  split; [exact ad_map_voxels|]. split.
  - intros i H. unfold eligible.
    do 20 (destruct i as [|i]; [eexists; split; [reflexivity|vm_compute; lia]|]). lia.
  - vm_compute. reflexivity.
Qed.

Lemma prime_mod_2 : Nat.modulo (2 + big_prime) 2 = 1.
Proof. vm_compute. reflexivity. Qed.
Opaque big_prime.

(** Exactly how far it goes with two dense voxels of [S a] and [S b] points: one point of the
    first, all of the second. *)
Theorem C72_two_voxels_refuted : forall fuel n0 desired x1 v1 x2 v2 r,
  n0 + 2 + List.length v1 + List.length v2 <= desired -> 2 <= desired ->
  ad_loop fuel n0 desired 1 2 0 [x1 :: v1; x2 :: v2] false [] = Some (Ok r) ->
  r = x1 :: x2 :: v2.
Proof.
  intros fuel n0 desired x1 v1 x2 v2 r LE D H.

  assert (ROUND : forall v fuel any out,
     n0 + List.length out + List.length v < desired ->
     ad_loop fuel n0 desired 1 2 1 [v1; v] any out = Some (Ok r) -> r = out ++ v).
  { clear H fuel. induction v as [|x v IH]; intros fuel any out B H; (destruct fuel as [|fuel]; [simpl in H; destruct (_ <? _) eqn:E; [discriminate|apply Nat.ltb_ge in E; lia]|]).
    - rewrite app_nil_r. cbn [ad_loop nth_error] in H.
      destruct (n0 + List.length out <? desired) eqn:E; [|apply Nat.ltb_ge in E; simpl in B; lia].
      change (2 <=? 1 + 1) with true in H. cbv iota in H. destruct any; [|injection H as <-; reflexivity].
      change (1 + 1 + big_prime) with (2 + big_prime) in H. rewrite prime_mod_2 in H.
      destruct fuel as [|fuel]; cbn [ad_loop nth_error] in H; rewrite E in H; [discriminate|].
      change (2 <=? 1 + 1) with true in H. cbv iota in H. injection H as <-. reflexivity.
    - cbn [ad_loop nth_error] in H.
      destruct (n0 + List.length out <? desired) eqn:E; [|apply Nat.ltb_ge in E; lia].
      change (2 <=? 1 + 1) with true in H. cbv iota in H. cbn [upd] in H.
      change (1 + 1 + big_prime) with (2 + big_prime) in H. rewrite prime_mod_2 in H.
      apply IH in H; [|rewrite app_length; simpl in *; lia]. rewrite H, <- app_assoc. reflexivity. }
  destruct fuel as [|fuel].
  { simpl in H. destruct (n0 + 0 <? desired) eqn:E; [discriminate|apply Nat.ltb_ge in E; lia]. }
  cbn [ad_loop nth_error] in H. simpl List.length in H.
  destruct (n0 + 0 <? desired) eqn:E; [|apply Nat.ltb_ge in E; lia].
  change (2 <=? 0 + 1) with false in H. cbv iota in H. cbn [upd app] in H. simpl (0 + 1) in H.
  destruct fuel as [|fuel].
  { simpl in H. destruct (n0 + 1 <? desired) eqn:E1; [discriminate|apply Nat.ltb_ge in E1; lia]. }
  cbn [ad_loop nth_error] in H. simpl List.length in H.
  destruct (n0 + 1 <? desired) eqn:E1; [|apply Nat.ltb_ge in E1; lia].
  change (2 <=? 1 + 1) with true in H. cbv iota in H. cbn [upd app] in H.
  change (1 + 1 + big_prime) with (2 + big_prime) in H. rewrite prime_mod_2 in H.
  destruct v1 as [|y v1'].
  - destruct (Nat.eq_dec (n0 + 2 + List.length v2) desired) as [EQ|NE].
    + (* the target is met exactly: every point of the second voxel is taken *)
      assert (ALL : forall v fuel out, n0 + List.length out + List.length v = desired ->
         ad_loop fuel n0 desired 1 2 1 [[]; v] false out = Some (Ok r) -> r = out ++ v).
      { clear. induction v as [|x v IH]; intros fuel out B H.
        - destruct fuel; cbn [ad_loop] in H; (destruct (_ <? _) eqn:E; [apply Nat.ltb_lt in E; simpl in B; lia|]);
            injection H as <-; rewrite app_nil_r; reflexivity.
        - destruct fuel; cbn [ad_loop nth_error] in H; (destruct (_ <? _) eqn:E; [|apply Nat.ltb_ge in E; simpl in B; lia]); [discriminate|].
          change (2 <=? 1 + 1) with true in H. cbv iota in H. cbn [upd] in H.
          change (1 + 1 + big_prime) with (2 + big_prime) in H. rewrite prime_mod_2 in H.
          apply IH in H; [|rewrite app_length; simpl in *; lia]. rewrite H, <- app_assoc. reflexivity. }
      apply ALL in H; [exact H|simpl; lia].
    + apply ROUND in H; [exact H|simpl in *; lia].
  - apply ROUND in H; [exact H|simpl in *; lia].
Qed.

(** ** C73: an input without any dense voxel *)

(** Finding: if no voxel has the minimum number of points (in particular, an empty input)
    and the output is below the target, the code reads element 0 of an empty list. *)
Theorem C73_no_dense_voxel_undefined_refuted : forall fuel c res rnd_div ordm g0 m src,
  ad_enabled c = true -> g_min_dist g0 == 0 -> (forall v, Permutation (ordm v) v) ->
  lfind m (ad_in c) = Some (LPts src) -> ad_out c <> "" -> usable m (ad_out c) -> ad_in c <> ad_out c ->
  DenseVoxels res (ad_min_per_voxel c) (cl_pts src) [] ->
  List.length (pts_of m (ad_out c)) < ad_desired c ->
  snd (filter_adaptive (S fuel) c res rnd_div ordm g0 m) = Undef.
Proof.
  intros fuel c res rnd_div ordm g0 m src EN MD P F NE U NI [_ DK] LT.
  set (m1 := created m [ad_out c] SimplePoints).
  assert (F1 : lfind m1 (ad_in c) = Some (LPts src)).
  { unfold m1. rewrite (created_find [ad_out c] m SimplePoints (ad_in c)), F. reflexivity. }
  assert (OUT1 : exists d, lfind m1 (ad_out c) = Some (LPts d) /\ List.length (cl_pts d) = List.length (pts_of m (ad_out c))).
  { unfold m1. rewrite (created_find [ad_out c] m SimplePoints (ad_out c)). unfold pts_of.
    destruct U as [U|[U|[d U]]]; [contradiction| |].
    - rewrite U. simpl. rewrite seqb_refl, (seqb_neq _ _ NE). simpl. eexists; split; reflexivity.
    - rewrite U. exists d. split; reflexivity. }
  destruct OUT1 as [d [OUT1 HAD]].
  destruct (voxels_of g0 res (ad_min_per_voxel c) (cl_pts src) ordm MD P) as [[_ VK] _].
  unfold filter_adaptive. rewrite EN. cbn [negb].
  erewrite bnd_val by (apply input_ok; exact F).
  erewrite bnd_val with (m' := m1) (a := negb (String.eqb (ad_out c) "")) by (apply goc_usable; exact U).
  rewrite (seqb_neq _ _ NE). unfold read_src. rewrite F1, OUT1, HAD.
  match type of VK with forall k, In k (map fst ?w) <-> _ => set (vs := w) in * end.
  assert (E : vs = []).
  { destruct vs as [|[k is] t] eqn:E; [reflexivity|]. exfalso. apply (proj2 (DK k)). apply VK. left. reflexivity. }
  rewrite E. simpl map. simpl List.length. cbn [ad_loop nth_error]. rewrite Nat.add_0_r.
  apply Nat.ltb_lt in LT. rewrite LT. reflexivity.
Qed.

Example C73_example :
  snd (filter_adaptive 9 (ad_cfg 5 2) 1 Nat.div (fun v => v) mg0 [("raw", LPts (mkCloud XYZI []))]) = Undef.
Proof. reflexivity. Qed.
