(** Proofs about FilterEdgesPlanes. *)
From Coq Require Import String Permutation Lqa Lia.
From Verif Require Import Base FilterModel FilterSpec FilterProofs VoxelModel VoxelSpec VoxelProofs VoxelProofs2
  EdgesModel EdgesSpec.
Open Scope string_scope.
Open Scope Q_scope.
Open Scope list_scope.

Lemma nth_nil {A} j : @nth_error A [] j = None.
Proof. destruct j; reflexivity. Qed.

Lemma step_loop_ok step : (1 <= step)%nat -> forall fuel i l, (List.length l <= i + fuel)%nat ->
  exists out, step_loop fuel step i l = Some out /\ forall j, nth_error out j = nth_error l (i + j * step)%nat.
Proof.
  intro S1. induction fuel as [|fuel IH]; intros i l H.
  - exists []. assert (nth_error l i = None) as N by (apply nth_error_None; lia). cbn. rewrite N. split; [reflexivity|].
    intro j. rewrite nth_nil. symmetry. apply nth_error_None. lia.
  - cbn. destruct (nth_error l i) as [p|] eqn:N.
    + destruct (IH (i + step)%nat l ltac:(lia)) as (out & A & B). exists (p :: out). rewrite A. split; [reflexivity|].
      intros [|j]; cbn [nth_error]; [rewrite Nat.mul_0_l, Nat.add_0_r; symmetry; exact N|].
      rewrite B. f_equal. lia.
    + exists []. split; [reflexivity|]. intro j. rewrite nth_nil. symmetry. apply nth_error_None.
      apply nth_error_None in N. lia.
Qed.

Lemma every_nth fuel step l : (1 <= step)%nat -> (List.length l <= fuel)%nat ->
  exists out, step_loop fuel step 0 l = Some out /\ EveryNth step l (map bare_pt out).
Proof.
  intros A B. destruct (step_loop_ok step A fuel 0 l ltac:(lia)) as (out & C & D). exists out. split; [exact C|].
  intro j. rewrite nth_error_map, D. reflexivity.
Qed.

Lemma total_sum f l : total f l == sum_by f l.
Proof. unfold total, sum_by. rewrite fold_sum_plus. ring. Qed.

Lemma mean_len (l : list Pt) : (5 <= List.length l)%nat -> l <> [].
Proof. destruct l; cbn; [lia|discriminate]. Qed.

Lemma cov_ok l mean : l <> [] -> IsCov l mean (cov_of mean l).
Proof.
  intro H. destruct mean as [[mx my] mz]. unfold IsCov, cov_of. cbn [cxx cyx czx cyy czy czz].
  assert (N : ~ inject_Z (Z.of_nat (List.length l)) == 0).
  { destruct l; [congruence|]. cbn [List.length]. unfold Qeq. cbn. lia. }
  set (n := inject_Z _) in *. clearbody n.
  assert (K : forall f, n * (sum_by f l * (1 / n)) == total f l).
  { intro f. rewrite total_sum. field. exact N. }
  repeat split; apply K.
Qed.

Definition info (eig : Eig) (k : Key) (l : list Pt) : Vox :=
  let r := eig (cov_of (mean_pt l) l) in mkVox k l (mean_pt l) (fst r) (snd r).

Lemma info_analysed eig k l : l <> [] -> Analysed eig (info eig k l).
Proof.
  intro H. unfold Analysed, info. cbn [vo_mean vo_pts vo_vals vo_ev]. split.
  - unfold mean_pt. apply mean_is_mean. exact H.
  - exists (cov_of (mean_pt l) l). split; [apply cov_ok; exact H|]. destruct (eig _); reflexivity.
Qed.

Lemma edge_iff c v : is_edge c (vo_vals v) = true <-> EdgeLike c v.
Proof.
  unfold is_edge, EdgeLike. destruct (vo_vals v) as [[e0 e1] e2]. rewrite andb_true_iff.
  destruct (Qltb_spec e2 (eg_max20 c * e0)) as [[A B]|[A B]], (Qltb_spec e1 (eg_max10 c * e0)) as [[A' B']|[A' B']];
    rewrite A, A'; intuition (try discriminate; try lra).
Qed.
Lemma plane_iff c v : is_edge c (vo_vals v) = false -> (is_plane c (vo_vals v) = true <-> PlaneLike c v).
Proof.
  intro E. assert (N : ~ EdgeLike c v) by (rewrite <- edge_iff, E; discriminate).
  unfold PlaneLike, is_plane. destruct (vo_vals v) as [[e0 e1] e2]. rewrite !andb_true_iff.
  destruct (Qltb_spec (eg_min20 c * e0) e2) as [[A B]|[A B]], (Qltb_spec (eg_min10 c * e0) e1) as [[A' B']|[A' B']],
    (Qltb_spec (eg_min1 c) e1) as [[A2 B2]|[A2 B2]];
    rewrite A, A', A2; intuition (try discriminate; try lra).
Qed.
Lemma steep_iff v : not_horizontal (vo_ev v) = true <-> Steep v.
Proof.
  unfold not_horizontal, Steep. destruct (vo_ev v) as [[x y] z]. unfold Qabs'.
  destruct (Qltb_spec z 0) as [[A B]|[A B]]; rewrite A.
  - destruct (Qltb_spec (- z) (9 # 10)) as [[C D]|[C D]]; rewrite C; intuition (try discriminate; try lra).
  - destruct (Qltb_spec z (9 # 10)) as [[C D]|[C D]]; rewrite C; intuition (try discriminate; try lra).
Qed.
Lemma near_iff v : away_from_origin (vo_mean v) = false <-> NearOrigin v.
Proof.
  unfold away_from_origin, NearOrigin, vdot. destruct (vo_mean v) as [[x y] z].
  destruct (Qltb_spec (1 # 1000000) (x * x + y * y + z * z)) as [[A B]|[A B]]; rewrite A; intuition (try discriminate; try lra).
Qed.

Lemma patch_good v : GoodPatch v (patch_of (vo_mean v) (vo_ev v)).
Proof.
  unfold GoodPatch, patch_of. destruct v as [k l [[x y] z] vals [[a b] c]]. cbn [vo_mean vo_ev].
  unfold vdot, vneg. split; [reflexivity|].
  destruct (Qltb_spec 0 (x * a + y * b + z * c)) as [[A B]|[A B]]; rewrite A; cbn [pp_normal pp_d].
  - split; [right; reflexivity|]. split; [ring|]. lra.
  - split; [left; reflexivity|]. split; [ring|]. lra.
Qed.

(** Adding the contribution of a voxel. *)
Definition add_piece (s : EPState) (w : Piece) : EPState :=
  mkEP (ep_edges s ++ pi_edges w) (ep_planes s ++ pi_planes w) (ep_full s ++ pi_full w)
       (ep_cent s ++ pi_cent w) (ep_patches s ++ pi_patches w).

Lemma full_part fuel c l : (List.length l <= fuel)%nat -> eg_full c <> O ->
  exists f, step_loop fuel (eg_full c) 0 l = Some f /\ EveryNth (eg_full c) l (map bare_pt f).
Proof. intros A B. apply every_nth; [lia|exact A]. Qed.

Lemma voxel_ok fuel c eig k l s : (1 <= eg_dec c)%nat -> (List.length l <= fuel)%nat -> (5 <= List.length l)%nat ->
  (PlaneLike c (info eig k l) -> ~ NearOrigin (info eig k l)) ->
  exists w, ep_voxel fuel c eig l s = (add_piece s w, Val tt) /\ Contributes c (info eig k l) w.
Proof.
  intros D F L NO. unfold ep_voxel. rewrite (proj2 (Nat.ltb_ge _ _) L).
  set (v := info eig k l) in *.
  destruct (eig (cov_of (mean_pt l) l)) as [vals ev] eqn:E.
  assert (V1 : vo_vals v = vals) by (unfold v, info; rewrite E; reflexivity).
  assert (V2 : vo_ev v = ev) by (unfold v, info; rewrite E; reflexivity).
  assert (V3 : vo_mean v = mean_pt l) by reflexivity.
  assert (V4 : vo_pts v = l) by reflexivity.
  rewrite <- V1, <- V2, <- V3. clearbody v. clear E V1 V2 V3. subst l.
  destruct (every_nth fuel (eg_dec c) (vo_pts v) D F) as (sel & SL & SE).
  assert (FP : exists fl, (if Nat.eqb (eg_full c) 0 then fl = [] else
                step_loop fuel (eg_full c) 0 (vo_pts v) = Some fl)
              /\ (eg_full c = O -> map bare_pt fl = []) /\ (eg_full c <> O -> EveryNth (eg_full c) (vo_pts v) (map bare_pt fl))).
  { destruct (Nat.eqb (eg_full c) 0) eqn:Z.
    - apply Nat.eqb_eq in Z. exists []. split; [reflexivity|]. split; [reflexivity|congruence].
    - apply Nat.eqb_neq in Z. destruct (full_part fuel c (vo_pts v) F Z) as (f & A & B). exists f.
      split; [exact A|]. split; [congruence|intros _; exact B]. }
  destruct FP as (fl & FA & FB & FC).
  destruct s as [s1 s2 s3 s4 s5].
  destruct (is_edge c (vo_vals v)) eqn:IE.
  { assert (EL : EdgeLike c v) by (apply edge_iff; exact IE).
    exists (mkPiece (map bare_pt sel) [] (map bare_pt fl) [] []). split.
    - unfold ep_insert. rewrite SL. destruct (Nat.eqb (eg_full c) 0).
      + subst fl. unfold add_piece. cbn. rewrite !app_nil_r. reflexivity.
      + rewrite FA. unfold add_piece. cbn. rewrite !app_nil_r. reflexivity.
    - unfold Contributes, PlaneLike. cbn. repeat split; try tauto. }
  assert (NE : ~ EdgeLike c v) by (rewrite <- edge_iff, IE; discriminate).
  pose proof (plane_iff c v IE) as PI.
  destruct (is_plane c (vo_vals v)) eqn:IP.
  { assert (PL : PlaneLike c v) by (apply PI; reflexivity).
    destruct (away_from_origin (vo_mean v)) eqn:AW; [|exfalso; apply (NO PL), near_iff, AW].
    pose proof (steep_iff v) as ST.
    destruct (not_horizontal (vo_ev v)).
    - exists (mkPiece [] (map bare_pt sel) (map bare_pt fl) [vec_pt (vo_mean v)] [patch_of (vo_mean v) (vo_ev v)]). split.
      + unfold ep_insert. rewrite SL. destruct (Nat.eqb (eg_full c) 0).
        * subst fl. unfold add_piece. cbn. rewrite !app_nil_r. reflexivity.
        * rewrite FA. unfold add_piece. cbn. rewrite !app_nil_r. reflexivity.
      + unfold Contributes. cbn. assert (SV : Steep v) by (apply ST; reflexivity).
        split; [tauto|]. split; [tauto|]. split; [intros _; exact SE|]. split; [tauto|].
        split; [intros _; split; [reflexivity|eexists; split; [reflexivity|apply patch_good]]|]. split; [tauto|]. split; assumption.
    - exists (mkPiece [] [] (map bare_pt fl) [vec_pt (vo_mean v)] [patch_of (vo_mean v) (vo_ev v)]). split.
      + unfold ep_insert. destruct (Nat.eqb (eg_full c) 0).
        * subst fl. unfold add_piece. cbn. rewrite !app_nil_r. reflexivity.
        * rewrite FA. unfold add_piece. cbn. rewrite !app_nil_r. reflexivity.
      + unfold Contributes. cbn. assert (SV : ~ Steep v) by (rewrite <- ST; discriminate).
        split; [tauto|]. split; [tauto|]. split; [tauto|]. split; [tauto|].
        split; [intros _; split; [reflexivity|eexists; split; [reflexivity|apply patch_good]]|]. split; [tauto|]. split; assumption. }
  assert (NP : ~ PlaneLike c v) by (rewrite <- PI; discriminate).
  exists (mkPiece [] [] (map bare_pt fl) [] []). split.
  - unfold ep_insert. destruct (Nat.eqb (eg_full c) 0).
    + subst fl. unfold add_piece. cbn. rewrite !app_nil_r. reflexivity.
    + rewrite FA. unfold add_piece. cbn. rewrite !app_nil_r. reflexivity.
  - unfold Contributes. cbn. repeat split; try tauto; intros; try (exfalso; tauto).
Qed.

Lemma voxel_small fuel c eig l s : (List.length l < 5)%nat -> ep_voxel fuel c eig l s = (s, Val tt).
Proof. intro H. unfold ep_voxel. rewrite (proj2 (Nat.ltb_lt _ _) H). reflexivity. Qed.

(** The voxels with at least five points, in visiting order. *)
Definition big (vs : list (Key * list Pt)) : list (Key * list Pt) :=
  filter (fun kv => (5 <=? List.length (snd kv))%nat) vs.

Lemma voxels_ok fuel c eig : (1 <= eg_dec c)%nat -> forall vs s,
  (forall k l, In (k, l) vs -> (List.length l <= fuel)%nat) ->
  (forall k l, In (k, l) (big vs) -> PlaneLike c (info eig k l) -> ~ NearOrigin (info eig k l)) ->
  exists ws, ep_voxels fuel c eig (map snd vs) s = (fold_left add_piece ws s, Val tt)
    /\ Forall2 (Contributes c) (map (fun kv => info eig (fst kv) (snd kv)) (big vs)) ws.
Proof.
  intro D. induction vs as [|[k l] vs IH]; intros s F NO.
  - exists []. split; [reflexivity|constructor].
  - cbn [map snd ep_voxels]. unfold big in *. cbn [filter snd].
    destruct (5 <=? List.length l)%nat eqn:L.
    + apply Nat.leb_le in L.
      destruct (voxel_ok fuel c eig k l s D (F k l (or_introl eq_refl)) L) as (w & A & B).
      { intro P. apply (NO k l); [|exact P]. cbn [filter snd]. rewrite (proj2 (Nat.leb_le _ _) L). left. reflexivity. }
      rewrite A. destruct (IH (add_piece s w)) as (ws & A2 & B2).
      { intros k' l' I. apply (F k' l'). right. exact I. }
      { intros k' l' I. apply NO. cbn [filter snd]. rewrite (proj2 (Nat.leb_le _ _) L). right. exact I. }
      exists (w :: ws). rewrite A2. split; [reflexivity|]. cbn [map fst snd]. constructor; assumption.
    + apply Nat.leb_gt in L. rewrite (voxel_small _ _ _ _ _ L).
      apply IH.
      * intros k' l' I. apply (F k' l'). right. exact I.
      * intros k' l' I. apply NO. cbn [filter snd]. rewrite (proj2 (Nat.leb_gt _ _) L). exact I.
Qed.

Lemma fold_pieces ws : forall s, fold_left add_piece ws s =
  mkEP (ep_edges s ++ concat (map pi_edges ws)) (ep_planes s ++ concat (map pi_planes ws))
       (ep_full s ++ concat (map pi_full ws)) (ep_cent s ++ concat (map pi_cent ws))
       (ep_patches s ++ concat (map pi_patches ws)).
Proof.
  induction ws as [|w ws IH]; intro s; [destruct s; cbn; rewrite !app_nil_r; reflexivity|].
  cbn [fold_left map concat]. rewrite IH. unfold add_piece. cbn. rewrite <- !app_assoc. reflexivity.
Qed.

(** The grid as initialize() and any earlier calls leave it. *)
Definition grid_set (c : EdgesCfg) (g : Grid) : Prop :=
  g_robin g = eg_robin c /\ g_res g = eg_res c /\ g_min_dist g == 0 /\ g_std g = [].

Definition visited (src : list Pt) (ord : list (Key * list nat) -> list (Key * list nat)) (g : Grid)
    : list (Key * list Pt) :=
  map (fun kv => (fst kv, points_at src (snd kv))) (ord (g_visit (g_process (g_clear g) src))).

Lemma visited_spec c src ord g : grid_set c g -> eg_robin c = true -> (forall l, Permutation (ord l) l) ->
  NoDup (map fst (visited src ord g))
  /\ (forall k l, In (k, l) (visited src ord g) <-> l = pts_in (eg_res c) k src /\ l <> []).
Proof.
  intros (R & S & D & _) RB P. rewrite RB in R. unfold visited. set (g1 := g_clear g) in *.
  assert (G1 : g_robin g1 = true /\ g_tsl g1 = [] /\ g_res g1 = eg_res c /\ g_min_dist g1 == 0).
  { unfold g1, g_clear. rewrite R. cbn. auto. }
  destruct G1 as [GR [GT [GS GD]]].
  destruct (g_processes [src] g1 GD) as [A [_ [_ [N F]]]]. simpl fold_left in *.
  rewrite GT in N, F. specialize (N (NoDup_nil _)).
  assert (V : g_visit (g_process g1 src) = g_tsl (g_process g1 src)) by (unfold g_visit; rewrite A, GR; reflexivity).
  rewrite V. set (v := g_tsl (g_process g1 src)) in *.
  assert (KV : forall k is, In (k, is) (ord v) <-> is = in_voxel (eg_res c) k src /\ is <> []).
  { intros k is.
    assert (X : In (k, is) (ord v) <-> afind v k = Some is).
    { rewrite <- (afind_in v k is N). split; apply Permutation_in; [apply P|symmetry; apply P]. }
    rewrite X, F, GS. simpl. rewrite app_nil_r. unfold add_ids.
    destruct (in_voxel (eg_res c) k src) as [|i t] eqn:E.
    - split; [intros Y; discriminate|intros [-> Y]; congruence].
    - split.
      + intros Y. injection Y as <-. split; [reflexivity|discriminate].
      + intros [-> _]. reflexivity. }
  assert (EMP : forall k, in_voxel (eg_res c) k src = [] <-> pts_in (eg_res c) k src = []).
  { intro k. pose proof (in_voxel_len src (eg_res c) k) as L.
    destruct (in_voxel (eg_res c) k src), (pts_in (eg_res c) k src); cbn in L; split; congruence. }
  split.
  - rewrite map_map. cbn [fst].
    eapply Permutation_NoDup; [|exact N]. symmetry. apply Permutation_map, P.
  - intros k l. rewrite in_map_iff. split.
    + intros [[k' is] [E I]]. cbn [fst snd] in E. injection E as -> <-. apply KV in I as [-> I].
      rewrite in_voxel_points. split; [reflexivity|]. intro Z. apply I, EMP, Z.
    + intros [-> I]. exists (k, in_voxel (eg_res c) k src). cbn [fst snd]. rewrite in_voxel_points.
      split; [reflexivity|]. apply KV. split; [reflexivity|]. intro Z. apply I, EMP, Z.
Qed.

Lemma big_full eig c src ord g : grid_set c g -> eg_robin c = true -> (forall l, Permutation (ord l) l) ->
  FullVoxels eig (eg_res c) src (map (fun kv => info eig (fst kv) (snd kv)) (big (visited src ord g))).
Proof.
  intros G RB P. destruct (visited_spec c src ord g G RB P) as [N V]. set (vs := visited src ord g) in *. clearbody vs.
  assert (B : forall k l, In (k, l) (big vs) <-> l = pts_in (eg_res c) k src /\ (5 <= List.length l)%nat).
  { intros k l. unfold big. rewrite filter_In, V. cbn [snd]. rewrite Nat.leb_le. split; [tauto|].
    intros [A L]. split; [split; [exact A|apply mean_len; exact L]|exact L]. }
  split; [|split].
  - rewrite map_map. cbn. unfold big. clear - N. induction vs as [|[k l] vs IH]; [constructor|]. cbn [map fst] in N.
    inversion N as [|? ? N1 N2]; subst. cbn [filter snd].
    destruct (5 <=? List.length l)%nat; [|apply IH; exact N2]. cbn [map]. constructor; [|apply IH; exact N2].
    intro I. apply N1. apply in_map_iff in I as [[k' l'] [E I]]. cbn in E. subst k'. apply filter_In in I as [I _].
    apply in_map_iff. exists (k, l'). auto.
  - intro k. rewrite map_map. cbn. rewrite in_map_iff. split.
    + intros [[k' l] [E I]]. cbn in E. subst k'. apply B in I as [-> I]. exact I.
    + intro L. exists (k, pts_in (eg_res c) k src). split; [reflexivity|]. apply B. auto.
  - intros v I. apply in_map_iff in I as [[k l] [<- I]]. apply B in I as [E I]. cbn [fst snd]. split; [exact E|].
    apply info_analysed, mean_len, I.
Qed.
