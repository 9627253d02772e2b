(** C169-C175: FilterEdgesPlanes. *)
From Coq Require Import String Permutation Lqa Lia.
From Verif Require Import Base FilterModel FilterSpec FilterProofs VoxelModel VoxelSpec VoxelProofs VoxelProofs2
  EdgesModel EdgesSpec EdgesProofs.
Open Scope string_scope.
Open Scope Q_scope.
Open Scope list_scope.

Example grid_set_init : forall c g0, g_min_dist g0 == 0 -> g_std g0 = [] -> grid_set c (edges_grid g0 c).
Proof.
  intros c g0 H I. unfold edges_grid, g_configure, g_clear. cbn. destruct (eg_robin c) eqn:E; repeat split; cbn; auto.
Qed.
Example grid_set_after : forall c g l, grid_set c g -> grid_set c (g_process (g_clear g) l).
Proof.
  intros c g l (A & B & C & D). unfold g_clear. destruct (g_robin g) eqn:E; repeat split; cbn; auto; congruence.
Qed.

Lemma ep_store_find m s :
  lfind (ep_store m s) "edge_points" = Some (simple (ep_edges s))
  /\ lfind (ep_store m s) "plane_points" = Some (simple (ep_planes s))
  /\ lfind (ep_store m s) "full_decim" = Some (simple (ep_full s))
  /\ lfind (ep_store m s) "plane_centroids" = Some (simple (ep_cent s))
  /\ (forall k, ~ In k ep_outputs -> lfind (ep_store m s) k = lfind m k).
Proof.
  unfold ep_store, simple. rewrite !lfind_lset. do 4 (split; [reflexivity|]).
  intros k K. rewrite !lfind_lset. cbn in K.
  rewrite !(proj2 (String.eqb_neq _ k)) by tauto.
  reflexivity.
Qed.

Lemma filter_edges_unfold fuel c eig ord g pm src : lfind (pm_layers pm) (eg_in c) = Some (LPts src) ->
  filter_edges fuel c eig ord g pm =
  let '(s, o) := ep_voxels fuel c eig (map snd (visited (cl_pts src) ord g)) (mkEP [] [] [] [] []) in
  (mkPMap (ep_store (pm_layers pm) s) (pm_planes pm ++ ep_patches s), o).
Proof.
  intro H. unfold filter_edges, input_layer, point_layer, bnd. rewrite H. cbn. unfold visited. rewrite map_map. reflexivity.
Qed.

Lemma visited_len c src ord g : grid_set c g -> eg_robin c = true -> (forall l, Permutation (ord l) l) ->
  forall k l, In (k, l) (visited src ord g) -> (List.length l <= List.length src)%nat.
Proof.
  intros G RB P k l I. destruct (visited_spec c src ord g G RB P) as [_ V]. apply V in I as [-> _].
  unfold pts_in. clear. induction src as [|p t IH]; [cbn; lia|]. cbn [filter]. destruct (key_eqb _ _); cbn; lia.
Qed.

(** No plane-like voxel is centred within 1 mm of the origin. *)
Definition FarFromOrigin (eig : Eig) (c : EdgesCfg) (src : list Pt) : Prop :=
  forall vs v, FullVoxels eig (eg_res c) src vs -> In v vs -> PlaneLike c v -> ~ NearOrigin v.

(** C169. Every voxel with at least five points is classified once, by the eigenvalues of
    the covariance of its points, and contributes to the new layers and to the list of
    planes what its kind asks for; the four layers are replaced by exactly these
    contributions, the list of planes grows by them, nothing else changes.  The input may
    be one of the replaced layers. *)
Theorem C169_edges_planes : forall fuel c eig ord g pm src,
  grid_set c g -> eg_robin c = true -> (forall l, Permutation (ord l) l) -> (1 <= eg_dec c)%nat ->
  lfind (pm_layers pm) (eg_in c) = Some (LPts src) -> (List.length (cl_pts src) <= fuel)%nat ->
  FarFromOrigin eig c (cl_pts src) ->
  exists pm' vs ws,
    filter_edges fuel c eig ord g pm = (pm', Val tt)
    /\ FullVoxels eig (eg_res c) (cl_pts src) vs
    /\ Forall2 (Contributes c) vs ws
    /\ lfind (pm_layers pm') "edge_points" = Some (simple (concat (map pi_edges ws)))
    /\ lfind (pm_layers pm') "plane_points" = Some (simple (concat (map pi_planes ws)))
    /\ lfind (pm_layers pm') "full_decim" = Some (simple (concat (map pi_full ws)))
    /\ lfind (pm_layers pm') "plane_centroids" = Some (simple (concat (map pi_cent ws)))
    /\ pm_planes pm' = pm_planes pm ++ concat (map pi_patches ws)
    /\ (forall k, ~ In k ep_outputs -> lfind (pm_layers pm') k = lfind (pm_layers pm) k).
Proof.
  intros fuel c eig ord g pm src G RB P D H F NO.
  rewrite (filter_edges_unfold _ _ _ _ _ _ _ H).
  pose proof (big_full eig c (cl_pts src) ord g G RB P) as FV.
  destruct (voxels_ok fuel c eig D (visited (cl_pts src) ord g) (mkEP [] [] [] [] [])) as (ws & A & B).
  { intros k l I. pose proof (visited_len c (cl_pts src) ord g G RB P k l I). lia. }
  { intros k l I. apply (NO _ _ FV). apply in_map_iff. exists (k, l). auto. }
  rewrite A. eexists. eexists. exists ws. split; [reflexivity|]. split; [exact FV|]. split; [exact B|].
  rewrite fold_pieces. cbn [ep_edges ep_planes ep_full ep_cent ep_patches app pm_layers pm_planes].
  destruct (ep_store_find (pm_layers pm) (mkEP (concat (map pi_edges ws)) (concat (map pi_planes ws))
     (concat (map pi_full ws)) (concat (map pi_cent ws)) (concat (map pi_patches ws)))) as (E1 & E2 & E3 & E4 & E5).
  split; [exact E1|]. split; [exact E2|]. split; [exact E3|]. split; [exact E4|]. split; [reflexivity|exact E5].
Qed.
Print Assumptions C169_edges_planes.

Theorem C169_rejects : forall fuel c eig ord g pm,
  (lfind (pm_layers pm) (eg_in c) = None \/ lfind (pm_layers pm) (eg_in c) = Some LNull
   \/ exists o, lfind (pm_layers pm) (eg_in c) = Some (LOther o)) ->
  filter_edges fuel c eig ord g pm = (pm, Exc).
Proof.
  intros fuel c eig ord g pm H. unfold filter_edges, input_layer, point_layer, bnd.
  destruct H as [H|[H|[o H]]]; rewrite H; reflexivity.
Qed.
Print Assumptions C169_rejects.

(** ** Examples.  [diag_eig] is the eigen-decomposition of a diagonal covariance. *)
Definition Qmin' (a b : Q) : Q := if Qle_bool a b then a else b.
Definition diag_eig : Eig := fun cv =>
  if Qle_bool (cxx cv) (cyy cv) && Qle_bool (cxx cv) (czz cv)
  then ((cxx cv, Qmin' (cyy cv) (czz cv), Qmax' (cyy cv) (czz cv)), (1, 0, 0))
  else if Qle_bool (cyy cv) (czz cv)
  then ((cyy cv, Qmin' (cxx cv) (czz cv), Qmax' (cxx cv) (czz cv)), (0, 1, 0))
  else ((czz cv, Qmin' (cxx cv) (cyy cv), Qmax' (cxx cv) (cyy cv)), (0, 0, 1)).
Definition at3 (x y z : Q) : Pt := mkPt x y z 5 0%Z 0.
(** A floor patch in the voxel (0,0,0), a wall in (1,0,0), a ball in (0,1,0), a lone point. *)
Definition floor5 := [at3 1 1 1; at3 3 1 1; at3 1 3 1; at3 3 3 1; at3 2 2 1].
Definition wall5 := [at3 5 1 1; at3 5 3 1; at3 5 1 3; at3 5 3 3; at3 5 2 2].
Definition ball6 := [at3 1 6 2; at3 3 6 2; at3 2 5 2; at3 2 7 2; at3 2 6 1; at3 2 6 3].
Definition ep_cloud := floor5 ++ wall5 ++ ball6 ++ [at3 9 9 9].
Definition ep_cfg (inl : Name) (dec full : nat) : EdgesCfg := mkEdges inl full 4 true dec 30 30 100 100 0.
Definition ep_g : Grid := mkGrid 4 true 0 [] [].
Definition ep_map : PMap := mkPMap [("raw", LPts (mkCloud SimplePoints ep_cloud))] [].
Definition ep_layer (r : PMap * outc unit) (n : Name) : list (Q * Q * Q) :=
  match lfind (pm_layers (fst r)) n with
  | Some (LPts d) => map (fun p => (Qred (px p), Qred (py p), Qred (pz p))) (cl_pts d) | _ => [] end.
Definition ep_run := filter_edges 20 (ep_cfg "raw" 2 3) diag_eig (fun l => l) ep_g ep_map.
Example C169_ex_val : snd ep_run = Val tt. Proof. vm_compute. reflexivity. Qed.
Example C169_ex_edges : ep_layer ep_run "edge_points" = [(1, 6, 2); (2, 5, 2); (2, 6, 1)].
Proof. vm_compute. reflexivity. Qed.
Example C169_ex_planes : ep_layer ep_run "plane_points" = [(5, 1, 1); (5, 1, 3); (5, 2, 2)].
Proof. vm_compute. reflexivity. Qed.
Example C169_ex_centroids : ep_layer ep_run "plane_centroids" = [(2, 2, 1); (5, 2, 2)].
Proof. vm_compute. reflexivity. Qed.
Example C169_ex_full : ep_layer ep_run "full_decim" = [(1, 1, 1); (3, 3, 1); (5, 1, 1); (5, 3, 3); (1, 6, 2); (2, 7, 2)].
Proof. vm_compute. reflexivity. Qed.
Example C169_ex_normals : map pp_normal (pm_planes (fst ep_run)) = [(0, 0, - (1)); (- (1), 0, 0)].
Proof. vm_compute. reflexivity. Qed.
Definition ep_again := filter_edges 20 (ep_cfg "full_decim" 1 0) diag_eig (fun l => l) ep_g (fst ep_run).
Example C169_ex_input_is_output : snd ep_again = Val tt /\ ep_layer ep_again "full_decim" = [].
Proof. vm_compute. auto. Qed.

(** C170: after the filter, the layer plane_centroids lists the centroids of the planes of
    the map.  False if the map had planes: the layer is replaced, the list is not. *)
Definition SameCentroids (pm : PMap) : Prop :=
  lfind (pm_layers pm) "plane_centroids"
  = Some (simple (map (fun p => let '(x, y, z) := pp_centroid p in mkPt x y z 0 0%Z 0) (pm_planes pm))).
Definition C170_centroids_match : Prop := forall fuel c eig ord g pm pm',
  grid_set c g -> (forall l, Permutation (ord l) l) ->
  filter_edges fuel c eig ord g pm = (pm', Val tt) -> SameCentroids pm'.
Theorem C170_centroids_match_refuted : ~ C170_centroids_match.
Proof.
  intro H. set (pm := mkPMap [("raw", LPts (mkCloud SimplePoints []))] [mkPatch (0, 0, 1) 0 (1, 1, 1)]).
  specialize (H 0%nat (ep_cfg "raw" 1 0) diag_eig (fun l => l) ep_g pm _ ltac:(repeat split; reflexivity)
    ltac:(intro; reflexivity) eq_refl). vm_compute in H. discriminate.
Qed.
Print Assumptions C170_centroids_match_refuted.

Lemma insert_cent fuel c dest l s s' o : ep_insert fuel c dest l s = (s', o) ->
  ep_cent s' = ep_cent s /\ ep_patches s' = ep_patches s.
Proof.
  unfold ep_insert. destruct dest as [|[|d]].
  - destruct (Nat.eqb _ _); [|destruct (step_loop _ _ _ _)]; intro E; injection E as <- _; auto.
  - destruct (step_loop fuel (eg_dec c) 0 l); [|intro E; injection E as <- _; auto].
    destruct (Nat.eqb _ _); [|destruct (step_loop _ _ _ _)]; intro E; injection E as <- _; auto.
  - destruct (step_loop fuel (eg_dec c) 0 l); [|intro E; injection E as <- _; auto].
    destruct (Nat.eqb _ _); [|destruct (step_loop _ _ _ _)]; intro E; injection E as <- _; auto.
Qed.

Lemma voxels_cent fuel c eig : forall vs s s' o, ep_voxels fuel c eig vs s = (s', o) ->
  ep_cent s = map (fun p => vec_pt (pp_centroid p)) (ep_patches s) ->
  ep_cent s' = map (fun p => vec_pt (pp_centroid p)) (ep_patches s').
Proof.
  induction vs as [|l vs IH]; intros s s' o E I; [injection E as <- _; exact I|].
  cbn [ep_voxels] in E.
  assert (K : forall s1 o1, ep_voxel fuel c eig l s = (s1, o1) -> ep_cent s1 = map (fun p => vec_pt (pp_centroid p)) (ep_patches s1)).
  { intros s1 o1 V. unfold ep_voxel in V. destruct (_ <? _)%nat; [injection V as <- _; exact I|].
    destruct (eig _) as [vals ev]. destruct (is_edge _ _).
    - apply insert_cent in V as [-> ->]. exact I.
    - destruct (is_plane _ _).
      + destruct (away_from_origin _); [|injection V as <- _; exact I].
        apply insert_cent in V as [-> ->]. cbn [ep_cent ep_patches]. rewrite map_app, I. reflexivity.
      + apply insert_cent in V as [-> ->]. exact I. }
  destruct (ep_voxel fuel c eig l s) as [s1 o1]. specialize (K s1 o1 eq_refl).
  destruct o1 as [u| | |]; try (injection E as <- _; exact K). eapply IH; eassumption.
Qed.

(** What does hold, whatever the outcome: if the map had no planes. *)
Theorem C170_centroids_match_if_no_planes : forall fuel c eig ord g pm pm' o src,
  lfind (pm_layers pm) (eg_in c) = Some (LPts src) -> pm_planes pm = [] ->
  filter_edges fuel c eig ord g pm = (pm', o) -> SameCentroids pm'.
Proof.
  intros fuel c eig ord g pm pm' o src H N E. rewrite (filter_edges_unfold _ _ _ _ _ _ _ H) in E.
  destruct (ep_voxels _ _ _ _ _) as [s o'] eqn:V. injection E as <- _.
  apply voxels_cent in V; [|reflexivity]. unfold SameCentroids. cbn [pm_layers pm_planes]. rewrite N. cbn [app].
  destruct (ep_store_find (pm_layers pm) s) as (_ & _ & _ & E4 & _). rewrite E4, V. reflexivity.
Qed.
Print Assumptions C170_centroids_match_if_no_planes.

(** C171: with a decimation of at least 1 the filter accepts every point cloud.  False: a
    plane-like voxel centred at the origin throws. *)
Definition C171_accepts : Prop := forall fuel c eig ord g pm src,
  grid_set c g -> (forall l, Permutation (ord l) l) -> (1 <= eg_dec c)%nat ->
  lfind (pm_layers pm) (eg_in c) = Some (LPts src) -> (List.length (cl_pts src) <= fuel)%nat ->
  snd (filter_edges fuel c eig ord g pm) = Val tt.
Definition flat5 := [at3 1 1 0; at3 (-1) 1 0; at3 1 (-1) 0; at3 (-1) (-1) 0; at3 0 0 0].
Definition flat_map5 : PMap := mkPMap [("raw", LPts (mkCloud SimplePoints flat5))] [].
Theorem C171_accepts_refuted : ~ C171_accepts.
Proof.
  intro H. specialize (H 5%nat (ep_cfg "raw" 1 0) diag_eig (fun l => l) ep_g flat_map5 _ ltac:(repeat split; reflexivity)
    ltac:(intro; reflexivity) (le_n 1) eq_refl (le_n 5)). vm_compute in H. discriminate.
Qed.
Print Assumptions C171_accepts_refuted.

(** Exactly when it throws; an eigen-solver gives equal values for equal matrices. *)
Definition vec_same (a b : V3) : Prop :=
  let '(x, y, z) := a in let '(u, v, w) := b in x == u /\ y == v /\ z == w.
Definition cov_same (a b : Cov) : Prop :=
  cxx a == cxx b /\ cyx a == cyx b /\ czx a == czx b /\ cyy a == cyy b /\ czy a == czy b /\ czz a == czz b.
Definition Respects (eig : Eig) : Prop := forall a b, cov_same a b -> vec_same (fst (eig a)) (fst (eig b)).

Lemma total_same f g l : (forall p, f p == g p) -> total f l == total g l.
Proof. intro H. unfold total. induction l as [|p l IH]; [reflexivity|]. cbn. rewrite H, IH. reflexivity. Qed.

Lemma voxels_throw fuel c eig : (1 <= eg_dec c)%nat -> forall vs s k l,
  (forall k l, In (k, l) vs -> (List.length l <= fuel)%nat) ->
  In (k, l) (big vs) -> PlaneLike c (info eig k l) -> NearOrigin (info eig k l) ->
  snd (ep_voxels fuel c eig (map snd vs) s) = Exc.
Proof.
  intro D. induction vs as [|[k0 l0] vs IH]; intros s k l F I PL NO; [destruct I|].
  cbn [map snd ep_voxels]. unfold big in I. cbn [filter snd] in I.
  destruct (5 <=? List.length l0)%nat eqn:L.
  - apply Nat.leb_le in L.
    assert (DC : (PlaneLike c (info eig k0 l0) -> ~ NearOrigin (info eig k0 l0))
                 \/ (PlaneLike c (info eig k0 l0) /\ NearOrigin (info eig k0 l0))).
    { set (v := info eig k0 l0). destruct (is_edge c (vo_vals v)) eqn:IE.
      - left. intros [N _]. exfalso. apply N, edge_iff, IE.
      - pose proof (plane_iff c v IE) as PI. pose proof (near_iff v) as NI.
        destruct (is_plane c (vo_vals v)); [|left; intro X; apply PI in X; discriminate].
        destruct (away_from_origin (vo_mean v)); [|right; tauto]. left. intros _ X. apply NI in X. discriminate. }
    destruct DC as [DC|[DP DN]].
    + destruct (voxel_ok fuel c eig k0 l0 s D (F k0 l0 (or_introl eq_refl)) L DC) as (w & A & _). rewrite A.
      destruct I as [I|I]; [injection I as -> ->; contradiction (DC PL NO)|].
      eapply IH; try eassumption. intros k' l' I'. apply (F k' l'). right. exact I'.
    + unfold ep_voxel. rewrite (proj2 (Nat.ltb_ge _ _) L).
      unfold info in DP, DN. destruct (eig (cov_of (mean_pt l0) l0)) as [vals ev] eqn:E. cbn [fst snd] in DP, DN.
      set (v := mkVox k0 l0 (mean_pt l0) vals ev) in *.
      assert (IE : is_edge c vals = false).
      { destruct (is_edge c vals) eqn:IE; [|reflexivity]. exfalso. destruct DP as [N _]. apply N.
        apply (edge_iff c v). exact IE. }
      rewrite IE. assert (IP : is_plane c vals = true) by (apply (plane_iff c v IE); exact DP).
      rewrite IP. assert (AW : away_from_origin (mean_pt l0) = false) by (apply (near_iff v); exact DN).
      rewrite AW. reflexivity.
  - apply Nat.leb_gt in L. rewrite (voxel_small _ _ _ _ _ L).
    eapply IH; try eassumption. intros k' l' I'. apply (F k' l'). right. exact I'.
Qed.

Lemma near_same eig k v l : Respects eig -> l <> [] -> vo_pts v = l -> Analysed eig v ->
  vec_same (vo_mean v) (mean_pt l) /\ vec_same (vo_vals v) (vo_vals (info eig k l)).
Proof.
  intros RE NE EP [AM (cv & AC & AE)]. rewrite EP in *.
  assert (N : ~ inject_Z (Z.of_nat (List.length l)) == 0).
  { destruct l; [congruence|]. cbn [List.length]. unfold Qeq. cbn. lia. }
  assert (CANC : forall a b, inject_Z (Z.of_nat (List.length l)) * a == inject_Z (Z.of_nat (List.length l)) * b -> a == b).
  { intros a b E. apply (Qmult_inj_l a b _ N). exact E. }
  assert (VM : vec_same (vo_mean v) (mean_pt l)).
  { pose proof (mean_is_mean l NE) as (M1 & M2 & M3). unfold mean_pt. destruct (vo_mean v) as [[x y] z].
    destruct AM as (A1 & A2 & A3). repeat split; apply CANC; [rewrite A1, M1|rewrite A2, M2|rewrite A3, M3]; reflexivity. }
  split; [exact VM|].
  assert (CS : cov_same cv (cov_of (mean_pt l) l)).
  { pose proof (cov_ok l (mean_pt l) NE) as C2. destruct (vo_mean v) as [[x y] z], (mean_pt l) as [[u w] t] eqn:MP.
    destruct VM as (X1 & X2 & X3). set (c2 := cov_of (u, w, t) l) in *. clearbody c2.
    destruct AC as (B1 & B2 & B3 & B4 & B5 & B6). destruct C2 as (D1 & D2 & D3 & D4 & D5 & D6).
    repeat split; apply CANC;
      [rewrite B1, D1|rewrite B2, D2|rewrite B3, D3|rewrite B4, D4|rewrite B5, D5|rewrite B6, D6];
      apply total_same; intro p; rewrite ?X1, ?X2, ?X3; reflexivity. }
  specialize (RE _ _ CS). rewrite AE in RE. unfold info. cbn [vo_vals]. exact RE.
Qed.

Theorem C171_throws_exactly : forall fuel c eig ord g pm src,
  Respects eig -> grid_set c g -> eg_robin c = true -> (forall l, Permutation (ord l) l) -> (1 <= eg_dec c)%nat ->
  lfind (pm_layers pm) (eg_in c) = Some (LPts src) -> (List.length (cl_pts src) <= fuel)%nat ->
  (snd (filter_edges fuel c eig ord g pm) = Exc
   <-> exists vs v, FullVoxels eig (eg_res c) (cl_pts src) vs /\ In v vs /\ PlaneLike c v /\ NearOrigin v)
  /\ (snd (filter_edges fuel c eig ord g pm) = Exc \/ snd (filter_edges fuel c eig ord g pm) = Val tt).
Proof.
  intros fuel c eig ord g pm src RE G RB P D H F.
  assert (LEN : forall k l, In (k, l) (visited (cl_pts src) ord g) -> (List.length l <= fuel)%nat).
  { intros k l I. pose proof (visited_len c (cl_pts src) ord g G RB P k l I). lia. }
  assert (TH : forall vs v, FullVoxels eig (eg_res c) (cl_pts src) vs -> In v vs -> PlaneLike c v -> NearOrigin v ->
            snd (filter_edges fuel c eig ord g pm) = Exc).
  { intros vs v (_ & FK & FV) I PL NO.
    destruct (FV v I) as [EP AN]. set (k := vo_key v) in *. set (l := pts_in (eg_res c) k (cl_pts src)) in *.
    assert (L5 : (5 <= List.length l)%nat) by (apply FK, in_map, I).
    destruct (near_same eig k v l RE (mean_len _ L5) EP AN) as [M V].
    rewrite (filter_edges_unfold _ _ _ _ _ _ _ H).
    assert (X : snd (ep_voxels fuel c eig (map snd (visited (cl_pts src) ord g)) (mkEP [] [] [] [] [])) = Exc).
    { apply (voxels_throw fuel c eig D _ _ k l LEN).
      - unfold big. apply filter_In. cbn [snd]. split; [|apply Nat.leb_le; exact L5].
        apply (proj2 (visited_spec c (cl_pts src) ord g G RB P)). split; [reflexivity|apply mean_len; exact L5].
      - destruct PL as [P1 P2]. unfold PlaneLike, EdgeLike in *.
        destruct (vo_vals v) as [[e0 e1] e2], (vo_vals (info eig k l)) as [[f0 f1] f2]. destruct V as (V1 & V2 & V3).
        rewrite V1, V2, V3 in *. split; assumption.
      - unfold NearOrigin in *. unfold info. cbn [vo_mean]. destruct (vo_mean v) as [[x y] z], (mean_pt l) as [[u w] t].
        destruct M as (M1 & M2 & M3). rewrite M1, M2, M3 in NO. exact NO. }
    destruct (ep_voxels _ _ _ _ _) as [s o]. cbn [snd] in *. exact X. }
  assert (DEC : FarFromOrigin eig c (cl_pts src)
     \/ exists vs v, FullVoxels eig (eg_res c) (cl_pts src) vs /\ In v vs /\ PlaneLike c v /\ NearOrigin v).
  { pose proof (big_full eig c (cl_pts src) ord g G RB P) as FV0.
    set (vs0 := map (fun kv => info eig (fst kv) (snd kv)) (big (visited (cl_pts src) ord g))) in *.
    assert (EX : (exists v, In v vs0 /\ PlaneLike c v /\ NearOrigin v) \/ (forall v, In v vs0 -> PlaneLike c v -> ~ NearOrigin v)).
    { clearbody vs0. clear. induction vs0 as [|v t IH]; [right; intros v []|].
      destruct IH as [(v' & A & B)|IH]; [left; exists v'; split; [right; exact A|exact B]|].
      destruct (is_edge c (vo_vals v)) eqn:IE.
      - right. intros v' [<- |I]; [|apply IH; exact I]. intros [N _]. exfalso. apply N, edge_iff, IE.
      - pose proof (plane_iff c v IE) as PI. pose proof (near_iff v) as NI.
        destruct (is_plane c (vo_vals v)).
        + destruct (away_from_origin (vo_mean v)).
          * right. intros v' [<- |I]; [|apply IH; exact I]. intros _ X. apply NI in X. discriminate.
          * left. exists v. split; [left; reflexivity|]. split; [apply PI|apply NI]; reflexivity.
        + right. intros v' [<- |I]; [|apply IH; exact I]. intros X. apply PI in X. discriminate. }
    destruct EX as [(v & A & B & C)|EX]; [right; exists vs0, v; auto|].
    left. intros vs v FV I PL NO. assert (TE := TH vs v FV I PL NO).
    rewrite (filter_edges_unfold _ _ _ _ _ _ _ H) in TE.
    destruct (voxels_ok fuel c eig D (visited (cl_pts src) ord g) (mkEP [] [] [] [] []) LEN) as (ws & A & _).
    { intros k l I'. apply EX. unfold vs0. apply in_map_iff. exists (k, l). auto. }
    rewrite A in TE. discriminate. }
  destruct DEC as [FF|EX].
  - destruct (C169_edges_planes fuel c eig ord g pm src G RB P D H F FF) as (pm' & vs & ws & A & _).
    rewrite A. cbn. split; [|right; reflexivity]. split; [discriminate|]. intros (vs' & v & X1 & X2 & X3 & X4).
    exfalso. exact (FF vs' v X1 X2 X3 X4).
  - assert (T : snd (filter_edges fuel c eig ord g pm) = Exc) by (destruct EX as (vs & v & X1 & X2 & X3 & X4); eapply TH; eassumption).
    split; [split; [intros _; exact EX|intros _; exact T]|left; exact T].
Qed.
Print Assumptions C171_throws_exactly.

Example C171_ex_respects : Respects diag_eig.
Proof.
  intros a b (A & B & C & D & E & F). unfold diag_eig.
  assert (LE : forall x y x' y', x == x' -> y == y' -> Qle_bool x y = Qle_bool x' y').
  { intros x y x' y' X Y. apply eq_true_iff_eq. rewrite !Qle_bool_iff, X, Y. reflexivity. }
  rewrite (LE _ _ _ _ A D), (LE _ _ _ _ A F), (LE _ _ _ _ D F).
  assert (MX : forall x y x' y', x == x' -> y == y' -> Qmax' x y == Qmax' x' y').
  { intros x y x' y' X Y. unfold Qmax', Qltb. rewrite (LE _ _ _ _ Y X). destruct (Qle_bool _ _); cbn; assumption. }
  assert (MI : forall x y x' y', x == x' -> y == y' -> Qmin' x y == Qmin' x' y').
  { intros x y x' y' X Y. unfold Qmin'. rewrite (LE _ _ _ _ X Y). destruct (Qle_bool _ _); assumption. }
  destruct (_ && _); [|destruct (Qle_bool _ _)]; cbn [fst vec_same]; (split; [assumption|]);
    (split; [apply MI; assumption|apply MX; assumption]).
Qed.

(** C172: the filter always ends.  False for voxel_filter_decimation = 0. *)
Definition C172_ends : Prop := forall c eig ord g pm, grid_set c g -> (forall l, Permutation (ord l) l) ->
  exists fuel, snd (filter_edges fuel c eig ord g pm) <> Spin.
Lemma step_zero l p : nth_error l 0 = Some p -> forall fuel, step_loop fuel 0 0 l = None.
Proof. intros H fuel. induction fuel as [|k IH]; cbn; destruct l; try discriminate; [reflexivity|]. cbn in *. rewrite IH. reflexivity. Qed.
Theorem C172_ends_refuted : ~ C172_ends.
Proof.
  intro H. set (pm := mkPMap [("raw", LPts (mkCloud SimplePoints ball6))] []).
  destruct (H (ep_cfg "raw" 0 0) diag_eig (fun l => l) ep_g pm ltac:(repeat split; reflexivity) ltac:(intro; reflexivity)) as [fuel E].
  apply E. rewrite (filter_edges_unfold fuel (ep_cfg "raw" 0 0) diag_eig (fun l => l) ep_g pm (mkCloud SimplePoints ball6) eq_refl).
  assert (V : map snd (visited (cl_pts (mkCloud SimplePoints ball6)) (fun l => l) ep_g) = [ball6]) by (vm_compute; reflexivity).
  rewrite V. cbn [ep_voxels]. unfold ep_voxel.
  assert (L : (List.length ball6 <? 5)%nat = false) by reflexivity. rewrite L.
  destruct (diag_eig (cov_of (mean_pt ball6) ball6)) as [vals ev] eqn:EE.
  assert (IE : is_edge (ep_cfg "raw" 0 0) vals = true).
  { change vals with (fst (vals, ev)). rewrite <- EE. vm_compute. reflexivity. }
  rewrite IE. unfold ep_insert. cbn [eg_dec ep_cfg]. rewrite (step_zero ball6 (at3 1 6 2) eq_refl fuel). reflexivity.
Qed.
Print Assumptions C172_ends_refuted.
Lemma voxels_end fuel c eig : (1 <= eg_dec c)%nat -> forall vs s, (forall l, In l vs -> (List.length l <= fuel)%nat) ->
  snd (ep_voxels fuel c eig vs s) <> Spin /\ snd (ep_voxels fuel c eig vs s) <> Undef.
Proof.
  intro D. induction vs as [|l vs IH]; intros s F; [split; discriminate|]. cbn [ep_voxels].
  assert (LF := F l (or_introl eq_refl)).
  assert (INS : forall dest s0, exists s1, ep_insert fuel c dest l s0 = (s1, Val tt)).
  { intros dest s0. unfold ep_insert. destruct (every_nth fuel (eg_dec c) l D LF) as (sel & SL & _).
    destruct (Nat.eqb (eg_full c) 0) eqn:Z.
    - destruct dest as [|[|d]]; rewrite ?SL; eexists; reflexivity.
    - apply Nat.eqb_neq in Z. destruct (full_part fuel c l LF Z) as (f & FA & _).
      destruct dest as [|[|d]]; rewrite ?SL, FA; eexists; reflexivity. }
  assert (V : exists s1, ep_voxel fuel c eig l s = (s1, Val tt) \/ ep_voxel fuel c eig l s = (s1, Exc)).
  { unfold ep_voxel. destruct (_ <? _)%nat; [eauto|]. destruct (eig _) as [vals ev]. destruct (is_edge _ _).
    - destruct (INS 1%nat s) as [s1 E]. rewrite E. eauto.
    - destruct (is_plane _ _); [destruct (away_from_origin _); [|eauto]|].
      + match goal with |- context [ep_insert fuel c ?d l ?s0] => destruct (INS d s0) as [s1 E]; rewrite E end. eauto.
      + destruct (INS 0%nat s) as [s1 E]. rewrite E. eauto. }
  destruct V as [s1 [V|V]]; rewrite V; [|split; discriminate]. apply IH. intros l' I. apply F. right. exact I.
Qed.
(** It ends, without undefined behaviour, for every other decimation, map and container. *)
Theorem C172_ends_if_positive : forall c eig ord g pm,
  (1 <= eg_dec c)%nat -> exists fuel,
  snd (filter_edges fuel c eig ord g pm) <> Spin /\ snd (filter_edges fuel c eig ord g pm) <> Undef.
Proof.
  intros c eig ord g pm D.
  destruct (lfind (pm_layers pm) (eg_in c)) as [[src|o|]|] eqn:H;
    try (exists 0%nat; rewrite C169_rejects by (rewrite H; eauto); split; discriminate).
  set (vs := map snd (visited (cl_pts src) ord g)).
  exists (fold_right Nat.max 0%nat (map (@List.length Pt) vs)).
  rewrite (filter_edges_unfold _ _ _ _ _ _ _ H). fold vs.
  destruct (voxels_end (fold_right Nat.max 0%nat (map (@List.length Pt) vs)) c eig D vs (mkEP [] [] [] [] [])) as [A B].
  { clearbody vs. clear. induction vs as [|l vs IH]; [intros l []|]. intros l' [<- |I]; cbn; [lia|]. specialize (IH l' I). lia. }
  destruct (ep_voxels _ _ _ _ _) as [s o']. cbn [snd] in *. split; assumption.
Qed.
Print Assumptions C172_ends_if_positive.

(** C173: the outputs do not depend on use_tsl_robin_map.  False: without it nothing is
    ever found. *)
Definition with_robin (c : EdgesCfg) (b : bool) : EdgesCfg :=
  mkEdges (eg_in c) (eg_full c) (eg_res c) b (eg_dec c) (eg_max20 c) (eg_max10 c) (eg_min20 c) (eg_min10 c) (eg_min1 c).
Definition C173_container : Prop := forall fuel c eig g0 pm, g_min_dist g0 == 0 -> g_tsl g0 = [] -> g_std g0 = [] ->
  filter_edges fuel (with_robin c true) eig (fun l => l) (edges_grid g0 (with_robin c true)) pm
  = filter_edges fuel (with_robin c false) eig (fun l => l) (edges_grid g0 (with_robin c false)) pm.
Theorem C173_container_refuted : ~ C173_container.
Proof.
  intro H. specialize (H 20%nat (ep_cfg "raw" 1 1) diag_eig (mkGrid 1 true 0 [] []) ep_map ltac:(reflexivity) eq_refl eq_refl).
  apply (f_equal (fun r => List.length (ep_layer r "full_decim"))) in H. vm_compute in H. discriminate.
Qed.
Print Assumptions C173_container_refuted.
Theorem C173_std_map_finds_nothing : forall fuel c eig ord g pm src,
  grid_set c g -> eg_robin c = false -> (forall l, Permutation (ord l) l) ->
  lfind (pm_layers pm) (eg_in c) = Some (LPts src) ->
  exists pm', filter_edges fuel c eig ord g pm = (pm', Val tt) /\ pm_planes pm' = pm_planes pm
    /\ (forall k, In k ep_outputs -> lfind (pm_layers pm') k = Some (simple []))
    /\ (forall k, ~ In k ep_outputs -> lfind (pm_layers pm') k = lfind (pm_layers pm) k).
Proof.
  intros fuel c eig ord g pm src (A & B & C & D) RB P H. rewrite (filter_edges_unfold _ _ _ _ _ _ _ H).
  assert (V : visited (cl_pts src) ord g = []).
  { unfold visited. rewrite RB in A. unfold g_clear. rewrite A. unfold g_visit, g_process. cbn [g_robin g_std].
    specialize (P []). apply Permutation_sym, Permutation_nil in P. rewrite P. reflexivity. }
  rewrite V. cbn [map ep_voxels]. eexists. split; [reflexivity|]. cbn [ep_patches pm_planes pm_layers]. rewrite app_nil_r.
  split; [reflexivity|].
  destruct (ep_store_find (pm_layers pm) (mkEP [] [] [] [] [])) as (E1 & E2 & E3 & E4 & E5). split; [|exact E5].
  intros k [<- |[<- |[<- |[<- |[]]]]]; assumption.
Qed.
Print Assumptions C173_std_map_finds_nothing.

(** C174: the layer full_decim, a decimation of the whole cloud, has at least one point of
    every occupied voxel.  False: voxels with fewer than five points give none. *)
Definition sampled (res : Q) (pm : PMap) (p : Pt) : Prop :=
  exists l q, lfind (pm_layers pm) "full_decim" = Some (simple l) /\ In q l /\ key_of res q = key_of res p.
Definition C174_full_covers : Prop := forall fuel c eig ord g pm pm' src,
  grid_set c g -> eg_robin c = true -> (forall l, Permutation (ord l) l) -> (1 <= eg_full c)%nat ->
  lfind (pm_layers pm) (eg_in c) = Some (LPts src) ->
  filter_edges fuel c eig ord g pm = (pm', Val tt) ->
  forall p, In p (cl_pts src) -> sampled (eg_res c) pm' p.
Theorem C174_full_covers_refuted : ~ C174_full_covers.
Proof.
  intro H. set (pm := mkPMap [("raw", LPts (mkCloud SimplePoints [at3 1 1 1]))] []).
  specialize (H 5%nat (ep_cfg "raw" 1 1) diag_eig (fun l => l) ep_g pm _ _ ltac:(repeat split; reflexivity) eq_refl
    ltac:(intro; reflexivity) (le_n 1) eq_refl eq_refl (at3 1 1 1) (or_introl eq_refl)).
  destruct H as (l & q & E & I & _). vm_compute in E. injection E as <-. destruct I.
Qed.
Print Assumptions C174_full_covers_refuted.
Theorem C174_full_covers_where : forall fuel c eig ord g pm src,
  grid_set c g -> eg_robin c = true -> (forall l, Permutation (ord l) l) -> (1 <= eg_dec c)%nat -> (1 <= eg_full c)%nat ->
  lfind (pm_layers pm) (eg_in c) = Some (LPts src) -> (List.length (cl_pts src) <= fuel)%nat ->
  FarFromOrigin eig c (cl_pts src) ->
  exists pm', filter_edges fuel c eig ord g pm = (pm', Val tt)
  /\ forall p, In p (cl_pts src) ->
     (sampled (eg_res c) pm' p <-> (5 <= List.length (pts_in (eg_res c) (key_of (eg_res c) p) (cl_pts src)))%nat).
Proof.
  intros fuel c eig ord g pm src G RB P D FU H F FF.
  destruct (C169_edges_planes fuel c eig ord g pm src G RB P D H F FF) as (pm' & vs & ws & A & (_ & FK & FV) & CO & _ & _ & E3 & _).
  exists pm'. split; [exact A|]. intros p I. unfold sampled. rewrite E3. split.
  - intros (l & q & E & IQ & KQ). injection E as <-. rewrite <- KQ.
    apply in_concat in IQ as [piece [IP IQ]]. apply in_map_iff in IP as [w [<- IW]].
    assert (exists v, In v vs /\ Contributes c v w) as (v & IV & C).
    { clear - CO IW. induction CO as [|v w' vs ws C CO IH]; [destruct IW|]. destruct IW as [-> |IW]; [exists v; split; [left; reflexivity|exact C]|].
      destruct (IH IW) as (v' & X & Y). exists v'. split; [right; exact X|exact Y]. }
    destruct (FV v IV) as [EP _].
    assert (EN : EveryNth (eg_full c) (vo_pts v) (pi_full w)) by (apply C; lia).
    apply In_nth_error in IQ as [j J]. rewrite (EN j) in J.
    destruct (nth_error (vo_pts v) (j * eg_full c)) as [p0|] eqn:N; [|discriminate]. cbn in J. injection J as <-.
    apply nth_error_In in N. rewrite EP in N. unfold pts_in in N. apply filter_In in N as [_ N]. apply key_eqb_eq in N.
    assert (key_of (eg_res c) (mkPt (px p0) (py p0) (pz p0) 0 0%Z 0) = key_of (eg_res c) p0) as -> by reflexivity.
    rewrite N. apply FK. apply in_map. exact IV.
  - intro L. apply FK in L. apply in_map_iff in L as [v [KV IV]]. destruct (FV v IV) as [EP _].
    assert (exists w, In w ws /\ Contributes c v w) as (w & IW & C).
    { clear - CO IV. induction CO as [|v' w vs ws C CO IH]; [destruct IV|]. destruct IV as [-> |IV]; [exists w; split; [left; reflexivity|exact C]|].
      destruct (IH IV) as (w' & X & Y). exists w'. split; [right; exact X|exact Y]. }
    assert (EN : EveryNth (eg_full c) (vo_pts v) (pi_full w)) by (apply C; lia).
    assert (IPV : In p (vo_pts v)).
    { rewrite EP. unfold pts_in. apply filter_In. split; [exact I|]. apply key_eqb_eq. congruence. }
    destruct (vo_pts v) as [|p0 t] eqn:VP; [destruct IPV|].
    specialize (EN 0%nat). cbn in EN. destruct (pi_full w) as [|q tq] eqn:PF; [discriminate|]. cbn in EN. injection EN as ->.
    exists (concat (map pi_full ws)), (mkPt (px p0) (py p0) (pz p0) 0 0%Z 0). split; [reflexivity|]. split.
    + apply in_concat. exists (pi_full w). split; [apply in_map; exact IW|rewrite PF; left; reflexivity].
    + transitivity (key_of (eg_res c) p0); [reflexivity|].
      assert (N : In p0 (p0 :: t)) by (left; reflexivity). rewrite EP in N. unfold pts_in in N. apply filter_In in N as [_ N].
      apply key_eqb_eq in N. congruence.
Qed.
Print Assumptions C174_full_covers_where.

(** C175: a call that throws leaves the map as it was.  False: the layers are replaced
    before the voxels are looked at. *)
Definition C175_exception_safe : Prop := forall fuel c eig ord g pm,
  grid_set c g -> (forall l, Permutation (ord l) l) ->
  snd (filter_edges fuel c eig ord g pm) = Exc -> fst (filter_edges fuel c eig ord g pm) = pm.
Theorem C175_exception_safe_refuted : ~ C175_exception_safe.
Proof.
  intro H. specialize (H 5%nat (ep_cfg "raw" 1 0) diag_eig (fun l => l) ep_g flat_map5 ltac:(repeat split; reflexivity)
    ltac:(intro; reflexivity)). vm_compute in H. specialize (H eq_refl). discriminate.
Qed.
Print Assumptions C175_exception_safe_refuted.
Theorem C175_other_layers_kept : forall fuel c eig ord g pm,
  (forall k, ~ In k ep_outputs -> lfind (pm_layers (fst (filter_edges fuel c eig ord g pm))) k = lfind (pm_layers pm) k)
  /\ exists extra, pm_planes (fst (filter_edges fuel c eig ord g pm)) = pm_planes pm ++ extra.
Proof.
  intros fuel c eig ord g pm.
  destruct (lfind (pm_layers pm) (eg_in c)) as [[src|o|]|] eqn:H;
    try (rewrite C169_rejects by (rewrite H; eauto); split; [reflexivity|exists []; cbn; rewrite app_nil_r; reflexivity]).
  rewrite (filter_edges_unfold _ _ _ _ _ _ _ H). destruct (ep_voxels _ _ _ _ _) as [s o]. cbn [fst pm_layers pm_planes].
  destruct (ep_store_find (pm_layers pm) s) as (_ & _ & _ & _ & E5). split; [exact E5|eexists; reflexivity].
Qed.
Print Assumptions C175_other_layers_kept.

(** The example meets the hypothesis of C169 about the origin. *)
Example C169_ex_far : FarFromOrigin diag_eig (ep_cfg "raw" 2 3) ep_cloud.
Proof.
  intros vs v A B C D.
  destruct (C171_throws_exactly 20 (ep_cfg "raw" 2 3) diag_eig (fun l => l) ep_g ep_map (mkCloud SimplePoints ep_cloud)
    C171_ex_respects ltac:(repeat split; reflexivity) eq_refl ltac:(intro; reflexivity) ltac:(cbn; lia) eq_refl ltac:(cbn; lia))
    as [[_ T] _].
  specialize (T (ex_intro _ vs (ex_intro _ v (conj A (conj B (conj C D)))))).
  change (snd ep_run = Exc) in T. rewrite C169_ex_val in T. discriminate.
Qed.
