(** C165-C168: FilterMerge and FilterVoxelSlice. *)
From Coq Require Import String Qround Lqa Lia.
From Verif Require Import Base FilterModel FilterSpec FilterProofs FMergeModel.
Open Scope string_scope.
Open Scope Q_scope.
Open Scope list_scope.

(** ** Specification *)
Definition same3 (a b : Q3) : Prop := q1 a == q1 b /\ q2 a == q2 b /\ q3 a == q3 b.
(** Rows of a rotation matrix: unit vectors, orthogonal. *)
Definition rotation (T : QPose) : Prop :=
  dot3 (r1 T) (r1 T) == 1 /\ dot3 (r2 T) (r2 T) == 1 /\ dot3 (r3 T) (r3 T) == 1
  /\ dot3 (r1 T) (r2 T) == 0 /\ dot3 (r1 T) (r3 T) == 0 /\ dot3 (r2 T) (r3 T) == 0.
(** Where a point of the input must end in the target's frame. *)
Definition Placed (c : MergeCfg) (p : Pt) (q : Q3) : Prop :=
  if me_local c then same3 q (qcompose (me_pose c) (q3_of p)) else same3 q (q3_of p).
(** mrpt CPointsMap::insertObservation of a CObservationPointCloud: appends the points,
    moved by the robot pose. *)
Definition cloud_insert (t : Layer) (pts : list Pt) (T : QPose) : Layer :=
  match t with
  | LPts d => LPts (mkCloud (cl_cls d) (cl_pts d ++ map (fun p => conv (cl_cls d) (pt_of (qcompose T (q3_of p)))) pts))
  | _ => t
  end.

(** ** Proofs *)
Lemma compose_inverse T p : rotation T -> same3 (qcompose T (qcompose (qinverse T) p)) p.
Proof.
  intros (A & B & C & D & E & F). destruct T as [[a b c] [d e f] [g h i] [x y z]], p as [u v w].
  unfold same3, qcompose, qinverse, dot3 in *. cbn in *.
  repeat split.
  - transitivity ((a*a+b*b+c*c) * (u - x) + (a*d+b*e+c*f) * (v - y) + (a*g+b*h+c*i) * (w - z) + x); [ring|].
    rewrite A, D, E. ring.
  - transitivity ((a*d+b*e+c*f) * (u - x) + (d*d+e*e+f*f) * (v - y) + (d*g+e*h+f*i) * (w - z) + y); [ring|].
    rewrite B, D, F. ring.
  - transitivity ((a*g+b*h+c*i) * (u - x) + (d*g+e*h+f*i) * (v - y) + (g*g+h*h+i*i) * (w - z) + z); [ring|].
    rewrite C, E, F. ring.
Qed.

Lemma compose_identity T p : same3 (qcompose T (qcompose qidentity p)) (qcompose T p).
Proof.
  destruct T as [[a b c] [d e f] [g h i] [x y z]], p as [u v w].
  unfold same3, qcompose, qidentity, dot3. cbn. repeat split; ring.
Qed.

Lemma lfind_lset_same m n l : lfind (lset m n l) n = Some l.
Proof.
  induction m as [|[k v] t IH]; cbn [lset lfind]; [rewrite String.eqb_refl; reflexivity|].
  destruct (String.eqb k n) eqn:E; cbn [lfind]; rewrite E; [reflexivity|exact IH].
Qed.
Lemma lfind_lset_other m n k l : k <> n -> lfind (lset m n l) k = lfind m k.
Proof.
  intro H. induction m as [|[a v] t IH]; cbn [lset lfind].
  - rewrite (proj2 (String.eqb_neq n k)) by congruence. reflexivity.
  - destruct (String.eqb a n) eqn:E; cbn [lfind].
    + apply String.eqb_eq in E; subst a. rewrite (proj2 (String.eqb_neq n k)) by congruence. reflexivity.
    + destruct (String.eqb a k); [reflexivity|exact IH].
Qed.

Lemma placed_all c l : rotation (me_pose c) ->
  Forall2 (fun p q => Placed c p (qcompose (me_pose c) (q3_of q))) l
    (if me_local c then as_seen qidentity l else as_seen (qinverse (me_pose c)) l).
Proof.
  intro RO. unfold Placed, as_seen. destruct (me_local c); induction l as [|p t IH]; cbn [map]; constructor;
    try exact IH; [apply compose_identity|apply compose_inverse; exact RO].
Qed.

Definition bare (q : Pt) : Prop := p_int q = 0 /\ p_ring q = 0%Z /\ p_time q = 0.
Lemma bare_seen T l : Forall bare (as_seen T l).
Proof. induction l as [|p l IH]; constructor; [repeat split; reflexivity | exact IH]. Qed.

Lemma bare_conv k (f : Pt -> Q3) l : Forall bare (map (fun p => conv k (pt_of (f p))) l).
Proof.
  induction l as [|p l IH]; cbn [map].
  - apply Forall_nil.
  - apply Forall_cons; [destruct k as [? [|] [|] [|]]; repeat split; reflexivity | exact IH].
Qed.

(** C165. Whatever kind of map the target is: it gets, with the robot pose, one point per
    input point in order, whose place in the target frame is that of the input point (both
    in the same frame) or the input point moved by the robot pose (input in the robot
    frame); their intensity, ring and time are lost (0); no other layer changes. *)
Theorem C165_merge : forall insert_obs c m l pc tgt,
  me_realized c = true -> lfind m (me_in c) = Some l -> map_to_points l = Some pc ->
  me_target c <> "" -> lfind m (me_target c) = Some tgt -> tgt <> LNull -> rotation (me_pose c) ->
  exists m' pts, filter_merge insert_obs c m = (m', Val tt)
    /\ lfind m' (me_target c) = Some (insert_obs tgt pts (me_pose c))
    /\ (forall k, k <> me_target c -> lfind m' k = lfind m k)
    /\ Forall2 (fun p q => Placed c p (qcompose (me_pose c) (q3_of q))) (cl_pts pc) pts
    /\ Forall bare pts.
Proof.
  intros ins c m l pc tgt R H P N T NN RO. unfold filter_merge, bnd. rewrite R. cbn [massert]. unfold ret.
  rewrite H. assert (L : l <> LNull) by (intros ->; discriminate).
  destruct l as [d|o|]; [| |congruence];
    (rewrite P, (proj2 (String.eqb_neq _ _) N), T; destruct tgt as [d'|o'|]; [| |congruence];
     eexists; eexists; (split; [reflexivity|]); (split; [apply lfind_lset_same|]);
     (split; [intros k K; apply lfind_lset_other; exact K|]);
     (split; [apply placed_all; exact RO | destruct (me_local c); apply bare_seen])).
Qed.
Print Assumptions C165_merge.

(** For a point cloud as target: the points appended. *)
Theorem C165_merge_clouds : forall c m l pc d,
  me_realized c = true -> lfind m (me_in c) = Some l -> map_to_points l = Some pc ->
  me_target c <> "" -> lfind m (me_target c) = Some (LPts d) -> rotation (me_pose c) ->
  exists m' new, filter_merge cloud_insert c m = (m', Val tt)
    /\ lfind m' (me_target c) = Some (LPts (mkCloud (cl_cls d) (cl_pts d ++ new)))
    /\ (forall k, k <> me_target c -> lfind m' k = lfind m k)
    /\ Forall2 (fun p q => Placed c p (q3_of q)) (cl_pts pc) new /\ Forall bare new.
Proof.
  intros c m l pc d R H P N T RO.
  destruct (C165_merge cloud_insert c m l pc (LPts d) R H P N T ltac:(discriminate) RO)
    as (m' & pts & E1 & E2 & E3 & E4 & E5).
  exists m'. eexists. split; [exact E1|]. split; [exact E2|]. split; [exact E3|].
  split; [|apply bare_conv].
  clear - E4. induction E4 as [|p q l l' A B IH]; cbn [map]; constructor; [exact A|exact IH].
Qed.
Print Assumptions C165_merge_clouds.

Theorem C165_rejects : forall insert_obs c m,
  me_realized c = false \/ lfind m (me_in c) = None \/ lfind m (me_in c) = Some LNull
  \/ (exists l, lfind m (me_in c) = Some l /\ map_to_points l = None)
  \/ (me_target c = "" \/ lfind m (me_target c) = None) ->
  filter_merge insert_obs c m = (m, Exc).
Proof.
  intros ins c m H. unfold filter_merge, bnd. destruct (me_realized c); [|reflexivity]. cbn [massert]. unfold ret.
  destruct H as [H|[H|[H|[(l & H & H2)|H]]]]; [discriminate|rewrite H; reflexivity|rewrite H; reflexivity| |].
  - rewrite H. destruct l; [rewrite H2; reflexivity|rewrite H2; reflexivity|reflexivity].
  - destruct (lfind m (me_in c)) as [[d|o|]|]; try reflexivity; destruct (map_to_points _); try reflexivity;
      (destruct (String.eqb (me_target c) "") eqn:E; [reflexivity|]; destruct H as [H|H];
       [rewrite H in E; discriminate|rewrite H; reflexivity]).
Qed.
Print Assumptions C165_rejects.

(** Robot at (1,0,0) turned 90 degrees. *)
Definition tpose : QPose := mkQPose (mkQ3 0 (-1) 0) (mkQ3 1 0 0) (mkQ3 0 0 1) (mkQ3 1 0 0).
Definition mpts : list Pt := [mkPt 2 3 4 9 0 0; mkPt 0 0 1 8 0 0].
Definition mmap : Layers := [("in", LPts (mkCloud SimplePoints mpts)); ("out", LPts (mkCloud SimplePoints []))].
Example C165_ex_rotation : rotation tpose.
Proof. repeat split. Qed.
Example C165_ex_same_frame :
  match lfind (fst (filter_merge cloud_insert (mkMerge "in" "out" false tpose true) mmap)) "out" with
  | Some (LPts d) => map (fun p => (Qred (px p), Qred (py p), Qred (pz p))) (cl_pts d) = [(2, 3, 4); (0, 0, 1)]
  | _ => False end.
Proof. vm_compute. reflexivity. Qed.
Example C165_ex_robot_frame :
  match lfind (fst (filter_merge cloud_insert (mkMerge "in" "out" true tpose true) mmap)) "out" with
  | Some (LPts d) => map (fun p => (Qred (px p), Qred (py p), Qred (pz p))) (cl_pts d) = [(-2, 2, 4); (1, 0, 1)]
  | _ => False end.
Proof. vm_compute. reflexivity. Qed.

(** C166: FilterMerge never has undefined behaviour.  False: a null target layer is
    dereferenced (a null input layer is refused). *)
Definition C166_no_ub : Prop := forall insert_obs c m, snd (filter_merge insert_obs c m) <> Undef.
Theorem C166_no_ub_refuted : ~ C166_no_ub.
Proof.
  intro H. apply (H cloud_insert (mkMerge "in" "out" false tpose true)
                    [("in", LPts (mkCloud SimplePoints mpts)); ("out", LNull)]). reflexivity.
Qed.
Print Assumptions C166_no_ub_refuted.
Theorem C166_no_ub_without_null_target : forall insert_obs c m,
  lfind m (me_target c) <> Some LNull -> snd (filter_merge insert_obs c m) <> Undef.
Proof.
  intros ins c m H. unfold filter_merge, bnd. destruct (me_realized c); [|discriminate]. cbn [massert]. unfold ret.
  destruct (lfind m (me_in c)) as [[d|o|]|]; try discriminate; destruct (map_to_points _); try discriminate;
    (destruct (String.eqb (me_target c) ""); [discriminate|];
     destruct (lfind m (me_target c)) as [[x|x|]|]; try discriminate; congruence).
Qed.
Print Assumptions C166_no_ub_without_null_target.

(** C167. A slice of a voxel map: the output layer is replaced by a grid at the mean height
    of the slice, of the size of the whole voxel map, updated once per voxel whose height
    interval meets [slice_z_min, slice_z_max], in order, and by no other voxel. *)
Definition reaches (c : SliceCfg) (res : Q) (v : Voxel) : Prop :=
  inject_Z (vx_z v) * res <= sl_zmax c /\ sl_zmin c < (inject_Z (vx_z v) + 1) * res.

Lemma in_slice c res v : 0 < res ->
  (Z.ltb (vx_z v) (pos_to_coord res (sl_zmin c)) || Z.ltb (pos_to_coord res (sl_zmax c)) (vx_z v) = false
   <-> reaches c res v).
Proof.
  intro R. unfold reaches, pos_to_coord. rewrite orb_false_iff, !Z.ltb_ge.
  assert (A : (vx_z v <= Qfloor (sl_zmax c / res))%Z <-> inject_Z (vx_z v) * res <= sl_zmax c).
  { split.
    - intro H. apply (Qmult_le_r _ _ (/ res)).
      + apply Qinv_lt_0_compat. exact R.
      + rewrite <- Qmult_assoc, Qmult_inv_r, Qmult_1_r by lra.
        apply Qle_trans with (inject_Z (Qfloor (sl_zmax c / res))); [rewrite <- Zle_Qle; exact H|apply Qfloor_le].
    - intro H. rewrite <- (Qfloor_Z (vx_z v)). apply Qfloor_resp_le. apply Qle_shift_div_l; [exact R|exact H]. }
  assert (B : (Qfloor (sl_zmin c / res) <= vx_z v)%Z <-> sl_zmin c < (inject_Z (vx_z v) + 1) * res).
  { change 1 with (inject_Z 1). rewrite <- inject_Z_plus. split.
    - intro H. pose proof (Qlt_floor (sl_zmin c / res)) as L.
      assert (K : sl_zmin c / res < inject_Z (vx_z v + 1)).
      { eapply Qlt_le_trans; [exact L|]. rewrite <- Zle_Qle. lia. }
      apply (Qmult_lt_r _ _ res R) in K. setoid_replace (sl_zmin c / res * res) with (sl_zmin c) in K by (field; lra).
      exact K.
    - intro H. assert (K : sl_zmin c / res < inject_Z (vx_z v + 1)).
      { apply Qlt_shift_div_r; [exact R|exact H]. }
      pose proof (Qfloor_le (sl_zmin c / res)) as L.
      assert (inject_Z (Qfloor (sl_zmin c / res)) < inject_Z (vx_z v + 1)) as M by lra.
      rewrite <- Zlt_Qlt in M. lia. }
  rewrite A, B. tauto.
Qed.

(** [vs'] is [vs] without the voxels that do not reach the slice. *)
Inductive Kept (P : Voxel -> Prop) : list Voxel -> list Voxel -> Prop :=
  | kept_nil : Kept P [] []
  | kept_take v vs vs' : P v -> Kept P vs vs' -> Kept P (v :: vs) (v :: vs')
  | kept_drop v vs vs' : ~ P v -> Kept P vs vs' -> Kept P (v :: vs) vs'.

Lemma sfind_sset_same G m n l : sfind G (sset G m n l) n = Some l.
Proof.
  induction m as [|[k v] t IH]; cbn [sset sfind]; [rewrite String.eqb_refl; reflexivity|].
  destruct (String.eqb k n) eqn:E; cbn [sfind]; rewrite E; [reflexivity|exact IH].
Qed.
Lemma sfind_sset_other G m n k l : k <> n -> sfind G (sset G m n l) k = sfind G m k.
Proof.
  intro H. induction m as [|[a v] t IH]; cbn [sset sfind].
  - rewrite (proj2 (String.eqb_neq n k)) by congruence. reflexivity.
  - destruct (String.eqb a n) eqn:E; cbn [sfind].
    + apply String.eqb_eq in E; subst a. rewrite (proj2 (String.eqb_neq n k)) by congruence. reflexivity.
    + destruct (String.eqb a k); [reflexivity|exact IH].
Qed.

Theorem C167_slice : forall (Grid : Type) fresh sized update c (m : SMap Grid) res vs,
  sl_realized c = true -> sl_zmin c <= sl_zmax c -> sl_in c <> "" -> sl_out c <> "" -> 0 < res ->
  sfind Grid m (sl_in c) = Some (VoxelMap res vs) ->
  exists m' vs' h, filter_slice Grid fresh sized update c m = (m', Val tt)
    /\ Kept (reaches c res) vs vs' /\ 2 * h == sl_zmin c + sl_zmax c
    /\ sfind Grid m' (sl_out c) = Some (OccGrid
         (fold_left (fun g v => update g (inject_Z (vx_x v) * res) (inject_Z (vx_y v) * res) (vx_occ v)) vs'
            (sized (fresh h) vs res)))
    /\ (forall k, k <> sl_out c -> sfind Grid m' k = sfind Grid m k).
Proof.
  intros G fresh sized update c m res vs R Z I O RS H.
  assert (EX : forall l g, exists l', Kept (reaches c res) l l' /\
     fold_left (per_voxel G update c res) l g =
     fold_left (fun g v => update g (inject_Z (vx_x v) * res) (inject_Z (vx_y v) * res) (vx_occ v)) l' g).
  { induction l as [|v l IH]; intro g; [exists []; split; [constructor|reflexivity]|].
    cbn [fold_left]. pose proof (in_slice c res v RS) as K. unfold per_voxel at 2. destruct (_ || _).
    - destruct (IH g) as [l' [A B]]. exists l'. split; [|exact B]. apply kept_drop; [|exact A].
      intro X. apply K in X. discriminate.
    - destruct (IH (update g (inject_Z (vx_x v) * res) (inject_Z (vx_y v) * res) (vx_occ v))) as [l' [A B]].
      exists (v :: l'). split; [|exact B]. apply kept_take; [|exact A]. apply K. reflexivity. }
  destruct (EX vs (sized (fresh ((1#2) * (sl_zmax c + sl_zmin c))) vs res)) as [vs' [A B]].
  eexists. exists vs', ((1#2) * (sl_zmax c + sl_zmin c)).
  split; [|split; [exact A|split; [ring|]]].
  - unfold filter_slice. rewrite R. cbn [negb].
    assert (Qltb (sl_zmax c) (sl_zmin c) = false) as ->.
    { unfold Qltb. apply negb_false_iff. apply Qle_bool_iff. exact Z. }
    rewrite (proj2 (String.eqb_neq _ _) I), H, (proj2 (String.eqb_neq _ _) O), B. reflexivity.
  - split; [apply sfind_sset_same|]. intros k K. apply sfind_sset_other. exact K.
Qed.
Print Assumptions C167_slice.

(** The kept voxels are determined. *)
Theorem C167_kept_unique : forall P vs a b, Kept P vs a -> Kept P vs b -> a = b.
Proof.
  intros P vs a b H. revert b. induction H as [|v vs a A H IH|v vs a A H IH]; intros b K; inversion K; subst;
    try contradiction; [reflexivity|f_equal; apply IH; assumption|apply IH; assumption].
Qed.
Print Assumptions C167_kept_unique.

Theorem C167_rejects : forall (Grid : Type) fresh sized update c (m : SMap Grid),
  sl_realized c = false \/ sl_zmax c < sl_zmin c \/ sl_in c = "" \/ sfind Grid m (sl_in c) = None
  \/ sfind Grid m (sl_in c) = Some OtherMap \/ (exists g, sfind Grid m (sl_in c) = Some (OccGrid g)) ->
  filter_slice Grid fresh sized update c m = (m, Exc).
Proof.
  intros G fresh sized update c m H. unfold filter_slice. destruct (sl_realized c); [|reflexivity]. cbn [negb].
  destruct (Qltb (sl_zmax c) (sl_zmin c)) eqn:Z; [reflexivity|].
  destruct (String.eqb (sl_in c) "") eqn:E; [reflexivity|].
  destruct H as [H|[H|[H|[H|[H|[g H]]]]]]; try (rewrite H; reflexivity).
  - discriminate.
  - exfalso. unfold Qltb in Z. apply negb_false_iff, Qle_bool_iff in Z. lra.
  - rewrite H in E. discriminate.
Qed.
Print Assumptions C167_rejects.

(** A concrete slice, with a list of updates as grid. *)
Definition UG := list (Q * Q * Q).
Example C167_ex :
  let vs := [mkVoxel 1 2 0 (1#10); mkVoxel 3 4 5 (2#10); mkVoxel 1 2 6 (9#10)] in
  sfind UG (fst (filter_slice UG (fun _ => []) (fun g _ _ => g) (fun g x y o => g ++ [(x, y, o)])
     (mkSlice "vox" "grid" (5#2) 3 true) [("vox", VoxelMap (1#2) vs)])) "grid"
  = Some (OccGrid [(3#2, 4#2, 2#10); (1#2, 2#2, 9#10)]).
Proof. vm_compute. reflexivity. Qed.

(** C168: colour voxel maps, announced as accepted, are sliced the same way.  False: the
    output is an empty grid, and no error is reported. *)
Definition C168_rgb_sliced : Prop := forall (Grid : Type) fresh sized update c (m m2 : SMap Grid) res vs,
  sl_realized c = true -> sl_zmin c <= sl_zmax c -> sl_in c <> "" -> sl_out c <> "" -> 0 < res ->
  sfind Grid m (sl_in c) = Some (VoxelMapRGB res vs) -> sfind Grid m2 (sl_in c) = Some (VoxelMap res vs) ->
  sfind Grid (fst (filter_slice Grid fresh sized update c m)) (sl_out c)
  = sfind Grid (fst (filter_slice Grid fresh sized update c m2)) (sl_out c).
Theorem C168_rgb_sliced_refuted : ~ C168_rgb_sliced.
Proof.
  intro H. set (vs := [mkVoxel 1 2 6 (9#10)]).
  specialize (H UG (fun _ => []) (fun g _ _ => g) (fun g x y o => g ++ [(x, y, o)])
     (mkSlice "vox" "grid" (5#2) 3 true) [("vox", VoxelMapRGB (1#2) vs)] [("vox", VoxelMap (1#2) vs)] (1#2) vs).
  assert (sl_zmin (mkSlice "vox" "grid" (5#2) 3 true) <= 3) as L by discriminate.
  specialize (H eq_refl L ltac:(discriminate) ltac:(discriminate) eq_refl eq_refl eq_refl). vm_compute in H. discriminate.
Qed.
Print Assumptions C168_rgb_sliced_refuted.
Theorem C168_rgb_gives_empty_grid : forall (Grid : Type) fresh sized update c (m : SMap Grid) res vs,
  sl_realized c = true -> sl_zmin c <= sl_zmax c -> sl_in c <> "" -> sl_out c <> "" ->
  sfind Grid m (sl_in c) = Some (VoxelMapRGB res vs) ->
  exists m' h, filter_slice Grid fresh sized update c m = (m', Val tt)
    /\ sfind Grid m' (sl_out c) = Some (OccGrid (fresh h)).
Proof.
  intros G fresh sized update c m res vs R Z I O H. do 2 eexists. split.
  - unfold filter_slice. rewrite R. cbn [negb].
    assert (Qltb (sl_zmax c) (sl_zmin c) = false) as ->.
    { unfold Qltb. apply negb_false_iff. apply Qle_bool_iff. exact Z. }
    rewrite (proj2 (String.eqb_neq _ _) I), H, (proj2 (String.eqb_neq _ _) O). reflexivity.
  - apply sfind_sset_same.
Qed.
Print Assumptions C168_rgb_gives_empty_grid.
