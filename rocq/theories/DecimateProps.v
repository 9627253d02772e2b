(** C43: voxel decimation, and the findings split from it (C69, C70). *)
From Coq Require Import String Permutation Lqa.
From Verif Require Import Base FilterModel FilterSpec FilterProofs FilterProofs2 VoxelModel VoxelSpec VoxelProofs VoxelProofs2.
Open Scope string_scope.
Open Scope Q_scope.
Open Scope list_scope.

Lemma appended_grew m cls n l m1 m' :
  n <> "" -> usable m n -> m1 = created m [n] cls -> Appended m1 m' n l -> Grew m m' n cls l.
Proof.
  intros NE U -> [c [A [B C]]]. unfold Grew.
  assert (F := fun k => created_find [n] m cls k).
  split.
  - rewrite (F n) in A. destruct U as [U|[U|[d U]]]; [contradiction| |].
    + rewrite U in *. simpl in A. rewrite seqb_refl in A. simpl in A. rewrite (seqb_neq n "" NE) in A. simpl in A.
      injection A as <-. simpl in B. exact B.
    + rewrite U in *. injection A as <-. exact B.
  - intros k K. rewrite (C k K), (F k). destruct (lfind m k) as [l0|] eqn:E; [reflexivity|].
    simpl. rewrite (seqb_neq k n K). reflexivity.
Qed.

Lemma goc_false m n c : n <> "" -> usable m n ->
  get_or_create n false c m = (created m [n] c, Val true).
Proof.
  intros NE U. assert (G := goc_usable m n c U). unfold get_or_create in *.
  rewrite (seqb_neq n "" NE) in *. exact G.
Qed.

(** Writing the representatives, flattened or not *)
Lemma first_columns_map {A B} (f : A -> B) : forall (l : list (Key * A)) used,
  map (fun kv => (fst kv, f (snd kv))) (first_columns used l)
  = first_columns used (map (fun kv => (fst kv, f (snd kv))) l).
Proof.
  induction l as [|[[[x y] z] a] t IH]; intros used; [reflexivity|]. simpl.
  destruct (existsb _ used); [apply IH|]. simpl. rewrite IH. reflexivity.
Qed.

Lemma sel_columns (kr : list (Key * Pt)) : OnePerColumn kr (first_columns [] kr).
Proof.
  destruct (first_columns_spec kr []) as [N [S C]]. split; [exact N|]. split.
  - intros kv H. apply S. exact H.
  - intros kv H. destruct (C kv H) as [[]|X]. exact X.
Qed.

Definition big_pts (c : DecCfg) (m : Layers) : list Pt :=
  concat (map (pts_of m) (filter (fun n => negb (small c (pts_of m n))) (de_ins c))).
Definition small_pts (c : DecCfg) (m : Layers) : list Pt :=
  concat (map (pts_of m) (filter (fun n => small c (pts_of m n)) (de_ins c))).

Lemma filter_true {A} (f : A -> bool) l : (forall a, f a = true) -> filter f l = l.
Proof. intros H. induction l as [|a l IH]; [reflexivity|]. simpl. rewrite H, IH. reflexivity. Qed.
Lemma filter_false {A} (f : A -> bool) l : (forall a, f a = false) -> filter f l = [].
Proof. intros H. induction l as [|a l IH]; [reflexivity|]. simpl. rewrite H. exact IH. Qed.

Lemma pass_stage c m1 d :
  lfind m1 (de_out c) = Some (LPts d) -> inputs_ok m1 (de_ins c) -> ~ In (de_out c) (de_ins c) ->
  exists m2, (if (0 <? de_min_pts c)%nat then pass_small c (map SLayer (de_ins c)) else ret (map SLayer (de_ins c))) m1
     = (m2, Val (map SLayer (filter (fun n => negb (small c (pts_of m1 n))) (de_ins c)))) /\
     Appended m1 m2 (de_out c) (map (flat c) (small_pts c m1)).
Proof.
  intros H I N. destruct (0 <? de_min_pts c)%nat eqn:E.
  - apply Nat.ltb_lt in E. destruct (pass_small_ok c (de_ins c) m1 d E H I N) as [m2 [R A]].
    exists m2. split; [exact R|exact A].
  - exists m1. assert (S : forall l, small c l = false) by (intros l; unfold small; rewrite E; reflexivity).
    unfold small_pts. rewrite (filter_false (fun n => small c (pts_of m1 n)) (de_ins c)) by (intros a; apply S).
    rewrite filter_true by (intros a; rewrite S; reflexivity).
    split; [reflexivity|]. eapply Appended_nil. exact H.
Qed.

Lemma pts_of_same c m m' : (forall k, k <> de_out c -> lfind m' k = lfind m k) ->
  ~ In (de_out c) (de_ins c) -> forall n, In n (de_ins c) -> pts_of m' n = pts_of m n.
Proof.
  intros H N n I. unfold pts_of. rewrite H; [reflexivity|]. intros ->. contradiction.
Qed.

Lemma filter_ext_in' {A} (f g : A -> bool) l : (forall a, In a l -> f a = g a) -> filter f l = filter g l.
Proof. apply filter_ext_in. Qed.

Lemma map_ext_filter {A B} (f g : A -> B) (h k : A -> bool) l :
  (forall a, In a l -> f a = g a) -> (forall a, In a l -> h a = k a) ->
  map f (filter h l) = map g (filter k l).
Proof.
  intros F H. rewrite (filter_ext_in' h k l H). apply map_ext_in. intros a I. apply F.
  apply filter_In in I. tauto.
Qed.

(** FilterDecimateVoxels with the first-point method (the default one): any number of input
    layers, either container flavour, whatever the grids hold from earlier calls and
    whatever order the container is visited in.  The output layer, created with the class
    of the first input if missing, grows by the clouds that are too small, in order, and
    then by exactly one point per occupied voxel of the other clouds taken together: the
    first that fell in it (or one of them per column, flattened).  Nothing else changes. *)
Theorem C43_first_point : forall c ords ordm rnd sg mg m n0 rest c0,
  de_realized c = true -> de_method c = FirstPoint ->
  de_ins c = n0 :: rest -> lfind m n0 = Some (LPts c0) -> inputs_ok m (de_ins c) ->
  de_out c <> "" -> usable m (de_out c) -> ~ In (de_out c) (de_ins c) ->
  (forall l, Permutation (ords l) l) ->
  exists m' kr out,
    filter_decimate c ords ordm rnd sg mg m = (m', Val tt) /\
    OnePerVoxel (de_res c) (big_pts c m) (Promise FirstPoint) kr /\
    Written (de_flatten c) kr out /\
    Grew m m' (de_out c) (cl_cls c0) (map (flat c) (small_pts c m) ++ out).
Proof.
  intros c ords ordm rnd sg mg m n0 rest c0 RE ME INS F0 IO NE U NI P.
  assert (NI0 : n0 <> de_out c) by (intros ->; apply NI; rewrite INS; left; reflexivity).
  set (m1 := created m [de_out c] (cl_cls c0)).
  assert (F1 : forall k, k <> de_out c -> lfind m1 k = lfind m k).
  { intros k K. unfold m1. rewrite (created_find [de_out c] m (cl_cls c0) k).
    destruct (lfind m k); [reflexivity|]. simpl. rewrite (seqb_neq k _ K). reflexivity. }
  assert (IO1 : inputs_ok m1 (de_ins c)).
  { intros k K. rewrite F1; [apply IO; exact K|]. intros ->. contradiction. }
  assert (OUT1 : exists d, lfind m1 (de_out c) = Some (LPts d)).
  { unfold m1. rewrite (created_find [de_out c] m (cl_cls c0) (de_out c)).
    destruct U as [U|[U|[d U]]]; [contradiction| |].
    - rewrite U. simpl. rewrite seqb_refl, (seqb_neq _ _ NE). simpl. eexists; reflexivity.
    - rewrite U. exists d. reflexivity. }
  destruct OUT1 as [d OUT1].
  destruct (pass_stage c m1 d OUT1 IO1 NI) as [m2 [R2 A2]].
  assert (S1 := pts_of_same c m m1 F1 NI).
  assert (F2 : forall k, k <> de_out c -> lfind m2 k = lfind m1 k) by (destruct A2 as [? [_ [_ X]]]; exact X).
  assert (S2 := pts_of_same c m1 m2 F2 NI).
  assert (A2' := A2). destruct A2 as [d2 [A2a [A2b A2c]]].
  set (bigs := filter (fun n => negb (small c (pts_of m1 n))) (de_ins c)) in *.
  assert (SRC : map (fun s => cl_pts (read_src m2 s)) (map SLayer bigs) = map (pts_of m) (filter (fun n => negb (small c (pts_of m n))) (de_ins c))).
  { rewrite map_map. unfold bigs. apply map_ext_filter.
    - intros a I. rewrite read_src_pts, S2, S1 by exact I. reflexivity.
    - intros a I. rewrite S1 by exact I. reflexivity. }
  assert (SM : small_pts c m1 = small_pts c m).
  { unfold small_pts. f_equal. apply map_ext_filter; intros a I; rewrite S1 by exact I; reflexivity. }
  (* run *)
  assert (RUN : filter_decimate c ords ordm rnd sg mg m = dec_single c ords sg (map SLayer bigs) m2).
  { unfold filter_decimate. erewrite bnd_val by (apply assert_true; exact RE).
    erewrite bnd_val by (apply collect_ok; exact IO). assert (L : map SLayer (de_ins c) = SLayer n0 :: map SLayer rest) by (rewrite INS; reflexivity).
    rewrite L in R2. rewrite L. cbn beta iota.
    erewrite bnd_val by (apply assert_true; apply negb_true_iff, seqb_neq; exact NE).
    erewrite bnd_val with (m' := m1) (a := true).
    2:{ unfold read_src. rewrite F0. apply goc_false; [exact NE|exact U]. }
    fold m1.
    erewrite bnd_val by exact R2. unfold use_single. rewrite ME. reflexivity. }
  rewrite RUN. unfold dec_single. rewrite SRC.
  set (vs := ords (s_visit (s_process_all (s_clear (s_configure sg (de_res c) (de_robin c))) 0
               (map (pts_of m) (filter (fun n => negb (small c (pts_of m n))) (de_ins c)))))) in *.
  set (kr := map (fun kv => (fst kv, sv_pt (snd kv))) vs).
  assert (KR : OnePerVoxel (de_res c) (big_pts c m) (Promise FirstPoint) kr).
  { apply (single_voxels sg (de_res c) (de_robin c) _ ords P). }
  destruct (de_flatten c) as [z|] eqn:FL.
  - destruct (each_insert (fun kv : Key * SVoxel => mkPt (px (sv_pt (snd kv))) (py (sv_pt (snd kv))) z 0 0%Z 0)
       (de_out c) (first_columns [] vs) m2 _ A2b) as [m' [R' A']].
    exists m', kr, (map (fun kv => mkPt (px (snd kv)) (py (snd kv)) z 0 0%Z 0) (first_columns [] kr)).
    split; [exact R'|]. split; [exact KR|]. split.
    + exists (first_columns [] kr). split; [apply sel_columns|reflexivity].
    + eapply appended_grew; [exact NE|exact U|reflexivity|]. fold m1. rewrite <- SM.
      eapply Appended_trans; [exact A2'|].
      replace (map (fun kv : Key * Pt => mkPt (px (snd kv)) (py (snd kv)) z 0 0%Z 0) (first_columns [] kr))
        with (map (fun kv : Key * SVoxel => mkPt (px (sv_pt (snd kv))) (py (sv_pt (snd kv))) z 0 0%Z 0) (first_columns [] vs)); [exact A'|].
      unfold kr. rewrite <- (first_columns_map sv_pt), map_map. reflexivity.
  - destruct (each_insert (fun kv : Key * SVoxel => sv_pt (snd kv)) (de_out c) vs m2 _ A2b) as [m' [R' A']].
    exists m', kr, (map snd kr). split; [exact R'|]. split; [exact KR|]. split; [reflexivity|].
    eapply appended_grew; [exact NE|exact U|reflexivity|]. fold m1. rewrite <- SM.
    eapply Appended_trans; [exact A2'|]. unfold kr. rewrite map_map. exact A'.
Qed.

(** The other methods (one input layer, hash-map flavour, more points than the minimum):
    exactly one point per occupied voxel, namely the average position of its points, or
    the one of its points closest to that average, or one of its points. *)
Theorem C43_other_methods : forall c ords ordm rnd sg mg m n0 c0,
  de_realized c = true -> de_method c <> FirstPoint -> de_robin c = true -> g_min_dist mg == 0 ->
  de_ins c = [n0] -> lfind m n0 = Some (LPts c0) -> small c (cl_pts c0) = false ->
  de_out c <> "" -> usable m (de_out c) -> n0 <> de_out c ->
  (forall l, Permutation (ordm l) l) ->
  exists m' kr out,
    filter_decimate c ords ordm rnd sg mg m = (m', Val tt) /\
    OnePerVoxel (de_res c) (cl_pts c0) (Promise (de_method c)) kr /\
    Written (de_flatten c) kr out /\
    Grew m m' (de_out c) (cl_cls c0) out.
Proof.
  intros c ords ordm rnd sg mg m n0 c0 RE ME RO MD INS F0 SM NE U NI P.
  set (m1 := created m [de_out c] (cl_cls c0)).
  assert (F1 : lfind m1 n0 = Some (LPts c0)).
  { unfold m1. rewrite (created_find [de_out c] m (cl_cls c0) n0), F0. reflexivity. }
  assert (OUT1 : exists d, lfind m1 (de_out c) = Some (LPts d)).
  { unfold m1. rewrite (created_find [de_out c] m (cl_cls c0) (de_out c)).
    destruct U as [U|[U|[d U]]]; [contradiction| |].
    - rewrite U. simpl. rewrite seqb_refl, (seqb_neq _ _ NE). simpl. eexists; reflexivity.
    - rewrite U. exists d. reflexivity. }
  destruct OUT1 as [d OUT1].
  assert (IO : inputs_ok m (de_ins c)).
  { intros k K. rewrite INS in K. destruct K as [<-|[]]. exists c0. exact F0. }
  assert (RUN : filter_decimate c ords ordm rnd sg mg m = dec_multi c ordm rnd mg [SLayer n0] m1).
  { unfold filter_decimate. erewrite bnd_val by (apply assert_true; exact RE).
    erewrite bnd_val by (apply collect_ok; exact IO). rewrite INS. cbn [map].
    erewrite bnd_val by (apply assert_true; apply negb_true_iff, seqb_neq; exact NE).
    erewrite bnd_val with (m' := m1) (a := true).
    2:{ unfold read_src. rewrite F0. apply goc_false; [exact NE|exact U]. }
    fold m1.
    erewrite bnd_val with (m' := m1) (a := [SLayer n0]).
    2:{ destruct (0 <? de_min_pts c)%nat eqn:E; [|reflexivity].
        cbn [pass_small]. unfold read_src. rewrite F1.
        unfold small in SM. rewrite E in SM. simpl in SM. rewrite Nat.leb_antisym in SM.
        apply negb_false_iff in SM. rewrite SM. reflexivity. }
    unfold use_single. destruct (de_method c); [congruence|reflexivity|reflexivity|reflexivity]. }
  rewrite RUN. unfold dec_multi, read_src. rewrite F1, RO.
  set (vs := filter (fun kv : Key * list nat => negb (Nat.eqb (List.length (snd kv)) 0))
               (ordm (g_visit (g_process (g_clear (g_configure mg (de_res c) true)) (cl_pts c0))))).
  fold (reps_of (de_method c) rnd (cl_pts c0) vs).
  destruct (multi_voxels (de_method c) rnd mg (de_res c) (cl_pts c0) ordm MD P) as [KR BB].
  fold vs in KR, BB.
  set (reps := reps_of (de_method c) rnd (cl_pts c0) vs) in *.
  set (kr := map (fun kv : Key * (bool * Pt) => (fst kv, snd (snd kv))) reps) in *.
  destruct (de_flatten c) as [z|] eqn:FL.
  - destruct (each_insert (fun kv : Key * (bool * Pt) => mkPt (px (snd (snd kv))) (py (snd (snd kv))) z 0 0%Z 0)
       (de_out c) (first_columns [] reps) m1 _ OUT1) as [m' [R' A']].
    exists m', kr, (map (fun kv => mkPt (px (snd kv)) (py (snd kv)) z 0 0%Z 0) (first_columns [] kr)).
    split; [exact R'|]. split; [exact KR|]. split.
    + exists (first_columns [] kr). split; [apply sel_columns|reflexivity].
    + eapply appended_grew; [exact NE|exact U|reflexivity|]. fold m1.
      replace (map (fun kv : Key * Pt => mkPt (px (snd kv)) (py (snd kv)) z 0 0%Z 0) (first_columns [] kr))
        with (map (fun kv : Key * (bool * Pt) => mkPt (px (snd (snd kv))) (py (snd (snd kv))) z 0 0%Z 0) (first_columns [] reps)); [exact A'|].
      unfold kr. rewrite <- (first_columns_map (fun bp : bool * Pt => snd bp)), map_map. reflexivity.
  - assert (EQ : forall kv : Key * (bool * Pt), In kv reps ->
       (if fst (snd kv) then insert_xyz (de_out c) (px (snd (snd kv))) (py (snd (snd kv))) (pz (snd (snd kv)))
        else insert_from (de_out c) (snd (snd kv))) = insert_from (de_out c) (snd (snd kv))).
    { intros [k [b p]] H. simpl. destruct b; [|reflexivity].
      assert (MA : de_method c = VoxelAverage) by (apply (BB _ H); reflexivity).
      destruct KR as [_ [_ PR]]. assert (PP : In (k, p) kr).
      { unfold kr. apply in_map_iff. exists (k, (true, p)). split; [reflexivity|exact H]. }
      specialize (PR _ _ PP). rewrite MA in PR. destruct PR as [_ [I1 [I2 I3]]].
      unfold insert_xyz. destruct p as [x y zz i r t]; simpl in *. subst. reflexivity. }
    assert (EE : forall l m0, incl l reps ->
       each (fun kv : Key * (bool * Pt) =>
          if fst (snd kv) then insert_xyz (de_out c) (px (snd (snd kv))) (py (snd (snd kv))) (pz (snd (snd kv)))
          else insert_from (de_out c) (snd (snd kv))) l m0
       = each (fun kv : Key * (bool * Pt) => insert_from (de_out c) (snd (snd kv))) l m0).
    { induction l as [|a l IH]; intros m0 H; [reflexivity|]. simpl. unfold bnd.
      rewrite (EQ a) by (apply H; left; reflexivity).
      destruct (insert_from (de_out c) (snd (snd a)) m0) as [m3 [[]| | |]]; try reflexivity.
      apply IH. intros x X. apply H. right. exact X. }
    rewrite EE by (intros x X; exact X).
    destruct (each_insert (fun kv : Key * (bool * Pt) => snd (snd kv)) (de_out c) reps m1 _ OUT1) as [m' [R' A']].
    exists m', kr, (map snd kr). split; [exact R'|]. split; [exact KR|]. split; [reflexivity|].
    eapply appended_grew; [exact NE|exact U|reflexivity|]. fold m1. unfold kr. rewrite map_map. exact A'.
Qed.

(** ** Examples *)
Definition v3 (x y z i : Q) : Pt := mkPt x y z i 0%Z 0.
Definition XYZI : Cls := mkCls "mrpt::maps::CPointsMapXYZI" true false false.
Definition dex_pts : list Pt := [v3 (1#4) 0 0 1; v3 (1#2) 0 0 2; v3 (5#2) 0 0 3; v3 (5#2) 0 (7#2) 4].
Definition dex_map : Layers := [("raw", LPts (mkCloud XYZI dex_pts)); ("few", LPts (mkCloud XYZI [v3 9 9 9 9]))].
Definition dex (me : DMethod) (ins : list Name) (fl : option Q) (min : nat) : DecCfg :=
  mkDec ins true "out" me min 1 true fl true.
Definition sg0 : SGrid := mkSGrid 1 true [] [].
Definition mg0 : Grid := mkGrid 1 true 0 [] [].
Definition rnd0 : nat -> nat := fun k => k.
Definition out_of (r : Layers * outc unit) : option (list Pt) * outc unit :=
  (match lfind (fst r) "out" with Some (LPts c) => Some (cl_pts c) | _ => None end, snd r).

Example C43_example_first :
  out_of (filter_decimate (dex FirstPoint ["raw"; "few"] None 1) (@rev _) (@rev _) rnd0 sg0 mg0 dex_map)
  = (Some [v3 9 9 9 9; v3 (5#2) 0 (7#2) 4; v3 (5#2) 0 0 3; v3 (1#4) 0 0 1], Val tt) /\
  out_of (filter_decimate (dex FirstPoint ["raw"; "few"] (Some (7#1)) 1) (@rev _) (@rev _) rnd0 sg0 mg0 dex_map)
  = (Some [v3 9 9 7 0; v3 (5#2) 0 7 0; v3 (1#4) 0 7 0], Val tt).
Proof. split; vm_compute; reflexivity. Qed.

Example C43_example_average :
  exists a, out_of (filter_decimate (dex VoxelAverage ["raw"] None 1) (@rev _) (fun l => l) rnd0 sg0 mg0 dex_map)
    = (Some [a; v3 (5#2) 0 0 0; v3 (5#2) 0 (7#2) 0], Val tt) /\ px a == 3#8.
Proof. eexists. split; vm_compute; reflexivity. Qed.

(** ** C69: the container flavour must not change the result *)

(** Finding: with the std::map flavour, every method but the first-point one writes no point
    at all, whatever the input, and reports success. *)
Theorem C69_std_map_flavour_drops_everything_refuted : forall c ords ordm rnd sg mg m n0 c0,
  de_realized c = true -> de_method c <> FirstPoint -> de_robin c = false ->
  de_ins c = [n0] -> lfind m n0 = Some (LPts c0) -> small c (cl_pts c0) = false ->
  de_out c <> "" -> usable m (de_out c) -> n0 <> de_out c ->
  (forall l, Permutation (ordm l) l) ->
  exists m', filter_decimate c ords ordm rnd sg mg m = (m', Val tt) /\
             Grew m m' (de_out c) (cl_cls c0) [].
Proof.
  intros c ords ordm rnd sg mg m n0 c0 RE ME RO INS F0 SM NE U NI P.
  set (m1 := created m [de_out c] (cl_cls c0)).
  assert (F1 : lfind m1 n0 = Some (LPts c0)).
  { unfold m1. rewrite (created_find [de_out c] m (cl_cls c0) n0), F0. reflexivity. }
  assert (OUT1 : exists d, lfind m1 (de_out c) = Some (LPts d)).
  { unfold m1. rewrite (created_find [de_out c] m (cl_cls c0) (de_out c)).
    destruct U as [U|[U|[d U]]]; [contradiction| |].
    - rewrite U. simpl. rewrite seqb_refl, (seqb_neq _ _ NE). simpl. eexists; reflexivity.
    - rewrite U. exists d. reflexivity. }
  destruct OUT1 as [d OUT1].
  assert (IO : inputs_ok m (de_ins c)).
  { intros k K. rewrite INS in K. destruct K as [<-|[]]. exists c0. exact F0. }
  assert (RUN : filter_decimate c ords ordm rnd sg mg m = dec_multi c ordm rnd mg [SLayer n0] m1).
  { unfold filter_decimate. erewrite bnd_val by (apply assert_true; exact RE).
    erewrite bnd_val by (apply collect_ok; exact IO). rewrite INS. cbn [map].
    erewrite bnd_val by (apply assert_true; apply negb_true_iff, seqb_neq; exact NE).
    erewrite bnd_val with (m' := m1) (a := true).
    2:{ unfold read_src. rewrite F0. apply goc_false; [exact NE|exact U]. }
    fold m1.
    erewrite bnd_val with (m' := m1) (a := [SLayer n0]).
    2:{ destruct (0 <? de_min_pts c)%nat eqn:E; [|reflexivity].
        cbn [pass_small]. unfold read_src. rewrite F1.
        unfold small in SM. rewrite E in SM. simpl in SM. rewrite Nat.leb_antisym in SM.
        apply negb_false_iff in SM. rewrite SM. reflexivity. }
    unfold use_single. destruct (de_method c); [congruence|reflexivity|reflexivity|reflexivity]. }
  exists m1. split.
  - rewrite RUN. unfold dec_multi. rewrite RO.
    set (pc := cl_pts (read_src m1 (SLayer n0))).
    assert (V : g_visit (g_process (g_clear (g_configure mg (de_res c) false)) pc) = []) by reflexivity.
    rewrite V. assert (O : ordm [] = []).
    { assert (X := P []). apply Permutation_sym, Permutation_nil in X. exact X. }
    rewrite O. simpl. destruct (de_flatten c); reflexivity.
  - eapply appended_grew; [exact NE|exact U|reflexivity|]. fold m1. eapply Appended_nil. exact OUT1.
Qed.

Example C69_example :
  out_of (filter_decimate (mkDec ["raw"] true "out" VoxelAverage 0 1 false None true) (@rev _) (@rev _) rnd0 sg0 mg0 dex_map)
  = (Some [], Val tt).
Proof. reflexivity. Qed.

(** ** C70: small inputs are passed through with every method *)

(** Finding: with any method but the first-point one, a single input not larger than the
    configured minimum is copied to the output and then the call throws (the list of clouds
    left to decimate is empty, and it is asserted to have one). *)
Theorem C70_small_input_copied_then_throws_refuted : forall c ords ordm rnd sg mg m n0 c0,
  de_realized c = true -> de_method c <> FirstPoint ->
  de_ins c = [n0] -> lfind m n0 = Some (LPts c0) -> small c (cl_pts c0) = true ->
  de_out c <> "" -> usable m (de_out c) -> n0 <> de_out c ->
  exists m', filter_decimate c ords ordm rnd sg mg m = (m', Exc) /\
             Grew m m' (de_out c) (cl_cls c0) (map (flat c) (cl_pts c0)).
Proof.
  intros c ords ordm rnd sg mg m n0 c0 RE ME INS F0 SM NE U NI.
  set (m1 := created m [de_out c] (cl_cls c0)).
  assert (F1 : lfind m1 n0 = Some (LPts c0)).
  { unfold m1. rewrite (created_find [de_out c] m (cl_cls c0) n0), F0. reflexivity. }
  assert (OUT1 : exists d, lfind m1 (de_out c) = Some (LPts d)).
  { unfold m1. rewrite (created_find [de_out c] m (cl_cls c0) (de_out c)).
    destruct U as [U|[U|[d U]]]; [contradiction| |].
    - rewrite U. simpl. rewrite seqb_refl, (seqb_neq _ _ NE). simpl. eexists; reflexivity.
    - rewrite U. exists d. reflexivity. }
  destruct OUT1 as [d OUT1].
  assert (IO : inputs_ok m (de_ins c)).
  { intros k K. rewrite INS in K. destruct K as [<-|[]]. exists c0. exact F0. }
  assert (IO1 : inputs_ok m1 (de_ins c)).
  { intros k K. rewrite INS in K. destruct K as [<-|[]]. exists c0. exact F1. }
  assert (NI' : ~ In (de_out c) (de_ins c)) by (rewrite INS; intros [X|[]]; congruence).
  destruct (pass_stage c m1 d OUT1 IO1 NI') as [m2 [R2 A2]].
  assert (PO : pts_of m1 n0 = cl_pts c0) by (unfold pts_of; rewrite F1; reflexivity).
  unfold small_pts in A2. rewrite INS in R2, A2. cbn [map filter] in R2, A2. rewrite PO, SM in R2, A2.
  cbn [map negb concat] in R2, A2. rewrite PO, app_nil_r in A2.
  exists m2. split.
  - unfold filter_decimate. erewrite bnd_val by (apply assert_true; exact RE).
    erewrite bnd_val by (apply collect_ok; exact IO). rewrite INS. cbn [map].
    erewrite bnd_val by (apply assert_true; apply negb_true_iff, seqb_neq; exact NE).
    erewrite bnd_val with (m' := m1) (a := true).
    2:{ unfold read_src. rewrite F0. apply goc_false; [exact NE|exact U]. }
    fold m1. erewrite bnd_val by exact R2.
    unfold use_single. destruct (de_method c); [congruence|reflexivity|reflexivity|reflexivity].
  - eapply appended_grew; [exact NE|exact U|reflexivity|exact A2].
Qed.

Example C70_example :
  out_of (filter_decimate (dex VoxelAverage ["few"] None 5) (@rev _) (@rev _) rnd0 sg0 mg0 dex_map)
  = (Some [v3 9 9 9 9], Exc).
Proof. reflexivity. Qed.

(** ** C71: optional inputs *)

(** Finding: with [error_on_missing_input_layer] off, missing inputs are skipped, but if all
    are missing (e.g. the only one) the call throws all the same. *)
Theorem C71_missing_optional_input_throws_refuted : forall c ords ordm rnd sg mg m,
  de_realized c = true -> de_error_missing c = false ->
  (forall n, In n (de_ins c) -> lfind m n = None) ->
  filter_decimate c ords ordm rnd sg mg m = (m, Exc).
Proof.
  intros c ords ordm rnd sg mg m RE ER H.
  unfold filter_decimate. erewrite bnd_val by (apply assert_true; exact RE). rewrite ER.
  assert (X : collect (de_ins c) false m = (m, Val [])).
  { induction (de_ins c) as [|n t IH]; [reflexivity|]. simpl.
    rewrite (H n (or_introl eq_refl)). apply IH. intros k K. apply H. right. exact K. }
  erewrite bnd_val by exact X. reflexivity.
Qed.

(** What does hold: with that option off, inputs the map lacks count as if they were not listed. *)
Definition with_inputs (c : DecCfg) (ins : list Name) : DecCfg :=
  mkDec ins (de_error_missing c) (de_out c) (de_method c) (de_min_pts c) (de_res c) (de_robin c)
        (de_flatten c) (de_realized c).

Lemma pass_small_inputs c ins : forall srcs m, pass_small (with_inputs c ins) srcs m = pass_small c srcs m.
Proof.
  induction srcs as [|s t IH]; intro m; [reflexivity|].
  cbn [pass_small with_inputs de_min_pts de_out].
  assert (X : forall l m0, bnd (each (pass_pt (with_inputs c ins)) l) (fun _ => pass_small (with_inputs c ins) t) m0
     = bnd (each (pass_pt c) l) (fun _ => pass_small c t) m0).
  { intros l m0. unfold bnd. change (pass_pt (with_inputs c ins)) with (pass_pt c).
    destruct (each (pass_pt c) l m0) as [m2 [[]| | |]]; try reflexivity. apply IH. }
  destruct (de_min_pts c <? _)%nat; [unfold bnd; rewrite IH; reflexivity|].
  destruct s; [destruct (_ && _)%bool; [reflexivity|]|]; apply X.
Qed.

Theorem C71_missing_as_if_not_listed : forall c ords ordm rnd sg mg m present,
  de_error_missing c = false ->
  (forall n, present n = true <-> lfind m n <> None) ->
  filter_decimate c ords ordm rnd sg mg m
  = filter_decimate (with_inputs c (filter present (de_ins c))) ords ordm rnd sg mg m.
Proof.
  intros c ords ordm rnd sg mg m present ER H.
  assert (X : collect (de_ins c) false m = collect (filter present (de_ins c)) false m).
  { induction (de_ins c) as [|n t IH]; [reflexivity|]. cbn [filter]. specialize (H n).
    destruct (present n) eqn:E.
    - cbn [collect]. destruct (lfind m n) as [[]|] eqn:F.
      + unfold bnd. rewrite IH. reflexivity.
      + destruct (ot_points _); [|reflexivity]. unfold bnd. rewrite IH. reflexivity.
      + reflexivity.
      + exact IH.
    - cbn [collect]. destruct (lfind m n) eqn:F; [|exact IH].
      assert (false = true) by (apply H; discriminate). discriminate. }
  unfold filter_decimate. cbn [with_inputs de_ins de_error_missing de_out de_method de_min_pts de_res de_robin de_flatten de_realized].
  rewrite ER. unfold bnd. destruct (massert (de_realized c) m) as [m1 [[]| | |]] eqn:Y; try reflexivity.
  assert (m1 = m) by (unfold massert, ret, throw in Y; destruct (de_realized c); injection Y as <-; try reflexivity; discriminate).
  subst m1. unfold bnd. rewrite X. clear X. destruct (collect (filter present (de_ins c)) false m) as [m1 [[|s0 srcs]| | |]]; try reflexivity.
  destruct (massert _ m1) as [m2 [[]| | |]]; try reflexivity.
  destruct (get_or_create _ _ _ m2) as [m3 [b| | |]]; try reflexivity.
  destruct (0 <? de_min_pts c)%nat; [|reflexivity]. rewrite pass_small_inputs.
  destruct (pass_small c (s0 :: srcs) m3) as [m4 [big| | |]]; reflexivity.
Qed.

Example C71_skips_example :
  fst (filter_decimate (mkDec ["nope"; "raw"; "gone"] false "out" FirstPoint 0 1 true None true) (@rev _) (@rev _) rnd0 sg0 mg0 dex_map)
  = fst (filter_decimate (mkDec ["raw"] false "out" FirstPoint 0 1 true None true) (@rev _) (@rev _) rnd0 sg0 mg0 dex_map).
Proof. reflexivity. Qed.

Example C71_example :
  filter_decimate (mkDec ["nope"] false "out" FirstPoint 0 1 true None true) (@rev _) (@rev _) rnd0 sg0 mg0 dex_map
  = (dex_map, Exc).
Proof. reflexivity. Qed.
