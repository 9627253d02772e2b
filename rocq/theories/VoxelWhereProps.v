(** C68-C70, C72, C73: exactly when the properties that the voxel grids and decimation filters
    do not have in general hold. *)
From Coq Require Import String Permutation.
From Verif Require Import Base FilterModel FilterSpec FilterProofs FilterProofs2 VoxelModel VoxelSpec VoxelProofs VoxelProofs2 VoxelProps DecimateProps AdaptiveProps.
Open Scope string_scope.
Open Scope list_scope.
Open Scope nat_scope.

(** ** C68: the processed points are reported exactly with the hash map (or if there are none) *)
Theorem C68_reported_where : forall g res robin clouds, (g_min_dist g == 0)%Q ->
  let v := g_visit (fold_left g_process clouds (g_configure g res robin)) in
  ((forall cloud i p, In cloud clouds -> nth_error cloud i = Some p ->
      exists is, In (key_of res p, is) v /\ In i is)
   <-> robin = true \/ concat clouds = []).
Proof.
  intros g res robin clouds D v. split.
  - intro H. destruct robin; [left; reflexivity|right].
    destruct (concat clouds) as [|p t] eqn:E; [reflexivity|exfalso].
    assert (I : In p (concat clouds)) by (rewrite E; left; reflexivity).
    apply in_concat in I as [cl [I J]]. apply In_nth_error in J as [i J].
    destruct (H cl i p I J) as [is [X _]]. unfold v in X.
    destruct (C68_std_map_flavour_reports_nothing_refuted g res clouds) as [Y _]. rewrite Y in X. exact X.
  - intros [->|E] cl i p I J.
    + destruct (C42_full_grid g res clouds D) as [_ F]. fold v in F.
      assert (X : In i (flat_map (in_voxel res (key_of res p)) clouds)).
      { apply in_flat_map. exists cl. split; [exact I|]. apply in_voxel_iff. exists p. split; [exact J|reflexivity]. }
      exists (flat_map (in_voxel res (key_of res p)) clouds). split; [|exact X].
      apply F. split; [|reflexivity]. intro Z. rewrite Z in X. exact X.
    + exfalso. assert (X : In p (concat clouds)) by (apply in_concat; exists cl; split; [exact I|exact (nth_error_In _ _ J)]).
      rewrite E in X. exact X.
Qed.

(** ** C69: one point per voxel with the first-point method (either flavour) or the hash map *)
Theorem C69_one_per_voxel_where : forall c ords ordm rnd sg mg m n0 c0,
  de_realized c = true -> (g_min_dist mg == 0)%Q ->
  de_ins c = [n0] -> lfind m n0 = Some (LPts c0) -> small c (cl_pts c0) = false ->
  de_out c <> "" -> usable m (de_out c) -> n0 <> de_out c ->
  (forall l, Permutation (ords l) l) -> (forall l, Permutation (ordm l) l) ->
  ((exists m' kr out, filter_decimate c ords ordm rnd sg mg m = (m', Val tt) /\
      OnePerVoxel (de_res c) (cl_pts c0) (Promise (de_method c)) kr /\
      Written (de_flatten c) kr out /\ Grew m m' (de_out c) (cl_cls c0) out)
   <-> de_method c = FirstPoint \/ de_robin c = true \/ cl_pts c0 = []).
Proof.
  intros c ords ordm rnd sg mg m n0 c0 RE MD INS F0 SM NE U NI P1 P2. split.
  - intros (m' & kr & out & R & O & W & G).
    destruct (de_method c) eqn:ME; [left; reflexivity|right..];
      (destruct (de_robin c) eqn:RO; [left; reflexivity|right];
       destruct (C69_std_map_flavour_drops_everything_refuted c ords ordm rnd sg mg m n0 c0) as [m2 [R2 G2]]; try assumption; [congruence|];
       rewrite R2 in R; injection R as <-;
       assert (OUT : out = []);
       [ destruct G as [G _], G2 as [G2 _];
         destruct (lfind m (de_out c)) as [[d|?|]|]; rewrite G in G2; injection G2 as Q;
           try (apply (f_equal (@List.length _)) in Q; rewrite ?app_length, ?map_length in Q; simpl in Q;
                destruct out; [reflexivity|simpl in Q; lia])
       | ];
       destruct kr as [|[k p] kr];
       [ destruct O as (_ & O & _);
         destruct (cl_pts c0) as [|q t]; [reflexivity|]; exfalso; apply (proj2 (O (key_of (de_res c) q)));
         exists q; split; [left; reflexivity|reflexivity]
       | exfalso; unfold Written in W; destruct (de_flatten c) as [z|];
         [ destruct W as (sel & (_ & _ & S) & Q); rewrite OUT in Q; destruct sel; [|discriminate];
           exact (S (k, p) (or_introl eq_refl))
         | rewrite OUT in W; discriminate ] ]).
  - intro H. assert (D : de_method c = FirstPoint \/ de_method c <> FirstPoint)
      by (destruct (de_method c); [left; reflexivity|right; discriminate..]).
    destruct D as [ME|ME].
    + destruct (C43_first_point c ords ordm rnd sg mg m n0 [] c0) as (m' & kr & out & R & O & W & G); try assumption.
      * intros k K. rewrite INS in K. destruct K as [<-|[]]. exists c0. exact F0.
      * rewrite INS. intros [X|[]]. congruence.
      * unfold big_pts, small_pts in *. rewrite INS in O, G. cbn [filter map] in O, G.
        assert (PO : pts_of m n0 = cl_pts c0) by (unfold pts_of; rewrite F0; reflexivity).
        rewrite PO, SM in O, G. cbn [negb concat map app] in O, G. rewrite PO, app_nil_r in O.
        exists m', kr, out. rewrite ME. auto.
    + destruct (de_robin c) eqn:RO; [apply C43_other_methods with (n0 := n0); assumption|].
      destruct H as [H|[H|H]]; [contradiction|discriminate|].
      destruct (C69_std_map_flavour_drops_everything_refuted c ords ordm rnd sg mg m n0 c0) as [m2 [R2 G2]]; try assumption.
      exists m2, [], []. split; [exact R2|]. split; [|split; [|exact G2]].
      * rewrite H. split; [constructor|]. split; [|intros k p []]. intro k. split; [intros []|intros [p [[] _]]].
      * unfold Written. destruct (de_flatten c); [|reflexivity]. exists []. split; [|reflexivity].
        split; [constructor|]. split; intros kv [].
Qed.

(** ** C70 *)
Lemma each_ok {A} (f : A -> M unit) (g : A -> Pt) n : (forall a, f a = insert_from n (g a)) ->
  forall l m d, lfind m n = Some (LPts d) -> exists m', each f l m = (m', Val tt).
Proof.
  intros EQ l m d L. destruct (each_insert g n l m d L) as [m' [R _]]. exists m'. rewrite <- R. clear R L.
  revert m. induction l as [|a l IH]; intro m; [reflexivity|]. cbn [each]. unfold bnd. rewrite EQ.
  destruct (insert_from n (g a) m) as [m1 [[]| | |]]; try reflexivity. apply IH.
Qed.
Lemma dec_multi_ok c ordm rnd mg s m d : lfind m (de_out c) = Some (LPts d) ->
  exists m', dec_multi c ordm rnd mg [s] m = (m', Val tt).
Proof.
  intro L. unfold dec_multi. destruct (de_flatten c).
  - eapply each_ok; [|exact L]. intro a. unfold insert_xyz. reflexivity.
  - eapply (each_ok _ (fun kv : Key * (bool * Pt) =>
        if fst (snd kv) then mkPt (px (snd (snd kv))) (py (snd (snd kv))) (pz (snd (snd kv))) 0 0%Z 0 else snd (snd kv))); [|exact L].
    intro a. destruct (fst (snd a)); reflexivity.
Qed.
Lemma one_left {A} (f : A -> bool) l : (exists a, filter (fun x => negb (f x)) l = [a]) <->
  exists before n after, l = before ++ n :: after /\ f n = false /\ forall k, In k before \/ In k after -> f k = true.
Proof.
  assert (NIL : forall l, filter (fun x => negb (f x)) l = [] <-> forall k, In k l -> f k = true).
  { clear l. induction l as [|x l IH]; cbn [filter]; [split; [intros _ k []|reflexivity]|].
    destruct (f x) eqn:E; cbn [negb].
    - rewrite IH. split; [intros H k [<-|I]; auto|intros H k I; apply H; right; exact I].
    - split; [discriminate|]. intro H. rewrite (H x (or_introl eq_refl)) in E. discriminate. }
  induction l as [|x l IH]; cbn [filter].
  - split; [intros [a E]; discriminate|]. intros (b & n & t & E & _). destruct b; discriminate.
  - destruct (f x) eqn:E; cbn [negb].
    + rewrite IH. split.
      * intros (b & n & t & -> & F & G). exists (x :: b), n, t. split; [reflexivity|]. split; [exact F|].
        intros k [[<-|I]|I]; auto.
      * intros (b & n & t & EQ & F & G). destruct b as [|y b]; injection EQ as -> ->; [congruence|].
        exists b, n, t. split; [reflexivity|]. split; [exact F|]. intros k [I|I]; apply G; [left; right|right]; exact I.
    + split.
      * intros [a EQ]. injection EQ as -> EQ. exists [], a, l. split; [reflexivity|]. split; [exact E|].
        intros k [[]|I]. exact (proj1 (NIL l) EQ k I).
      * intros (b & n & t & EQ & F & G). destruct b as [|y b]; injection EQ as -> ->.
        -- exists n. f_equal. apply NIL. auto.
        -- rewrite G in E; [discriminate|]. left. left. reflexivity.
Qed.

(** With the first-point method every small input is copied and the call succeeds; with the other
    methods the call succeeds exactly if one input, and only one, is not small. *)
Theorem C70_succeeds_where : forall c ords ordm rnd sg mg m n0 rest c0,
  de_realized c = true ->
  de_ins c = n0 :: rest -> lfind m n0 = Some (LPts c0) -> inputs_ok m (de_ins c) ->
  de_out c <> "" -> usable m (de_out c) -> ~ In (de_out c) (de_ins c) ->
  (forall l, Permutation (ords l) l) ->
  ((exists m', filter_decimate c ords ordm rnd sg mg m = (m', Val tt)) <->
   de_method c = FirstPoint \/
   exists before n after, de_ins c = before ++ n :: after /\ small c (pts_of m n) = false /\
     (forall k, In k before \/ In k after -> small c (pts_of m k) = true)).
Proof.
  intros c ords ordm rnd sg mg m n0 rest c0 RE INS F0 IO NE U NI P.
  assert (D : de_method c = FirstPoint \/ de_method c <> FirstPoint)
      by (destruct (de_method c); [left; reflexivity|right; discriminate..]).
  destruct D as [ME|ME].
  { split; [intros _; left; exact ME|]. intros _.
    destruct (C43_first_point c ords ordm rnd sg mg m n0 rest c0 RE ME INS F0 IO NE U NI P) as (m' & _ & _ & R & _).
    exists m'. exact R. }
  set (m1 := created m [de_out c] (cl_cls c0)).
  assert (F1 : forall k, k <> de_out c -> lfind m1 k = lfind m k).
  { intros k K. unfold m1. rewrite (created_find [de_out c] m (cl_cls c0) k).
    destruct (lfind m k); [reflexivity|]. simpl. rewrite (seqb_neq k _ K). reflexivity. }
  assert (OUT1 : exists d, lfind m1 (de_out c) = Some (LPts d)).
  { unfold m1. rewrite (created_find [de_out c] m (cl_cls c0) (de_out c)).
    destruct U as [U|[U|[d U]]]; [contradiction| |].
    - rewrite U. simpl. rewrite seqb_refl, (seqb_neq _ _ NE). simpl. eexists; reflexivity.
    - rewrite U. exists d. reflexivity. }
  destruct OUT1 as [d OUT1].
  assert (IO1 : inputs_ok m1 (de_ins c)).
  { intros k K. destruct (IO k K) as [cl L]. exists cl. rewrite F1; [exact L|intros ->; contradiction]. }
  destruct (pass_stage c m1 d OUT1 IO1 NI) as [m2 [R2 [d2 [A2 [B2 C2]]]]].
  assert (SAME : filter (fun n => negb (small c (pts_of m1 n))) (de_ins c) = filter (fun n => negb (small c (pts_of m n))) (de_ins c)).
  { apply filter_ext_in. intros a K. unfold pts_of. rewrite F1; [reflexivity|intros ->; contradiction]. }
  rewrite SAME in R2. clear SAME.
  assert (RUN : filter_decimate c ords ordm rnd sg mg m =
     dec_multi c ordm rnd mg (map SLayer (filter (fun n => negb (small c (pts_of m n))) (de_ins c))) m2).
  { unfold filter_decimate. erewrite bnd_val by (apply assert_true; exact RE).
    erewrite bnd_val by (apply collect_ok; exact IO). 
    set (big := map SLayer (filter (fun n => negb (small c (pts_of m n))) (de_ins c))) in *. clearbody big.
    rewrite INS. cbn [map]. rewrite INS in R2. cbn [map] in R2.
    erewrite bnd_val by (apply assert_true; apply negb_true_iff, seqb_neq; exact NE).
    erewrite bnd_val with (m' := m1) (a := true).
    2:{ unfold read_src. rewrite F0. apply goc_false; [exact NE|exact U]. }
    erewrite bnd_val by exact R2. unfold use_single. destruct (de_method c); [congruence|reflexivity..]. }
  rewrite RUN. rewrite <- (one_left (fun n => small c (pts_of m n))). split.
  - intros [m' E]. right. destruct (filter _ (de_ins c)) as [|x [|y t]]; [discriminate| |discriminate]. exists x. reflexivity.
  - intros [X|[x E]]; [contradiction|]. rewrite E. cbn [map]. eapply dec_multi_ok. exact B2.
Qed.

(** ** C72 *)
(** If no more dense voxels than the target, but enough for it (one point of each), the target is
    reached exactly. *)
Theorem C72_target_reached_where : forall c res rnd_div ordm g0 m src ks,
  ad_enabled c = true -> (g_min_dist g0 == 0)%Q -> (forall v, Permutation (ordm v) v) ->
  lfind m (ad_in c) = Some (LPts src) -> ad_out c <> "" -> usable m (ad_out c) -> ad_in c <> ad_out c ->
  DenseVoxels res (ad_min_per_voxel c) (cl_pts src) ks -> ks <> [] ->
  let had := List.length (pts_of m (ad_out c)) in
  had <= ad_desired c -> List.length ks <= ad_desired c -> ad_desired c <= had + List.length ks ->
  exists fuel0 m' idxs, forall fuel, fuel0 <= fuel ->
    filter_adaptive fuel c res rnd_div ordm g0 m = (m', Val tt) /\
    Grew m m' (ad_out c) SimplePoints (points_at (cl_pts src) idxs) /\ NoDup idxs /\
    had + List.length idxs = ad_desired c.
Proof.
  intros c res rnd_div ordm g0 m src ks EN MD P F NE U NI DV KS had H1 H2 H3.
  destruct (C44_distinct_bounded c res rnd_div ordm g0 m src ks EN MD P F NE U NI DV KS) as (f0 & m' & idxs & H).
  exists f0, m', idxs. intros fuel L. destruct (H fuel L) as (R & G & ND & _ & B & _ & X). fold had in B, X.
  specialize (X H2). split; [exact R|]. split; [exact G|]. split; [exact ND|]. lia.
Qed.

(** ** C73 *)
(** Without any dense voxel: nothing is added exactly if the output already had the target number
    of points (otherwise the behaviour is undefined). *)
Theorem C73_no_dense_voxel_where : forall c res rnd_div ordm g0 m src fuel,
  ad_enabled c = true -> (g_min_dist g0 == 0)%Q -> (forall v, Permutation (ordm v) v) ->
  lfind m (ad_in c) = Some (LPts src) -> ad_out c <> "" -> usable m (ad_out c) -> ad_in c <> ad_out c ->
  DenseVoxels res (ad_min_per_voxel c) (cl_pts src) [] ->
  ((exists m', filter_adaptive (S fuel) c res rnd_div ordm g0 m = (m', Val tt) /\ Grew m m' (ad_out c) SimplePoints [])
   <-> ad_desired c <= List.length (pts_of m (ad_out c))).
Proof.
  intros c res rnd_div ordm g0 m src fuel EN MD P F NE U NI DV. split.
  - intros [m' [E _]]. destruct (Nat.le_gt_cases (ad_desired c) (List.length (pts_of m (ad_out c)))) as [L|L]; [exact L|].
    pose proof (C73_no_dense_voxel_undefined_refuted fuel c res rnd_div ordm g0 m src EN MD P F NE U NI DV L) as X.
    rewrite E in X. discriminate.
  - intro L. set (m1 := created m [ad_out c] SimplePoints).
    assert (OUT1 : exists d, lfind m1 (ad_out c) = Some (LPts d) /\ List.length (cl_pts d) = List.length (pts_of m (ad_out c))).
    { unfold m1. rewrite (created_find [ad_out c] m SimplePoints (ad_out c)). unfold pts_of.
      destruct U as [U|[U|[d U]]]; [contradiction| |].
      - rewrite U. simpl. rewrite seqb_refl, (seqb_neq _ _ NE). simpl. eexists; split; reflexivity.
      - rewrite U. exists d. split; reflexivity. }
    destruct OUT1 as [d [OUT1 HAD]]. exists m1. split.
    + unfold filter_adaptive. rewrite EN. cbn [negb].
      erewrite bnd_val by (apply input_ok; exact F).
      erewrite bnd_val with (m' := m1) (a := negb (String.eqb (ad_out c) "")) by (apply goc_usable; exact U).
      rewrite (seqb_neq _ _ NE). unfold read_src. rewrite OUT1, HAD. cbn [ad_loop].
      replace (List.length (pts_of m (ad_out c)) + List.length (@nil nat) <? ad_desired c) with false; [reflexivity|].
      symmetry. apply Nat.ltb_ge. cbn [List.length]. lia.
    + eapply appended_grew; [exact NE|exact U|reflexivity|]. eapply Appended_nil. exact OUT1.
Qed.

(** Non-vacuity: the cloud of C72 with a target of 2; two clouds, one small. *)
Example voxel_where_case :
  counted (filter_adaptive 50 (ad_cfg 2 1) 1 Nat.div (fun v => v) mg0 ad_map) = (Some 2, Val tt) /\
  snd (filter_decimate (dex VoxelAverage ["few"; "raw"] None 1) (@rev _) (fun l => l) rnd0 sg0 mg0 dex_map) = Val tt.
Proof. split; vm_compute; reflexivity. Qed.
