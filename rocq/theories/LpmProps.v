(** C300-C304: the ICP wrapper of libpointmatcher. *)
From Coq Require Import String Reals Lra Psatz.
From Verif Require Import Base CovModel GeomModel RotProofs HornProofs SmCliModel SmCliProps LpmModel LpmSpec.
Open Scope nat_scope.

(** Triangle inequality *)
Lemma vnorm_nonneg a : (0 <= vnorm a)%R. Proof. apply sqrt_pos. Qed.
Lemma vnorm_sq a : (vnorm a * vnorm a = vnorm2 a)%R.
Proof. apply sqrt_def. unfold vnorm2, vdot. nra. Qed.
Lemma cauchy a b : (vdot a b <= vnorm a * vnorm b)%R.
Proof.
  destruct (Rle_dec (vdot a b) 0) as [N | P].
  - assert (A := vnorm_nonneg a). assert (B := vnorm_nonneg b). nra.
  - assert (A := vnorm_nonneg a). assert (B := vnorm_nonneg b).
    apply Rsqr_incr_0; [| lra | nra]. unfold Rsqr.
    replace (vnorm a * vnorm b * (vnorm a * vnorm b))%R with ((vnorm a * vnorm a) * (vnorm b * vnorm b))%R by ring.
    rewrite !vnorm_sq. assert (L : (vdot a b * vdot a b + vnorm2 (vcross a b) = vnorm2 a * vnorm2 b)%R).
    { unfold vnorm2, vcross, vdot. cbn [vx vy vz]. ring. }
    assert (Z : (0 <= vnorm2 (vcross a b))%R) by (unfold vnorm2, vdot; nra). lra.
Qed.
Lemma vnorm_add a b : (vnorm (vadd a b) <= vnorm a + vnorm b)%R.
Proof.
  assert (A := vnorm_nonneg a). assert (B := vnorm_nonneg b). assert (C := vnorm_nonneg (vadd a b)).
  apply Rsqr_incr_0; [| lra | lra]. unfold Rsqr. rewrite vnorm_sq.
  assert (E : (vnorm2 (vadd a b) = vnorm2 a + 2 * vdot a b + vnorm2 b)%R) by (unfold vnorm2, vadd, vdot; cbn [vx vy vz]; ring).
  rewrite E, <- !vnorm_sq. assert (X := cauchy a b). nra.
Qed.
Lemma near_vnorm p q : near (5 / 10000000) p q -> (vnorm (vsub p q) <= 1 / 1000000)%R.
Proof.
  intros (X & Y & Z). unfold vnorm. rewrite <- (sqrt_Rsqr (1 / 1000000)) by lra. apply sqrt_le_1_alt.
  unfold Rsqr, vnorm2, vdot, vsub. cbn [vx vy vz].
  assert (S : forall a, (Rabs a <= 5 / 10000000)%R -> (a * a <= 25 / 100000000000000)%R).
  { intros a Ha. apply Rabs_def2 in Ha || idtac. assert (M := Rabs_pos a). replace (a * a)%R with (Rabs a * Rabs a)%R by (rewrite <- Rabs_mult; apply Rabs_right; nra). nra. }
  apply S in X, Y, Z. lra.
Qed.

Lemma sum_bound (ny nz db v eps : R) : (ny <= 1 / 1000000 -> nz <= 1 / 1000000 -> db <= eps -> v <= db + nz -> ny + v <= eps + 2 / 1000000)%R.
Proof. lra. Qed.

Lemma compose_sub T u v : vsub (compose T u) (compose T v) = rotate T (vsub u v).
Proof.
  destruct T as [[t1 t2 t3] [t4 t5 t6] [t7 t8 t9] [ta tb tc]], u as [u1 u2 u3], v as [v1 v2 v3].
  unfold compose, rotate, vsub, vadd, vscale. cbn [vx vy vz c0 c1 c2 tr]. f_equal; ring.
Qed.
Lemma split_error T guess x y z b : vsub (compose T (compose guess x)) z =
  vadd (rotate T (rotate guess (vsub x y))) (vadd (vsub (compose T (compose guess y)) b) (vsub b z)).
Proof.
  rewrite <- compose_sub, <- compose_sub. generalize (compose T (compose guess x)), (compose T (compose guess y)). intros [p1 p2 p3] [q1 q2 q3].
  destruct z as [z1 z2 z3], b as [w1 w2 w3]. unfold vsub, vadd. cbn [vx vy vz]. f_equal; ring.
Qed.

Section Props.
Variable fmt : R -> R.
Variable rigid : Pose -> bool.
Variable matcher : string -> list V3 -> list V3 -> res (option Pose).
Variable checker0 : string -> list V3 -> list V3 -> option nat.
Variable quality : PMap -> PMap -> Pose -> res Q.
Context {PtPt PtLn LnLn PtPl PlPl Mat : Type}.
Variable f_pt2pt : PtPt -> Pose -> E3 R.
Variable f_pt2ln : PtLn -> Pose -> E3 R.
Variable f_ln2ln : LnLn -> Pose -> E4 R.
Variable f_pt2pl : PtPl -> Pose -> E3 R.
Variable f_pl2pl : PlPl -> Pose -> E3 R.
Variable fallback : Mat.
Variable estimate : (Pose -> res (list (option R))) -> Pose -> res Mat.
Context {Params : Type}.
Variable debug_files : Params -> bool.
Notation align := (lpm_align fmt rigid matcher checker0 quality f_pt2pt f_pt2ln f_ln2ln f_pt2pl f_pl2pl fallback estimate debug_files).

Lemma fmt3_near v : six_decimals fmt -> near (5 / 10000000) (fmt3 fmt v) v.
Proof. intro F. unfold near, fmt3. cbn [vx vy vz]. split; [apply F|]. split; apply F. Qed.

Lemma to_pm_ok m : no_null_layer m -> points_to_pm fmt (pm_layers m) = Ok (map (fmt3 fmt) (points_of m)).
Proof.
  unfold no_null_layer, points_of. induction (pm_layers m) as [|[k l] r IH]; [reflexivity|].
  intro N. assert (N' : forall k, ~ In (k, PNull) r) by (intros k' H; apply (N k'); right; exact H).
  destruct l as [p|[p|]| |]; [| | | |exfalso; apply (N k); left; reflexivity];
    cbn [points_to_pm flat_map layer_points snd]; rewrite (IH N'); cbn [rbind]; rewrite ?map_app; reflexivity.
Qed.
Lemma to_pm_null m : ~ no_null_layer m -> points_to_pm fmt (pm_layers m) = UB.
Proof.
  unfold no_null_layer. intro N. assert (E : exists k, In (k, PNull) (pm_layers m)).
  { induction (pm_layers m) as [|[k l] r IH]; [exfalso; apply N; intros k []|].
    destruct l; try (destruct IH as (k' & I); [intro H; apply N; intros k' [X | X]; [discriminate X | exact (H k' X)] | exists k'; right; exact I]).
    exists k. left. reflexivity. }
  destruct E as (k & I). clear N. induction (pm_layers m) as [|[k' l] r IH]; [destruct I|].
  destruct I as [X | I]; [injection X as _ ->; reflexivity|].
  destruct l; cbn [points_to_pm]; rewrite ?(IH I); reflexivity.
Qed.
Lemma points_only_zero l : pm_points_only l = 0 <-> ~ exists k p, In (k, PPoints p) l /\ p <> [].
Proof.
  induction l as [|[k l] r IH].
  - split; [intros _ (k & p & [] & _) | reflexivity].
  - destruct l as [p|o| |]; cbn [pm_points_only].
    + split.
      * intros E (k' & p' & [X | X] & N).
        -- injection X as _ ->. destruct p'; [congruence | discriminate E].
        -- apply IH; [lia|]. exists k', p'. split; assumption.
      * intro N. destruct p as [|a p]; [|exfalso; apply N; exists k, (a :: p); split; [left; reflexivity | discriminate]].
        apply IH. intros (k' & p' & I & N'). apply N. exists k', p'. split; [right; exact I | exact N'].
    + rewrite IH. split; intros N (k' & p' & I & N'); apply N; exists k', p'; (split; [|exact N']).
      * destruct I as [X | I]; [discriminate X | exact I].
      * right. exact I.
    + rewrite IH. split; intros N (k' & p' & I & N'); apply N; exists k', p'; (split; [|exact N']).
      * destruct I as [X | I]; [discriminate X | exact I].
      * right. exact I.
    + rewrite IH. split; intros N (k' & p' & I & N'); apply N; exists k', p'; (split; [|exact N']).
      * destruct I as [X | I]; [discriminate X | exact I].
      * right. exact I.
Qed.
Lemma size_zero m : pm_size m = 0 <-> ~ has_some_primitive m.
Proof.
  unfold pm_size, has_some_primitive. split.
  - intros E [H | [H | H]]; [lia | lia |]. assert (Z : pm_points_only (pm_layers m) = 0) by lia. apply points_only_zero in Z. exact (Z H).
  - intro N. assert (Z : pm_points_only (pm_layers m) = 0) by (apply points_only_zero; intro H; apply N; right; right; exact H).
    destruct (Nat.eq_dec (pm_lines m) 0) as [A | A]; [|exfalso; apply N; left; exact A].
    destruct (Nat.eq_dec (pm_planes m) 0) as [B | B]; [|exfalso; apply N; right; left; exact B]. lia.
Qed.
Lemma empty_no_size m : pm_empty m = true -> pm_size m = 0.
Proof.
  unfold pm_empty, pm_size. destruct (pm_layers m); [|discriminate]. intro E. apply andb_prop in E. destruct E as [A B].
  apply Nat.eqb_eq in A, B. cbn [pm_points_only]. lia.
Qed.

(** What an accepted call does. *)
Lemma null_dec m : {no_null_layer m} + {~ no_null_layer m}.
Proof.
  unfold no_null_layer. induction (pm_layers m) as [|[k l] t IH]; [left; intros k []|].
  destruct l; try (destruct IH as [IH | IH]; [left; intros k' [Y | Y]; [discriminate Y | exact (IH k' Y)]
    | right; intro H; apply IH; intros k' Y; apply (H k'); right; exact Y]).
  right. intro H. apply (H k). left. reflexivity.
Qed.
Lemma prim_dec m : pm_size m <> 0 -> has_some_primitive m.
Proof.
  unfold pm_size, has_some_primitive. intro N. destruct (Nat.eq_dec (pm_lines m) 0) as [A | A]; [|left; exact A].
  destruct (Nat.eq_dec (pm_planes m) 0) as [B | B]; [|right; left; exact B]. right. right.
  assert (Z : pm_points_only (pm_layers m) <> 0) by lia. clear - Z.
  induction (pm_layers m) as [|[k l] t IH]; [exfalso; apply Z; reflexivity|]. destruct l as [p|o| |]; cbn [pm_points_only] in Z.
  - destruct p as [|a p].
    + destruct (IH Z) as (k' & p' & I & N). exists k', p'. split; [right; exact I | exact N].
    + exists k, (a :: p). split; [left; reflexivity | discriminate].
  - destruct (IH Z) as (k' & p' & I & N). exists k', p'. split; [right; exact I | exact N].
  - destruct (IH Z) as (k' & p' & I & N). exists k', p'. split; [right; exact I | exact N].
  - destruct (IH Z) as (k' & p' & I & N). exists k', p'. split; [right; exact I | exact N].
Qed.
Lemma align_inv s L G guess p want r given saved : align s L G guess p want = Ok (r, given, saved) ->
  no_null_layer L /\ no_null_layer G /\
  List.length (pm_layers L) = List.length (pm_layers G) /\ s <> EmptyString /\ has_some_primitive L /\ has_some_primitive G /\
  points_of L <> [] /\ points_of G <> [] /\
  let A := map (compose (if rigid guess then guess else id_pose)) (map (fmt3 fmt) (points_of L)) in
  let B := map (fmt3 fmt) (points_of G) in
  exists out q, matcher s A B = Ok out /\
    let pose := match out with Some T => pose_mul guess T | None => guess end in
    quality G L pose = Ok q /\
    r = mkLR pose (Some fallback) 1 (match checker0 s A B with Some n => n | None => 1 end) Stalled q no_pairs /\
    given = (if want then Some (mkLL _ G L guess p r) else None) /\
    saved = (if debug_files p then Some (mkLL _ G L guess p r) else None).
Proof.
  unfold lpm_align. destruct (Nat.eqb_spec (List.length (pm_layers L)) (List.length (pm_layers G))) as [EL | ]; [|discriminate]. cbn [negb].
  destruct (pm_empty L || pm_empty G); [discriminate|].
  destruct (String.eqb_spec s EmptyString) as [|NS]; [discriminate|].
  destruct (Nat.eqb_spec (pm_size L) 0) as [|SL]; [discriminate|].
  destruct (Nat.eqb_spec (pm_size G) 0) as [|SG]; [discriminate|].
  destruct (null_dec L) as [NL | NL]; [|rewrite (to_pm_null L NL); discriminate]. rewrite (to_pm_ok L NL). cbn [rbind].
  destruct (null_dec G) as [NG | NG]; [|rewrite (to_pm_null G NG); discriminate]. rewrite (to_pm_ok G NG). cbn [rbind].
  rewrite !map_length.
  destruct (Nat.eqb_spec (List.length (points_of L)) 0) as [|PL]; [discriminate|].
  destruct (Nat.eqb_spec (List.length (points_of G)) 0) as [|PG]; [discriminate|].
  set (A := map (compose _) (map _ (points_of L))). set (B := map (fmt3 fmt) (points_of G)).
  intro H. split; [exact NL|]. split; [exact NG|]. split; [exact EL|]. split; [exact NS|].
  split; [exact (prim_dec L SL)|]. split; [exact (prim_dec G SG)|].
  split; [intro X; apply PL; rewrite X; reflexivity|]. split; [intro X; apply PG; rewrite X; reflexivity|].
  destruct (matcher s A B) as [out | |] eqn:EM; [|discriminate H|discriminate H]. cbn [rbind] in H.
  exists out. destruct out as [T|].
  - cbn [lr_quality new_result lr_pose lr_cov lr_scale lr_reason lr_pairs lr_iterations] in H.
    destruct (quality G L (pose_mul guess T)) as [q | |] eqn:EQ; [|discriminate H|discriminate H].
    cbn [rbind lr_quality lr_pose lr_cov lr_scale lr_reason lr_pairs lr_iterations new_result covariance cov_empty no_pairs cp_pt2pt cp_pt2ln cp_ln2ln cp_pt2pl cp_pl2pl] in H.
    exists q. split; [reflexivity|]. split; [reflexivity|].
    injection H as <- <- <-. split; [reflexivity|]. split; [destruct want; [reflexivity|]; destruct (debug_files p); reflexivity|].
    destruct want, (debug_files p); reflexivity.
  - cbn [lr_quality new_result lr_pose lr_cov lr_scale lr_reason lr_pairs lr_iterations] in H.
    destruct (quality G L guess) as [q | |] eqn:EQ; [|discriminate H|discriminate H].
    cbn [rbind lr_quality lr_pose lr_cov lr_scale lr_reason lr_pairs lr_iterations new_result covariance cov_empty no_pairs cp_pt2pt cp_pt2ln cp_ln2ln cp_pt2pl cp_pl2pl] in H.
    exists q. split; [reflexivity|]. split; [reflexivity|].
    injection H as <- <- <-. split; [reflexivity|]. split; [destruct want; [reflexivity|]; destruct (debug_files p); reflexivity|].
    destruct want, (debug_files p); reflexivity.
Qed.

Lemma texts_near l : six_decimals fmt -> Forall2 (near (5 / 10000000)) (map (fmt3 fmt) l) l.
Proof. intro F. induction l as [|v l IH]; constructor; [apply fmt3_near; exact F | exact IH]. Qed.

(** C303: the matcher is run with the settings given, on every point of both maps - point clouds and occupied voxels,
    layer after layer -, the local ones at the initial guess, each coordinate with six correct decimals; layers of
    another kind take no part.  Its answer alone decides the pose; the scale is 1. *)
Theorem C303_every_point_takes_part : forall s L G guess p want r given saved, six_decimals fmt -> rigid guess = true ->
  align (lpm_initialize s) L G guess p want = Ok (r, given, saved) ->
  exists A B out, given_clouds guess L G A B /\ matcher s A B = Ok out /\ lr_scale r = 1%R /\
    match out with
    | Some T => forall u, compose (lr_pose r) u = compose guess (compose T u)
    | None => lr_pose r = guess
    end.
Proof.
  intros s L G guess p want r given saved F RG H. apply align_inv in H.
  destruct H as (_ & _ & _ & _ & _ & _ & _ & _ & out & q & EM & EQ & -> & _ & _). rewrite RG in EM.
  eexists _, _, out. split; [|split; [exact EM|]].
  - split; [exists (map (fmt3 fmt) (points_of L)); split; [apply texts_near; exact F | reflexivity] | apply texts_near; exact F].
  - split; [reflexivity|]. cbn [lr_pose]. destruct out as [T|]; [intro u; apply compose_mul | reflexivity].
Qed.

(** C300, what holds: the pose returned applies the matcher's motion before the initial guess, not after it.  If the
    two commute (for example: the guess is the identity), and the matcher did bring the cloud it was given onto the
    global one, so does the pose returned, up to the six decimals. *)
Theorem C300_aligned_where : forall eps s L G guess p want r given saved, six_decimals fmt -> is_rotation guess -> rigid guess = true ->
  (forall A B T, matcher s A B = Ok (Some T) -> is_rotation T /\ Brings eps T A B) ->
  align s L G guess p want = Ok (r, given, saved) ->
  (exists A B T, given_clouds guess L G A B /\ matcher s A B = Ok (Some T) /\
     (forall u, compose (lr_pose r) u = compose guess (compose T u)) /\
     ((forall u, compose (lr_pose r) u = compose T (compose guess u)) <-> commute T guess) /\
     (commute T guess -> Brings (eps + 2 / 1000000) (lr_pose r) (points_of L) (points_of G))) \/
  (exists A B, given_clouds guess L G A B /\ matcher s A B = Ok None /\ lr_pose r = guess).
Proof.
  intros eps s L G guess p want r given saved F RG RD GOOD H.
  destruct (C303_every_point_takes_part s L G guess p want r given saved F RD H) as (A & B & out & GC & EM & _ & EP).
  destruct out as [T|]; [left | right; exists A, B; split; [exact GC|]; split; [exact EM | exact EP]].
  exists A, B, T. split; [exact GC|]. split; [exact EM|]. split; [exact EP|].
  split; [split; intros X u; [rewrite <- X, EP; reflexivity | rewrite EP; symmetry; apply X]|].
  intro C. destruct (GOOD A B T EM) as [RT BR]. destruct GC as [(A0 & NA & ->) NB].
  intros x Ix. apply (in_split x) in Ix. destruct Ix as (l1 & l2 & EL). rewrite EL in NA.
  apply Forall2_app_inv_r in NA. destruct NA as (a1 & a2 & _ & N2 & ->). inversion N2 as [|y x' a3 l3 NY _ EA]; subst.
  destruct (BR (compose guess y)) as (b & Ib & Db).
  { apply in_map. apply in_or_app. right. left. reflexivity. }
  apply (in_split b) in Ib. destruct Ib as (b1 & b2 & EB). rewrite EB in NB.
  apply Forall2_app_inv_l in NB. destruct NB as (g1 & g2 & _ & N3 & EG). inversion N3 as [|b' z b3 g3 NZ _ EB' EG']; subst.
  exists z. split; [rewrite EG; apply in_or_app; right; left; reflexivity|].
  rewrite EP, <- C.
  rewrite (split_error T guess x y z b). eapply Rle_trans; [apply vnorm_add|]. assert (V := vnorm_add (vsub (compose T (compose guess y)) b) (vsub b z)).
  assert (N1 : (vnorm (rotate T (rotate guess (vsub x y))) = vnorm (vsub y x))%R).
  { unfold vnorm. rewrite (rotate_norm2 T) by exact RT. rewrite (rotate_norm2 guess) by exact RG.
    f_equal. unfold vnorm2, vdot, vsub. cbn [vx vy vz]. ring. }
  rewrite N1. exact (sum_bound _ _ _ _ _ (near_vnorm _ _ NY) (near_vnorm _ _ NZ) Db V).
Qed.

(** C301: a failed match is not reported: the pose returned is the guess, the reason is that of a converged run, and
    the quality 0 set for the failure is overwritten by that of the guess; it is 0 exactly if the evaluators give 0. *)
Theorem C301_failed_match_where : forall s L G guess p want r given saved,
  (forall A B, matcher s A B = Ok None) ->
  align s L G guess p want = Ok (r, given, saved) ->
  lr_pose r = guess /\ lr_reason r = Stalled /\ quality G L guess = Ok (lr_quality r).
Proof.
  intros s L G guess p want r given saved N H. apply align_inv in H.
  destruct H as (_ & _ & _ & _ & _ & _ & _ & _ & out & q & EM & EQ & -> & _ & _). rewrite N in EM. injection EM as <-.
  split; [reflexivity|]. split; [reflexivity | exact EQ].
Qed.

(** C302: with layers that exist, and a matcher and evaluators that answer, the call succeeds exactly if the maps have
    the same number of layers, the object was initialised, both have a line, a plane or a point of a point cloud, and
    both have some point or occupied voxel; otherwise it throws. *)
Theorem C302_runs_exactly_if : forall s L G guess p want, no_null_layer L -> no_null_layer G ->
  (forall A B, exists out, matcher s A B = Ok out) -> (forall T, exists q, quality G L T = Ok q) ->
  let pre := List.length (pm_layers L) = List.length (pm_layers G) /\ s <> EmptyString /\
    has_some_primitive L /\ has_some_primitive G /\ points_of L <> [] /\ points_of G <> [] in
  (pre -> exists x, align s L G guess p want = Ok x) /\ (~ pre -> align s L G guess p want = Throw).
Proof.
  intros s L G guess p want NL NG MK QK pre.
  assert (D : (exists x, align s L G guess p want = Ok x) \/ align s L G guess p want = Throw /\ ~ pre).
  { unfold lpm_align, pre.
    destruct (Nat.eqb_spec (List.length (pm_layers L)) (List.length (pm_layers G))) as [EL | NE]; cbn [negb];
      [|right; split; [reflexivity|]; intros (X & _); exact (NE X)].
    destruct (pm_empty L) eqn:E1; [right; split; [reflexivity|]; intros (_ & _ & X & _); apply empty_no_size in E1; apply size_zero in E1; exact (E1 X)|].
    destruct (pm_empty G) eqn:E2; [right; split; [reflexivity|]; intros (_ & _ & _ & X & _); apply empty_no_size in E2; apply size_zero in E2; exact (E2 X)|].
    cbn [orb].
    destruct (String.eqb_spec s EmptyString) as [ES|NS]; [right; split; [reflexivity|]; intros (_ & X & _); exact (X ES)|].
    destruct (Nat.eqb_spec (pm_size L) 0) as [SL | SL]; [right; split; [reflexivity|]; intros (_ & _ & X & _); apply size_zero in SL; exact (SL X)|].
    destruct (Nat.eqb_spec (pm_size G) 0) as [SG | SG]; [right; split; [reflexivity|]; intros (_ & _ & _ & X & _); apply size_zero in SG; exact (SG X)|].
    rewrite (to_pm_ok L NL), (to_pm_ok G NG). cbn [rbind]. rewrite !map_length.
    destruct (Nat.eqb_spec (List.length (points_of L)) 0) as [PL | PL];
      [right; split; [reflexivity|]; intros (_ & _ & _ & _ & X & _); apply X; destruct (points_of L); [reflexivity | discriminate PL]|].
    destruct (Nat.eqb_spec (List.length (points_of G)) 0) as [PG | PG];
      [right; split; [reflexivity|]; intros (_ & _ & _ & _ & _ & X); apply X; destruct (points_of G); [reflexivity | discriminate PG]|].
    left. match goal with |- context[matcher s ?A ?B] => destruct (MK A B) as [out EM]; rewrite EM end. cbn [rbind].
    destruct out as [T|].
    - destruct (QK (pose_mul guess T)) as [q EQ]. rewrite EQ. eexists. reflexivity.
    - destruct (QK guess) as [q EQ]. rewrite EQ. eexists. reflexivity. }
  split.
  - intro P. destruct D as [D | [_ N]]; [exact D | exfalso; exact (N P)].
  - intro N. destruct D as [([[r g] sv] & E) | [T _]]; [|exact T]. exfalso. apply N.
    destruct (align_inv _ _ _ _ _ _ _ _ _ E) as (_ & _ & A & B & C & D' & E' & F' & _).
    split; [exact A|]. split; [exact B|]. split; [exact C|]. split; [exact D'|]. split; [exact E' | exact F'].
Qed.
(** in particular, a map whose only contents are voxels is rejected, although the matcher would be given their centers *)
Theorem C302_voxels_alone_are_rejected : forall s L G guess p want, no_null_layer L -> no_null_layer G ->
  (forall A B, exists out, matcher s A B = Ok out) -> (forall T, exists q, quality G L T = Ok q) ->
  pm_lines L = 0 -> pm_planes L = 0 -> (forall k l, In (k, PPoints l) (pm_layers L) -> l = []) ->
  align s L G guess p want = Throw.
Proof.
  intros s L G guess p want NL NG MK QK ZL ZP ZV. apply (C302_runs_exactly_if s L G guess p want NL NG MK QK).
  intros (_ & _ & [X | [X | (k & l & I & N)]] & _); [exact (X ZL) | exact (X ZP) | exact (N (ZV k l I))].
Qed.

(** C304: neither the pairings nor the uncertainty describe the alignment: no pairings are returned and the
    covariance is always the one used when nothing is known. *)
Theorem C304_no_pairings_no_covariance_refuted : forall s L G guess p want r given saved,
  align s L G guess p want = Ok (r, given, saved) ->
  lr_pairs r = mkCP [] [] [] [] [] /\ lr_cov r = Some fallback /\ lr_reason r = Stalled.
Proof.
  intros s L G guess p want r given saved H. apply align_inv in H.
  destruct H as (_ & _ & _ & _ & _ & _ & _ & _ & out & q & EM & EQ & -> & _ & _).
  split; [reflexivity|]. split; reflexivity.
Qed.

(** C305: a record of the call, if asked for or if debug files are on: the maps, the guess and the parameters of this call and
    the result that is returned; the caller gets it exactly if asked for, and a file is written exactly if debug files are on. *)
Theorem C305_record_of_the_call : forall s L G guess p want r given saved,
  align s L G guess p want = Ok (r, given, saved) ->
  let rec_ := Some (mkLL Params G L guess p r) in
  (want = true -> given = rec_) /\ (want = false -> given = None) /\
  (debug_files p = true -> saved = rec_) /\ (debug_files p = false -> saved = None).
Proof.
  intros s L G guess p want r given saved H. apply align_inv in H.
  destruct H as (_ & _ & _ & _ & _ & _ & _ & _ & out & q & EM & EQ & ER & EG & ES). cbv zeta. rewrite EG, ES.
  split; [intros ->; reflexivity|]. split; [intros ->; reflexivity|]. split; intros ->; reflexivity.
Qed.
End Props.

(** A matcher that does what it says: for two clouds of one point, the translation from one to the other. *)
Definition demo_matcher (s : string) (A B : list V3) : res (option Pose) :=
  match A, B with
  | [a], [b] => Ok (Some (mkPose (mkV 1 0 0) (mkV 0 1 0) (mkV 0 0 1) (vsub b a)))
  | _, _ => Ok None
  end.
Definition quarter : Pose := mkPose (mkV 0 1 0) (mkV (-1) 0 0) (mkV 0 0 1) (mkV 0 0 0).
Definition demo_map (v : V3) : PMap := mkPM [("raw"%string, PPoints [v])] 0 0.
Definition demo_align (guess : Pose) (L G : PMap) :=
  @lpm_align (fun x => x) (fun _ => true) demo_matcher (fun _ _ _ => None) (fun _ _ _ => Ok 1%Q) unit unit unit unit unit R
    (fun _ _ => mkE3 0%R 0%R 0%R) (fun _ _ => mkE3 0%R 0%R 0%R) (fun _ _ => mkE4 0%R 0%R 0%R 0%R) (fun _ _ => mkE3 0%R 0%R 0%R) (fun _ _ => mkE3 0%R 0%R 0%R)
    1000000%R (fun _ _ => Throw) bool (fun b => b) "icp"%string L G guess false true.

Lemma demo_matcher_good s A B T : demo_matcher s A B = Ok (Some T) -> is_rotation T /\ Brings 0 T A B.
Proof.
  destruct A as [|a [|]]; try discriminate. destruct B as [|b [|]]; try discriminate. intro E. injection E as <-. split.
  - unfold is_rotation, vnorm2, vdot, vcross. cbn [vx vy vz c0 c1 c2 tr].
    split; [lra|]. split; [lra|]. split; [lra|]. split; [lra|]. split; [lra|]. split; [lra|]. f_equal; lra.
  - intros q [<- | []]. exists b. split; [left; reflexivity|].
    match goal with |- (vnorm ?v <= 0)%R => replace v with (mkV 0 0 0) end.
    + unfold vnorm, vnorm2, vdot. cbn [vx vy vz]. replace (0 * 0 + 0 * 0 + 0 * 0)%R with 0%R by ring. rewrite sqrt_0. lra.
    + unfold compose, rotate, vadd, vsub, vscale. cbn [vx vy vz c0 c1 c2 tr]. f_equal; ring.
Qed.

(** C300 refuted: a matcher that always brings the cloud it is given exactly onto the other, a guess that is a quarter
    turn, and the pose returned leaves the point more than one meter off. *)
Theorem C300_aligned_refuted :
  exists (matcher : string -> list V3 -> list V3 -> res (option Pose)) L G guess,
    (forall s A B T, matcher s A B = Ok (Some T) -> is_rotation T /\ Brings 0 T A B) /\ is_rotation guess /\
    exists r given saved,
      @lpm_align (fun x => x) (fun _ => true) matcher (fun _ _ _ => None) (fun _ _ _ => Ok 1%Q) unit unit unit unit unit R
        (fun _ _ => mkE3 0%R 0%R 0%R) (fun _ _ => mkE3 0%R 0%R 0%R) (fun _ _ => mkE4 0%R 0%R 0%R 0%R) (fun _ _ => mkE3 0%R 0%R 0%R) (fun _ _ => mkE3 0%R 0%R 0%R)
        1000000%R (fun _ _ => Throw) bool (fun b => b) "icp"%string L G guess false true = Ok (r, given, saved) /\
      ~ Brings 1 (lr_pose r) (points_of L) (points_of G).
Proof.
  exists demo_matcher, (demo_map (mkV 0 0 0)), (demo_map (mkV 1 0 0)), quarter.
  split; [exact demo_matcher_good|]. split.
  { unfold is_rotation, quarter, vnorm2, vdot, vcross. cbn [vx vy vz c0 c1 c2 tr].
    split; [lra|]. split; [lra|]. split; [lra|]. split; [lra|]. split; [lra|]. split; [lra|]. f_equal; lra. }
  eexists _, _, _. split; [reflexivity|]. cbn [lr_pose]. intro B.
  destruct (B (mkV 0 0 0) (or_introl eq_refl)) as (q & [<- | []] & D).
  rewrite compose_mul in D.
  match type of D with context[compose quarter (compose ?T ?z)] => assert (E1 : compose T z = mkV 1 0 0); [|rewrite E1 in D] end.
  { unfold compose at 1, rotate, vadd, vscale, quarter, fmt3. cbn [vx vy vz c0 c1 c2 tr].
    unfold compose, rotate, vadd, vsub, vscale. cbn [vx vy vz c0 c1 c2 tr]. f_equal; ring. }
  assert (E2 : vsub (compose quarter (mkV 1 0 0)) (mkV 1 0 0) = mkV (-1) 1 0).
  { unfold quarter, compose, rotate, vadd, vsub, vscale. cbn [vx vy vz c0 c1 c2 tr]. f_equal; ring. }
  rewrite E2 in D. assert (S := vnorm_sq (mkV (-1) 1 0)). assert (P := vnorm_nonneg (mkV (-1) 1 0)).
  unfold vnorm2, vdot in S. cbn [vx vy vz] in S. nra.
Qed.

(** C301 refuted: the matcher finds nothing, and the result has quality 1. *)
Theorem C301_failed_match_refuted : forall guess : Pose, exists r given saved,
  demo_align guess (mkPM [("raw"%string, PPoints [mkV 0 0 0; mkV 1 0 0])] 0 0) (demo_map (mkV 1 0 0)) = Ok (r, given, saved) /\
  lr_quality r = 1%Q /\ lr_reason r = Stalled /\ lr_pose r = guess.
Proof. intro guess. eexists _, _, _. split; [reflexivity|]. split; [reflexivity|]. split; reflexivity. Qed.

Lemma compose_id u : compose id_pose u = u.
Proof. destruct u as [u1 u2 u3]. unfold compose, rotate, id_pose, vadd, vscale. cbn [vx vy vz c0 c1 c2 tr]. f_equal; ring. Qed.

(** The hypotheses of C300-C305 are met: identity guess, the pose returned brings the point where it should. *)
Example C300_case : exists r given saved, demo_align id_pose (demo_map (mkV 0 0 0)) (demo_map (mkV 1 0 0)) = Ok (r, given, saved) /\
  given <> None /\ saved = None /\ Brings (0 + 2 / 1000000) (lr_pose r) [mkV 0 0 0] [mkV 1 0 0].
Proof.
  assert (H : exists x, demo_align id_pose (demo_map (mkV 0 0 0)) (demo_map (mkV 1 0 0)) = Ok x) by (eexists; reflexivity).
  destruct H as ([[r given] saved] & H). exists r, given, saved. split; [exact H|].
  pose proof H as H1. unfold demo_align in H1. apply C305_record_of_the_call in H1. destruct H1 as (GV & _ & _ & SV).
  split; [rewrite (GV eq_refl); discriminate|]. split; [exact (SV eq_refl)|]. clear GV SV.
  assert (SD : six_decimals (fun x => x)) by (intro x; replace (x - x)%R with 0%R by ring; rewrite Rabs_R0; lra).
  assert (RI : is_rotation id_pose).
  { unfold is_rotation, id_pose, vnorm2, vdot, vcross. cbn [vx vy vz c0 c1 c2 tr].
    split; [lra|]. split; [lra|]. split; [lra|]. split; [lra|]. split; [lra|]. split; [lra|]. f_equal; lra. }
  assert (X := C300_aligned_where (fun x => x) (fun _ => true) demo_matcher (fun _ _ _ => None) (fun _ _ _ => Ok 1%Q) 
    (fun (_ : unit) _ => mkE3 0%R 0%R 0%R) (fun (_ : unit) _ => mkE3 0%R 0%R 0%R) (fun (_ : unit) _ => mkE4 0%R 0%R 0%R 0%R) (fun (_ : unit) _ => mkE3 0%R 0%R 0%R) (fun (_ : unit) _ => mkE3 0%R 0%R 0%R)
    1000000%R (fun _ _ => Throw) (fun b : bool => b) 0 "icp"%string (demo_map (mkV 0 0 0)) (demo_map (mkV 1 0 0)) id_pose false true r given saved SD RI eq_refl
    (demo_matcher_good "icp"%string) H).
  destruct X as [(A & B & T & _ & _ & _ & _ & C) | (A & B & GC & N & _)].
  - apply C. intro u. rewrite !compose_id. reflexivity.
  - exfalso. destruct GC as [(A0 & FA & ->) FB]. cbn in FA, FB.
    inversion FA as [|a a' A1 ? ? FA1]; subst. inversion FA1; subst. inversion FB as [|b b' B1 ? ? FB1]; subst. inversion FB1; subst. discriminate N.
Qed.
