(** C74-C77, C79-C83: exactly when the properties that the residuals, kernels and weights do not
    have in general hold. *)
From Coq Require Import Reals List Lra Lia Permutation.
From Verif Require Import Base GeomModel GeomProps KernelProps VisitModel VisitSpec VisitProps.
Import ListNotations.
Open Scope R_scope.

(** ** C74 *)
(** What the output holds instead: pairs made from the line and plane pairings, at most one of each. *)
Theorem C74_output_where : forall T pt2pt pls lns out,
  (forall p, In p pls -> Rabs (vnorm (n_ (plp_plane p)) - 1) < 1 / 10000) ->
  convert T pt2pt pls lns = Some out ->
  (length out <= length pls + length lns)%nat /\
  forall q, In q out ->
    (exists p, In p pls /\ q = snd (plane_pair T (plp_plane p) (plp_local p))) \/
    (exists p, In p lns /\ q = snd (line_pair T (lnp_line p) (lnp_local p))).
Proof.
  intros T pt2pt pls lns out N E.
  destruct (C33_selection T pt2pt pls lns N) as (kp & dp & kl & dl & E' & [P1 _] & [P2 _] & _).
  rewrite E in E'. injection E' as ->. split.
  - apply Permutation_length in P1, P2. rewrite app_length, map_length in P1, P2. rewrite app_length, !map_length. lia.
  - intros q I. apply in_app_or in I as [I|I]; apply in_map_iff in I as [k [<- I]].
    + left. assert (J := Permutation_in k (Permutation_sym P1) (in_or_app _ _ _ (or_introl I))).
      apply in_map_iff in J as [p [<- J]]. exists p. auto.
    + right. assert (J := Permutation_in k (Permutation_sym P2) (in_or_app _ _ _ (or_introl I))).
      apply in_map_iff in J as [p [<- J]]. exists p. auto.
Qed.

(** ** C77 *)
(** All four components are set exactly if the computed angle is not below the threshold. *)
Theorem C77_all_set_where : forall lg ll T,
  (forall k, (k < 4)%nat -> nth k (error_line2line lg ll T) None <> None) <-> 1 / 100 <= Rabs (alfa lg ll T).
Proof.
  intros lg ll T. unfold error_line2line. destruct (Rlt_dec (Rabs (alfa lg ll T)) (1 / 100)) as [L|L].
  - split; [|lra]. intro H. exfalso. apply (H 1%nat); [lia|reflexivity].
  - split; [lra|]. intros _ k K. unfold error_l2l_general.
    do 4 (destruct k as [|k]; [discriminate|]). lia.
Qed.

(** ** C75 *)
(** The residual vanishes on coinciding lines whenever the rotation and its transpose take the local
    director to the same vector (e.g. pure translations, half turns): the only component that is set is 0. *)
Theorem C75_zero_where : forall ll T,
  vnorm2 (rotate T (l_dir ll)) <> 0 -> row_times (l_dir ll) T = rotate T (l_dir ll) ->
  let lg := mkLine (compose T (l_base ll)) (rotate T (l_dir ll)) in
  error_line2line lg ll T = [Some 0; None; None; None].
Proof.
  intros ll T N H lg.
  destruct (C77_parallel_lines_components_unset_refuted lg ll T N H) as [A _].
  unfold error_line2line in *. destruct (Rlt_dec (Rabs (alfa lg ll T)) (1 / 100)) as [L|L]; [|discriminate].
  unfold error_l2l_parallel. do 2 f_equal. unfold dist2_line, lg. cbn [l_base l_dir].
  replace (vsub (compose T (l_base ll)) (compose T (l_base ll))) with (mkV 0 0 0) by (apply V3_eq; simpl; ring).
  replace (vnorm2 (vcross (mkV 0 0 0) (rotate T (l_dir ll)))) with 0 by (unfold vnorm2, vdot, vcross; simpl; ring).
  unfold Rdiv. ring.
Qed.

(** ** C76 *)
(** The Jacobian is right for translations: the residual moves by exactly what it says. *)
Theorem C76_translation_where : forall lg ll T t,
  let D := mkPose (mkV 0 0 0) (mkV 0 0 0) (mkV 0 0 0) t in
  let e T := error_l2l_general lg ll T in
  forall k, (k < 4)%nat -> nth k (e (padd T D)) 0 - nth k (e T) 0 = nth k (mvec (jac_l2l_general lg ll T) (vec D)) 0.
Proof.
  intros lg ll T t D e k K.
  assert (RT : row_times (l_dir ll) (padd T D) = row_times (l_dir ll) T).
  { unfold row_times, D, padd, vdot. apply V3_eq; simpl; ring. }
  unfold e, error_l2l_general. rewrite RT.
  set (u := row_times (l_dir ll) T) in *.
  unfold jac_l2l_general. fold u. set (B := sqrt _).
  do 4 (destruct k as [|k]; [unfold mvec, mmul, D, vec, vdot, compose, rotate, padd; simpl; unfold Rdiv; ring|]). lia.
Qed.

(** ** C79 *)
(** The Geman-McClure weight is the one of the documented loss exactly if the parameter is 1 (or the error 0). *)
Theorem C79_documented_where : forall c x, 0 < c ->
  (derivable_pt_lim (loss_gm_doc c) x (x * kernel_weight KGemanMcClure c (x * x)) <-> c = 1 \/ x = 0).
Proof.
  intros c x C. split.
  - intro H. destruct (Req_dec c 1) as [E|N]; [left; exact E|]. destruct (Req_dec x 0) as [E|X]; [right; exact E|].
    exfalso. exact (C79_gm_weight_not_from_documented_loss_refuted c x C N X H).
  - intro H. assert (CC : 0 < c * c) by nra. assert (XX : 0 <= x * x) by nra.
    assert (D : derivable_pt_lim (loss_gm_doc c) x (2 * (/ 2) * (c * c) * x / ((c * c + x * x) * (c * c + x * x)))).
    { apply (derivable_pt_lim_ext (fun y => (/ 2 * (y * y)) / (c * c + y * y))).
      - intros y. unfold loss_gm_doc. f_equal. unfold Rdiv. ring.
      - apply (d_ratio _ _ 0); lra. }
    replace (x * kernel_weight KGemanMcClure c (x * x))
      with (2 * (/ 2) * (c * c) * x / ((c * c + x * x) * (c * c + x * x))); [exact D|].
    unfold kernel_weight; simpl. destruct H as [->| ->].
    + field; repeat split; nra.
    + unfold Rdiv. rewrite !Rmult_0_r, !Rmult_0_l. reflexivity.
Qed.

(** ** C80, C81 *)
(** The weights are right and nothing is read past the end if the blocks cover the points and no block
    other than the first starts with an outlier. *)
Theorem C80_weights_where : forall p wp ctl ctg outl normalize r,
  blocks_cover p -> starts_not_outliers p outl -> sorted_outliers p outl ->
  visit p wp ctl ctg outl normalize = Ok r ->
  forall i g l, nth_error (vp_pts p) i = Some (g, l) ->
  forall c, In c (vr_calls r) -> c_idx c = i ->
    c_w c = wp_pt2pt wp / class_total p wp * pair_block_weight p i * kernel_factor wp (c_b c) (c_r c).
Proof.
  intros p wp ctl ctg outl normalize r CV ST SO V i g l E c I J.
  destruct (C26_weights_of_every_pair p wp ctl ctg outl normalize CV ST SO) as [_ K].
  destruct (K r V) as [A _]. rewrite A in I. clear A K V.
  assert (G : forall its j, (forall k it, nth_error its k = Some it -> (j + k < length (vp_pts p))%nat ->
      exists g l, it = IPt g l) -> In c (used_from p wp ctl ctg outl normalize j its) ->
      c_w c = wp_pt2pt wp / class_total p wp * pair_block_weight p i * kernel_factor wp (c_b c) (c_r c)).
  { induction its as [|it its IH]; intros j P H; [destruct H|]. cbn [used_from] in H. apply in_app_or in H as [H|H].
    - assert (LT : (i < length (vp_pts p))%nat) by (apply nth_error_Some; congruence).
      unfold fate_of in H. destruct (in_dec Nat.eq_dec j outl); [destruct H|].
      destruct it as [gg ll|gg ll|gg ll].
      + destruct (Rlt_dec _ _); [destruct H|]. destruct (Rlt_dec _ _); [destruct H|].
        destruct (if wp_use_scale wp then _ else _); [destruct H|].
        destruct H as [<-|[]]. cbn [c_w c_b c_r c_idx] in *. subst j. reflexivity.
      + exfalso. destruct H as [<-|[]]. cbn [c_idx] in J. subst j.
        destruct (P 0%nat _ eq_refl) as (? & ? & X); [lia|discriminate].
      + exfalso. destruct H as [<-|[]]. cbn [c_idx] in J. subst j.
        destruct (P 0%nat _ eq_refl) as (? & ? & X); [lia|discriminate].
    - apply (IH (S j)); [|exact H]. intros k it' EQ LT. apply (P (S k)); [exact EQ|lia]. }
  apply (G (items p) 0%nat); [|exact I].
  intros k it EQ LT. unfold items in EQ. rewrite nth_error_app1 in EQ by (rewrite map_length; lia).
  rewrite nth_error_map in EQ. destruct (nth_error (vp_pts p) k) as [[g' l']|]; [|discriminate].
  injection EQ as <-. eexists _, _. reflexivity.
Qed.
(** Blocks that cover the points are enough for the walk to be defined, in the first pass as in any
    other one in which no block starts with an outlier. *)
Theorem C81_defined_where : forall p wp ctl ctg outl normalize,
  blocks_cover p -> starts_not_outliers p outl -> sorted_outliers p outl ->
  visit p wp ctl ctg outl normalize <> UB.
Proof. intros p wp ctl ctg outl normalize CV ST SO. apply (C26_weights_of_every_pair p wp ctl ctg outl normalize CV ST SO). Qed.

(** ** C82 *)
Definition with_ln2ln (wp : VWeights) (w : R) : VWeights :=
  mkVW (wp_use_scale wp) (wp_scale_thr wp) (wp_pt2pt wp) w (wp_pl2pl wp) (wp_kernel wp) (wp_current wp).
(** A zero class weight is harmless, and the same as any other, if there is no pair of the class. *)
Theorem C82_no_such_pairs_where : forall p wp w ctl ctg outl normalize,
  vp_lns p = [] -> 0 < wp_pt2pt wp + wp_pl2pl wp -> 0 <= w ->
  match visit p (with_ln2ln wp w) ctl ctg outl normalize, visit p (with_ln2ln wp 0) ctl ctg outl normalize with
  | Ok r, Ok r' => r = r'
  | Throw, Throw | UB, UB => True
  | _, _ => False
  end.
Proof.
  intros p wp w ctl ctg outl normalize NL P W. unfold visit.
  destruct (Nat.eqb (vp_nPt2Ln p) 0 && Nat.eqb (vp_nPt2Pl p) 0); [|exact I].
  unfold attitude_weights, with_ln2ln. cbn [wp_pt2pt wp_ln2ln wp_pl2pl].
  destruct (Rlt_dec 0 (wp_pt2pt wp + w + wp_pl2pl wp)) as [_|]; [|lra].
  destruct (Rlt_dec 0 (wp_pt2pt wp + 0 + wp_pl2pl wp)) as [_|]; [|lra]. cbn [rbind].
  rewrite NL. cbn [length]. replace (w * INR 0) with 0 by (simpl; ring). replace (0 * INR 0) with 0 by (simpl; ring).
  set (k := 1 / _).
  assert (L : forall its i s, Forall (fun it => match it with ILn _ _ => False | _ => True end) its ->
    visit_loop (with_ln2ln wp w) (wp_pt2pt wp * k, w * k, wp_pl2pl wp * k) ctl ctg normalize i its s =
    visit_loop (with_ln2ln wp 0) (wp_pt2pt wp * k, 0 * k, wp_pl2pl wp * k) ctl ctg normalize i its s).
  { induction its as [|it its IH]; intros i s F; [reflexivity|]. inversion F as [|? ? F1 F2]; subst. cbn [visit_loop].
    destruct it as [g l|g l|g l]; [|contradiction|];
      (match goal with |- rbind ?a _ = rbind ?b _ => change b with a; destruct a as [s'| |]; [cbn [rbind]; apply IH; exact F2|reflexivity|reflexivity] end). }
  unfold with_ln2ln in L. rewrite L; [destruct (visit_loop _ _ _ _ _ _ _ _) as [s'| |]; cbn [rbind]; [reflexivity|exact I|exact I]|].
  unfold items. rewrite NL. cbn [map app]. apply Forall_app. split; apply Forall_forall; intros it X; apply in_map_iff in X as [y [<- _]]; exact I.
Qed.

(** ** C83 *)
(** Among the point pairs the individual weights decide alone, whatever the class weight; against the
    line pairs the documented ratio holds exactly if the class weight is 1. *)
Theorem C83_ratio_where : forall p wp ctl ctg outl normalize r,
  blocks_cover p -> starts_not_outliers p outl -> sorted_outliers p outl -> wp_kernel wp = None ->
  visit p wp ctl ctg outl normalize = Ok r ->
  forall i g l j g' l', nth_error (vp_pts p) i = Some (g, l) -> nth_error (vp_pts p) j = Some (g', l') ->
  forall c c', In c (vr_calls r) -> c_idx c = i -> In c' (vr_calls r) -> c_idx c' = j ->
    c_w c * pair_block_weight p j = c_w c' * pair_block_weight p i /\
    (c_w c * wp_ln2ln wp = pair_block_weight p i * (wp_ln2ln wp / class_total p wp) <-> wp_pt2pt wp = 1 \/ wp_ln2ln wp = 0).
Proof.
  intros p wp ctl ctg outl normalize r CV ST SO NK V i g l j g' l' Ei Ej c c' I Ic J Jc.
  pose proof (C80_weights_where p wp ctl ctg outl normalize r CV ST SO V i g l Ei c I Ic) as A.
  pose proof (C80_weights_where p wp ctl ctg outl normalize r CV ST SO V j g' l' Ej c' J Jc) as B.
  unfold kernel_factor in A, B. rewrite NK in A, B.
  destruct (C26_weights_of_every_pair p wp ctl ctg outl normalize CV ST SO) as [_ K].
  destruct (K r V) as (_ & _ & _ & F). rewrite Forall_forall in F. pose proof (F c I) as PC. rewrite A in PC.
  split; [rewrite A, B; ring|].
  assert (NZ : / class_total p wp * pair_block_weight p i <> 0).
  { intro Z. replace (wp_pt2pt wp / class_total p wp * pair_block_weight p i * 1)
      with (wp_pt2pt wp * (/ class_total p wp * pair_block_weight p i)) in PC by (unfold Rdiv; ring). rewrite Z in PC. lra. }
  rewrite A. split.
  - intro E. destruct (Req_dec (wp_ln2ln wp) 0) as [|N]; [right; assumption|left].
    apply (Rmult_eq_reg_r (wp_ln2ln wp * (/ class_total p wp * pair_block_weight p i))); [unfold Rdiv in E; lra|].
    apply Rmult_integral_contrapositive. split; assumption.
  - intros [-> | ->]; unfold Rdiv; ring.
Qed.

(** Non-vacuity: a half turn about z, a point at one of the blocks, the three-block example without outliers. *)
Example where_geom_case :
  let T := mkPose (mkV (-1) 0 0) (mkV 0 (-1) 0) (mkV 0 0 1) (mkV 5 0 0) in
  row_times (mkV 1 0 0) T = rotate T (mkV 1 0 0) /\ vnorm2 (rotate T (mkV 1 0 0)) <> 0 /\
  blocks_cover three_blocks /\ starts_not_outliers three_blocks [] /\ sorted_outliers three_blocks [].
Proof.
  cbv zeta. split; [unfold row_times, rotate, vdot; apply V3_eq; simpl; ring|].
  split; [unfold vnorm2, vdot, rotate; simpl; lra|].
  split; [intros _; split; [repeat constructor|simpl; lia]|]. split; [intros c _ _ []|split; [exact I|intros x []]].
Qed.
