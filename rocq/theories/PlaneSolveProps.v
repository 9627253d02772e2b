(** C346, C347: the closed-form solvers with point-to-plane and point-to-line pairings. *)
From Coq Require Import Reals List Lra Lia Permutation.
From Verif Require Import Base GeomModel GeomProps VisitModel VisitSpec VisitProps RotProofs HornModel HornProofs NoiselessProofs HornProps OlaeModel OlaeProofs OlaeProps EndToEndModel.
From Verif Require Import GeomModel GeomProps VisitModel VisitSpec VisitProps RotProofs HornModel HornProofs NoiselessProofs HornProps OlaeModel OlaeProofs OlaeProps PlaneSolveModel.
Import ListNotations.
Open Scope R_scope.

(** ** Specification *)
(** the planes and lines contain the points, seen from [T] *)
Definition fits (T : Pose) (pls : list PlanePairing) (lns : list LinePairing) : Prop :=
  (forall p, In p pls -> Rabs (vnorm (n_ (plp_plane p)) - 1) < 1 / 10000 /\ on_plane (plp_plane p) (compose T (plp_local p))) /\
  (forall l, In l lns -> vnorm2 (l_dir (lnp_line l)) <> 0 /\ on_line (lnp_line l) (compose T (lnp_local l))).
Definition locals (pls : list PlanePairing) (lns : list LinePairing) : list V3 := map plp_local pls ++ map lnp_local lns.
(** not all of the points are on one line with their centroid (the solver ignores points closer to it than 0.1 mm) *)
Definition spread (Ls : list V3) : Prop :=
  exists a b, In a Ls /\ In b Ls /\ 1 / 10000 <= vnorm (vsub a (centroid Ls)) /\ 1 / 10000 <= vnorm (vsub b (centroid Ls)) /\
    vcross (vsub a (centroid Ls)) (vsub b (centroid Ls)) <> mkV 0 0 0.
Definition weights_ok (wp : VWeights) : Prop :=
  0 < wp_pt2pt wp /\ 0 <= wp_ln2ln wp /\ 0 <= wp_pl2pl wp /\ wp_kernel wp = None /\ (wp_use_scale wp = true -> 1 <= wp_scale_thr wp).
(** [e] is the sum of the squared distances of the points, seen from [T], to their planes and lines *)
Fixpoint sum (l : list R) : R := match l with [] => 0 | x :: t => x + sum t end.
Definition total_error (T : Pose) (pls : list PlanePairing) (lns : list LinePairing) (e : R) : Prop :=
  exists dp dl, Forall2 (fun p d => is_dist2 (on_plane (plp_plane p)) (compose T (plp_local p)) d) pls dp /\
    Forall2 (fun l d => is_dist2 (on_line (lnp_line l)) (compose T (lnp_local l)) d) lns dl /\ e = sum dp + sum dl.

(** ** The conversion at a pose that fits *)
Lemma fit_plane T p : on_plane (plp_plane p) (compose T (plp_local p)) ->
  plane_pair T (plp_plane p) (plp_local p) = (0, mkPP (compose T (plp_local p)) (plp_local p)).
Proof.
  intro H. unfold plane_pair. assert (E : eval_plane (plp_plane p) (compose T (plp_local p)) = 0) by exact H. cbv zeta. rewrite E, Rabs_R0.
  f_equal. f_equal. unfold vsub, vscale. cbn [vx vy vz]. destruct (compose T (plp_local p)) as [x y z]. cbn [vx vy vz]. f_equal; ring.
Qed.
Lemma fit_line T l : vnorm2 (l_dir (lnp_line l)) <> 0 -> on_line (lnp_line l) (compose T (lnp_local l)) ->
  line_pair T (lnp_line l) (lnp_local l) = (0, mkPP (compose T (lnp_local l)) (lnp_local l)).
Proof.
  intros N [t H]. unfold line_pair. cbv zeta.
  assert (C : closest_on_line (lnp_line l) (compose T (lnp_local l)) = compose T (lnp_local l)).
  { rewrite H. unfold closest_on_line. set (d := l_dir (lnp_line l)) in *. set (b := l_base (lnp_line l)).
    assert (E : vdot d (vsub (vadd b (vscale t d)) b) = t * vnorm2 d) by (unfold vnorm2, vdot, vsub, vadd, vscale; cbn [vx vy vz]; ring).
    rewrite E. replace (t * vnorm2 d / vnorm2 d) with t by (field; exact N). reflexivity. }
  rewrite C. assert (Z : vsub (compose T (lnp_local l)) (compose T (lnp_local l)) = mkV 0 0 0) by (unfold vsub; f_equal; ring).
  rewrite Z. unfold vnorm, vnorm2, vdot. cbn [vx vy vz]. replace (0 * 0 + 0 * 0 + 0 * 0) with 0 by ring. rewrite sqrt_0, Rabs_R0. reflexivity.
Qed.
Lemma mm_insert_zero p (l : list PtPair) : mm_insert (0, p) (map (pair 0) l) = map (pair 0) (l ++ [p]).
Proof. induction l as [|x l IH]; cbn [map mm_insert fst app]; [reflexivity|]. destruct (Rlt_dec 0 0); [lra|]. rewrite IH. reflexivity. Qed.
Lemma mm_of_zero (l : list PtPair) : mm_of (map (pair 0) l) = map (pair 0) l.
Proof.
  unfold mm_of. change (@nil (R * PtPair)) with (map (pair 0) (@nil PtPair)). change (map (pair 0) l) with (map (pair 0) (@nil PtPair ++ l)) at 2.
  generalize (@nil PtPair). induction l as [|x l IH]; intro a; cbn [map fold_left]; [rewrite app_nil_r; reflexivity|].
  rewrite mm_insert_zero, IH, <- app_assoc. reflexivity.
Qed.
Lemma take_zero (l out : list PtPair) : take_sorted (0 * / 4) (map (pair 0) l) out = out ++ l.
Proof.
  revert out. induction l as [|x l IH]; intro out; cbn [map take_sorted]; [rewrite app_nil_r; reflexivity|].
  destruct (Rlt_dec 0 (0 * / 4)); [lra|]. rewrite IH, <- app_assoc. reflexivity.
Qed.
Lemma append_zero (l out : list PtPair) : append_from_sorted (mm_of (map (pair 0) l)) out = out ++ rev l.
Proof.
  rewrite mm_of_zero. unfold append_from_sorted. rewrite <- map_rev. destruct (rev l) as [|x r]; [rewrite app_nil_r; reflexivity|].
  cbn [map]. rewrite <- (take_zero (x :: r) out). reflexivity.
Qed.
Definition exact_pairs (T : Pose) (Ls : list V3) : VPairs := mkVP (map (fun l => (compose T l, l)) Ls) [] [] 0 0 [].
Lemma convert_fits T pls lns p : fits T pls lns ->
  pl_convert T pls lns p = Some (exact_pairs T (rev (map plp_local pls) ++ rev (map lnp_local lns))).
Proof.
  intros [FP FL]. unfold pl_convert, convert.
  assert (U : forallb (fun p => near_unit (n_ (plp_plane p))) pls = true).
  { apply forallb_forall. intros q I. unfold near_unit. destruct (Rlt_dec _ _) as [|X]; [reflexivity|]. exfalso. apply X, FP, I. }
  rewrite U.
  assert (EP : map (fun p => plane_pair T (plp_plane p) (plp_local p)) pls = map (pair 0) (map (fun x => mkPP (compose T x) x) (map plp_local pls))).
  { rewrite !map_map. apply map_ext_in. intros q I. apply fit_plane, FP, I. }
  assert (EL : map (fun p => line_pair T (lnp_line p) (lnp_local p)) lns = map (pair 0) (map (fun x => mkPP (compose T x) x) (map lnp_local lns))).
  { rewrite !map_map. apply map_ext_in. intros q I. apply fit_line; apply FL, I. }
  rewrite EP, EL, !append_zero. cbn [app]. f_equal. unfold exact_pairs. f_equal.
  rewrite !map_app, <- !map_rev, !map_map. reflexivity.
Qed.

(** ** Horn at exact pairs *)
Lemma used_at p wp ctl ctg outl nz cl its : forall i k it, nth_error its k = Some it ->
  fate_of p wp ctl ctg outl nz (i + k) it = Used cl -> In cl (used_from p wp ctl ctg outl nz i its).
Proof.
  induction its as [|x its IH]; intros i [|k] it H F; cbn in H; try discriminate; cbn [used_from]; apply in_or_app.
  - left. injection H as ->. rewrite Nat.add_0_r in F. rewrite F. left. reflexivity.
  - right. apply (IH (S i) k it H). replace (S i + k)%nat with (i + S k)%nat by lia. exact F.
Qed.
Lemma exact_noiseless T Ls : noiseless T (exact_pairs T Ls).
Proof. split; [|split; constructor]. cbn. apply Forall_forall. intros x X. apply in_map_iff in X. destruct X as (l & <- & _). reflexivity. Qed.
Lemma exact_positive T Ls wp : weights_ok wp -> positive_weights (exact_pairs T Ls) wp.
Proof.
  intros (W1 & W2 & W3 & W4 & W5). unfold positive_weights. rewrite W4. cbn [exact_pairs vp_lns vp_pls vp_weights].
  split; [exact W1|]. split; [exact W2|]. split; [exact W3|]. split; [intro X; contradiction X; reflexivity|]. split; [intro X; contradiction X; reflexivity|]. split; [constructor|exact I].
Qed.
Lemma exact_used T Ls wp a : is_rotation T -> In a Ls -> (wp_use_scale wp = true -> 1 <= wp_scale_thr wp) ->
  1 / 10000 <= vnorm (vsub a (centroid Ls)) -> exists cl, In cl (horn_pairs (exact_pairs T Ls) wp) /\ c_r cl = vsub a (centroid Ls).
Proof.
  intros RT IA THR FAR. destruct (In_nth_error _ _ IA) as [k Hk].
  assert (NE : vp_pts (exact_pairs T Ls) <> []) by (cbn; destruct Ls; [destruct IA|discriminate]).
  assert (MS : map snd (vp_pts (exact_pairs T Ls)) = Ls) by (cbn; rewrite map_map; apply map_id).
  assert (CG := centroid_noiseless T _ NE (proj1 (exact_noiseless T Ls))).
  unfold horn_pairs. rewrite CG, MS. set (m := centroid Ls) in *.
  assert (EB : vsub (compose T a) (compose T m) = rotate T (vsub a m)) by apply sub_compose.
  assert (NB : vnorm (vsub (compose T a) (compose T m)) = vnorm (vsub a m)) by (rewrite EB; apply rotate_norm; exact RT).
  eexists. split.
  - apply (used_at _ _ _ _ _ _ _ _ 0 k (IPt (compose T a) a)).
    + unfold items, exact_pairs. cbn [vp_pts vp_lns vp_pls map app]. rewrite app_nil_r, map_map. rewrite nth_error_map, Hk. reflexivity.
    + unfold fate_of. destruct (in_dec Nat.eq_dec (0 + k)%nat []) as [[]|_]. cbv zeta.
      rewrite !NB. destruct (Rlt_dec (vnorm (vsub a m)) (1 / 10000)) as [X|_]; [exfalso; lra|].
      replace (Rmax (vnorm (vsub a m)) (vnorm (vsub a m)) / Rmin (vnorm (vsub a m)) (vnorm (vsub a m))) with 1.
      2:{ rewrite Rmax_left, Rmin_left by apply Rle_refl. field. lra. }
      destruct (wp_use_scale wp).
      * destruct (Rlt_dec (wp_scale_thr wp) 1) as [X|_]; [exfalso; specialize (THR eq_refl); lra|]. reflexivity.
      * reflexivity.
  - reflexivity.
Qed.
Lemma centroid_perm a b : Permutation a b -> centroid a = centroid b.
Proof.
  intro P. assert (V : vsum a = vsum b).
  { induction P; [reflexivity| | |congruence]; unfold vsum in *; cbn [fold_right].
    - rewrite IHP. reflexivity.
    - unfold vadd. cbn [vx vy vz]. f_equal; ring. }
  unfold centroid. rewrite V, (Permutation_length P). reflexivity.
Qed.
Lemma spread_perm a b : Permutation a b -> spread a -> spread b.
Proof.
  intros P (x & y & IX & IY & FX & FY & C). assert (E := centroid_perm _ _ P). exists x, y. rewrite <- E.
  split; [apply (Permutation_in x P IX)|]. split; [apply (Permutation_in y P IY)|]. auto.
Qed.
Lemma locals_perm pls lns : Permutation (locals pls lns) (rev (map plp_local pls) ++ rev (map lnp_local lns)).
Proof. unfold locals. apply Permutation_app; apply Permutation_rev. Qed.
Lemma horn_exact eig T Ls wp : is_rotation T -> (3 <= length Ls)%nat -> weights_ok wp -> spread Ls ->
  spectral (horn_matrix (exact_pairs T Ls) wp) (eig (horn_matrix (exact_pairs T Ls) wp)) ->
  optimal_tf_horn eig (exact_pairs T Ls) wp = Ok (true, mkHR T []).
Proof.
  intros RT N3 W (a & b & IA & IB & FA & FB & CR) SP. assert (W5 := W). destruct W5 as (_ & _ & _ & _ & W5).
  apply C86_horn_recovers_the_pose; try assumption; try reflexivity.
  - apply exact_noiseless.
  - apply exact_positive, W.
  - intros X. exfalso. apply X. reflexivity.
  - cbn. destruct Ls; [cbn in N3; lia|discriminate].
  - unfold at_least_three. cbn [exact_pairs vp_pts vp_lns vp_pls length]. rewrite map_length. lia.
  - destruct (exact_used T Ls wp a RT IA W5 FA) as (ca & Ia & Ea).
    destruct (exact_used T Ls wp b RT IB W5 FB) as (cb & Ib & Eb).
    exists ca, cb. split; [exact Ia|]. split; [exact Ib|]. rewrite Ea, Eb. exact CR.
Qed.

(** C346: a pose from which every point is on its plane or line is kept by the closed-form solvers, whatever point, line and plane pairs
    come along (they are not looked at: C74) *)
Theorem C346_aligned_pose_is_kept_by_horn : forall eig T pts lls pps ws pls lns wp,
  is_rotation T -> fits T pls lns -> (3 <= length pls + length lns)%nat -> spread (locals pls lns) -> weights_ok wp ->
  let p := mixed_pairs pts lls pps ws pls lns in
  (forall p', pl_convert T pls lns p = Some p' -> spectral (horn_matrix p' wp) (eig (horn_matrix p' wp))) ->
  horn_algo eig (pl_convert T pls lns) wp p = Ok (true, mkHR T []).
Proof.
  intros eig T pts lls pps ws pls lns wp RT F N3 SPR W p SP. unfold horn_algo, solver_horn.
  assert (Z : (Nat.eqb (vp_nPt2Ln p) 0 && Nat.eqb (vp_nPt2Pl p) 0)%bool = false).
  { unfold p, mixed_pairs. cbn [vp_nPt2Ln vp_nPt2Pl]. destruct (length lns), (length pls); try reflexivity. cbn in N3. lia. }
  rewrite Z. assert (C := convert_fits T pls lns p F). specialize (SP _ C). rewrite C.
  apply horn_exact; try assumption.
  - rewrite app_length, !rev_length, !map_length. exact N3.
  - apply (spread_perm (locals pls lns)); [apply locals_perm|exact SPR].
Qed.
Print Assumptions C346_aligned_pose_is_kept_by_horn.
Theorem C346_aligned_pose_is_kept_by_olae : forall solve T pts lls pps ws pls lns wp,
  linear_solver solve -> is_rotation T -> fits T pls lns -> (1 <= length pls + length lns)%nat -> weights_ok wp ->
  let p := mixed_pairs pts lls pps ws pls lns in
  (forall p', pl_convert T pls lns p = Some p' -> one_largest (olae_problem p' wp)) ->
  olae_algo solve (pl_convert T pls lns) wp p = Ok (true, mkHR T []).
Proof.
  intros solve T pts lls pps ws pls lns wp LS RT F N W p ONE. unfold olae_algo.
  assert (Z : (Nat.eqb (vp_nPt2Ln p) 0 && Nat.eqb (vp_nPt2Pl p) 0)%bool = false).
  { unfold p, mixed_pairs. cbn [vp_nPt2Ln vp_nPt2Pl]. destruct (length lns), (length pls); try reflexivity. cbn in N. lia. }
  rewrite Z. assert (C := convert_fits T pls lns p F). specialize (ONE _ C). rewrite C.
  apply C90_olae_recovers_the_pose; try assumption; try reflexivity.
  - apply exact_noiseless.
  - split; constructor.
  - apply exact_positive, W.
  - intros X. exfalso. apply X. reflexivity.
  - cbn. intro X. apply (f_equal (@length _)) in X. rewrite map_length, app_length, !rev_length, !map_length in X. cbn in X. lia.
  - apply W.
Qed.
Print Assumptions C346_aligned_pose_is_kept_by_olae.

(** ** One step *)
(** the errors of the pairs of each kind are comparable: none is below a quarter of the largest *)
Definition comparable (T : Pose) (pls : list PlanePairing) (lns : list LinePairing) : Prop :=
  (forall p q dp dq, In p pls -> In q pls -> is_dist2 (on_plane (plp_plane p)) (compose T (plp_local p)) dp ->
     is_dist2 (on_plane (plp_plane q)) (compose T (plp_local q)) dq -> dp <= 16 * dq) /\
  (forall p q dp dq, In p lns -> In q lns -> is_dist2 (on_line (lnp_line p)) (compose T (lnp_local p)) dp ->
     is_dist2 (on_line (lnp_line q)) (compose T (lnp_local q)) dq -> dp <= 16 * dq).
Lemma is_dist2_unique S x a b : is_dist2 S x a -> is_dist2 S x b -> a = b.
Proof. intros [[p [P <-]] A] [[q [Q <-]] B]. apply Rle_antisym; auto. Qed.

Lemma selected_all cands kept dropped before : Selected cands kept dropped before -> (forall c d, In c cands -> In d cands -> fst c / 4 <= fst d) -> dropped = [] /\ Permutation cands kept.
Proof.
  intros (P & _ & D & _) H. destruct dropped as [|d r]; [rewrite app_nil_r in P; auto|]. exfalso.
  destruct (D ltac:(discriminate)) as (_ & mx & I & _ & L). specialize (L d (or_introl eq_refl)).
  assert (ID : In d cands) by (apply (Permutation_in d (Permutation_sym P)), in_or_app; right; left; reflexivity).
  specialize (H mx d I ID). lra.
Qed.
Lemma lsq_perm a b T : Permutation a b -> lsq a T = lsq b T.
Proof. induction 1; [reflexivity| | |congruence]; repeat match goal with x : V3 * V3 |- _ => destruct x end; cbn [lsq]; lra. Qed.
Lemma lsq_app a b T : lsq (a ++ b) T = lsq a T + lsq b T.
Proof. induction a as [|[g l] a IH]; cbn [app lsq]; [ring|]. rewrite IH. ring. Qed.
Definition v2 (x : PtPair) : V3 * V3 := (pp_global x, pp_local x).
Lemma quarter_of a b : 0 <= a -> 0 <= b -> a * a <= 16 * (b * b) -> a / 4 <= b.
Proof. intros. nra. Qed.

Section Step.
Variables (T : Pose) (pls : list PlanePairing) (lns : list LinePairing).
Hypothesis UN : forall p, In p pls -> vnorm (n_ (plp_plane p)) = 1.
Hypothesis UD : forall l, In l lns -> vnorm2 (l_dir (lnp_line l)) <> 0.

Lemma old_planes : forall ds ls, (forall p, In p ls -> In p pls) ->
  Forall2 (fun p d => is_dist2 (on_plane (plp_plane p)) (compose T (plp_local p)) d) ls ds ->
  lsq (map v2 (map snd (map (fun p => plane_pair T (plp_plane p) (plp_local p)) ls))) T = sum ds.
Proof.
  intros ds ls I F. induction F as [|p d ls ds D F IH]; [reflexivity|]. cbn [map lsq sum].
  assert (X := C33_plane_projection T (plp_plane p) (plp_local p) (UN p (I p (or_introl eq_refl)))).
  destruct (plane_pair T (plp_plane p) (plp_local p)) as [err pp]. destruct X as (EL & _ & DD & _). cbn [snd]. unfold v2 at 1. cbn [fst snd lsq].
  rewrite IH by (intros q J; apply I; right; exact J). rewrite EL.
  rewrite (is_dist2_unique _ _ _ _ D DD). unfold dist2, vnorm2, vdot, vsub. cbn [vx vy vz]. ring.
Qed.
Lemma old_lines : forall ds ls, (forall p, In p ls -> In p lns) ->
  Forall2 (fun p d => is_dist2 (on_line (lnp_line p)) (compose T (lnp_local p)) d) ls ds ->
  lsq (map v2 (map snd (map (fun p => line_pair T (lnp_line p) (lnp_local p)) ls))) T = sum ds.
Proof.
  intros ds ls I F. induction F as [|p d ls ds D F IH]; [reflexivity|]. cbn [map lsq sum].
  assert (X := C33_line_projection T (lnp_line p) (lnp_local p) (UD p (I p (or_introl eq_refl)))).
  destruct (line_pair T (lnp_line p) (lnp_local p)) as [err pp]. destruct X as (EL & _ & DD & _). cbn [snd]. unfold v2 at 1. cbn [fst snd lsq].
  rewrite IH by (intros q J; apply I; right; exact J). rewrite EL.
  rewrite (is_dist2_unique _ _ _ _ D DD). unfold dist2, vnorm2, vdot, vsub. cbn [vx vy vz]. ring.
Qed.
Lemma new_planes T' : forall ds ls, (forall p, In p ls -> In p pls) ->
  Forall2 (fun p d => is_dist2 (on_plane (plp_plane p)) (compose T' (plp_local p)) d) ls ds ->
  sum ds <= lsq (map v2 (map snd (map (fun p => plane_pair T (plp_plane p) (plp_local p)) ls))) T'.
Proof.
  intros ds ls I F. induction F as [|p d ls ds D F IH]; [cbn; lra|]. cbn [map lsq sum].
  assert (X := C33_plane_projection T (plp_plane p) (plp_local p) (UN p (I p (or_introl eq_refl)))).
  destruct (plane_pair T (plp_plane p) (plp_local p)) as [err pp]. destruct X as (EL & ON & _). cbn [snd]. unfold v2 at 1. cbn [fst snd lsq].
  assert (Y := IH (fun q J => I q (or_intror J))). rewrite EL. destruct D as [_ D]. specialize (D _ ON).
  assert (Q : dist2 (compose T' (plp_local p)) (pp_global pp) = vnorm2 (vsub (pp_global pp) (compose T' (plp_local p)))) by (unfold dist2, vnorm2, vdot, vsub; cbn [vx vy vz]; ring).
  lra.
Qed.
Lemma new_lines T' : forall ds ls, (forall p, In p ls -> In p lns) ->
  Forall2 (fun p d => is_dist2 (on_line (lnp_line p)) (compose T' (lnp_local p)) d) ls ds ->
  sum ds <= lsq (map v2 (map snd (map (fun p => line_pair T (lnp_line p) (lnp_local p)) ls))) T'.
Proof.
  intros ds ls I F. induction F as [|p d ls ds D F IH]; [cbn; lra|]. cbn [map lsq sum].
  assert (X := C33_line_projection T (lnp_line p) (lnp_local p) (UD p (I p (or_introl eq_refl)))).
  destruct (line_pair T (lnp_line p) (lnp_local p)) as [err pp]. destruct X as (EL & ON & _). cbn [snd]. unfold v2 at 1. cbn [fst snd lsq].
  assert (Y := IH (fun q J => I q (or_intror J))). rewrite EL. destruct D as [_ D]. specialize (D _ ON).
  assert (Q : dist2 (compose T' (lnp_local p)) (pp_global pp) = vnorm2 (vsub (pp_global pp) (compose T' (lnp_local p)))) by (unfold dist2, vnorm2, vdot, vsub; cbn [vx vy vz]; ring).
  lra.
Qed.
Lemma planes_comparable : comparable T pls lns -> forall c d, In c (map (fun p => plane_pair T (plp_plane p) (plp_local p)) pls) ->
  In d (map (fun p => plane_pair T (plp_plane p) (plp_local p)) pls) -> fst c / 4 <= fst d.
Proof.
  intros [CP _] c d IC ID. apply in_map_iff in IC as (p & <- & IP). apply in_map_iff in ID as (q & <- & IQ).
  assert (X := C33_plane_projection T (plp_plane p) (plp_local p) (UN p IP)). assert (Y := C33_plane_projection T (plp_plane q) (plp_local q) (UN q IQ)).
  destruct (plane_pair T (plp_plane p) (plp_local p)) as [e1 p1]. destruct (plane_pair T (plp_plane q) (plp_local q)) as [e2 p2].
  destruct X as (_ & _ & D1 & E1 & P1). destruct Y as (_ & _ & D2 & E2 & P2). cbn [fst]. apply quarter_of; [exact P1|exact P2|].
  rewrite E1, E2. apply (CP p q); assumption.
Qed.
Lemma lines_comparable : comparable T pls lns -> forall c d, In c (map (fun p => line_pair T (lnp_line p) (lnp_local p)) lns) ->
  In d (map (fun p => line_pair T (lnp_line p) (lnp_local p)) lns) -> fst c / 4 <= fst d.
Proof.
  intros [_ CP] c d IC ID. apply in_map_iff in IC as (p & <- & IP). apply in_map_iff in ID as (q & <- & IQ).
  assert (X := C33_line_projection T (lnp_line p) (lnp_local p) (UD p IP)). assert (Y := C33_line_projection T (lnp_line q) (lnp_local q) (UD q IQ)).
  destruct (line_pair T (lnp_line p) (lnp_local p)) as [e1 p1]. destruct (line_pair T (lnp_line q) (lnp_local q)) as [e2 p2].
  destruct X as (_ & _ & D1 & E1 & P1). destruct Y as (_ & _ & D2 & E2 & P2). cbn [fst]. apply quarter_of; [exact P1|exact P2|].
  rewrite E1, E2. apply (CP p q); assumption.
Qed.
Lemma convert_all p : comparable T pls lns -> exists ps, pl_convert T pls lns p = Some (mkVP ps [] [] 0 0 []) /\
  Permutation ps (map v2 (map snd (map (fun p => plane_pair T (plp_plane p) (plp_local p)) pls)) ++ map v2 (map snd (map (fun p => line_pair T (lnp_line p) (lnp_local p)) lns))).
Proof.
  intro C. unfold pl_convert. set (pp := map (fun x => mkPP (fst x) (snd x)) (vp_pts p)).
  destruct (C33_selection T pp pls lns) as (kp & dp & kl & dl & E & SA & SB & _).
  { intros q I. rewrite (UN q I). replace (1 - 1) with 0 by ring. rewrite Rabs_R0. lra. }
  rewrite E. destruct (selected_all _ _ _ _ SA (planes_comparable C)) as [_ PA]. destruct (selected_all _ _ _ _ SB (lines_comparable C)) as [_ PB].
  eexists. split; [reflexivity|]. rewrite map_app. apply Permutation_app; apply Permutation_map, Permutation_map, Permutation_sym; assumption.
Qed.
End Step.

(** C347 (where): if the errors of the planes, and those of the lines, are comparable, one step of the Horn solver does not increase the sum of the
    squared distances of the points to their planes and lines *)
Theorem C347_error_never_grows_where : forall eig T pts lls pps ws pls lns wp,
  is_rotation T -> (forall p, In p pls -> vnorm (n_ (plp_plane p)) = 1) -> (forall l, In l lns -> vnorm2 (l_dir (lnp_line l)) <> 0) ->
  (3 <= length pls + length lns)%nat -> comparable T pls lns ->
  wp_kernel wp = None -> wp_use_scale wp = false -> 0 < wp_pt2pt wp -> 0 <= wp_ln2ln wp -> 0 <= wp_pl2pl wp ->
  let p := mixed_pairs pts lls pps ws pls lns in
  (forall p', pl_convert T pls lns p = Some p' -> off_centroid (vp_pts p') /\ spectral (horn_matrix p' wp) (eig (horn_matrix p' wp))) ->
  exists r, horn_algo eig (pl_convert T pls lns) wp p = Ok (true, r) /\ is_rotation (hr_pose r) /\
    forall e e', total_error T pls lns e -> total_error (hr_pose r) pls lns e' -> e' <= e.
Proof.
  intros eig T pts lls pps ws pls lns wp RT UN UD N3 C K S W1 W2 W3 p SP. unfold horn_algo, solver_horn.
  assert (Z : (Nat.eqb (vp_nPt2Ln p) 0 && Nat.eqb (vp_nPt2Pl p) 0)%bool = false).
  { unfold p, mixed_pairs. cbn [vp_nPt2Ln vp_nPt2Pl]. destruct (length lns), (length pls); try reflexivity. cbn in N3. lia. }
  rewrite Z. destruct (convert_all T pls lns UN UD p C) as (ps & E & P). destruct (SP _ E) as [OFF SPE]. rewrite E.
  assert (LEN : length ps = (length pls + length lns)%nat) by (rewrite (Permutation_length P), app_length, !map_length; reflexivity).
  destruct (C85_horn_is_least_squares eig (mkVP ps [] [] 0 0 []) wp) as (r & ER & RR & OPT); try assumption; try reflexivity.
  { cbn [vp_pts]. lia. }
  exists r. split; [exact ER|]. split; [exact RR|].
  intros e e' (dp & dl & FP & FL & ->) (dp' & dl' & FP' & FL' & ->).
  specialize (OPT T RT). cbn [vp_pts] in OPT. rewrite !(lsq_perm _ _ _ P), !lsq_app in OPT.
  rewrite (old_planes T pls UN dp pls (fun _ H => H) FP), (old_lines T lns UD dl lns (fun _ H => H) FL) in OPT.
  assert (A := new_planes T pls UN (hr_pose r) dp' pls (fun _ H => H) FP'). assert (B := new_lines T lns UD (hr_pose r) dl' lns (fun _ H => H) FL'). lra.
Qed.
Print Assumptions C347_error_never_grows_where.

(** ** A scene *)
(** the quarter turn of HornProps; the pose one metre below it *)
Definition lowered : Pose := mkPose (mkV 0 1 0) (mkV (-1) 0 0) (mkV 0 0 1) (mkV 1 2 2).
Lemma lowered_rotation : is_rotation lowered.
Proof. unfold is_rotation, lowered; vunf. repeat split; try ring. f_equal; ring. Qed.
(** a horizontal plane at the height h *)
Definition floor (h : R) : Plane := mkPlane (mkV 0 0 1) (- h).
(** each of the six points with the horizontal plane on which the quarter turn puts it *)
Definition six_floors : list PlanePairing := rev (map (fun l => mkPlP (floor (vz l + 3)) l) six).
(** and seven points at the height at which [lowered] puts them *)
Definition seven : list PlanePairing := repeat (mkPlP (floor 2) (mkV 5 5 0)) 7.

Lemma floor_unit h : vnorm (n_ (floor h)) = 1.
Proof. unfold floor. cbn [n_]. unfold vnorm, vnorm2, vdot. cbn [vx vy vz]. replace (0 * 0 + 0 * 0 + 1 * 1) with 1 by ring. apply sqrt_1. Qed.
Lemma floor_dist h x y z : is_dist2 (on_plane (floor h)) (mkV x y z) ((z - h) * (z - h)).
Proof.
  split.
  - exists (mkV x y h). split; [unfold on_plane, floor; vunf; cbn [d_]; ring|]. unfold dist2. vunf. ring.
  - intros [a b c] Q. unfold on_plane, floor in Q. cbn [n_ d_] in Q. unfold dist2. vunf. assert (c = h) by (revert Q; vunf; intro; lra). subst c.
    assert (A := sq0 (x - a)). assert (B := sq0 (y - b)). lra.
Qed.
Lemma floor_pair T l h g : compose T l = g -> plane_pair T (floor h) l = (Rabs (vz g - h), mkPP (mkV (vx g) (vy g) h) l).
Proof.
  intros <-. unfold plane_pair. cbv zeta. set (g := compose T l).
  assert (E : eval_plane (floor h) g = vz g - h) by (unfold eval_plane, floor, vdot; cbn [n_ d_ vx vy vz]; ring). rewrite E.
  f_equal. f_equal. unfold floor, vsub, vscale. cbn [n_ vx vy vz]. f_equal; ring.
Qed.
Lemma rlt_no {A} a b (x y : A) : b <= a -> (if Rlt_dec a b then x else y) = y.
Proof. intro. destruct (Rlt_dec a b); [lra|reflexivity]. Qed.
Lemma rlt_yes {A} a b (x y : A) : a < b -> (if Rlt_dec a b then x else y) = x.
Proof. intro. destruct (Rlt_dec a b); [reflexivity|lra]. Qed.

Lemma six_pair l : In l six -> plane_pair lowered (floor (vz l + 3)) l = (1, mkPP (compose quarter l) l).
Proof.
  intro I. rewrite (floor_pair lowered l (vz l + 3) (compose lowered l) eq_refl).
  assert (Z : vz (compose lowered l) = vz l + 2) by (unfold lowered; destruct l as [x y z]; vunf; ring). rewrite Z.
  replace (vz l + 2 - (vz l + 3)) with (- (1)) by ring. rewrite Rabs_Ropp, Rabs_R1. f_equal. f_equal.
  unfold lowered, quarter. destruct l as [x y z]. vunf. f_equal; ring.
Qed.
Lemma seven_pair : plane_pair lowered (floor 2) (mkV 5 5 0) = (0, mkPP (mkV (-4) 7 2) (mkV 5 5 0)).
Proof.
  rewrite (floor_pair lowered _ 2 (mkV (-4) 7 2)); [|unfold lowered; vunf; f_equal; ring]. cbn [vx vy vz]. replace (2 - 2) with 0 by ring. rewrite Rabs_R0. reflexivity.
Qed.

(** the selection, with keys 0 and 1 *)
Lemma insert_one p (a b : list PtPair) : mm_insert (1, p) (map (pair 0) a ++ map (pair 1) b) = map (pair 0) a ++ map (pair 1) (b ++ [p]).
Proof.
  induction a as [|x a IH]; cbn [map app mm_insert fst]; [|rewrite rlt_no by lra; rewrite IH; reflexivity].
  induction b as [|x b IH]; cbn [map app mm_insert fst]; [reflexivity|]. rewrite rlt_no by lra. rewrite IH. reflexivity.
Qed.
Lemma insert_zero p (a b : list PtPair) : mm_insert (0, p) (map (pair 0) a ++ map (pair 1) b) = map (pair 0) (a ++ [p]) ++ map (pair 1) b.
Proof.
  induction a as [|x a IH]; cbn [map app mm_insert fst]; [|rewrite rlt_no by lra; rewrite IH; reflexivity].
  destruct b as [|x b]; cbn [map mm_insert fst]; [reflexivity|]. rewrite rlt_yes by lra. reflexivity.
Qed.
Lemma fold_ones b : forall a0 b0, fold_left (fun m x => mm_insert x m) (map (pair 1) b) (map (pair 0) a0 ++ map (pair 1) b0) = map (pair 0) a0 ++ map (pair 1) (b0 ++ b).
Proof.
  induction b as [|x b IH]; intros a0 b0; cbn [map fold_left]; [rewrite app_nil_r; reflexivity|]. rewrite insert_one, IH, <- app_assoc. reflexivity.
Qed.
Lemma fold_zeros a : forall a0 b0, fold_left (fun m x => mm_insert x m) (map (pair 0) a) (map (pair 0) a0 ++ map (pair 1) b0) = map (pair 0) (a0 ++ a) ++ map (pair 1) b0.
Proof.
  induction a as [|x a IH]; intros a0 b0; cbn [map fold_left]; [rewrite app_nil_r; reflexivity|]. rewrite insert_zero, IH, <- app_assoc. reflexivity.
Qed.
Lemma sort_two b a : mm_of (map (pair 1) b ++ map (pair 0) a) = map (pair 0) a ++ map (pair 1) b.
Proof.
  unfold mm_of. rewrite fold_left_app. change (@nil (R * PtPair)) with (map (pair 0) (@nil PtPair) ++ map (pair 1) (@nil PtPair)).
  rewrite fold_ones, fold_zeros. reflexivity.
Qed.
Lemma take_two a : forall b out, (3 <= length out + length b)%nat -> take_sorted (1 * / 4) (map (pair 1) b ++ map (pair 0) a) out = out ++ b.
Proof.
  induction b as [|x b IH]; intros out N; cbn [map app take_sorted].
  - rewrite app_nil_r. cbn [length] in N. destruct a as [|y a]; cbn [map take_sorted]; [reflexivity|]. rewrite rlt_yes by lra.
    destruct (Nat.leb_spec 3 (length out)); [reflexivity|lia].
  - rewrite rlt_no by lra. rewrite IH by (rewrite app_length; cbn [length] in N |- *; lia). rewrite <- app_assoc. reflexivity.
Qed.
Lemma append_two b a : (3 <= length b)%nat -> append_from_sorted (mm_of (map (pair 1) b ++ map (pair 0) a)) [] = rev b.
Proof.
  intro N. rewrite sort_two. unfold append_from_sorted. rewrite rev_app_distr, <- !map_rev.
  assert (L : length (rev b) = length b) by apply rev_length. destruct (rev b) as [|x r] eqn:E; [cbn in L; lia|]. cbn [map app].
  change ((1, x) :: map (pair 1) r ++ map (pair 0) (rev a)) with (map (pair 1) (x :: r) ++ map (pair 0) (rev a)). rewrite take_two by (cbn [length] in *; lia). reflexivity.
Qed.
Lemma scene_convert more p : (more = [] \/ more = seven) -> pl_convert lowered (six_floors ++ more) [] p = Some quarter_pairs.
Proof.
  intro M. unfold pl_convert, convert.
  assert (U : forallb (fun p => near_unit (n_ (plp_plane p))) (six_floors ++ more) = true).
  { apply forallb_forall. intros q I. assert (X : exists h, plp_plane q = floor h).
    { apply in_app_or in I as [I | I].
      - unfold six_floors in I. apply in_rev in I. apply in_map_iff in I as (l & <- & _). eexists. reflexivity.
      - destruct M as [-> | ->]; [destruct I|]. unfold seven in I. apply repeat_spec in I. subst q. eexists. reflexivity. }
    destruct X as [h ->]. unfold near_unit. rewrite floor_unit. replace (1 - 1) with 0 by ring. rewrite Rabs_R0. apply rlt_yes. lra. }
  rewrite U. rewrite map_app.
  assert (A : map (fun p => plane_pair lowered (plp_plane p) (plp_local p)) six_floors = map (pair 1) (rev (map (fun l => mkPP (compose quarter l) l) six))).
  { unfold six_floors. rewrite <- map_rev, !map_map, <- map_rev, map_map. apply map_ext_in. intros l I. apply in_rev in I. cbn [plp_plane plp_local]. apply six_pair, I. }
  assert (B : exists z, map (fun p => plane_pair lowered (plp_plane p) (plp_local p)) more = map (pair 0) z).
  { destruct M as [-> | ->]; [exists []; reflexivity|]. exists (repeat (mkPP (mkV (-4) 7 2) (mkV 5 5 0)) 7). unfold seven. cbn [repeat map plp_plane plp_local]. rewrite !seven_pair. reflexivity. }
  destruct B as [z B]. rewrite A, B, append_two by (rewrite rev_length; cbn; lia). cbn [map mm_of fold_left append_from_sorted rev]. rewrite rev_involutive.
  unfold append_from_sorted. cbn [rev app]. reflexivity.
Qed.
Lemma dist_at h g z d : vz g = z -> d = (z - h) * (z - h) -> is_dist2 (on_plane (floor h)) g d.
Proof. intros <- ->. destruct g as [x y z]. apply floor_dist. Qed.
Lemma scene_error_before : total_error lowered (six_floors ++ seven) [] 6.
Proof.
  exists (repeat 1 6 ++ repeat 0 7), []. split; [|split; [constructor|cbn; ring]].
  apply Forall2_app; [unfold six_floors, six|unfold seven]; cbn [rev map app repeat];
  repeat (apply Forall2_cons; [cbn [plp_plane plp_local vz]; match goal with |- is_dist2 (on_plane (floor ?h)) (compose ?T ?l) ?d => apply (dist_at h (compose T l) (vz l + 2)); [unfold lowered; vunf; ring|cbn [vz]; ring] end|]); constructor.
Qed.
Lemma scene_error_after : total_error quarter (six_floors ++ seven) [] 7.
Proof.
  exists (repeat 0 6 ++ repeat 1 7), []. split; [|split; [constructor|cbn; ring]].
  apply Forall2_app; [unfold six_floors, six|unfold seven]; cbn [rev map app repeat];
  repeat (apply Forall2_cons; [cbn [plp_plane plp_local vz]; match goal with |- is_dist2 (on_plane (floor ?h)) (compose ?T ?l) ?d => apply (dist_at h (compose T l) (vz l + 3)); [unfold quarter; vunf; ring|cbn [vz]; ring] end|]); constructor.
Qed.

(** C347 (refuted): a step of the Horn solver never increases the error.  Pairs with an error below a quarter of the largest one are left out
    of the step, however many they are. *)
Theorem C347_error_never_grows_refuted : exists pls e e' r,
  (forall p, In p pls -> vnorm (n_ (plp_plane p)) = 1) /\ is_rotation lowered /\ length pls = 13%nat /\
  horn_algo quarter_eig (pl_convert lowered pls []) wp_default (mixed_pairs [] [] [] [] pls []) = Ok (true, r) /\
  spectral (horn_matrix quarter_pairs wp_default) (quarter_eig (horn_matrix quarter_pairs wp_default)) /\
  pl_convert lowered pls [] (mixed_pairs [] [] [] [] pls []) = Some quarter_pairs /\
  total_error lowered pls [] e /\ total_error (hr_pose r) pls [] e' /\ e < e'.
Proof.
  exists (six_floors ++ seven), 6, 7, (mkHR quarter []). split.
  { intros q I. apply in_app_or in I as [I | I].
    - unfold six_floors in I. apply in_rev in I. apply in_map_iff in I as (l & <- & _). apply floor_unit.
    - unfold seven in I. apply repeat_spec in I. subst q. apply floor_unit. }
  split; [exact lowered_rotation|]. split; [reflexivity|]. split; [|split; [exact quarter_spectral|split; [apply scene_convert; right; reflexivity|split; [exact scene_error_before|split; [exact scene_error_after|lra]]]]].
  unfold horn_algo, solver_horn, mixed_pairs. cbn [vp_nPt2Ln vp_nPt2Pl length].
  replace (Nat.eqb (length (six_floors ++ seven)) 0) with false by reflexivity. cbn [Nat.eqb andb].
  rewrite scene_convert by (right; reflexivity). exact quarter_recovered.
Qed.
Print Assumptions C347_error_never_grows_refuted.

(** the hypotheses of the where theorem hold for the six points alone *)
Example C347_case : (forall p, In p six_floors -> vnorm (n_ (plp_plane p)) = 1) /\ length six_floors = 6%nat /\ comparable lowered six_floors [] /\
  forall p p', pl_convert lowered six_floors [] p = Some p' -> off_centroid (vp_pts p') /\ spectral (horn_matrix p' wp_default) (quarter_eig (horn_matrix p' wp_default)).
Proof.
  assert (FL : forall p, In p six_floors -> exists l, In l six /\ p = mkPlP (floor (vz l + 3)) l).
  { intros q I. unfold six_floors in I. apply in_rev in I. apply in_map_iff in I as (l & <- & X). exists l. auto. }
  assert (D : forall l, is_dist2 (on_plane (floor (vz l + 3))) (compose lowered l) 1).
  { intro l. replace (compose lowered l) with (mkV (vx (compose lowered l)) (vy (compose lowered l)) (vz l + 2)) by (destruct l as [x y z]; unfold lowered; vunf; f_equal; ring).
    replace 1 with ((vz l + 2 - (vz l + 3)) * (vz l + 2 - (vz l + 3))) by ring. apply floor_dist. }
  split; [intros p I; destruct (FL p I) as (l & _ & ->); apply floor_unit|]. split; [reflexivity|]. split.
  - split; [|intros p q dp dq []]. intros p q dp dq IP IQ DP DQ. destruct (FL p IP) as (a & _ & ->). destruct (FL q IQ) as (b & _ & ->). cbn [plp_plane plp_local] in *.
    rewrite (is_dist2_unique _ _ _ _ DP (D a)), (is_dist2_unique _ _ _ _ DQ (D b)). lra.
  - intros p p' E. assert (X := scene_convert [] p (or_introl eq_refl)). rewrite app_nil_r in X. rewrite X in E. injection E as <-. split; [exact quarter_far|exact quarter_spectral].
Qed.

(** C346: the six points at the quarter turn, two of them with a line *)
Definition four_floors : list PlanePairing := rev (map (fun l => mkPlP (floor (vz l + 3)) l) (firstn 4 six)).
Definition two_lines : list LinePairing := rev (map (fun l => mkLnP (mkLine (mkV 1 2 0) (mkV 0 0 1)) l) (skipn 4 six)).
Lemma fits_case : fits quarter four_floors two_lines.
Proof.
  split.
  - intros p I. unfold four_floors in I. apply in_rev in I. apply in_map_iff in I as (l & <- & _). cbn [plp_plane plp_local]. rewrite floor_unit.
    split; [replace (1 - 1) with 0 by ring; rewrite Rabs_R0; lra|]. unfold on_plane, floor, quarter. destruct l as [x y z]. cbn [n_ d_]. vunf. ring.
  - intros p I. unfold two_lines in I. apply in_rev in I. apply in_map_iff in I as (l & <- & X). cbn [lnp_line lnp_local l_dir].
    split; [vunf; lra|]. exists (vz l + 3). cbn [skipn six In] in X. destruct X as [<- | [<- | []]]; unfold quarter; cbn [l_base l_dir]; vunf; f_equal; ring.
Qed.
Lemma case_convert p : pl_convert quarter four_floors two_lines p = Some quarter_pairs.
Proof. rewrite (convert_fits quarter four_floors two_lines p fits_case). unfold four_floors, two_lines. rewrite !map_rev, !rev_involutive, !map_map. cbn [firstn skipn six map plp_local lnp_local app]. reflexivity. Qed.
Example C346_case : is_rotation quarter /\ fits quarter four_floors two_lines /\ (3 <= length four_floors + length two_lines)%nat /\
  spread (locals four_floors two_lines) /\ weights_ok wp_default /\
  forall p p', pl_convert quarter four_floors two_lines p = Some p' -> spectral (horn_matrix p' wp_default) (quarter_eig (horn_matrix p' wp_default)).
Proof.
  split; [exact quarter_rotation|]. split; [exact fits_case|]. split; [cbn; lia|]. split; [|split].
  - apply (spread_perm six).
    { change six with (firstn 4 six ++ skipn 4 six). unfold locals, four_floors, two_lines. rewrite !map_rev, !map_map. cbn [plp_local lnp_local]. rewrite !map_id. apply Permutation_app; apply Permutation_rev. }
    unfold spread. rewrite centroid_six. exists (mkV 1 0 0), (mkV 0 1 0). split; [left; reflexivity|]. split; [right; right; left; reflexivity|].
    split; [apply vnorm_far; unfold vzero3; vunf; lra|]. split; [apply vnorm_far; unfold vzero3; vunf; lra|].
    unfold vzero3. vunf. intro X. injection X as _ _ X. lra.
  - unfold weights_ok, wp_default. cbn. split; [lra|]. split; [lra|]. split; [lra|]. split; [reflexivity|discriminate].
  - intros p p' E. rewrite case_convert in E. injection E as <-. exact quarter_spectral.
Qed.
Lemma fits_case34 : fits turn34 four_floors two_lines.
Proof.
  split.
  - intros p I. unfold four_floors in I. apply in_rev in I. apply in_map_iff in I as (l & <- & _). cbn [plp_plane plp_local]. rewrite floor_unit.
    split; [replace (1 - 1) with 0 by ring; rewrite Rabs_R0; lra|]. unfold on_plane, floor, turn34. destruct l as [x y z]. cbn [n_ d_]. vunf. ring.
  - intros p I. unfold two_lines in I. apply in_rev in I. apply in_map_iff in I as (l & <- & X). cbn [lnp_line lnp_local l_dir].
    split; [vunf; lra|]. exists (vz l + 3). cbn [skipn six In] in X. destruct X as [<- | [<- | []]]; unfold turn34; cbn [l_base l_dir]; vunf; f_equal; field.
Qed.
Example C346_olae_case : is_rotation turn34 /\ linear_solver cramer /\ fits turn34 four_floors two_lines /\
  forall p p', pl_convert turn34 four_floors two_lines p = Some p' -> one_largest (olae_problem p' wp_default).
Proof.
  split; [exact turn34_rotation|]. split; [exact cramer_solves|]. split; [exact fits_case34|]. intros p p' E.
  rewrite (convert_fits turn34 four_floors two_lines p fits_case34) in E. unfold four_floors, two_lines in E. rewrite !map_rev, !rev_involutive, !map_map in E.
  cbn [firstn skipn six map plp_local lnp_local app] in E. injection E as <-. exact turn34_one_largest.
Qed.
