(** C270: the gradient of the Gauss-Newton solver is the derivative of the weighted squared error. *)
From Coq Require Import Reals List Lra Lia Psatz.
From Verif Require Import Base GeomModel VisitModel VisitSpec VisitProps GeomProps GnModel GnSpec GnProps.
Import ListNotations.
Open Scope R_scope.

(** ** Specification *)
(** A curve of poses through the identity whose velocity there is the six-vector e = (v, w): translation at
    velocity v, rotation at angular velocity w *)
Definition tangent (D : R -> Pose) (e : V6) : Prop :=
  D 0 = mkPose (mkV 1 0 0) (mkV 0 1 0) (mkV 0 0 1) (mkV 0 0 0) /\
  (derivable_pt_lim (fun t => vx (c0 (D t))) 0 0 /\ derivable_pt_lim (fun t => vy (c0 (D t))) 0 (x5 e) /\ derivable_pt_lim (fun t => vz (c0 (D t))) 0 (- x4 e)) /\
  (derivable_pt_lim (fun t => vx (c1 (D t))) 0 (- x5 e) /\ derivable_pt_lim (fun t => vy (c1 (D t))) 0 0 /\ derivable_pt_lim (fun t => vz (c1 (D t))) 0 (x3 e)) /\
  (derivable_pt_lim (fun t => vx (c2 (D t))) 0 (x4 e) /\ derivable_pt_lim (fun t => vy (c2 (D t))) 0 (- x3 e) /\ derivable_pt_lim (fun t => vz (c2 (D t))) 0 0) /\
  (derivable_pt_lim (fun t => vx (tr (D t))) 0 (x0 e) /\ derivable_pt_lim (fun t => vy (tr (D t))) 0 (x1 e) /\ derivable_pt_lim (fun t => vz (tr (D t))) 0 (x2 e)).

(** The weight of a residual vector of a class with weight w: the robust kernel scales it by a
    function of the squared length *)
Definition weight_of (par : GParams) (w : R) (e : V3) : R :=
  match g_kernel par with None => w | Some f => w * f (vnorm2 e) end.
(** The weighted squared error of the pairs at the pose T, the weights being those of the pose T0 *)
Definition class_cost {A} (par : GParams) (w : R) (err : A -> Pose -> V3) (l : list A) (T0 T : Pose) : R :=
  rsum (fun x => weight_of par w (err x T0) * vnorm2 (err x T)) l.
Definition frozen_cost (par : GParams) (p : GPairs) (T0 T : Pose) : R :=
  class_cost par (g_w_pt2pt par) (fun x => error_point2point (fst x) (snd x)) (gp_pt2pt p) T0 T +
  class_cost par (g_w_pt2ln par) (fun x => error_point2line (fst x) (snd x)) (gp_pt2ln p) T0 T +
  class_cost par (g_w_pt2pl par) (fun x => error_point2plane (fst x) (snd x)) (gp_pt2pl p) T0 T +
  class_cost par (g_w_pl2pl par) (fun x => error_plane2plane (fst x) (snd x)) (gp_pl2pl p) T0 T.

(** ** Derivatives *)
Lemma dpl_ext f g x l : (forall t, f t = g t) -> derivable_pt_lim f x l -> derivable_pt_lim g x l.
Proof. intros E H eps P. destruct (H eps P) as [d Q]. exists d. intros h A B. rewrite <- !E. apply Q; assumption. Qed.
Lemma dpl_eq f x l l' : derivable_pt_lim f x l -> l = l' -> derivable_pt_lim f x l'.
Proof. intros H <-. exact H. Qed.
Lemma dpl_scal f x l k : derivable_pt_lim f x l -> derivable_pt_lim (fun t => k * f t) x (k * l).
Proof. intros H. apply (derivable_pt_lim_scal f k x l H). Qed.
Lemma dpl_add f g x l m : derivable_pt_lim f x l -> derivable_pt_lim g x m -> derivable_pt_lim (fun t => f t + g t) x (l + m).
Proof. intros H K. apply (derivable_pt_lim_plus f g x l m H K). Qed.
Lemma dpl_const k x : derivable_pt_lim (fun _ => k) x 0.
Proof. apply (derivable_pt_lim_const k x). Qed.
Lemma dpl_sq f x l : derivable_pt_lim f x l -> derivable_pt_lim (fun t => f t * f t) x (2 * (f x * l)).
Proof. intros H. eapply dpl_eq; [apply (derivable_pt_lim_mult f f x l l H H)|ring]. Qed.
Lemma dpl_rsum {A} (f : R -> A -> R) (d : A -> R) x l : Forall (fun a => derivable_pt_lim (fun t => f t a) x (d a)) l ->
  derivable_pt_lim (fun t => rsum (f t) l) x (rsum d l).
Proof. induction 1 as [|a l H F IH]; cbn [rsum]; [apply dpl_const|]. apply dpl_add; assumption. Qed.

(** the displacement in the 12 numbers of the pose *)
Definition psub (A B : Pose) : Pose := mkPose (vsub (c0 A) (c0 B)) (vsub (c1 A) (c1 B)) (vsub (c2 A) (c2 B)) (vsub (tr A) (tr B)).
Lemma padd_psub A B : padd A (psub B A) = B.
Proof.
  destruct A as [[a0 a1 a2] [a3 a4 a5] [a6 a7 a8] [a9 a10 a11]], B as [[b0 b1 b2] [b3 b4 b5] [b6 b7 b8] [b9 b10 b11]].
  unfold padd, psub, vadd, vsub. cbn [c0 c1 c2 tr vx vy vz]. f_equal; f_equal; ring.
Qed.
Lemma dpl_12 (f0 f1 f2 f3 f4 f5 f6 f7 f8 f9 f10 f11 : R -> R) x d0 d1 d2 d3 d4 d5 d6 d7 d8 d9 d10 d11
  k0 k1 k2 k3 k4 k5 k6 k7 k8 k9 k10 k11 k :
  derivable_pt_lim f0 x d0 -> derivable_pt_lim f1 x d1 -> derivable_pt_lim f2 x d2 -> derivable_pt_lim f3 x d3 ->
  derivable_pt_lim f4 x d4 -> derivable_pt_lim f5 x d5 -> derivable_pt_lim f6 x d6 -> derivable_pt_lim f7 x d7 ->
  derivable_pt_lim f8 x d8 -> derivable_pt_lim f9 x d9 -> derivable_pt_lim f10 x d10 -> derivable_pt_lim f11 x d11 ->
  derivable_pt_lim (fun t => k0 * f0 t + (k1 * f1 t + (k2 * f2 t + (k3 * f3 t + (k4 * f4 t + (k5 * f5 t + (k6 * f6 t + (k7 * f7 t + (k8 * f8 t + (k9 * f9 t + (k10 * f10 t + (k11 * f11 t + k)))))))))))) x
    (k0 * d0 + (k1 * d1 + (k2 * d2 + (k3 * d3 + (k4 * d4 + (k5 * d5 + (k6 * d6 + (k7 * d7 + (k8 * d8 + (k9 * d9 + (k10 * d10 + (k11 * d11 + 0)))))))))))).
Proof. intros. do 12 (apply dpl_add; [apply dpl_scal; assumption|]). apply dpl_const. Qed.
Lemma move_derivative T D e j : tangent D e -> length j = 12%nat ->
  derivable_pt_lim (fun t => dotl j (vec (psub (padd_pose T (D t)) T))) 0 (dot6 (row6 T j) e).
Proof.
  intros (_ & (A0 & A1 & A2) & (B0 & B1 & B2) & (C0 & C1 & C2) & (T0 & T1 & T2)) L.
  destruct j as [|j0 [|j1 [|j2 [|j3 [|j4 [|j5 [|j6 [|j7 [|j8 [|j9 [|j10 [|j11 [|? ?]]]]]]]]]]]]]; try discriminate L. clear L.
  destruct T as [[a0 a1 a2] [b0 b1 b2] [g0 g1 g2] [t0 t1 t2]].
  eapply dpl_ext; [|eapply dpl_eq; [exact (dpl_12 _ _ _ _ _ _ _ _ _ _ _ _ 0 _ _ _ _ _ _ _ _ _ _ _ _
     (j0*a0+j1*a1+j2*a2) (j0*b0+j1*b1+j2*b2) (j0*g0+j1*g1+j2*g2)
     (j3*a0+j4*a1+j5*a2) (j3*b0+j4*b1+j5*b2) (j3*g0+j4*g1+j5*g2)
     (j6*a0+j7*a1+j8*a2) (j6*b0+j7*b1+j8*b2) (j6*g0+j7*g1+j8*g2)
     (j9*a0+j10*a1+j11*a2) (j9*b0+j10*b1+j11*b2) (j9*g0+j10*g1+j11*g2)
     (- (j0*a0+j1*a1+j2*a2+j3*b0+j4*b1+j5*b2+j6*g0+j7*g1+j8*g2))
     A0 A1 A2 B0 B1 B2 C0 C1 C2 T0 T1 T2)|]].
  - intros t. cbn beta. unfold padd_pose, psub, compose, rotate, vec, vadd, vscale, vsub. cbn [c0 c1 c2 tr vx vy vz dotl]. ring.
  - unfold row6, dDexpe_de, dot6, vec, vscale, vzero3. cbn [c0 c1 c2 tr vx vy vz dotl nth x0 x1 x2 x3 x4 x5]. ring.
Qed.

(** one residual vector, affine in the pose *)
Definition affine_at (err : Pose -> V3) (J : list (list R)) (T : Pose) : Prop :=
  length J = 3%nat /\ Forall (fun j => length j = 12%nat) J /\
  forall D, l3 (err (padd T D)) = ladd (l3 (err T)) (mvec J (vec D)).
Lemma padd_pose_id T D : D = mkPose (mkV 1 0 0) (mkV 0 1 0) (mkV 0 0 1) (mkV 0 0 0) -> padd_pose T D = T.
Proof.
  intros ->. destruct T as [[a0 a1 a2] [b0 b1 b2] [g0 g1 g2] [t0 t1 t2]]. unfold padd_pose, compose, rotate, vadd, vscale.
  cbn [c0 c1 c2 tr vx vy vz]. f_equal; f_equal; ring.
Qed.
Lemma residual_derivative (err : Pose -> V3) J T D e w : affine_at err J T -> tangent D e ->
  derivable_pt_lim (fun t => w * vnorm2 (err (padd_pose T (D t)))) 0
    (2 * rsum (fun r => w_w r * (w_e r * dot6 (w_j r) e)) (wrows T w (combine (l3 (err T)) J))).
Proof.
  intros (L & F & AF) TG. destruct J as [|ja [|jb [|jc [|? ?]]]]; try discriminate L.
  inversion F as [|? ? La F1]; subst. inversion F1 as [|? ? Lb F2]; subst. inversion F2 as [|? ? Lc _]; subst. clear F F1 F2 L.
  set (q := fun j t => dotl j (vec (psub (padd_pose T (D t)) T))).
  assert (Z : forall j, q j 0 = dotl j (vec (psub T T))).
  { intros j. unfold q. rewrite padd_pose_id; [reflexivity|]. exact (proj1 TG). }
  assert (E : forall t, vx (err (padd_pose T (D t))) = vx (err T) + q ja t /\ vy (err (padd_pose T (D t))) = vy (err T) + q jb t /\ vz (err (padd_pose T (D t))) = vz (err T) + q jc t).
  { intros t. assert (X := AF (psub (padd_pose T (D t)) T)). rewrite padd_psub in X. unfold l3, ladd, mvec in X. cbn [map combine fst snd] in X.
    injection X as X1 X2 X3. unfold q. auto. }
  assert (E0 := E 0). rewrite (padd_pose_id T (D 0) (proj1 TG)) in E0. destruct E0 as (Za & Zb & Zc).
  assert (DR : forall j (c : V3 -> R), length j = 12%nat -> q j 0 = 0 ->
    derivable_pt_lim (fun t => (c (err T) + q j t) * (c (err T) + q j t)) 0 (2 * (c (err T) * dot6 (row6 T j) e))).
  { intros j c Lj Q0. eapply dpl_eq; [apply (dpl_sq (fun t => c (err T) + q j t)); apply dpl_add; [apply dpl_const|exact (move_derivative T D e j TG Lj)]|].
    cbn beta. rewrite Q0. ring. }
  assert (SUM := dpl_scal _ 0 _ w (dpl_add _ _ 0 _ _ (DR ja vx La ltac:(lra)) (dpl_add _ _ 0 _ _ (DR jb vy Lb ltac:(lra)) (DR jc vz Lc ltac:(lra))))).
  eapply dpl_ext; [|eapply dpl_eq; [exact SUM|]].
  - intros t. destruct (E t) as (E1 & E2 & E3). unfold vnorm2, vdot. rewrite E1, E2, E3. ring.
  - unfold l3. cbn [combine wrows map rsum w_w w_e w_j fst snd]. ring.
Qed.

Lemma class_derivative {A} par w (err : A -> Pose -> V3) (jac : A -> Pose -> list (list R)) (f : Pose -> A -> rows) T D e l :
  (forall x, f T x = combine (l3 (err x T)) (jac x T)) ->
  Forall (fun x => affine_at (err x) (jac x T) T) l -> tangent D e ->
  derivable_pt_lim (fun t => class_cost par w err l T (padd_pose T (D t))) 0
    (2 * rsum (fun r => w_w r * (w_e r * dot6 (w_j r) e)) (class_rows T par w f l)).
Proof.
  intros EF F TG. unfold class_cost, class_rows.
  eapply dpl_eq; [apply (dpl_rsum (fun t x => weight_of par w (err x T) * vnorm2 (err x (padd_pose T (D t))))
    (fun x => 2 * rsum (fun r => w_w r * (w_e r * dot6 (w_j r) e)) (wrows T (robust par w (f T x)) (f T x))))|].
  - eapply Forall_impl; [|exact F]. intros x AX. cbn beta. rewrite EF.
    assert (W : robust par w (combine (l3 (err x T)) (jac x T)) = weight_of par w (err x T)).
    { unfold robust, weight_of. destruct (g_kernel par) as [k|]; [|reflexivity]. f_equal. f_equal. destruct AX as (L & _ & _).
      destruct (jac x T) as [|? [|? [|? [|? ?]]]]; try discriminate L. unfold sq_norm, l3, vnorm2, vdot. cbn [combine fold_right fst]. ring. }
    rewrite W. apply residual_derivative; assumption.
  - clear F. induction l as [|x l IH]; cbn [rsum flat_map]; [ring|]. rewrite rsum_app, IH. ring.
Qed.

Lemma affine_pt2pt T x : affine_at (error_point2point (fst x) (snd x)) (jac_point2point (fst x) (snd x) T) T.
Proof. split; [reflexivity|]. split; [repeat constructor|]. intros D. apply C29_point2point. Qed.
Lemma affine_pt2ln T x : affine_at (error_point2line (fst x) (snd x)) (jac_point2line (fst x) (snd x) T) T.
Proof. split; [reflexivity|]. split; [repeat constructor|]. intros D. apply C29_point2line. Qed.
Lemma affine_pt2pl T x : n_ (fst x) <> mkV 0 0 0 -> affine_at (error_point2plane (fst x) (snd x)) (jac_point2plane (fst x) (snd x) T) T.
Proof. intros N. split; [reflexivity|]. split; [repeat constructor|]. intros D. apply C29_point2plane. exact N. Qed.
Lemma affine_pl2pl T x : affine_at (error_plane2plane (fst x) (snd x)) (jac_plane2plane (fst x) (snd x) T) T.
Proof. split; [reflexivity|]. split; [repeat constructor|]. intros D. apply C29_plane2plane. Qed.

Lemma point_rows_class T par p i : gp_weights p = [] -> forall ps,
  point_rows T par (point_weight par p) i ps = class_rows T par (g_w_pt2pt par) rows_pt2pt ps.
Proof.
  intros NW ps. revert i. induction ps as [|x ps IH]; intros i; cbn [point_rows class_rows flat_map]; [reflexivity|].
  rewrite IH. unfold point_weight. rewrite NW. reflexivity.
Qed.

(** C270: the vector g of every inner iteration is half the derivative of the weighted squared error along every
    curve of rigid motions from the pose of that iteration: translation first, then rotation, in the frame of the pose. *)
Theorem C270_gradient : forall ldlt exp6 par p sched T log,
  no_prior par -> gp_weights p = [] -> gp_ln2ln p = [] -> Forall (fun x => n_ (fst x) <> mkV 0 0 0) (gp_pt2pl p) ->
  (forall k, fair p (sched k)) ->
  optimal_tf_gauss_newton ldlt exp6 par p (tbb sched) = Ok (true, T, log) ->
  Forall (fun s => forall D e, tangent D e ->
    derivable_pt_lim (fun t => frozen_cost par p (st_pose s) (padd_pose (st_pose s) (D t))) 0 (2 * dot6 (ne_g (st_ne s)) e)) log.
Proof.
  intros ldlt exp6 par p sched T log NP NW NL NZ FAIR E.
  destruct (C30_normal_equations_of_every_iteration ldlt exp6 par p sched T log NP NW FAIR E) as [_ F].
  eapply Forall_impl; [|exact F]. intros s [_ NG] D e TG. cbn beta. rewrite NG. unfold frozen_cost, all_rows, all_rows_with.
  rewrite NL, (point_rows_class _ _ _ _ NW), !rsum_app. unfold class_rows at 3. cbn [flat_map rsum].
  eapply dpl_eq; [apply dpl_add; [apply dpl_add; [apply dpl_add|]|]|].
  - apply (class_derivative par _ _ (fun x T => jac_point2point (fst x) (snd x) T) rows_pt2pt); [reflexivity| |exact TG].
    apply Forall_forall. intros x _. apply affine_pt2pt.
  - apply (class_derivative par _ _ (fun x T => jac_point2line (fst x) (snd x) T) rows_pt2ln); [reflexivity| |exact TG].
    apply Forall_forall. intros x _. apply affine_pt2ln.
  - apply (class_derivative par _ _ (fun x T => jac_point2plane (fst x) (snd x) T) rows_pt2pl); [reflexivity| |exact TG].
    eapply Forall_impl; [|exact NZ]. intros x. apply affine_pt2pl.
  - apply (class_derivative par _ _ (fun x T => jac_plane2plane (fst x) (snd x) T) rows_pl2pl); [reflexivity| |exact TG].
    apply Forall_forall. intros x _. apply affine_pl2pl.
  - ring.
Qed.

(** A curve: a screw motion about the z axis, seen from a pose *)
Definition screw (t : R) : Pose := mkPose (mkV (cos t) (sin t) 0) (mkV (- sin t) (cos t) 0) (mkV 0 0 1) (mkV 0 0 (2 * t)).
Example C270_example : tangent screw (mk6 0 0 2 0 0 1).
Proof.
  assert (C : derivable_pt_lim cos 0 0) by (eapply dpl_eq; [apply derivable_pt_lim_cos|rewrite sin_0; ring]).
  assert (S : derivable_pt_lim sin 0 1) by (eapply dpl_eq; [apply derivable_pt_lim_sin|rewrite cos_0; ring]).
  assert (Z : forall k, derivable_pt_lim (fun _ => k) 0 0) by (intros k; apply dpl_const).
  unfold tangent. cbn [x0 x1 x2 x3 x4 x5 screw c0 c1 c2 tr vx vy vz]. split.
  { unfold screw. rewrite cos_0, sin_0. f_equal; f_equal; ring. }
  split; [|split; [|split]].
  - split; [exact C|]. split; [exact S|]. eapply dpl_eq; [apply Z|ring].
  - split; [|split; [exact C|apply Z]]. eapply dpl_ext; [|eapply dpl_eq; [apply (dpl_scal sin 0 1 (-1) S)|ring]]. intros t. cbn beta. ring.
  - split; [apply Z|]. split; [eapply dpl_eq; [apply Z|ring]|apply Z].
  - split; [apply Z|]. split; [apply Z|]. eapply dpl_eq; [apply dpl_scal; apply derivable_pt_lim_id|ring].
Qed.
