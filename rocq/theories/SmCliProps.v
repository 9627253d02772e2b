(** C211-C223: the sm-cli program. *)
From Coq Require Import String Reals Lra Lia Psatz Sorted Nsatz OrderedTypeEx.
From Verif Require Import Base GeomModel RotProofs HornProofs SmCliModel.
Open Scope nat_scope.

Section Props.
Variables (PDF Twist Data : Type) (pdf_mean : PDF -> Pose) (pdf_change : Pose -> PDF -> PDF).
Variables (box_ok : V3 -> V3 -> bool) (parse_pose : string -> option Pose) (levmarq : (R * R * R -> list R) -> R * R * R).
Notation KF := (KF PDF Twist Data).
Notation SM := (SM PDF Twist Data).
Notation Env := (Env PDF Twist Data).
Notation Event := (Event PDF Twist Data).
Notation WSM := (WSimplemap PDF Twist Data).
Notation run := (sm_cli PDF pdf_mean pdf_change Twist Data box_ok parse_pose levmarq).

(** ** Vocabulary of the specifications *)
(** the command line `sm-cli c1 c2 ...` with the given options *)
Definition line (cs : list string) (from to : option nat) (lo hi : option (option V3)) (out : option string) : Args :=
  mkArgs cs false false from to lo hi out None.
(** file [f] holds the map [m] *)
Definition holds (e : Env) (f : string) (m : SM) : Prop := e_load _ _ _ e f = Some (Some m).
Definition writable (e : Env) (f : string) : Prop := e_writable _ _ _ e f = true.
(** a point lies in the closed box *)
Definition inside (lo hi p : V3) : Prop :=
  (vx lo <= vx p <= vx hi /\ vy lo <= vy p <= vy hi /\ vz lo <= vz p <= vz hi)%R.
(** [k'] is [k] moved by [T]: same observations and twist, and its mean pose takes points where [T]
    takes the points of the old one *)
Definition moved_kf (T : Pose) (k k' : KF) : Prop :=
  kf_sf _ _ _ k' = kf_sf _ _ _ k /\ kf_twist _ _ _ k' = kf_twist _ _ _ k /\
  exists p p', kf_pose _ _ _ k = Some p /\ kf_pose _ _ _ k' = Some p' /\
    forall u, compose (pdf_mean p') u = compose T (compose (pdf_mean p) u).
(** contract of mrpt changeCoordinatesReference() *)
Definition change_contract : Prop := forall T p, pdf_mean (pdf_change T p) = pose_mul T (pdf_mean p).
Definition has_pose (k : KF) : Prop := kf_pose _ _ _ k <> None.

Notation wbnd := (wbnd PDF Twist Data).
Lemma read_ok e f m : holds e f m -> read_input PDF Twist Data e f = ([], Ok m).
Proof. unfold holds, read_input. intros ->. reflexivity. Qed.
Lemma wbnd_ok {A B} (a : A) (f : A -> W PDF Twist Data B) : wbnd ([], Ok a) f = f a.
Proof. cbn. destruct (f a); reflexivity. Qed.
Lemma save_ok {B} e f ev (g : unit -> W PDF Twist Data B) : writable e f ->
  wbnd (save PDF Twist Data e f ev) g = (let '(es, r) := g tt in (ev :: es, r)).
Proof. unfold writable, save. intros ->. reflexivity. Qed.
Lemma lift_ok {A B} (a : A) (f : A -> W PDF Twist Data B) : wbnd (lift PDF Twist Data (Ok a)) f = f a.
Proof. apply wbnd_ok. Qed.

(** ** cut *)
Lemma nth_firstn {A} n : forall (l : list A) k, nth_error (firstn n l) k = if Nat.ltb k n then nth_error l k else None.
Proof.
  induction n as [|n IH]; intros l k; [destruct k; reflexivity|]. destruct l as [|x l]; [cbn [firstn]; destruct (Nat.ltb k (S n)); destruct k; reflexivity|].
  destruct k; [reflexivity|]. cbn [firstn nth_error]. rewrite IH. reflexivity.
Qed.
Lemma nth_skipn {A} n : forall (l : list A) k, nth_error (skipn n l) k = nth_error l (n + k).
Proof. induction n as [|n IH]; intros l k; [reflexivity|]. destruct l; [destruct k; reflexivity|]. cbn [skipn plus nth_error]. apply IH. Qed.

(** C211: `cut --from i --to j` writes the keyframes i..j, both included, in order and unchanged (none
    if i > j); if an index is not that of a keyframe, nothing is written and the exit code is 1. *)
Theorem C211_cut_keeps_the_range : forall e f out i j m, holds e f m -> writable e out ->
  let r := run e (line ["cut"; f]%string (Some i) (Some j) None None (Some out)) in
  (i < List.length m -> j < List.length m ->
    exists o, r = ([WSM out o], Ok 0) /\ List.length o = j + 1 - i /\
      forall k, nth_error o k = if Nat.ltb k (j + 1 - i) then nth_error m (i + k) else None) /\
  (List.length m <= i \/ List.length m <= j -> r = ([], Ok 1)).
Proof.
  intros e f out i j m H Wr r. subst r. unfold sm_cli, dispatch, line. cbn -[cut read_input save SmCliModel.wbnd lift].
  rewrite (read_ok _ _ _ H), wbnd_ok. unfold cut. split.
  - intros I J. destruct (Nat.ltb_spec i (List.length m)); [|lia]. destruct (Nat.ltb_spec j (List.length m)); [|lia].
    rewrite lift_ok, save_ok by exact Wr. eexists. split; [reflexivity|]. split.
    + rewrite firstn_length, skipn_length. lia.
    + intro k. rewrite nth_firstn, nth_skipn. reflexivity.
  - intros Z. destruct (Nat.ltb_spec i (List.length m)); [|reflexivity].
    destruct (Nat.ltb_spec j (List.length m)); [lia|reflexivity].
Qed.

(** ** join *)
Lemma join_ok e : forall files acc ms, Forall2 (holds e) files ms ->
  join PDF Twist Data e files acc = ([], Ok (acc ++ concat ms)).
Proof.
  induction files as [|f r IH]; intros acc ms F; inversion F as [|? m ? ms' Hf Fr]; subst; cbn [join concat].
  - rewrite app_nil_r. reflexivity.
  - rewrite (read_ok _ _ _ Hf), wbnd_ok. rewrite (IH _ ms' Fr), app_assoc. reflexivity.
Qed.
Lemma join_bad e : forall files acc, (exists f, In f files /\ forall m, ~ holds e f m) ->
  join PDF Twist Data e files acc = ([], Throw).
Proof.
  induction files as [|f r IH]; intros acc [g [I N]]; [destruct I|]. cbn [join]. unfold read_input.
  destruct (e_load _ _ _ e f) as [[m|]|] eqn:E; [|reflexivity|reflexivity]. unfold wret. rewrite wbnd_ok.
  rewrite IH; [reflexivity|]. exists g. split; [|exact N]. destruct I as [<-|I]; [|exact I]. exfalso. exact (N m E).
Qed.

(** C215: `join f1 f2 ...` writes the keyframes of all the maps one after the other, in the order of the
    command line; if one file cannot be loaded nothing is written and the exit code is 1. *)
Theorem C215_join_concatenates : forall e f fs out, writable e out ->
  let r := run e (line ("join" :: f :: fs)%string None None None None (Some out)) in
  (forall ms, Forall2 (holds e) (f :: fs) ms -> r = ([WSM out (concat ms)], Ok 0)) /\
  ((exists g, In g (f :: fs) /\ forall m, ~ holds e g m) -> r = ([], Ok 1)).
Proof.
  intros e f fs out Wr r. subst r. unfold sm_cli, dispatch, line. cbn -[join save SmCliModel.wbnd In]. split.
  - intros ms F. rewrite (join_ok e _ _ ms F), wbnd_ok, save_ok by exact Wr. reflexivity.
  - intros B. rewrite (join_bad e _ _ B). reflexivity.
Qed.

(** C212: cutting a map in two and joining the parts gives the map back. *)
Theorem C212_cut_then_join : forall e e' f f1 f2 out m k, holds e f m -> S k < List.length m ->
  writable e f1 -> writable e f2 -> writable e' out ->
  exists m1 m2,
    run e (line ["cut"; f]%string (Some 0) (Some k) None None (Some f1)) = ([WSM f1 m1], Ok 0) /\
    run e (line ["cut"; f]%string (Some (S k)) (Some (List.length m - 1)) None None (Some f2)) = ([WSM f2 m2], Ok 0) /\
    (holds e' f1 m1 -> holds e' f2 m2 ->
     run e' (line ["join"; f1; f2]%string None None None None (Some out)) = ([WSM out m], Ok 0)).
Proof.
  intros e e' f f1 f2 out m k H L W1 W2 W3.
  destruct (proj1 (C211_cut_keeps_the_range e f f1 0 k m H W1) ltac:(lia) ltac:(lia)) as [m1 [R1 [L1 N1]]].
  destruct (proj1 (C211_cut_keeps_the_range e f f2 (S k) (List.length m - 1) m H W2) ltac:(lia) ltac:(lia)) as [m2 [R2 [L2 N2]]].
  exists m1, m2. split; [exact R1|]. split; [exact R2|]. intros H1 H2.
  rewrite (proj1 (C215_join_concatenates e' f1 [f2] out W3) [m1; m2]); [|constructor; [exact H1|constructor; [exact H2|constructor]]].
  do 3 f_equal. cbn [concat]. rewrite app_nil_r.
  assert (E : forall n, nth_error (m1 ++ m2) n = nth_error m n).
  { intro n. destruct (Nat.ltb_spec n (List.length m1)) as [A|A].
    - rewrite nth_error_app1 by exact A. rewrite N1. destruct (Nat.ltb_spec n (k + 1 - 0)); [reflexivity|lia].
    - rewrite nth_error_app2 by exact A. rewrite N2. destruct (Nat.ltb_spec (n - List.length m1) (List.length m - 1 + 1 - S k)).
      + f_equal. lia.
      + symmetry. apply nth_error_None. lia. }
  clear -E. revert m E. generalize (m1 ++ m2). intro l. induction l as [|x l IH]; intros m E.
  - destruct m; [reflexivity|]. specialize (E 0). discriminate.
  - destruct m as [|y m]; [specialize (E 0); discriminate|]. assert (E0 := E 0). injection E0 as ->. f_equal. apply IH. intro n. exact (E (S n)).
Qed.

(** ** trim *)
Lemma contains_inside lo hi p : contains lo hi p = true <-> inside lo hi p.
Proof.
  unfold contains, inside, Rleb.
  destruct (Rle_dec (vx lo) (vx p)), (Rle_dec (vy lo) (vy p)), (Rle_dec (vz lo) (vz p)),
    (Rle_dec (vx p) (vx hi)), (Rle_dec (vy p) (vy hi)), (Rle_dec (vz p) (vz hi)); cbn [andb];
  (split; [intro H; try discriminate H; tauto|intros H; try reflexivity; exfalso; tauto]).
Qed.
Definition kept (lo hi : V3) (k : KF) : bool :=
  match kf_pose _ _ _ k with Some p => contains lo hi (tr (pdf_mean p)) | None => false end.
Lemma trim_ok lo hi m : Forall has_pose m -> trim PDF pdf_mean Twist Data lo hi m = Ok (filter (kept lo hi) m).
Proof.
  induction 1 as [|k m H F IH]; [reflexivity|]. cbn [trim filter]. unfold kept at 1. unfold has_pose in H.
  destruct (kf_pose _ _ _ k) as [p|]; [|contradiction]. rewrite IH. cbn [rbind]. destruct (contains lo hi (tr (pdf_mean p))); reflexivity.
Qed.
Lemma trim_bad lo hi m : Exists (fun k => ~ has_pose k) m -> trim PDF pdf_mean Twist Data lo hi m = Throw.
Proof.
  induction 1 as [k m H|k m H IH]; cbn [trim]; unfold has_pose in *.
  - destruct (kf_pose _ _ _ k); [exfalso; apply H; discriminate|reflexivity].
  - destruct (kf_pose _ _ _ k); [|reflexivity]. rewrite IH. reflexivity.
Qed.

(** C213: `trim` writes exactly the keyframes whose mean position lies in the closed box, in order and
    unchanged; a keyframe without a pose makes it fail without output. *)
Theorem C213_trim_keeps_the_box : forall e f out lo hi m, holds e f m -> writable e out -> box_ok lo hi = true ->
  let r := run e (line ["trim"; f]%string None None (Some (Some lo)) (Some (Some hi)) (Some out)) in
  (Forall has_pose m ->
    exists keep, r = ([WSM out (filter keep m)], Ok 0) /\
      forall k p, In k m -> kf_pose _ _ _ k = Some p -> (keep k = true <-> inside lo hi (tr (pdf_mean p)))) /\
  (~ Forall has_pose m -> r = ([], Ok 1)).
Proof.
  intros e f out lo hi m H Wr BO r. subst r. unfold sm_cli, dispatch, line. cbn -[trim read_input save SmCliModel.wbnd lift].
  rewrite BO. rewrite (read_ok _ _ _ H), wbnd_ok. split.
  - intro F. rewrite (trim_ok lo hi m F), lift_ok, save_ok by exact Wr. exists (kept lo hi). split; [reflexivity|].
    intros k p _ E. unfold kept. rewrite E. apply contains_inside.
  - intro F. rewrite trim_bad; [reflexivity|]. apply Exists_Forall_neg; [|exact F].
    intro k. unfold has_pose. destruct (kf_pose _ _ _ k); [left; discriminate|right; intro X; apply X; reflexivity].
Qed.

(** ** tf and level *)
Lemma compose_mul T P u : compose (pose_mul T P) u = compose T (compose P u).
Proof.
  destruct T as [[a b c] [d e f] [g h i] [j k l]], P as [[a' b' c'] [d' e' f'] [g' h' i'] [j' k' l']], u as [x y z].
  unfold pose_mul. vunf. cbn [c0 c1 c2 tr vx vy vz]. f_equal; ring.
Qed.
Lemma change_ok T m : change_contract -> Forall has_pose m ->
  exists o, change_all PDF pdf_change Twist Data T m = Ok o /\ Forall2 (moved_kf T) m o.
Proof.
  intros C. induction 1 as [|k m H F [o [E M]]]; [exists []; split; [reflexivity|constructor]|].
  cbn [change_all]. unfold has_pose in H. destruct (kf_pose _ _ _ k) as [p|] eqn:EP; [|contradiction].
  rewrite E. cbn [rbind]. eexists. split; [reflexivity|]. constructor; [|exact M].
  split; [reflexivity|]. split; [reflexivity|]. exists p, (pdf_change T p). split; [exact EP|]. split; [reflexivity|].
  intro u. rewrite C. apply compose_mul.
Qed.

(** C214: `tf in out T` multiplies every keyframe pose by T on the left, and touches neither the
    observations nor the twist; on an empty map it fails without output. *)
Theorem C214_tf_moves_every_keyframe : forall e f out s T m, change_contract -> holds e f m -> writable e out ->
  parse_pose s = Some T -> Forall has_pose m ->
  let r := run e (line ["tf"; f; out; s]%string None None None None None) in
  (m <> [] -> exists o, r = ([WSM out o], Ok 0) /\ Forall2 (moved_kf T) m o) /\ (m = [] -> r = ([], Ok 1)).
Proof.
  intros e f out s T m C H Wr P F r. subst r. unfold sm_cli, dispatch, line. cbn -[change_all read_input save SmCliModel.wbnd lift wassert].
  rewrite (read_ok _ _ _ H), wbnd_ok. destruct (change_ok T m C F) as [o [E M]]. split.
  - intros NE. destruct m as [|k m]; [contradiction|]. unfold wassert, wret. rewrite wbnd_ok, P, E, lift_ok, save_ok by exact Wr. exists o. split; [reflexivity|exact M].
  - intros ->. reflexivity.
Qed.

(** Consequence: two runs one after the other act as the product, *)
Theorem C214_tf_twice : forall T1 T2 m o1 o2, Forall2 (moved_kf T1) m o1 -> Forall2 (moved_kf T2) o1 o2 ->
  Forall2 (moved_kf (pose_mul T2 T1)) m o2.
Proof.
  intros T1 T2 m o1 o2 A. revert o2. induction A as [|k k1 m o1 K A IH]; intros o2 B; inversion B as [|? k2 ? o2' K2 B']; subst; constructor.
  - destruct K as (S1 & W1 & p & p1 & E & E1 & M), K2 as (S2 & W2 & p1' & p2 & E1' & E2 & M').
    rewrite E1 in E1'. injection E1' as <-. split; [congruence|]. split; [congruence|].
    exists p, p2. split; [exact E|]. split; [exact E2|]. intro u. rewrite M', M, compose_mul. reflexivity.
  - apply IH. exact B'.
Qed.

Lemma compose_inj T u v : is_rotation T -> compose T u = compose T v -> u = v.
Proof.
  intros RT E. assert (D : rotate T (vsub u v) = mkV 0 0 0).
  { rewrite rotate_sub. unfold compose in E. destruct (rotate T u) as [a1 a2 a3], (rotate T v) as [b1 b2 b3], (tr T) as [t1 t2 t3]. unfold vadd in E. cbn [vx vy vz] in E.
    injection E as E1 E2 E3. unfold vsub. cbn [vx vy vz]. f_equal; lra. }
  assert (N : vnorm2 (vsub u v) = 0%R).
  { rewrite <- (rotate_norm2 T) by exact RT. rewrite D. unfold vnorm2, vdot. cbn [vx vy vz]. lra. }
  destruct u as [x y z], v as [x' y' z']. unfold vnorm2, vdot, vsub in N. cbn [vx vy vz] in N.
  assert (A1 := Rle_0_sqr (x - x')). assert (A2 := Rle_0_sqr (y - y')). assert (A3 := Rle_0_sqr (z - z')). unfold Rsqr in A1, A2, A3.
  assert (x - x' = 0)%R by (apply Rsqr_0_uniq; unfold Rsqr; lra).
  assert (y - y' = 0)%R by (apply Rsqr_0_uniq; unfold Rsqr; lra).
  assert (z - z' = 0)%R by (apply Rsqr_0_uniq; unfold Rsqr; lra).
  f_equal; lra.
Qed.

(** and the keyframes keep their relative poses: a point of one keyframe falls on a point of another
    exactly if it did before. *)
Theorem C214_relative_poses_kept : forall T k1 k2 k1' k2' p1 p2 p1' p2', is_rotation T ->
  moved_kf T k1 k1' -> moved_kf T k2 k2' ->
  kf_pose _ _ _ k1 = Some p1 -> kf_pose _ _ _ k2 = Some p2 -> kf_pose _ _ _ k1' = Some p1' -> kf_pose _ _ _ k2' = Some p2' ->
  forall u v, compose (pdf_mean p1) u = compose (pdf_mean p2) v <-> compose (pdf_mean p1') u = compose (pdf_mean p2') v.
Proof.
  intros T k1 k2 k1' k2' p1 p2 p1' p2' RT (_ & _ & q1 & q1' & A1 & B1 & M1) (_ & _ & q2 & q2' & A2 & B2 & M2) E1 E2 E3 E4 u v.
  rewrite E1 in A1. injection A1 as <-. rewrite E2 in A2. injection A2 as <-. rewrite E3 in B1. injection B1 as <-. rewrite E4 in B2. injection B2 as <-.
  rewrite M1, M2. split; [intros ->; reflexivity|]. apply compose_inj. exact RT.
Qed.

Lemma ypr_rotation y p r : is_rotation (from_ypr y p r).
Proof.
  assert (A := sin2_cos2 y). assert (B := sin2_cos2 p). assert (C := sin2_cos2 r). unfold Rsqr in *.
  unfold is_rotation, from_ypr. vunf. cbn [c0 c1 c2 tr vx vy vz].
  set (sy := sin y) in *. set (cy := cos y) in *. set (sp := sin p) in *. set (cp := cos p) in *. set (sr := sin r) in *. set (cr := cos r) in *.
  clearbody sy cy sp cp sr cr.
  repeat split; try nsatz. f_equal; nsatz.
Qed.

Definition origin : V3 := mkV 0 0 0.
(** how far the keyframes are from the height of the first one, as the sum of the squares of the differences to [z0] *)
Definition position (k : KF) : V3 := match kf_pose _ _ _ k with Some p => tr (pdf_mean p) | None => origin end.
Definition unevenness (z0 : R) (m : SM) : R := fold_right (fun k s => ((vz (position k) - z0) * (vz (position k) - z0) + s)%R) 0%R m.
Definition first_height (m : SM) : R := match m with [] => 0%R | k :: _ => vz (position k) end.
(** contract of CLevenbergMarquardt::execute(): it does not return a worse estimate than the initial one *)
Definition sum_sq (l : list R) : R := fold_right (fun x s => (x * x + s)%R) 0%R l.
Definition levmarq_contract : Prop := forall f, (sum_sq (f (levmarq f)) <= sum_sq (f (0, 0, 0)))%R.
(** ... and, if it worked ideally, it would return the best one *)
Definition levmarq_optimal : Prop := forall f x, (sum_sq (f (levmarq f)) <= sum_sq (f x))%R.

Lemma compose_origin P : compose P origin = tr P.
Proof. destruct P as [[a b c] [d e f] [g h i] [j k l]]. vunf. cbn [c0 c1 c2 tr vx vy vz origin]. f_equal; ring. Qed.
Lemma moved_position T k k' : moved_kf T k k' -> position k' = compose T (position k).
Proof.
  intros (_ & _ & p & p' & E & E' & M). unfold position. rewrite E, E'. specialize (M origin). rewrite !compose_origin in M. exact M.
Qed.
Lemma means_ok m : Forall has_pose m -> exists ps, means PDF pdf_mean Twist Data m = Ok ps /\ map tr ps = map position m.
Proof.
  induction 1 as [|k m H F [ps [E M]]]; [exists []; split; reflexivity|]. cbn [means]. unfold has_pose in H.
  destruct (kf_pose _ _ _ k) as [p|] eqn:EP; [|contradiction]. rewrite E. cbn [rbind]. eexists. split; [reflexivity|].
  cbn [map]. rewrite M. f_equal. unfold position. rewrite EP. reflexivity.
Qed.
Lemma cost_unevenness y p r m o : Forall2 (moved_kf (from_ypr y p r)) m o -> forall ps, map tr ps = map position m ->
  sum_sq (level_cost ps (y, p, r)) = unevenness (first_height m) o.
Proof.
  intros M ps E. unfold level_cost, first_height. destruct M as [|k k' m o K M].
  - destruct ps; [reflexivity|discriminate].
  - destruct ps as [|q ps]; [discriminate|]. cbn [map] in E. injection E as Eq E. rewrite Eq.
    set (z0 := vz (position k)). clearbody z0. cbn [map sum_sq fold_right unevenness].
    rewrite (moved_position _ _ _ K), <- Eq. cbn [pose_mul tr]. f_equal. clear -M E. revert ps E.
    induction M as [|k k' m o K M IH]; intros ps E; destruct ps as [|q ps]; try discriminate; [reflexivity|].
    cbn [map] in E. injection E as Eq E. cbn [map sum_sq fold_right unevenness]. rewrite (moved_position _ _ _ K), <- Eq.
    cbn [pose_mul tr]. f_equal. apply IH. exact E.
Qed.
Lemma ypr_zero : from_ypr 0 0 0 = mkPose (mkV 1 0 0) (mkV 0 1 0) (mkV 0 0 1) (mkV 0 0 0).
Proof. unfold from_ypr. rewrite sin_0, cos_0. f_equal; f_equal; ring. Qed.
Lemma sum_sq_zero m : Forall has_pose m -> forall ps, map tr ps = map position m ->
  sum_sq (level_cost ps (0, 0, 0)%R) = unevenness (first_height m) m.
Proof.
  intros F ps E. unfold level_cost, first_height. rewrite ypr_zero. destruct m as [|k m].
  - destruct ps; [reflexivity|discriminate].
  - destruct ps as [|q ps]; [discriminate|]. assert (Eq := f_equal (@hd_error _) E). cbn in Eq. injection Eq as Eq. rewrite Eq.
    set (z0 := vz (position k)). clearbody z0. clear Eq F. revert E. generalize (q :: ps), (k :: m). clear. intros ps m.
    unfold sum_sq, unevenness. revert ps. induction m as [|k m IH]; intros ps E; destruct ps as [|q ps]; try discriminate; [reflexivity|].
    cbn [map] in E. injection E as Eq E. cbn [map fold_right]. rewrite <- Eq, (IH ps E).
    cbn [pose_mul tr]. destruct (tr q) as [a b c]. vunf. cbn [c0 c1 c2 tr vx vy vz]. f_equal. ring.
Qed.

Lemma level_run e f out m : change_contract -> holds e f m -> writable e out -> Forall has_pose m -> m <> [] ->
  exists y p r o ps, map tr ps = map position m /\ (y, p, r) = levmarq (level_cost ps) /\
    run e (line ["level"; f; out]%string None None None None None) = ([WSM out o], Ok 0) /\
    Forall2 (moved_kf (from_ypr y p r)) m o.
Proof.
  intros C H Wr F NE. destruct (means_ok m F) as [ps [E M]]. destruct (levmarq (level_cost ps)) as [[y p] r] eqn:EL.
  destruct (change_ok (from_ypr y p r) m C F) as [o [E2 M2]]. exists y, p, r, o, ps. split; [exact M|]. split; [symmetry; exact EL|].
  split; [|exact M2]. unfold sm_cli, dispatch, line. cbn -[change_all means read_input save SmCliModel.wbnd lift wassert level].
  rewrite (read_ok _ _ _ H), wbnd_ok. destruct m as [|k m]; [contradiction|]. unfold wassert, wret. rewrite wbnd_ok.
  unfold level. rewrite E. cbn [rbind]. rewrite EL, E2, lift_ok, save_ok by exact Wr. reflexivity.
Qed.

(** C216: `level in out` turns the whole map about the origin of the map: every keyframe is moved by
    one rotation D without translation, observations and twists are kept, each keyframe stays at its
    distance from the origin, and the heights are not more uneven than before. *)
Theorem C216_level_is_a_rotation : forall e f out m, change_contract -> levmarq_contract -> holds e f m -> writable e out ->
  Forall has_pose m -> m <> [] ->
  exists D o, run e (line ["level"; f; out]%string None None None None None) = ([WSM out o], Ok 0) /\
    is_rotation D /\ tr D = origin /\ Forall2 (moved_kf D) m o /\
    Forall2 (fun k k' => vnorm2 (position k') = vnorm2 (position k)) m o /\
    (unevenness (first_height m) o <= unevenness (first_height m) m)%R.
Proof.
  intros e f out m C LM H Wr F NE. destruct (level_run e f out m C H Wr F NE) as (y & p & r & o & ps & M & EL & Run & Mv).
  exists (from_ypr y p r), o. split; [exact Run|]. split; [apply ypr_rotation|]. split; [reflexivity|]. split; [exact Mv|]. split.
  - clear -Mv. induction Mv as [|k k' m o K Mv IH]; constructor; [|exact IH].
    rewrite (moved_position _ _ _ K). rewrite <- (rotate_norm2 (from_ypr y p r) (position k)) by apply ypr_rotation. f_equal.
    unfold compose. change (tr (from_ypr y p r)) with origin. destruct (rotate (from_ypr y p r) (position k)) as [a b c]. unfold vadd, origin. cbn [vx vy vz]. f_equal; ring.
  - rewrite <- (cost_unevenness y p r m o Mv ps M), <- (sum_sq_zero m F ps M). rewrite EL. apply LM.
Qed.

(** ** Exit code *)
(** the output file that the command line asks for *)
Definition requested (a : Args) (out : string) : Prop :=
  match a_cmd a with
  | [] => False
  | c :: r => (In c ["cut"; "trim"; "join"; "export-keyframes"; "export-rawlog"]%string /\ a_out a = Some out) \/
              (c = "level"%string /\ exists f, r = [f; out]) \/ (c = "tf"%string /\ exists f s, r = [f; out; s])
  end.
(** the file that an event writes *)
Definition ev_file (ev : Event) : option string :=
  match ev with
  | WSimplemap _ _ _ f _ => Some f | WTum _ _ _ f _ => Some f | WTwist _ _ _ f _ => Some f | WRawlog _ _ _ f _ => Some f
  | Print _ _ _ _ => None
  end.

Lemma wbnd_eqv {A B} (x y : W PDF Twist Data A) (f g : A -> W PDF Twist Data B) :
  snd x = snd y -> (forall a, snd (f a) = snd (g a)) -> snd (wbnd x f) = snd (wbnd y g).
Proof.
  destruct x as [ex rx], y as [ey ry]. cbn [snd]. intros <- E. destruct rx as [a| |]; cbn [SmCliModel.wbnd]; [|reflexivity|reflexivity].
  specialize (E a). destruct (f a), (g a). exact E.
Qed.
Lemma save_eqv e e' f ev : snd (save PDF Twist Data e f ev) = snd (save PDF Twist Data e' f ev).
Proof. reflexivity. Qed.
Lemma read_eqv e e' f : e_load _ _ _ e f = e_load _ _ _ e' f -> snd (read_input PDF Twist Data e f) = snd (read_input PDF Twist Data e' f).
Proof. unfold read_input. intros ->. reflexivity. Qed.
Lemma join_eqv e e' : (forall f, e_load _ _ _ e f = e_load _ _ _ e' f) -> forall fs acc,
  snd (join PDF Twist Data e fs acc) = snd (join PDF Twist Data e' fs acc).
Proof. intros E. induction fs as [|f fs IH]; intro acc; [reflexivity|]. cbn [join]. apply wbnd_eqv; [apply read_eqv, E|]. intro m. apply IH. Qed.
Ltac eqv E := repeat first
  [ reflexivity | apply read_eqv; apply E | apply join_eqv; exact E | apply save_eqv
  | apply wbnd_eqv; [|intros ?] | match goal with |- snd (if ?c then _ else _) = _ => destruct c end
  | match goal with |- snd (match ?c with _ => _ end) = _ => destruct c end ].

(** C217: the exit code does not tell whether the output was written: for any command line it is the
    same whichever files can be written, *)
Theorem C217_exit_code_ignores_write_errors_refuted : forall e e' a, (forall f, e_load _ _ _ e f = e_load _ _ _ e' f) ->
  snd (run e a) = snd (run e' a).
Proof.
  intros e e' a E. unfold sm_cli. destruct (a_version a); [reflexivity|].
  assert (D : snd (dispatch PDF pdf_mean pdf_change Twist Data box_ok parse_pose levmarq e a) =
              snd (dispatch PDF pdf_mean pdf_change Twist Data box_ok parse_pose levmarq e' a)).
  { unfold dispatch, command_info, command_export_kf, command_export_rawlog, command_cut, command_level, command_trim, command_join, command_tf.
    eqv E. }
  destruct (dispatch _ _ _ _ _ _ _ _ e a) as [es r], (dispatch _ _ _ _ _ _ _ _ e' a) as [es' r']. cbn [snd] in D. subst r'.
  destruct r; reflexivity.
Qed.
(** so a run of `cut` that writes nothing exits with code 0. *)
Theorem C217_unwritten_output_exits_with_0_refuted : forall e f out i j m, holds e f m -> i < List.length m -> j < List.length m ->
  e_writable _ _ _ e out = false ->
  run e (line ["cut"; f]%string (Some i) (Some j) None None (Some out)) = ([], Ok 0).
Proof.
  intros e f out i j m H I J Wr. unfold sm_cli, dispatch, line. cbn -[cut read_input save SmCliModel.wbnd lift].
  rewrite (read_ok _ _ _ H), wbnd_ok. unfold cut. destruct (Nat.ltb_spec i (List.length m)); [|lia].
  destruct (Nat.ltb_spec j (List.length m)); [|lia]. rewrite lift_ok. unfold save. rewrite Wr. reflexivity.
Qed.

Lemma wbnd_inv {A B} (x : W PDF Twist Data A) (f : A -> W PDF Twist Data B) es b : wbnd x f = (es, Ok b) ->
  exists e1 e2 a, x = (e1, Ok a) /\ f a = (e2, Ok b) /\ es = e1 ++ e2.
Proof.
  destruct x as [e1 [a| |]]; cbn [SmCliModel.wbnd]; try discriminate. destruct (f a) as [e2 r] eqn:E. intro H. injection H as <- ->.
  exists e1, e2, a. auto.
Qed.
(** Where every file can be written, exit code 0 means that the requested output was written. *)
Theorem C217_exit_code_where : forall e a out es, (forall f, writable e f) -> a_help a = false -> a_version a = false ->
  requested a out -> run e a = (es, Ok 0) -> exists ev, In ev es /\ ev_file ev = Some out.
Proof.
  intros e a out es Wr He Ve Rq Run. unfold sm_cli in Run. rewrite Ve in Run.
  assert (D : dispatch PDF pdf_mean pdf_change Twist Data box_ok parse_pose levmarq e a = (es, Ok 0)).
  { destruct (dispatch _ _ _ _ _ _ _ _ e a) as [es' [?| |]]; [exact Run|discriminate|discriminate]. }
  clear Run. revert D.
  assert (S : forall f ev es r, save PDF Twist Data e f ev = (es, r) -> es = [ev]).
  { intros f ev es0 r X. unfold save in X. rewrite (Wr f) in X. congruence. }
  unfold requested in Rq. unfold dispatch. destruct (a_cmd a) as [|c r] eqn:EC; [destruct Rq|].
  destruct Rq as [[I EO]|[[-> [f ->]]|[-> [f [s ->]]]]].
  - cbn in I. destruct I as [<-|[<-|[<-|[<-|[<-|[]]]]]]; cbn [String.eqb Ascii.eqb Bool.eqb];
    unfold command_export_kf, command_export_rawlog, command_cut, command_trim, command_join; rewrite He, EC, EO.
    + destruct r as [|f [|? ?]]; try discriminate. destruct (a_from a), (a_to a); try discriminate.
      intro X. apply wbnd_inv in X as (e1 & e2 & m & _ & X & ->). apply wbnd_inv in X as (e3 & e4 & o & _ & X & ->).
      apply wbnd_inv in X as (e5 & e6 & u & X & _ & ->). apply S in X as ->. eexists. split; [apply in_or_app; right; apply in_or_app; right; left; reflexivity|reflexivity].
    + destruct r as [|f [|? ?]]; try discriminate. destruct (a_min a) as [[lo|]|], (a_max a) as [[hi|]|]; try discriminate.
      destruct (box_ok lo hi); [|discriminate].
      intro X. apply wbnd_inv in X as (e1 & e2 & m & _ & X & ->). apply wbnd_inv in X as (e3 & e4 & o & _ & X & ->).
      apply wbnd_inv in X as (e5 & e6 & u & X & _ & ->). apply S in X as ->. eexists. split; [apply in_or_app; right; apply in_or_app; right; left; reflexivity|reflexivity].
    + destruct r as [|f r]; try discriminate.
      intro X. apply wbnd_inv in X as (e3 & e4 & o & _ & X & ->).
      apply wbnd_inv in X as (e5 & e6 & u & X & _ & ->). apply S in X as ->. eexists. split; [apply in_or_app; right; left; reflexivity|reflexivity].
    + destruct r as [|f [|? ?]]; try discriminate.
      intro X. apply wbnd_inv in X as (e1 & e2 & m & _ & X & ->). apply wbnd_inv in X as (e3 & e4 & [pa tw] & _ & X & ->).
      apply wbnd_inv in X as (e5 & e6 & u & _ & X & ->). apply wbnd_inv in X as (e7 & e8 & u' & X & _ & ->). apply S in X as ->.
      eexists. split; [apply in_or_app; right; apply in_or_app; right; apply in_or_app; right; left; reflexivity|reflexivity].
    + destruct r as [|f [|? ?]]; try discriminate.
      intro X. apply wbnd_inv in X as (e1 & e2 & m & _ & X & ->). apply wbnd_inv in X as (e3 & e4 & o & _ & X & ->).
      apply wbnd_inv in X as (e5 & e6 & u & X & _ & ->). apply S in X as ->. eexists. split; [apply in_or_app; right; apply in_or_app; right; left; reflexivity|reflexivity].
  - cbn [String.eqb Ascii.eqb Bool.eqb]. unfold command_level. rewrite He, EC.
    intro X. apply wbnd_inv in X as (e1 & e2 & m & _ & X & ->). apply wbnd_inv in X as (e3 & e4 & o & _ & X & ->).
    apply wbnd_inv in X as (e5 & e6 & u & _ & X & ->). apply wbnd_inv in X as (e7 & e8 & u' & X & _ & ->). apply S in X as ->.
    eexists. split; [apply in_or_app; right; apply in_or_app; right; apply in_or_app; right; left; reflexivity|reflexivity].
  - cbn [String.eqb Ascii.eqb Bool.eqb]. unfold command_tf. rewrite He, EC.
    intro X. apply wbnd_inv in X as (e1 & e2 & m & _ & X & ->). apply wbnd_inv in X as (e3 & e4 & o & _ & X & ->).
    destruct (parse_pose s); [|discriminate].
    apply wbnd_inv in X as (e5 & e6 & u & _ & X & ->). apply wbnd_inv in X as (e7 & e8 & u' & X & _ & ->). apply S in X as ->.
    eexists. split; [apply in_or_app; right; apply in_or_app; right; apply in_or_app; right; left; reflexivity|reflexivity].
Qed.
End Props.

(** ** C224: `level` *)
Definition is_level {T D} (m : SM Pose T D) : Prop :=
  forall k k', In k m -> In k' m -> vz (position Pose T D (fun p => p) k) = vz (position Pose T D (fun p => p) k').
Definition kf_at {T D} (v : V3) : KF Pose T D := mkKF Pose T D (Some (mkPose (mkV 1 0 0) (mkV 0 1 0) (mkV 0 0 1) v)) (Some []) None.
(** three keyframes on a plane that does not contain the origin *)
Definition ramp {T D} : SM Pose T D := [kf_at (mkV 1 0 0); kf_at (mkV 0 0 1); kf_at (mkV 1 1 0)].

(** C224: `level` does not make the path horizontal, whatever the optimiser does (as long as it does
    not return a worse estimate than the initial one), even if some rotation would: the height that
    it aims at is that of the first keyframe before the rotation. *)
Theorem C224_level_does_not_level_refuted : forall T D bo pp lm, levmarq_contract lm ->
  exists R, is_rotation R /\ tr R = origin /\
    (forall k k', In k (@ramp T D) -> In k' ramp ->
       vz (compose R (position Pose T D (fun p => p) k)) = vz (compose R (position Pose T D (fun p => p) k'))) /\
    forall e f out, holds Pose T D e f ramp -> writable Pose T D e out -> exists o,
      sm_cli Pose (fun p => p) pose_mul T D bo pp lm e (line ["level"; f; out]%string None None None None None)
        = ([WSimplemap Pose T D out o], Ok 0) /\ ~ is_level o.
Proof.
  intros T D bo pp lm LM. exists (from_ypr 0 (- (PI / 4)) 0). split; [apply ypr_rotation|]. split; [reflexivity|]. split.
  - assert (Z : forall k, In k (@ramp T D) -> vz (compose (from_ypr 0 (- (PI / 4)) 0) (position Pose T D (fun p => p) k)) = sin (PI / 4)).
    { intros k I. unfold ramp in I. cbn in I.
      assert (E : cos (PI / 4) = sin (PI / 4)) by (rewrite sin_PI4, cos_PI4; reflexivity).
      destruct I as [<-|[<-|[<-|[]]]]; unfold kf_at, position, from_ypr; vunf; cbn [kf_pose c0 c1 c2 tr vx vy vz];
        rewrite ?sin_neg, ?cos_neg, ?sin_0, ?cos_0, ?E; ring. }
    intros k k' I I'. rewrite !Z by assumption. reflexivity.
  - intros e f out H Wr.
    destruct (C216_level_is_a_rotation Pose T D (fun p => p) pose_mul bo pp lm e f out ramp) as (R & o & Run & Rot & Tr & M & _ & U); try assumption.
    { intros A B. reflexivity. } { repeat constructor; discriminate. } { discriminate. }
    exists o. split; [exact Run|]. intro Lv.
    inversion M as [|k1 k1' ? o1 M1 M']; subst. inversion M' as [|k2 k2' ? o2 M2 M'']; subst. inversion M'' as [|k3 k3' ? o3 M3 N]; subst. inversion N; subst.
    apply moved_position in M1, M2, M3.
    assert (E12 := Lv k1' k2' (or_introl eq_refl) (or_intror (or_introl eq_refl))).
    assert (E13 := Lv k1' k3' (or_introl eq_refl) (or_intror (or_intror (or_introl eq_refl)))).
    unfold unevenness in U. cbn [fold_right] in U. cbv beta in U. rewrite M1 in *. rewrite M2 in *. rewrite M3 in *. clear -Tr Rot U E12 E13.
    assert (Rw := rot_rows R Rot). cbv zeta in Rw. destruct Rw as (_ & _ & Rw & _). destruct R as [[m00 m10 m20] [m01 m11 m21] [m02 m12 m22] t].
    cbn [tr] in Tr. subst t. unfold origin, ramp, kf_at, position, first_height in *. revert U E12 E13 Rw. unfold compose, rotate, vadd, vscale.
    cbn [kf_pose c0 c1 c2 tr vx vy vz position]. intros. 
    assert (m22 = m20) by lra. assert (m21 = 0)%R by lra. subst m22 m21. cbn [fold_right kf_pose tr vz] in U. nra.
Qed.

(** Where a rotation about the origin brings every keyframe to the height of the first one (for example
    if the first keyframe is at the origin and some rotation makes the path horizontal), an
    ideal optimiser makes the path horizontal at that height. *)
Theorem C224_level_where : forall P T D mean chg bo pp lm e f out m y p r,
  change_contract P mean chg -> holds P T D e f m -> writable P T D e out -> Forall (has_pose P T D) m -> m <> [] ->
  (forall k, In k m -> vz (compose (from_ypr y p r) (position P T D mean k)) = first_height P T D mean m) ->
  (forall ps x, map tr ps = map (position P T D mean) m -> (sum_sq (level_cost ps (lm (level_cost ps))) <= sum_sq (level_cost ps x))%R) ->
  exists o, sm_cli P mean chg T D bo pp lm e (line ["level"; f; out]%string None None None None None) = ([WSimplemap P T D out o], Ok 0) /\
    List.length o = List.length m /\ forall k, In k o -> vz (position P T D mean k) = first_height P T D mean m.
Proof.
  intros P T D mean chg bo pp lm e f out m y p r C H Wr F NE Z Opt.
  destruct (level_run P T D mean chg bo pp lm e f out m C H Wr F NE) as (y' & p' & r' & o & ps & M & EL & Run & Mv).
  exists o. split; [exact Run|]. split; [clear -Mv; induction Mv as [|? ? ? ? _ _ IH]; [reflexivity|cbn [List.length]; rewrite IH; reflexivity]|].
  assert (U : (unevenness P T D mean (first_height P T D mean m) o <= 0)%R).
  { rewrite <- (cost_unevenness P T D mean y' p' r' m o Mv ps M), EL. eapply Rle_trans; [apply (Opt ps (y, p, r) M)|]. apply Req_le.
    destruct (change_ok P T D mean chg (from_ypr y p r) m C F) as [o' [_ Mv']]. rewrite (cost_unevenness P T D mean y p r m o' Mv' ps M).
    revert Z. generalize (first_height P T D mean m). intros z Z. clear -Mv' Z. induction Mv' as [|k k' m o' K Mv' IH]; [reflexivity|].
    unfold unevenness in *. cbn [fold_right]. rewrite IH by (intros k0 I; apply Z; right; exact I).
    rewrite (moved_position _ _ _ _ _ _ _ K), (Z k) by (left; reflexivity). ring. }
  revert U. generalize (first_height P T D mean m). intros z U k I. clear -U I.
  assert (Pos : forall l, (0 <= unevenness P T D mean z l)%R).
  { induction l as [|x l IH]; unfold unevenness in *; cbn [fold_right]; [lra|]. assert (A := Rle_0_sqr (vz (position P T D mean x) - z)). unfold Rsqr in A. lra. }
  induction o as [|x o IH]; [destruct I|]. unfold unevenness in U. cbn [fold_right] in U. fold (unevenness P T D mean z o) in U.
  assert (A := Rle_0_sqr (vz (position P T D mean x) - z)). unfold Rsqr in A. assert (B := Pos o).
  destruct I as [<-|I]; [|apply IH; [lra|exact I]].
  assert (vz (position P T D mean x) - z = 0)%R by (apply Rsqr_0_uniq; unfold Rsqr; lra). lra.
Qed.
