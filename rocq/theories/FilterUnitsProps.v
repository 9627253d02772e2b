(** C361: the unit of length of a map and of a filter's parameters. *)
From Coq Require Import String QArith Lqa Lia.
From Verif Require Import Base FilterModel VoxelModel VoxelUnitsProps.
Import ListNotations.
Open Scope Q_scope.
Open Scope list_scope.

(** ** Specification *)
Definition scaled_points_of (c : Q) (a a' : Cloud) : Prop := cl_cls a' = cl_cls a /\ scaled_cloud c (cl_pts a) (cl_pts a').
(** layers that are no clouds: what they convert to is the same cloud in the other unit *)
Definition scaled_layer (c : Q) (l l' : Layer) : Prop :=
  match l, l' with
  | LPts a, LPts a' => scaled_points_of c a a'
  | LOther o, LOther o' => match ot_points o, ot_points o' with None, None => True | Some a, Some a' => scaled_points_of c a a' | _, _ => False end
  | LNull, LNull => True
  | _, _ => False
  end.
Definition scaled_map (c : Q) (m m' : Layers) : Prop := Forall2 (fun e e' => fst e' = fst e /\ scaled_layer c (snd e) (snd e')) m m'.
(** the two calls end the same way, with the same map in the two units *)
Definition same_effect (c : Q) (r r' : Layers * outc unit) : Prop := scaled_map c (fst r) (fst r') /\ snd r' = snd r.
Definition scaled_box (c : Q) (a a' : BBoxCfg) : Prop :=
  bb_in a' = bb_in a /\ bb_inside a' = bb_inside a /\ bb_outside a' = bb_outside a /\ bb_realized a' = bb_realized a
  /\ scaled_triple c (bb_min a) (bb_min a') /\ scaled_triple c (bb_max a) (bb_max a').
Definition scaled_range (c : Q) (a a' : RangeCfg) : Prop :=
  rg_in a' = rg_in a /\ rg_between a' = rg_between a /\ rg_outside a' = rg_outside a /\ rg_realized a' = rg_realized a
  /\ rg_min a' == c * rg_min a /\ rg_max a' == c * rg_max a /\ scaled_triple c (rg_center a) (rg_center a').
Definition scaled_decimation (c : Q) (a a' : DecCfg) : Prop :=
  de_ins a' = de_ins a /\ de_error_missing a' = de_error_missing a /\ de_out a' = de_out a /\ de_method a' = de_method a
  /\ de_min_pts a' = de_min_pts a /\ de_res a' == c * de_res a /\ de_robin a' = de_robin a /\ de_realized a' = de_realized a
  /\ match de_flatten a, de_flatten a' with None, None => True | Some z, Some z' => z' == c * z | _, _ => False end.
(** the order in which the voxels of the single-point grid are visited depends on their keys only *)
Definition order_of_keys (c : Q) (ord ord' : list (Key * SVoxel) -> list (Key * SVoxel)) : Prop :=
  forall l l', Forall2 (scaled_voxel c) l l' -> Forall2 (scaled_voxel c) (ord l) (ord' l').

(** ** Proofs *)
Section Filters.
Variable c : Q.
Hypothesis CP : 0 < c.
Notation smap := (scaled_map c).
Definition out_rel {A} (R : A -> A -> Prop) (o o' : outc A) : Prop :=
  match o, o' with Val a, Val a' => R a a' | Exc, Exc => True | Undef, Undef => True | Spin, Spin => True | _, _ => False end.
Definition MR {A} (R : A -> A -> Prop) (x x' : M A) : Prop :=
  forall m m', smap m m' -> smap (fst (x m)) (fst (x' m')) /\ out_rel R (snd (x m)) (snd (x' m')).
Lemma mr_ret {A} (R : A -> A -> Prop) a a' : R a a' -> MR R (ret a) (ret a').
Proof. intros H m m' S. split; assumption. Qed.
Lemma mr_throw {A} (R : A -> A -> Prop) : MR R throw throw.
Proof. intros m m' S. split; [assumption|exact I]. Qed.
Lemma mr_bnd {A B} (R : A -> A -> Prop) (T : B -> B -> Prop) x x' f f' :
  MR R x x' -> (forall a a', R a a' -> MR T (f a) (f' a')) -> MR T (bnd x f) (bnd x' f').
Proof.
  intros X F m m' S. unfold bnd. destruct (X m m' S) as [Y Z]. destruct (x m) as [n [a| | |]], (x' m') as [n' [a'| | |]]; cbn [fst snd] in *; try contradiction;
    try (split; [exact Y|exact I]). apply F; assumption.
Qed.
Lemma mr_assert b : MR eq (massert b) (massert b).
Proof. destruct b; [apply mr_ret; reflexivity|apply mr_throw]. Qed.
Lemma find_rel m m' n : smap m m' -> match lfind m n, lfind m' n with None, None => True | Some l, Some l' => scaled_layer c l l' | _, _ => False end.
Proof.
  induction 1 as [|[k v] [k' v'] m m' [E L] _ IH]; cbn [lfind]; [exact I|]. cbn [fst snd] in E, L. subst k'. destruct (String.eqb k n); [exact L|exact IH].
Qed.
Lemma set_rel m m' n l l' : smap m m' -> scaled_layer c l l' -> smap (lset m n l) (lset m' n l').
Proof.
  intros S L. induction S as [|[k v] [k' v'] m m' [E P] Q IH]; cbn [lset]; [constructor; [split; [reflexivity|exact L]|constructor]|].
  cbn [fst snd] in E, P. subst k'. destruct (String.eqb k n); constructor; try assumption; split; cbn [fst snd]; try reflexivity; assumption.
Qed.
Ltac findrel S n := let F := fresh "F" in assert (F := find_rel _ _ n S); revert F;
  match goal with |- context [lfind ?m n] => destruct (lfind m n) as [[?|?|]|] end;
  match goal with |- context [lfind ?m n] => destruct (lfind m n) as [[?|?|]|] | _ => idtac end; cbn [scaled_layer]; intro F; try contradiction.
Lemma mr_input n : MR (scaled_points_of c) (input_layer n) (input_layer n).
Proof.
  intros m m' S. unfold input_layer, bnd, point_layer, ret, throw. findrel S n; cbn [fst snd out_rel]; (split; [exact S|]); try exact I; exact F.
Qed.
Lemma mr_create n e k : MR eq (get_or_create n e k) (get_or_create n e k).
Proof.
  intros m m' S. unfold get_or_create. destruct (String.eqb n ""); [destruct e; split; try exact S; try reflexivity; exact I|].
  findrel S n; cbn [fst snd out_rel]; (split; [try exact S|try exact I; try reflexivity]).
  apply set_rel; [exact S|]. split; [reflexivity|constructor].
Qed.
Lemma conv_scaled k p p' : scaled_pt c p p' -> scaled_pt c (conv k p) (conv k p').
Proof. intros (A & B & D & E & F & G). unfold conv. repeat split; cbn [px py pz p_int p_ring p_time]; try assumption; [rewrite E|rewrite F|rewrite G]; reflexivity. Qed.
Lemma mr_insert n p p' : scaled_pt c p p' -> MR eq (insert_from n p) (insert_from n p').
Proof.
  intros P m m' S. unfold insert_from. findrel S n; cbn [fst snd out_rel]; (split; [try exact S|try exact I; try reflexivity]).
  destruct F as [F1 F2]. apply set_rel; [exact S|]. rewrite F1. split; [reflexivity|]. cbn [cl_pts]. apply Forall2_app; [exact F2|]. constructor; [|constructor].
  apply conv_scaled. exact P.
Qed.
Definition same_dest (d d' : Pt -> Name) : Prop := forall p p', scaled_pt c p p' -> d' p' = d p.
Lemma mr_route inp d d' i : same_dest d d' -> MR eq (route_one inp d i) (route_one inp d' i).
Proof.
  intros D m m' S. unfold route_one. findrel S inp; cbn [fst snd out_rel]; try (split; [exact S|exact I]).
  destruct F as [_ F]. assert (N := nth_scaled c _ _ i F).
  destruct (nth_error (cl_pts c0) i) as [p|], (nth_error (cl_pts c1) i) as [p'|]; try contradiction; [|split; [exact S|exact I]].
  rewrite (D p p' N). destruct (String.eqb (d p) ""); [split; [exact S|reflexivity]|]. apply mr_insert; assumption.
Qed.
Lemma mr_live inp d d' : same_dest d d' -> forall fuel i, MR eq (route_live fuel inp d i) (route_live fuel inp d' i).
Proof.
  intros D. induction fuel as [|k IH]; intros i m m' S; cbn [route_live]; findrel S inp; cbn [fst snd out_rel]; try (split; [exact S|exact I]);
    destruct F as [F1 F]; rewrite <- (scaled_length _ _ _ F); destruct (i <? _)%nat; try (split; [exact S|first [exact I|reflexivity]]).
  apply (mr_bnd eq eq); [apply mr_route; exact D|intros a a' _; apply IH|exact S].
Qed.
Lemma le_same a b a' b' : a' == c * a -> b' == c * b -> Qle_bool a' b' = Qle_bool a b.
Proof.
  intros A B. assert (X := ltb_same c CP b a b' a' B A). unfold Qltb in X. rewrite <- (Bool.negb_involutive (Qle_bool a' b')), X. apply Bool.negb_involutive.
Qed.
Lemma effect x x' m m' : MR eq x x' -> smap m m' -> same_effect c (x m) (x' m').
Proof.
  intros X S. destruct (X m m' S) as [Y Z]. split; [exact Y|]. destruct (snd (x m)), (snd (x' m')); cbn in Z; try contradiction; congruence.
Qed.
Lemma mr_if {A} (R : A -> A -> Prop) (b : bool) x x' y y' : MR R x x' -> MR R y y' -> MR R (if b then x else y) (if b then x' else y').
Proof. destruct b; auto. Qed.

(** *** Decimation *)
Definition src_rel (s s' : Src) : Prop :=
  match s, s' with SLayer n, SLayer n' => n' = n | SConv a, SConv a' => scaled_points_of c a a' | _, _ => False end.
Lemma read_rel m m' s s' : smap m m' -> src_rel s s' -> scaled_points_of c (read_src m s) (read_src m' s').
Proof.
  intros S R. destruct s as [n|a], s' as [n'|a']; cbn in R; try contradiction; [|exact R]. subst n'. cbn [read_src]. findrel S n; try (split; [reflexivity|constructor]). exact F.
Qed.
Lemma mr_collect e ins : MR (Forall2 src_rel) (collect ins e) (collect ins e).
Proof.
  induction ins as [|n t IH]; intros m m' S; cbn [collect]; [split; [exact S|constructor]|].
  findrel S n; cbn [fst snd out_rel]; try (split; [exact S|exact I]).
  - apply (mr_bnd (Forall2 src_rel) (Forall2 src_rel)); [exact IH| |exact S]. intros a a' R. apply mr_ret. constructor; [reflexivity|exact R].
  - revert F. destruct (ot_points o) as [a|], (ot_points o0) as [a'|]; intro F; try contradiction; [|split; [exact S|exact I]].
    apply (mr_bnd (Forall2 src_rel) (Forall2 src_rel)); [exact IH| |exact S]. intros l l' R. apply mr_ret. constructor; [exact F|exact R].
  - destruct e; [split; [exact S|exact I]|]. apply IH. exact S.
Qed.
Lemma mr_xyz n x y z x' y' z' : x' == c * x -> y' == c * y -> z' == c * z -> MR eq (insert_xyz n x y z) (insert_xyz n x' y' z').
Proof. intros X Y Z. apply mr_insert. repeat split; assumption. Qed.
Lemma mr_each {A} (R : A -> A -> Prop) f f' : (forall a a', R a a' -> MR eq (f a) (f' a')) -> forall l l', Forall2 R l l' -> MR eq (each f l) (each f' l').
Proof.
  intros F. induction 1 as [|a a' l l' P _ IH]; cbn [each]; [apply mr_ret; reflexivity|]. apply (mr_bnd eq eq); [apply F; exact P|intros _ _ _; exact IH].
Qed.
Variables (a a' : DecCfg).
Hypothesis D : scaled_decimation c a a'.
Lemma mr_pass p p' : scaled_pt c p p' -> MR eq (pass_pt a p) (pass_pt a' p').
Proof.
  intros P. destruct D as (_ & _ & O & _ & _ & _ & _ & _ & FL). unfold pass_pt. rewrite O. destruct (de_flatten a) as [z|], (de_flatten a') as [z'|]; try contradiction.
  - apply mr_xyz; try exact FL; apply P.
  - apply mr_insert. exact P.
Qed.
Lemma mr_small : forall srcs srcs', Forall2 src_rel srcs srcs' -> MR (Forall2 src_rel) (pass_small a srcs) (pass_small a' srcs').
Proof.
  assert (MP : de_min_pts a' = de_min_pts a) by apply D. assert (O : de_out a' = de_out a) by apply D.
  induction 1 as [|s s' t t' P Q IH]; intros m m' S; cbn [pass_small]; [split; [exact S|constructor]|].
  assert (RR := read_rel m m' s s' S P). destruct RR as [_ RR]. cbv zeta. rewrite MP, O, <- (scaled_length _ _ _ RR).
  destruct (de_min_pts a <? _)%nat.
  - apply (mr_bnd (Forall2 src_rel) (Forall2 src_rel)); [exact IH| |exact S]. intros l l' R. apply mr_ret. constructor; assumption.
  - assert (E : MR (Forall2 src_rel) (bnd (each (pass_pt a) (cl_pts (read_src m s))) (fun _ => pass_small a t))
                                       (bnd (each (pass_pt a') (cl_pts (read_src m' s'))) (fun _ => pass_small a' t'))).
    { apply (mr_bnd eq (Forall2 src_rel)); [|intros _ _ _; exact IH]. apply (mr_each (scaled_pt c)); [exact mr_pass|exact RR]. }
    destruct s as [n|x], s' as [n'|x']; cbn in P; try contradiction; [subst n'|apply E; exact S].
    destruct (String.eqb n (de_out a) && _); [split; [exact S|exact I]|apply E; exact S].
Qed.
Lemma columns_rel {A} (R : Key * A -> Key * A -> Prop) : (forall v v', R v v' -> fst v' = fst v) -> forall l l', Forall2 R l l' ->
  forall used, Forall2 R (first_columns used l) (first_columns used l').
Proof.
  intros K. induction 1 as [|[[[x y] z] v] [[[x' y'] z'] v'] l l' P _ IH]; intros used; [constructor|].
  assert (E := K _ _ P). cbn [fst] in E. injection E as -> -> ->. cbn [first_columns]. destruct (existsb _ used); [apply IH|constructor; [exact P|apply IH]].
Qed.
Lemma clouds_rel m m' srcs srcs' : smap m m' -> Forall2 src_rel srcs srcs' ->
  Forall2 (scaled_cloud c) (map (fun s => cl_pts (read_src m s)) srcs) (map (fun s => cl_pts (read_src m' s)) srcs').
Proof. intros S. induction 1 as [|s s' t t' P _ IH]; constructor; [apply (read_rel m m' s s' S P)|exact IH]. Qed.
Lemma clear_configure g res robin : s_visit (s_clear (s_configure g res robin)) = [] /\ s_robin (s_clear (s_configure g res robin)) = robin /\ s_res (s_clear (s_configure g res robin)) = res.
Proof. unfold s_configure, s_clear. cbn [s_robin]. destruct robin; repeat split; reflexivity. Qed.
Lemma mr_single ord ord' sg sg' srcs srcs' : order_of_keys c ord ord' -> Forall2 src_rel srcs srcs' -> MR eq (dec_single a ord sg srcs) (dec_single a' ord' sg' srcs').
Proof.
  intros OK SR m m' S. unfold dec_single. cbv zeta. destruct D as (_ & _ & O & _ & _ & RS & RB & _ & FL).
  assert (V : Forall2 (scaled_voxel c)
     (ord (s_visit (s_process_all (s_clear (s_configure sg (de_res a) (de_robin a))) 0 (map (fun s => cl_pts (read_src m s)) srcs))))
     (ord' (s_visit (s_process_all (s_clear (s_configure sg' (de_res a') (de_robin a'))) 0 (map (fun s => cl_pts (read_src m' s)) srcs'))))).
  { apply OK. apply (s_processes_scaled c CP _ _ (clouds_rel m m' srcs srcs' S SR)).
    - destruct (clear_configure sg (de_res a) (de_robin a)) as (_ & _ & ->). destruct (clear_configure sg' (de_res a') (de_robin a')) as (_ & _ & ->). exact RS.
    - destruct (clear_configure sg (de_res a) (de_robin a)) as (_ & -> & _). destruct (clear_configure sg' (de_res a') (de_robin a')) as (_ & -> & _). exact RB.
    - destruct (clear_configure sg (de_res a) (de_robin a)) as (-> & _). destruct (clear_configure sg' (de_res a') (de_robin a')) as (-> & _). constructor. }
  rewrite O. destruct (de_flatten a) as [z|], (de_flatten a') as [z'|]; try contradiction.
  - eapply mr_each; [|apply columns_rel; [|exact V]|exact S].
    + intros v v' P. apply mr_xyz; try exact FL; apply P.
    + intros v v' P. apply P.
  - eapply mr_each; [|exact V|exact S]. intros v v' P. apply mr_insert. apply P.
Qed.
Lemma points_rel l l' is : scaled_cloud c l l' -> scaled_cloud c (points_at l is) (points_at l' is).
Proof.
  intros S. unfold points_at. induction is as [|i is IH]; cbn [flat_map]; [constructor|]. apply Forall2_app; [|exact IH].
  assert (N := nth_scaled c l l' i S). destruct (nth_error l i), (nth_error l' i); try contradiction; constructor; [exact N|constructor].
Qed.
Definition rep_rel (v v' : Key * (bool * Pt)) : Prop := fst v' = fst v /\ fst (snd v') = fst (snd v) /\ scaled_pt c (snd (snd v)) (snd (snd v')).
Lemma mr_multi ord rnd mg mg' srcs srcs' : g_min_dist mg' == c * g_min_dist mg -> Forall2 src_rel srcs srcs' -> MR eq (dec_multi a ord rnd mg srcs) (dec_multi a' ord rnd mg' srcs').
Proof.
  intros GD SR m m' S. unfold dec_multi. destruct SR as [|s s' t t' P Q]; [split; [exact S|exact I]|]. destruct Q; [|split; [exact S|exact I]].
  assert (RR := read_rel m m' s s' S P). destruct RR as [_ RR]. cbv zeta. destruct D as (_ & _ & O & ME & _ & RS & RB & _ & FL).
  assert (V : g_visit (g_process (g_clear (g_configure mg' (de_res a') (de_robin a'))) (cl_pts (read_src m' s')))
            = g_visit (g_process (g_clear (g_configure mg (de_res a) (de_robin a))) (cl_pts (read_src m s)))).
  { apply (g_processes_same c CP [_] [_] (Forall2_cons _ _ RR (Forall2_nil _))); unfold g_configure, g_clear; rewrite RB; cbn [g_robin]; destruct (de_robin a);
      cbn [g_res g_min_dist g_robin g_visit g_tsl g_std]; try assumption; try reflexivity; try discriminate; intros _; reflexivity. }
  rewrite V, ME, O. set (vs := with_draws rnd 0 _).
  set (reps := flat_map _ vs). set (reps' := flat_map _ vs).
  assert (RE : Forall2 rep_rel reps reps').
  { unfold reps, reps'. clear reps reps'. induction vs as [|[[k is] r] vs IH]; cbn [flat_map]; [constructor|]. apply Forall2_app; [|exact IH]. cbn [fst snd].
    assert (X := C360_same_representative c (de_method a) r _ _ CP (points_rel _ _ is RR)).
    destruct (represent (de_method a) r (points_at (cl_pts (read_src m s)) is)) as [[b p]|], (represent (de_method a) r (points_at (cl_pts (read_src m' s')) is)) as [[b' p']|];
      try contradiction; constructor; [|constructor]. destruct X as [X Y]. repeat split; cbn [fst snd]; try exact X; apply Y. }
  clearbody reps reps'. destruct (de_flatten a) as [z|], (de_flatten a') as [z'|]; try contradiction.
  - eapply mr_each; [|apply columns_rel; [|exact RE]|exact S].
    + intros v v' X. apply mr_xyz; try exact FL; apply X.
    + intros v v' X. apply X.
  - eapply mr_each; [|exact RE|exact S]. intros v v' (X & Y & Z). rewrite Y. apply mr_if; [apply mr_xyz; apply Z|apply mr_insert; exact Z].
Qed.
End Filters.

(** C361: a map and the lengths of the configuration in another unit: FilterBoundingBox, *)
Theorem C361_box_in_another_unit : forall c fuel a a' m m', 0 < c -> scaled_box c a a' -> scaled_map c m m' ->
  same_effect c (filter_bbox fuel a m) (filter_bbox fuel a' m').
Proof.
  intros * CP (I & A & B & _ & L & U) S. apply effect; [|exact S]. unfold filter_bbox. rewrite I, A, B.
  apply (mr_bnd c (scaled_points_of c) eq); [apply mr_input|]. intros x x' [K _]. rewrite K.
  apply (mr_bnd c eq eq); [apply mr_create|]. intros _ _ _. apply (mr_bnd c eq eq); [apply mr_create|]. intros _ _ _. apply mr_live.
  intros p p' P. unfold bbox_dest. rewrite A, B. replace (in_box a' p') with (in_box a p); [reflexivity|]. unfold in_box.
  destruct (bb_min a) as [[x0 y0] z0], (bb_min a') as [[x0' y0'] z0'], (bb_max a) as [[x1 y1] z1], (bb_max a') as [[x1' y1'] z1'].
  destruct L as (L1 & L2 & L3), U as (U1 & U2 & U3), P as (P1 & P2 & P3 & _). cbn [fst snd] in *. symmetry.
  rewrite (le_same c CP x0 (px p) _ _ L1 P1), (le_same c CP (px p) x1 _ _ P1 U1), (le_same c CP y0 (py p) _ _ L2 P2), (le_same c CP (py p) y1 _ _ P2 U2),
    (le_same c CP z0 (pz p) _ _ L3 P3), (le_same c CP (pz p) z1 _ _ P3 U3). reflexivity.
Qed.
(** C361: FilterByRange, *)
Theorem C361_range_in_another_unit : forall c fuel a a' m m', 0 < c -> scaled_range c a a' -> scaled_map c m m' ->
  same_effect c (filter_range fuel a m) (filter_range fuel a' m').
Proof.
  intros * CP (I & A & B & R & L & U & E) S. apply effect; [|exact S]. unfold filter_range. rewrite I, A, B, R.
  apply (mr_bnd c eq eq); [apply mr_assert|]. intros _ _ _.
  apply (mr_bnd c (scaled_points_of c) eq); [apply mr_input|]. intros x x' [K _]. rewrite K.
  apply (mr_bnd c eq eq); [apply mr_create|]. intros _ _ _. apply (mr_bnd c eq eq); [apply mr_create|]. intros _ _ _. apply mr_live.
  intros p p' P. unfold range_dest. rewrite A, B. assert (X := sq_scaled c _ _ p p' E P).
  assert (Y : sq (rg_min a') == (c * c) * sq (rg_min a)) by (unfold sq; rewrite L; ring). assert (Z : sq (rg_max a') == (c * c) * sq (rg_max a)) by (unfold sq; rewrite U; ring).
  rewrite (le_same (c * c) (cc_pos c CP) _ _ _ _ Y X), (le_same (c * c) (cc_pos c CP) _ _ _ _ X Z). reflexivity.
Qed.
(** C361: and FilterDecimateVoxels, with every method: the same points are kept, whatever earlier calls left in the grids. *)
Theorem C361_decimation_in_another_unit : forall c a a' ord ord' ordm rnd sg sg' mg mg' m m', 0 < c -> scaled_decimation c a a' ->
  order_of_keys c ord ord' -> g_min_dist mg' == c * g_min_dist mg -> scaled_map c m m' ->
  same_effect c (filter_decimate a ord ordm rnd sg mg m) (filter_decimate a' ord' ordm rnd sg' mg' m').
Proof.
  intros * CP D OK GD S. apply effect; [|exact S]. assert (DD := D). destruct DD as (I & E & O & ME & MP & _ & _ & R & _).
  unfold filter_decimate, use_single. rewrite I, E, O, MP, R, ME.
  apply (mr_bnd c eq eq); [apply mr_assert|]. intros _ _ _. apply (mr_bnd c (Forall2 (src_rel c)) eq); [apply mr_collect|]. intros l l' SR.
  destruct SR as [|s s' t t' P Q]; [apply mr_throw|].
  apply (mr_bnd c eq eq); [apply mr_assert|]. intros _ _ _.
  apply (mr_bnd c eq eq). { intros n n' N. rewrite (proj1 (read_rel c n n' s s' N P)). apply mr_create. exact N. }
  intros _ _ _. apply (mr_bnd c (Forall2 (src_rel c)) eq).
  { apply mr_if; [apply mr_small; [exact D|constructor; assumption]|apply mr_ret; constructor; assumption]. }
  intros b b' B. destruct (de_method a); first [apply (mr_single c CP a a' D); assumption|apply (mr_multi c CP a a' D); assumption].
Qed.

(** ** A case: metres and centimetres *)
Definition fu_map : Layers := [("raw", LPts (mkCloud SimplePoints vu_pts))]%string.
Definition fu_cm : Layers := [("raw", LPts (mkCloud SimplePoints (map vu_cm vu_pts)))]%string.
Lemma fu_scaled : scaled_map 100 fu_map fu_cm.
Proof. constructor; [|constructor]. split; [reflexivity|]. split; [reflexivity|exact vu_scaled]. Qed.
Definition fu_dec (res : Q) : DecCfg := mkDec ["raw"%string] true "out"%string VoxelAverage 0 res true None true.
Definition fu_range (lo hi x : Q) : RangeCfg := mkRg "raw"%string "near"%string ""%string lo hi (x, 0, 0) true.
Example C361_case :
  let g := mkGrid 1 true (1 # 1000) [] [] in let g' := mkGrid 1 true (1 # 10) [] [] in
  let r := filter_decimate (fu_dec (1 # 2)) (fun l => l) (fun l => l) (fun _ => O) (mkSGrid 1 true [] []) g fu_map in
  snd r = Val tt
  /\ same_effect 100 r (filter_decimate (fu_dec 50) (fun l => l) (fun l => l) (fun _ => O) (mkSGrid 1 true [] []) g' fu_cm)
  /\ same_effect 100 (filter_range 9 (fu_range 0 (1 # 2) (1 # 10)) fu_map) (filter_range 9 (fu_range 0 50 10) fu_cm)
  /\ (exists cl, lfind (fst r) "out"%string = Some (LPts cl) /\ List.length (cl_pts cl) = 3%nat)
  /\ (exists cl, lfind (fst (filter_range 9 (fu_range 0 (1 # 2) (1 # 10)) fu_map)) "near"%string = Some (LPts cl) /\ List.length (cl_pts cl) = 3%nat).
Proof.
  cbv zeta. split; [vm_compute; reflexivity|]. split.
  - apply C361_decimation_in_another_unit; try reflexivity; [repeat split|intros l l' H; exact H|exact fu_scaled].
  - split; [apply C361_range_in_another_unit; try reflexivity; [repeat split; reflexivity|exact fu_scaled]|].
    split; eexists; (split; [vm_compute; reflexivity|reflexivity]).
Qed.
