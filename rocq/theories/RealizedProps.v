(** C355: a filter whose formulas have not been evaluated. *)
From Coq Require Import String.
From Verif Require Import Base FilterModel FMergeModel PoleModel VoxelModel DeskewModel EdgeGenModel.
Open Scope string_scope.
Open Scope Q_scope.
Open Scope list_scope.

(** C355, where it holds: the filters by range and by occupancy, the time stamps, merge, slice, pole, decimation and deskew filters and the
    curvature generator throw, with no effect. *)
Theorem C355_unevaluated_formulas_refuse_where :
  (forall fuel c m, rg_realized c = false -> filter_range fuel c m = (m, Exc)) /\
  (forall c m, oc_realized c = false -> filter_occupancy c m = (m, Exc)) /\
  (forall c zero m, tm_realized c = false -> filter_time c zero m = (m, Exc)) /\
  (forall ins c m, me_realized c = false -> filter_merge ins c m = (m, Exc)) /\
  (forall Grid fresh sized update c m, sl_realized c = false -> filter_slice Grid fresh sized update c m = (m, Exc)) /\
  (forall ord c m, po_realized c = false -> filter_pole ord c m = (m, Exc)) /\
  (forall c ords ordm rnd sg mg m, de_realized c = false -> filter_decimate c ords ordm rnd sg mg m = (m, Exc)) /\
  (forall so3exp find_closest c m m' r, dk_realized c = false -> deskew so3exp find_closest c m m' r -> m' = m /\ r = Exc) /\
  (forall g o robot m, cg_init g = true -> cg_realized g = false -> curv_process g o robot m = (m, Exc)).
Proof.
  split; [intros fuel c m H; unfold filter_range, bnd, massert; rewrite H; reflexivity|].
  split; [intros c m H; unfold filter_occupancy, bnd, massert; rewrite H; reflexivity|].
  split; [intros c zero m H; unfold filter_time, bnd, massert; rewrite H; reflexivity|].
  split; [intros ins c m H; unfold filter_merge, bnd, massert; rewrite H; reflexivity|].
  split; [intros Grid fresh sized update c m H; unfold filter_slice; rewrite H; reflexivity|].
  split; [intros ord c m H; unfold filter_pole, bnd, massert; rewrite H; reflexivity|].
  split; [intros c ords ordm rnd sg mg m H; unfold filter_decimate, bnd, massert; rewrite H; reflexivity|].
  split.
  - intros so3exp find_closest c m m' r H D.
    assert (P : prelude so3exp find_closest c m = (m, Exc)) by (unfold prelude, bnd, massert; rewrite H; reflexivity).
    inversion D; subst; rewrite P in *; try discriminate.
    match goal with X : (m, Exc) = (m', Exc) |- _ => injection X as -> end. split; reflexivity.
  - intros g o robot m HI H. unfold curv_process, bnd, massert. rewrite HI. unfold ret. rewrite H. reflexivity.
Qed.

(** The bounding box filter runs with the numbers that happen to be there. *)
Theorem C355_box_ignores_it : forall fuel c m,
  filter_bbox fuel c m = filter_bbox fuel (mkBB (bb_in c) (bb_inside c) (bb_outside c) (bb_min c) (bb_max c) true) m.
Proof. reflexivity. Qed.

Definition robot_box : BBoxCfg := mkBB "raw" "near" "" (-1, -1, -1) (1, 1, 1) false.   (* the default box; configured: from robot_x - 5 to robot_x + 5, not evaluated *)
Definition one_point : Cloud := mkCloud (mkCls "CSimplePointsMap" false false false) [mkPt 0 0 0 0 0 0; mkPt 3 0 0 0 0 0].
Theorem C355_unevaluated_formulas_refuse_refuted : exists fuel c m m',
  bb_realized c = false /\ filter_bbox fuel c m = (m', Val tt) /\ m' <> m /\
  lfind m' (bb_inside c) = Some (LPts (mkCloud (cl_cls one_point) [mkPt 0 0 0 0 0 0])).
Proof.
  exists 10%nat, robot_box, [("raw", LPts one_point)].
  destruct (filter_bbox 10 robot_box [("raw", LPts one_point)]) as [m' r] eqn:E. exists m'. split; [reflexivity|].
  vm_compute in E. injection E as <- <-. split; [reflexivity|]. split; [discriminate|reflexivity].
Qed.

Example C355_case : filter_range 10 (mkRg "raw" "near" "" 0 5 (0, 0, 0) false) [("raw", LPts one_point)] = ([("raw", LPts one_point)], Exc).
Proof. apply C355_unevaluated_formulas_refuse_where. reflexivity. Qed.
