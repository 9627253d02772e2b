(** C312-C319: the visualization of maps and pairings. *)
From Coq Require Import String Reals Lra.
From Verif Require Import Base GeomModel VisModel VisSpec.
Open Scope nat_scope.

Section Props.
Context {Color CMap PlanePose Data : Type}.
Notation Gl := (Gl Color CMap PlanePose Data).
Notation VLayer := (VLayer Data).
Notation VLayers := (VLayers Data).
Notation LayerP := (@LayerP Color CMap).
Notation ColorMode := (@ColorMode CMap).
Variable plane_pose : Plane -> V3 -> PlanePose.
Variable own : VLayer -> list Gl.
Variable interval : R -> R -> list R -> R -> R * R.
Notation layer_ := (vis_layer own interval).
Notation all_ := (vis_all own interval).
Notation per_ := (vis_per own interval).
Notation points_ := (vis_points own interval).
Notation vis := (get_visualization plane_pose own interval).
Notation shown := (shown own interval).
Notation limits := (limits interval).

(** ** Limits *)
Lemma fold_min l a : let x := fold_left Rmin l a in (x = a \/ In x l) /\ (x <= a)%R /\ forall y, In y l -> (x <= y)%R.
Proof.
  revert a. induction l as [|b l IH]; intro a; cbn [fold_left].
  - split; [left; reflexivity|]. split; [lra | intros y []].
  - destruct (IH (Rmin a b)) as (A & B & C). assert (M1 := Rmin_l a b). assert (M2 := Rmin_r a b). split; [|split].
    + destruct A as [A | A]; [|right; right; exact A]. rewrite A. destruct (Rle_dec a b) as [L | L].
      * left. apply Rmin_left. exact L.
      * right. left. symmetry. apply Rmin_right. lra.
    + lra.
    + intros y [<- | I]; [lra | exact (C y I)].
Qed.
Lemma fold_max l a : let x := fold_left Rmax l a in (x = a \/ In x l) /\ (a <= x)%R /\ forall y, In y l -> (y <= x)%R.
Proof.
  revert a. induction l as [|b l IH]; intro a; cbn [fold_left].
  - split; [left; reflexivity|]. split; [lra | intros y []].
  - destruct (IH (Rmax a b)) as (A & B & C). assert (M1 := Rmax_l a b). assert (M2 := Rmax_r a b). split; [|split].
    + destruct A as [A | A]; [|right; right; exact A]. rewrite A. destruct (Rle_dec a b) as [L | L].
      * right. left. symmetry. apply Rmax_right. exact L.
      * left. apply Rmax_left. lra.
    + lra.
    + intros y [<- | I]; [lra | exact (C y I)].
Qed.
Lemma bb_min_least i pts : pts <> [] -> least (map (coord i) pts) (bb_min i pts).
Proof.
  destruct pts as [|a r]; [congruence|]. intros _. cbn [bb_min map]. destruct (fold_min (map (coord i) r) (coord i a)) as (A & B & C).
  split; [destruct A as [A | A]; [left; symmetry; exact A | right; exact A]|]. intros y [<- | I]; [exact B | exact (C y I)].
Qed.
Lemma bb_max_greatest i pts : pts <> [] -> greatest (map (coord i) pts) (bb_max i pts).
Proof.
  destruct pts as [|a r]; [congruence|]. intros _. cbn [bb_max map]. destruct (fold_max (map (coord i) r) (coord i a)) as (A & B & C).
  split; [destruct A as [A | A]; [left; symmetry; exact A | right; exact A]|]. intros y [<- | I]; [exact B | exact (C y I)].
Qed.
Lemma least_unique l x y : least l x -> least l y -> x = y.
Proof. intros [I L] [J M]. assert (A := L y J). assert (B := M x I). lra. Qed.
Lemma greatest_unique l x y : greatest l x -> greatest l y -> x = y.
Proof. intros [I L] [J M]. assert (A := L y J). assert (B := M x I). lra. Qed.

Lemma limits_iff (m : ColorMode) pts lo hi i : pts <> [] -> color_limits interval m pts = Ok (lo, hi, i) <-> limits m pts lo hi i.
Proof.
  intro N. assert (LM := fun i => bb_min_least i pts N). assert (GM := fun i => bb_max_greatest i pts N).
  unfold color_limits, VisSpec.limits. destruct (cm_coord m) as [j|]; [|split; [discriminate | intros (E & _); discriminate E]].
  destruct (Nat.ltb_spec j 3) as [L | L]; cbn [negb]; [|split; [discriminate | intros (E & F & _); injection E as <-; lia]].
  split.
  - destruct (cm_min m) as [a|], (cm_max m) as [b|].
    + intro E. injection E as <- <- <-. split; [reflexivity|]. split; [exact L|]. left. split; reflexivity.
    + intro E. split; [|split; [|right; split; [right; reflexivity|]; exists (bb_min j pts), (bb_max j pts)]];
        destruct (cm_percentile m) as [c|]; try (destruct (interval _ _ _ c) as [u v] eqn:EI); injection E as <- <- <-;
        try reflexivity; try exact L; (split; [apply LM|]; split; [apply GM|]); cbv zeta; rewrite ?EI; split; reflexivity.
    + intro E. split; [|split; [|right; split; [left; reflexivity|]; exists (bb_min j pts), (bb_max j pts)]];
        destruct (cm_percentile m) as [c|]; try (destruct (interval _ _ _ c) as [u v] eqn:EI); injection E as <- <- <-;
        try reflexivity; try exact L; (split; [apply LM|]; split; [apply GM|]); cbv zeta; rewrite ?EI; split; reflexivity.
    + intro E. split; [|split; [|right; split; [left; reflexivity|]; exists (bb_min j pts), (bb_max j pts)]];
        destruct (cm_percentile m) as [c|]; try (destruct (interval _ _ _ c) as [u v] eqn:EI); injection E as <- <- <-;
        try reflexivity; try exact L; (split; [apply LM|]; split; [apply GM|]); cbv zeta; rewrite ?EI; split; reflexivity.
  - intros (E & _ & H). injection E as ->.
    destruct H as [[E1 E2] | [NB (a & b & LA & GB & E1 & E2)]]; [rewrite E1, E2; reflexivity|].
    assert (Ea := least_unique _ _ _ (LM i) LA). assert (Eb := greatest_unique _ _ _ (GM i) GB). rewrite Ea, Eb. clear Ea Eb.
    cbv zeta in E1, E2. subst lo hi.
    destruct (cm_min m) as [x|], (cm_max m) as [y|]; [destruct NB; discriminate | | |];
      destruct (cm_percentile m) as [c|]; try reflexivity; destruct (interval _ _ _ c); reflexivity.
Qed.
Lemma limits_throw (m : ColorMode) pts : pts <> [] ->
  (exists lo hi i, color_limits interval m pts = Ok (lo, hi, i)) \/
  (color_limits interval m pts = Throw /\ match cm_coord m with Some i => (3 <= i)%nat | None => True end).
Proof.
  intro N. unfold color_limits. destruct (cm_coord m) as [j|]; [|right; split; [reflexivity | exact I]].
  destruct (Nat.ltb_spec j 3) as [L | L]; cbn [negb]; [|right; split; [reflexivity | exact L]]. left.
  destruct (match cm_min m, cm_max m with Some _, Some _ => false | _, _ => true end); destruct (cm_percentile m) as [c|];
    try (destruct (interval _ _ _ c)); eexists _, _, _; reflexivity.
Qed.

(** ** One layer *)
Lemma layer_ours o (p : LayerP) l : ours p l ->
  ((exists l' objs, layer_ o p l = Ok (l', (o ++ objs)%list) /\ shown p l l' objs) \/ (layer_ o p l = Throw /\ lacks_axis p l)).
Proof.
  intro H.
  assert (K : forall l pts, shown_points p l = Some pts -> match ly_mode p with Some m => cm_keep m = false | None => True end ->
    forall X, X = (match Some pts, match ly_mode p with Some m => cm_keep m | None => false end with
      | None, _ | _, true => match l with VNull => UB | _ => Ok (l, apply_size (o ++ own l) (ly_size p)) end
      | Some [], _ => Ok (l, o)
      | Some pts, _ =>
        match ly_mode p with
        | Some m => let* lim := color_limits interval m pts in
                    Ok (l, (o ++ [GColoured pts (ly_size p) (Some (fst (fst lim), snd (fst lim), snd lim, cm_map m))])%list)
        | None => Ok (l, (o ++ [GCloud pts (ly_size p) (Some (ly_color p))])%list)
        end
      end) ->
    (exists l' objs, X = Ok (l', (o ++ objs)%list) /\ shown p l l' objs) \/ (X = Throw /\ lacks_axis p l)).
  { clear l H. intros l pts S K X ->.
    assert (KF : match ly_mode p with Some m => cm_keep m | None => false end = false) by (destruct (ly_mode p); [exact K | reflexivity]).
    rewrite KF. destruct pts as [|v pts].
    - left. exists l, []. rewrite app_nil_r. split; [reflexivity | apply sh_empty; exact S].
    - destruct (ly_mode p) as [m|] eqn:EM.
      + destruct (limits_throw m (v :: pts)) as [(lo & hi & i & E) | [E A]]; [discriminate| |].
        * left. rewrite E. cbn [rbind fst snd]. eexists l, _. split; [reflexivity|].
          apply sh_map; [exact S | discriminate | exact EM|]. apply limits_iff; [discriminate | exact E].
        * right. rewrite E. split; [reflexivity|]. exists (v :: pts), m. split; [exact S|]. split; [discriminate|]. split; [exact EM | exact A].
      + left. eexists l, _. split; [reflexivity|]. apply sh_plain; [exact S | discriminate | exact EM]. }
  destruct l as [pts | rgb occ free | d |]; [| |destruct H|destruct H].
  - apply (K (VPoints pts) pts eq_refl H). reflexivity.
  - unfold vis_layer. destruct (ly_voxels_as_points p) eqn:EV.
    + destruct H as [H | H]; [cbn [ours] in H; congruence|]. apply (K (VVoxels rgb occ free) occ); [cbn [shown_points]; rewrite EV; reflexivity | exact H | reflexivity].
    + left. eexists _, _. split; [reflexivity|]. apply sh_voxels. exact EV.
Qed.

(** Layers shown one after the other with the same parameters. *)
Inductive all_shown (p : LayerP) : VLayers -> VLayers -> list Gl -> Prop :=
| as_nil : all_shown p [] [] []
| as_cons k l l' a m m' b : shown p l l' a -> all_shown p m m' b -> all_shown p ((k, l) :: m) ((k, l') :: m') (a ++ b).

Lemma all_ours (p : LayerP) m : Forall (fun kl => ours p (snd kl)) m -> forall o,
  (exists m' objs, all_ o p m = Ok (m', (o ++ objs)%list) /\ all_shown p m m' objs) \/
  (all_ o p m = Throw /\ exists k l, In (k, l) m /\ lacks_axis p l).
Proof.
  induction m as [|[k l] m IH]; intros F o; cbn [vis_all].
  - left. exists [], []. rewrite app_nil_r. split; [reflexivity | constructor].
  - inversion F as [|? ? F1 F2]; subst. cbn [snd] in F1.
    destruct (layer_ours o p l F1) as [(l' & a & E & S) | [E A]]; rewrite E; cbn [rbind fst snd].
    + destruct (IH F2 (o ++ a)%list) as [(m' & b & E2 & S2) | [E2 (k2 & l2 & I & A)]]; rewrite E2; cbn [rbind fst snd].
      * left. exists ((k, l') :: m'), (a ++ b)%list. rewrite app_assoc. split; [reflexivity | constructor; assumption].
      * right. split; [reflexivity|]. exists k2, l2. split; [right; exact I | exact A].
    + right. split; [reflexivity|]. exists k, l. split; [left; reflexivity | exact A].
Qed.

(** ** Objects already there *)
Definition not_cloud (g : Gl) : Prop := match g with GCloud _ _ _ | GColoured _ _ _ => False | _ => True end.
Lemma first_coloured_prefix pre o s : Forall not_cloud pre ->
  size_first_coloured (pre ++ o) s = match size_first_coloured o s with Some r => Some (pre ++ r)%list | None => None end.
Proof.
  induction 1 as [|g pre N F IH]; cbn [app].
  - destruct (size_first_coloured o s); reflexivity.
  - destruct g; try (destruct N); cbn [size_first_coloured]; rewrite IH; destruct (size_first_coloured o s); reflexivity.
Qed.
Lemma first_cloud_prefix pre o s : Forall not_cloud pre ->
  size_first_cloud (pre ++ o) s = match size_first_cloud o s with Some r => Some (pre ++ r)%list | None => None end.
Proof.
  induction 1 as [|g pre N F IH]; cbn [app].
  - destruct (size_first_cloud o s); reflexivity.
  - destruct g; try (destruct N); cbn [size_first_cloud]; rewrite IH; destruct (size_first_cloud o s); reflexivity.
Qed.
Lemma apply_size_prefix pre o s : Forall not_cloud pre -> apply_size (pre ++ o) s = (pre ++ apply_size o s)%list.
Proof.
  intro F. unfold apply_size. rewrite (first_coloured_prefix pre o s F), (first_cloud_prefix pre o s F).
  destruct (size_first_coloured o s); [reflexivity|]. destruct (size_first_cloud o s); reflexivity.
Qed.
Definition shift {A} (pre : list Gl) (x : res (A * list Gl)) : res (A * list Gl) :=
  match x with Ok (a, o) => Ok (a, (pre ++ o)%list) | Throw => Throw | UB => UB end.
Lemma layer_prefix pre o (p : LayerP) l : Forall not_cloud pre -> layer_ (pre ++ o) p l = shift pre (layer_ o p l).
Proof.
  intro F. unfold vis_layer.
  destruct l as [pts | rgb occ free | d |].
  - destruct pts as [|v pts]; destruct (match ly_mode p with Some m => cm_keep m | None => false end); try reflexivity;
      try (cbn [shift]; rewrite <- app_assoc, apply_size_prefix by exact F; reflexivity).
    destruct (ly_mode p) as [m|].
    + destruct (color_limits interval m (v :: pts)); [|reflexivity ..]. cbn [rbind shift]. rewrite app_assoc. reflexivity.
    + cbn [shift]. rewrite app_assoc. reflexivity.
  - destruct (ly_voxels_as_points p).
    + destruct occ as [|v pts]; destruct (match ly_mode p with Some m => cm_keep m | None => false end); try reflexivity;
        try (cbn [shift]; rewrite <- app_assoc, apply_size_prefix by exact F; reflexivity).
      destruct (ly_mode p) as [m|].
      * destruct (color_limits interval m (v :: pts)); [|reflexivity ..]. cbn [rbind shift]. rewrite app_assoc. reflexivity.
      * cbn [shift]. rewrite app_assoc. reflexivity.
    + cbn [shift]. rewrite app_assoc. reflexivity.
  - destruct (match ly_mode p with Some m => cm_keep m | None => false end); cbn [shift]; rewrite <- app_assoc, apply_size_prefix by exact F; reflexivity.
  - destruct (match ly_mode p with Some m => cm_keep m | None => false end); reflexivity.
Qed.
Lemma all_prefix pre (p : LayerP) m : Forall not_cloud pre -> forall o, all_ (pre ++ o) p m = shift pre (all_ o p m).
Proof.
  intro F. induction m as [|[k l] m IH]; intro o; cbn [vis_all]; [reflexivity|].
  rewrite (layer_prefix pre o p l F). destruct (layer_ o p l) as [[l' o']| |]; [|reflexivity ..]. cbn [shift rbind fst snd].
  rewrite IH. destruct (all_ o' p m) as [[m' o2]| |]; reflexivity.
Qed.
Lemma per_prefix pre (ps : list (string * LayerP)) : Forall not_cloud pre -> forall m o, per_ (pre ++ o) ps m = shift pre (per_ o ps m).
Proof.
  intro F. induction ps as [|[k p] ps IH]; intros m o; cbn [vis_per]; [reflexivity|].
  destruct (v_find m k) as [l|]; [|reflexivity]. rewrite (layer_prefix pre o p l F).
  destruct (layer_ o p l) as [[l' o']| |]; [|reflexivity ..]. cbn [shift rbind fst snd]. apply IH.
Qed.
Lemma points_prefix pre p m : Forall not_cloud pre -> points_ pre p m = shift pre (points_ [] p m).
Proof.
  intro F. unfold vis_points. destruct (po_visible p); cbn [negb].
  - destruct (po_per p) as [|q ps].
    + rewrite <- (app_nil_r pre) at 1. apply all_prefix. exact F.
    + rewrite <- (app_nil_r pre) at 1. apply per_prefix. exact F.
  - cbn [shift]. rewrite app_nil_r. reflexivity.
Qed.
Lemma head_not_cloud planes lines (p : @RenderP Color CMap) :
  Forall not_cloud (vis_planes plane_pose planes (rp_planes p) ++ vis_lines lines (rp_lines p) : list Gl).
Proof.
  apply Forall_app. split; [|constructor; [exact I | constructor]].
  unfold vis_planes. destruct (pp_visible (rp_planes p)); [|constructor]. induction planes; constructor; [exact I | assumption].
Qed.

Lemma lines_shown len lines : Forall2 (line_shown len) lines
  (map (fun l => let half := vscale (1 / 2 * len)%R (l_dir l) in (vsub (l_base l) half, vadd (l_base l) half)) lines).
Proof.
  induction lines as [|[b d] r IH]; constructor; [|exact IH]. destruct b as [b1 b2 b3], d as [d1 d2 d3].
  unfold line_shown, vscale, vadd, vsub. cbn [l_base l_dir fst snd vx vy vz]. split; f_equal; field.
Qed.

(** C312: the planes and lines.  If planes are visible there is one grid per plane, in order, with the size, spacing and color
    asked for and the pose of the plane, otherwise none; the lines follow. *)
Theorem C312_planes_and_lines : forall planes lines m p m' objs, vis planes lines m p = Ok (m', objs) ->
  exists grids segs rest, objs = (grids ++ GLines (lp_color (rp_lines p)) segs :: rest)%list /\
    (pp_visible (rp_planes p) = true -> Forall2 (plane_shown plane_pose (rp_planes p)) planes grids) /\
    (pp_visible (rp_planes p) = false -> grids = []) /\
    Forall2 (line_shown (lp_length (rp_lines p))) lines segs.
Proof.
  intros planes lines m p m' objs H. unfold get_visualization in H. rewrite (points_prefix _ _ _ (head_not_cloud planes lines p)) in H.
  destruct (points_ [] (rp_points p) m) as [[m2 o]| |]; cbn [shift] in H; [|discriminate H ..]. injection H as <- <-.
  eexists _, _, o. split; [rewrite <- app_assoc; reflexivity|]. split; [|split].
  - intro V. unfold vis_planes. rewrite V. clear. induction planes; constructor; [reflexivity | assumption].
  - intro V. unfold vis_planes. rewrite V. reflexivity.
  - apply lines_shown.
Qed.

(** C313 refuted: asking for no lines, or for individual lengths, changes nothing. *)
Theorem C313_line_options_ignored_refuted : forall planes lines m p visible lengths,
  vis planes lines m p =
  vis planes lines m (mkRenderP (rp_planes p) (mkLinesP visible (lp_color (rp_lines p)) (lp_length (rp_lines p)) lengths) (rp_points p)).
Proof. intros. reflexivity. Qed.
(** C313, what holds: if lines are to be visible and of a common length, they are. *)
Theorem C313_lines_where : forall planes lines m p m' objs, lp_visible (rp_lines p) = true -> lp_lengths (rp_lines p) = None ->
  vis planes lines m p = Ok (m', objs) ->
  exists segs, In (GLines (lp_color (rp_lines p)) segs) objs /\ Forall2 (line_shown (lp_length (rp_lines p))) lines segs.
Proof.
  intros planes lines m p m' objs _ _ H. apply C312_planes_and_lines in H. destruct H as (g & segs & rest & -> & _ & _ & L).
  exists segs. split; [apply in_or_app; right; left; reflexivity | exact L].
Qed.

(** C314: the layers, none of which is left to the map's own renderer.  With common parameters, every layer is shown exactly once, in order,
    as its cloud with its own color, point size and color limits (nothing for an empty cloud), or as a voxel map; the call fails only for a
    color mode without axis.  If points are not visible nothing more is shown. *)
Theorem C314_every_layer_once : forall planes lines m p, po_visible (rp_points p) = true -> po_per (rp_points p) = [] ->
  Forall (fun kl => ours (po_all (rp_points p)) (snd kl)) m ->
  (exists m' objs head, vis planes lines m p = Ok (m', (head ++ objs)%list) /\ Forall not_cloud head /\ all_shown (po_all (rp_points p)) m m' objs) \/
  (vis planes lines m p = Throw /\ exists k l, In (k, l) m /\ lacks_axis (po_all (rp_points p)) l).
Proof.
  intros planes lines m p V E F. unfold get_visualization, vis_points. rewrite V, E. cbn [negb].
  destruct (all_ours (po_all (rp_points p)) m F (vis_planes plane_pose planes (rp_planes p) ++ vis_lines lines (rp_lines p))%list)
    as [(m' & objs & H & S) | H]; [left; eexists m', objs, _ | right; exact H].
  split; [exact H|]. split; [apply head_not_cloud | exact S].
Qed.
Theorem C314_invisible_points : forall planes lines m p, po_visible (rp_points p) = false ->
  exists head, vis planes lines m p = Ok (m, head) /\ Forall not_cloud head.
Proof. intros planes lines m p V. unfold get_visualization, vis_points. rewrite V. cbn [negb]. eexists. split; [reflexivity | apply head_not_cloud]. Qed.

(** with parameters per layer *)
Lemma v_find_set m k l x : v_find (v_set (Data := Data) m k l) x = if String.eqb k x then match v_find m k with Some _ => Some l | None => None end else v_find m x.
Proof.
  induction m as [|[n y] m IH]; cbn [v_set v_find]; [destruct (String.eqb k x); reflexivity|].
  destruct (String.eqb_spec n k) as [-> | N]; cbn [v_find].
  - destruct (String.eqb_spec k x) as [-> | N2]; [reflexivity|]. reflexivity.
  - destruct (String.eqb_spec n x) as [-> | N2].
    + destruct (String.eqb_spec k x) as [-> | N3]; [congruence | reflexivity].
    + rewrite IH. reflexivity.
Qed.
Lemma per_ours ps : NoDup (map fst ps) -> forall m o,
  (forall k p l, In (k, p) ps -> v_find m k = Some l -> ours p l) ->
  (exists m' parts, per_ o ps m = Ok (m', (o ++ concat parts)%list) /\
     Forall2 (fun kp a => exists l l', v_find m (fst kp) = Some l /\ v_find m' (fst kp) = Some l' /\ shown (snd kp) l l' a) ps parts /\
     forall k, ~ In k (map fst ps) -> v_find m' k = v_find m k) \/
  (per_ o ps m = Throw /\ exists k p, In (k, p) ps /\ (v_find m k = None \/ exists l, v_find m k = Some l /\ lacks_axis p l)).
Proof.
  induction ps as [|[k p] ps IH]; intros ND m o F; cbn [vis_per].
  - left. exists m, []. cbn [concat]. rewrite app_nil_r. split; [reflexivity|]. split; [constructor | reflexivity].
  - inversion ND as [|? ? NI ND']; subst. destruct (v_find m k) as [l|] eqn:E.
    2:{ right. split; [reflexivity|]. exists k, p. split; [left; reflexivity | left; exact E]. }
    destruct (layer_ours o p l) as [(l' & a & EL & S) | [EL A]]; [apply (F k p l); [left; reflexivity | exact E]| |]; rewrite EL; cbn [rbind fst snd].
    2:{ right. split; [reflexivity|]. exists k, p. split; [left; reflexivity|]. right. exists l. split; assumption. }
    assert (O : forall x, x <> k -> v_find (v_set m k l') x = v_find m x).
    { intros x N. rewrite v_find_set. destruct (String.eqb_spec k x) as [-> | _]; [congruence | reflexivity]. }
    assert (NK : forall x q, In (x, q) ps -> x <> k).
    { intros x q I ->. apply NI. apply (in_map fst) in I. exact I. }
    destruct (IH ND' (v_set m k l') (o ++ a)%list) as [(m' & parts & E2 & F2 & O2) | [E2 (x & q & I & B)]].
    + intros x q y I Y. rewrite (O x (NK x q I)) in Y. apply (F x q y); [right; exact I | exact Y].
    + left. rewrite E2. exists m', (a :: parts). cbn [concat]. rewrite <- app_assoc. split; [reflexivity|]. split.
      * constructor.
        -- exists l, l'. split; [exact E|]. split; [|exact S]. cbn [fst]. rewrite (O2 k NI), v_find_set, String.eqb_refl, E. reflexivity.
        -- clear - F2 O NK. induction F2 as [|[x q] b r t (y & y' & Y1 & Y2 & Y3) F2 IHF]; constructor.
           ++ exists y, y'. cbn [fst] in *. rewrite (O x (NK x q (or_introl eq_refl))) in Y1. split; [exact Y1|]. split; assumption.
           ++ apply IHF. intros z w I. apply (NK z w). right. exact I.
      * intros x N. rewrite (O2 x).
        -- apply O. intros ->. apply N. left. reflexivity.
        -- intro I. apply N. right. exact I.
    + right. rewrite E2. split; [reflexivity|]. exists x, q. split; [right; exact I|]. rewrite (O x (NK x q I)) in B. exact B.
Qed.
(** C314, with parameters per layer: exactly the named layers are shown, in the order of their names, each with its own
    parameters; a named layer that does not exist is an error. *)
Theorem C314_only_the_named_layers : forall planes lines m p, po_visible (rp_points p) = true -> po_per (rp_points p) <> [] ->
  NoDup (map fst (po_per (rp_points p))) ->
  (forall k q l, In (k, q) (po_per (rp_points p)) -> v_find m k = Some l -> ours q l) ->
  (exists m' head parts, vis planes lines m p = Ok (m', (head ++ concat parts)%list) /\ Forall not_cloud head /\
     Forall2 (fun kp a => exists l l', v_find m (fst kp) = Some l /\ v_find m' (fst kp) = Some l' /\ shown (snd kp) l l' a) (po_per (rp_points p)) parts /\
     forall k, ~ In k (map fst (po_per (rp_points p))) -> v_find m' k = v_find m k) \/
  (vis planes lines m p = Throw /\
   exists k q, In (k, q) (po_per (rp_points p)) /\ (v_find m k = None \/ exists l, v_find m k = Some l /\ lacks_axis q l)).
Proof.
  intros planes lines m p V NE ND F. unfold get_visualization, vis_points. rewrite V. cbn [negb].
  destruct (po_per (rp_points p)) as [|q ps] eqn:EP; [congruence|]. clear NE.
  destruct (per_ours (q :: ps) ND m (vis_planes plane_pose planes (rp_planes p) ++ vis_lines lines (rp_lines p))%list F) as [(m' & parts & H) | H]; [left | right; exact H].
  destruct H as (H & H2 & H3). eexists m', _, parts. split; [exact H|]. split; [apply head_not_cloud|]. split; assumption.
Qed.

Lemma keep_layer o (p : LayerP) m a : ly_mode p = Some m -> cm_keep m = true ->
  layer_ o p (VPoints a) = Ok (VPoints a, apply_size (o ++ own (VPoints a)) (ly_size p)).
Proof. intros M K. unfold vis_layer. rewrite M, K. destruct a; reflexivity. Qed.
(** C315 refuted: two layers left to their own renderer, each a cloud: the point size of the second is set on the
    first, and the second keeps the size of the renderer. *)
Theorem C315_point_size_of_another_layer_refuted : forall planes lines ka kb a b (pa pb : LayerP) ma mb da db p m' objs, ka <> kb ->
  ly_mode pa = Some ma -> cm_keep ma = true -> ly_mode pb = Some mb -> cm_keep mb = true ->
  own (VPoints a) = [GCloud a da None] -> own (VPoints b) = [GCloud b db None] ->
  po_visible (rp_points p) = true -> po_per (rp_points p) = [(ka, pa); (kb, pb)] ->
  vis planes lines [(ka, VPoints a); (kb, VPoints b)] p = Ok (m', objs) ->
  exists head, Forall not_cloud head /\ objs = (head ++ [GCloud a (ly_size pb) None; GCloud b db None])%list.
Proof.
  intros planes lines ka kb a b pa pb ma mb da db p m' objs NK MA KA MB KB OA OB V E H.
  unfold get_visualization in H. rewrite (points_prefix _ _ _ (head_not_cloud planes lines p)) in H.
  unfold vis_points in H. rewrite V, E in H. cbn [negb vis_per v_find] in H. rewrite String.eqb_refl in H.
  rewrite (keep_layer _ _ _ _ MA KA), OA in H. unfold apply_size at 1 in H. cbn [app apply_size size_first_coloured size_first_cloud rbind fst snd v_set] in H.
  rewrite String.eqb_refl in H. cbn [v_find] in H. rewrite (proj2 (String.eqb_neq ka kb) NK), String.eqb_refl in H.
  rewrite (keep_layer _ _ _ _ MB KB), OB in H. unfold apply_size in H. cbn [app size_first_coloured size_first_cloud rbind fst snd vis_per shift] in H.
  injection H as _ <-. eexists. split; [apply (head_not_cloud planes lines p) | reflexivity].
Qed.
(** C315, what holds: a single layer left to its own renderer, giving one cloud, gets its point size. *)
Theorem C315_single_layer_where : forall planes lines k a (pa : LayerP) ma da p, ly_mode pa = Some ma -> cm_keep ma = true ->
  own (VPoints a) = [GCloud a da None] -> po_visible (rp_points p) = true -> po_per (rp_points p) = [(k, pa)] ->
  exists head, Forall not_cloud head /\ vis planes lines [(k, VPoints a)] p = Ok ([(k, VPoints a)], (head ++ [GCloud a (ly_size pa) None])%list).
Proof.
  intros planes lines k a pa ma da p MA KA OA V E. eexists. split; [apply (head_not_cloud planes lines p)|].
  unfold get_visualization. rewrite (points_prefix _ _ _ (head_not_cloud planes lines p)).
  unfold vis_points. rewrite V, E. cbn [negb vis_per v_find]. rewrite String.eqb_refl.
  rewrite (keep_layer _ _ _ _ MA KA), OA. unfold apply_size. cbn [app size_first_coloured size_first_cloud rbind fst snd v_set]. rewrite String.eqb_refl.
  reflexivity.
Qed.

(** C316: the colors of a cloud by coordinate: its limits are those given, and the ends of the cloud or of its confidence
    interval for those not given; without axis it fails. *)
Theorem C316_color_limits : forall (m : ColorMode) pts, pts <> [] ->
  (forall lo hi i, color_limits interval m pts = Ok (lo, hi, i) <-> limits m pts lo hi i) /\
  (color_limits interval m pts = Throw <-> match cm_coord m with Some i => (3 <= i)%nat | None => True end).
Proof.
  intros m pts N. split; [intros lo hi i; apply limits_iff; exact N|].
  destruct (limits_throw m pts N) as [(lo & hi & i & E) | [E A]].
  - split; [rewrite E; discriminate|]. intro A. apply limits_iff in E; [|exact N]. destruct E as (C & L & _). rewrite C in A. lia.
  - split; [intros _; exact A | intros _; exact E].
Qed.

(** C317: drawing does not change the map.  It does exactly if some voxel map is drawn as such and its option of free
    voxels was another. *)
Theorem C317_drawing_where : forall planes lines m p m' objs, po_visible (rp_points p) = true -> po_per (rp_points p) = [] ->
  vis planes lines m p = Ok (m', objs) ->
  (m' = m <-> forall k rgb occ free, In (k, VVoxels rgb occ free) m -> ly_voxels_as_points (po_all (rp_points p)) = true \/ free = ly_free (po_all (rp_points p))).
Proof.
  intros planes lines m p m' objs V E H. unfold get_visualization, vis_points in H. rewrite V, E in H. cbn [negb] in H.
  revert m' objs H. generalize (vis_planes plane_pose planes (rp_planes p) ++ vis_lines lines (rp_lines p) : list Gl)%list. generalize (po_all (rp_points p)). clear.
  intros q o m' objs. revert o m' objs. induction m as [|[k l] m IH]; intros o m' objs H; cbn [vis_all] in H.
  - injection H as <- <-. split; [intros _ k rgb occ free [] | reflexivity].
  - destruct (layer_ o q l) as [[l' o']| |] eqn:EL; cbn [rbind fst snd] in H; [|discriminate H ..].
    destruct (all_ o' q m) as [[m2 o2]| |] eqn:EA; cbn [rbind fst snd] in H; [|discriminate H ..]. injection H as <- <-.
    specialize (IH _ _ _ EA).
    assert (L : l' = l <-> forall rgb occ free, l = VVoxels rgb occ free -> ly_voxels_as_points q = true \/ free = ly_free q).
    { unfold vis_layer in EL. destruct l as [pts | rgb occ free | d |].
      - assert (X : l' = VPoints pts).
        { destruct pts as [|v pts]; destruct (match ly_mode q with Some m => cm_keep m | None => false end); try (injection EL as <- _; reflexivity).
          destruct (ly_mode q) as [c|]; [|injection EL as <- _; reflexivity].
          destruct (color_limits interval c (v :: pts)); [injection EL as <- _; reflexivity | discriminate EL ..]. }
        subst l'. split; [intros _ ? ? ? X; discriminate X | reflexivity].
      - destruct (ly_voxels_as_points q).
        + assert (X : l' = VVoxels rgb occ free).
          { destruct occ as [|v occ]; destruct (match ly_mode q with Some m => cm_keep m | None => false end); try (injection EL as <- _; reflexivity).
            destruct (ly_mode q) as [c|]; [|injection EL as <- _; reflexivity].
            destruct (color_limits interval c (v :: occ)); [injection EL as <- _; reflexivity | discriminate EL ..]. }
          subst l'. split; [intros _ ? ? ? X; left; reflexivity | reflexivity].
        + injection EL as <- _. split.
          * intro X. injection X as X. intros rgb' occ' free' Y. injection Y as <- <- <-. right. symmetry. exact X.
          * intro X. destruct (X rgb occ free eq_refl) as [Y | ->]; [discriminate Y | reflexivity].
      - assert (X : l' = VOther d) by (destruct (match ly_mode q with Some m => cm_keep m | None => false end); injection EL as <- _; reflexivity).
        subst l'. split; [intros _ ? ? ? X; discriminate X | reflexivity].
      - destruct (match ly_mode q with Some m => cm_keep m | None => false end); discriminate EL. }
    split.
    + intro X. injection X as X1 X2. intros k' rgb occ free [Y | Y]; [injection Y as _ Y; exact (proj1 L X1 rgb occ free Y) | exact (proj1 IH X2 k' rgb occ free Y)].
    + intro X. f_equal; [f_equal; apply L; intros rgb occ free Y; apply (X k rgb occ free); left; rewrite Y; reflexivity|].
      apply IH. intros k' rgb occ free Y. apply (X k' rgb occ free). right. exact Y.
Qed.
Theorem C317_drawing_changes_the_map_refuted : forall planes lines k rgb occ free p, po_visible (rp_points p) = true -> po_per (rp_points p) = [] ->
  ly_voxels_as_points (po_all (rp_points p)) = false -> free <> ly_free (po_all (rp_points p)) ->
  exists objs, vis planes lines [(k, VVoxels rgb occ free)] p = Ok ([(k, VVoxels rgb occ (ly_free (po_all (rp_points p))))], objs).
Proof.
  intros planes lines k rgb occ free p V E A N. unfold get_visualization, vis_points. rewrite V, E. cbn [negb vis_all vis_layer]. rewrite A.
  cbn [rbind fst snd]. eexists. reflexivity.
Qed.

(** ** Pairings *)
Variable origin : PlanePose -> V3.
Context {Ln2Ln Pl2Pl : Type}.
(** C318: each kind shown is either absent or has one segment per pairing, in order, from the local point moved by the pose to its
    partner: the global point, the origin of the plane, the base of the line; planes with a patch each, lines with a
    segment of the length asked for. *)
Theorem C318_pairings_shown : forall (ps : VPairs Ln2Ln Pl2Pl) T (p : @PairP Color), exists A B C : list Gl,
  pairs_visualization plane_pose origin ps T p = (A ++ B ++ C)%list /\
  (pr_pt2pt p = false -> A = []) /\
  (pr_pt2pt p = true -> exists segs, A = [GLines (pr_pt2pt_color p) segs] /\
     Forall2 (fun gl s => s = (compose T (snd gl), fst gl)) (vp_pt2pt ps) segs) /\
  (pr_pt2pl p = false -> B = []) /\
  (pr_pt2pl p = true -> exists patches segs, B = (patches ++ [GLines (pr_pt2pl_segment p) segs])%list /\
     Forall2 (fun x g => g = GPatch (pr_pt2pl_size p / 2) (pr_pt2pl_patch p) (plane_pose (fst (fst x)) (snd (fst x)))) (vp_pt2pl ps) patches /\
     Forall2 (fun x s => s = (compose T (snd x), origin (plane_pose (fst (fst x)) (snd (fst x))))) (vp_pt2pl ps) segs) /\
  (pr_pt2ln p = false -> C = []) /\
  (pr_pt2ln p = true -> exists segs lns, C = [GLines (pr_pt2ln_segment p) segs; GLines (pr_pt2ln_line p) lns] /\
     Forall2 (fun x s => s = (compose T (snd x), l_base (fst x))) (vp_pt2ln ps) segs /\
     Forall2 (fun x s => line_shown (pr_pt2ln_length p) (fst x) s) (vp_pt2ln ps) lns).
Proof.
  intros ps T p. eexists _, _, _. split; [reflexivity|].
  assert (M : forall X Y (P : X -> Y -> Prop) f l, (forall x, P x (f x)) -> Forall2 P l (map f l)).
  { intros X Y P f l H. induction l; constructor; [apply H | assumption]. }
  split; [unfold vis_pt2pt; intros ->; reflexivity|].
  split; [unfold vis_pt2pt; intros ->; eexists; split; [reflexivity | apply M; reflexivity]|].
  split; [unfold vis_pt2pl; intros ->; reflexivity|].
  split; [unfold vis_pt2pl; intros ->; eexists _, _; split; [reflexivity|]; split; apply M; intro x; [|reflexivity] | ].
  { f_equal. lra. }
  split; [unfold vis_pt2ln; intros ->; reflexivity|].
  unfold vis_pt2ln. intros ->. eexists _, _. split; [reflexivity|]. split; apply M; intro x; [reflexivity|].
  destruct x as [[[b1 b2 b3] [d1 d2 d3]] q]. unfold line_shown, vscale, vadd, vsub. cbn [l_base l_dir fst snd vx vy vz]. split; f_equal; field.
Qed.
(** C319 refuted: pairings between lines and between planes are never shown. *)
Theorem C319_other_pairings_not_shown_refuted : forall (ps : VPairs Ln2Ln Pl2Pl) T (p : @PairP Color) lns pls,
  pairs_visualization (CMap := CMap) (Data := Data) plane_pose origin ps T p =
  pairs_visualization plane_pose origin (mkVP Ln2Ln Pl2Pl (vp_pt2pt ps) (vp_pt2pl ps) (vp_pt2ln ps) lns pls) T p.
Proof. intros. reflexivity. Qed.
End Props.

(** The hypotheses are met: two layers, colors by height, of which the limits are those of the cloud. *)
Example C314_case :
  let m := [("a"%string, VPoints [mkV 0 0 1; mkV 1 0 3]); ("b"%string, VPoints (Data := unit) [])] in
  let q : LayerP (Color := nat) (CMap := nat) := mkLayerP 2 7 (Some (mkCM false 4 (Some 2) None None None)) false false in
  Forall (fun kl => ours q (snd kl)) m /\
  exists m' objs, get_visualization (fun _ _ => tt) (fun _ => []) (fun _ _ _ _ => (0%R, 0%R)) [] [] m
    (mkRenderP (mkPlanesP true 1 1 0) (mkLinesP true 0 1 None) (mkPointsP true q [])) = Ok (m', objs) /\
    objs = [GLines 0%nat []; GColoured [mkV 0 0 1; mkV 1 0 3] 2%R (Some (1%R, 3%R, 2%nat, 4%nat))].
Proof.
  split; [repeat constructor|]. eexists _, _. split; [reflexivity|]. cbn.
  match goal with |- context [Some (?a, ?b, _, _)] => replace a with 1%R; [replace b with 3%R; [reflexivity|]|] end.
  - symmetry; apply Rmax_right; lra.
  - symmetry; apply Rmin_left; lra.
Qed.
