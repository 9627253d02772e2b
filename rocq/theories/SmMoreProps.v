(** C123, C337, C338: more on generators and on building a metric map from a simple map. *)
From Coq Require Import String.
From Verif Require Import Base FilterModel FilterSpec FilterProofs DeskewModel MapModel MapProps SmModel SmProps.
Open Scope nat_scope.

Section SmM.
Variable B : Type.
Variable add_angular : Q -> Q3 -> B -> B.
Variable set_zero_time : Q -> B -> B.
Variable fields : Cls -> Cls -> Pt -> Pt.
Variable XYZIRT : Cls.
Variable pose_add : Pose -> Pose -> Pose.
Notation Ob := (Ob B). Notation KF := (KF B). Notation Pipe := (Pipe B). Notation St := (St B). Notation Fil := (Fil B).
Notation process := (process B add_angular set_zero_time fields XYZIRT pose_add).
Notation gen_frame := (gen_frame B add_angular set_zero_time fields XYZIRT pose_add).
Notation apply_frame := (apply_frame B add_angular set_zero_time fields XYZIRT pose_add).
Notation apply_frame_list := (apply_frame_list B add_angular set_zero_time fields XYZIRT pose_add).
Notation do_obs := (do_obs B add_angular set_zero_time fields XYZIRT pose_add).
Notation do_kf := (do_kf B add_angular set_zero_time fields XYZIRT pose_add).
Notation do_kfs := (do_kfs B add_angular set_zero_time fields XYZIRT pose_add).
Notation sm2mm := (sm2mm B add_angular set_zero_time fields XYZIRT pose_add).

(** ** Whole sensory frames *)
(** the calls of the generators, in order: each generator goes through all the observations that are not null before the next one starts *)
Definition schedule (gs : list Gen) (sf : list (option Ob)) : list (Gen * Ob) :=
  flat_map (fun g => flat_map (fun o => match o with Some o => [(g, o)] | None => [] end) sf) gs.
Inductive calls_done (src : bool) (robot : option Pose) : list (Gen * Ob) -> St -> St -> list bool -> Prop :=
| cd_nil : forall s, calls_done src robot [] s s []
| cd_cons : forall g o l s s1 s2 h hs, process src g o robot s = (s1, Val h) -> calls_done src robot l s1 s2 hs -> calls_done src robot ((g, o) :: l) s s2 (h :: hs).
Lemma calls_app src robot l1 l2 s s1 s2 h1 h2 : calls_done src robot l1 s s1 h1 -> calls_done src robot l2 s1 s2 h2 -> calls_done src robot (l1 ++ l2) s s2 (h1 ++ h2).
Proof. intro C. induction C; intro D; [exact D|]. cbn [app]. econstructor; eauto. Qed.
(** C123: applying generators to a sensory frame: all generators see all its observations, the frame counts as handled if and only if some
    generator has handled some observation of it, and null observations are left out. *)
Theorem C123_sensory_frames : forall src gs sf robot s s' any, apply_frame src gs sf robot s = (s', Val any) ->
  gs <> [] /\ exists hs, calls_done src robot (schedule gs sf) s s' hs /\ (any = true <-> In true hs).
Proof.
  intros src gs sf robot s s' any E.
  assert (L1 : forall g sf s s' a any, gen_frame src g sf robot a s = (s', Val any) ->
    exists hs, calls_done src robot (schedule [g] sf) s s' hs /\ (any = true <-> a = true \/ In true hs)).
  { clear. intros g sf. unfold schedule. cbn [flat_map]. induction sf as [|[o|] sf IH]; intros s s' a any E; cbn [SmModel.gen_frame] in E; cbn [flat_map app].
    - injection E as <- <-. exists []. split; [constructor|cbn [In]; tauto].
    - unfold nbnd in E. destruct (process src g o robot s) as [s1 [h| | |]] eqn:P; try discriminate E. destruct (IH _ _ _ _ E) as (hs & C & AN).
      exists (h :: hs). split; [econstructor; eassumption|]. rewrite AN, orb_true_iff. cbn [In]. tauto.
    - exact (IH _ _ _ _ E). }
  assert (L2 : forall gs s s' a any, apply_frame_list src gs sf robot a s = (s', Val any) ->
    exists hs, calls_done src robot (schedule gs sf) s s' hs /\ (any = true <-> a = true \/ In true hs)).
  { induction gs0 as [|g gs0 IH]; intros s0 s0' a any0 E0; cbn [SmModel.apply_frame_list] in E0.
    - injection E0 as <- <-. exists []. split; [constructor|cbn [In]; tauto].
    - unfold nbnd in E0. destruct (gen_frame src g sf robot a s0) as [s1 [h| | |]] eqn:P; try discriminate E0.
      destruct (L1 _ _ _ _ _ _ P) as (h1 & C1 & A1). destruct (IH _ _ _ _ E0) as (h2 & C2 & A2). exists (h1 ++ h2). split.
      + unfold schedule in *. cbn [flat_map] in *. rewrite app_nil_r in C1. exact (calls_app _ _ _ _ _ _ _ _ _ C1 C2).
      + rewrite A2, A1. rewrite in_app_iff. tauto. }
  destruct gs as [|g gs]; [discriminate E|]. split; [discriminate|]. destruct (L2 _ _ _ _ _ E) as (hs & C & AN). exists hs. split; [exact C|]. rewrite AN. intuition discriminate.
Qed.
Theorem C123_sensory_frame_no_generators : forall src sf robot s, apply_frame src [] sf robot s = (s, Exc).
Proof. reflexivity. Qed.

(** ** Single observations *)
(** the target layer before the observation is added: the one in the map, or a new empty cloud of class [c] *)
Definition target_or_new (m : Layers) (n : Name) (c : Cls) : Layer := match lfind m n with Some l => l | None => LPts (mkCloud c []) end.
Definition writable_target (m : Layers) (n : Name) : Prop := n <> EmptyString /\ forall l, lfind m n = Some l -> exists d, l = LPts d.
(** the new state: the target layer is [l], all others stay *)
Definition with_target (m m' : Layers) (n : Name) (l : Layer) : Prop := lfind m' n = Some l /\ forall k, k <> n -> lfind m' k = lfind m k.
Lemma wt m n l : with_target m (lset m n l) n l.
Proof. split; [rewrite lfind_lset, String.eqb_refl; reflexivity|]. intros k NE. rewrite lfind_lset. destruct (String.eqb_spec n k); [congruence|reflexivity]. Qed.
Lemma wt2 m n a l : with_target m (lset (lset m n a) n l) n l.
Proof. split; [rewrite lfind_lset, String.eqb_refl; reflexivity|]. intros k NE. rewrite !lfind_lset. destruct (String.eqb_spec n k); [congruence|reflexivity]. Qed.

(** C337: rotating and planar scans, 3D images that already have their points, and observations of other classes are inserted by their own
    class into the target layer, which is created if needed; the result tells whether this worked, or is an exception if it did not and the
    generator is told to throw.  The reference time of the velocity buffer is set for scans only. *)
Theorem C337_other_observations : forall (src : bool) g o robot m b,
  g_init g = true -> g_custom g = None -> skipped B g o = false -> writable_target m (g_target g) ->
  o_kind B o = KRotating B \/ o_kind B o = K2D B \/ o_kind B o = K3D B None \/ o_kind B o = KOther B ->
  let '(l, done) := o_insert B o (target_or_new m (g_target g) SimplePoints) robot in
  let b' := if src then match o_kind B o with KOther _ => b | _ => set_zero_time (o_time B o) b end else b in
  exists m' : Layers, process src g o robot (m, b) = ((m', b'), if done then Val true else if g_throw g then Exc else Val false) /\ with_target m m' (g_target g) l.
Proof.
  intros src g o robot m b GI GC SK [NE LP] K. destruct (o_insert B o (target_or_new m (g_target g) SimplePoints) robot) as [l done] eqn:I. cbn zeta.
  unfold target_or_new in I. unfold SmModel.process. rewrite GI, GC. unfold nassert, nbnd at 1. cbn [nret]. unfold process_default, special, is_cloud.
  destruct (lfind m (g_target g)) as [l0|] eqn:F.
  - destruct (LP l0 eq_refl) as [d ->]. exists (lset m (g_target g) l). split; [|apply wt].
    destruct K as [EK |[EK |[EK | EK]]]; rewrite EK, SK; cbn [orb]; destruct src; cbn [andb]; unfold nbnd, lay, get_or_create, put, buf, nret; cbn [fst snd];
      rewrite (proj2 (String.eqb_neq _ _) NE); repeat (cbn [fst snd]; rewrite ?F, ?I; cbn [fst snd]); destruct done, (g_throw g); reflexivity.
  - exists (lset (lset m (g_target g) (LPts (mkCloud SimplePoints []))) (g_target g) l). split; [|apply wt2].
    destruct K as [EK |[EK |[EK | EK]]]; rewrite EK, SK; cbn [orb]; destruct src; cbn [andb]; unfold nbnd, lay, get_or_create, put, buf, nret; cbn [fst snd];
      rewrite (proj2 (String.eqb_neq _ _) NE); cbn [fst snd]; rewrite F; cbn [fst snd]; rewrite ?lfind_lset, ?String.eqb_refl; rewrite I; cbn [fst snd]; destruct done, (g_throw g); reflexivity.
Qed.
(** 3D images without points are unprojected into the target layer; that is always handled *)
Theorem C337_depth_images : forall (src : bool) g o robot m b unproj, o_kind B o = K3D B (Some unproj) ->
  g_init g = true -> g_custom g = None -> skipped B g o = false -> writable_target m (g_target g) ->
  exists m' d, target_or_new m (g_target g) SimplePoints = LPts d /\
    process src g o robot (m, b) = ((m', if src then set_zero_time (o_time B o) b else b), Val true) /\
    with_target m m' (g_target g) (LPts (mkCloud (cl_cls d) (cl_pts d ++ map (conv (cl_cls d)) (unproj robot)))).
Proof.
  intros src g o robot m b unproj K GI GC SK [NE LP]. unfold target_or_new. unfold SmModel.process. rewrite GI, GC. unfold nassert, nbnd at 1. cbn [nret]. unfold process_default, special, is_cloud. rewrite K, SK. cbn [orb].
  destruct (lfind m (g_target g)) as [l0|] eqn:F.
  - destruct (LP l0 eq_refl) as [d ->]. eexists. exists d. split; [reflexivity|]. split; [|apply wt]. destruct src; cbn [andb]; unfold nbnd, lay, get_or_create, put, buf, nret; cbn [fst snd];
      rewrite (proj2 (String.eqb_neq _ _) NE); cbn [fst snd]; rewrite F; cbn [fst snd]; rewrite F; reflexivity.
  - eexists. exists (mkCloud SimplePoints []). split; [reflexivity|]. split; [|apply (wt2 m (g_target g) (LPts (mkCloud SimplePoints [])))]. destruct src; cbn [andb]; unfold nbnd, lay, get_or_create, put, buf, nret; cbn [fst snd];
      rewrite (proj2 (String.eqb_neq _ _) NE); cbn [fst snd]; rewrite F; cbn [fst snd]; rewrite lfind_lset, String.eqb_refl; reflexivity.
Qed.
(** Velodyne scans are inserted in a cloud with intensities, rings and times, created if needed; that is always handled.  If the
    layer is a cloud of another class, it is an exception. *)
Theorem C337_velodyne_scans : forall (src : bool) g o robot m b ins, o_kind B o = KVelodyne B ins ->
  g_init g = true -> g_custom g = None -> skipped B g o = false -> writable_target m (g_target g) ->
  exists d, target_or_new m (g_target g) XYZIRT = LPts d /\
  (cls_name (cl_cls d) = cls_name XYZIRT ->
    exists m', process src g o robot (m, b) = ((m', if src then set_zero_time (o_time B o) b else b), Val true) /\ with_target m m' (g_target g) (LPts (ins d robot))) /\
  (cls_name (cl_cls d) <> cls_name XYZIRT -> process src g o robot (m, b) = ((m, b), Exc)).
Proof.
  intros src g o robot m b ins K GI GC SK [NE LP]. unfold target_or_new. unfold SmModel.process. rewrite GI, GC. unfold nassert, nbnd at 1. cbn [nret]. unfold process_default, special, is_cloud. rewrite K, SK. cbn [orb].
  assert (FV : forall d m1, lfind m (g_target g) = Some (LPts d) /\ m1 = m \/ lfind m (g_target g) = None /\ d = mkCloud XYZIRT [] /\ m1 = lset m (g_target g) (LPts d) ->
    filter_velodyne B XYZIRT g ins robot (m, b) =
      if String.eqb (cls_name (cl_cls d)) (cls_name XYZIRT) then ((lset m1 (g_target g) (LPts (ins d robot)), b), Val true) else ((m1, b), Exc)).
  { intros d m1 H. unfold filter_velodyne, nbnd at 1, lay, get_or_create. cbn [fst snd]. rewrite (proj2 (String.eqb_neq _ _) NE).
    destruct H as [[H ->]|[H [-> ->]]]; rewrite H; cbn [fst snd]; [rewrite H|rewrite lfind_lset, String.eqb_refl]; destruct (String.eqb _ _); reflexivity. }
  destruct (lfind m (g_target g)) as [l0|] eqn:F.
  - destruct (LP l0 eq_refl) as [d ->]. exists d. split; [reflexivity|]. assert (FV' := FV d m (or_introl (conj eq_refl eq_refl))). split; intro H.
    + rewrite (proj2 (String.eqb_eq _ _) H) in FV'. exists (lset m (g_target g) (LPts (ins d robot))). split; [|apply wt].
      unfold nbnd at 1. rewrite ?FV'. unfold nbnd at 1. rewrite ?FV'. destruct src; reflexivity.
    + rewrite (proj2 (String.eqb_neq _ _) H) in FV'. unfold nbnd at 1. unfold nret at 1. unfold nbnd at 1. rewrite FV'. reflexivity.
  - exists (mkCloud XYZIRT []). split; [reflexivity|]. assert (FV' := FV (mkCloud XYZIRT []) _ (or_intror (conj eq_refl (conj eq_refl eq_refl)))). cbn [cl_cls] in *. split; intro H; [|destruct H; reflexivity].
    rewrite (proj2 (String.eqb_eq _ _) H) in FV'. eexists. split; [|apply (wt2 m (g_target g) (LPts (mkCloud XYZIRT [])))].
    unfold nbnd at 1. rewrite ?FV'. unfold nbnd at 1. rewrite ?FV'. destruct src; reflexivity.
Qed.
(** With a metric map definition, every observation that is not skipped is inserted by its own class in the target layer or in a new map
    made from the definition. *)
Theorem C337_custom_maps : forall src g o robot m b l, g_init g = true -> g_custom g = Some (Some l) -> l <> LNull -> lfind m (g_target g) <> Some LNull ->
  skipped B g o = false -> (forall f, o_kind B o <> KComment B f) ->
  let '(l', done) := o_insert B o (match lfind m (g_target g) with Some l0 => l0 | None => l end) robot in
  exists m', process src g o robot (m, b) = ((m', b), if done then Val true else if g_throw g then Exc else Val false) /\ with_target m m' (g_target g) l'.
Proof.
  intros src g o robot m b l GI GC NL NL2 SK NC. destruct (o_insert B o _ robot) as [l' done] eqn:I.
  unfold SmModel.process. rewrite GI, GC. unfold nassert, nbnd at 1. cbn [nret]. unfold process_custom, nbnd. cbn [fst].
  assert (KC : match o_kind B o with KComment _ _ => true | _ => false end = false) by (destruct (o_kind B o); try reflexivity; edestruct NC; reflexivity).
  destruct (lfind m (g_target g)) as [l0|] eqn:F; cbn [put fst snd].
  - rewrite F. exists (lset m (g_target g) l'). split; [|apply wt]. rewrite KC, SK. cbn [orb].
    destruct l0; [| |congruence]; rewrite I; destruct done, (g_throw g); reflexivity.
  - rewrite lfind_lset, String.eqb_refl. exists (lset (lset m (g_target g) l) (g_target g) l'). split; [|apply wt2]. rewrite KC, SK. cbn [orb].
    destruct l; [| |congruence]; rewrite I; destruct done, (g_throw g); reflexivity.
Qed.

(** ** sm2mm: variables *)
(** the variable [x] is used by a generator or by a filter of the pipeline *)
Definition uses (p : Pipe) (x : string) : Prop :=
  (exists gs g, pi_gens B p = Some gs /\ In g gs /\ In x (g_vars g)) \/ (exists f, In f (pi_filters B p) /\ In x (fi_vars B f)).
(** the variables that exist *)
Definition known (o : Opts) (x : string) : Prop := In x twist_names \/ In x pose_names \/ In x (map fst (op_custom o)).
Lemma upd_new vs new x : In x (map fst new) -> kfind (upd_vars vs new) x <> None.
Proof.
  unfold upd_vars. revert vs. induction new as [|[k v] new IH]; intros vs I; [destruct I|]. cbn [fold_left fst snd map In] in *.
  destruct (in_dec string_dec x (map fst new)) as [J|J]; [exact (IH _ J)|]. destruct I as [<-|I]; [|contradiction].
  fold (upd_vars (kset vs k v) new). rewrite (upd_other B add_angular set_zero_time fields XYZIRT) by exact J. rewrite kfind_kset, String.eqb_refl. discriminate.
Qed.
Lemma known_iff o x : known o x <-> kfind (vars0 o) x <> None.
Proof.
  unfold known, vars0. split.
  - intros [I|[I|I]].
    + apply upd_keeps, upd_keeps. apply upd_new. exact I.
    + apply upd_keeps. apply upd_new. exact I.
    + apply upd_new. exact I.
  - intro H. destruct (in_dec string_dec x (map fst (op_custom o))) as [J|J]; [auto|]. rewrite (upd_other B add_angular set_zero_time fields XYZIRT) in H by exact J.
    destruct (in_dec string_dec x pose_names) as [J2|J2]; [auto|]. rewrite (upd_other B add_angular set_zero_time fields XYZIRT) in H by exact J2.
    destruct (in_dec string_dec x twist_names) as [J3|J3]; [auto|]. rewrite (upd_other B add_angular set_zero_time fields XYZIRT) in H by exact J3. destruct H. reflexivity.
Qed.
Lemma realizes_iff p vs : realizes B p vs = true <-> forall x, uses p x -> kfind vs x <> None.
Proof.
  unfold realizes. rewrite andb_true_iff, !forallb_forall. assert (D : forall x, defined vs x = true <-> kfind vs x <> None) by (intro x; unfold defined; destruct (kfind vs x); split; congruence).
  split.
  - intros [G F] x [(gs & g & E & I & V)|(f & I & V)].
    + apply D. unfold gens_of in G. rewrite E in G. specialize (G g I). rewrite forallb_forall in G. exact (G x V).
    + apply D. specialize (F f I). rewrite forallb_forall in F. exact (F x V).
  - intro H. split.
    + intros g I. apply forallb_forall. intros x V. apply D. unfold gens_of in I. destruct (pi_gens B p) as [gs|] eqn:E.
      * apply H. left. exists gs, g. auto.
      * destruct I as [<-|[]]. destruct V.
    + intros f I. apply forallb_forall. intros x V. apply D. apply H. right. exists f. auto.
Qed.

(** C338: a formula with a variable that does not exist is an error before anything is processed, *)
Theorem C338_unknown_variable : forall b0 sm mm p o x, uses p x -> ~ known o x ->
  exists vs, sm2mm b0 sm mm p o = (([], b0), vs, [], Exc).
Proof.
  intros b0 sm mm p o x U NK. exists (vars0 o). unfold SmModel.sm2mm. fold (vars0 o). destruct (realizes B p (vars0 o)) eqn:R; [|reflexivity].
  exfalso. apply NK. apply known_iff. exact (proj1 (realizes_iff p _) R x U).
Qed.
(** and where all variables exist and the requested key-frames are complete, the only errors are those of a generator or of a filter: the
    last thing done is then the call that failed *)
Definition complete_kf (kf : KF) : Prop := k_pose B kf <> None /\ exists sf, k_sf B kf = Some sf /\ ~ In None sf.
Definition may_fail (e : Ev) : Prop := match e with EGen _ _ _ _ h => forall b, h <> Val b | EFilters _ _ => True | EFinal => True end.
Definition failed_at (evs : list Ev) : Prop := exists es e, evs = es ++ [e] /\ may_fail e.
Lemma failed_app a b : failed_at b -> failed_at (a ++ b).
Proof. intros (es & e & -> & F). exists (a ++ es), e. split; [rewrite app_assoc; reflexivity|exact F]. Qed.
Lemma obs_errors p k vs robot : forall sf j s s' evs r, ~ In None sf -> do_obs p k vs robot j sf s = (s', evs, r) -> r <> Val tt -> failed_at evs.
Proof.
  induction sf as [|[o|] sf IH]; intros j s s' evs r NN D NR; cbn [SmModel.do_obs] in D.
  - injection D as <- <- <-. congruence.
  - destruct (apply_generators _ _ _ _ _ _ _ _ _ _ _) as [s2 [h| | |]].
    + destruct h.
      * destruct (run_filters B (pi_filters B p) vs s2) as [s3 [[]| | |]].
        -- destruct (do_obs p k vs robot (S j) sf s3) as [[s4 ev4] r4] eqn:D4. injection D as <- <- <-.
           apply (failed_app [_; _]). apply (IH _ _ _ _ _ (fun I => NN (or_intror I)) D4 NR).
        -- injection D as <- <- <-. exists [EGen k j vs robot (Val true)], (EFilters k j). split; [reflexivity|exact I].
        -- injection D as <- <- <-. exists [EGen k j vs robot (Val true)], (EFilters k j). split; [reflexivity|exact I].
        -- injection D as <- <- <-. exists [EGen k j vs robot (Val true)], (EFilters k j). split; [reflexivity|exact I].
      * destruct (do_obs p k vs robot (S j) sf s2) as [[s4 ev4] r4] eqn:D4. injection D as <- <- <-.
        apply (failed_app [_]). apply (IH _ _ _ _ _ (fun I => NN (or_intror I)) D4 NR).
    + injection D as <- <- <-. exists [], (EGen k j vs robot Exc). split; [reflexivity|]. intros b. discriminate.
    + injection D as <- <- <-. exists [], (EGen k j vs robot Undef). split; [reflexivity|]. intros b. discriminate.
    + injection D as <- <- <-. exists [], (EGen k j vs robot Spin). split; [reflexivity|]. intros b. discriminate.
  - destruct NN. left. reflexivity.
Qed.
Lemma kfs_errors p sm : forall n k vs s s' vs' evs r, (forall x, uses p x -> kfind vs x <> None) ->
  (forall i, k <= i < k + n -> exists kf, nth_error sm i = Some kf /\ complete_kf kf) ->
  do_kfs p sm k n vs s = (s', vs', evs, r) -> r <> Val tt -> failed_at evs.
Proof.
  induction n as [|n IH]; intros k vs s s' vs' evs r U CK D NR; cbn [SmModel.do_kfs] in D.
  - injection D as <- <- <- <-. congruence.
  - destruct (CK k ltac:(lia)) as (kf & Nk & NP & sf & Esf & NN). rewrite Nk in D. unfold SmModel.do_kf in D.
    destruct (k_pose B kf) as [[robot six]|]; [|congruence]. rewrite Esf in D.
    set (vs2 := upd_vars (match k_twist B kf with Some t => upd_vars vs (combine twist_names (six_list t)) | None => vs end) (combine pose_names (six_list six))) in D.
    assert (U2 : forall x, uses p x -> kfind vs2 x <> None).
    { intros x Ux. unfold vs2. apply upd_keeps. destruct (k_twist B kf); [apply upd_keeps|]; exact (U x Ux). }
    rewrite (proj2 (realizes_iff p vs2) U2) in D.
    destruct (do_obs p k vs2 robot 0 sf s) as [[s1 ev1] r1] eqn:D1.
    destruct r1 as [[]| | |].
    + destruct (do_kfs p sm (S k) n vs2 s1) as [[[s3 vs3] ev3] r3] eqn:D3. injection D as <- <- <- <-. apply failed_app.
      apply (IH _ _ _ _ _ _ _ U2) with (2 := D3); [|exact NR]. intros i Hi. apply CK. lia.
    + injection D as <- <- <- <-. exact (obs_errors _ _ _ _ _ _ _ _ _ _ NN D1 NR).
    + injection D as <- <- <- <-. exact (obs_errors _ _ _ _ _ _ _ _ _ _ NN D1 NR).
    + injection D as <- <- <- <-. exact (obs_errors _ _ _ _ _ _ _ _ _ _ NN D1 NR).
Qed.
Theorem C338_errors_come_from_the_pipeline : forall b0 sm mm p o s vs evs r,
  opts_ok o -> (Z.of_nat (List.length sm) < 2 ^ 64)%Z -> (forall x, uses p x -> known o x) ->
  (forall i kf, requested o i = true -> nth_error sm i = Some kf -> complete_kf kf) ->
  sm2mm b0 sm mm p o = (s, vs, evs, r) -> r <> Val tt -> failed_at evs.
Proof.
  intros b0 sm mm p o s vs evs r OK SZ U CK E NR. unfold SmModel.sm2mm in E. fold (vars0 o) in E.
  assert (U0 : forall x, uses p x -> kfind (vars0 o) x <> None) by (intros x Ux; apply known_iff; exact (U x Ux)).
  rewrite (proj2 (realizes_iff p _) U0) in E. pose proof (requested_range B sm o OK SZ) as RR.
  destruct (do_kfs p sm _ _ (vars0 o) ([], b0)) as [[[s1 vs1] ev1] r1] eqn:D.
  assert (CK2 : forall i, Z.to_nat (first_kf o) <= i < Z.to_nat (first_kf o) + Z.to_nat (end_kf o (Z.of_nat (List.length sm)) - first_kf o) -> exists kf, nth_error sm i = Some kf /\ complete_kf kf).
  { intros i Hi. assert (I : In i (filter (requested o) (seq 0 (List.length sm)))) by (rewrite RR; apply in_seq; exact Hi).
    apply filter_In in I as [I R]. apply in_seq in I. destruct (nth_error sm i) as [kf|] eqn:N; [|apply nth_error_None in N; lia].
    exists kf. split; [reflexivity|exact (CK i kf R N)]. }
  destruct r1 as [[]| | |]; try (injection E as <- <- <- <-; exact (kfs_errors p sm _ _ _ _ _ _ _ _ U0 CK2 D NR)).
  destruct (pi_final B p); [injection E as <- <- <- <-; congruence|]. destruct (run_final B _ s1) as [s2 r2]. injection E as <- <- <- <-.
  exists ev1, EFinal. split; [reflexivity|exact I].
Qed.
End SmM.

(** ** A concrete case *)
Definition mx_ob (k : Kind unit) : Ob unit := mkOb unit k "X" "x" 0 (fun l _ => (match l with LPts d => LPts (mkCloud (cl_cls d) (cl_pts d ++ [mkPt 1 2 3 0 0 0])) | l => l end, true)).
Definition mx_gen (v : list string) : Gen := mkGen "raw" None (fun _ => true) (fun _ => true) false true v.
Example mx_other : writable_target [] "raw" /\ skipped unit (mx_gen []) (mx_ob (KRotating unit)) = false.
Proof. split; [split; [discriminate|discriminate]|reflexivity]. Qed.
Example mx_vars : uses unit (mkPipe unit (Some [mx_gen ["zeta"%string]]) [] []) "zeta" /\ ~ known (mkOpts None None []) "zeta" /\
  known (mkOpts None None [("zeta"%string, 1%Q)]) "zeta" /\ complete_kf unit (sx_kf 1 None [Some (sx_cloud 1)]).
Proof.
  split; [left; do 2 eexists; split; [reflexivity|split; [left; reflexivity|left; reflexivity]]|]. split; [|split].
  - unfold known. cbn. intuition discriminate.
  - right. right. left. reflexivity.
  - split; [discriminate|]. eexists. split; [reflexivity|]. intros [X|[]]; discriminate.
Qed.
