(** C290-C299: what the configuration of filters does. *)
From Coq Require Import String Reals Qreals Qround.
From Verif Require Import Base ConfigModel ConfigSpec FilterModel FilterSpec FilterProps VoxelModel CurvModel QuadModel EdgesModel.
From Verif Require Import InitModel InitSpec InitProofs FInitModel FInitSpec FInitProofs.
From Verif Require GenInitModel PoleModel FMergeModel DeskewModel.
Open Scope string_scope.
Open Scope list_scope.

#[local] Arguments Given : simpl never.
#[local] Arguments GivenOr : simpl never.
#[local] Arguments GivenSome : simpl never.
#[local] Arguments Values : simpl never.
#[local] Arguments Formulas : simpl never.
#[local] Arguments lreq : simpl never.
#[local] Arguments lopt : simpl never.
#[local] Arguments lseq : simpl never.
#[local] Arguments lst : simpl never.
#[local] Arguments lassert : simpl never.
#[local] Arguments freq : simpl never.
#[local] Arguments fopt : simpl never.
#[local] Arguments fdecls : simpl never.
#[local] Arguments lnames : simpl never.
#[local] Arguments yfind : simpl never.
#[local] Arguments one_output : simpl never.
#[local] Arguments app : simpl never.

(** forwards *)
Ltac sq H o E := apply lseq_iff in H; destruct H as (o & E & H).
Ltac rq H a := apply lreq_iff in H; destruct H as (a & ?G & ->); cbn in *.
Ltac op H g a := apply (lopt_iff _ _ _ _ g) in H; [destruct H as (a & ?G & ->); cbn in *|reflexivity].
Ltac asr H := apply lassert_iff in H; destruct H as (?G & ->); cbn in *.
Ltac ss H := apply lst_iff in H; destruct H as (? & H & ->).
Ltac fq H t := apply freq_iff in H; destruct H as (t & ?G & ->); cbn in *.
(** backwards *)
Ltac bsq := apply lseq_iff; eexists; split.
Ltac bst := apply lst_iff; eexists; split; [|reflexivity].
Ltac brq a := apply lreq_iff; exists a; split; [eassumption|reflexivity].
Ltac bop g a := apply (lopt_iff _ _ _ _ g); [reflexivity|]; exists a; split; [eassumption|reflexivity].
Ltac bas := apply lassert_iff; split; [cbn; try eassumption|reflexivity].
Ltac bfq t := apply freq_iff; exists t; split; [eassumption|reflexivity].

Section FInitP.
  Variables (as_bool : yml -> option bool) (as_str : yml -> option string) (as_num : yml -> option Q)
            (as_nat : yml -> option nat) (as_int : yml -> option Z) (as_dm : yml -> option DMethod) (as_tm : yml -> option TMethod).
  Notation Cfg := (list (string * yml)).

  Lemma flatten_iff (m : Cfg) (o o' : DecSt) :
    lopt as_num m "flatten_to" (fun a o => mkDS (ds_ins o) (ds_err o) (ds_out o) (ds_method o) (ds_min o) (ds_robin o) (Some a) (ds_grid o)) o = (o', true) <->
    exists f, GivenSome as_num m "flatten_to" (ds_flatten o) f /\ o' = mkDS (ds_ins o) (ds_err o) (ds_out o) (ds_method o) (ds_min o) (ds_robin o) f (ds_grid o).
  Proof.
    unfold lopt, GivenSome, Given. split.
    - destruct (yfind m "flatten_to") as [v|].
      + destruct (as_num v) as [a|] eqn:C; [|discriminate]. intros E. injection E as <-. exists (Some a). split; [|reflexivity]. right. exists a. eauto.
      + intros E. injection E as <-. exists (ds_flatten o). split; [auto|]. destruct o; reflexivity.
    - intros (f & [[Y ->]|(a & (v & Y & C) & ->)] & ->); rewrite Y; [destruct o; reflexivity|]. rewrite C. reflexivity.
  Qed.

  (** C290: FilterDecimateVoxels accepts a configuration exactly if the required entries are there and readable and at
      least one input layer is given; then every parameter is as configured (the input layers in the order given), and
      the grid that exists is the one the method needs. *)
  Theorem C290_decimate_as_configured : forall m (o o' : FO DecSt),
    dec_load as_bool as_str as_num as_nat as_dm m o = (o', true) <-> LoadedDec as_bool as_str as_num as_nat as_dm m o o'.
  Proof.
    intros m o o'. unfold LoadedDec, dec_load, dec_params. destruct o as [[i e u me mi ro fl gr] fs]. split.
    - intros H. sq H o1 HP. sq HP o2 E. ss E. apply lnames_iff in E; [|reflexivity]. destruct E as (ns & V & NE & ->). cbn in HP.
      sq HP o2 E. ss E. op E ds_err a1. sq HP o2 E. ss E. rq E a2. sq HP o2 E. ss E. rq E a3. sq HP o2 E. ss E. op E ds_min a4.
      sq HP o2 E. fq E t. sq HP o2 E. ss E. op E ds_robin a5. ss HP. apply flatten_iff in HP. destruct HP as (f & GF & ->). cbn in *.
      ss H. injection H as <-. cbn. do 6 (split; [assumption|]). split; [exists t; auto|]. do 2 (split; [assumption|]).
      destruct a2; cbn; split; split; intros X; congruence.
    - destruct o' as [[i' e' u' me' mi' ro' fl' gr'] fs']. cbn. intros (V & NE & A1 & A2 & A3 & A4 & (t & A5 & ->) & A6 & A7 & [B1 B2] & [B3 B4]).
      assert (G : gr' = Some (match me' with FirstPoint => true | _ => false end)).
      { destruct me'; [apply B2; reflexivity|apply B4; discriminate..]. } subst gr'.
      apply lseq_iff. exists (mkFO (mkDS i' e' u' me' mi' ro' fl' gr) (fs ++ [("voxel_filter_resolution", Some t)])). split; [|bst; reflexivity].
      bsq; [bst; apply lnames_iff; [reflexivity|]; exists i'; split; [exact V|split; [exact NE|reflexivity]]|]. cbn.
      bsq; [bst; bop ds_err e'|]. cbn. bsq; [bst; brq me'|]. cbn. bsq; [bst; brq u'|]. cbn. bsq; [bst; bop ds_min mi'|]. cbn.
      bsq; [bfq t|]. cbn. bsq; [bst; bop ds_robin ro'|]. cbn. bst. apply flatten_iff. exists fl'. split; [exact A7|reflexivity].
  Qed.

  (** C290: the same for FilterDeleteLayer. *)
  Theorem C290_delete_as_configured : forall m (o o' : DelSt), del_load as_bool as_str m o = (o', true) <-> LoadedDel as_bool as_str m o o'.
  Proof.
    intros m o o'. unfold LoadedDel, del_load. destruct o as [ns er]. split.
    - intros H. sq H o1 E. apply lnames_iff in E; [|reflexivity]. destruct E as (l & V & NE & ->). op H dl_err a1. auto.
    - destruct o' as [ns' er']. cbn. intros (V & NE & A). bsq; [apply lnames_iff; [reflexivity|]; exists ns'; split; [exact V|split; [exact NE|reflexivity]]|].
      cbn. bop dl_err er'.
  Qed.

  (** C290, configuration to effect: the layers listed are gone after filtering, and no other layer is touched. *)
  Theorem C290_listed_layers_are_deleted : forall m (o o' : DelSt) names mp mp',
    del_load as_bool as_str m o = (o', true) -> Values as_str m "pointcloud_layer_to_remove" names ->
    filter_delete (dl_names o') (dl_err o') mp = (mp', Val tt) ->
    (forall n, In n names -> lfind mp' n = None) /\ (forall n, ~ In n names -> lfind mp' n = lfind mp n).
  Proof.
    intros m o o' names mp mp' H V F. apply C290_delete_as_configured in H. destruct H as (V' & _ & _).
    pose proof (values_unique _ _ _ _ _ V' V) as EQ.
    subst names. split; [|intros n NI; exact (C45_others_untouched _ _ _ _ _ n F NI)].
    generalize (dl_names o') F. clear. intros ns. revert mp. induction ns as [|n0 ns IH]; intros mp F n I; [destruct I|].
    cbn [filter_delete] in F. destruct (_ && _) in F; [discriminate F|].
    destruct (in_dec String.string_dec n ns) as [J|J]; [exact (IH _ F n J)|]. destruct I as [->|I]; [|contradiction].
    rewrite (C45_others_untouched _ _ _ _ _ n F J). clear. induction mp as [|[k v] mp IH]; [reflexivity|]. cbn [ldel].
    destruct (String.eqb_spec k n) as [->|NE]; [exact IH|]. cbn [lfind]. destruct (String.eqb_spec k n); [contradiction|exact IH].
  Qed.

  (** ** C291: a rejected configuration and the grids *)
  (** what a rejected configuration leaves: the grid is the old one *)
  Lemma dec_rejected_grid m (o o' : FO DecSt) : dec_load as_bool as_str as_num as_nat as_dm m o = (o', false) -> ds_grid (fo_st o') = ds_grid (fo_st o).
  Proof.
    assert (PART : forall f : Load DecSt, (forall a, ds_grid (fst (f a)) = ds_grid a) -> forall a : FO DecSt, ds_grid (fo_st (fst (lst f a))) = ds_grid (fo_st a)).
    { intros f Hf a. unfold lst, lpart. specialize (Hf (fo_st a)). destruct (f (fo_st a)). exact Hf. }
    assert (SEQ : forall f g : Load (FO DecSt), (forall a, ds_grid (fo_st (fst (f a))) = ds_grid (fo_st a)) -> (forall a, ds_grid (fo_st (fst (g a))) = ds_grid (fo_st a)) ->
              forall a, ds_grid (fo_st (fst (lseq f g a))) = ds_grid (fo_st a)).
    { intros f g Hf Hg a. unfold lseq. specialize (Hf a). destruct (f a) as [b [|]]; [rewrite Hg; exact Hf|exact Hf]. }
    assert (PAR : forall a, ds_grid (fo_st (fst (dec_params as_bool as_str as_num as_nat as_dm m a))) = ds_grid (fo_st a)).
    { unfold dec_params. repeat apply SEQ; try (apply PART; intros a; unfold lopt, lreq; destruct (yfind _ _) as [v|]; [|reflexivity];
        match goal with |- context[match ?c v with _ => _ end] => destruct (c v); reflexivity end).
      - apply PART. intros a. unfold lnames, lseq. destruct (yfind _ _) as [y|]; [|reflexivity]. destruct (names_of as_str y) as [ns [|]]; reflexivity.
      - intros a. unfold freq, lreq. destruct (yfind _ _) as [v|]; [|reflexivity]. destruct (as_str v); reflexivity. }
    intros H. unfold dec_load, lseq in H. specialize (PAR o). destruct (dec_params _ _ _ _ _ m o) as [a [|]].
    - unfold lst, lpart in H. discriminate H.
    - injection H as <-. exact PAR.
  Qed.

  (** C291, exactly when the filter stays usable: the grid it needs is still there if and only if the method, as the
      rejected configuration left it, is of the same kind (FirstPoint or not). *)
  Theorem C291_rejected_configuration_where : forall m (o o' : FO DecSt), grid_there (fo_st o) = true ->
    dec_load as_bool as_str as_num as_nat as_dm m o = (o', false) ->
    (grid_there (fo_st o') = true <-> (ds_method (fo_st o') = FirstPoint <-> ds_method (fo_st o) = FirstPoint)).
  Proof.
    intros m o o' G H. unfold grid_there in *. rewrite (dec_rejected_grid _ _ _ H). destruct (ds_grid (fo_st o)) as [b|]; [|discriminate G].
    apply Bool.eqb_prop in G. subst b. rewrite Bool.eqb_true_iff, eq_iff_eq_true, !single_iff. tauto.
  Qed.

  (** without its grid, no call of filter() succeeds *)
  Lemma no_grid_no_filter (o : FO DecSt) mem realized ords ordm rnd sg mg mp mp' :
    grid_there (fo_st o) = false -> dec_filter o mem realized ords ordm rnd sg mg mp <> (mp', Val tt).
  Proof.
    intros G. unfold dec_filter. rewrite G. unfold bnd. destruct (massert _ mp) as [m1 [?| | |]]; try discriminate.
    destruct (collect _ _ m1) as [m2 [[|s0 srcs]| | |]]; try discriminate. cbn [de_out dec_of]. unfold throw.
    destruct (massert _ m2) as [m3 [?| | |]]; try discriminate. destruct (get_or_create _ _ _ m3) as [m4 [?| | |]]; try discriminate.
    destruct (_ <? _)%nat; [destruct (pass_small _ _ m4) as [m5 [?| | |]]; discriminate|]. unfold ret. discriminate.
  Qed.

  (** C291: a filter that was ready is of no use after a configuration that was rejected: if the configuration changes
      the method between FirstPoint and another and has no output layer, initialize() throws, and from then on
      every call of filter() fails, whatever the map, though the first configuration was accepted. *)
  Theorem C291_rejected_configuration_refuted : forall m (o : FO DecSt) ns me,
    grid_there (fo_st o) = true -> Values as_str m "input_pointcloud_layer" ns -> ns <> [] -> yfind m "error_on_missing_input_layer" = None ->
    Given as_dm m "decimate_method" me -> (me = FirstPoint <-> ds_method (fo_st o) <> FirstPoint) -> yfind m "output_pointcloud_layer" = None ->
    exists o', dec_load as_bool as_str as_num as_nat as_dm m o = (o', false)
      /\ forall mem realized ords ordm rnd sg mg mp mp', dec_filter o' mem realized ords ordm rnd sg mg mp <> (mp', Val tt).
  Proof.
    intros m o ns me G V NE Y1 (v & Y2 & C2) D Y3.
    exists (mkFO (mkDS ns (ds_err (fo_st o)) (ds_out (fo_st o)) me (ds_min (fo_st o)) (ds_robin (fo_st o)) (ds_flatten (fo_st o)) (ds_grid (fo_st o))) (fo_forms o)).
    split.
    - assert (L : lst (lnames as_str m "input_pointcloud_layer" ds_ins (fun a o => mkDS a (ds_err o) (ds_out o) (ds_method o) (ds_min o) (ds_robin o) (ds_flatten o) (ds_grid o))) o =
        (mkFO (mkDS ns (ds_err (fo_st o)) (ds_out (fo_st o)) (ds_method (fo_st o)) (ds_min (fo_st o)) (ds_robin (fo_st o)) (ds_flatten (fo_st o)) (ds_grid (fo_st o))) (fo_forms o), true)).
      { bst. apply lnames_iff; [reflexivity|]. exists ns. auto. }
      unfold dec_load, dec_params, lseq at 1 2. rewrite L. unfold lseq, lst, lpart, lopt, lreq. cbn [fo_st fo_forms]. rewrite Y1, Y2, C2, Y3. reflexivity.
    - intros. apply no_grid_no_filter. unfold grid_there in *. cbn [fo_st ds_grid]. destruct (ds_grid (fo_st o)) as [b|]; [|reflexivity].
      apply Bool.eqb_prop in G. subst b. apply Bool.eqb_false_iff. rewrite eq_iff_eq_true, !single_iff. cbn [ds_method].
      destruct (ds_method (fo_st o)); destruct D as [D1 D2]; intros [X1 X2]; try (apply D1; [apply X1; reflexivity|reflexivity]);
        (assert (Q : me = FirstPoint) by (apply D2; discriminate)); specialize (X2 Q); discriminate X2.
  Qed.

  (** ** C292: FilterByRing *)
  (** C292: accepted exactly if the input layer and at least one ring are given, the optional names being those of the
      configuration or as before; the set of rings has exactly those listed. *)
  Theorem C292_ring_as_configured : forall m (o o' : RingCfg),
    ring_load as_str as_int m o = (o', true) -> exists ids, LoadedRing as_str as_int m ids o o'.
  Proof.
    intros m o o' H. unfold ring_load in H. destruct o as [i s n r]. sq H o1 E. rq E a1. sq H o1 E. op E ri_sel a2. sq H o1 E. op E ri_non a3.
    sq H o1 E. asr H. destruct (yfind m "selected_ring_ids") as [y|] eqn:Y; [|discriminate E].
    destruct (rings_of as_int y) as [ns ok] eqn:R. injection E as <- ->. apply (rings_of_fwd as_str) in R. destruct R as (ids & V & N & I).
    exists ids. unfold LoadedRing, ring_set, ring_accepts in *. cbn in *. do 3 (split; [assumption|]). split; [exists y; split; [exact Y|exact V]|].
    split; [intros ->; destruct ns as [|z ns]; [discriminate|apply (I z); left; reflexivity]|]. split; [exact N|exact I].
  Qed.
  Theorem C292_ring_accepts : forall m ids (o n : RingCfg), LoadedRing as_str as_int m ids o n ->
    exists o', ring_load as_str as_int m o = (o', true).
  Proof.
    intros m ids o n (A1 & A2 & A3 & (y & Y & V) & NE & _). apply (rings_of_bwd as_str) in V. destruct V as (ns & R & _ & I). destruct o as [i s nn r], n as [i' s' n' r']. cbn in *.
    exists (mkRi i' s' n' ns). unfold ring_load. bsq; [brq i'|]. cbn. bsq; [bop ri_sel s'|]. cbn. bsq; [bop ri_non n'|]. cbn.
    bsq; [rewrite Y, R; reflexivity|]. bas. unfold ring_accepts. cbn. destruct ns as [|z ns]; [|reflexivity].
    destruct ids as [|z ids]; [contradiction|]. exfalso. apply (I z). left. reflexivity.
  Qed.

  (** C292, configuration to effect: with an output layer and a cloud that has rings, the points of the listed rings go
      to the one layer and the others to the other. *)
  Theorem C292_listed_rings_are_selected : forall m (o o' : RingCfg) ids mp src,
    ring_load as_str as_int m o = (o', true) -> Values as_int m "selected_ring_ids" ids ->
    lfind mp (ri_in o') = Some (LPts src) -> wf_cloud src -> has_R (cl_cls src) = true -> cl_pts src <> [] ->
    usable mp (ri_sel o') -> usable mp (ri_non o') -> (ri_sel o' <> "" \/ ri_non o' <> "") ->
    exists mp' dest, filter_ring o' mp = (mp', Val tt) /\ Routed mp mp' src dest [ri_sel o'; ri_non o']
      /\ (forall p, In (p_ring p) ids -> dest p = ri_sel o') /\ (forall p, ~ In (p_ring p) ids -> dest p = ri_non o').
  Proof.
    intros m o o' ids mp src H V L W HR NE U1 U2 O. destruct (C292_ring_as_configured _ _ _ H) as (ids' & (_ & _ & _ & V' & _ & _ & I)).
    pose proof (values_unique _ _ _ _ _ V' V) as EQ.
    subst ids'. destruct (C41_ring_routes o' mp src L W HR NE U1 U2 O) as (mp' & F & dest & R & D1 & D2). exists mp', dest.
    split; [exact F|]. split; [exact R|]. split; intros p J; [apply D1, I, J|apply D2]. intros K. apply J, I, K.
  Qed.

  (** ** C293: FilterBoundingBox *)
  Lemma seq3_some (m : Cfg) k a b c : seq3 m k = Some (a, b, c) <-> yfind m k = Some (YSeq [a; b; c]).
  Proof.
    unfold seq3. split.
    - destruct (yfind m k) as [[| | | |l|]|]; try discriminate. destruct l as [|x [|y [|z [|]]]]; try discriminate. intros E. injection E as -> -> ->. reflexivity.
    - intros ->. reflexivity.
  Qed.
  (** C293: accepted exactly if an output layer is named and both corners are sequences of three formulas; the
      formulas are those of the six coordinates. *)
  Theorem C293_box_as_configured : forall m (o o' : FO BoxSt), box_load as_str m o = (o', true) <-> LoadedBox as_str m o o'.
  Proof.
    intros m o o'. unfold LoadedBox, box_load. destruct o as [[i u v] fs]. split.
    - intros H. sq H o1 E. ss E. op E bx_in a1. sq H o1 E. ss E. op E bx_inside a2. sq H o1 E. ss E. op E bx_outside a3.
      sq H o1 E. ss E. asr E. destruct (seq3 m "bounding_box_min") as [[[a b] c]|] eqn:S1; [|discriminate H].
      destruct (seq3 m "bounding_box_max") as [[[x y] z]|] eqn:S2; [|discriminate H].
      apply seq3_some in S1, S2. apply fdecls_iff in H. destruct H as (ts & F & ->). cbn [map snd] in F.
      do 6 (inversion F as [|? ? ? ? ? F']; subst; clear F; rename F' into F). inversion F; subst. clear F. cbn in *.
      do 3 (split; [assumption|]). split; [apply one_output_iff; assumption|]. do 6 eexists. split; [|split; [|reflexivity]].
      + eexists. split; [exact S1|]. auto.
      + eexists. split; [exact S2|]. auto.
    - destruct o' as [[i' u' v'] fs']. cbn. intros (A1 & A2 & A3 & A4 & x0 & y0 & z0 & x1 & y1 & z1 & (ys & Y & F) & (zs & Z & G) & ->).
      apply forall2_3 in F, G. destruct F as (a & b & c & -> & Ca & Cb & Cc), G as (a' & b' & c' & -> & Ca' & Cb' & Cc').
      bsq; [bst; bop bx_in i'|]. cbn. bsq; [bst; bop bx_inside u'|]. cbn. bsq; [bst; bop bx_outside v'|]. cbn.
      bsq; [bst; bas; apply one_output_iff; exact A4|]. cbn. apply seq3_some in Y, Z. rewrite Y, Z. apply fdecls_iff.
      exists [x0; x1; y0; y1; z0; z1]. split; [cbn; auto 8|reflexivity].
  Qed.

  (** C293, configuration to effect: after the first initialize(), the formulas having been evaluated, the points inside the box
      given by the configuration go to the one layer and the others to the other. *)
  Theorem C293_configured_box_selects : forall m o value mem x0 y0 z0 x1 y1 z1 mp src,
    box_load as_str m box0 = (o, true) -> Formulas as_str m "bounding_box_min" [x0; y0; z0] -> Formulas as_str m "bounding_box_max" [x1; y1; z1] ->
    Evaluated value (fo_forms o) mem ->
    let c := box_of o mem true in
    lfind mp (bb_in c) = Some (LPts src) -> wf_cloud src -> usable mp (bb_inside c) -> usable mp (bb_outside c) ->
    bb_in c <> bb_inside c -> bb_in c <> bb_outside c ->
    exists mp' dest, (forall fuel, (List.length (cl_pts src) <= fuel)%nat -> filter_bbox fuel c mp = (mp', Val tt))
      /\ Routed mp mp' src dest [bb_inside c; bb_outside c]
      /\ forall p, let inside := (value x0 <= px p <= value x1 /\ value y0 <= py p <= value y1 /\ value z0 <= pz p <= value z1)%Q in
         (inside -> dest p = bb_inside c) /\ (~ inside -> dest p = bb_outside c).
  Proof.
    intros m o value mem x0 y0 z0 x1 y1 z1 mp src H F1 F2 EV c L W U1 U2 N1 N2. apply C293_box_as_configured in H.
    destruct H as (_ & _ & _ & _ & a & b & d & a' & b' & d' & G1 & G2 & FO).
    pose proof (formulas_unique _ _ _ _ _ F1 G1) as E1. pose proof (formulas_unique _ _ _ _ _ F2 G2) as E2. injection E1 as <- <- <-. injection E2 as <- <- <-.
    assert (IN : forall k t, In (k, Some t) (fo_forms o) -> mem k = value t) by exact EV. rewrite FO in IN.
    destruct (C40_bounding_box_routes c mp src L W U1 U2 N1 N2) as (mp' & RUN & dest & R & D1 & D2). exists mp', dest. split; [exact RUN|]. split; [exact R|].
    intros p inside.
    assert (Q : inside <-> InsideBox c p).
    { unfold inside, InsideBox, c, box_of. cbn [bb_min bb_max].
      rewrite (IN "min[0]" x0), (IN "min[1]" y0), (IN "min[2]" z0), (IN "max[0]" x1), (IN "max[1]" y1), (IN "max[2]" z1); [tauto|..]; apply in_app_iff; right; cbn; auto 10. }
    split; intros I; [apply D1, Q, I|apply D2]. intros J. apply I, Q, J.
  Qed.

  (** ** C294: FilterByRange *)
  (** C294: accepted exactly if the input layer, both ranges and an output layer are given, the center being three
      formulas when it is there; every parameter is then as configured. *)
  Theorem C294_range_as_configured : forall m (o o' : FO RngSt), rng_load as_str m o = (o', true) <-> LoadedRange as_str m o o'.
  Proof.
    intros m o o'. unfold LoadedRange, rng_load. destruct o as [[i u v] fs]. split.
    - intros H. sq H o1 E. ss E. rq E a1. sq H o1 E. ss E. op E rn_between a2. sq H o1 E. ss E. op E rn_outside a3.
      sq H o1 E. fq E lo. sq H o1 E. fq E hi. sq H o1 E. ss E. asr E.
      do 3 (split; [destruct (yfind m "center") as [[| | | |[|? [|? [|? [|]]]]|]|]; try discriminate H; try (apply fdecls_iff in H; destruct H as (ts & F & ->)); try (injection H as <-); assumption|]).
      split; [apply one_output_iff; destruct (yfind m "center") as [[| | | |[|? [|? [|? [|]]]]|]|]; try discriminate H; try (apply fdecls_iff in H; destruct H as (ts & F & ->)); try (injection H as <-); assumption|].
      exists lo, hi. destruct (yfind m "center") as [y|] eqn:Y.
      + destruct y as [| | | |[|a [|b [|c [|]]]]|]; try discriminate H. apply fdecls_iff in H. destruct H as (ts & F & ->). cbn [map snd] in F.
        do 3 (inversion F as [|? ? ? ? ? F']; subst; clear F; rename F' into F). inversion F; subst. clear F. cbn.
        eexists. do 2 (split; [eassumption|]). split; [right; do 3 eexists; split; [exists [a; b; c]; split; [exact Y|repeat (constructor; try eassumption)]|reflexivity]|].
        rewrite <- !app_assoc. reflexivity.
      + injection H as <-. exists []. do 2 (split; [assumption|]). split; [left; auto|]. cbn. rewrite <- !app_assoc. reflexivity.
    - destruct o' as [[i' u' v'] fs']. cbn. intros (A1 & A2 & A3 & A4 & lo & hi & ce & A5 & A6 & A7 & ->).
      bsq; [bst; brq i'|]. cbn. bsq; [bst; bop rn_between u'|]. cbn. bsq; [bst; bop rn_outside v'|]. cbn.
      bsq; [bfq lo|]. cbn. bsq; [bfq hi|]. cbn. bsq; [bst; bas; apply one_output_iff; exact A4|]. cbn.
      destruct A7 as [[Y ->]|(x & y & z & (ys & Y & F) & ->)]; rewrite Y.
      + unfold lskip. rewrite <- !app_assoc. reflexivity.
      + apply forall2_3 in F. destruct F as (a & b & c & -> & Ca & Cb & Cc). apply fdecls_iff. exists [x; y; z]. split; [cbn; auto|].
        cbn. rewrite <- !app_assoc. reflexivity.
  Qed.

  (** C294, configuration to effect: after the first initialize(), the formulas having been evaluated, the points at a
      distance of the configured center within the configured ranges go to the one layer and the others to the other. *)
  Theorem C294_configured_range_selects : forall m o value mem lo hi cx cy cz mp src,
    rng_load as_str m rng0 = (o, true) -> Given as_str m "range_min" lo -> Given as_str m "range_max" hi ->
    Evaluated value (fo_forms o) mem ->
    (Formulas as_str m "center" [cx; cy; cz] \/ (yfind m "center" = None /\ mem "center[0]" = value cx /\ mem "center[1]" = value cy /\ mem "center[2]" = value cz)) ->
    let c := rng_of o mem true in
    (0 <= value lo)%Q -> (0 <= value hi)%Q ->
    lfind mp (rg_in c) = Some (LPts src) -> wf_cloud src -> usable mp (rg_between c) -> usable mp (rg_outside c) ->
    rg_in c <> rg_between c -> rg_in c <> rg_outside c ->
    exists mp' dest, (forall fuel, (List.length (cl_pts src) <= fuel)%nat -> filter_range fuel c mp = (mp', Val tt))
      /\ Routed mp mp' src dest [rg_between c; rg_outside c]
      /\ forall p, let dx := (px p - value cx)%Q in let dy := (py p - value cy)%Q in let dz := (pz p - value cz)%Q in
         let between := (Q2R (value lo) <= sqrt (Q2R (dx * dx + dy * dy + dz * dz)) <= Q2R (value hi))%R in
         (between -> dest p = rg_between c) /\ (~ between -> dest p = rg_outside c).
  Proof.
    intros m o value mem lo hi cx cy cz mp src H G1 G2 EV CE c P1 P2 L W U1 U2 N1 N2. apply C294_range_as_configured in H.
    destruct H as (_ & _ & _ & _ & lo' & hi' & ce & H1 & H2 & H3 & FO).
    rewrite <- (given_unique _ _ _ _ _ G1 H1), <- (given_unique _ _ _ _ _ G2 H2) in FO.
    assert (IN : forall k t, In (k, Some t) (fo_forms o) -> mem k = value t) by exact EV. rewrite FO in IN.
    assert (E1 : mem "range_min" = value lo) by (apply IN; rewrite !in_app_iff; cbn; auto 10).
    assert (E2 : mem "range_max" = value hi) by (apply IN; rewrite !in_app_iff; cbn; auto 10).
    assert (E3 : mem "center[0]" = value cx /\ mem "center[1]" = value cy /\ mem "center[2]" = value cz).
    { destruct CE as [F|(_ & X)]; [|exact X]. destruct H3 as [[Y _]|(x & y & z & F' & ->)].
      - destruct F as (ys & Y' & _). congruence.
      - pose proof (formulas_unique _ _ _ _ _ F F') as E. injection E as <- <- <-. repeat split; apply IN; rewrite !in_app_iff; cbn; auto 12. }
    destruct E3 as (E3 & E4 & E5).
    destruct (C41_range_routes c mp src) as (mp' & RUN & dest & R & D1 & D2); try assumption; [unfold c, rng_of; cbn; rewrite ?E1, ?E2; assumption..|reflexivity|].
    exists mp', dest. split; [exact RUN|]. split; [exact R|]. intros p dx dy dz between.
    assert (Q : between <-> BetweenRange c p).
    { unfold between, BetweenRange, c, rng_of. cbn [rg_min rg_max rg_center]. rewrite E1, E2, E3, E4, E5. reflexivity. }
    split; intros I; [apply D1, Q, I|apply D2]. intros J. apply I, Q, J.
  Qed.

  (** ** C295: initialising again *)
  (** what a loader leaves true *)
  Definition Keeps {O} (P : O -> Prop) (f : Load O) : Prop := forall o, P o -> P (fst (f o)).
  Lemma keeps_seq {O} (P : O -> Prop) f g : Keeps P f -> Keeps P g -> Keeps P (lseq f g).
  Proof. intros F G o H. unfold lseq. specialize (F o H). destruct (f o) as [a [|]]; [exact (G _ F)|exact F]. Qed.
  Lemma keeps_st {S} (P : S -> Prop) f : Keeps P f -> Keeps (fun o => P (fo_st o)) (lst f).
  Proof. intros F o H. unfold lst, lpart. specialize (F _ H). destruct (f (fo_st o)). exact F. Qed.
  Lemma keeps_opt {O A} (P : O -> Prop) (conv : yml -> option A) m k set : (forall a o, P o -> P (set a o)) -> Keeps P (lopt conv m k set).
  Proof. intros F o H. unfold lopt. destruct (yfind m k) as [v|]; [destruct (conv v); [apply F|]|]; exact H. Qed.
  Lemma keeps_req {O A} (P : O -> Prop) (conv : yml -> option A) m k set : (forall a o, P o -> P (set a o)) -> Keeps P (lreq conv m k set).
  Proof. intros F o H. unfold lreq. destruct (yfind m k) as [v|]; [destruct (conv v); [apply F|]|]; exact H. Qed.
  Lemma keeps_freq {S} (P : S -> Prop) m k : Keeps (fun o => P (fo_st o)) (freq as_str m k).
  Proof. apply keeps_req. intros a o H. exact H. Qed.
  Lemma keeps_decls {S} (P : S -> Prop) l : Keeps (fun o => P (fo_st o)) (fdecls as_str l).
  Proof.
    induction l as [|[c y] l IH]; [intros o H; exact H|]. cbn [fdecls]. apply keeps_seq; [|exact IH]. intros o H. destruct (as_str y); exact H.
  Qed.
  Lemma keeps_names {S} (P : S -> Prop) m k get set : (forall a o, P o -> P (set a o)) -> Keeps P (lnames as_str m k get set).
  Proof.
    intros F. apply keeps_seq.
    - intros o H. destruct (yfind m k) as [y|]; [|exact H]. destruct (names_of as_str y). apply F. exact H.
    - intros o H. exact H.
  Qed.

  (** C295: whatever the next configuration, and whether it is accepted or not, FilterDecimateVoxels goes on flattening
      the points once it has been told to. *)
  Theorem C295_flattening_is_never_switched_off_refuted : forall m (o o' : FO DecSt) r, ds_flatten (fo_st o) <> None ->
    dec_load as_bool as_str as_num as_nat as_dm m o = (o', r) -> ds_flatten (fo_st o') <> None.
  Proof.
    intros m o o' r H E.
    assert (K : Keeps (fun o => ds_flatten (fo_st o) <> None) (dec_load as_bool as_str as_num as_nat as_dm m)).
    { set (Q := fun s => ds_flatten s <> None). unfold dec_load, dec_params. repeat apply keeps_seq;
        try (apply (keeps_st Q); apply keeps_names; intros; assumption); try (apply (keeps_st Q); apply keeps_opt; intros ? ? X; try exact X; discriminate);
        try (apply (keeps_st Q); apply keeps_req; intros; assumption).
      - apply (keeps_freq Q).
      - apply (keeps_st Q). intros s X. exact X. }
    specialize (K o H). rewrite E in K. exact K.
  Qed.

  (** C295: nor does any configuration take the constant twist from a FilterDeskew. *)
  Theorem C295_twist_is_never_removed_refuted : forall m (o o' : FO DskSt) r, dw_twist (fo_st o) = true ->
    dsk_load as_bool as_str m o = (o', r) -> dw_twist (fo_st o') = true.
  Proof.
    intros m o o' r H E.
    assert (K : Keeps (fun o => dw_twist (fo_st o) = true) (dsk_load as_bool as_str m)).
    { set (Q := fun s => dw_twist s = true). unfold dsk_load. repeat apply keeps_seq;
        try (apply (keeps_st Q); apply keeps_opt; intros; assumption); try (apply (keeps_st Q); apply keeps_req; intros; assumption).
      destruct (yfind m "twist") as [y|]; [|intros ? X; exact X]. apply keeps_seq; [apply (keeps_st Q); intros ? X; reflexivity|].
      destruct y as [| | | |l|]; try (intros ? X; exact X). destruct l as [|? [|? [|? [|? [|? [|? [|]]]]]]]; try (intros ? X; exact X). apply (keeps_decls Q). }
    specialize (K o H). rewrite E in K. exact K.
  Qed.

  (** C295: nor the center from a FilterByRange: its formulas are still there, the only ones for the center. *)
  Theorem C295_center_stays_refuted : forall m (o o' : FO RngSt), rng_load as_str m o = (o', true) -> yfind m "center" = None ->
    forall k, In k ["center[0]"; "center[1]"; "center[2]"] -> forall t, In (k, t) (fo_forms o') <-> In (k, t) (fo_forms o).
  Proof.
    intros m o o' H Y k K t. apply C294_range_as_configured in H. destruct H as (_ & _ & _ & _ & lo & hi & ce & _ & _ & [[_ ->]|(x & y & z & (ys & Y' & _) & _)] & ->); [|congruence].
    rewrite !in_app_iff. split; [|tauto]. intros [X|[X|X]]; [exact X| |destruct X].
    exfalso. destruct X as [X|[X|[]]]; injection X as X _; subst k; cbn in K; destruct K as [K|[K|[K|[]]]]; discriminate K.
  Qed.

  Lemma given_or_same {A} (conv : yml -> option A) (m : Cfg) k a b x y : GivenOr conv m k a x -> GivenOr conv m k b y ->
    (x = y <-> yfind m k <> None \/ a = b).
  Proof.
    unfold GivenOr. intros [[Y ->]|(v & Y & C)] [[Y' ->]|(v' & Y' & C')].
    - split; [auto|]. intros [X | ->]; [contradiction|reflexivity].
    - congruence.
    - congruence.
    - assert (x = y) by congruence. subst y. split; [intros _; left; congruence|reflexivity].
  Qed.
  Lemma given_some_same {A} (conv : yml -> option A) (m : Cfg) k a b x y : GivenSome conv m k a x -> GivenSome conv m k b y ->
    (x = y <-> yfind m k <> None \/ a = b).
  Proof.
    unfold GivenSome, Given. intros [[Y ->]|(u & (v & Y & C) & ->)] [[Y' ->]|(u' & (v' & Y' & C') & ->)].
    - split; [auto|]. intros [X | ->]; [contradiction|reflexivity].
    - congruence.
    - congruence.
    - assert (u = u') by congruence. subst u'. split; [intros _; left; congruence|reflexivity].
  Qed.

  (** C295, exactly when initialising again gives the state of a new filter: every optional entry is given, or the
      value in place is still the default. *)
  Theorem C295_decimate_again_where : forall m (o o1 o2 : FO DecSt),
    dec_load as_bool as_str as_num as_nat as_dm m o = (o1, true) -> dec_load as_bool as_str as_num as_nat as_dm m dec0 = (o2, true) ->
    (fo_st o1 = fo_st o2 <->
       (yfind m "error_on_missing_input_layer" <> None \/ ds_err (fo_st o) = true)
       /\ (yfind m "minimum_input_points_to_filter" <> None \/ ds_min (fo_st o) = 0%nat)
       /\ (yfind m "use_tsl_robin_map" <> None \/ ds_robin (fo_st o) = true)
       /\ (yfind m "flatten_to" <> None \/ ds_flatten (fo_st o) = None)).
  Proof.
    intros m o o1 o2 H1 H2. apply C290_decimate_as_configured in H1, H2.
    destruct H1 as (A1 & _ & A2 & A3 & A4 & A5 & _ & A6 & A7 & A8 & A9), H2 as (B1 & _ & B2 & B3 & B4 & B5 & _ & B6 & B7 & B8 & B9).
    pose proof (values_unique _ _ _ _ _ A1 B1) as E1. pose proof (given_unique _ _ _ _ _ A3 B3) as E3. pose proof (given_unique _ _ _ _ _ A4 B4) as E4.
    pose proof (given_or_same _ _ _ _ _ _ _ A2 B2) as Q2. pose proof (given_or_same _ _ _ _ _ _ _ A5 B5) as Q5. pose proof (given_or_same _ _ _ _ _ _ _ A6 B6) as Q6.
    pose proof (given_some_same _ _ _ _ _ _ _ A7 B7) as Q7. change (ds_err (fo_st dec0)) with true in Q2. change (ds_min (fo_st dec0)) with 0%nat in Q5.
    change (ds_robin (fo_st dec0)) with true in Q6. change (ds_flatten (fo_st dec0)) with (@None Q) in Q7.
    assert (EG : ds_grid (fo_st o1) = ds_grid (fo_st o2)).
    { assert (D : ds_method (fo_st o2) = FirstPoint \/ ds_method (fo_st o2) <> FirstPoint) by (destruct (ds_method (fo_st o2)); [left; reflexivity|right; discriminate..]).
      rewrite E3 in A8, A9. destruct D as [D|D]; [rewrite (proj2 A8 D), (proj2 B8 D)|rewrite (proj2 A9 D), (proj2 B9 D)]; reflexivity. }
    rewrite <- Q2, <- Q5, <- Q6, <- Q7. destruct (fo_st o1), (fo_st o2). cbn in *. subst. split.
    - intros E. injection E as -> -> -> ->. auto.
    - intros (-> & -> & -> & ->). reflexivity.
  Qed.

  (** ** C296: FilterMerge and FilterDeskew *)
  (** C296: accepted exactly if both layers are given, the pose being six formulas when it is there: x, y, z, yaw, pitch, roll. *)
  Theorem C296_merge_as_configured : forall m (o o' : FO MrgSt), mrg_load as_bool as_str m o = (o', true) <-> LoadedMerge as_bool as_str m o o'.
  Proof.
    intros m o o'. unfold LoadedMerge, mrg_load. destruct o as [[i u v] fs]. split.
    - intros H. sq H o1 E. ss E. rq E a1. sq H o1 E. ss E. rq E a2. sq H o1 E. ss E. op E mg_local a3.
      destruct (yfind m "robot_pose") as [y|] eqn:Y.
      + destruct y as [| | | |l|]; try discriminate H. destruct l as [|a [|b [|c [|d [|e [|f [|]]]]]]]; try discriminate H.
        apply fdecls_iff in H. destruct H as (ts & F & ->). cbn [map snd] in F.
        do 6 (inversion F as [|? ? ? ? ? F']; subst; clear F; rename F' into F). inversion F; subst. clear F. cbn. do 3 (split; [assumption|]). right.
        do 6 eexists. split; [exists [a; b; c; d; e; f]; split; [exact Y|repeat (constructor; try eassumption)]|reflexivity].
      + injection H as <-. cbn. auto 6.
    - destruct o' as [[i' u' v'] fs']. cbn. intros (A1 & A2 & A3 & A4).
      bsq; [bst; brq i'|]. cbn. bsq; [bst; brq u'|]. cbn. bsq; [bst; bop mg_local v'|]. cbn.
      destruct A4 as [[Y ->]|(x & y & z & w & p & r & (ys & Y & F) & ->)]; rewrite Y; [reflexivity|].
      apply forall2_6 in F. destruct F as (a & b & c & d & e & f & -> & Ca & Cb & Cc & Cd & Ce & Cf). apply fdecls_iff.
      exists [x; y; z; w; p; r]. split; [cbn; repeat (constructor; try assumption)|reflexivity].
  Qed.
  (** C296: the pose with which the layer is merged is the one of the six formulas, in that order, or that of the
      variables as they are if the configuration has none. *)
  Theorem C296_configured_pose : forall m o value mem x y z w p r pose,
    mrg_load as_bool as_str m mrg0 = (o, true) -> Formulas as_str m "robot_pose" [x; y; z; w; p; r] -> Evaluated value (fo_forms o) mem ->
    mrg_of pose o mem true = FMergeModel.mkMerge (mg_in (fo_st o)) (mg_target (fo_st o)) (mg_local (fo_st o))
      (pose (value x) (value y) (value z) (value w) (value p) (value r)) true.
  Proof.
    intros m o value mem x y z w p r pose H F EV. apply C296_merge_as_configured in H. destruct H as (_ & _ & _ & [[Y _]|(x' & y' & z' & w' & p' & r' & F' & FO)]).
    - destruct F as (ys & Y' & _). congruence.
    - pose proof (formulas_unique _ _ _ _ _ F F') as E. injection E as <- <- <- <- <- <-.
      assert (IN : forall k t, In (k, Some t) (fo_forms o) -> mem k = value t) by exact EV. rewrite FO in IN. unfold mrg_of.
      rewrite (IN "x" x), (IN "y" y), (IN "z" z), (IN "yaw" w), (IN "pitch" p), (IN "roll" r); [reflexivity|..]; rewrite in_app_iff; cbn; auto 12.
  Qed.

  Theorem C296_deskew_as_configured : forall m (o o' : FO DskSt), dsk_load as_bool as_str m o = (o', true) <-> LoadedDeskew as_bool as_str m o o'.
  Proof.
    intros m o o'. unfold LoadedDeskew, dsk_load. destruct o as [[i u cl si sk pr tw] fs]. split.
    - intros H. sq H o1 E. ss E. rq E a1. sq H o1 E. ss E. rq E a2. sq H o1 E. ss E. op E dw_silent a3. sq H o1 E. ss E. op E dw_class a4.
      sq H o1 E. ss E. op E dw_skip a5. sq H o1 E. ss E. op E dw_precise a6.
      destruct (yfind m "twist") as [y|] eqn:Y.
      + sq H o1 E. ss E. injection E as <-.
        destruct y as [| | | |l|]; try discriminate H. destruct l as [|a [|b [|c [|d [|e [|f [|]]]]]]]; try discriminate H.
        apply fdecls_iff in H. destruct H as (ts & F & ->). cbn [map snd] in F.
        do 6 (inversion F as [|? ? ? ? ? F']; subst; clear F; rename F' into F). inversion F; subst. clear F. cbn. do 6 (split; [assumption|]). right.
        do 6 eexists. split; [exists [a; b; c; d; e; f]; split; [exact Y|repeat (constructor; try eassumption)]|split; reflexivity].
      + injection H as <-. cbn. do 6 (split; [assumption|]). left. auto.
    - destruct o' as [[i' u' cl' si' sk' pr' tw'] fs']. cbn. intros (A1 & A2 & A3 & A4 & A5 & A6 & A7).
      bsq; [bst; brq i'|]. cbn. bsq; [bst; brq u'|]. cbn. bsq; [bst; bop dw_silent si'|]. cbn. bsq; [bst; bop dw_class cl'|]. cbn.
      bsq; [bst; bop dw_skip sk'|]. cbn. bsq; [bst; bop dw_precise pr'|]. cbn.
      destruct A7 as [(Y & -> & ->)|(x & y & z & w & p & r & (ys & Y & F) & -> & ->)]; rewrite Y; [reflexivity|].
      apply forall2_6 in F. destruct F as (a & b & c & d & e & f & -> & Ca & Cb & Cc & Cd & Ce & Cf). bsq; [bst; reflexivity|]. cbn. apply fdecls_iff.
      exists [x; y; z; w; p; r]. split; [cbn; repeat (constructor; try assumption)|reflexivity].
  Qed.
  (** C296: the constant twist is the one of the six formulas: the linear velocity first, then the angular one; without
      them a new filter has none. *)
  Theorem C296_configured_twist : forall m o value mem cls src v1 v2 v3 w1 w2 w3,
    dsk_load as_bool as_str m dsk0 = (o, true) -> Formulas as_str m "twist" [v1; v2; v3; w1; w2; w3] -> Evaluated value (fo_forms o) mem ->
    DeskewModel.dk_twist (dsk_of cls src o mem true) = Some ((value v1, value v2, value v3), (value w1, value w2, value w3)).
  Proof.
    intros m o value mem cls src v1 v2 v3 w1 w2 w3 H F EV. apply C296_deskew_as_configured in H.
    destruct H as (_ & _ & _ & _ & _ & _ & [[Y _]|(x' & y' & z' & w' & p' & r' & F' & TW & FO)]).
    - destruct F as (ys & Y' & _). congruence.
    - pose proof (formulas_unique _ _ _ _ _ F F') as E. injection E as <- <- <- <- <- <-.
      assert (IN : forall k t, In (k, Some t) (fo_forms o) -> mem k = value t) by exact EV. rewrite FO in IN. unfold dsk_of. cbn [DeskewModel.dk_twist]. rewrite TW.
      rewrite (IN "vx" v1), (IN "vy" v2), (IN "vz" v3), (IN "wx" w1), (IN "wy" w2), (IN "wz" w3); [reflexivity|..]; rewrite in_app_iff; cbn; auto 12.
  Qed.
  Theorem C296_no_twist : forall m o mem cls src, dsk_load as_bool as_str m dsk0 = (o, true) -> yfind m "twist" = None ->
    DeskewModel.dk_twist (dsk_of cls src o mem true) = None.
  Proof.
    intros m o mem cls src H Y. apply C296_deskew_as_configured in H. destruct H as (_ & _ & _ & _ & _ & _ & [(_ & TW & _)|(? & ? & ? & ? & ? & ? & (ys & Y' & _) & _)]); [|congruence].
    unfold dsk_of. cbn. rewrite TW. reflexivity.
  Qed.

  (** ** C297: a rejected twist *)
  (** C297: if the entry of the twist is not a sequence of six, initialize() throws, and the filter has a constant twist from then on,
      for which no formula has been declared: whoever goes on with it gets the twist that the variables happen to hold. *)
  Theorem C297_rejected_twist_is_switched_on_refuted : forall m (o : FO DskSt) i u y,
    Given as_str m "input_pointcloud_layer" i -> Given as_str m "output_pointcloud_layer" u ->
    yfind m "silently_ignore_no_timestamps" = None -> yfind m "output_layer_class" = None -> yfind m "skip_deskew" = None ->
    yfind m "use_precise_local_velocities" = None -> yfind m "twist" = Some y -> (forall l, y = YSeq l -> List.length l <> 6%nat) ->
    exists o', dsk_load as_bool as_str m o = (o', false) /\ dw_twist (fo_st o') = true /\ fo_forms o' = fo_forms o.
  Proof.
    intros m o i u y (v1 & Y1 & C1) (v2 & Y2 & C2) N1 N2 N3 N4 Y NS. unfold dsk_load, lseq, lst, lpart, lreq, lopt. rewrite Y1, C1, Y2, C2, N1, N2, N3, N4, Y. cbn [fo_st fo_forms].
    destruct y as [| | | |l|]; try (eexists; split; [reflexivity|split; reflexivity]).
    destruct l as [|a [|b [|c [|d [|e [|f [|]]]]]]]; try (eexists; split; [reflexivity|split; reflexivity]).
    exfalso. exact (NS _ eq_refl eq_refl).
  Qed.
  (** C297, exactly when: without an entry for the twist no configuration, accepted or not, changes whether there is one. *)
  Theorem C297_twist_where : forall m (o o' : FO DskSt) r, yfind m "twist" = None -> dsk_load as_bool as_str m o = (o', r) -> dw_twist (fo_st o') = dw_twist (fo_st o).
  Proof.
    intros m o o' r Y E.
    assert (K : Keeps (fun s => dw_twist (fo_st s) = dw_twist (fo_st o)) (dsk_load as_bool as_str m)).
    { set (Q := fun s => dw_twist s = dw_twist (fo_st o)). unfold dsk_load. rewrite Y. repeat apply keeps_seq;
        try (apply (keeps_st Q); apply keeps_opt; intros; assumption); try (apply (keeps_st Q); apply keeps_req; intros; assumption). intros s X. exact X. }
    specialize (K o eq_refl). rewrite E in K. exact K.
  Qed.

  (** ** C298: the other filters, each exactly as configured *)
  Theorem C298_intensity_as_configured : forall m (o o' : IntCfg), int_load as_str as_num m o = (o', true) <-> LoadedIntensity as_str as_num m o o'.
  Proof.
    intros m o o'. unfold LoadedIntensity, int_load. destruct o as [i l mi h lt ht].
    assert (ACC : forall c, intensity_accepts c = true <-> in_low c <> "" \/ in_mid c <> "").
    { intros c. unfold intensity_accepts. rewrite !orb_true_iff, !negb_true_iff, !String.eqb_neq. tauto. }
    split.
    - intros H. sq H o1 E. rq E a1. sq H o1 E. op E in_low a2. sq H o1 E. op E in_high a3. sq H o1 E. op E in_mid a4.
      sq H o1 E. apply lassert_iff in E. destruct E as [AC ->]. apply ACC in AC. cbn in AC. sq H o1 E. rq E a5. rq H a6. auto 10.
    - destruct o' as [i' l' mi' h' lt' ht']. cbn. intros (A1 & A2 & A3 & A4 & A5 & A6 & A7).
      bsq; [brq i'|]. cbn. bsq; [bop in_low l'|]. cbn. bsq; [bop in_high h'|]. cbn. bsq; [bop in_mid mi'|]. cbn.
      bsq; [apply lassert_iff; split; [apply ACC; cbn; exact A5|reflexivity]|]. cbn. bsq; [brq lt'|]. cbn. brq ht'.
  Qed.
  Theorem C298_timestamps_as_configured : forall m (o o' : FO TimSt), tim_load as_bool as_str as_tm m o = (o', true) <-> LoadedTime as_bool as_str as_tm m o o'.
  Proof.
    intros m o o'. unfold LoadedTime, tim_load. destruct o as [[l me ig] fs]. split.
    - intros H. sq H o1 E. ss E. rq E a1. sq H o1 E. ss E. rq E a2. sq H o1 E. ss E. rq E a3. apply fopt_iff in H. destruct H as (t & T & ->). cbn.
      do 3 (split; [assumption|]). exists t. split; [exact T|reflexivity].
    - destruct o' as [[l' me' ig'] fs']. cbn. intros (A1 & A2 & A3 & t & A4 & ->).
      bsq; [bst; brq l'|]. cbn. bsq; [bst; brq me'|]. cbn. bsq; [bst; brq ig'|]. cbn. apply fopt_iff. exists t. split; [exact A4|reflexivity].
  Qed.
  Theorem C298_normalize_as_configured : forall m (o o' : NormCfg), nrm_load as_bool as_str as_num m o = (o', true) <-> LoadedNorm as_bool as_str as_num m o o'.
  Proof.
    intros m o o'. unfold LoadedNorm, nrm_load. destruct o as [l r a b]. split.
    - intros H. sq H o1 E. rq E a1. sq H o1 E. op E nm_remember a2. sq H o1 E. op E nm_fixmin a3. op H nm_fixmax a4. auto.
    - destruct o' as [l' r' a' b']. cbn. intros (A1 & A2 & A3 & A4).
      bsq; [brq l'|]. cbn. bsq; [bop nm_remember r'|]. cbn. bsq; [bop nm_fixmin a'|]. cbn. bop nm_fixmax b'.
  Qed.
  Theorem C298_curvature_as_configured : forall m (o o' : CurvCfg), crv_load as_str as_num m o = (o', true) <-> LoadedCurvature as_str as_num m o o'.
  Proof.
    intros m o o'. unfold LoadedCurvature, crv_load. destruct o as [i l s u mc ml mg]. split.
    - intros H. sq H o1 E. rq E a1. sq H o1 E. rq E a2. sq H o1 E. rq E a3. sq H o1 E. rq E a4.
      sq H o1 E. op E cv_large a5. sq H o1 E. op E cv_small a6. op H cv_other a7. auto 10.
    - destruct o' as [i' l' s' u' mc' ml' mg']. cbn. intros (A1 & A2 & A3 & A4 & A5 & A6 & A7).
      bsq; [brq i'|]. cbn. bsq; [brq mc'|]. cbn. bsq; [brq ml'|]. cbn. bsq; [brq mg'|]. cbn.
      bsq; [bop cv_large l'|]. cbn. bsq; [bop cv_small s'|]. cbn. bop cv_other u'.
  Qed.
  Theorem C298_slice_as_configured : forall m (o o' : FO (Name * Name)), slc_load as_str m o = (o', true) <-> LoadedSlice as_str m o o'.
  Proof.
    intros m o o'. unfold LoadedSlice, slc_load. destruct o as [[i u] fs]. split.
    - intros H. sq H o1 E. ss E. rq E a1. sq H o1 E. ss E. rq E a2. sq H o1 E. fq E lo. fq H hi.
      do 2 (split; [assumption|]). exists lo, hi. do 2 (split; [assumption|]). rewrite <- app_assoc. reflexivity.
    - destruct o' as [[i' u'] fs']. cbn. intros (A1 & A2 & lo & hi & A3 & A4 & ->).
      bsq; [bst; brq i'|]. cbn. bsq; [bst; brq u'|]. cbn. bsq; [bfq lo|]. cbn. apply freq_iff. exists hi. split; [exact A4|]. cbn. rewrite <- app_assoc. reflexivity.
  Qed.
  Theorem C298_poles_as_configured : forall m (o o' : FO PolSt), pol_load as_str as_nat m o = (o', true) <-> LoadedPole as_str as_nat m o o'.
  Proof.
    intros m o o'. unfold LoadedPole, pol_load. destruct o as [[i p n mp mc] fs]. split.
    - intros H. sq H o1 E. ss E. rq E a1. sq H o1 E. ss E. op E pl_poles a2. sq H o1 E. ss E. op E pl_nopoles a3.
      sq H o1 E. ss E. op E pl_minpts a4. sq H o1 E. ss E. op E pl_minchecks a5. sq H o1 E. fq E g. sq H o1 E. fq E lo. sq H o1 E. fq E hi.
      ss H. asr H. do 3 (split; [assumption|]). split; [apply one_output_iff; assumption|]. do 2 (split; [assumption|]).
      exists g, lo, hi. do 3 (split; [assumption|]). rewrite <- !app_assoc. reflexivity.
    - destruct o' as [[i' p' n' mp' mc'] fs']. cbn. intros (A1 & A2 & A3 & A4 & A5 & A6 & g & lo & hi & A7 & A8 & A9 & ->).
      bsq; [bst; brq i'|]. cbn. bsq; [bst; bop pl_poles p'|]. cbn. bsq; [bst; bop pl_nopoles n'|]. cbn.
      bsq; [bst; bop pl_minpts mp'|]. cbn. bsq; [bst; bop pl_minchecks mc'|]. cbn. bsq; [bfq g|]. cbn. bsq; [bfq lo|]. cbn. bsq; [bfq hi|]. cbn.
      apply lst_iff. eexists. split; [bas; apply one_output_iff; exact A4|]. cbn. rewrite <- !app_assoc. reflexivity.
  Qed.
  Theorem C298_occupancy_as_configured : forall m (o o' : FO OccSt), occ_load as_str m o = (o', true) <-> LoadedOcc as_str m o o'.
  Proof.
    intros m o o'. unfold LoadedOcc, occ_load. destruct o as [[i v s d] fs]. split.
    - intros H. sq H o1 E. ss E. rq E a1. sq H o1 E. ss E. rq E a2. sq H o1 E. ss E. op E os_static a3. sq H o1 E. ss E. op E os_dynamic a4. fq H t.
      do 4 (split; [assumption|]). exists t. auto.
    - destruct o' as [[i' v' s' d'] fs']. cbn. intros (A1 & A2 & A3 & A4 & t & A5 & ->).
      bsq; [bst; brq i'|]. cbn. bsq; [bst; brq v'|]. cbn. bsq; [bst; bop os_static s'|]. cbn. bsq; [bst; bop os_dynamic d'|]. cbn. bfq t.
  Qed.
  Theorem C298_adaptive_as_configured : forall m (o o' : AdaSt), ada_load as_bool as_str as_num as_nat m o = (o', true) <-> LoadedAda as_bool as_str as_num as_nat m o o'.
  Proof.
    intros m o o'. unfold LoadedAda, ada_load. destruct o as [e i u d b mv mp]. split.
    - intros H. sq H o1 E. op E da_enabled a1. sq H o1 E. op E da_in a2. sq H o1 E. rq E a3. sq H o1 E. rq E a4.
      sq H o1 E. op E da_bbox a5. sq H o1 E. op E da_maxvox a6. op H da_minpts a7. auto 10.
    - destruct o' as [e' i' u' d' b' mv' mp']. cbn. intros (A1 & A2 & A3 & A4 & A5 & A6 & A7).
      bsq; [bop da_enabled e'|]. cbn. bsq; [bop da_in i'|]. cbn. bsq; [brq u'|]. cbn. bsq; [brq d'|]. cbn.
      bsq; [bop da_bbox b'|]. cbn. bsq; [bop da_maxvox mv'|]. cbn. bop da_minpts mp'.
  Qed.
  Theorem C298_quadratic_as_configured : forall m (o o' : QuaSt), qua_load as_bool as_str as_num m o = (o', true) <-> LoadedQuad as_bool as_str as_num m o o'.
  Proof.
    intros m o o'. unfold LoadedQuad, qua_load. destruct o as [[i e u rs rd av cl rn] r v]. split.
    - intros H. sq H o1 E. apply lpart_iff in E. destruct E as (q & E & ->). injection H as <-. cbn in *.
      rename E into H. sq H o1 E. op E qd_in a1. sq H o1 E. op E qd_error_missing a2. sq H o1 E. op E qd_random a3. sq H o1 E. rq E a4.
      sq H o1 E. rq E a5. sq H o1 E. rq E a6. sq H o1 E. rq E a7. rq H a8. auto 12.
    - destruct o' as [[i' e' u' rs' rd' av' cl' rn'] r' v']. cbn. intros (A1 & A2 & A3 & A4 & A5 & A6 & A7 & A8 & -> & ->).
      apply lseq_iff. exists (mkQua (mkQuad i' e' u' rs' rd' av' cl' rn') r v). split; [|reflexivity]. apply lpart_iff. eexists. split; [|reflexivity]. cbn.
      bsq; [bop qd_in i'|]. cbn. bsq; [bop qd_error_missing e'|]. cbn. bsq; [bop qd_random rn'|]. cbn. bsq; [brq u'|]. cbn.
      bsq; [brq rs'|]. cbn. bsq; [brq rd'|]. cbn. bsq; [brq av'|]. cbn. brq cl'.
  Qed.
  Theorem C298_edges_as_configured : forall m (o o' : EdgSt), edg_load as_bool as_str as_num as_nat m o = (o', true) <-> LoadedEdges as_bool as_str as_num as_nat m o o'.
  Proof.
    intros m o o'. unfold LoadedEdges, edg_load. destruct o as [[i f rs ro d x20 x10 n20 n10 n1] r v]. split.
    - intros H. sq H o1 E. apply lpart_iff in E. destruct E as (q & E & ->). injection H as <-. cbn in *.
      rename E into H. sq H o1 E. op E eg_in a1. sq H o1 E. rq E a2. sq H o1 E. rq E a3. sq H o1 E. op E eg_robin a4.
      sq H o1 E. rq E a5. sq H o1 E. rq E a6. sq H o1 E. rq E a7. sq H o1 E. rq E a8. sq H o1 E. rq E a9. op H eg_min1 a10. auto 14.
    - destruct o' as [[i' f' rs' ro' d' x20' x10' n20' n10' n1'] r' v']. cbn. intros (A1 & A2 & A3 & A4 & A5 & A6 & A7 & A8 & A9 & A10 & -> & ->).
      apply lseq_iff. exists (mkEdg (mkEdges i' f' rs' ro' d' x20' x10' n20' n10' n1') r v). split; [|reflexivity]. apply lpart_iff. eexists. split; [|reflexivity]. cbn.
      bsq; [bop eg_in i'|]. cbn. bsq; [brq rs'|]. cbn. bsq; [brq d'|]. cbn. bsq; [bop eg_robin ro'|]. cbn.
      bsq; [brq f'|]. cbn. bsq; [brq x20'|]. cbn. bsq; [brq x10'|]. cbn. bsq; [brq n20'|]. cbn. bsq; [brq n10'|]. cbn. bop eg_min1 n1'.
  Qed.

  (** ** C299: an accepted configuration can be applied *)
  Lemma no_output m cls : get_or_create "" true cls m = (m, Val false).
  Proof. reflexivity. Qed.
  (** C299: FilterByRing and FilterRemoveByVoxelOccupancy accept a configuration without outputs, FilterCurvature also one with
      just the layer of the other points; filter() then fails, whatever the map. *)
  Theorem C299_ring_without_outputs_refuted : forall m i ids, Given as_str m "input_pointcloud_layer" i -> Values as_int m "selected_ring_ids" ids -> ids <> [] ->
    yfind m "output_layer_selected" = None -> yfind m "output_layer_non_selected" = None ->
    exists o, ring_load as_str as_int m (mkRi "" "" "" []) = (o, true) /\ forall mp mp', filter_ring o mp <> (mp', Val tt).
  Proof.
    intros m i ids G V NE N1 N2.
    destruct (C292_ring_accepts m ids (mkRi "" "" "" []) (mkRi i "" "" (nodup Z.eq_dec ids))) as (o & H).
    { unfold LoadedRing. cbn. split; [exact G|]. split; [left; auto|]. split; [left; auto|]. split; [exact V|]. split; [exact NE|].
      split; [apply NoDup_nodup|]. intros z. apply nodup_In. }
    exists o. split; [exact H|]. destruct (C292_ring_as_configured _ _ _ H) as (ids' & _ & A2 & A3 & _). cbn in A2, A3.
    destruct A2 as [[_ A2]|(v & X & _)]; [|congruence]. destruct A3 as [[_ A3]|(v & X & _)]; [|congruence].
    intros mp mp'. unfold filter_ring, bnd. destruct (input_layer _ mp) as [m1 [pc| | |]]; try discriminate. rewrite A2, A3, !no_output. discriminate.
  Qed.
  Theorem C299_curvature_without_outputs_refuted : forall m i a b c, Given as_str m "input_pointcloud_layer" i ->
    Given as_num m "max_cosine" a -> Given as_num m "min_clearance" b -> Given as_num m "max_gap" c ->
    yfind m "output_layer_larger_curvature" = None -> yfind m "output_layer_smaller_curvature" = None ->
    (yfind m "output_layer_other" = None \/ exists n, Given as_str m "output_layer_other" n) ->
    exists o, crv_load as_str as_num m (mkCv "" "" "" "" 0 0 0) = (o, true) /\ forall mp mp', filter_curvature o mp <> (mp', Val tt).
  Proof.
    intros m i a b c G A B C N1 N2 N3.
    assert (X : exists u, GivenOr as_str m "output_layer_other" "" u).
    { destruct N3 as [N|(n & v & Y & E)]; [exists ""; left; auto|]. exists n. right. eauto. }
    destruct X as (u & U). exists (mkCv i "" "" u a b c). split.
    - apply C298_curvature_as_configured. unfold LoadedCurvature. cbn. do 4 (split; [assumption|]). split; [left; auto|]. split; [left; auto|exact U].
    - intros mp mp'. unfold filter_curvature, bnd. cbn [cv_in cv_large cv_small cv_other]. destruct (input_layer _ mp) as [m1 [pc| | |]]; try discriminate.
      rewrite !no_output. destruct (get_or_create u true (cl_cls pc) m1) as [m2 [?| | |]]; discriminate.
  Qed.
  Theorem C299_occupancy_without_outputs_refuted : forall m i v t, Given as_str m "input_pointcloud_layer" i -> Given as_str m "input_voxel_layer" v ->
    Given as_str m "occupancy_threshold" t -> yfind m "output_layer_static_objects" = None -> yfind m "output_layer_dynamic_objects" = None ->
    exists o, occ_load as_str m (mkFO (mkOcs "" "" "" "") []) = (o, true) /\
      forall mem realized mp mp', filter_occupancy (occ_of o mem realized) mp <> (mp', Val tt).
  Proof.
    intros m i v t A B C N1 N2. exists (mkFO (mkOcs i v "" "") [("occupancy_threshold", Some t)]). split.
    - apply C298_occupancy_as_configured. unfold LoadedOcc. cbn. do 2 (split; [assumption|]). do 2 (split; [left; auto|]). exists t. auto.
    - intros mem realized mp mp'. unfold filter_occupancy, bnd, occ_of. cbn [fo_st oc_in oc_vox oc_static oc_dynamic oc_thres oc_realized os_in os_vox os_static os_dynamic].
      destruct (massert _ mp) as [m1 [?| | |]]; try discriminate. destruct (massert _ m1) as [m2 [?| | |]]; try discriminate. unfold throw.
      destruct (lfind mp i) as [l|]; [|discriminate].
      destruct l; try discriminate; (destruct (map_to_points _) as [pc|]; [|discriminate]); (destruct (lfind mp v) as [[ | w | ]|]; try discriminate);
        (destruct (ot_occ w) as [oc|]; [|discriminate]); rewrite !no_output; discriminate.
  Qed.
  (** C299, where it holds: the bounding box, range, pole and intensity filters accept no configuration without an output layer. *)
  Theorem C299_outputs_where :
    (forall m (o o' : FO BoxSt), box_load as_str m o = (o', true) -> bx_inside (fo_st o') <> "" \/ bx_outside (fo_st o') <> "") /\
    (forall m (o o' : FO RngSt), rng_load as_str m o = (o', true) -> rn_between (fo_st o') <> "" \/ rn_outside (fo_st o') <> "") /\
    (forall m (o o' : FO PolSt), pol_load as_str as_nat m o = (o', true) -> pl_poles (fo_st o') <> "" \/ pl_nopoles (fo_st o') <> "") /\
    (forall m (o o' : IntCfg), int_load as_str as_num m o = (o', true) -> in_low o' <> "" \/ in_mid o' <> "").
  Proof.
    repeat split; intros m o o' H.
    - apply C293_box_as_configured in H. apply H.
    - apply C294_range_as_configured in H. apply H.
    - apply C298_poles_as_configured in H. apply H.
    - apply C298_intensity_as_configured in H. apply H.
  Qed.

  (** C298, configuration to parameters: the formulas having been evaluated, FilterVoxelSlice takes its two layers and both heights from
      the entries of these names. *)
  Theorem C298_configured_slice : forall m (o0 o : FO (Name * Name)) value mem input output lo hi realized,
    slc_load as_str m o0 = (o, true) -> Evaluated value (fo_forms o) mem ->
    Given as_str m "input_layer" input -> Given as_str m "output_layer" output -> Given as_str m "slice_z_min" lo -> Given as_str m "slice_z_max" hi ->
    slc_of o mem realized = FMergeModel.mkSlice input output (value lo) (value hi) realized.
  Proof.
    intros * H EV G1 G2 G3 G4. apply C298_slice_as_configured in H. destruct H as (A1 & A2 & lo' & hi' & A3 & A4 & FO).
    rewrite (given_unique _ _ _ _ _ A3 G3), (given_unique _ _ _ _ _ A4 G4) in FO.
    assert (IN : forall k t, In (k, Some t) (fo_forms o) -> mem k = value t) by exact EV. rewrite FO in IN. unfold slc_of.
    rewrite (IN "slice_z_min" lo), (IN "slice_z_max" hi) by (rewrite in_app_iff; cbn; auto 6).
    rewrite (given_unique _ _ _ _ _ A1 G1), (given_unique _ _ _ _ _ A2 G2). reflexivity.
  Qed.
  (** C298: the same for FilterPoleDetector, *)
  Theorem C298_configured_poles : forall m (o0 o : FO PolSt) value mem input g lo hi realized,
    pol_load as_str as_nat m o0 = (o, true) -> Evaluated value (fo_forms o) mem ->
    Given as_str m "input_pointcloud_layer" input -> Given as_str m "grid_size" g -> Given as_str m "minimum_relative_height" lo -> Given as_str m "maximum_relative_height" hi ->
    exists poles nopoles pts checks,
      pol_of o mem realized = PoleModel.mkPole input poles nopoles (value g) (value lo) (value hi) pts checks realized
      /\ (forall x, Given as_str m "output_layer_poles" x -> poles = x) /\ (forall x, Given as_str m "output_layer_no_poles" x -> nopoles = x)
      /\ (forall x, Given as_nat m "minimum_pole_points" x -> pts = x) /\ (forall x, Given as_nat m "minimum_neighbors_checks_to_pass" x -> checks = x).
  Proof.
    intros * H EV G1 G2 G3 G4. apply C298_poles_as_configured in H. destruct H as (A1 & A2 & A3 & _ & A4 & A5 & g' & lo' & hi' & B1 & B2 & B3 & FO).
    rewrite (given_unique _ _ _ _ _ B1 G2), (given_unique _ _ _ _ _ B2 G3), (given_unique _ _ _ _ _ B3 G4) in FO.
    assert (IN : forall k t, In (k, Some t) (fo_forms o) -> mem k = value t) by exact EV. rewrite FO in IN.
    exists (pl_poles (fo_st o)), (pl_nopoles (fo_st o)), (pl_minpts (fo_st o)), (pl_minchecks (fo_st o)). split.
    - unfold pol_of. rewrite (IN "grid_size" g), (IN "minimum_relative_height" lo), (IN "maximum_relative_height" hi) by (rewrite in_app_iff; cbn; auto 8).
      rewrite (given_unique _ _ _ _ _ A1 G1). reflexivity.
    - assert (GG : forall A (conv : yml -> option A) k old new, GivenOr conv m k old new -> forall x, Given conv m k x -> new = x).
      { intros A conv k old new [[N _]|Y] x G; [destruct G as (y & Y & _); congruence|exact (given_unique _ _ _ _ _ Y G)]. }
      repeat split; eapply GG; eassumption.
  Qed.
  (** for FilterRemoveByVoxelOccupancy, *)
  Theorem C298_configured_occupancy : forall m (o0 o : FO OccSt) value mem input vox t realized,
    occ_load as_str m o0 = (o, true) -> Evaluated value (fo_forms o) mem ->
    Given as_str m "input_pointcloud_layer" input -> Given as_str m "input_voxel_layer" vox -> Given as_str m "occupancy_threshold" t ->
    exists static dynamic, occ_of o mem realized = mkOcc input vox static dynamic (value t) realized
      /\ (forall x, Given as_str m "output_layer_static_objects" x -> static = x) /\ (forall x, Given as_str m "output_layer_dynamic_objects" x -> dynamic = x).
  Proof.
    intros * H EV G1 G2 G3. apply C298_occupancy_as_configured in H. destruct H as (A1 & A2 & A3 & A4 & t' & B1 & FO).
    rewrite (given_unique _ _ _ _ _ B1 G3) in FO.
    assert (IN : forall k t, In (k, Some t) (fo_forms o) -> mem k = value t) by exact EV. rewrite FO in IN.
    exists (os_static (fo_st o)), (os_dynamic (fo_st o)). split.
    - unfold occ_of. rewrite (IN "occupancy_threshold" t) by (rewrite in_app_iff; cbn; auto 8).
      rewrite (given_unique _ _ _ _ _ A1 G1), (given_unique _ _ _ _ _ A2 G2). reflexivity.
    - assert (GG : forall A (conv : yml -> option A) k old new, GivenOr conv m k old new -> forall x, Given conv m k x -> new = x).
      { intros A conv k old new [[N _]|Y] x G; [destruct G as (y & Y & _); congruence|exact (given_unique _ _ _ _ _ Y G)]. }
      split; eapply GG; eassumption.
  Qed.
  (** and for FilterAdjustTimestamps: the offset is the formula's value when there is one. *)
  Theorem C298_configured_timestamps : forall m (o0 o : FO TimSt) value mem layer method ignore t realized,
    tim_load as_bool as_str as_tm m o0 = (o, true) -> Evaluated value (fo_forms o) mem ->
    Given as_str m "pointcloud_layer" layer -> Given as_tm m "method" method -> Given as_bool m "silently_ignore_no_timestamps" ignore -> Given as_str m "time_offset" t ->
    tim_of o mem realized = mkTm layer method (value t) ignore realized.
  Proof.
    intros * H EV G1 G2 G3 G4. apply C298_timestamps_as_configured in H. destruct H as (A1 & A2 & A3 & t' & B & FO).
    assert (ET : t' = Some t).
    { destruct B as [[N _]|(x & X & ->)]; [destruct G4 as (y & Y & _); congruence|]. rewrite (given_unique _ _ _ _ _ X G4). reflexivity. }
    rewrite ET in FO. assert (IN : forall k t, In (k, Some t) (fo_forms o) -> mem k = value t) by exact EV. rewrite FO in IN. unfold tim_of.
    rewrite (IN "time_offset" t) by (rewrite in_app_iff; cbn; auto 8).
    rewrite (given_unique _ _ _ _ _ A1 G1), (given_unique _ _ _ _ _ A2 G2), (given_unique _ _ _ _ _ A3 G3). reflexivity.
  Qed.
  (** C296: a new FilterMerge takes the input layer to be in the frame of the map unless told otherwise. *)
  Theorem C296_merge_frame : forall m (o : FO MrgSt) pose mem realized,
    mrg_load as_bool as_str m mrg0 = (o, true) ->
    (yfind m "input_layer_in_local_coordinates" = None -> FMergeModel.me_local (mrg_of pose o mem realized) = false)
    /\ (forall x, Given as_bool m "input_layer_in_local_coordinates" x -> FMergeModel.me_local (mrg_of pose o mem realized) = x).
  Proof.
    intros * H. apply C296_merge_as_configured in H. destruct H as (_ & _ & A & _). split.
    - intro N. destruct A as [[_ E]|(y & Y & _)]; [exact E|congruence].
    - intros x G. destruct A as [[N _]|Y]; [destruct G as (y & Y & _); congruence|exact (given_unique _ _ _ _ _ Y G)].
  Qed.
End FInitP.

(** ** Examples *)
Section Examples.
  Definition x_bool (y : yml) : option bool := match y with YB b => Some b | _ => None end.
  Definition x_str (y : yml) : option string := match y with YT t => Some t | _ => None end.
  Definition x_num (y : yml) : option Q := match y with YQ q => Some q | _ => None end.
  Definition x_int (y : yml) : option Z := match y with YQ q => Some (Qfloor q) | _ => None end.
  Definition x_nat (y : yml) : option nat := match y with YQ q => Some (Z.to_nat (Qfloor q)) | _ => None end.
  Definition x_dm (y : yml) : option DMethod := match y with YT "FirstPoint" => Some FirstPoint | YT "VoxelAverage" => Some VoxelAverage | _ => None end.
  Definition x_dec : list (string * yml) :=
    [("input_pointcloud_layer", YSeq [YT "raw"; YT "extra"]); ("output_pointcloud_layer", YT "out"); ("decimate_method", YT "VoxelAverage");
     ("voxel_filter_resolution", YT "2*S"); ("flatten_to", YQ 1)].
  (** C290, C295: an accepted configuration, with two input layers *)
  Example C290_example : dec_load x_bool x_str x_num x_nat x_dm x_dec dec0 =
    (mkFO (mkDS ["raw"; "extra"] true "out" VoxelAverage 0 true (Some 1%Q) (Some false)) [("voxel_filter_resolution", Some "2*S")], true).
  Proof. vm_compute. reflexivity. Qed.
  (** C291: the next configuration asks for FirstPoint but is rejected *)
  Example C291_example :
    let o := fst (dec_load x_bool x_str x_num x_nat x_dm x_dec dec0) in
    let r := dec_load x_bool x_str x_num x_nat x_dm [("input_pointcloud_layer", YT "raw"); ("decimate_method", YT "FirstPoint")] o in
    grid_there (fo_st o) = true /\ snd r = false /\ grid_there (fo_st (fst r)) = false.
  Proof. vm_compute. repeat split. Qed.
  (** C292: a ring listed twice counts once *)
  Example C292_example : ring_load x_str x_int [("input_pointcloud_layer", YT "raw"); ("selected_ring_ids", YSeq [YQ 3; YQ 1; YQ 3]); ("output_layer_selected", YT "a")] (mkRi "" "" "" [])
    = (mkRi "raw" "a" "" [3; 1]%Z, true).
  Proof. vm_compute. reflexivity. Qed.
  Definition x_rng : list (string * yml) :=
    [("input_pointcloud_layer", YT "raw"); ("output_layer_between", YT "near"); ("range_min", YT "1"); ("range_max", YT "R"); ("center", YSeq [YT "a"; YT "b"; YT "c"])].
  (** C294, C295: the center of the first configuration is still there after the second, which has none *)
  Example C295_example :
    let r := rng_load x_str x_rng rng0 in
    let r' := rng_load x_str (filter (fun e => negb (String.eqb (fst e) "center")) x_rng) (fst r) in
    snd r = true /\ snd r' = true /\ In ("center[1]", Some "b") (fo_forms (fst r')).
  Proof. vm_compute. auto 12. Qed.
  (** C293 *)
  Example C293_example : let r := box_load x_str [("inside_pointcloud_layer", YT "in"); ("bounding_box_min", YSeq [YT "a"; YT "b"; YT "c"]); ("bounding_box_max", YSeq [YT "d"; YT "e"; YT "f"])] box0 in
    snd r = true /\ bx_in (fo_st (fst r)) = "raw" /\ List.length (fo_forms (fst r)) = 6%nat.
  Proof. vm_compute. repeat split. Qed.
  (** C296, C297: a twist of six formulas is accepted, one of five switches the twist on and is rejected *)
  Example C297_example :
    let base := [("input_pointcloud_layer", YT "raw"); ("output_pointcloud_layer", YT "out")] in
    snd (dsk_load x_bool x_str (base ++ [("twist", YSeq (map YT ["vx"; "vy"; "vz"; "wx"; "wy"; "wz"]))]) dsk0) = true
    /\ snd (dsk_load x_bool x_str (base ++ [("twist", YSeq (map YT ["vx"; "vy"; "vz"; "wx"; "wy"]))]) dsk0) = false
    /\ dw_twist (fo_st (fst (dsk_load x_bool x_str (base ++ [("twist", YSeq (map YT ["vx"; "vy"; "vz"; "wx"; "wy"]))]) dsk0))) = true.
  Proof. vm_compute. repeat split. Qed.
  (** C298, C299: accepted configurations *)
  Example C298_example :
    snd (int_load x_str x_num [("input_pointcloud_layer", YT "raw"); ("output_layer_mid_intensity", YT "m"); ("low_threshold", YQ 1); ("high_threshold", YQ 2)] (mkIn "" "" "" "" 0 0)) = true
    /\ snd (pol_load x_str x_nat [("input_pointcloud_layer", YT "raw"); ("output_layer_poles", YT "p"); ("grid_size", YT "1"); ("minimum_relative_height", YT "2"); ("maximum_relative_height", YT "3")]
              (mkFO (mkPol "" "" "" 5 3) [])) = true
    /\ snd (crv_load x_str x_num [("input_pointcloud_layer", YT "raw"); ("max_cosine", YQ (1#2)); ("min_clearance", YQ 1); ("max_gap", YQ 1)] (mkCv "" "" "" "" 0 0 0)) = true
    /\ snd (qua_load x_bool x_str x_num [("output_pointcloud_layer", YT "o"); ("voxel_filter_resolution", YQ 1); ("quadratic_reference_radius", YQ 2); ("use_voxel_average", YB true); ("use_closest_to_voxel_average", YB false)]
              (mkQua (mkQuad "raw" true "" 1 1 false false false) 0 0)) = true.
  Proof. vm_compute. repeat split. Qed.
  (** C298: heights that are formulas of two variables *)
  Example C298_slice_example :
    let m := [("input_layer", YT "vox"); ("output_layer", YT "slice"); ("slice_z_min", YT "LO"); ("slice_z_max", YT "HI")] in
    let r := slc_load x_str m (mkFO ("", "") []) in
    let value t := (if String.eqb t "LO" then 1 else 2)%Q in
    let mem k := (if String.eqb k "slice_z_min" then 1 else 2)%Q in
    snd r = true /\ Evaluated value (fo_forms (fst r)) mem /\ slc_of (fst r) mem true = FMergeModel.mkSlice "vox" "slice" 1 2 true.
  Proof. cbv zeta. split; [vm_compute; reflexivity|]. split; [|vm_compute; reflexivity]. intros c t [E|[E|[]]]; injection E as <- <-; reflexivity. Qed.
End Examples.
