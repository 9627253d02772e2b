(** C64, C67, C141, C142: exactly when the properties that the routing filters and FilterDeleteLayer
    do not have in general hold. *)
From Coq Require Import String Permutation Lqa.
From Verif Require Import Base FilterModel FilterSpec FilterProofs FilterProofs2 FilterProps ChannelProps.
Open Scope string_scope.
Open Scope Q_scope.
Open Scope list_scope.

(** ** C64 *)
  (** A filter that sends [p] to [a] if [P p] holds, else to [b]. *)
  Definition GoesTo (P : Pt -> Prop) (a b : Name) (p : Pt) (n : Name) : Prop :=
    (P p /\ n = a) \/ (~ P p /\ n = b).

Lemma live_general inp a b (P : Pt -> Prop) dest m src :
  (forall p, P p -> dest p = a) -> (forall p, ~ P p -> dest p = b) -> (forall p, P p \/ ~ P p) ->
  (forall k p, dest (conv k p) = dest p) ->
  lfind m inp = Some (LPts src) -> wf_cloud src -> usable m a -> usable m b -> inp <> "" ->
  ((exists m', (forall fuel, (List.length (cl_pts src) <= fuel)%nat ->
       route_live fuel inp dest 0 (created m [a; b] (cl_cls src)) = (m', Val tt)) /\
       Routed m m' src dest [a; b])
    /\ ~ (exists p, In p (cl_pts src) /\ GoesTo P a b p inp)) \/
  ((forall fuel, snd (route_live fuel inp dest 0 (created m [a; b] (cl_cls src))) = Spin)
    /\ exists p, In p (cl_pts src) /\ GoesTo P a b p inp).
Proof.
  intros DA DB Dec DC H W U1 U2 N.
  assert (AB : forall p, dest p = a \/ dest p = b) by (intro p; destruct (Dec p); auto).
  assert (K : forall p, dest p <> "" -> is_pts (created m [a; b] (cl_cls src)) (dest p)).
  { intros p Np. apply is_pts_created.
    - intros k [<-|[<-|[]]]; assumption.
    - destruct (AB p) as [-> | ->]; simpl; tauto.
    - exact Np. }
  destruct (existsb (fun p => String.eqb (dest p) inp) (cl_pts src)) eqn:E.
  - right. apply existsb_exists in E as [p [I E]]. apply String.eqb_eq in E.
    split; [|exists p; split; [exact I|]; destruct (Dec p) as [X|X];
             [left; split; [exact X|rewrite <- E; auto]|right; split; [exact X|rewrite <- E; auto]]].
    intro fuel. destruct (In_nth_error _ _ I) as [j Hj].
    destruct (live_in_place_spins fuel inp dest 0 (created m [a; b] (cl_cls src)) src N DC K
                (created_keeps _ _ _ _ _ H)) as [m' ->]; [|reflexivity].
    exists j, p. split; [lia|]. split; assumption.
  - left. assert (NI : forall p, In p (cl_pts src) -> dest p <> inp).
    { intros p I X. assert (existsb (fun p => String.eqb (dest p) inp) (cl_pts src) = true); [|congruence].
      apply existsb_exists. exists p. split; [exact I|]. rewrite X. apply seqb_refl. }
    split.
    + destruct (routed_spec m [a; b] src dest) as [m' [R S]].
      * intros n [<-|[<-|[]]]; assumption.
      * intros p. right. destruct (AB p) as [-> | ->]; simpl; tauto.
      * exact W.
      * exists m'. split; [|exact S]. intros fuel F. rewrite <- R.
        eapply route_live_list with (pre := []).
        -- apply created_keeps. exact H.
        -- reflexivity.
        -- reflexivity.
        -- exact F.
        -- intros p _. apply K.
        -- exact NI.
    + intros [p [I [[X Y]|[X Y]]]]; apply (NI p I); [rewrite (DA p X)|rewrite (DB p X)]; auto.
Qed.

(** FilterBoundingBox: the call ends, having routed every point once, exactly when no input
    point goes to the input layer itself; otherwise it never ends. *)
Theorem C64_bounding_box_where : forall c m src,
  lfind m (bb_in c) = Some (LPts src) -> wf_cloud src -> bb_in c <> "" ->
  usable m (bb_inside c) -> usable m (bb_outside c) ->
  let Into p := GoesTo (InsideBox c) (bb_inside c) (bb_outside c) p (bb_in c) in
  (~ (exists p, In p (cl_pts src) /\ Into p) ->
     exists m', (forall fuel, (List.length (cl_pts src) <= fuel)%nat -> filter_bbox fuel c m = (m', Val tt)) /\
       exists dest, Routed m m' src dest [bb_inside c; bb_outside c] /\
         (forall p, InsideBox c p -> dest p = bb_inside c) /\ (forall p, ~ InsideBox c p -> dest p = bb_outside c)) /\
  ((exists p, In p (cl_pts src) /\ Into p) -> forall fuel, snd (filter_bbox fuel c m) = Spin).
Proof.
  intros c m src H W N U1 U2 Into.
  assert (E : forall fuel, filter_bbox fuel c m =
     route_live fuel (bb_in c) (bbox_dest c) 0 (created m [bb_inside c; bb_outside c] (cl_cls src))).
  { intro fuel. unfold filter_bbox, bnd. rewrite (input_ok _ _ _ H), (goc_usable _ _ _ U1),
      (goc_usable _ _ _ (usable_created _ _ _ _ U2)), created_app. reflexivity. }
  assert (D1 : forall p, InsideBox c p -> bbox_dest c p = bb_inside c)
    by (intros p X; unfold bbox_dest; apply in_box_iff in X; rewrite X; reflexivity).
  assert (D2 : forall p, ~ InsideBox c p -> bbox_dest c p = bb_outside c).
  { intros p X. unfold bbox_dest. destruct (in_box c p) eqn:B; [apply in_box_iff in B; contradiction|reflexivity]. }
  destruct (live_general (bb_in c) (bb_inside c) (bb_outside c) (InsideBox c) (bbox_dest c) m src) as [[[m' [R S]] NX]|[R X]];
    try assumption.
  - intro p. destruct (in_box c p) eqn:B; [left; apply in_box_iff; exact B|].
    right. intro X. apply in_box_iff in X. congruence.
  - intros k q. unfold bbox_dest, in_box. destruct (bb_min c) as [[? ?] ?], (bb_max c) as [[? ?] ?]. reflexivity.
  - split; [intros _|intro X; contradiction]. exists m'. split; [intros fuel F; rewrite E; apply R; exact F|].
    exists (bbox_dest c). auto.
  - split; [intro NX; contradiction|]. intros _ fuel. rewrite E. apply R.
Qed.

(** The same for FilterByRange. *)
Theorem C64_range_where : forall c m src,
  0 <= rg_min c -> 0 <= rg_max c -> rg_realized c = true ->
  lfind m (rg_in c) = Some (LPts src) -> wf_cloud src -> rg_in c <> "" ->
  usable m (rg_between c) -> usable m (rg_outside c) ->
  let Into p := GoesTo (BetweenRange c) (rg_between c) (rg_outside c) p (rg_in c) in
  (~ (exists p, In p (cl_pts src) /\ Into p) ->
     exists m', (forall fuel, (List.length (cl_pts src) <= fuel)%nat -> filter_range fuel c m = (m', Val tt)) /\
       exists dest, Routed m m' src dest [rg_between c; rg_outside c] /\
         (forall p, BetweenRange c p -> dest p = rg_between c) /\ (forall p, ~ BetweenRange c p -> dest p = rg_outside c)) /\
  ((exists p, In p (cl_pts src) /\ Into p) -> forall fuel, snd (filter_range fuel c m) = Spin).
Proof.
  intros c m src Mn Mx RL H W N U1 U2 Into.
  assert (E : forall fuel, filter_range fuel c m =
     route_live fuel (rg_in c) (range_dest c) 0 (created m [rg_between c; rg_outside c] (cl_cls src))).
  { intro fuel. unfold filter_range. rewrite RL. unfold bnd, massert, ret. rewrite (input_ok _ _ _ H), (goc_usable _ _ _ U1),
      (goc_usable _ _ _ (usable_created _ _ _ _ U2)), created_app. reflexivity. }
  assert (B : forall p, (Qle_bool (sq (rg_min c)) (sq_norm_from (rg_center c) p)
               && Qle_bool (sq_norm_from (rg_center c) p) (sq (rg_max c)))%bool = true
               <-> BetweenRange c p).
  { intros p. rewrite andb_true_iff, !Qle_bool_iff. unfold sq, BetweenRange, distR.
    assert (P := sq_norm_nonneg (rg_center c) p).
    rewrite (sq_le_sqrt _ _ Mn P), (sqrt_le_sq _ _ Mx P). tauto. }
  assert (D1 : forall p, BetweenRange c p -> range_dest c p = rg_between c)
    by (intros p X; unfold range_dest; apply B in X; rewrite X; reflexivity).
  assert (D2 : forall p, ~ BetweenRange c p -> range_dest c p = rg_outside c).
  { intros p X. unfold range_dest.
    destruct (Qle_bool (sq (rg_min c)) (sq_norm_from (rg_center c) p)
               && Qle_bool (sq_norm_from (rg_center c) p) (sq (rg_max c)))%bool eqn:Y; [apply B in Y; contradiction|reflexivity]. }
  destruct (live_general (rg_in c) (rg_between c) (rg_outside c) (BetweenRange c) (range_dest c) m src) as [[[m' [R S]] NX]|[R X]];
    try assumption.
  - intro p. destruct (Qle_bool (sq (rg_min c)) (sq_norm_from (rg_center c) p)
               && Qle_bool (sq_norm_from (rg_center c) p) (sq (rg_max c)))%bool eqn:Y; [left; apply B; exact Y|].
    right. intro X. apply B in X. congruence.
  - intros k q. unfold range_dest, sq_norm_from. destruct (rg_center c) as [[? ?] ?]. reflexivity.
  - split; [intros _|intro X; contradiction]. exists m'. split; [intros fuel F; rewrite E; apply R; exact F|].
    exists (range_dest c). auto.
  - split; [intro NX; contradiction|]. intros _ fuel. rewrite E. apply R.
Qed.

(** ** C141 *)
(** Exactly the configurations with a low or a mid output are accepted. *)
Theorem C141_accepted_where : forall c,
  intensity_accepts c = true <-> (in_low c <> "" \/ in_mid c <> "").
Proof.
  intros c. unfold intensity_accepts. rewrite ?orb_true_iff, !negb_true_iff, !String.eqb_neq. tauto.
Qed.
(** On a valid input and outputs the call succeeds exactly if the cloud has intensities and a point. *)
Theorem C141_filtered_where : forall c m src,
  lfind m (in_in c) = Some (LPts src) -> wf_cloud src ->
  usable m (in_low c) -> usable m (in_mid c) -> usable m (in_high c) ->
  (in_low c <> "" \/ in_mid c <> "" \/ in_high c <> "") ->
  ((exists m', filter_intensity c m = (m', Val tt)) <-> has_I (cl_cls src) = true /\ cl_pts src <> []).
Proof.
  intros c m src H W U1 U2 U3 AO. split.
  - intros [m' E]. unfold filter_intensity, bnd in E. rewrite (input_ok _ _ _ H), (goc_usable _ _ _ U1),
      (goc_usable _ _ _ (usable_created _ _ _ _ U3)), created_app,
      (goc_usable _ _ _ (usable_created _ _ _ _ U2)), created_app in E.
    unfold massert, ret, throw, channel_ok in E.
    destruct (_ || _)%bool; [|discriminate].
    destruct (has_I (cl_cls src)) eqn:HI; [|discriminate].
    destruct (cl_pts src); [discriminate|]. split; [reflexivity|discriminate].
  - intros [HI NE]. destruct (C41_intensity_routes c m src H W HI NE U1 U2 U3 AO) as [m' [E _]]. exists m'. exact E.
Qed.

(** ** C142 *)
(** When FilterDeleteLayer throws, exactly the layers listed before the first one that is missing
    (or was already deleted) are gone. *)
Theorem C142_deleted_where : forall names m m',
  filter_delete names true m = (m', Exc) ->
  exists before k after, names = before ++ k :: after /\ NoDup before /\
    (forall n, In n before -> exists l, lfind m n = Some l) /\
    (lfind m k = None \/ In k before) /\
    forall n, (In n before -> lfind m' n = None) /\ (~ In n before -> lfind m' n = lfind m n).
Proof.
  induction names as [|k t IH]; intros m m' E; [discriminate|]. cbn [filter_delete] in E.
  destruct (lfind m k) as [l|] eqn:L; cbn [andb negb] in E.
  - apply IH in E as (b & x & a & -> & ND & Ex & X & R).
    assert (NK : ~ In k b).
    { intro I. destruct (Ex k I) as [l' L']. rewrite lfind_ldel, seqb_refl in L'. discriminate. }
    exists (k :: b), x, a. split; [reflexivity|]. split; [constructor; assumption|]. split; [|split].
    + intros n [<-|I]; [exists l; exact L|]. destruct (Ex n I) as [l' L']. rewrite lfind_ldel in L'.
      destruct (String.eqb k n); [discriminate|]. exists l'. exact L'.
    + destruct X as [X|X]; [|right; right; exact X]. rewrite lfind_ldel in X.
      destruct (String.eqb k x) eqn:Q; [apply String.eqb_eq in Q; right; left; exact Q|left; exact X].
    + intro n. destruct (R n) as [R1 R2]. split.
      * intros [<-|I]; [|auto]. rewrite (R2 NK), lfind_ldel, seqb_refl. reflexivity.
      * intro NI. rewrite R2, lfind_ldel by (intro; apply NI; right; assumption).
        rewrite seqb_neq; [reflexivity|]. intros ->. apply NI. left. reflexivity.
  - injection E as <-. exists [], k, t. split; [reflexivity|]. split; [constructor|]. split; [intros n []|].
    split; [left; exact L|]. intro n. split; [intros []|]. intros _. rewrite lfind_ldel.
    destruct (String.eqb k n) eqn:Q; [apply String.eqb_eq in Q; subst; congruence|reflexivity].
Qed.
(** So nothing is lost exactly if the first listed layer is the missing one. *)
Theorem C142_nothing_lost_where : forall k rest m m',
  filter_delete (k :: rest) true m = (m', Exc) ->
  ((forall n, lfind m' n = lfind m n) <-> lfind m k = None).
Proof.
  intros k rest m m' E. destruct (C142_deleted_where _ _ _ E) as (b & x & a & EQ & ND & Ex & X & R).
  destruct b as [|y b]; cbn [app] in EQ; injection EQ as -> EQ.
  - destruct X as [X|[]]. split; [intros _; exact X|]. intros _ n. apply R. intros [].
  - destruct (Ex y) as [l L]; [left; reflexivity|]. split.
    + intro F. rewrite <- F. apply R. left. reflexivity.
    + intro. congruence.
Qed.

(** ** C67 *)
(** Normalising always puts the earliest point at the offset; the shift methods put their
    reference (earliest point, middle of the range) at the offset exactly if that is zero. *)
Theorem C67_offset_where : forall c m zero src,
  tm_realized c = true ->
  lfind m (tm_layer c) = Some (LPts src) -> has_T (cl_cls src) = true -> cl_pts src <> [] ->
  exists m' z' f mn mx, filter_time c zero m = (m', Val z') /\
    Retimed m m' (tm_layer c) src f /\ IsMin (times src) mn /\ IsMax (times src) mx /\
    match tm_method c with
    | Normalize => f mn == tm_offset c
    | EarliestIsZero => f mn == tm_offset c <-> tm_offset c == 0
    | MiddleIsZero => (f mn + f mx) / 2 == tm_offset c <-> tm_offset c == 0
    end.
Proof.
  intros c m zero src RL H HT NE. destruct (tm_method c) eqn:ME.
  - destruct (C46_shift_methods c m zero src RL) as [m' [z' [f [mn [mx [R [T [A [B [_ [_ P]]]]]]]]]]]; try assumption; [congruence|].
    exists m', z', f, mn, mx. split; [exact R|]. split; [exact T|]. split; [exact A|]. split; [exact B|].
    rewrite ME in P. rewrite P. split; intro; lra.
  - destruct (C46_shift_methods c m zero src RL) as [m' [z' [f [mn [mx [R [T [A [B [_ [_ P]]]]]]]]]]]; try assumption; [congruence|].
    exists m', z', f, mn, mx. split; [exact R|]. split; [exact T|]. split; [exact A|]. split; [exact B|].
    rewrite ME in P. split; intro; lra.
  - destruct (C46_normalize c m zero src RL ME H HT NE) as [m' [z' [f [mn [mx [R [T [A [B [_ [P _]]]]]]]]]]].
    exists m', z', f, mn, mx. split; [exact R|]. split; [exact T|]. split; [exact A|]. split; [exact B|exact P].
Qed.

Example where_case :
  bb_in ex_box <> "" /\ snd (filter_delete ["in"; "nope"] true ex_map) = Exc /\ intensity_accepts ex_int = true.
Proof. split; [discriminate|]. split; reflexivity. Qed.
