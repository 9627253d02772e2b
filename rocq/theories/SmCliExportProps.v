(** C218-C223: the commands of sm-cli that read a map and print or export it. *)
From Coq Require Import String Reals Lra Lia Sorted OrderedTypeEx.
From Verif Require Import Base GeomModel SmCliModel SmCliProps.
Open Scope nat_scope.

Section Props.
Variables (PDF Twist Data : Type) (pdf_mean : PDF -> Pose) (pdf_change : Pose -> PDF -> PDF).
Variables (box_ok : V3 -> V3 -> bool) (parse_pose : string -> option Pose) (levmarq : (R * R * R -> list R) -> R * R * R).
Notation KF := (KF PDF Twist Data).
Notation SM := (SM PDF Twist Data).
Notation Obs := (Obs Data).
Notation Env := (Env PDF Twist Data).
Notation run := (sm_cli PDF pdf_mean pdf_change Twist Data box_ok parse_pose levmarq).
Notation holds := (holds PDF Twist Data).
Notation writable := (writable PDF Twist Data).
Notation has_pose := (has_pose PDF Twist Data).
Notation position := (position PDF Twist Data pdf_mean).
Notation twist := (kf_twist PDF Twist Data).
Notation frame := (kf_sf PDF Twist Data).

(** ** Vocabulary *)
(** the observations of a keyframe, and of a map, in order; [None]: a null pointer *)
Definition obs_of (k : KF) : list (option Obs) := match frame k with Some os => os | None => [] end.
Definition all_obs (m : SM) : list (option Obs) := flat_map obs_of m.
Definition no_null (os : list (option Obs)) : Prop := ~ In None os.
(** number of observations with a label *)
Definition labelled (l : string) (os : list (option Obs)) : nat :=
  List.length (filter (fun o => match o with Some o => String.eqb (ob_label _ o) l | None => false end) os).
(** the class of the last observation with a label *)
Definition last_class (l c : string) (os : list (option Obs)) : Prop :=
  exists os1 o os2, os = os1 ++ Some o :: os2 /\ ob_label _ o = l /\ ob_class _ o = c /\ labelled l os2 = 0.
(** the smallest box *)
Definition bounding (lo hi : V3) (ps : list V3) : Prop :=
  (forall p, In p ps -> inside lo hi p) /\
  (exists p, In p ps /\ vx p = vx lo) /\ (exists p, In p ps /\ vy p = vy lo) /\ (exists p, In p ps /\ vz p = vz lo) /\
  (exists p, In p ps /\ vx p = vx hi) /\ (exists p, In p ps /\ vy p = vy hi) /\ (exists p, In p ps /\ vz p = vz hi).
(** the earliest and the latest time stamp of the observations *)
Definition is_first (t : option Time) (os : list (option Obs)) : Prop :=
  match t with
  | None => os = []
  | Some t => (exists o, In (Some o) os /\ ob_time _ o = t) /\ forall o, In (Some o) os -> (t <= ob_time _ o)%Z
  end.
Definition is_last (t : option Time) (os : list (option Obs)) : Prop :=
  match t with
  | None => os = []
  | Some t => (exists o, In (Some o) os /\ ob_time _ o = t) /\ forall o, In (Some o) os -> (ob_time _ o <= t)%Z
  end.
(** the time stamp of a keyframe: the first valid one of its observations *)
Definition stamped (k : KF) (t : Time) : Prop :=
  exists os1 o os2, frame k = Some (os1 ++ Some o :: os2) /\ ob_time _ o = t /\ t <> InvalidTimeStamp /\
    forall o', In (Some o') os1 -> ob_time _ o' = InvalidTimeStamp.

(** ** info *)
Definition str_lt (a b : string) : Prop := String.ltb a b = true.
Lemma ltb_lt a b : String.ltb a b = true <-> String_as_OT.lt a b.
Proof.
  rewrite <- String_as_OT.cmp_lt. unfold String_as_OT.cmp, String.ltb. destruct (String.compare a b); split; intro H; try reflexivity; discriminate.
Qed.
Lemma str_lt_trans a b c : str_lt a b -> str_lt b c -> str_lt a c.
Proof. unfold str_lt. rewrite !ltb_lt. apply String_as_OT.lt_trans. Qed.
Lemma str_lt_irrefl a : ~ str_lt a a.
Proof. unfold str_lt. rewrite ltb_lt. intro H. exact (String_as_OT.lt_not_eq a a H eq_refl). Qed.
Lemma str_total a b : String.eqb b a = false -> String.ltb a b = false -> str_lt b a.
Proof.
  intros N L. unfold str_lt, String.ltb in *. assert (A := String_as_OT.cmp_antisym a b). unfold String_as_OT.cmp in A.
  destruct (String.compare a b) eqn:E; [|discriminate|].
  - apply String_as_OT.cmp_eq in E. subst b. rewrite String.eqb_refl in N. discriminate.
  - destruct (String.compare b a); [discriminate|reflexivity|discriminate].
Qed.

Definition counts := list (string * (string * nat)).
(** what the table must say about the observations [os] *)
Definition table_of (l : counts) (os : list (option Obs)) : Prop :=
  StronglySorted str_lt (map fst l) /\
  (forall n c k, In (n, (c, k)) l -> k = labelled n os /\ last_class n c os) /\
  (forall n, labelled n os <> 0 -> exists c k, In (n, (c, k)) l).

Lemma labelled_app n a b : labelled n (a ++ b) = labelled n a + labelled n b.
Proof. unfold labelled. rewrite filter_app, app_length. reflexivity. Qed.
Lemma labelled_one n o : labelled n [Some o] = if String.eqb (ob_label _ o) n then 1 else 0.
Proof. unfold labelled. cbn [filter]. destruct (String.eqb (ob_label _ o) n); reflexivity. Qed.

Lemma count_sorted lb c l : StronglySorted str_lt (map fst l) ->
  StronglySorted str_lt (map fst (count_label l lb c)) /\
  (forall x, (forall n v, In (n, v) l -> str_lt x n) -> str_lt x lb -> forall n v, In (n, v) (count_label l lb c) -> str_lt x n).
Proof.
  induction l as [|[n [cl k]] l IH]; intro S; cbn [count_label].
  - split; [repeat constructor|]. intros x _ L n v [E|[]]. injection E as <- _. exact L.
  - cbn [map fst] in S. inversion S as [|? ? S' F]; subst. specialize (IH S') as [IH1 IH2].
    destruct (String.eqb n lb) eqn:E1.
    + apply String.eqb_eq in E1. subst n. split; [exact S|]. intros x A L n v [E|I].
      * injection E as <- _. exact L.
      * exact (A n v (or_intror I)).
    + destruct (String.ltb lb n) eqn:E2.
      * split.
        -- cbn [map fst]. constructor; [exact S|]. constructor; [exact E2|]. eapply Forall_impl; [|exact F]. intros y. apply str_lt_trans. exact E2.
        -- intros x A L n' v [E|I]; [injection E as <- _; exact L|exact (A n' v I)].
      * assert (LN := str_total lb n E1 E2). split.
        -- cbn [map fst]. constructor; [exact IH1|]. apply Forall_forall. intros y Iy. apply in_map_iff in Iy as [[y' v] [<- Iy]].
           apply (IH2 n) with (v := v); [|exact LN|exact Iy]. intros n' v' I'. rewrite Forall_forall in F. apply F. apply in_map_iff. exists (n', v'). split; [reflexivity|exact I'].
        -- intros x A L n' v [E|I]; [injection E as <- _; exact (A n _ (or_introl eq_refl))|].
           apply (IH2 x) with (v := v); [|exact L|exact I]. intros n2 v2 I2. exact (A n2 v2 (or_intror I2)).
Qed.
(** the entries after counting one more *)
Lemma count_in lb c l : StronglySorted str_lt (map fst l) -> forall n cl k, In (n, (cl, k)) (count_label l lb c) <->
  (n <> lb /\ In (n, (cl, k)) l) \/
  (n = lb /\ cl = c /\ ((exists c0 k0, In (lb, (c0, k0)) l /\ k = S k0) \/ ((forall v, ~ In (lb, v) l) /\ k = 1))).
Proof.
  induction l as [|[n0 [cl0 k0]] l IH]; intros S n cl k; cbn [count_label].
  - split.
    + intros [E|[]]. injection E as <- <- <-. right. split; [reflexivity|]. split; [reflexivity|]. right. split; [intros v []|reflexivity].
    + intros [[_ []]|(-> & -> & [(c0 & k0 & [] & _)|(_ & ->)])]. left. reflexivity.
  - cbn [map fst] in S. inversion S as [|? ? S' F]; subst. specialize (IH S').
    rewrite Forall_forall in F. assert (F' : forall n v, In (n, v) l -> str_lt n0 n).
    { intros n1 v I. apply F. apply in_map_iff. exists (n1, v). split; [reflexivity|exact I]. }
    destruct (String.eqb n0 lb) eqn:E1.
    + apply String.eqb_eq in E1. subst n0. split.
      * intros [E|I].
        -- injection E as <- <- <-. right. split; [reflexivity|]. split; [reflexivity|]. left. exists cl0, k0. split; [left; reflexivity|reflexivity].
        -- left. split; [intros ->; exact (str_lt_irrefl _ (F' _ _ I))|right; exact I].
      * intros [[N [E|I]]|(-> & -> & [(c1 & k1 & [E|I] & ->)|(N & _)])].
        -- injection E as <- _ _. contradiction.
        -- right. exact I.
        -- injection E as <- <-. left. reflexivity.
        -- exfalso. exact (str_lt_irrefl _ (F' _ _ I)).
        -- exfalso. exact (N _ (or_introl eq_refl)).
    + assert (N0 : n0 <> lb) by (intros ->; rewrite String.eqb_refl in E1; discriminate).
      destruct (String.ltb lb n0) eqn:E2.
      * assert (Nl : forall v, ~ In (lb, v) ((n0, (cl0, k0)) :: l)).
        { intros v [E|I]; [injection E as -> _; contradiction|]. exact (str_lt_irrefl _ (str_lt_trans _ _ _ E2 (F' _ _ I))). }
        split.
        -- intros [E|I].
           ++ injection E as <- <- <-. right. split; [reflexivity|]. split; [reflexivity|]. right. split; [exact Nl|reflexivity].
           ++ left. split; [intros ->; exact (Nl _ I)|exact I].
        -- intros [[N I]|(-> & -> & [(c1 & k1 & I & ->)|(_ & ->)])]; [right; exact I|exfalso; exact (Nl _ I)|left; reflexivity].
      * cbn [In]. rewrite IH. split.
        -- intros [E|[[N I]|(-> & -> & [(c1 & k1 & I & ->)|(N & ->)])]].
           ++ injection E as <- <- <-. left. split; [exact N0|left; reflexivity].
           ++ left. split; [exact N|right; exact I].
           ++ right. split; [reflexivity|]. split; [reflexivity|]. left. exists c1, k1. split; [right; exact I|reflexivity].
           ++ right. split; [reflexivity|]. split; [reflexivity|]. right. split; [|reflexivity]. intros v [E|I]; [injection E as -> _; contradiction|exact (N v I)].
        -- intros [[N [E|I]]|(-> & -> & [(c1 & k1 & [E|I] & ->)|(N & ->)])].
           ++ left. exact E.
           ++ right. left. split; [exact N|exact I].
           ++ injection E as -> _ _. contradiction.
           ++ right. right. split; [reflexivity|]. split; [reflexivity|]. left. exists c1, k1. split; [exact I|reflexivity].
           ++ right. right. split; [reflexivity|]. split; [reflexivity|]. right. split; [|reflexivity]. intros v I. exact (N v (or_intror I)).
Qed.
Lemma table_step l os o : table_of l os -> table_of (count_label l (ob_label _ o) (ob_class _ o)) (os ++ [Some o]).
Proof.
  intros (S & A & B). set (lb := ob_label _ o). split; [apply count_sorted; exact S|]. split.
  - intros n c k I. apply (count_in lb (ob_class _ o) l S) in I. destruct I as [[N I]|(-> & -> & D)].
    + destruct (A n c k I) as [E (os1 & o1 & os2 & -> & L & C & Z)].
      assert (L0 : labelled n [Some o] = 0).
      { rewrite labelled_one. destruct (String.eqb (ob_label _ o) n) eqn:X; [|reflexivity]. apply String.eqb_eq in X. exfalso. apply N. symmetry. exact X. }
      split; [rewrite labelled_app, L0; lia|]. exists os1, o1, (os2 ++ [Some o]). split; [rewrite <- app_assoc; reflexivity|].
      split; [exact L|]. split; [exact C|]. rewrite labelled_app, L0. lia.
    + split.
      * rewrite labelled_app, labelled_one. fold lb. rewrite String.eqb_refl. destruct D as [(c0 & k0 & I & ->)|(N & ->)].
        -- destruct (A lb c0 k0 I) as [-> _]. lia.
        -- destruct (Nat.eq_dec (labelled lb os) 0) as [E|E]; [lia|]. exfalso. destruct (B lb E) as (c & k & I). exact (N _ I).
      * exists os, o, []. split; [reflexivity|]. split; [reflexivity|]. split; reflexivity.
  - intros n Z. rewrite labelled_app, labelled_one in Z. fold lb in Z. destruct (String.eqb lb n) eqn:X.
    + apply String.eqb_eq in X. subst n. destruct (Nat.eq_dec (labelled lb os) 0) as [E|E].
      * exists (ob_class _ o), 1. apply (count_in lb (ob_class _ o) l S). right. split; [reflexivity|]. split; [reflexivity|]. right. split; [|reflexivity].
        intros [c k] I. destruct (A lb c k I) as [_ (os1 & o1 & os2 & -> & L & _)]. change (Some o1 :: os2) with ([Some o1] ++ os2) in E.
        rewrite !labelled_app, labelled_one, L, String.eqb_refl in E. lia.
      * destruct (B lb E) as (c & k & I). exists (ob_class _ o), (Datatypes.S k). apply (count_in lb (ob_class _ o) l S). right. split; [reflexivity|].
        split; [reflexivity|]. left. exists c, k. split; [exact I|reflexivity].
    + destruct (B n) as (c & k & I); [lia|]. exists c, k. apply (count_in lb (ob_class _ o) l S). left. split; [|exact I].
      intros ->. rewrite String.eqb_refl in X. discriminate.
Qed.

(** what [i] says after the positions [ps] and observations [os] *)
Definition box_of (b : option (V3 * V3)) (ps : list V3) : Prop := match b with None => ps = [] | Some (lo, hi) => bounding lo hi ps end.
Definition seen (i : Info) (os : list (option Obs)) : Prop := is_first (i_first i) os /\ is_last (i_last i) os /\ table_of (i_obs i) os.

Lemma first_step t os o : is_first t os -> is_first (Some (match t with None => ob_time _ o | Some u => if Z.ltb (ob_time _ o) u then ob_time _ o else u end)) (os ++ [Some o]).
Proof.
  destruct t as [u|]; cbn [is_first].
  - intros [[o1 [I E]] M]. destruct (Z.ltb_spec (ob_time _ o) u); (split; [|intros o' I'; apply in_app_or in I' as [I'|[E'|[]]]; [specialize (M o' I')|injection E' as <-]; lia]).
    + exists o. split; [apply in_or_app; right; left; reflexivity|reflexivity].
    + exists o1. split; [apply in_or_app; left; exact I|exact E].
  - intros ->. split; [exists o; split; [left; reflexivity|reflexivity]|]. intros o' [E|[]]. injection E as <-. lia.
Qed.
Lemma last_step t os o : is_last t os -> is_last (Some (match t with None => ob_time _ o | Some u => if Z.ltb u (ob_time _ o) then ob_time _ o else u end)) (os ++ [Some o]).
Proof.
  destruct t as [u|]; cbn [is_last].
  - intros [[o1 [I E]] M]. destruct (Z.ltb_spec u (ob_time _ o)); (split; [|intros o' I'; apply in_app_or in I' as [I'|[E'|[]]]; [specialize (M o' I')|injection E' as <-]; lia]).
    + exists o. split; [apply in_or_app; right; left; reflexivity|reflexivity].
    + exists o1. split; [apply in_or_app; left; exact I|exact E].
  - intros ->. split; [exists o; split; [left; reflexivity|reflexivity]|]. intros o' [E|[]]. injection E as <-. lia.
Qed.
Lemma info_obs_ok : forall os i pre, no_null os -> seen i pre ->
  exists i', info_obs Data os i = Ok i' /\ seen i' (pre ++ os) /\ i_count i' = i_count i /\ i_has_twist i' = i_has_twist i /\ i_box i' = i_box i.
Proof.
  induction os as [|[o|] os IH]; intros i pre N S.
  - exists i. rewrite app_nil_r. split; [reflexivity|]. split; [exact S|]. auto.
  - cbn [info_obs]. destruct S as (S1 & S2 & S3).
    match goal with |- exists i', info_obs _ _ ?j = _ /\ _ => destruct (IH j (pre ++ [Some o])) as (i' & E & S' & C1 & C2 & C3) end.
    + intro I. apply N. right. exact I.
    + split; [apply first_step; exact S1|]. split; [apply last_step; exact S2|]. apply table_step. exact S3.
    + exists i'. split; [exact E|]. rewrite <- app_assoc in S'. split; [exact S'|]. split; [exact C1|]. split; [exact C2|exact C3].
  - exfalso. apply N. left. reflexivity.
Qed.
Lemma Rminb_le a b : (Rminb a b <= a /\ Rminb a b <= b)%R /\ (Rminb a b = a \/ Rminb a b = b).
Proof. unfold Rminb. destruct (Rlt_dec b a); split; [lra|auto|lra|auto]. Qed.
Lemma Rmaxb_le a b : (a <= Rmaxb a b /\ b <= Rmaxb a b)%R /\ (Rmaxb a b = a \/ Rmaxb a b = b).
Proof. unfold Rmaxb. destruct (Rlt_dec a b); split; [lra|auto|lra|auto]. Qed.
Lemma box_step b ps p : box_of b ps -> box_of (box_add b p) (ps ++ [p]).
Proof.
  destruct b as [[lo hi]|]; cbn [box_of box_add].
  - intros (I & X1 & X2 & X3 & X4 & X5 & X6).
    destruct (Rminb_le (vx lo) (vx p)) as [A1 B1]. destruct (Rminb_le (vy lo) (vy p)) as [A2 B2]. destruct (Rminb_le (vz lo) (vz p)) as [A3 B3].
    destruct (Rmaxb_le (vx hi) (vx p)) as [A4 B4]. destruct (Rmaxb_le (vy hi) (vy p)) as [A5 B5]. destruct (Rmaxb_le (vz hi) (vz p)) as [A6 B6].
    assert (K : forall (g : V3 -> R) v w, (exists q, In q ps /\ g q = v) -> w = v \/ w = g p -> exists q, In q (ps ++ [p]) /\ g q = w).
    { intros g v w [q [Iq E]] [-> | ->]; [exists q; split; [apply in_or_app; left; exact Iq|exact E]|exists p; split; [apply in_or_app; right; left; reflexivity|reflexivity]]. }
    split.
    + intros q Iq. unfold inside in *. cbn [vx vy vz]. apply in_app_or in Iq as [Iq|[<-|[]]]; [specialize (I q Iq)|]; lra.
    + cbn [vx vy vz]. split; [exact (K vx _ _ X1 B1)|]. split; [exact (K vy _ _ X2 B2)|]. split; [exact (K vz _ _ X3 B3)|].
      split; [exact (K vx _ _ X4 B4)|]. split; [exact (K vy _ _ X5 B5)|]. exact (K vz _ _ X6 B6).
  - intros ->. cbn [app]. split; [intros q [<-|[]]; unfold inside; lra|].
    assert (K : forall g : V3 -> R, exists q, In q [p] /\ g q = g p) by (intro g; exists p; split; [left; reflexivity|reflexivity]).
    split; [apply K|]. split; [apply K|]. split; [apply K|]. split; [apply K|]. split; [apply K|]. apply K.
Qed.
Lemma info_loop_ok : forall m i ps pre, Forall has_pose m -> no_null (all_obs m) -> seen i pre -> box_of (i_box i) ps ->
  exists i', info_loop PDF pdf_mean Twist Data m i = Ok i' /\ seen i' (pre ++ all_obs m) /\ box_of (i_box i') (ps ++ map position m) /\
    i_count i' = i_count i /\ (i_has_twist i' = true <-> i_has_twist i = true \/ exists k, In k m /\ twist k <> None).
Proof.
  induction m as [|k m IH]; intros i ps pre F N S Bx.
  - exists i. cbn [all_obs flat_map map]. rewrite !app_nil_r. split; [reflexivity|]. split; [exact S|]. split; [exact Bx|]. split; [reflexivity|].
    split; [auto|]. intros [H|(k & [] & _)]. exact H.
  - inversion F as [|? ? Hk Fm]; subst. cbn [info_loop]. unfold SmCliProps.has_pose in Hk. destruct (kf_pose _ _ _ k) as [p|] eqn:EP; [|contradiction].
    assert (Pk : position k = tr (pdf_mean p)) by (unfold SmCliProps.position; rewrite EP; reflexivity).
    set (tw := match twist k with Some _ => true | None => i_has_twist i end).
    assert (Tw : tw = true <-> i_has_twist i = true \/ twist k <> None).
    { unfold tw. destruct (twist k); split; [right; discriminate|reflexivity|auto|intros [X|X]; [exact X|contradiction]]. }
    set (j := mkInfo (i_count i) tw (box_add (i_box i) (tr (pdf_mean p))) (i_first i) (i_last i) (i_obs i)).
    assert (Nk : no_null (obs_of k)) by (intro X; apply N; cbn [all_obs flat_map]; apply in_or_app; left; exact X).
    assert (Nm : no_null (all_obs m)) by (intro X; apply N; cbn [all_obs flat_map]; apply in_or_app; right; exact X).
    assert (Sj : seen j pre) by exact S.
    destruct (info_obs_ok (obs_of k) j pre Nk Sj) as (j' & Ej & Sj' & C1 & C2 & C3).
    destruct (IH j' (ps ++ [tr (pdf_mean p)]) (pre ++ obs_of k) Fm Nm Sj') as (i' & E & S' & B' & C' & T').
    { rewrite C3. cbn [j i_box]. apply box_step. exact Bx. }
    exists i'. split.
    + unfold obs_of in Ej. destruct (frame k) as [os|].
      * fold tw. fold j. rewrite Ej. exact E.
      * cbn [info_obs] in Ej. injection Ej as <-. exact E.
    + cbn [all_obs flat_map map]. rewrite <- app_assoc in S'. rewrite <- app_assoc in B'. rewrite Pk. split; [exact S'|]. split; [exact B'|].
      split; [rewrite C', C1; reflexivity|]. rewrite T', C2. cbn [j i_has_twist]. rewrite Tw. split.
      * intros [[X|X]|(k' & I & X)]; [left; exact X|right; exists k; split; [left; reflexivity|exact X]|right; exists k'; split; [right; exact I|exact X]].
      * intros [X|(k' & [<-|I] & X)]; [left; left; exact X|left; right; exact X|right; exists k'; split; [exact I|exact X]].
Qed.

(** C218: `info` reports the number of keyframes; whether any has a twist; the bounding box of the
    keyframe positions (none for the empty map); the earliest and the latest time stamp of all the
    observations (none if there are none); and, per sensor label in alphabetical order, the number of its
    observations and the class of the last one. *)
Theorem C218_info_reports_the_map : forall e f m, holds e f m -> Forall has_pose m -> no_null (all_obs m) ->
  exists i, run e (line ["info"; f]%string None None None None None) = ([Print PDF Twist Data i], Ok 0) /\
    i_count i = List.length m /\ (i_has_twist i = true <-> exists k, In k m /\ twist k <> None) /\
    box_of (i_box i) (map position m) /\
    is_first (i_first i) (all_obs m) /\ is_last (i_last i) (all_obs m) /\ table_of (i_obs i) (all_obs m).
Proof.
  intros e f m H F N.
  destruct (info_loop_ok m (mkInfo (List.length m) false None None None []) [] [] F N) as (i & E & (S1 & S2 & S3) & B & C & T).
  - split; [reflexivity|]. split; [reflexivity|]. split; [constructor|]. split; [intros n c k []|]. intros n Z. exfalso. apply Z. reflexivity.
  - reflexivity.
  - exists i. split.
    + unfold sm_cli, dispatch, line. cbn -[info_loop read_input wbnd lift]. rewrite (read_ok _ _ _ _ _ _ H), wbnd_ok, E, lift_ok. reflexivity.
    + split; [exact C|]. split; [rewrite T; cbn [i_has_twist]; split; [intros [X|X]; [discriminate|exact X]|intro X; right; exact X]|].
      split; [exact B|]. split; [exact S1|]. split; [exact S2|exact S3].
Qed.

(** C219: the reported first time stamp is not the earliest valid one: an observation without a time stamp
    counts, as if it were of the epoch. *)
Theorem C219_unstamped_observation_is_first_refuted : forall e f m o, holds e f m -> Forall has_pose m -> no_null (all_obs m) ->
  (forall o', In (Some o') (all_obs m) -> (0 <= ob_time _ o')%Z) ->
  In (Some o) (all_obs m) -> ob_time _ o = InvalidTimeStamp ->
  exists i, run e (line ["info"; f]%string None None None None None) = ([Print PDF Twist Data i], Ok 0) /\
    i_first i = Some InvalidTimeStamp.
Proof.
  intros e f m o H F N Pos I E. destruct (C218_info_reports_the_map e f m H F N) as (i & R & _ & _ & _ & Fi & _).
  exists i. split; [exact R|]. unfold is_first in Fi. destruct (i_first i) as [t|].
  - destruct Fi as [[o1 [I1 E1]] M]. specialize (M o I). specialize (Pos o1 I1). unfold InvalidTimeStamp in *. f_equal. lia.
  - rewrite Fi in I. destruct I.
Qed.
(** Where every observation has a valid time stamp it is the earliest valid one. *)
Theorem C219_first_time_where : forall e f m, holds e f m -> Forall has_pose m -> no_null (all_obs m) -> all_obs m <> [] ->
  (forall o, In (Some o) (all_obs m) -> ob_time _ o <> InvalidTimeStamp) ->
  exists i t, run e (line ["info"; f]%string None None None None None) = ([Print PDF Twist Data i], Ok 0) /\
    i_first i = Some t /\ t <> InvalidTimeStamp /\ (exists o, In (Some o) (all_obs m) /\ ob_time _ o = t) /\
    forall o, In (Some o) (all_obs m) -> ob_time _ o <> InvalidTimeStamp -> (t <= ob_time _ o)%Z.
Proof.
  intros e f m H F N NE V. destruct (C218_info_reports_the_map e f m H F N) as (i & R & _ & _ & _ & Fi & _).
  unfold is_first in Fi. destruct (i_first i) as [t|] eqn:Ei; [|contradiction].
  destruct Fi as [[o1 [I1 E1]] M]. exists i, t. split; [exact R|]. split; [exact Ei|]. split; [rewrite <- E1; exact (V o1 I1)|].
  split; [exists o1; split; [exact I1|exact E1]|]. intros o I _. exact (M o I).
Qed.

(** ** export-keyframes *)
Definition has_frame (k : KF) : Prop := frame k <> None.
(** the command line `sm-cli export-keyframes f --output out [--output-twist ft]` *)
Definition export_line (f out : string) (ft : option string) : Args :=
  mkArgs ["export-keyframes"; f]%string false false None None None None (Some out) ft.

Lemma first_stamp_app os1 o os2 : (forall o', In (Some o') os1 -> ob_time Data o' = InvalidTimeStamp) -> ob_time Data o <> InvalidTimeStamp ->
  first_stamp Data (os1 ++ Some o :: os2) = Some (ob_time Data o).
Proof.
  intros A V. induction os1 as [|[o1|] os1 IH]; cbn [app first_stamp].
  - destruct (Z.eqb_spec (ob_time Data o) InvalidTimeStamp); [contradiction|reflexivity].
  - rewrite (A o1 (or_introl eq_refl)). rewrite Z.eqb_refl. apply IH. intros o' I. apply A. right. exact I.
  - apply IH. intros o' I. apply A. right. exact I.
Qed.
Lemma first_stamp_inv os t : first_stamp Data os = Some t ->
  exists os1 o os2, os = os1 ++ Some o :: os2 /\ ob_time Data o = t /\ t <> InvalidTimeStamp /\
    forall o', In (Some o') os1 -> ob_time Data o' = InvalidTimeStamp.
Proof.
  induction os as [|[o|] os IH]; cbn [first_stamp]; intro E; [discriminate| |].
  - destruct (Z.eqb_spec (ob_time Data o) InvalidTimeStamp) as [Z|Z].
    + destruct (IH E) as (os1 & o1 & os2 & -> & E1 & V & A). exists (Some o :: os1), o1, os2. split; [reflexivity|]. split; [exact E1|]. split; [exact V|].
      intros o' [X|X]; [injection X as <-; exact Z|exact (A o' X)].
    + injection E as <-. exists [], o, os. split; [reflexivity|]. split; [reflexivity|]. split; [exact Z|]. intros o' [].
  - destruct (IH E) as (os1 & o1 & os2 & -> & E1 & V & A). exists (None :: os1), o1, os2. split; [reflexivity|]. split; [exact E1|]. split; [exact V|].
    intros o' [X|X]; [discriminate|exact (A o' X)].
Qed.
Lemma stamped_iff k t : stamped k t <-> exists os, frame k = Some os /\ first_stamp Data os = Some t.
Proof.
  split.
  - intros (os1 & o & os2 & E & <- & V & A). eexists. split; [exact E|]. apply first_stamp_app; assumption.
  - intros (os & E & Fs). destruct (first_stamp_inv os t Fs) as (os1 & o & os2 & -> & X). exists os1, o, os2. split; [exact E|exact X].
Qed.

Definition Zlt_sorted (l : list (Time * Pose)) : Prop := StronglySorted Z.lt (map fst l).
Lemma path_sorted t p l : Zlt_sorted l -> Zlt_sorted (path_insert t p l) /\
  forall x, (forall u q, In (u, q) l -> (x < u)%Z) -> (x < t)%Z -> forall u q, In (u, q) (path_insert t p l) -> (x < u)%Z.
Proof.
  unfold Zlt_sorted. induction l as [|[u q] l IH]; intro S; cbn [path_insert].
  - split; [repeat constructor|]. intros x _ L u q [E|[]]. injection E as <- _. exact L.
  - cbn [map fst] in S. inversion S as [|? ? S' F]; subst. destruct (IH S') as [I1 I2]. rewrite Forall_forall in F.
    destruct (Z.ltb_spec t u) as [L|L].
    + split.
      * cbn [map fst]. constructor; [exact S|]. constructor; [exact L|]. apply Forall_forall. intros y Y. specialize (F y Y). lia.
      * intros x A Lx u' q' [E|I]; [injection E as <- _; exact Lx|exact (A u' q' I)].
    + destruct (Z.eqb_spec t u) as [->|NE].
      * split; [exact S|]. intros x A Lx u' q' [E|I]; [injection E as <- _; exact Lx|exact (A u' q' (or_intror I))].
      * split.
        -- cbn [map fst]. constructor; [exact I1|]. apply Forall_forall. intros y Y. apply in_map_iff in Y as [[y' q'] [<- Y]].
           apply (I2 u) with (q := q'); [|lia|exact Y]. intros u2 q2 X. apply F. apply in_map_iff. exists (u2, q2). split; [reflexivity|exact X].
        -- intros x A Lx u' q' [E|I]; [injection E as <- _; exact (A u q (or_introl eq_refl))|].
           apply (I2 x) with (q := q'); [|exact Lx|exact I]. intros u2 q2 X. exact (A u2 q2 (or_intror X)).
Qed.
Lemma path_in t p l : Zlt_sorted l -> forall u q, In (u, q) (path_insert t p l) <-> (u = t /\ q = p) \/ (u <> t /\ In (u, q) l).
Proof.
  unfold Zlt_sorted. induction l as [|[u0 q0] l IH]; intros S u q; cbn [path_insert].
  - split; [intros [E|[]]; injection E as <- <-; left; split; reflexivity|]. intros [[-> ->]|[_ []]]. left. reflexivity.
  - cbn [map fst] in S. inversion S as [|? ? S' F]; subst. specialize (IH S'). rewrite Forall_forall in F.
    assert (F' : forall u q, In (u, q) l -> (u0 < u)%Z) by (intros u1 q1 X; apply F; apply in_map_iff; exists (u1, q1); split; [reflexivity|exact X]).
    destruct (Z.ltb_spec t u0) as [L|L].
    + split.
      * intros [E|I]; [injection E as <- <-; left; split; reflexivity|]. right. split; [|exact I]. destruct I as [E|I]; [injection E as <- _; lia|specialize (F' u q I); lia].
      * intros [[-> ->]|[_ I]]; [left; reflexivity|right; exact I].
    + destruct (Z.eqb_spec t u0) as [->|NE].
      * split.
        -- intros [E|I]; [injection E as <- <-; left; split; reflexivity|]. right. split; [specialize (F' u q I); lia|right; exact I].
        -- intros [[-> ->]|[N [E|I]]]; [left; reflexivity|injection E as <- _; contradiction|right; exact I].
      * cbn [In]. rewrite IH. split.
        -- intros [E|[X|[N I]]]; [injection E as <- <-; right; split; [lia|left; reflexivity]|left; exact X|right; split; [exact N|right; exact I]].
        -- intros [X|[N [E|I]]]; [right; left; exact X|left; exact E|right; right; split; [exact N|exact I]].
Qed.

(** the twist rows: the keyframes with a time stamp and a twist, in order *)
Inductive twist_rows : SM -> list (Time * Twist) -> Prop :=
| tr_nil : twist_rows [] []
| tr_row k m t w rows : stamped k t -> twist k = Some w -> twist_rows m rows -> twist_rows (k :: m) ((t, w) :: rows)
| tr_skip k m rows : ((forall t, ~ stamped k t) \/ twist k = None) -> twist_rows m rows -> twist_rows (k :: m) rows.
(** row (t, p) belongs to the last keyframe with time stamp t *)
Definition last_at (m : SM) (t : Time) (p : Pose) : Prop :=
  exists m1 k m2 q, m = m1 ++ k :: m2 /\ stamped k t /\ kf_pose _ _ _ k = Some q /\ p = pdf_mean q /\
    forall k', In k' m2 -> ~ stamped k' t.

Lemma stamped_det k t u : stamped k t -> stamped k u -> t = u.
Proof. rewrite !stamped_iff. intros (os & E & F) (os' & E' & F'). rewrite E in E'. injection E' as <-. congruence. Qed.

Lemma export_ok : forall m path tw, Forall has_pose m -> Forall has_frame m -> Zlt_sorted path ->
  exists path' rows, export_loop PDF pdf_mean Twist Data m path tw = Ok (path', tw ++ rows) /\ Zlt_sorted path' /\ twist_rows m rows /\
    forall t p, In (t, p) path' <-> last_at m t p \/ ((forall k, In k m -> ~ stamped k t) /\ In (t, p) path).
Proof.
  induction m as [|k m IH]; intros path tw F G S.
  - exists path, []. rewrite app_nil_r. split; [reflexivity|]. split; [exact S|]. split; [constructor|]. intros t p. split.
    + intro I. right. split; [intros k []|exact I].
    + intros [(m1 & k & m2 & q & E & _)|[_ I]]; [destruct m1; discriminate|exact I].
  - inversion F as [|? ? Fk Fm]; subst. inversion G as [|? ? Gk Gm]; subst. cbn [export_loop].
    unfold SmCliProps.has_pose in Fk. unfold has_frame in Gk. destruct (kf_pose _ _ _ k) as [q|] eqn:EP; [|contradiction].
    destruct (frame k) as [os|] eqn:EF; [|contradiction]. destruct (first_stamp Data os) as [t0|] eqn:ES.
    + assert (St : stamped k t0) by (apply stamped_iff; exists os; split; assumption).
      destruct (path_sorted t0 (pdf_mean q) path S) as [S' _].
      set (tw' := match twist k with Some w => tw ++ [(t0, w)] | None => tw end).
      destruct (IH (path_insert t0 (pdf_mean q) path) tw' Fm Gm S') as (path' & rows & E & S2 & TR & Mem).
      exists path', (match twist k with Some w => (t0, w) :: rows | None => rows end). split; [|split; [exact S2|split]].
      * rewrite E. unfold tw'. destruct (twist k); [rewrite <- app_assoc|]; reflexivity.
      * destruct (twist k) as [w|] eqn:ET; [apply tr_row; assumption|apply tr_skip; [right; exact ET|exact TR]].
      * intros t p. rewrite Mem, path_in by exact S. split.
        -- intros [(m1 & k1 & m2 & q1 & -> & X)|[N [[-> ->]|[NE I]]]].
           ++ left. exists (k :: m1), k1, m2, q1. split; [reflexivity|exact X].
           ++ left. exists [], k, m, q. split; [reflexivity|]. split; [exact St|]. split; [exact EP|]. split; [reflexivity|exact N].
           ++ right. split; [|exact I]. intros k' [<-|I']; [intro X; apply NE; exact (stamped_det _ _ _ X St)|exact (N k' I')].
        -- intros [(m1 & k1 & m2 & q1 & E1 & X)|[N I]].
           ++ destruct m1 as [|k0 m1]; cbn [app] in E1; injection E1 as <- ->.
              ** right. destruct X as (X1 & X2 & X3 & X4). split; [exact X4|]. left. split; [exact (stamped_det _ _ _ X1 St)|]. rewrite EP in X2. injection X2 as <-. exact X3.
              ** left. exists m1, k1, m2, q1. split; [reflexivity|exact X].
           ++ right. split; [intros k' I'; apply N; right; exact I'|]. right. split; [|exact I]. intros ->. exact (N k (or_introl eq_refl) St).
    + assert (St : forall t, ~ stamped k t).
      { intros t X. apply stamped_iff in X as (os' & E' & Fs). rewrite EF in E'. injection E' as <-. congruence. }
      destruct (IH path tw Fm Gm S) as (path' & rows & E & S2 & TR & Mem). exists path', rows. split; [exact E|]. split; [exact S2|].
      split; [apply tr_skip; [left; exact St|exact TR]|]. intros t p. rewrite Mem. split.
      * intros [(m1 & k1 & m2 & q1 & -> & X)|[N I]]; [left; exists (k :: m1), k1, m2, q1; split; [reflexivity|exact X]|].
        right. split; [|exact I]. intros k' [<-|I']; [apply St|exact (N k' I')].
      * intros [(m1 & k1 & m2 & q1 & E1 & X)|[N I]].
        -- destruct m1 as [|k0 m1]; cbn [app] in E1; injection E1 as <- ->; [exfalso; exact (St t (proj1 X))|]. left. exists m1, k1, m2, q1. split; [reflexivity|exact X].
        -- right. split; [intros k' I'; apply N; right; exact I'|exact I].
Qed.

Notation WTumE := (WTum PDF Twist Data).
Notation WTwistE := (WTwist PDF Twist Data).
(** C220: `export-keyframes` writes the rows in strictly increasing time order; there is a row (t, p)
    exactly if some keyframe has t as its first valid time stamp, and p is the mean pose of the last such
    keyframe.  The twist file, if one is asked for, has the twists of the keyframes that have a
    time stamp and a twist, in the order of the map. *)
Theorem C220_export_keyframes : forall e f out m, holds e f m -> writable e out -> Forall has_pose m -> Forall has_frame m ->
  exists rows tw, run e (export_line f out None) = ([WTumE out rows], Ok 0) /\
    (forall ft, ft <> ""%string -> writable e ft -> run e (export_line f out (Some ft)) = ([WTwistE ft tw; WTumE out rows], Ok 0)) /\
    StronglySorted Z.lt (map fst rows) /\ (forall t p, In (t, p) rows <-> last_at m t p) /\ twist_rows m tw.
Proof.
  intros e f out m H Wr F G. destruct (export_ok m [] [] F G) as (rows & tw & E & S & TR & Mem); [constructor|].
  exists rows, tw. split; [|split; [|split; [exact S|split; [|exact TR]]]].
  - unfold sm_cli, dispatch, export_line. cbn [a_version a_cmd String.eqb Ascii.eqb Bool.eqb]. unfold command_export_kf.
    cbn [a_help a_cmd a_out a_out_twist]. rewrite (read_ok _ _ _ _ _ _ H), wbnd_ok, E, lift_ok. cbn [app].
    unfold wret at 1. rewrite wbnd_ok, save_ok by exact Wr. reflexivity.
  - intros ft NE Wt. unfold sm_cli, dispatch, export_line. cbn [a_version a_cmd String.eqb Ascii.eqb Bool.eqb]. unfold command_export_kf.
    cbn [a_help a_cmd a_out a_out_twist]. rewrite (read_ok _ _ _ _ _ _ H), wbnd_ok, E, lift_ok. cbn [app].
    destruct (String.eqb_spec ft ""); [contradiction|]. rewrite save_ok by exact Wt. rewrite save_ok by exact Wr. reflexivity.
  - intros t p. rewrite Mem. split; [intros [X|[_ []]]; exact X|intro X; left; exact X].
Qed.

(** C221: not every keyframe with a time stamp gets a row: of two with the same stamp only the last does. *)
Theorem C221_same_stamp_loses_a_keyframe_refuted : forall e f out k1 k2 t p1 p2, holds e f [k1; k2] -> writable e out ->
  stamped k1 t -> stamped k2 t -> kf_pose _ _ _ k1 = Some p1 -> kf_pose _ _ _ k2 = Some p2 ->
  run e (export_line f out None) = ([WTumE out [(t, pdf_mean p2)]], Ok 0).
Proof.
  intros e f out k1 k2 t p1 p2 H Wr S1 S2 P1 P2.
  apply stamped_iff in S1 as (o1 & E1 & F1). apply stamped_iff in S2 as (o2 & E2 & F2).
  assert (E : export_loop PDF pdf_mean Twist Data [k1; k2] [] [] = Ok ([(t, pdf_mean p2)],
    match twist k2 with Some w => match twist k1 with Some w1 => [(t, w1)] | None => [] end ++ [(t, w)] | None => match twist k1 with Some w1 => [(t, w1)] | None => [] end end)).
  { cbn [export_loop]. rewrite P1, E1, F1, P2, E2, F2. cbn [path_insert]. rewrite Z.ltb_irrefl, Z.eqb_refl. reflexivity. }
  unfold sm_cli, dispatch, export_line. cbn [a_version a_cmd String.eqb Ascii.eqb Bool.eqb]. unfold command_export_kf.
  cbn [a_help a_cmd a_out a_out_twist]. rewrite (read_ok _ _ _ _ _ _ H), wbnd_ok, E, lift_ok.
  unfold wret at 1. rewrite wbnd_ok, save_ok by exact Wr. reflexivity.
Qed.
(** Where the stamps are distinct every keyframe with a time stamp gets its row. *)
Theorem C221_every_keyframe_where : forall e f out m, holds e f m -> writable e out -> Forall has_pose m -> Forall has_frame m ->
  (forall m1 k m2 k' m3 t, m = m1 ++ k :: m2 ++ k' :: m3 -> stamped k t -> ~ stamped k' t) ->
  exists rows, run e (export_line f out None) = ([WTumE out rows], Ok 0) /\
    forall k t q, In k m -> stamped k t -> kf_pose _ _ _ k = Some q -> In (t, pdf_mean q) rows.
Proof.
  intros e f out m H Wr F G D. destruct (C220_export_keyframes e f out m H Wr F G) as (rows & tw & R & _ & _ & Mem & _).
  exists rows. split; [exact R|]. intros k t q I St P. apply Mem. apply in_split in I as (m1 & m2 & ->).
  exists m1, k, m2, q. split; [reflexivity|]. split; [exact St|]. split; [exact P|]. split; [reflexivity|].
  intros k' I'. apply in_split in I' as (m3 & m4 & ->). exact (D m1 k m3 k' m4 t eq_refl St).
Qed.

(** C222: the twist file does not have one row per frame: a frame without a twist has none, *)
Theorem C222_frame_without_twist_has_no_row_refuted : forall e f out ft k t q, holds e f [k] -> writable e out -> writable e ft -> ft <> ""%string ->
  stamped k t -> kf_pose _ _ _ k = Some q -> twist k = None ->
  run e (export_line f out (Some ft)) = ([WTwistE ft []; WTumE out [(t, pdf_mean q)]], Ok 0).
Proof.
  intros e f out ft k t q H Wr Wt NE St P Tw. apply stamped_iff in St as (os & E1 & F1).
  assert (E : export_loop PDF pdf_mean Twist Data [k] [] [] = Ok ([(t, pdf_mean q)], [])).
  { cbn [export_loop]. rewrite P, E1, F1, Tw. reflexivity. }
  unfold sm_cli, dispatch, export_line. cbn [a_version a_cmd String.eqb Ascii.eqb Bool.eqb]. unfold command_export_kf.
  cbn [a_help a_cmd a_out a_out_twist]. rewrite (read_ok _ _ _ _ _ _ H), wbnd_ok, E, lift_ok.
  destruct (String.eqb_spec ft ""); [contradiction|]. rewrite save_ok by exact Wt. rewrite save_ok by exact Wr. reflexivity.
Qed.
(** and where every frame has a time stamp and a twist it does: row i is that of frame i. *)
Theorem C222_twist_rows_where : forall e f out ft m, holds e f m -> writable e out -> writable e ft -> ft <> ""%string ->
  Forall has_pose m -> Forall (fun k => exists t, stamped k t) m -> Forall (fun k => twist k <> None) m ->
  exists rows tw, run e (export_line f out (Some ft)) = ([WTwistE ft tw; WTumE out rows], Ok 0) /\
    Forall2 (fun k r => stamped k (fst r) /\ twist k = Some (snd r)) m tw.
Proof.
  intros e f out ft m H Wr Wt NE F St Tw.
  assert (G : Forall has_frame m).
  { eapply Forall_impl; [|exact St]. intros k [t X]. apply stamped_iff in X as (os & E & _). unfold has_frame. rewrite E. discriminate. }
  destruct (C220_export_keyframes e f out m H Wr F G) as (rows & tw & _ & R & _ & _ & TR). exists rows, tw. split; [exact (R ft NE Wt)|].
  clear -TR St Tw. induction TR as [|k m t w rows S W TR IH|k m rows D TR IH].
  - constructor.
  - inversion St; subst. inversion Tw; subst. constructor; [split; assumption|]. apply IH; assumption.
  - exfalso. inversion St as [|? ? [t X] _]; subst. inversion Tw as [|? ? Y _]; subst. destruct D as [D|D]; [exact (D t X)|exact (Y D)].
Qed.

(** ** export-rawlog *)
Definition rawlog_line (f out : string) : Args := mkArgs ["export-rawlog"; f]%string false false None None None None (Some out) None.
(** the rawlog entry of a keyframe: its observations, its pose, and its twist if it has one, these two
    with the time stamp of the keyframe if it has one *)
Definition entry_of (k : KF) (es : list (Entry PDF Twist Data)) : Prop :=
  exists p os t, kf_pose _ _ _ k = Some p /\ frame k = Some os /\
    match t with Some t => stamped k t | None => forall t, ~ stamped k t end /\
    es = map (EObs PDF Twist Data) os ++ EPose PDF Twist Data t p :: match twist k with Some w => [ETwist PDF Twist Data t w] | None => [] end.

Lemma rawlog_stamp_ok os : no_null os -> rawlog_stamp Data os = Ok (first_stamp Data os).
Proof.
  induction os as [|[o|] os IH]; intro N; [reflexivity| |exfalso; apply N; left; reflexivity].
  cbn [rawlog_stamp first_stamp]. destruct (Z.eqb (ob_time Data o) InvalidTimeStamp); [|reflexivity]. apply IH. intro I. apply N. right. exact I.
Qed.
Lemma rawlog_ok m : Forall has_pose m -> Forall has_frame m -> no_null (all_obs m) ->
  exists es, rawlog_loop PDF Twist Data m = Ok es /\ Forall2 entry_of m es.
Proof.
  induction m as [|k m IH]; intros F G N; [exists []; split; [reflexivity|constructor]|].
  inversion F as [|? ? Fk Fm]; subst. inversion G as [|? ? Gk Gm]; subst. cbn [rawlog_loop].
  unfold SmCliProps.has_pose in Fk. unfold has_frame in Gk. destruct (kf_pose _ _ _ k) as [p|] eqn:EP; [|contradiction].
  destruct (frame k) as [os|] eqn:EF; [|contradiction].
  rewrite rawlog_stamp_ok by (intro X; apply N; cbn [all_obs flat_map]; apply in_or_app; left; unfold obs_of; rewrite EF; exact X).
  destruct IH as (es & E & A); [exact Fm|exact Gm|intro X; apply N; cbn [all_obs flat_map]; apply in_or_app; right; exact X|].
  rewrite E. cbn [rbind]. eexists. split; [reflexivity|]. constructor; [|exact A].
  exists p, os, (first_stamp Data os). split; [exact EP|]. split; [exact EF|]. split; [|reflexivity].
  destruct (first_stamp Data os) as [t|] eqn:ES; [apply stamped_iff; exists os; split; assumption|].
  intros t X. apply stamped_iff in X as (os' & E' & Fs). rewrite EF in E'. injection E' as <-. congruence.
Qed.
(** C223: `export-rawlog` writes one entry per keyframe, in order: its observations, then its pose with
    its covariance, then its twist if it has one. *)
Theorem C223_export_rawlog : forall e f out m, holds e f m -> writable e out -> Forall has_pose m -> Forall has_frame m -> no_null (all_obs m) ->
  exists es, run e (rawlog_line f out) = ([WRawlog PDF Twist Data out es], Ok 0) /\ Forall2 entry_of m es.
Proof.
  intros e f out m H Wr F G N. destruct (rawlog_ok m F G N) as (es & E & A). exists es. split; [|exact A].
  unfold sm_cli, dispatch, rawlog_line. cbn [a_version a_cmd String.eqb Ascii.eqb Bool.eqb]. unfold command_export_rawlog.
  cbn [a_help a_cmd a_out]. rewrite (read_ok _ _ _ _ _ _ H), wbnd_ok, E, lift_ok, save_ok by exact Wr. reflexivity.
Qed.
(** C225: a null observation before the first time stamp of a keyframe is dereferenced by `export-rawlog`
    (while `export-keyframes` skips it). *)
Theorem C225_null_observation_is_dereferenced_refuted : forall e f out k m os1 os2, holds e f (k :: m) -> has_pose k ->
  frame k = Some (os1 ++ None :: os2) -> (forall o, In (Some o) os1 -> ob_time _ o = InvalidTimeStamp) ->
  run e (rawlog_line f out) = ([], UB).
Proof.
  intros e f out k m os1 os2 H P Fr A. unfold sm_cli, dispatch, rawlog_line. cbn [a_version a_cmd String.eqb Ascii.eqb Bool.eqb].
  unfold command_export_rawlog. cbn [a_help a_cmd a_out]. rewrite (read_ok _ _ _ _ _ _ H), wbnd_ok. cbn [rawlog_loop].
  unfold SmCliProps.has_pose in P. destruct (kf_pose _ _ _ k); [|contradiction]. rewrite Fr.
  assert (E : rawlog_stamp Data (os1 ++ None :: os2) = UB).
  { clear -A. induction os1 as [|[o|] os1 IH]; [reflexivity| |reflexivity]. cbn [app rawlog_stamp]. rewrite (A o (or_introl eq_refl)), Z.eqb_refl.
    apply IH. intros o' I. apply A. right. exact I. }
  rewrite E. reflexivity.
Qed.
(** Where no observation is null it never reads a null pointer, whatever else the map lacks. *)
Theorem C225_no_null_where : forall e f out m, holds e f m -> no_null (all_obs m) -> snd (run e (rawlog_line f out)) <> UB.
Proof.
  intros e f out m H N. unfold sm_cli, dispatch, rawlog_line. cbn [a_version a_cmd String.eqb Ascii.eqb Bool.eqb].
  unfold command_export_rawlog. cbn [a_help a_cmd a_out]. rewrite (read_ok _ _ _ _ _ _ H), wbnd_ok.
  assert (E : rawlog_loop PDF Twist Data m <> UB).
  { clear -N. induction m as [|k m IH]; cbn [rawlog_loop]; [discriminate|]. destruct (kf_pose _ _ _ k); [|discriminate].
    destruct (frame k) as [os|] eqn:EF; [|discriminate].
    rewrite rawlog_stamp_ok by (intro X; apply N; cbn [all_obs flat_map]; apply in_or_app; left; unfold obs_of; rewrite EF; exact X).
    cbn [rbind]. destruct (rawlog_loop PDF Twist Data m); cbn [rbind]; try discriminate. exfalso. apply IH; [|reflexivity].
    intro X. apply N. cbn [all_obs flat_map]. apply in_or_app. right. exact X. }
  destruct (rawlog_loop PDF Twist Data m) as [es| |]; [|discriminate|contradiction].
  rewrite lift_ok. unfold save. destruct (e_writable _ _ _ e out); discriminate.
Qed.
End Props.

(** ** Examples: the hypotheses are met by a map of three keyframes *)
Definition ob (t : Time) (l : string) : option (Obs unit) := Some (mkObs unit t l "CObservation2DRangeScan" tt).
Definition at_ (x : R) : Pose := mkPose (mkV 1 0 0) (mkV 0 1 0) (mkV 0 0 1) (mkV x 0 0).
Definition ex_map : SM Pose nat unit :=
  [mkKF Pose nat unit (Some (at_ 0)) (Some [ob 0%Z "imu"; ob 7%Z "lidar"]) (Some 4);
   mkKF Pose nat unit (Some (at_ 1)) (Some [ob 5%Z "lidar"]) None;
   mkKF Pose nat unit (Some (at_ 2)) (Some []) (Some 6)].
Definition ex_env : Env Pose nat unit := mkEnv Pose nat unit (fun f => if String.eqb f "a" then Some (Some ex_map) else None) (fun _ => true).
Notation ex_run := (sm_cli Pose (fun p => p) pose_mul nat unit (fun _ _ => true) (fun _ => None) (fun _ => (0, 0, 0)%R)).
Example ex_hyps : SmCliProps.holds _ _ _ ex_env "a" ex_map /\ Forall (SmCliProps.has_pose _ _ _) ex_map /\ Forall (has_frame _ _ _) ex_map /\
  no_null unit (all_obs _ _ _ ex_map) /\ levmarq_contract (fun _ => (0, 0, 0)%R).
Proof.
  split; [reflexivity|]. split; [repeat constructor; discriminate|]. split; [repeat constructor; discriminate|].
  split; [unfold no_null; cbn; intuition discriminate|]. intro f. lra.
Qed.
Example ex_export : ex_run ex_env (export_line "a" "b" (Some "c"%string)) =
  ([WTwist Pose nat unit "c" [(7%Z, 4)]; WTum Pose nat unit "b" [(5%Z, at_ 1); (7%Z, at_ 0)]], Ok 0).
Proof. reflexivity. Qed.
Example ex_cut : ex_run ex_env (line ["cut"; "a"]%string (Some 1) (Some 2) None None (Some "b"%string)) = ([WSimplemap Pose nat unit "b" (skipn 1 ex_map)], Ok 0).
Proof. reflexivity. Qed.
