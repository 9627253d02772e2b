(** Properties C37, C38, C57: the velocity buffer and the trajectory reconstruction. *)
From Verif Require Import Base VelocityModel VelocityProofs.
From Coq Require Import Sorted.
Open Scope Z_scope.

(** Specification vocabulary (independent of the model's functions): [o] inserts the sample
    [v] at stamp [s] ([adds], linear or angular), [time_of o] is the stamp of an insertion
    and None for clear(). *)

(** C37.  After any history of insertions (linear, angular, in any order of stamps) and
    clears, a sample (s, v) is in the linear (angular) buffer iff it was inserted, no later
    insertion of that kind had the same stamp, and from that insertion on nothing was
    cleared and no inserted stamp (of either kind) was newer than s by more than the window.
    The buffer is in strictly ascending order of stamps (so one value per stamp). *)
Theorem C37_exact_content :
  forall (V : Type) (window : Z) (h : list (@VOp V)) (lin : bool) (s : Z) (v : V),
  In (s, v) (buf lin (vrun window h)) <->
  exists h1 o h2, h = h1 ++ o :: h2 /\ adds lin o s v
    /\ (forall o', In o' h2 -> forall v', ~ adds lin o' s v')
    /\ (forall o', In o' (o :: h2) -> exists t, time_of o' = Some t /\ t - s <= window).
Proof. intros. apply vrun_in. Qed.
Print Assumptions C37_exact_content.

Theorem C37_one_value_per_stamp_in_order :
  forall (V : Type) (window : Z) (h : list (@VOp V)) (lin : bool),
  StronglySorted (fun a b : Z * V => fst a < fst b) (buf lin (vrun window h)).
Proof. intros. destruct (vrun_ok window h) as [A B]. destruct lin; assumption. Qed.
Print Assumptions C37_one_value_per_stamp_in_order.

(** The usual case: insertions in time order, no clear.  [h ++ [o]] is the history, the
    stamps never decrease.  The buffer holds exactly the last value of every inserted stamp
    not older than the window with respect to the last insertion. *)
Theorem C37_time_ordered :
  forall (V : Type) (window : Z) (h : list (@VOp V)) (o : VOp) (now : Z) (lin : bool) (s : Z) (v : V),
  time_of o = Some now ->
  (forall h1 a h2 b h3, h ++ [o] = h1 ++ a :: h2 ++ b :: h3 ->
     exists ta tb, time_of a = Some ta /\ time_of b = Some tb /\ ta <= tb) ->
  0 <= window ->
  (In (s, v) (buf lin (vrun window (h ++ [o]))) <->
   now - s <= window /\
   exists h1 a h2, h ++ [o] = h1 ++ a :: h2 /\ adds lin a s v
     /\ forall o', In o' h2 -> forall v', ~ adds lin o' s v').
Proof.
  intros V W h o now lin s v Hnow Hord HW. rewrite vrun_in. split.
  - intros [h1 [a [h2 [E [Ha [Hl Hf]]]]]]. split; [|exists h1, a, h2; auto].
    assert (In o (a :: h2)) as Ho.
    { destruct h2 as [|y h2] using rev_ind.
      - apply app_inj_tail in E as [_ ->]. left; reflexivity.
      - change (a :: h2 ++ [y]) with ((a :: h2) ++ [y]) in E. rewrite app_assoc in E. apply app_inj_tail in E as [_ ->].
        right. apply in_or_app. right; left; reflexivity. }
    destruct (Hf o Ho) as [t [Et Ht]]. congruence.
  - intros [Hw [h1 [a [h2 [E [Ha Hl]]]]]]. exists h1, a, h2. split; [exact E|]. split; [exact Ha|]. split; [exact Hl|].
    intros o' Ho'. apply in_split in Ho' as [m1 [m2 Em]]. rewrite Em in E.
    destruct m2 as [|y m2] using rev_ind.
    + assert (o = o') as ->.
      { rewrite app_assoc in E. change [o'] with ([] ++ [o']) in E. apply app_inj_tail in E as [_ E]. exact E. }
      exists now. auto.
    + clear IHm2. assert (o = y) as <-.
      { change (o' :: m2 ++ [y]) with ((o' :: m2) ++ [y]) in E. rewrite !app_assoc in E. apply app_inj_tail in E as [_ E]. exact E. }
      destruct (Hord (h1 ++ m1) o' m2 o []) as [ta [tb [Eta [Etb Hle]]]].
      { rewrite E, <- app_assoc. reflexivity. }
      exists ta. split; [exact Eta|]. assert (tb = now) by congruence. lia.
Qed.
Print Assumptions C37_time_ordered.

Example C37_case :
  linear (vrun 10 [AddLin 0 1; AddAng 3 7; AddLin 12 2; AddLin 12 5; AddLin 13 4]) = [(12, 5); (13, 4)]
  /\ angular (vrun 10 [AddLin 0 1; AddAng 3 7; AddLin 12 2; AddLin 12 5; AddLin 13 4]) = [(3, 7)].
Proof. split; reflexivity. Qed.

(** C38.  [ang] is the angular-velocity container of any history, STEP the interpolation step,
    EPS the smallest step integrated.
    (a) nothing within the tolerance of the reference: empty trajectory;
    (b) otherwise, with [ref] the buffered stamp closest to the reference: if some buffered
        stamp lies at least the half span after ref, the call succeeds, the identity is at
        relative time 0, no relative time appears twice, every returned time lies between
        two buffered stamps, and (samples at least EPS apart) every instant of the requested
        span not older than the buffer has a pose less than STEP + EPS away;
    (c) if every buffered stamp is closer than that, the call dereferences the end
        iterator. *)
Theorem C38_empty_when_nothing_close :
  forall (V P : Type) (integrate : P -> V -> Z -> P) ident STEP EPS window (h : list VOp) ref0 tol half,
  (forall s v, In (s, v) (angular (vrun window h)) -> tol < Z.abs (s - ref0)) ->
  reconstruct integrate ident STEP EPS (angular (vrun window h)) ref0 tol half = Ok [].
Proof.
  intros. apply reconstruct_none. intros k Hk. apply in_map_iff in Hk as [[s v] [<- Hk]]. eauto.
Qed.
Print Assumptions C38_empty_when_nothing_close.

Definition has_later {V} (ang : list (Z * V)) (ref half : Z) : Prop := exists s v, In (s, v) ang /\ half <= s - ref.

Lemma last_in {A} (l : list A) d : l <> [] -> In (last l d) l.
Proof.
  induction l as [|x l IH]; [congruence|]. intros _. destruct l as [|y l]; [left; reflexivity|].
  right. apply IH. discriminate.
Qed.

Theorem C38_reconstruction :
  forall (V P : Type) (integrate : P -> V -> Z -> P) ident STEP EPS window (h : list VOp) ref0 tol half,
  0 < EPS -> EPS <= STEP ->
  let ang := angular (vrun window h) in
  (exists s v, In (s, v) ang /\ Z.abs (s - ref0) <= tol) ->
  exists ref w, In (ref, w) ang /\ Z.abs (ref - ref0) <= tol
   /\ (forall s v, In (s, v) ang -> Z.abs (ref - ref0) <= Z.abs (s - ref0))
   /\ (has_later ang ref half -> exists tr,
        reconstruct integrate ident STEP EPS ang ref0 tol half = Ok tr
        /\ In (0, ident) tr /\ NoDup (map fst tr)
        /\ (forall k p, In (k, p) tr -> exists a b va vb, In (a, va) ang /\ In (b, vb) ang /\ a <= ref + k <= b)
        /\ ((forall a va b vb, In (a, va) ang -> In (b, vb) ang -> a < b -> EPS <= b - a) ->
            forall t, ref - half <= t <= ref + half -> (exists a va, In (a, va) ang /\ a <= t) ->
             exists k p, In (k, p) tr /\ Z.abs (ref + k - t) < STEP + EPS)).
Proof.
  intros V P integrate ident STEP EPS W h ref0 tol half HE HSE ang [s [v [Hin Hs]]].
  destruct (vrun_ok W h) as [_ HS]. fold ang in HS.
  destruct (reconstruct_spec integrate ident STEP EPS HE HSE ang ref0 tol half (s, v) HS) as [ref [R1 [R2 [R3 [R4 R5]]]]].
  { exists s. split; [apply in_map_iff; exists (s, v); auto|exact Hs]. }
  apply in_map_iff in R1 as [[ref' w] [E R1]]. cbn in E. subst ref'. exists ref, w. split; [exact R1|]. split; [exact R2|].
  split; [intros s' v' Hi; apply R3; apply in_map_iff; exists (s', v'); auto|].
  intros [s' [v' [Hi Hh]]].
  destruct R5 as [tr [E [T1 [T2 [T3 T4]]]]].
  { pose proof (last_ge ang HS (s, v) (s', v') Hi) as X. cbn in X. lia. }
  exists tr. split; [exact E|]. split; [exact T1|]. split; [exact T2|]. split.
  - intros k p Hk. destruct (T3 k) as [[a va] [[b vb] [A [B C]]]]; [apply in_map_iff; exists (k, p); auto|].
    exists a, b, va, vb. auto.
  - intros Hsp t Ht [a [va [Ha Hat]]]. destruct (T4) with (t := t) as [k [Hk Hkt]].
    + intros [a1 v1] [b1 v2] X Y Z0. exact (Hsp a1 v1 b1 v2 X Y Z0).
    + exact Ht.
    + exists (a, va). auto.
    + apply in_map_iff in Hk as [[k' p] [<- Hk]]. exists k', p. auto.
Qed.
Print Assumptions C38_reconstruction.

(** The part "never dereferences past the end" is false: whenever the buffer does not extend
    the whole half span past the reference sample, for example always when the reference is
    the newest sample. *)
Theorem C133_past_the_end_refuted :
  forall (V P : Type) (integrate : P -> V -> Z -> P) ident STEP EPS window (h : list VOp) ref0 tol half,
  0 < EPS -> EPS <= STEP ->
  let ang := angular (vrun window h) in
  (exists s v, In (s, v) ang /\ Z.abs (s - ref0) <= tol) ->
  exists ref w, In (ref, w) ang /\ (forall s v, In (s, v) ang -> Z.abs (ref - ref0) <= Z.abs (s - ref0))
   /\ (~ has_later ang ref half -> reconstruct integrate ident STEP EPS ang ref0 tol half = UB).
Proof.
  intros V P integrate ident STEP EPS W h ref0 tol half HE HSE ang [s [v [Hin Hs]]].
  destruct (vrun_ok W h) as [_ HS]. fold ang in HS.
  destruct (reconstruct_spec integrate ident STEP EPS HE HSE ang ref0 tol half (s, v) HS) as [ref [R1 [R2 [R3 [R4 R5]]]]].
  { exists s. split; [apply in_map_iff; exists (s, v); auto|exact Hs]. }
  apply in_map_iff in R1 as [[ref' w] [E R1]]. cbn in E. subst ref'. exists ref, w. split; [exact R1|].
  split; [intros s' v' Hi; apply R3; apply in_map_iff; exists (s', v'); auto|].
  intro Hno. apply R4. assert (ang <> []) as Hne by (intro X; rewrite X in Hin; destruct Hin).
  pose proof (last_in ang (s, v) Hne) as L. destruct (Z.lt_ge_cases (fst (last ang (s, v)) - ref) half) as [|G]; [assumption|].
  exfalso. apply Hno. exists (fst (last ang (s, v))), (snd (last ang (s, v))). rewrite <- surjective_pairing. auto.
Qed.
Print Assumptions C133_past_the_end_refuted.

Definition rot1 (p w dt : Z) : Z := p + w * dt.
Definition hist1 : list (@VOp Z) := [AddAng 0 1; AddAng 10 2; AddAng 25 3; AddAng 60 4].
Example C38_case_ok :
  reconstruct rot1 0 10 1 (angular (vrun 1000 hist1)) 11 5 30
  = Ok [(0, 0); (10, 20); (15, 30); (25, 60); (35, 90); (45, 120); (50, 135); (-10, -20)].
Proof. reflexivity. Qed.
Example C38_case_ub : reconstruct rot1 0 10 1 (angular (vrun 1000 hist1)) 58 5 30 = UB.
Proof. reflexivity. Qed.
Example C38_case_far : reconstruct rot1 0 10 1 (angular (vrun 1000 hist1)) 100 5 30 = Ok [].
Proof. reflexivity. Qed.
