(** Proofs about FilterCurvature. *)
From Coq Require Lqa.
From Coq Require Import String Qabs Reals Qreals Lra.
From Verif Require Import Base FilterModel FilterSpec FilterProofs FilterProofs2 CurvModel CurvSpec.
From Verif Require PipelineProofs.
Open Scope string_scope.
Open Scope Q_scope.
Open Scope list_scope.

(** ** Lists *)
Lemma rev_filter_seq (f : nat -> bool) n :
  match rev (filter f (seq 0 n)) with
  | [] => forall k, (k < n)%nat -> f k = false
  | j :: _ => (j < n)%nat /\ f j = true /\ forall k, (j < k < n)%nat -> f k = false
  end.
Proof.
  induction n as [|n IH].
  - cbn. intros k H. lia.
  - rewrite seq_S, filter_app, rev_app_distr. cbn [filter Nat.add].
    destruct (f n) eqn:E; cbn [rev app].
    + split; [lia|]. split; [exact E|]. intros k H. lia.
    + destruct (rev (filter f (seq 0 n))) as [|j l].
      * intros k H. destruct (Nat.eq_dec k n) as [-> | N]; [exact E|apply IH; lia].
      * destruct IH as [A [B C]]. split; [lia|]. split; [exact B|].
        intros k H. destruct (Nat.eq_dec k n) as [-> | N]; [exact E|apply C; lia].
Qed.

Lemma nth_error_upd {A} (l : list A) i j x :
  nth_error (upd l i x) j = if Nat.eqb i j then match nth_error l j with Some _ => Some x | None => None end
                            else nth_error l j.
Proof.
  revert i j. induction l as [|a l IH]; intros [|i] [|j]; cbn; try reflexivity.
  - destruct (Nat.eqb i j); reflexivity.
  - apply IH.
Qed.

Lemma upd_length {A} (l : list A) i x : List.length (upd l i x) = List.length l.
Proof. revert i. induction l as [|a l IH]; intros [|i]; cbn; auto. Qed.

(** ** Thinning *)
Definition accf (acc : list bool) (i : nat) : bool := nth i acc false.

Definition surv_n (pts : list Pt) (acc : list bool) (n r : nat) : list nat :=
  filter (fun i => accf acc i && Nat.eqb (ring_at pts i) r) (seq 0 n).

Definition thin_n (cl : Q) (pts : list Pt) (acc : list bool) (n : nat) : Prop :=
  forall i, (i < n)%nat ->
    (accf acc i = false <->
     exists j, (j < i)%nat /\ ring_at pts j = ring_at pts i /\ accf acc j = true
       /\ (forall k, (j < k < i)%nat -> ring_at pts k = ring_at pts i -> accf acc k = false)
       /\ close_pts cl (pt_at pts i) (pt_at pts j)).

Lemma qabsd_abs a b : qabsd a b == Qabs (a - b).
Proof.
  unfold qabsd. destruct (Qltb (a - b) 0) eqn:E.
  - apply PipelineProofs.Qltb_lt in E. rewrite Qabs_neg by Lqa.lra. reflexivity.
  - assert (~ a - b < 0) by (intro H; apply PipelineProofs.Qltb_lt in H; congruence).
    rewrite Qabs_pos by Lqa.lra. reflexivity.
Qed.

Lemma too_close_iff cl a b : too_close cl a b = true <-> close_pts cl b a.
Proof.
  unfold too_close, close_pts. rewrite !andb_true_iff, !PipelineProofs.Qltb_lt, !qabsd_abs. tauto.
Qed.

Lemma accf_app_l acc b i : (i < List.length acc)%nat -> accf (acc ++ [b]) i = accf acc i.
Proof. intro H. unfold accf. apply app_nth1, H. Qed.
Lemma accf_app_r acc b : accf (acc ++ [b]) (List.length acc) = b.
Proof. unfold accf. rewrite app_nth2, Nat.sub_diag by lia. reflexivity. Qed.

Lemma surv_n_S pts acc b n r : List.length acc = n ->
  surv_n pts (acc ++ [b]) (S n) r
  = surv_n pts acc n r ++ (if b && Nat.eqb (ring_at pts n) r then [n] else []).
Proof.
  intro L. unfold surv_n. rewrite seq_S, filter_app. cbn [Nat.add filter]. f_equal.
  - apply filter_ext_in. intros i Hi. apply in_seq in Hi. rewrite accf_app_l by lia. reflexivity.
  - rewrite <- L at 1. rewrite accf_app_r. reflexivity.
Qed.

Lemma accept_spec cl pts nr : forall n i rings acc,
  List.length acc = i -> List.length rings = nr ->
  (forall k, (k < i + n)%nat -> (ring_at pts k < nr)%nat) ->
  (forall r, (r < nr)%nat -> nth_error rings r = Some (surv_n pts acc i r)) ->
  thin_n cl pts acc i ->
  exists rings' acc', accept_loop cl pts n i rings = Some rings'
    /\ List.length rings' = nr /\ List.length acc' = (i + n)%nat
    /\ (forall r, (r < nr)%nat -> nth_error rings' r = Some (surv_n pts acc' (i + n) r))
    /\ thin_n cl pts acc' (i + n).
Proof.
  induction n as [|n IH]; intros i rings acc La Lr Hr Hs Ht.
  - exists rings, acc. rewrite Nat.add_0_r. cbn. auto.
  - cbn [accept_loop]. pose proof (Hr i ltac:(lia)) as Hri. rewrite (Hs _ Hri).
    set (trg := surv_n pts acc i (ring_at pts i)).
    set (skip := match rev trg with [] => false
                 | li :: _ => too_close cl (pt_at pts li) (pt_at pts i) end).
    replace (i + S n)%nat with (S i + n)%nat in * by lia.
    apply (IH (S i) _ (acc ++ [negb skip])).
    + rewrite app_length. cbn. lia.
    + destruct skip; [exact Lr|]. rewrite upd_length. exact Lr.
    + exact Hr.
    + intros r Hlt. rewrite (surv_n_S pts acc (negb skip) i r La). destruct skip; cbn [negb andb].
      * rewrite app_nil_r. apply Hs, Hlt.
      * rewrite nth_error_upd, (Hs _ Hlt). destruct (Nat.eqb_spec (ring_at pts i) r) as [E|E].
        -- subst r. reflexivity.
        -- rewrite app_nil_r. reflexivity.
    + intros k Hk. destruct (Nat.eq_dec k i) as [-> | N].
      * rewrite <- La at 1. rewrite accf_app_r.
        pose proof (rev_filter_seq (fun q => accf acc q && Nat.eqb (ring_at pts q) (ring_at pts i)) i) as HF.
        change (filter _ (seq 0 i)) with trg in HF.
        unfold skip. destruct (rev trg) as [|li l].
        -- cbn [negb]. split; [discriminate|]. intros (j & A & B & C & _).
           rewrite accf_app_l in C by lia.
           specialize (HF j A). rewrite C, B, Nat.eqb_refl in HF. discriminate.
        -- destruct HF as (A & B & C). apply andb_true_iff in B as [B1 B2]. apply Nat.eqb_eq in B2.
           rewrite negb_false_iff, too_close_iff. split.
           ++ intro H. exists li. split; [exact A|]. split; [exact B2|].
              rewrite accf_app_l by lia. split; [exact B1|]. split; [|exact H].
              intros q Hq Hring. rewrite accf_app_l by lia. specialize (C q ltac:(lia)).
              rewrite Hring, Nat.eqb_refl, andb_true_r in C. exact C.
           ++ intros (j & A' & B' & C' & D' & E').
              rewrite accf_app_l in C' by lia.
              assert (j = li) as ->; [|exact E'].
              destruct (Nat.lt_trichotomy j li) as [H|[H|H]]; [|exact H|].
              ** assert (accf (acc ++ [negb (too_close cl (pt_at pts li) (pt_at pts i))]) li = false) as X
                   by (apply D'; [lia|exact B2]).
                 rewrite accf_app_l in X by lia. congruence.
              ** specialize (C j ltac:(lia)). rewrite C', B', Nat.eqb_refl in C. discriminate.
      * rewrite accf_app_l by lia. rewrite (Ht k) by lia.
        split; intros (j & A & B & C & D & E); exists j.
        -- split; [exact A|]. split; [exact B|]. rewrite accf_app_l by lia. split; [exact C|].
           split; [|exact E]. intros q Hq Hring. rewrite accf_app_l by lia. apply D; assumption.
        -- rewrite accf_app_l in C by lia.
           split; [exact A|]. split; [exact B|]. split; [exact C|].
           split; [|exact E]. intros q Hq Hring. specialize (D q Hq Hring).
           rewrite accf_app_l in D by lia. exact D.
Qed.

(** ** Position in a list *)
Fixpoint pos (l : list nat) (x : nat) : nat :=
  match l with [] => 0%nat | y :: t => if Nat.eqb y x then 0%nat else S (pos t x) end.

Lemma pos_nth l : NoDup l -> forall i, (i < List.length l)%nat -> pos l (nth i l 0%nat) = i.
Proof.
  induction 1 as [|x l Hx Hl IH]; intros [|i] H; cbn in *; try lia.
  - rewrite Nat.eqb_refl. reflexivity.
  - destruct (Nat.eqb_spec x (nth i l 0%nat)) as [E|E].
    + exfalso. apply Hx. rewrite E. apply nth_In. lia.
    + rewrite IH by lia. reflexivity.
Qed.

Lemma nth_pos l x : In x l -> (pos l x < List.length l)%nat /\ nth (pos l x) l 0%nat = x.
Proof.
  induction l as [|y l IH]; intros H; [destruct H|]. cbn [pos List.length].
  destruct (Nat.eqb_spec y x) as [E|E].
  - cbn. split; [lia|exact E].
  - destruct H as [H|H]; [contradiction|]. destruct (IH H). cbn. split; [lia|assumption].
Qed.

Lemma map_seq_nth {B} (g : nat -> nat -> B) (l : list nat) : NoDup l ->
  map (fun k => g k (nth k l 0%nat)) (seq 0 (List.length l)) = map (fun x => g (pos l x) x) l.
Proof.
  intro ND. apply nth_ext with (d := g 0%nat 0%nat) (d' := g 0%nat 0%nat).
  - rewrite !map_length, seq_length. reflexivity.
  - intros k Hk. rewrite map_length, seq_length in Hk.
    rewrite (nth_indep _ (g 0%nat 0%nat) (g 0%nat (nth 0 l 0%nat))) by (rewrite map_length, seq_length; exact Hk).
    rewrite (map_nth (fun k => g k (nth k l 0%nat))), seq_nth by exact Hk. cbn [Nat.add].
    rewrite (nth_indep _ (g 0%nat 0%nat) (g (pos l 0%nat) 0%nat)) by (rewrite map_length; exact Hk).
    rewrite (map_nth (fun x => g (pos l x) x)), pos_nth by assumption. reflexivity.
Qed.

Lemma split_at2 (l : list nat) k : (S k < List.length l)%nat ->
  exists l1 l2, l = l1 ++ nth k l 0%nat :: nth (S k) l 0%nat :: l2.
Proof.
  revert k. induction l as [|x l IH]; intros k H; [cbn in H; lia|].
  destruct k as [|k].
  - destruct l as [|y l]; [cbn in H; lia|]. exists [], l. reflexivity.
  - destruct (IH k) as (l1 & l2 & E); [cbn in H; lia|].
    exists (x :: l1), l2. cbn [app]. f_equal. exact E.
Qed.

Lemma head_last (l : list nat) : (2 <= List.length l)%nat ->
  exists l1, l = nth 0 l 0%nat :: l1 ++ [nth (List.length l - 1) l 0%nat].
Proof.
  intro H. destruct l as [|x l]; [cbn in H; lia|].
  destruct (exists_last (l := l)) as [l1 [y ->]]; [intros ->; cbn in H; lia|].
  exists l1. cbn [nth]. f_equal. f_equal. f_equal.
  replace (List.length (x :: l1 ++ [y]) - 1)%nat with (S (List.length l1))
    by (cbn [List.length]; rewrite app_length; cbn; lia).
  cbn [nth]. rewrite app_nth2, Nat.sub_diag by lia. reflexivity.
Qed.

Definition prev_of (l : list nat) (i : nat) : nat :=
  nth (if (0 <? pos l i)%nat then pos l i - 1 else List.length l - 1)%nat l 0%nat.
Definition next_of (l : list nat) (i : nat) : nat :=
  nth (if (pos l i <? List.length l - 1)%nat then pos l i + 1 else 0)%nat l 0%nat.

Lemma prev_follows l i : (2 <= List.length l)%nat -> In i l -> follows l (prev_of l i) i.
Proof.
  intros H Hi. destruct (nth_pos l i Hi) as [A B]. unfold prev_of.
  destruct (Nat.ltb_spec 0 (pos l i)) as [P|P].
  - left. destruct (split_at2 l (pos l i - 1)) as (l1 & l2 & E); [lia|].
    replace (S (pos l i - 1)) with (pos l i) in E by lia. rewrite B in E. eauto.
  - right. destruct (head_last l H) as [l1 E].
    replace (pos l i) with 0%nat in B by lia. rewrite B in E. eauto.
Qed.

Lemma next_follows l i : (2 <= List.length l)%nat -> In i l -> follows l i (next_of l i).
Proof.
  intros H Hi. destruct (nth_pos l i Hi) as [A B]. unfold next_of.
  destruct (Nat.ltb_spec (pos l i) (List.length l - 1)) as [P|P].
  - left. destruct (split_at2 l (pos l i)) as (l1 & l2 & E); [lia|].
    rewrite B in E. rewrite Nat.add_1_r. eauto.
  - right. destruct (head_last l H) as [l1 E].
    replace (pos l i) with (List.length l - 1)%nat in B by lia. rewrite B in E. eauto.
Qed.

(** ** Geometry *)
Lemma Q2R_dot a b c x y z :
  Q2R (a * x + b * y + c * z) = (Q2R a * Q2R x + Q2R b * Q2R y + Q2R c * Q2R z)%R.
Proof. rewrite !Q2R_plus, !Q2R_mult. reflexivity. Qed.

Lemma dot_R u1 u2 v1 v2 : Q2R (dot3 (sub3 u1 u2) (sub3 v1 v2)) = rdot (rvec u1 u2) (rvec v1 v2).
Proof. unfold dot3, sub3, rdot, rvec. rewrite Q2R_dot, !Q2R_minus. reflexivity. Qed.

Lemma rdot_nonneg u : (0 <= rdot u u)%R.
Proof.
  destruct u as [[a b] c]. unfold rdot.
  pose proof (Rle_0_sqr a). pose proof (Rle_0_sqr b). pose proof (Rle_0_sqr c).
  unfold Rsqr in *. lra.
Qed.

Lemma Qltb_R a b : Qltb a b = true <-> (Q2R a < Q2R b)%R.
Proof.
  rewrite PipelineProofs.Qltb_lt. split; [apply Qlt_Rlt|apply Rlt_Qlt].
Qed.

Lemma gap_iff c a b : Qltb (sq (cv_max_gap c)) (sqr3 (sub3 a b)) = true <-> gap c a b.
Proof.
  rewrite Qltb_R. unfold sqr3. rewrite dot_R. unfold sq. rewrite Q2R_mult.
  unfold gap, rdist, rnorm. set (g := Q2R (cv_max_gap c)).
  assert (Rabs g = sqrt (g * g)) as ->.
  { fold (Rsqr g). symmetry. apply sqrt_Rsqr_abs. }
  assert (0 <= g * g)%R by apply Rle_0_sqr.
  split; intro H0; [apply sqrt_lt_1_alt; split; assumption|apply sqrt_lt_0_alt; assumption].
Qed.

Lemma origin_dist a : rdot (rvec a origin) (rvec a origin) = Q2R (sqr3 (vec3 a)).
Proof.
  unfold sqr3, vec3, dot3, rvec, rdot, origin. cbn [px py pz]. rewrite Q2R_dot.
  replace (Q2R 0) with 0%R by (unfold Q2R; cbn; lra). rewrite !Rminus_0_r. reflexivity.
Qed.

Lemma nearer_iff a b : Qltb (sqr3 (vec3 a)) (sqr3 (vec3 b)) = true <-> (rdist a origin < rdist b origin)%R.
Proof.
  rewrite Qltb_R. unfold rdist, rnorm. rewrite <- !origin_dist.
  pose proof (rdot_nonneg (rvec a origin)).
  split; intro H0; [apply sqrt_lt_1_alt; split; assumption|apply sqrt_lt_0_alt; assumption].
Qed.

Lemma sharp_iff c h p n :
  angle_large (cv_max_cosine c) (sub3 p h) (sub3 n p) = true <-> sharp c h p n.
Proof.
  unfold angle_large, sharp. rewrite andb_true_iff, !Qltb_R. unfold sqr3, sq.
  rewrite !Q2R_mult, !dot_R.
  set (s := rdot (rvec p h) (rvec n p)). set (m := Q2R (cv_max_cosine c)). unfold rnorm.
  set (a := rdot (rvec p h) (rvec p h)). set (b := rdot (rvec n p) (rvec n p)).
  assert (0 <= a)%R as Ha by apply rdot_nonneg. assert (0 <= b)%R as Hb by apply rdot_nonneg.
  replace (Q2R 0) with 0%R by (unfold Q2R; cbn; lra).
  replace (m * sqrt a * sqrt b)%R with (m * sqrt (a * b))%R by (rewrite sqrt_mult by assumption; ring).
  assert (0 <= a * b)%R as Hab by (apply Rmult_le_pos; assumption).
  assert (m * m * (a * b) = (m * sqrt (a * b)) * (m * sqrt (a * b)))%R as ->.
  { transitivity (m * m * (sqrt (a * b) * sqrt (a * b)))%R; [|ring]. rewrite sqrt_sqrt by exact Hab. reflexivity. }
  pose proof (sqrt_pos (a * b)) as Hq. set (q := sqrt (a * b)) in *.
  assert (s * s = Rabs s * Rabs s)%R as -> by (rewrite <- Rabs_mult, Rabs_pos_eq; [reflexivity|apply Rle_0_sqr]).
  pose proof (Rabs_pos s) as Hs.
  split.
  - intros [Hm H]. assert (0 <= m * q)%R by (apply Rmult_le_pos; lra).
    apply Rsqr_incrst_0; [exact H|exact Hs|assumption].
  - intro H. assert (0 < m)%R as Hm.
    { destruct (Rle_lt_dec m 0) as [Z|Z]; [|exact Z]. exfalso.
      assert (m * q <= 0)%R by (rewrite <- (Rmult_0_l q); apply Rmult_le_compat_r; assumption). lra. }
    split; [exact Hm|]. apply Rsqr_incrst_1; [exact H|exact Hs|apply Rmult_le_pos; lra].
Qed.

(** ** Classes *)
Definition ckind (c : CurvCfg) (h p n : Pt) : Kind :=
  if Qltb (sq (cv_max_gap c)) (sqr3 (sub3 p h)) || Qltb (sq (cv_max_gap c)) (sqr3 (sub3 p n))
  then if Qltb (sqr3 (vec3 p)) (sqr3 (vec3 h)) then Larger else OtherKind
  else if angle_large (cv_max_cosine c) (sub3 p h) (sub3 n p) then Larger else Smaller.

Lemma target_kind c h p n : curv_target c h p n = kind_layer c (ckind c h p n).
Proof.
  unfold curv_target, ckind.
  destruct (_ || _); [destruct (Qltb (sqr3 (vec3 p)) _)|destruct (angle_large _ _ _)]; reflexivity.
Qed.

Lemma bool_not {b P} : (b = true <-> P) -> b = false -> ~ P.
Proof. intros H E X. apply H in X. congruence. Qed.

Lemma ckind_spec c ph p pn :
  let k := ckind c ph p pn in
  (gap c p ph \/ gap c p pn) /\ (rdist p origin < rdist ph origin)%R /\ k = Larger
  \/ (gap c p ph \/ gap c p pn) /\ ~ (rdist p origin < rdist ph origin)%R /\ k = OtherKind
  \/ ~ (gap c p ph \/ gap c p pn) /\ sharp c ph p pn /\ k = Larger
  \/ ~ (gap c p ph \/ gap c p pn) /\ ~ sharp c ph p pn /\ k = Smaller.
Proof.
  unfold ckind.
  assert (Qltb (sq (cv_max_gap c)) (sqr3 (sub3 p ph)) || Qltb (sq (cv_max_gap c)) (sqr3 (sub3 p pn)) = true
          <-> gap c p ph \/ gap c p pn) as HG by (rewrite orb_true_iff, !gap_iff; reflexivity).
  destruct (_ || _) eqn:E.
  - apply proj1 in HG. specialize (HG eq_refl).
    destruct (Qltb (sqr3 (vec3 p)) (sqr3 (vec3 ph))) eqn:F.
    + left. apply nearer_iff in F. auto.
    + right; left. split; [exact HG|]. split; [|reflexivity]. exact (bool_not (nearer_iff _ _) F).
  - pose proof (bool_not HG eq_refl) as HG'. right; right.
    destruct (angle_large _ _ _) eqn:F.
    + left. apply sharp_iff in F. auto.
    + right. split; [exact HG'|]. split; [|reflexivity]. exact (bool_not (sharp_iff _ _ _ _) F).
Qed.

Definition kind_in (c : CurvCfg) (pts : list Pt) (l : list nat) (i : nat) : Kind :=
  if (List.length l <=? 3)%nat then Larger
  else ckind c (pt_at pts (prev_of l i)) (pt_at pts i) (pt_at pts (next_of l i)).

Lemma ring_items_eq c pts l : NoDup l ->
  ring_items c pts l = map (fun i => (kind_layer c (kind_in c pts l i), pt_at pts i)) l.
Proof.
  intro ND. unfold ring_items, kind_in. destruct (List.length l <=? 3)%nat; [reflexivity|].
  unfold prev_of, next_of. refine (eq_trans _ (map_seq_nth (fun k i =>
     (kind_layer c (ckind c
        (pt_at pts (nth (if (0 <? k)%nat then k - 1 else List.length l - 1)%nat l 0%nat))
        (pt_at pts i)
        (pt_at pts (nth (if (k <? List.length l - 1)%nat then k + 1 else 0)%nat l 0%nat))), pt_at pts i)) l ND)).
  apply map_ext. intro k. rewrite target_kind. reflexivity.
Qed.

Lemma survivors_in pts acc r i :
  In i (survivors pts acc r) <-> (i < List.length pts)%nat /\ acc i = true /\ ring_at pts i = r.
Proof.
  unfold survivors. rewrite filter_In, in_seq, andb_true_iff, Nat.eqb_eq. split; [intros [A [B C]]; split; [lia|auto]|].
  intros [A [B C]]. split; [lia|auto].
Qed.

Lemma survivors_nodup pts acc r : NoDup (survivors pts acc r).
Proof. apply NoDup_filter, seq_NoDup. Qed.

Lemma kind_classified c pts acc i :
  (i < List.length pts)%nat -> acc i = true ->
  classified c pts acc i (kind_in c pts (survivors pts acc (ring_at pts i)) i).
Proof.
  intros Hi Ha. unfold kind_in.
  assert (In i (survivors pts acc (ring_at pts i))) as Hin by (apply survivors_in; auto).
  destruct (Nat.leb_spec (List.length (survivors pts acc (ring_at pts i))) 3) as [H|H].
  - apply cl_few. exact H.
  - eapply cl_regular.
    + exact H.
    + apply prev_follows; [lia|exact Hin].
    + apply next_follows; [lia|exact Hin].
    + apply ckind_spec.
Qed.

(** ** Emission *)
Definition given_of (items : list (Name * Pt)) (n : Name) : list Pt :=
  map snd (filter (fun np => String.eqb (fst np) n) items).

Lemma emit_grown : forall items m,
  (forall n p, In (n, p) items -> n <> "" -> is_pts m n) ->
  exists m', emit items m = (m', Val tt) /\
    forall n, lfind m' n =
      match lfind m n with
      | Some (LPts c) => if String.eqb n "" then lfind m n
          else Some (LPts (mkCloud (cl_cls c) (cl_pts c ++ map (conv (cl_cls c)) (given_of items n))))
      | x => x
      end.
Proof.
  induction items as [|[k p] l IH]; intros m H.
  - exists m. split; [reflexivity|]. intro n. cbn.
    destruct (lfind m n) as [[c| |]|]; try reflexivity.
    destruct (String.eqb n ""); [reflexivity|]. rewrite app_nil_r. destruct c; reflexivity.
  - cbn [emit]. unfold bnd. destruct (String.eqb k "") eqn:E.
    + unfold ret. destruct (IH m) as [m' [R G]].
      { intros n q Hq. apply (H n q). right; exact Hq. }
      exists m'. split; [exact R|]. intro n. rewrite G.
      destruct (lfind m n) as [[c| |]|]; try reflexivity.
      destruct (String.eqb n "") eqn:F; [reflexivity|].
      unfold given_of. cbn [filter fst]. apply String.eqb_eq in E. rewrite E.
      rewrite String.eqb_sym in F. rewrite F. reflexivity.
    + destruct (H k p (or_introl eq_refl)) as [c Hc].
      { apply String.eqb_neq; exact E. }
      unfold insert_from. rewrite Hc.
      set (m1 := lset m k _).
      assert (K : forall n q, In (n, q) l -> n <> "" -> is_pts m1 n).
      { intros n q Hq Nq. unfold is_pts, m1. rewrite lfind_lset.
        destruct (String.eqb k n); [eexists; reflexivity|].
        apply (H n q); [right; exact Hq|exact Nq]. }
      destruct (IH m1 K) as [m' [R G]]. exists m'. split; [exact R|].
      intro n. rewrite G. unfold m1. rewrite lfind_lset. unfold given_of. cbn [filter fst].
      destruct (String.eqb k n) eqn:F.
      * apply String.eqb_eq in F; subst n. rewrite Hc, E. cbn [map snd cl_cls cl_pts].
        rewrite <- app_assoc. reflexivity.
      * destruct (lfind m n) as [[d| |]|] eqn:D; reflexivity.
Qed.

Lemma emit_received m outs cls items :
  (forall n, In n outs -> usable m n) ->
  (forall n p, In (n, p) items -> n = "" \/ In n outs) ->
  (forall n p, In (n, p) items -> pt_of_class cls p) ->
  exists m', emit items (created m outs cls) = (m', Val tt) /\ Received m m' cls outs (given_of items).
Proof.
  intros U D W. set (m1 := created m outs cls).
  assert (K : forall n p, In (n, p) items -> n <> "" -> is_pts m1 n).
  { intros n p Hp Np. destruct (D n p Hp) as [E|I]; [congruence|]. unfold is_pts, m1. rewrite created_find.
    destruct (U _ I) as [E|[E|[d E]]]; [congruence| |].
    - rewrite E. assert (X : existsb (String.eqb n) outs = true).
      { apply existsb_exists. exists n. split; [exact I|apply seqb_refl]. }
      rewrite X. apply String.eqb_neq in Np. rewrite Np. eexists; reflexivity.
    - rewrite E. eexists; reflexivity. }
  destruct (emit_grown items m1 K) as [m' [R G]]. exists m'. split; [exact R|]. intro n. split.
  - intros [I N]. rewrite G. unfold m1. rewrite created_find.
    assert (N' : String.eqb n "" = false) by (apply String.eqb_neq; exact N).
    destruct (U _ I) as [E|[E|[d E]]]; [congruence| |].
    + rewrite E. assert (X : existsb (String.eqb n) outs = true).
      { apply existsb_exists. exists n. split; [exact I|apply seqb_refl]. }
      rewrite X, N'. cbn [andb negb cl_cls cl_pts app]. f_equal. f_equal. f_equal.
      unfold given_of. clear - W. induction items as [|[k p] l IH]; [reflexivity|].
      cbn [filter fst]. destruct (String.eqb k n).
      * cbn [map snd]. rewrite conv_id by (apply (W k p); left; reflexivity). f_equal.
        apply IH. intros k' p' H. apply (W k' p'). right; exact H.
      * apply IH. intros k' p' H. apply (W k' p'). right; exact H.
    + rewrite E, N'. reflexivity.
  - intros O. rewrite G. unfold m1. rewrite created_find.
    destruct (lfind m n) as [[d| |]|] eqn:E; try reflexivity.
    + destruct (String.eqb n "") eqn:Y; [reflexivity|].
      destruct O as [O|O]; [|subst n; discriminate].
      assert (given_of items n = []) as ->.
      { unfold given_of. clear - D O Y. induction items as [|[k p] l IH]; [reflexivity|]. cbn [filter fst].
        destruct (String.eqb k n) eqn:F.
        - exfalso. apply String.eqb_eq in F. subst k. destruct (D n p (or_introl eq_refl)) as [X|X].
          + subst n. discriminate.
          + contradiction.
        - apply IH. intros k' p' H. apply (D k' p'). right; exact H. }
      cbn [map]. rewrite app_nil_r. destruct d; reflexivity.
    + assert (X : existsb (String.eqb n) outs && negb (String.eqb n "") = false).
      { destruct O as [O|O].
        - apply andb_false_iff. left. destruct (existsb (String.eqb n) outs) eqn:Y; [|reflexivity].
          apply existsb_exists in Y. destruct Y as [x [I2 F]]. apply String.eqb_eq in F. subst x. contradiction.
        - subst n. rewrite andb_false_r. reflexivity. }
      rewrite X. reflexivity.
Qed.

(** ** Rings *)
Lemma max_ring_ge pts p : In p pts -> (p_ring p <= max_ring pts)%Z.
Proof.
  induction pts as [|q pts IH]; intros []; cbn [max_ring fold_right].
  - subst. lia.
  - specialize (IH H). unfold max_ring in IH. lia.
Qed.
Lemma max_ring_le pts b : (0 <= b)%Z -> Forall (fun p => (p_ring p <= b)%Z) pts -> (0 <= max_ring pts <= b)%Z.
Proof.
  intros Hb H. induction H as [|p l Hp Hl IH]; cbn [max_ring fold_right]; [lia|].
  unfold max_ring in IH. lia.
Qed.

Lemma survivors_none pts acc r nr :
  (forall k, (k < List.length pts)%nat -> (ring_at pts k < nr)%nat) -> (nr <= r)%nat -> survivors pts acc r = [].
Proof.
  intros H Hr. destruct (survivors pts acc r) as [|i l] eqn:E; [reflexivity|].
  assert (In i (survivors pts acc r)) as Hi by (rewrite E; left; reflexivity).
  apply survivors_in in Hi as (A & _ & B). specialize (H i A). lia.
Qed.

Lemma ring_by_ring_more pts acc nr n2 :
  (forall k, (k < List.length pts)%nat -> (ring_at pts k < nr)%nat) -> (nr <= n2)%nat ->
  ring_by_ring pts acc n2 = ring_by_ring pts acc nr.
Proof.
  intros H Hle. unfold ring_by_ring. replace n2 with (nr + (n2 - nr))%nat by lia.
  rewrite seq_app, flat_map_app. cbn [Nat.add].
  assert (flat_map (survivors pts acc) (seq nr (n2 - nr)) = []) as ->; [|apply app_nil_r].
  induction (n2 - nr)%nat as [|d IH]; [reflexivity|]. rewrite seq_S, flat_map_app, IH. cbn.
  rewrite (survivors_none pts acc (nr + d) nr H) by lia. reflexivity.
Qed.

Lemma map_seq_nth_error {A} (l : list A) (f : nat -> A) :
  (forall r, (r < List.length l)%nat -> nth_error l r = Some (f r)) -> l = map f (seq 0 (List.length l)).
Proof.
  revert f. induction l as [|x l IH]; intros f H; [reflexivity|].
  cbn [List.length seq map]. f_equal.
  - specialize (H 0%nat ltac:(cbn; lia)). cbn in H. congruence.
  - rewrite <- seq_shift, map_map. apply (IH (fun r => f (S r))).
    intros r Hr. apply (H (S r)). cbn. lia.
Qed.

Lemma curvature_spec c m src :
  lfind m (cv_in c) = Some (LPts src) -> wf_cloud src ->
  has_R (cl_cls src) = true -> cl_pts src <> [] ->
  Forall (fun p => (0 <= p_ring p <= 4998)%Z) (cl_pts src) ->
  usable m (cv_large c) -> usable m (cv_small c) -> usable m (cv_other c) ->
  (cv_large c <> "" \/ cv_small c <> "") ->
  exists m' acc kind,
    filter_curvature c m = (m', Val tt)
    /\ thinned (cv_min_clearance c) (cl_pts src) acc
    /\ (forall i, (i < List.length (cl_pts src))%nat -> acc i = true ->
          classified c (cl_pts src) acc i (kind i))
    /\ Received m m' (cl_cls src) [cv_large c; cv_small c; cv_other c]
         (fun n => map (pt_at (cl_pts src))
            (filter (fun i => String.eqb (kind_layer c (kind i)) n)
               (ring_by_ring (cl_pts src) acc 4999))).
Proof.
  intros H W HR NE RG U1 U2 U3 NN. set (pts := cl_pts src) in *.
  assert (0 <= max_ring pts <= 4998)%Z as HM.
  { apply max_ring_le; [lia|]. eapply Forall_impl; [|exact RG]. intros p Hp. cbn in Hp. lia. }
  assert (n_rings pts = S (Z.to_nat (max_ring pts))) as HN.
  { unfold n_rings. rewrite Z.mod_small by lia. rewrite Z2Nat.inj_add by lia. reflexivity. }
  assert (forall k, (k < List.length pts)%nat -> (ring_at pts k < n_rings pts)%nat) as HK.
  { intros k Hk. rewrite HN. unfold ring_at.
    assert (In (pt_at pts k) pts) as Hin by (apply nth_In; exact Hk).
    pose proof (max_ring_ge _ _ Hin). rewrite Forall_forall in RG. specialize (RG _ Hin).
    apply Nat.lt_succ_r. apply Z2Nat.inj_le; lia. }
  destruct (accept_spec (cv_min_clearance c) pts (n_rings pts) (List.length pts) 0
              (repeat [] (n_rings pts)) []) as (rings & acc & EA & LA & LB & SA & TA).
  - reflexivity.
  - apply repeat_length.
  - exact HK.
  - intros r Hr. rewrite (nth_error_nth' _ []) by (rewrite repeat_length; exact Hr).
    rewrite nth_repeat. reflexivity.
  - intros i Hi. lia.
  - cbn [Nat.add] in *.
    set (accb := accf acc).
    assert (forall r, surv_n pts acc (List.length pts) r = survivors pts accb r) as ES by reflexivity.
    assert (rings = map (survivors pts accb) (seq 0 (n_rings pts))) as ER.
    { rewrite <- LA. apply map_seq_nth_error. intros r Hr. rewrite LA in Hr. rewrite (SA r Hr). reflexivity. }
    set (kind := fun i => kind_in c pts (survivors pts accb (ring_at pts i)) i).
    assert (flat_map (ring_items c pts) rings =
            map (fun i => (kind_layer c (kind i), pt_at pts i)) (ring_by_ring pts accb (n_rings pts))) as EI.
    { rewrite ER. unfold ring_by_ring. rewrite flat_map_concat_map, map_map, <- flat_map_concat_map.
      rewrite (flat_map_concat_map (survivors pts accb)), concat_map, map_map, <- flat_map_concat_map.
      rewrite !flat_map_concat_map. f_equal. apply map_ext. intro r.
      rewrite ring_items_eq by apply survivors_nodup. apply map_ext_in. intros i Hi.
      apply survivors_in in Hi as (_ & _ & Er). unfold kind. rewrite Er. reflexivity. }
    destruct (emit_received m [cv_large c; cv_small c; cv_other c] (cl_cls src)
                (flat_map (ring_items c pts) rings)) as [m' [E1 E2]].
    + intros n [<-|[<-|[<-|[]]]]; assumption.
    + intros n p Hp. rewrite EI in Hp. apply in_map_iff in Hp as [i [Ei _]]. injection Ei as <- _.
      right. destruct (kind i); cbn; tauto.
    + intros n p Hp. rewrite EI in Hp. apply in_map_iff in Hp as [i [Ei Hi]]. injection Ei as _ <-.
      unfold ring_by_ring in Hi. apply in_flat_map in Hi as [r [_ Hi]]. apply survivors_in in Hi as [Hi _].
      unfold wf_cloud in W. rewrite Forall_forall in W. apply W. apply nth_In. exact Hi.
    + exists m', accb, kind. split; [|split; [|split]].
      * unfold filter_curvature, bnd. rewrite (input_ok _ _ _ H).
        rewrite (goc_usable _ _ _ U1).
        rewrite (goc_usable _ _ _ (usable_created _ _ _ _ U2)), created_app.
        rewrite (goc_usable _ _ _ (usable_created _ _ _ _ U3)), created_app. cbn [app].
        assert (negb (String.eqb (cv_large c) "") || negb (String.eqb (cv_small c) "") = true) as ->.
        { destruct NN as [X|X]; apply seqb_neq in X; rewrite X; [reflexivity|apply orb_true_r]. }
        assert (channel_ok (has_R (cl_cls src)) src = true) as ->.
        { unfold channel_ok. rewrite HR. fold pts. destruct pts; [contradiction|reflexivity]. }
        unfold massert, ret. cbv zeta. fold pts.
        assert ((n_rings pts =? 0)%nat = false) as -> by (rewrite HN; reflexivity).
        assert ((n_rings pts <? 5000)%nat = true) as ->.
        { apply Nat.ltb_lt. rewrite HN.
          pose proof (proj1 (Z2Nat.inj_le (max_ring pts) 4998 ltac:(lia) ltac:(lia)) ltac:(lia)) as X.
          change (Z.to_nat 4998) with 4998%nat in X. lia. }
        rewrite EA. exact E1.
      * exact TA.
      * intros i Hi Ha. apply kind_classified; assumption.
      * assert (forall n, given_of (flat_map (ring_items c pts) rings) n =
           map (pt_at pts) (filter (fun i => String.eqb (kind_layer c (kind i)) n) (ring_by_ring pts accb 4999))) as EG.
        { intro n. rewrite EI. rewrite (ring_by_ring_more pts accb (n_rings pts) 4999 HK).
          2:{ rewrite HN. pose proof (proj1 (Z2Nat.inj_le (max_ring pts) 4998 ltac:(lia) ltac:(lia)) ltac:(lia)) as X.
              change (Z.to_nat 4998) with 4998%nat in X. lia. }
          unfold given_of. clear - kind. induction (ring_by_ring pts accb (n_rings pts)) as [|i l IH]; [reflexivity|].
          cbn [map filter fst]. destruct (String.eqb (kind_layer c (kind i)) n); [|exact IH].
          cbn [map snd]. f_equal. exact IH. }
        intro n. specialize (E2 n). rewrite EG in E2. exact E2.
Qed.
