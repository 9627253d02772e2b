(** C350: trimmed ICP (inlier-ratio matcher) never makes the trimmed cost worse.
    C351: with the default options it may. *)
From Coq Require Import Reals Qreals Qround List Lra Lia Permutation Sorted.
From Verif Require Import Base PairingsModel MatcherModel BitfieldModel BitfieldProofs PointMatcherModel PointMatcherSpec BruteNN
  SolverModel QualityModel IcpModel GeomModel VisitModel VisitSpec VisitProps RotProofs
  HornModel HornProofs NoiselessProofs HornProps OlaeModel EndToEndModel EndToEndProps MonotoneProps DescentProofs.
From Verif Require LpmProps.
Import ListNotations.
Open Scope nat_scope.

(** ** Specification *)
(** The squared distance of a local point, moved by [T], to the nearest global point. *)
Definition dist2 (T : Pose) (l g : P3) : R := vnorm2 (vsub (compose T (to_v l)) (to_v g)).
Definition nearest_cost (Gs : list P3) (T : Pose) (l : P3) : R :=
  match Gs with [] => 0%R | g :: r => fold_right (fun h a => Rmin (dist2 T l h) a) (dist2 T l g) r end.

(** The sum of the [k] smallest numbers of a list. *)
Definition rsum (xs : list R) : R := fold_right Rplus 0%R xs.
Fixpoint insertR (x : R) (l : list R) : list R :=
  match l with [] => [x] | y :: r => if Rle_dec x y then x :: l else y :: insertR x r end.
Definition sortR (l : list R) : list R := fold_right insertR [] l.
Definition trimmed (k : nat) (xs : list R) : R := rsum (firstn k (sortR xs)).

(** The cost that trimmed ICP minimises: the [k] local points nearest to the global map. *)
Definition trimmed_cost (k : nat) (Gs Ls : list P3) (T : Pose) : R := trimmed k (map (nearest_cost Gs T) Ls).

(** how many of [n] pairs the matcher keeps *)
Definition kept (mround : Q -> Z) (ratio : Q) (n : nat) : nat := Z.to_nat (mround (inject_Z (Z.of_nat n) * ratio)%Q).

(** ** The sum of the smallest *)
Lemma insertR_perm x l : Permutation (insertR x l) (x :: l).
Proof. induction l as [|y l IH]; cbn [insertR]; [reflexivity|]. destruct (Rle_dec x y); [reflexivity|]. rewrite IH. apply perm_swap. Qed.
Lemma sortR_perm l : Permutation (sortR l) l.
Proof. induction l as [|x l IH]; [reflexivity|]. change (sortR (x :: l)) with (insertR x (sortR l)). rewrite insertR_perm, IH. reflexivity. Qed.
Lemma insertR_sorted x l : StronglySorted Rle l -> StronglySorted Rle (insertR x l).
Proof.
  induction 1 as [|y l Hs IH HF]; cbn [insertR]; [repeat constructor|]. destruct (Rle_dec x y) as [L|L].
  - constructor; [constructor; assumption|]. constructor; [exact L|]. eapply Forall_impl; [|exact HF]. intros z Hz. cbn beta in *. lra.
  - constructor; [exact IH|]. rewrite Forall_forall in *. intros z Hz. apply (Permutation_in _ (insertR_perm x l)) in Hz.
    destruct Hz as [<-|Hz]; [lra|apply HF; exact Hz].
Qed.
Lemma sortR_sorted l : StronglySorted Rle (sortR l).
Proof. induction l as [|x l IH]; [constructor|]. apply insertR_sorted. exact IH. Qed.

Lemma rsum_perm xs ys : Permutation xs ys -> rsum xs = rsum ys.
Proof. unfold rsum. induction 1; cbn [fold_right]; lra. Qed.

Lemma smallest_le zs : StronglySorted Rle zs -> forall a b, Permutation zs (a ++ b) -> (rsum (firstn (length a) zs) <= rsum a)%R.
Proof.
  induction 1 as [|z zs Hs IH HF]; intros a b P.
  - apply Permutation_nil in P. apply app_eq_nil in P. destruct P as [-> _]. cbn. lra.
  - assert (I : In z (a ++ b)) by (apply (Permutation_in _ P); left; reflexivity).
    assert (LOW : forall y, In y (a ++ b) -> (z <= y)%R).
    { intros y Hy. apply (Permutation_in _ (Permutation_sym P)) in Hy. destruct Hy as [<-|Hy]; [lra|]. rewrite Forall_forall in HF. apply HF. exact Hy. }
    apply in_app_or in I. destruct I as [I|I].
    + apply in_split in I. destruct I as (a1 & a2 & ->). rewrite app_length. cbn [length]. rewrite Nat.add_succ_r. cbn [firstn].
      assert (P' : Permutation zs ((a1 ++ a2) ++ b)).
      { apply (Permutation_cons_inv (a := z)). rewrite P, <- !app_assoc. cbn [app]. symmetry. apply Permutation_middle. }
      specialize (IH _ _ P'). rewrite app_length in IH.
      rewrite (rsum_perm (a1 ++ z :: a2) (z :: a1 ++ a2)) by (symmetry; apply Permutation_middle). cbn [rsum fold_right] in *.
      fold (rsum (a1 ++ a2)). fold (rsum (firstn (length a1 + length a2) zs)). lra.
    + destruct a as [|y a]; [cbn; lra|]. cbn [length firstn]. apply in_split in I. destruct I as (b1 & b2 & ->).
      assert (P' : Permutation zs (a ++ y :: b1 ++ b2)).
      { apply (Permutation_cons_inv (a := z)). rewrite P. cbn [app].
        transitivity (y :: z :: (a ++ b1 ++ b2)).
        - constructor. rewrite (Permutation_app_head a (Permutation_sym (Permutation_middle b1 b2 z))). symmetry. apply Permutation_middle.
        - rewrite perm_swap. constructor. apply Permutation_middle. }
      specialize (IH _ _ P'). assert (X := LOW y (or_introl eq_refl)). cbn [rsum fold_right] in *. fold (rsum a). fold (rsum (firstn (length a) zs)). fold (rsum a) in IH. lra.
Qed.

(** [trimmed] is the least sum of [k] of the numbers *)
Theorem trimmed_spec k xs : k <= length xs ->
  (exists a b, Permutation xs (a ++ b) /\ length a = k /\ trimmed k xs = rsum a) /\
  (forall a b, Permutation xs (a ++ b) -> length a = k -> (trimmed k xs <= rsum a)%R).
Proof.
  intro L. split.
  - exists (firstn k (sortR xs)), (skipn k (sortR xs)). rewrite firstn_skipn. split; [symmetry; apply sortR_perm|]. split; [|reflexivity].
    rewrite firstn_length, (Permutation_length (sortR_perm xs)). lia.
  - intros a b P <-. apply (smallest_le _ (sortR_sorted xs) a b). rewrite sortR_perm. exact P.
Qed.

(** ** Nearest points *)
Lemma nearest_le Gs T l g : In g Gs -> (nearest_cost Gs T l <= dist2 T l g)%R.
Proof.
  destruct Gs as [|g0 Gs]; [intros []|]. unfold nearest_cost. intro I.
  assert (A : forall b, (fold_right (fun h a => Rmin (dist2 T l h) a) b Gs <= b)%R).
  { intro b. clear I. induction Gs as [|h Gs IH]; cbn [fold_right]; [lra|]. eapply Rle_trans; [apply Rmin_r|exact IH]. }
  destruct I as [<-|I]; [apply A|]. revert I. generalize (dist2 T l g0). clear g0 A. intro b.
  induction Gs as [|h Gs IH]; intros []; cbn [fold_right].
  - subst h. apply Rmin_l.
  - eapply Rle_trans; [apply Rmin_r|apply IH; assumption].
Qed.
Lemma nearest_case Gs T l : Gs <> [] -> exists g, In g Gs /\ nearest_cost Gs T l = dist2 T l g.
Proof.
  destruct Gs as [|g0 Gs]; [contradiction|]. intros _. unfold nearest_cost.
  induction Gs as [|h Gs IH]; cbn [fold_right]; [exists g0; split; [left; reflexivity|reflexivity]|].
  unfold Rmin. destruct (Rle_dec _ _) as [H|H].
  - exists h. split; [right; left; reflexivity|reflexivity].
  - destruct IH as (g & I & E). exists g. split; [|exact E]. destruct I as [I|I]; [left; exact I|right; right; exact I].
Qed.

(** ** The candidates *)
Definition cand_of (nn : NNMap) (tf : P3 -> P3) (gname lname : nat) (i : nat) (l : P3) : list Pair :=
  match nn_search nn (tf l) 1 with
  | [] => []
  | (gi, g, d) :: _ => [mkPair gi i g l d gname lname]
  end.
Fixpoint cands_from (nn : NNMap) (tf : P3 -> P3) (gname lname : nat) (i : nat) (ls : list P3) : list Pair :=
  match ls with [] => [] | l :: r => cand_of nn tf gname lname i l ++ cands_from nn tf gname lname (S i) r end.

Definition ple (a b : Pair) : Prop := (p_err a <= p_err b)%Q.
Lemma mm_insert_perm p l : Permutation (PointMatcherModel.mm_insert p l) (p :: l).
Proof. induction l as [|x l IH]; cbn [PointMatcherModel.mm_insert]; [reflexivity|]. destruct (Qltb _ _); [|reflexivity]. rewrite IH. apply perm_swap. Qed.
Lemma Qltb_iff a b : Qltb a b = true <-> (a < b)%Q.
Proof.
  unfold Qltb. rewrite Bool.negb_true_iff. split; intro H.
  - apply Qnot_le_lt. intro X. apply Qle_bool_iff in X. congruence.
  - destruct (Qle_bool b a) eqn:E; [|reflexivity]. apply Qle_bool_iff in E. exfalso. apply (Qlt_not_le _ _ H E).
Qed.
Lemma mm_insert_sorted p l : StronglySorted ple l -> StronglySorted ple (PointMatcherModel.mm_insert p l).
Proof.
  induction 1 as [|y l Hs IH HF]; cbn [PointMatcherModel.mm_insert]; [repeat constructor|]. destruct (Qltb (p_err y) (p_err p)) eqn:E.
  - apply Qltb_iff in E. constructor; [exact IH|]. rewrite Forall_forall in *. intros z Hz. apply (Permutation_in _ (mm_insert_perm p l)) in Hz.
    destruct Hz as [<-|Hz]; [apply Qlt_le_weak; exact E|apply HF; exact Hz].
  - assert (L : (p_err p <= p_err y)%Q) by (apply Qnot_lt_le; intro X; apply Qltb_iff in X; congruence).
    constructor; [constructor; assumption|]. constructor; [exact L|]. eapply Forall_impl; [|exact HF]. unfold ple. intros z Hz. eapply Qle_trans; [exact L|exact Hz].
Qed.

Lemma ir_candidates_all b nn Ls tf gname lname ms mn mx m : (forall i, i < length Ls -> query (ms_local ms) lname i = Ok false) ->
  forall i acc, i + m = length Ls ->
  ir_candidates b nn Ls (mkTL mn mx None (map tf Ls)) gname lname ms (seq i m) acc
    = Ok (fold_left (fun a x => PointMatcherModel.mm_insert x a) (cands_from nn tf gname lname i (skipn i Ls)) acc).
Proof.
  intro UL. induction m as [|m IH]; intros i acc IM.
  - cbn [seq ir_candidates]. rewrite skipn_all2 by lia. reflexivity.
  - cbn [seq ir_candidates]. cbn [local_index tl_idxs rbind fst].
    assert (Li : i < length Ls) by lia.
    destruct (nth_error Ls i) as [l|] eqn:El; [|apply nth_error_None in El; lia].
    assert (Q1 : (if allowMatchAlreadyMatchedPoints b then Ok false else query (ms_local ms) lname i) = Ok false).
    { destruct (allowMatchAlreadyMatchedPoints b); [reflexivity|]. apply UL. exact Li. }
    rewrite Q1. cbn [rbind tl_pts]. rewrite nth_error_map, El. cbn [option_map].
    assert (SK : skipn i Ls = l :: skipn (S i) Ls).
    { clear - El. revert i El. induction Ls as [|y r IHl]; intros [|i] El; cbn in El; try discriminate.
      - injection El as ->. reflexivity.
      - cbn [skipn]. apply IHl. exact El. }
    rewrite SK. cbn [cands_from]. unfold cand_of at 1. destruct (nn_search nn (tf l) 1) as [|[[gi g] d] rs].
    + cbn [app]. apply IH. lia.
    + rewrite IH by lia. reflexivity.
Qed.

Lemma insert_all_perm ps : forall acc, Permutation (fold_left (fun a x => PointMatcherModel.mm_insert x a) ps acc) (ps ++ acc).
Proof.
  induction ps as [|p ps IH]; intro acc; cbn [fold_left app]; [reflexivity|]. rewrite IH, mm_insert_perm. symmetry. apply Permutation_middle.
Qed.
Lemma insert_all_sorted ps : forall acc, StronglySorted ple acc -> StronglySorted ple (fold_left (fun a x => PointMatcherModel.mm_insert x a) ps acc).
Proof. induction ps as [|p ps IH]; intros acc H; cbn [fold_left]; [exact H|]. apply IH, mm_insert_sorted, H. Qed.

Lemma emit_shape b gname lname ps : forall ms out ms' out', ir_emit b ps gname lname (ms, out) = Ok (ms', out') ->
  exists qs, out' = with_pairs out qs /\ length qs <= length ps /\ (length qs = length ps -> qs = ps) /\
    (allowMatchAlreadyMatchedGlobalPoints b = true -> qs = ps).
Proof.
  induction ps as [|p ps IH]; intros ms out ms' out' H; cbn [ir_emit] in H.
  - injection H as <- <-. exists []. unfold with_pairs. rewrite app_nil_r. destruct out. repeat split; cbn; lia.
  - destruct (if allowMatchAlreadyMatchedGlobalPoints b then Ok false else query (ms_global ms) gname (p_globalIdx p)) as [t| | ] eqn:ET; cbn [rbind] in H; try discriminate.
    destruct t.
    + destruct (IH _ _ _ _ H) as (qs & E & L & A & B). exists qs. split; [exact E|]. cbn [length]. split; [lia|]. split; [intro X; lia|].
      intro X. rewrite X in ET. discriminate.
    + destruct (mark_both ms lname (p_localIdx p) gname (p_globalIdx p)) as [ms1| | ]; cbn [rbind] in H; try discriminate.
      destruct (IH _ _ _ _ H) as (qs & E & L & A & B). exists (p :: qs). split.
      * rewrite E. unfold with_pairs, add_pt2pt. cbn. rewrite <- app_assoc. reflexivity.
      * cbn [length]. split; [lia|]. split; [intro X; f_equal; apply A; lia|]. intro X. f_equal. apply B. exact X.
Qed.

Lemma F2_len {A B} (P : A -> B -> Prop) xs ys : Forall2 P xs ys -> length xs = length ys.
Proof. induction 1; cbn [length]; congruence. Qed.

(** ** One iteration *)
Section Step.
Variables (nn : NNMap) (tf_of : Pose -> P3 -> P3) (T : Pose) (eps reach : R) (gname lname : nat).
Hypothesis NC : nn_correct nn.
Hypothesis NE : nn_points nn <> [].
Hypothesis E0 : (0 <= eps)%R.
Hypothesis R0 : (0 <= reach)%R.
Let Gs := nn_points nn.

(** the pair of a local point *)
Definition right_cand (x : Pair) (l : P3) : Prop :=
  p_local x = l /\ In (p_global x) Gs /\
  (p_err x == sqd (tf_of T l) (p_global x))%Q /\ (forall h, In h Gs -> (p_err x <= sqd (tf_of T l) h)%Q).

Lemma cands_right ls : forall i, Forall2 right_cand (cands_from nn (tf_of T) gname lname i ls) ls.
Proof.
  induction ls as [|l ls IH]; intro i; cbn [cands_from]; [constructor|].
  destruct (search_one nn (tf_of T l) NC NE) as (j & g & d & S1 & G & D & LOW).
  unfold cand_of. rewrite S1. cbn [app]. constructor; [|apply IH]. unfold right_cand. cbn [p_local p_global p_err].
  split; [reflexivity|]. split; [exact (nth_error_In _ _ G)|]. split; [exact D|]. intros h Hh. rewrite D. apply LOW. exact Hh.
Qed.

Lemma err_root x l : right_cand x l -> exists m, (0 <= m)%R /\ Q2R (p_err x) = (m * m)%R /\
  m = vnorm (vsub (to_v (tf_of T l)) (to_v (p_global x))) /\ (forall h, In h Gs -> (m <= vnorm (vsub (to_v (tf_of T l)) (to_v h)))%R).
Proof.
  intros (_ & _ & D & LOW). exists (vnorm (vsub (to_v (tf_of T l)) (to_v (p_global x)))).
  assert (M0 := LpmProps.vnorm_nonneg (vsub (to_v (tf_of T l)) (to_v (p_global x)))). split; [exact M0|].
  split; [rewrite LpmProps.vnorm_sq, <- Q2R_sqd; apply Qeq_eqR; exact D|]. split; [reflexivity|].
  intros h Hh. apply sq_le; [exact M0|apply LpmProps.vnorm_nonneg|]. rewrite !LpmProps.vnorm_sq, <- !Q2R_sqd. apply Qle_Rle. rewrite <- D. apply LOW. exact Hh.
Qed.

(** the error the matcher computes is at most a little more than the cost of the point, and the real
    distance of the pair at most a little more than that *)
Lemma cand_bounds x l : right_cand x l -> (vnorm (vsub (to_v (tf_of T l)) (compose T (to_v l))) <= eps)%R -> (nearest_cost Gs T l <= reach * reach)%R ->
  (Q2R (p_err x) <= nearest_cost Gs T l + (2 * eps * reach + eps * eps))%R /\
  (dist2 T l (p_global x) <= Q2R (p_err x) + (2 * eps * (reach + eps) + eps * eps))%R.
Proof.
  intros RC NEAR RE. destruct (err_root x l RC) as (m & M0 & EM & MG & LOW). rewrite EM.
  destruct (nearest_case Gs T l NE) as (g & I & E).
  set (A := vnorm (vsub (compose T (to_v l)) (to_v g))).
  assert (A0 : (0 <= A)%R) by apply LpmProps.vnorm_nonneg.
  assert (EA : nearest_cost Gs T l = (A * A)%R) by (unfold A; rewrite LpmProps.vnorm_sq; exact E).
  assert (AR : (A <= reach)%R) by (apply sq_le; [exact A0|exact R0|lra]).
  assert (MA : (m <= A + eps)%R).
  { specialize (LOW g I). assert (TR := vnorm_sub_tri (to_v (tf_of T l)) (compose T (to_v l)) (to_v g)). fold A in TR. lra. }
  rewrite EA. split; [nra|].
  unfold dist2. rewrite <- LpmProps.vnorm_sq. set (B := vnorm (vsub (compose T (to_v l)) (to_v (p_global x)))).
  assert (B0 : (0 <= B)%R) by apply LpmProps.vnorm_nonneg.
  assert (BM : (B <= m + eps)%R).
  { assert (TR := vnorm_sub_tri (compose T (to_v l)) (to_v (tf_of T l)) (to_v (p_global x))). fold B in TR.
    rewrite (vnorm_sub_comm (compose T (to_v l))), <- MG in TR. lra. }
  assert (M1 : (m <= reach + eps)%R) by lra. nra.
Qed.

Lemma lsq_vpairs xs ls T' : Forall2 right_cand xs ls -> lsq (map vpair xs) T' = rsum (map (fun x => dist2 T' (p_local x) (p_global x)) xs).
Proof.
  induction 1 as [|x l xs ls RC F IH]; [reflexivity|]. cbn [map lsq vpair rsum fold_right]. fold (rsum (map (fun x => dist2 T' (p_local x) (p_global x)) xs)).
  rewrite IH. f_equal. unfold dist2. rewrite <- !LpmProps.vnorm_sq. rewrite (vnorm_sub_comm (to_v (p_global x))). reflexivity.
Qed.

Lemma rsum_le_each {A} (f g : A -> R) d xs : (forall x, In x xs -> (f x <= g x + d)%R) -> (rsum (map f xs) <= rsum (map g xs) + INR (length xs) * d)%R.
Proof.
  induction xs as [|x xs IH]; intro H; [cbn; lra|]. cbn [map rsum fold_right]. fold (rsum (map f xs)). fold (rsum (map g xs)).
  change (length (x :: xs)) with (S (length xs)). rewrite S_INR. assert (H1 := H x (or_introl eq_refl)). specialize (IH (fun y Hy => H y (or_intror Hy))). lra.
Qed.

Lemma trimmed_step sorted ls k T' : Permutation sorted (cands_from nn (tf_of T) gname lname 0 ls) -> StronglySorted ple sorted -> k <= length ls ->
  accurate_on eps tf_of T ls -> (forall l, In l ls -> (nearest_cost Gs T l <= reach * reach)%R) ->
  (lsq (map vpair (firstn k sorted)) T' <= lsq (map vpair (firstn k sorted)) T)%R ->
  (trimmed_cost k Gs ls T' <= trimmed_cost k Gs ls T + slack eps reach k)%R.
Proof.
  intros PM SS KL AC RE OPT.
  assert (C := cands_right ls 0).
  (* the sorted candidates, with the points in the same order *)
  assert (FS : exists ls2, Permutation ls2 ls /\ Forall2 right_cand sorted ls2).
  { exists (map p_local sorted).
    assert (EL : map p_local (cands_from nn (tf_of T) gname lname 0 ls) = ls).
    { clear - C. induction C as [|x l xs ls RC F IH]; [reflexivity|]. cbn [map]. destruct RC as (-> & _). f_equal. exact IH. }
    split; [rewrite <- EL at 1; apply Permutation_map; exact PM|].
    assert (AL : forall x, In x sorted -> right_cand x (p_local x)).
    { intros x Hx. apply (Permutation_in _ PM) in Hx. clear - C Hx. induction C as [|y l ys ls RC F IH]; [destruct Hx|].
      destruct Hx as [<-|Hx]; [|apply IH; exact Hx]. assert (E : p_local y = l) by apply RC. rewrite E. exact RC. }
    clear - AL. induction sorted as [|x xs IH]; cbn [map]; constructor; [apply AL; left; reflexivity|apply IH; intros y Hy; apply AL; right; exact Hy]. }
  destruct FS as (ls2 & P2 & F2).
  assert (ELN : map p_local sorted = ls2).
  { clear - F2. induction F2 as [|x l xs ls RC F IH]; [reflexivity|]. cbn [map]. destruct RC as (-> & _). f_equal. exact IH. }
  assert (LEN : length sorted = length ls) by (rewrite <- (Permutation_length P2), <- ELN, map_length; reflexivity).
  set (ks := firstn k sorted) in *. set (rs := skipn k sorted).
  assert (KS : length ks = k) by (unfold ks; rewrite firstn_length, LEN; lia).
  assert (RK : forall x, In x sorted -> right_cand x (p_local x)).
  { intros x Hx. clear - F2 Hx. induction F2 as [|y l ys ls RC F IH]; [destruct Hx|]. destruct Hx as [<-|Hx]; [|apply IH; exact Hx].
    assert (E : p_local y = l) by apply RC. rewrite E. exact RC. }
  assert (INK : forall x, In x ks -> In x sorted) by (intros x Hx; rewrite <- (firstn_skipn k sorted); apply in_or_app; left; exact Hx).
  assert (INL : forall x, In x sorted -> In (p_local x) ls).
  { intros x Hx. apply (Permutation_in _ P2). rewrite <- ELN. apply in_map. exact Hx. }
  assert (PL : Permutation ls (map p_local ks ++ map p_local rs)).
  { rewrite <- map_app. unfold ks, rs. rewrite firstn_skipn, ELN. symmetry. exact P2. }
  assert (FK : Forall2 right_cand ks (map p_local ks)).
  { clear - RK INK. induction ks as [|x xs IH]; cbn [map]; constructor; [apply RK, INK; left; reflexivity|apply IH; intros y Hy; apply INK; right; exact Hy]. }
  rewrite !(lsq_vpairs _ _ _ FK) in OPT.
  (* after *)
  assert (AFTER : (trimmed_cost k Gs ls T' <= rsum (map (fun x => dist2 T' (p_local x) (p_global x)) ks))%R).
  { unfold trimmed_cost. eapply Rle_trans.
    - apply (proj2 (trimmed_spec k (map (nearest_cost Gs T') ls) ltac:(rewrite map_length; exact KL)) (map (nearest_cost Gs T') (map p_local ks)) (map (nearest_cost Gs T') (map p_local rs))).
      + rewrite <- map_app. apply Permutation_map. exact PL.
      + rewrite !map_length. exact KS.
    - rewrite map_map. assert (X := rsum_le_each (fun x => nearest_cost Gs T' (p_local x)) (fun x => dist2 T' (p_local x) (p_global x)) 0 ks).
      rewrite Rmult_0_r, Rplus_0_r in X. apply X. intros x Hx. rewrite Rplus_0_r. apply nearest_le. apply (RK x (INK x Hx)). }
  (* before *)
  assert (B1 : (rsum (map (fun x => dist2 T (p_local x) (p_global x)) ks) <= rsum (map (fun x => Q2R (p_err x)) ks) + INR k * (2 * eps * (reach + eps) + eps * eps))%R).
  { replace (INR k) with (INR (length ks)) by (rewrite KS; reflexivity). apply rsum_le_each. intros x Hx. apply (cand_bounds x (p_local x) (RK x (INK x Hx))); [apply AC|apply RE]; apply INL, INK, Hx. }
  assert (B2 : (rsum (map (fun x => Q2R (p_err x)) ks) <= trimmed_cost k Gs ls T + INR k * (2 * eps * reach + eps * eps))%R).
  { destruct (proj1 (trimmed_spec k (map (nearest_cost Gs T) ls) ltac:(rewrite map_length; exact KL))) as (a & b & PA & LA & EA).
    fold (trimmed_cost k Gs ls T) in EA. rewrite EA.
    (* the best points at T *)
    assert (PS : Permutation (a ++ b) (map (fun x => nearest_cost Gs T (p_local x)) sorted)).
    { rewrite <- PA. rewrite <- (map_map p_local (nearest_cost Gs T)), ELN. apply Permutation_map. symmetry. exact P2. }
    apply Permutation_map_inv in PS. destruct PS as (xs & EX & PX).
    symmetry in EX. apply map_eq_app in EX. destruct EX as (xa & xb & -> & EXA & EXB).
    assert (LXA : length xa = k) by (rewrite <- LA, <- EXA, map_length; reflexivity).
    assert (SR : StronglySorted Rle (map (fun x => Q2R (p_err x)) sorted)).
    { clear - SS. induction SS as [|x xs S1 IH F]; cbn [map]; constructor; [exact IH|]. rewrite Forall_forall in *. intros y Hy.
      apply in_map_iff in Hy. destruct Hy as (z & <- & Hz). apply Qle_Rle. apply F. exact Hz. }
    assert (SM := smallest_le _ SR (map (fun x => Q2R (p_err x)) xa) (map (fun x => Q2R (p_err x)) xb)).
    rewrite map_length, LXA, firstn_map in SM. fold ks in SM.
    eapply Rle_trans; [apply SM; rewrite <- map_app; apply Permutation_map; exact PX|].
    rewrite <- EXA. replace (INR k) with (INR (length xa)) by (rewrite LXA; reflexivity). apply rsum_le_each. intros x Hx.
    assert (HX : In x sorted) by (apply (Permutation_in _ (Permutation_sym PX)); apply in_or_app; left; exact Hx).
    apply (cand_bounds x (p_local x) (RK x HX)); [apply AC|apply RE]; apply INL, HX. }
  unfold slack. assert (K0 := pos_INR k). nra.
Qed.
End Step.

(** ** The matcher's pairs *)
Section Matching.
Variables (fMax : Q) (shuffle : list nat -> list nat) (mround : Q -> Z) (tf_of : Pose -> P3 -> P3).
Variables (name : nat) (gpts : option (list P3)) (nnG nnL : NNMap) (Ls : list P3).
Variables (b : BaseParams) (ratio : Q) (T : Pose).
Hypothesis NC : nn_correct nnG.
Hypothesis LL : length (nn_points nnL) = length Ls.
Hypothesis TBL : weight_pt2pt_layers b = [].
Hypothesis LIM : maxLocalPointsPerLayer b = 0 \/ length Ls <= maxLocalPointsPerLayer b.

(** Either nothing is found, or pairs of the nearest candidates; all of them if global points may be shared. *)
Lemma trimmed_match it env ms' found :
  run_matchers [pose_matcher fMax shuffle mround (gmap name gpts nnG) (lmap name nnL Ls) tf_of (IR b ratio) 0 0] it T
      (new_match_state (gmap name gpts nnG) (lmap name nnL Ls) env) = Ok (ms', found) ->
  pairings_empty found = false ->
  exists sorted qs,
    Permutation sorted (cands_from nnG (tf_of T) name name 0 Ls) /\ StronglySorted ple sorted /\
    nn_points nnG <> [] /\ kept mround ratio (length Ls) <= length Ls /\
    found = mkPairings qs [] [] [] [] [] (length Ls) /\
    let best := firstn (kept mround ratio (length Ls)) sorted in
    (length qs = length best -> qs = best) /\ (allowMatchAlreadyMatchedGlobalPoints b = true -> qs = best).
Proof.
  destruct (fresh_state name gpts nnG nnL Ls) as (ms & EF & ML & MG). unfold new_match_state. rewrite EF.
  unfold run_matchers, run_matchers_loop, matcher_match, matcher_gate, pose_matcher, pm_matcher.
  cbn [m_enabled m_runFromIteration m_runUpToIteration m_impl_match negb].
  replace (Nat.ltb it 0) with false by (symmetry; apply Nat.ltb_ge; lia). cbn [Nat.ltb Nat.leb andb].
  unfold base_impl_match. cbn [pm_base pm_one_layer]. unfold gmap at 1. cbn [match_globals].
  unfold local_layers. rewrite TBL. cbn [match_locals]. unfold lmap at 1. cbn [find_layer]. rewrite Nat.eqb_refl. cbn [ly_points].
  unfold ir_one_layer. destruct (Qle_bool ratio 0 || Qle_bool 1 ratio); [discriminate|]. cbn [ly_nn].
  destruct (isNil (nn_points nnG) || isNil Ls) eqn:EN.
  { cbn [rbind match_globals match_locals]. intros H PE. injection H as <- <-. discriminate PE. }
  apply Bool.orb_false_iff in EN. destruct EN as [NG NL].
  assert (TL : exists mn mx, transform_local_to_global fMax shuffle (tf_of T) Ls (maxLocalPointsPerLayer b)
     = Ok (mkTL mn mx None (map (tf_of T) Ls))).
  { unfold transform_local_to_global. replace (Nat.eqb (maxLocalPointsPerLayer b) 0 || Nat.leb (length Ls) (maxLocalPointsPerLayer b)) with true; [eauto|].
    symmetry. destruct LIM as [->|X]; [reflexivity|]. apply Nat.leb_le in X. rewrite X. apply Bool.orb_true_r. }
  destruct TL as (mn & mx & TL). rewrite TL. cbn [rbind tl_min tl_max].
  destruct (bb_intersects (nn_bbox nnG) (mn, mx) (bbox_epsilon b)); cbn [negb].
  2:{ cbn [rbind match_globals match_locals]. intros H PE. injection H as <- <-. discriminate PE. }
  assert (NE : nn_points nnG <> []) by (destruct (nn_points nnG); [discriminate NG|discriminate]).
  assert (UL : forall i, i < length Ls -> query (ms_local ms) name i = Ok false).
  { intros i Hi. apply (unmarked_query _ _ (fun _ => True) (length Ls)); [|exact Hi|exact I]. rewrite ML. apply fresh_unmarked. rewrite LL. apply Nat.le_refl. }
  cbn [tl_pts]. rewrite map_length.
  rewrite (ir_candidates_all b nnG Ls (tf_of T) name name ms mn mx (length Ls) UL 0 []) by reflexivity. cbn [rbind skipn].
  set (sorted := fold_left _ _ []).
  assert (PM : Permutation sorted (cands_from nnG (tf_of T) name name 0 Ls)).
  { unfold sorted. rewrite insert_all_perm, app_nil_r. reflexivity. }
  assert (SS : StronglySorted ple sorted) by (apply insert_all_sorted; constructor).
  assert (LEN : length sorted = length Ls).
  { rewrite (Permutation_length PM). exact (F2_len _ _ _ (cands_right nnG tf_of T name name NC NE Ls 0)). }
  destruct (isNil sorted); [discriminate|]. rewrite LEN.
  set (z := mround (inject_Z (Z.of_nat (length Ls)) * ratio)%Q).
  destruct ((z <? 0)%Z || (Z.of_nat (length Ls) <? z)%Z) eqn:EZ; [discriminate|].
  apply Bool.orb_false_iff in EZ. destruct EZ as [Z1 Z2]. apply Z.ltb_ge in Z1, Z2.
  destruct (ir_emit b (firstn (Z.to_nat z) sorted) name name (ms, add_potential pairings_empty_ctor (length Ls))) as [[ms1 out1]| | ] eqn:EE; cbn [rbind]; try discriminate.
  cbn [match_globals match_locals rbind]. intros H PE. injection H as <- <-.
  destruct (emit_shape b name name _ _ _ _ _ EE) as (qs & EO & _ & A & B).
  exists sorted, qs. split; [exact PM|]. split; [exact SS|]. split; [exact NE|]. split; [unfold kept; fold z; lia|]. split.
  - rewrite EO. unfold push_back_copy, with_pairs, add_potential, pairings_empty_ctor.
    cbn [paired_pt2pt paired_pt2ln paired_pt2pl paired_ln2ln paired_pl2pl point_weights potential_pairings app Nat.add]. reflexivity.
  - unfold kept. fold z. cbn zeta. split; [exact A|exact B].
Qed.
End Matching.

(** C350: with the inlier-ratio matcher, where every kept pair is used, followed by Horn's solver, no
    iteration makes the trimmed cost worse, up to the rounding of the transformed points.  The quality evaluators, the hook and the
    parameter formulas are arbitrary; so are the ratio and the rounding. *)
Theorem C350_run_descends :
  forall fMax shuffle mround tf_of eig convert name gpts nnG nnL Ls pose_minus log_norms tnorm realize b ratio eps reach wp evals hook p ge le wantDebug guess env env' r,
  (* the libraries: nearest neighbours *)
  nn_correct nnG -> length (nn_points nnL) = length Ls ->
  (* parameters *)
  weight_pt2pt_layers b = [] -> maxLocalPointsPerLayer b = 0 \/ length Ls <= maxLocalPointsPerLayer b -> plain_weights wp ->
  is_rotation guess -> (0 <= eps)%R -> (0 <= reach)%R ->
  align pose_minus log_norms tnorm realize (new_match_state (gmap name gpts nnG) (lmap name nnL Ls))
    (mkComponents [pose_matcher fMax shuffle mround (gmap name gpts nnG) (lmap name nnL Ls) tf_of (IR b ratio) 0 0]
                  [closed_solver 0 (horn_algo eig convert wp)] evals hook)
    p ge le wantDebug guess env = Ok (env', r) ->
  let k := kept mround ratio (length Ls) in
  (* in this run: accurate transformed points, none farther than [reach], no pair dropped, solvable pairs *)
  (forall it T found, In (EvMatch it T found) (r_loopTrace r) -> pairings_empty found = false ->
     accurate_on eps tf_of T Ls /\ (forall l, In l Ls -> (nearest_cost (nn_points nnG) T l <= reach * reach)%R) /\
     (allowMatchAlreadyMatchedGlobalPoints b = true \/ length (paired_pt2pt found) = k) /\ horn_ready eig wp (to_vpairs found)) ->
  let cost := trimmed_cost k (nn_points nnG) Ls in
  let poses := guess :: solved_poses (r_loopTrace r) in
  let delta := slack eps reach k in
  (forall k x y, nth_error poses k = Some x -> nth_error poses (S k) = Some y -> (cost y <= cost x + delta)%R) /\
  r_optimal_tf r = last poses guess /\
  length poses <= S (maxIterations p) /\
  (cost (r_optimal_tf r) <= cost guess + INR (maxIterations p) * delta)%R.
Proof.
  intros * NC LL TBL LIM (W1 & W2 & W3 & W4 & W5) RT E0 R0 AL k EV cost poses delta.
  eapply (align_descends (horn_algo eig convert wp) pose_minus log_norms tnorm realize _ _ evals hook p ge le wantDebug guess env env' r cost delta
    (fun T found => accurate_on eps tf_of T Ls /\ (forall l, In l Ls -> (nearest_cost (nn_points nnG) T l <= reach * reach)%R) /\
       (allowMatchAlreadyMatchedGlobalPoints b = true \/ length (paired_pt2pt found) = k) /\ horn_ready eig wp (to_vpairs found))); [|exact RT| |exact AL|exact EV].
  - intros it T env0 ms' found EM PE (AC & RE & SH & N3 & OFF & SP).
    destruct (trimmed_match fMax shuffle mround tf_of name gpts nnG nnL Ls b ratio T NC LL TBL LIM it env0 ms' found EM PE)
      as (sorted & qs & PM & SS & NE & KL & -> & A & B). fold k in KL, A, B.
    assert (LEN : length sorted = length Ls).
    { rewrite (Permutation_length PM). exact (F2_len _ _ _ (cands_right nnG tf_of T name name NC NE Ls 0)). }
    assert (EQ : qs = firstn k sorted).
    { destruct SH as [X|X]; [apply B; exact X|]. apply A. cbn [paired_pt2pt] in X. rewrite X, firstn_length, LEN. lia. }
    subst qs. split.
    + unfold least_squares_on, horn_algo, solver_horn. cbn [to_vpairs vp_nPt2Ln vp_nPt2Pl paired_pt2ln paired_pt2pl length Nat.eqb andb].
      apply C85_horn_is_least_squares; try assumption; reflexivity.
    + intros T' LE. unfold cost, delta. exact (trimmed_step nnG tf_of T eps reach name name NC NE E0 R0 sorted Ls k T' PM SS KL AC RE LE).
  - unfold delta, slack. assert (I0 := pos_INR k). apply Rmult_le_pos; [exact I0|]. nra.
Qed.
Print Assumptions C350_run_descends.

(** With exact transformed points and global points that may be shared: the result is not worse than the guess. *)
Lemma nearest_nonneg Gs T l : (0 <= nearest_cost Gs T l)%R.
Proof.
  destruct Gs as [|g Gs]; [cbn; lra|]. destruct (nearest_case (g :: Gs) T l ltac:(discriminate)) as (h & _ & ->).
  unfold dist2. rewrite <- LpmProps.vnorm_sq. assert (X := LpmProps.vnorm_nonneg (vsub (compose T (to_v l)) (to_v h))). nra.
Qed.
Lemma reach_exists Gs Ls Ts : exists reach, (0 <= reach)%R /\ forall T, In T Ts -> forall l, In l Ls -> (nearest_cost Gs T l <= reach * reach)%R.
Proof.
  exists (fold_right (fun T a => fold_right (fun l c => (nearest_cost Gs T l + c)%R) a Ls) 1%R Ts).
  assert (GE : forall T L a, (a <= fold_right (fun l c => (nearest_cost Gs T l + c)%R) a L)%R).
  { intros T L a. induction L as [|l L IH]; cbn [fold_right]; [lra|]. assert (X := nearest_nonneg Gs T l). lra. }
  assert (G1 : forall Ts, (1 <= fold_right (fun T a => fold_right (fun l c => (nearest_cost Gs T l + c)%R) a Ls) 1 Ts)%R).
  { intro ts. induction ts as [|T ts IH]; cbn [fold_right]; [lra|]. eapply Rle_trans; [exact IH|apply GE]. }
  split; [specialize (G1 Ts); lra|]. intros T HT l Hl.
  assert (LE : (nearest_cost Gs T l <= fold_right (fun T a => fold_right (fun l c => (nearest_cost Gs T l + c)%R) a Ls) 1 Ts)%R).
  { induction Ts as [|T0 ts IH]; [destruct HT|]. cbn [fold_right]. destruct HT as [->|HT]; [|eapply Rle_trans; [apply IH; exact HT|apply GE]].
    assert (X : forall L a, (0 <= a)%R -> In l L -> (nearest_cost Gs T l <= fold_right (fun l c => (nearest_cost Gs T l + c)%R) a L)%R).
    { clear. intros L a A. induction L as [|x L IH]; intros []; cbn [fold_right].
      - subst x. assert (Y : (0 <= fold_right (fun l c => (nearest_cost Gs T l + c)%R) a L)%R).
        { clear IH. induction L as [|y L IH]; cbn [fold_right]; [exact A|]. assert (Z := nearest_nonneg Gs T y). lra. }
        lra.
      - specialize (IH H). assert (Z := nearest_nonneg Gs T x). lra. }
    apply X; [|exact Hl]. specialize (G1 ts). lra. }
  specialize (G1 Ts). nra.
Qed.

Theorem C350_exact :
  forall fMax shuffle mround tf_of eig convert name gpts nnG nnL Ls pose_minus log_norms tnorm realize b ratio wp evals hook p ge le wantDebug guess env env' r,
  nn_correct nnG -> length (nn_points nnL) = length Ls ->
  weight_pt2pt_layers b = [] -> maxLocalPointsPerLayer b = 0 \/ length Ls <= maxLocalPointsPerLayer b -> plain_weights wp ->
  allowMatchAlreadyMatchedGlobalPoints b = true -> is_rotation guess ->
  align pose_minus log_norms tnorm realize (new_match_state (gmap name gpts nnG) (lmap name nnL Ls))
    (mkComponents [pose_matcher fMax shuffle mround (gmap name gpts nnG) (lmap name nnL Ls) tf_of (IR b ratio) 0 0]
                  [closed_solver 0 (horn_algo eig convert wp)] evals hook)
    p ge le wantDebug guess env = Ok (env', r) ->
  (forall it T found, In (EvMatch it T found) (r_loopTrace r) -> pairings_empty found = false ->
     exact_on tf_of T Ls /\ horn_ready eig wp (to_vpairs found)) ->
  let k := kept mround ratio (length Ls) in
  (trimmed_cost k (nn_points nnG) Ls (r_optimal_tf r) <= trimmed_cost k (nn_points nnG) Ls guess)%R.
Proof.
  intros * NC LL TBL LIM PW SH RT AL EV k.
  destruct (reach_exists (nn_points nnG) Ls (flat_map (fun e => match e with EvMatch _ T _ => [T] | _ => [] end) (r_loopTrace r))) as (reach & R0 & RE).
  destruct (C350_run_descends fMax shuffle mround tf_of eig convert name gpts nnG nnL Ls pose_minus log_norms tnorm realize b ratio 0 reach wp evals hook p ge le wantDebug guess env env' r)
    as (_ & _ & _ & X); try assumption; [lra| |].
  - intros it T found I PE. destruct (EV it T found I PE) as [A B]. split; [|split; [|split; [left; exact SH|exact B]]].
    + intros l Hl. rewrite (A l Hl).
      assert (Z : vsub (compose T (to_v l)) (compose T (to_v l)) = mkV 0 0 0) by (unfold vsub; f_equal; ring). rewrite Z.
      unfold vnorm, vnorm2, vdot. cbn [vx vy vz]. replace (0 * 0 + 0 * 0 + 0 * 0)%R with 0%R by ring. rewrite sqrt_0. lra.
    + apply RE. apply in_flat_map. exists (EvMatch it T found). split; [exact I|left; reflexivity].
  - unfold slack in X. replace (4 * 0 * (reach + 0))%R with 0%R in X by ring. fold k in X. lra.
Qed.
Print Assumptions C350_exact.

(** C351: with the default options (a global point is paired once), where all the kept pairs are used in the run. *)
Theorem C351_default_options_where :
  forall fMax shuffle mround tf_of eig convert name gpts nnG nnL Ls pose_minus log_norms tnorm realize b ratio eps reach wp evals hook p ge le wantDebug guess env env' r,
  nn_correct nnG -> length (nn_points nnL) = length Ls ->
  weight_pt2pt_layers b = [] -> maxLocalPointsPerLayer b = 0 \/ length Ls <= maxLocalPointsPerLayer b -> plain_weights wp ->
  is_rotation guess -> (0 <= eps)%R -> (0 <= reach)%R ->
  align pose_minus log_norms tnorm realize (new_match_state (gmap name gpts nnG) (lmap name nnL Ls))
    (mkComponents [pose_matcher fMax shuffle mround (gmap name gpts nnG) (lmap name nnL Ls) tf_of (IR b ratio) 0 0]
                  [closed_solver 0 (horn_algo eig convert wp)] evals hook)
    p ge le wantDebug guess env = Ok (env', r) ->
  let k := kept mround ratio (length Ls) in
  (forall it T found, In (EvMatch it T found) (r_loopTrace r) -> pairings_empty found = false ->
     accurate_on eps tf_of T Ls /\ (forall l, In l Ls -> (nearest_cost (nn_points nnG) T l <= reach * reach)%R) /\
     length (paired_pt2pt found) = k /\ horn_ready eig wp (to_vpairs found)) ->
  (trimmed_cost k (nn_points nnG) Ls (r_optimal_tf r) <=
   trimmed_cost k (nn_points nnG) Ls guess + INR (maxIterations p) * slack eps reach k)%R.
Proof.
  intros * NC LL TBL LIM PW RT E0 R0 AL k EV.
  apply (C350_run_descends fMax shuffle mround tf_of eig convert name gpts nnG nnL Ls pose_minus log_norms tnorm realize b ratio eps reach wp evals hook p ge le wantDebug guess env env' r); try assumption.
  intros it T found I PE. destruct (EV it T found I PE) as (A & B & C & D). split; [exact A|]. split; [exact B|]. split; [right; exact C|exact D].
Qed.
Print Assumptions C351_default_options_where.

(** ** Two runs, one with each option *)
(** mrpt::round on the numbers of the scene *)
Definition round_half (q : Q) : Z := Qfloor (q + (1 # 2)).
(** a guess 10 cm off *)
Definition near_guess : Pose := mkPose (c0 quarter) (c1 quarter) (c2 quarter) (mkV (11 / 10) 2 3).
Definition nearQ (p : P3) : P3 := mkP3 (- py p + (11 # 10)) (px p + 2) (pz p + 3).
Definition ex2_tf_of (T : Pose) : P3 -> P3 := if Rle_dec (vx (tr T)) 1 then quarterQ else nearQ.
Lemma nearQ_exact l : to_v (nearQ l) = compose near_guess (to_v l).
Proof.
  unfold nearQ, near_guess, quarter, to_v. cbn [px py pz]. rewrite !Q2R_plus, Q2R_opp. unfold compose, rotate, vadd, vscale. cbn [vx vy vz c0 c1 c2 tr]. f_equal; unfold Q2R at 2; cbn [Qnum Qden]; lra.
Qed.
Lemma tf_near : ex2_tf_of near_guess = nearQ.
Proof. unfold ex2_tf_of, near_guess. cbn [tr vx]. destruct (Rle_dec (11 / 10) 1); [exfalso; lra|reflexivity]. Qed.
Lemma tf_quarter2 : ex2_tf_of quarter = quarterQ.
Proof. unfold ex2_tf_of, quarter. cbn [tr vx]. destruct (Rle_dec 1 1); [reflexivity|exfalso; lra]. Qed.
Lemma near_rotation : is_rotation near_guess.
Proof. unfold is_rotation, near_guess, quarter; vunf. repeat split; try lra. f_equal; lra. Qed.

Definition kept_by (share : bool) (Ls : list P3) (tf : P3 -> P3) (it : nat) : res (MatchState * ptpairings) :=
  run_matchers [pm_matcher 1000000 (fun l => l) round_half (gmap 7 None (brute ex_globals)) (lmap 7 (brute Ls) Ls) (IR (mono_base share) (99 # 100)) 0 0] it tf
    (new_match_state (gmap 7 None (brute ex_globals)) (lmap 7 (brute Ls) Ls) (mkMS [] [])).

Lemma two_steps_trimmed share Ls f1 m1 f2 m2 :
  kept_by share Ls nearQ 0 = Ok (m1, f1) -> kept_by share Ls quarterQ 1 = Ok (m2, f2) -> six_pairs f1 -> six_pairs f2 ->
  exists r, align ex_minus ex_norms (fun _ => 0%Q) (fun _ e => Ok e) (new_match_state (gmap 7 None (brute ex_globals)) (lmap 7 (brute Ls) Ls))
    (mkComponents [pose_matcher 1000000 (fun l => l) round_half (gmap 7 None (brute ex_globals)) (lmap 7 (brute Ls) Ls) ex2_tf_of (IR (mono_base share) (99 # 100)) 0 0]
                  [closed_solver 0 (horn_algo quarter_eig (fun _ => None) wp_default)] [ratio_evaluator 1 (1 # 5)] None)
    mono_params false false false near_guess (mkMS [] []) = Ok (m2, r) /\
   r_optimal_tf r = quarter /\
   r_loopTrace r = [EvMatch 0 near_guess f1; EvSolve 0 f1 true (mkSol quarter 1%Q); EvMatch 1 quarter f2; EvSolve 1 f2 true (mkSol quarter 1%Q)].
Proof.
  intros F1 F2 S1 S2.
  assert (E1 : pairings_empty f1 = false) by (unfold pairings_empty; destruct S1 as (A & _); destruct (paired_pt2pt f1); [discriminate A|reflexivity]).
  assert (E2 : pairings_empty f2 = false) by (unfold pairings_empty; destruct S2 as (A & _); destruct (paired_pt2pt f2); [discriminate A|reflexivity]).
  assert (A1 : horn_algo quarter_eig (fun _ => None) wp_default (to_vpairs f1) = Ok (true, mkHR quarter [])).
  { rewrite (six_pairs_vpairs f1 S1). exact quarter_recovered. }
  assert (A2 : horn_algo quarter_eig (fun _ => None) wp_default (to_vpairs f2) = Ok (true, mkHR quarter [])).
  { rewrite (six_pairs_vpairs f2 S2). exact quarter_recovered. }
  assert (N1 : ex_norms (ex_minus quarter near_guess) = (1, 1)%Q).
  { unfold ex_norms, ex_minus, quarter, near_guess. cbn [tr]. destruct (Req_EM_T _ 0) as [X|_]; [|reflexivity]. exfalso. unfold vnorm2, vdot, vsub in X. cbn [vx vy vz] in X. nra. }
  assert (N2 : ex_norms (ex_minus quarter quarter) = (0, 0)%Q).
  { unfold ex_norms, ex_minus. cbn [tr]. destruct (Req_EM_T _ 0) as [_|X]; [reflexivity|]. exfalso. apply X. unfold vnorm2, vdot, vsub. cbn [vx vy vz]. ring. }
  assert (ST1 : is_stalled mono_params (increments ex_minus ex_norms quarter near_guess None) = false) by (unfold increments; rewrite N1; reflexivity).
  assert (ST2 : is_stalled mono_params (increments ex_minus ex_norms quarter quarter (Some near_guess)) = true) by (unfold increments; rewrite N2, N1; reflexivity).
  unfold kept_by in F1, F2. rewrite <- tf_near in F1. rewrite <- tf_quarter2 in F2. rewrite <- pose_matcher_run in F1, F2.
  assert (Q1 : forall env, exists q, evaluate_quality [ratio_evaluator 1 (1 # 5)] quarter f2 env = Ok (env, q)).
  { intro env. unfold evaluate_quality. cbn [evaluate_loop ratio_evaluator relativeWeight e_evaluate rbind].
    change (Qltb 0 1) with true. cbv iota. destruct (hard_discard _); cbn [rbind].
    - eexists. reflexivity.
    - change (Qltb 0 (0 + 1)) with true. cbv iota. eexists. reflexivity. }
  unfold align. cbn [c_matchers c_solvers c_evaluators isNil orb maxIterations mono_params]. cbn [icp_loop].
  unfold iter_body at 1. cbn [rbind l_env c_matchers l_sol optimalPose].
  rewrite F1. cbn [rbind]. rewrite E1. cbn [c_solvers].
  unfold run_solvers, solver_optimal_pose, solver_iter_gate, solver_latch_gate, closed_solver.
  cbn [s_enabled negb sc_icpIteration s_runFromIteration s_runUpToIteration s_runUntilTranslationCorrectionSmallerThan s_impl].
  change (Nat.ltb 0 0) with false. change (Qltb 0 0) with false. cbn [andb]. rewrite A1. cbn [rbind fst snd hr_pose negb optimalPose l_prev l_prev2].
  rewrite ST1. cbn [want_details mono_params saveIterationDetails andb].
  unfold iter_tail at 1. change (find_checkpoint (quality_checkpoints mono_params) 0) with (@None Q). cbn [c_hook rbind l_env l_sol l_pairings l_prev l_prev2 l_lastCorrection l_latched l_details l_trace].
  unfold iter_body at 1. cbn [rbind l_env c_matchers l_sol optimalPose].
  rewrite new_state_any, F2. cbn [rbind]. rewrite E2. cbn [c_solvers].
  unfold run_solvers, solver_optimal_pose, solver_iter_gate, solver_latch_gate.
  cbn [s_enabled negb sc_icpIteration s_runFromIteration s_runUpToIteration s_runUntilTranslationCorrectionSmallerThan s_impl].
  change (Nat.ltb 1 0) with false. change (Nat.ltb 0 0) with false. change (Qltb 0 0) with false. cbn [andb]. rewrite A2. cbn [rbind fst snd hr_pose negb optimalPose l_prev l_prev2].
  rewrite ST2. cbn [want_details mono_params saveIterationDetails andb rbind l_env l_sol l_pairings optimalPose].
  destruct (Q1 m2) as [q Eq]. rewrite Eq. cbn [rbind]. eexists. split; [reflexivity|]. split; reflexivity.
Qed.


(** C350 on the scene of C323 *)
Example C350_case : exists m r, align ex_minus ex_norms (fun _ => 0%Q) (fun _ e => Ok e) (new_match_state (gmap 7 None (brute ex_globals)) (lmap 7 (brute (rev sixQ)) (rev sixQ)))
    (mkComponents [pose_matcher 1000000 (fun l => l) round_half (gmap 7 None (brute ex_globals)) (lmap 7 (brute (rev sixQ)) (rev sixQ)) ex2_tf_of (IR (mono_base true) (99 # 100)) 0 0]
                  [closed_solver 0 (horn_algo quarter_eig (fun _ => None) wp_default)] [ratio_evaluator 1 (1 # 5)] None)
    mono_params false false false near_guess (mkMS [] []) = Ok (m, r) /\
  kept round_half (99 # 100) (length (rev sixQ)) = 6 /\
  (trimmed_cost 6 ex_globals (rev sixQ) (r_optimal_tf r) <= trimmed_cost 6 ex_globals (rev sixQ) near_guess)%R.
Proof.
  destruct (kept_by true (rev sixQ) nearQ 0) as [[m1 f1]| | ] eqn:F1; [|vm_compute in F1; discriminate|vm_compute in F1; discriminate].
  destruct (kept_by true (rev sixQ) quarterQ 1) as [[m2 f2]| | ] eqn:F2; [|vm_compute in F2; discriminate|vm_compute in F2; discriminate].
  assert (S1 : six_pairs f1).
  { assert (X : match kept_by true (rev sixQ) nearQ 0 with Ok (_, f) => six_pairs f | _ => False end) by (vm_compute; repeat split). rewrite F1 in X. exact X. }
  assert (S2 : six_pairs f2).
  { assert (X : match kept_by true (rev sixQ) quarterQ 1 with Ok (_, f) => six_pairs f | _ => False end) by (vm_compute; repeat split). rewrite F2 in X. exact X. }
  destruct (two_steps_trimmed true (rev sixQ) f1 m1 f2 m2 F1 F2 S1 S2) as (r & E & A & B). exists m2, r. split; [exact E|]. split; [vm_compute; reflexivity|].
  change 6 with (kept round_half (99 # 100) (length (rev sixQ))).
  change ex_globals with (nn_points (brute ex_globals)) at 1 2. eapply C350_exact; [..|exact E|].
  - apply brute_correct.
  - reflexivity.
  - reflexivity.
  - left. reflexivity.
  - unfold plain_weights, wp_default. cbn. repeat split; lra.
  - reflexivity.
  - exact near_rotation.
  - rewrite B. intros it T found [X|[X|[X|[X|[]]]]] _; [inversion X; subst; clear X|discriminate X|inversion X; subst; clear X|discriminate X].
    + split; [intros l _; rewrite tf_near; apply nearQ_exact|]. apply six_pairs_ready. exact S1.
    + split; [intros l _; rewrite tf_quarter2; apply quarterQ_exact|]. apply six_pairs_ready. exact S2.
Qed.

(** ** The default options *)
Lemma trimmed_all xs : trimmed (length xs) xs = rsum xs.
Proof.
  unfold trimmed. rewrite <- (Permutation_length (sortR_perm xs)), firstn_all. apply rsum_perm, sortR_perm.
Qed.
(** the cost on rationals *)
Definition ncostQ (Gs : list P3) (q : P3) : Q :=
  match Gs with [] => 0%Q | g :: r => fold_right (fun h a => if Qle_bool (sqd q h) a then sqd q h else a) (sqd q g) r end.
Lemma ncostQ_real Gs q l T : to_v q = compose T (to_v l) -> nearest_cost Gs T l = Q2R (ncostQ Gs q).
Proof.
  intro EX. destruct Gs as [|g0 Gs]; [unfold nearest_cost, ncostQ; rewrite RMicromega.Q2R_0; reflexivity|].
  unfold nearest_cost, ncostQ, dist2. rewrite <- EX, <- Q2R_sqd. induction Gs as [|g Gs IH]; cbn [fold_right]; [reflexivity|].
  rewrite IH, <- Q2R_sqd. set (a := fold_right _ _ Gs). unfold Rmin. destruct (Rle_dec (Q2R (sqd q g)) (Q2R a)) as [X|X]; destruct (Qle_bool (sqd q g) a) eqn:E; try reflexivity; exfalso.
  - apply Rle_Qle in X. apply Qle_bool_iff in X. congruence.
  - apply X. apply Qle_Rle. apply Qle_bool_iff. exact E.
Qed.
Lemma all_costQ_real Gs tf T Ls : (forall l, to_v (tf l) = compose T (to_v l)) ->
  trimmed_cost (length Ls) Gs Ls T = Q2R (fold_right (fun l a => (ncostQ Gs (tf l) + a)%Q) 0%Q Ls).
Proof.
  intro EX. unfold trimmed_cost. rewrite <- (map_length (nearest_cost Gs T) Ls), trimmed_all.
  induction Ls as [|l Ls IH]; cbn [rsum fold_right map]; [rewrite RMicromega.Q2R_0; reflexivity|].
  fold (rsum (map (nearest_cost Gs T) Ls)). rewrite IH, Q2R_plus, (ncostQ_real Gs (tf l) l T (EX l)). reflexivity.
Qed.

(** the six points, and fifteen more, each 12 cm from a global point *)
Definition dense_scan2 : list P3 := rev sixQ ++ repeat (mkP3 1 (22 # 100) 0) 15.

(** C351: with the default options the result may be worse than the guess: fifteen of the twenty-one
    kept pairs are dropped, because their global point has a pair already. *)
Theorem C351_default_options_refuted :
  exists Ls nnG nnL b ratio tf_of eig wp p guess env env' r,
    nn_correct nnG /\ bbox_correct nnG /\ length (nn_points nnL) = length Ls /\
    (0 < ratio < 1)%Q /\ kept round_half ratio (length Ls) = length Ls /\ weight_pt2pt_layers b = [] /\ maxLocalPointsPerLayer b = 0 /\
    allowMatchAlreadyMatchedPoints b = false /\ allowMatchAlreadyMatchedGlobalPoints b = false /\
    plain_weights wp /\ is_rotation guess /\
    registration 1000000 (fun l => l) round_half (gmap 7 None nnG) (lmap 7 nnL Ls) tf_of ex_minus ex_norms (fun _ => 0%Q)
      (IR b ratio) (horn_algo eig (fun _ => None) wp) 1 (1 # 5) p false guess env = Ok (env', r) /\
    (forall it T found, In (EvMatch it T found) (r_loopTrace r) ->
       exact_on tf_of T Ls /\ pairings_empty found = false /\ horn_ready eig wp (to_vpairs found)) /\
    (trimmed_cost (length Ls) (nn_points nnG) Ls guess < trimmed_cost (length Ls) (nn_points nnG) Ls (r_optimal_tf r))%R.
Proof.
  exists dense_scan2, (brute ex_globals), (brute dense_scan2), (mono_base false), (99 # 100)%Q, ex2_tf_of, quarter_eig, wp_default, mono_params, near_guess, (mkMS [] []).
  destruct (kept_by false dense_scan2 nearQ 0) as [[m1 f1]| | ] eqn:F1; [|vm_compute in F1; discriminate|vm_compute in F1; discriminate].
  destruct (kept_by false dense_scan2 quarterQ 1) as [[m2 f2]| | ] eqn:F2; [|vm_compute in F2; discriminate|vm_compute in F2; discriminate].
  assert (S1 : six_pairs f1).
  { assert (X : match kept_by false dense_scan2 nearQ 0 with Ok (_, f) => six_pairs f | _ => False end) by (vm_compute; repeat split). rewrite F1 in X. exact X. }
  assert (S2 : six_pairs f2).
  { assert (X : match kept_by false dense_scan2 quarterQ 1 with Ok (_, f) => six_pairs f | _ => False end) by (vm_compute; repeat split). rewrite F2 in X. exact X. }
  assert (NEM : forall f, six_pairs f -> pairings_empty f = false) by (intros f (A & _); unfold pairings_empty; destruct (paired_pt2pt f); [discriminate A|reflexivity]).
  destruct (two_steps_trimmed false dense_scan2 f1 m1 f2 m2 F1 F2 S1 S2) as (r & E & A & B). exists m2, r.
  split; [apply brute_correct|]. split; [apply brute_bbox|]. split; [reflexivity|]. split; [split; reflexivity|]. split; [vm_compute; reflexivity|]. do 4 (split; [reflexivity|]).
  split; [unfold plain_weights, wp_default; cbn; repeat split; lra|].
  split; [exact near_rotation|].
  split; [exact E|]. split.
  - rewrite B. intros it T found [X|[X|[X|[X|[]]]]]; [inversion X; subst; clear X|discriminate X|inversion X; subst; clear X|discriminate X].
    + split; [intros l _; rewrite tf_near; apply nearQ_exact|]. split; [apply NEM|apply six_pairs_ready]; exact S1.
    + split; [intros l _; rewrite tf_quarter2; apply quarterQ_exact|]. split; [apply NEM|apply six_pairs_ready]; exact S2.
  - rewrite A, (all_costQ_real _ nearQ near_guess _ nearQ_exact), (all_costQ_real _ quarterQ quarter _ quarterQ_exact).
    apply Qlt_Rlt. vm_compute. reflexivity.
Qed.
Print Assumptions C351_default_options_refuted.
