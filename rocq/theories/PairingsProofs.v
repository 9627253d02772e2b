From Verif Require Import Base PairingsModel PairingsSpec.
From Coq Require Import Reals Sorted Lra.
Open Scope nat_scope.

Section Container.
Context {PP PL PN LL NN W : Type}.
Notation pairings := (Pairings PP PL PN LL NN W).
Implicit Types a b : pairings.

Lemma push_back_copy_spec a b :
  paired_pt2pt (push_back_copy a b) = paired_pt2pt a ++ paired_pt2pt b
  /\ paired_pt2ln (push_back_copy a b) = paired_pt2ln a ++ paired_pt2ln b
  /\ paired_pt2pl (push_back_copy a b) = paired_pt2pl a ++ paired_pt2pl b
  /\ paired_ln2ln (push_back_copy a b) = paired_ln2ln a ++ paired_ln2ln b
  /\ paired_pl2pl (push_back_copy a b) = paired_pl2pl a ++ paired_pl2pl b
  /\ potential_pairings (push_back_copy a b) = potential_pairings a + potential_pairings b
  /\ pairings_size (push_back_copy a b) = pairings_size a + pairings_size b
  /\ pairings_size (push_back_copy a b) = total_pairs (push_back_copy a b)
  /\ pairings_empty (push_back_copy a b) = pairings_empty a && pairings_empty b.
Proof.
  unfold pairings_size, total_pairs, pairings_empty, push_back_copy; cbn.
  rewrite !app_length.
  repeat (split; [first [reflexivity | lia]|]).
  destruct (paired_pt2pt a), (paired_pl2pl a), (paired_ln2ln a), (paired_pt2ln a),
    (paired_pt2pl a); cbn;
  destruct (paired_pt2pt b), (paired_pl2pl b), (paired_ln2ln b), (paired_pt2ln b),
    (paired_pt2pl b); reflexivity.
Qed.

Lemma pairings_empty_size a : pairings_empty a = true <-> pairings_size a = 0.
Proof.
  unfold pairings_empty, pairings_size.
  destruct (paired_pt2pt a), (paired_pl2pl a), (paired_ln2ln a), (paired_pt2ln a),
    (paired_pt2pl a); cbn; split; intros; try reflexivity; try discriminate; lia.
Qed.

Lemma push_back_move_lists a b :
  paired_pt2pt (push_back_move a b) = paired_pt2pt (push_back_copy a b)
  /\ paired_pt2ln (push_back_move a b) = paired_pt2ln (push_back_copy a b)
  /\ paired_pt2pl (push_back_move a b) = paired_pt2pl (push_back_copy a b)
  /\ paired_ln2ln (push_back_move a b) = paired_ln2ln (push_back_copy a b)
  /\ paired_pl2pl (push_back_move a b) = paired_pl2pl (push_back_copy a b)
  /\ (push_back_move a b = push_back_copy a b <-> potential_pairings a = 0).
Proof.
  repeat (split; [reflexivity|]).
  unfold push_back_move, push_back_copy; split; intro H.
  - injection H as H. lia.
  - rewrite H. reflexivity.
Qed.

End Container.

(** ** Centroids *)

Definition not_out (outl : list nat) (ip : nat * ptpair) : bool :=
  negb (existsb (Nat.eqb (fst ip)) outl).

Definition inl_from (i : nat) (pairs : list ptpair) (outl : list nat) : list ptpair :=
  map snd (filter (not_out outl) (combine (seq i (length pairs)) pairs)).

Definition psum (l : list pt3) : pt3 := fold_right padd pzero l.

Lemma pt3_ext (a b c a' b' c' : R) : a = a' -> b = b' -> c = c' -> (a, b, c) = (a', b', c').
Proof. intros; subst; reflexivity. Qed.

Lemma padd_assoc a b c : padd (padd a b) c = padd a (padd b c).
Proof. destruct a as [[? ?] ?], b as [[? ?] ?], c as [[? ?] ?]; cbn; apply pt3_ext; ring. Qed.

Lemma padd_0_r a : padd a pzero = a.
Proof. destruct a as [[? ?] ?]; cbn; apply pt3_ext; ring. Qed.

Lemma padd_0_l a : padd pzero a = a.
Proof. destruct a as [[? ?] ?]; cbn; apply pt3_ext; ring. Qed.

Lemma inl_from_cons_notin i p ps outl :
  ~ In i outl -> inl_from i (p :: ps) outl = p :: inl_from (S i) ps outl.
Proof.
  intro H. unfold inl_from. cbn [length seq combine filter].
  unfold not_out at 1. cbn [fst].
  destruct (existsb (Nat.eqb i) outl) eqn:E.
  - apply existsb_exists in E as [x [Hx E]]. apply Nat.eqb_eq in E; subst. contradiction.
  - reflexivity.
Qed.

Lemma inl_from_cons_in i p ps os :
  inl_from i (p :: ps) (i :: os) = inl_from (S i) ps os.
Proof.
  unfold inl_from. cbn [length seq combine filter].
  unfold not_out at 1. cbn [fst existsb]. rewrite Nat.eqb_refl. cbn.
  f_equal. apply filter_ext_in. intros [k q] Hin.
  assert (Hk : S i <= k).
  { apply in_combine_l in Hin. apply in_seq in Hin. lia. }
  unfold not_out; cbn. destruct (Nat.eqb_spec k i); [lia|reflexivity].
Qed.

Lemma sorted_notin i o os : StronglySorted lt (o :: os) -> i < o -> ~ In i (o :: os).
Proof.
  intros H Hlt Hin. inversion H as [|? ? Hs Hf]; subst.
  destruct Hin as [->|Hin]; [lia|].
  rewrite Forall_forall in Hf. specialize (Hf _ Hin). lia.
Qed.

(** With a valid suffix of outliers, the loop sums exactly the inliers. *)
Lemma centroid_loop_valid pairs : forall i outl ctl ctg cnt,
  StronglySorted lt outl -> Forall (fun o => i <= o < i + length pairs) outl ->
  centroid_loop i pairs outl ctl ctg cnt =
    (padd ctl (psum (map pp_local (inl_from i pairs outl))),
     padd ctg (psum (map pp_global (inl_from i pairs outl))),
     cnt + (length pairs - length outl))
  /\ length (inl_from i pairs outl) = length pairs - length outl.
Proof.
  induction pairs as [|p ps IH]; intros i outl ctl ctg cnt Hs Hf.
  - destruct outl as [|o os].
    + cbn. rewrite !padd_0_r, Nat.add_0_r. auto.
    + inversion Hf; cbn in *; lia.
  - cbn [centroid_loop].
    destruct outl as [|o os].
    + destruct (IH (S i) [] (padd ctl (pp_local p)) (padd ctg (pp_global p)) (S cnt))
        as [E L]; [constructor|constructor|].
      rewrite inl_from_cons_notin by (intros []). cbn [map psum fold_right length].
      rewrite E, L. rewrite !padd_assoc. cbn. split; [f_equal; lia | lia].
    + inversion Hs as [|? ? Hs' Hf']; subst. inversion Hf as [|? ? Ho Hos]; subst.
      assert (Hle : length os <= length ps /\ Forall (fun x => S i <= x < S i + length ps) os).
      { split.
        - assert (Hnd : NoDup os).
          { clear -Hs'. induction Hs' as [|a l H IH Hf]; constructor; auto.
            intro Hin. rewrite Forall_forall in Hf. specialize (Hf _ Hin). lia. }
          assert (Hincl : incl os (seq (S o) (i + length (p :: ps) - S o))).
          { intros x Hx. rewrite Forall_forall in Hf', Hos.
            specialize (Hf' _ Hx). specialize (Hos _ Hx). apply in_seq.
            cbn [length] in *. lia. }
          pose proof (NoDup_incl_length Hnd Hincl) as Hl. rewrite seq_length in Hl.
          cbn [length] in *. lia.
        - rewrite Forall_forall in *. intros x Hx.
          specialize (Hf' _ Hx). specialize (Hos _ Hx). cbn [length] in *. lia. }
      destruct Hle as [Hle Hfo].
      destruct (Nat.eqb_spec i o) as [->|Hne].
      * rewrite inl_from_cons_in.
        destruct (IH (S o) os ctl ctg cnt Hs' Hfo) as [E L].
        rewrite E, L. cbn [length]. split; [f_equal; lia | lia].
      * assert (Hlt : i < o) by lia.
        rewrite inl_from_cons_notin by (eapply sorted_notin; eauto).
        assert (Hfo' : Forall (fun x => S i <= x < S i + length ps) (o :: os)).
        { constructor; [cbn [length] in *; lia | exact Hfo]. }
        destruct (IH (S i) (o :: os) (padd ctl (pp_local p)) (padd ctg (pp_global p)) (S cnt)
                     Hs Hfo') as [E L].
        assert (Hlen : length (o :: os) <= length ps).
        { assert (Hnd : NoDup (o :: os)).
          { clear -Hs. induction Hs as [|a l H IH Hf]; constructor; auto.
            intro Hin. rewrite Forall_forall in Hf. specialize (Hf _ Hin). lia. }
          assert (Hincl : incl (o :: os) (seq (S i) (length ps))).
          { intros x Hx. rewrite Forall_forall in Hfo'. specialize (Hfo' _ Hx).
            apply in_seq. lia. }
          pose proof (NoDup_incl_length Hnd Hincl) as Hl. rewrite seq_length in Hl. exact Hl. }
        rewrite E. cbn [map psum fold_right length]. rewrite !padd_assoc.
        split; [|cbn [length] in *; rewrite L; cbn [length]; lia].
        fold psum. f_equal. cbn [length] in *. lia.
Qed.

(** The counter: number of pairs minus number of consumed outliers; if all outliers
    get consumed, the list was strictly increasing and in range. *)
Lemma centroid_loop_cnt pairs : forall i outl ctl ctg cnt,
  exists used, used <= length outl /\ used <= length pairs
  /\ snd (centroid_loop i pairs outl ctl ctg cnt) = cnt + (length pairs - used)
  /\ (used = length outl ->
      StronglySorted lt outl /\ Forall (fun o => i <= o < i + length pairs) outl).
Proof.
  induction pairs as [|p ps IH]; intros i outl ctl ctg cnt.
  - exists 0. cbn. repeat split; try lia;
    destruct outl; cbn in *; try lia; constructor.
  - cbn [centroid_loop]. destruct outl as [|o os].
    + destruct (IH (S i) [] (padd ctl (pp_local p)) (padd ctg (pp_global p)) (S cnt))
        as [u [Hu [Hu2 [E _]]]].
      exists 0. cbn in Hu. rewrite E. cbn. repeat split; try lia; constructor.
    + destruct (Nat.eqb_spec i o) as [->|Hne].
      * destruct (IH (S o) os ctl ctg cnt) as [u [Hu [Hu2 [E H]]]].
        exists (S u). rewrite E. cbn [length].
        split; [lia|]. split; [lia|]. split; [lia|]. intro Hl.
        destruct H as [Hs Hf]; [lia|]. rewrite Forall_forall in Hf.
        split; constructor; auto; try lia;
          rewrite Forall_forall; intros x Hx; specialize (Hf _ Hx); lia.
      * destruct (IH (S i) (o :: os) (padd ctl (pp_local p)) (padd ctg (pp_global p)) (S cnt))
          as [u [Hu [Hu2 [E H]]]].
        exists u. rewrite E. cbn [length] in *.
        split; [lia|]. split; [lia|]. split; [lia|]. intro Hl.
        destruct H as [Hs Hf]; [lia|]. split; [exact Hs|].
        rewrite Forall_forall in *. intros x Hx. specialize (Hf _ Hx). lia.
Qed.

Lemma psum_coords l : psum l = (rsum (xs l), rsum (ys l), rsum (zs l)).
Proof.
  induction l as [|[[x y] z] l IH]; [reflexivity|].
  change (psum ((x, y, z) :: l)) with (padd (x, y, z) (psum l)). rewrite IH.
  reflexivity.
Qed.

Lemma pscale_psum l n : n = length l -> n <> 0 ->
  pscale (1 / INR n) (psum l) = centroid l.
Proof.
  intros -> Hn. rewrite psum_coords. unfold centroid, mean, pscale.
  replace (length (xs l)) with (length l) by (symmetry; apply map_length).
  replace (length (ys l)) with (length l) by (symmetry; apply map_length).
  replace (length (zs l)) with (length l) by (symmetry; apply map_length).
  apply pt3_ext; field; apply not_0_INR; exact Hn.
Qed.

Lemma eval_centroids_ok pairs outl :
  valid_outliers (length pairs) outl ->
  eval_centroids_robust pairs outl =
    Ok (centroid (map pp_local (inliers pairs outl)),
        centroid (map pp_global (inliers pairs outl))).
Proof.
  intros [Hs [Hf Hl]]. unfold eval_centroids_robust.
  destruct (Nat.leb_spec (length pairs) (length outl)); [lia|].
  assert (Hf' : Forall (fun o => 0 <= o < 0 + length pairs) outl).
  { rewrite Forall_forall in *. intros x Hx. specialize (Hf _ Hx). lia. }
  destruct (centroid_loop_valid pairs 0 outl pzero pzero 0 Hs Hf') as [E L].
  rewrite E. rewrite Nat.add_0_l, Nat.eqb_refl, !padd_0_l.
  change (inl_from 0 pairs outl) with (inliers pairs outl) in *.
  rewrite !pscale_psum; try reflexivity; rewrite ?map_length; lia.
Qed.

Lemma eval_centroids_throws pairs outl :
  ~ valid_outliers (length pairs) outl -> eval_centroids_robust pairs outl = Throw.
Proof.
  intros Hnv. unfold eval_centroids_robust.
  destruct (Nat.leb_spec (length pairs) (length outl)) as [|Hlt]; [reflexivity|].
  destruct (centroid_loop_cnt pairs 0 outl pzero pzero 0) as [u [Hu [Hu2 [E H]]]].
  destruct (centroid_loop 0 pairs outl pzero pzero 0) as [[cl cg] cnt]. cbn in E. subst cnt.
  destruct (Nat.eqb_spec (length pairs - u) (length pairs - length outl)) as [Heq|];
    [|reflexivity].
  exfalso. apply Hnv. destruct H as [Hs Hf]; [lia|].
  split; [exact Hs|split; [|exact Hlt]].
  rewrite Forall_forall in *. intros x Hx. specialize (Hf _ Hx). lia.
Qed.
