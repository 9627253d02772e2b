(** Properties C01, C02, C04 *)
From Verif Require Import Base PairingsModel PairingsSpec PairingsProofs.
From Coq Require Import Reals Sorted Lra.
Open Scope nat_scope.

(** C01: merging by copy. *)
Theorem C01_merge_copy_appends :
  forall (PP PL PN LL NN W : Type) (a b : Pairings PP PL PN LL NN W),
  paired_pt2pt (push_back_copy a b) = paired_pt2pt a ++ paired_pt2pt b
  /\ paired_pt2ln (push_back_copy a b) = paired_pt2ln a ++ paired_pt2ln b
  /\ paired_pt2pl (push_back_copy a b) = paired_pt2pl a ++ paired_pt2pl b
  /\ paired_ln2ln (push_back_copy a b) = paired_ln2ln a ++ paired_ln2ln b
  /\ paired_pl2pl (push_back_copy a b) = paired_pl2pl a ++ paired_pl2pl b
  /\ potential_pairings (push_back_copy a b) = potential_pairings a + potential_pairings b
  /\ pairings_size (push_back_copy a b) = pairings_size a + pairings_size b
  /\ pairings_size (push_back_copy a b) = total_pairs (push_back_copy a b)
  /\ pairings_empty (push_back_copy a b) = pairings_empty a && pairings_empty b.
Proof. intros. exact (push_back_copy_spec a b). Qed.
Print Assumptions C01_merge_copy_appends.

Theorem C01_empty_iff_no_pairs :
  forall (PP PL PN LL NN W : Type) (a : Pairings PP PL PN LL NN W),
  pairings_empty a = true <-> pairings_size a = 0.
Proof. intros. exact (pairings_empty_size a). Qed.
Print Assumptions C01_empty_iff_no_pairs.

(** C02: both overloads append the same five lists; they agree completely iff the
    receiver's potential-pairings counter was zero. *)
Theorem C02_move_and_copy_same_lists :
  forall (PP PL PN LL NN W : Type) (a b : Pairings PP PL PN LL NN W),
  paired_pt2pt (push_back_move a b) = paired_pt2pt (push_back_copy a b)
  /\ paired_pt2ln (push_back_move a b) = paired_pt2ln (push_back_copy a b)
  /\ paired_pt2pl (push_back_move a b) = paired_pt2pl (push_back_copy a b)
  /\ paired_ln2ln (push_back_move a b) = paired_ln2ln (push_back_copy a b)
  /\ paired_pl2pl (push_back_move a b) = paired_pl2pl (push_back_copy a b)
  /\ (push_back_move a b = push_back_copy a b <-> potential_pairings a = 0).
Proof. intros. exact (push_back_move_lists a b). Qed.
Print Assumptions C02_move_and_copy_same_lists.

(** C02 is false of the code: the counters differ, and weights of the merged set are
    lost by both overloads. *)
Theorem C124_move_equals_copy_refuted :
  exists a b : Pairings nat nat nat nat nat Q,
    push_back_move a b <> push_back_copy a b
    /\ potential_pairings (push_back_move a b) < potential_pairings (push_back_copy a b)
    /\ point_weights b <> [] /\ point_weights (push_back_copy a b) = []
    /\ point_weights (push_back_move a b) = [].
Proof.
  exists (mkPairings [1] [] [] [] [] [] 5), (mkPairings [2; 3] [] [] [] [] [(2, 1%Q)] 7).
  cbn. repeat split; try lia; discriminate.
Qed.
Print Assumptions C124_move_equals_copy_refuted.

(** C04 *)
Theorem C04_centroids_are_inlier_means :
  forall (pairs : list ptpair) (outliers : list nat),
  valid_outliers (length pairs) outliers ->
  eval_centroids_robust pairs outliers =
    Ok (centroid (map pp_local (inliers pairs outliers)),
        centroid (map pp_global (inliers pairs outliers))).
Proof. exact eval_centroids_ok. Qed.
Print Assumptions C04_centroids_are_inlier_means.

Theorem C04_invalid_outliers_throw :
  forall (pairs : list ptpair) (outliers : list nat),
  ~ valid_outliers (length pairs) outliers -> eval_centroids_robust pairs outliers = Throw.
Proof. exact eval_centroids_throws. Qed.
Print Assumptions C04_invalid_outliers_throw.

(** Non-vacuity: four pairs, outliers 1 and 3. *)
Definition ex_pairs : list ptpair :=
  [mkPtPair (1, 0, 0)%R (2, 0, 0)%R; mkPtPair (9, 9, 9)%R (8, 8, 8)%R;
   mkPtPair (3, 4, 0)%R (4, 6, 0)%R; mkPtPair (7, 7, 7)%R (6, 6, 6)%R].
Example C04_ex_valid : valid_outliers (length ex_pairs) [1; 3].
Proof.
  split; [|split; [|cbn; lia]].
  - repeat constructor.
  - repeat constructor.
Qed.
Example C04_ex_value :
  eval_centroids_robust ex_pairs [1; 3] = Ok ((3, 3, 0)%R, (2, 2, 0)%R).
Proof.
  rewrite (eval_centroids_ok _ _ C04_ex_valid). unfold centroid, mean, rsum; cbn.
  repeat f_equal; lra.
Qed.
Example C04_ex_invalid : ~ valid_outliers (length ex_pairs) [3; 1].
Proof. intros [H _]. inversion H as [|? ? _ Hf]; subst. inversion Hf; lia. Qed.
