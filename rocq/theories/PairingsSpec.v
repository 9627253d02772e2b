(** Specification vocabulary for the pairings properties (C01, C02, C04). *)
From Verif Require Import Base PairingsModel.
From Coq Require Import Reals Sorted.
Open Scope nat_scope.

(** Total number of pairings of all types. *)
Definition total_pairs {PP PL PN LL NN W} (p : Pairings PP PL PN LL NN W) : nat :=
  length (paired_pt2pt p) + length (paired_pt2ln p) + length (paired_pt2pl p)
  + length (paired_ln2ln p) + length (paired_pl2pl p).

(** The pairs whose index does not occur in the outlier list. *)
Definition inliers (pairs : list ptpair) (outliers : list nat) : list ptpair :=
  map snd (filter (fun ip => negb (existsb (Nat.eqb (fst ip)) outliers))
                  (combine (seq 0 (length pairs)) pairs)).

Definition xs (l : list pt3) : list R := map (fun p => fst (fst p)) l.
Definition ys (l : list pt3) : list R := map (fun p => snd (fst p)) l.
Definition zs (l : list pt3) : list R := map (fun p => snd p) l.

(** Sum and arithmetic mean of real numbers. *)
Definition rsum (l : list R) : R := fold_right Rplus 0%R l.
Definition mean (l : list R) : R := (rsum l / INR (length l))%R.

(** Coordinate-wise mean of a list of points. *)
Definition centroid (l : list pt3) : pt3 := (mean (xs l), mean (ys l), mean (zs l)).

(** A valid outlier list: strictly increasing indices of existing pairs, leaving at
    least one pair in. *)
Definition valid_outliers (n : nat) (outliers : list nat) : Prop :=
  StronglySorted lt outliers /\ Forall (fun i => i < n) outliers /\ length outliers < n.
