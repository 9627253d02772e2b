(** Specification vocabulary for the mean and covariance of points. *)
From Verif Require Import Base PointMatcherModel FeatModel.

Fixpoint sum_of (f : P3 -> Q) (pts : list P3) : Q :=
  match pts with [] => 0%Q | p :: r => (f p + sum_of f r)%Q end.
Definition count_of (pts : list P3) : Q := inject_Z (Z.of_nat (length pts)).
Definition mean_of (f : P3 -> Q) (pts : list P3) : Q := (sum_of f pts / count_of pts)%Q.
(** The covariance of two coordinates (the population one: divided by the number of points). *)
Definition cov_of (f g : P3 -> Q) (pts : list P3) : Q :=
  mean_of (fun p => (f p - mean_of f pts) * (g p - mean_of g pts))%Q pts.
Definition is_mean_and_cov (e : Eig) (pts : list P3) : Prop :=
  (px (eg_mean e) == mean_of px pts /\ py (eg_mean e) == mean_of py pts /\ pz (eg_mean e) == mean_of pz pts
  /\ s00 (eg_cov e) == cov_of px px pts /\ s10 (eg_cov e) == cov_of px py pts /\ s20 (eg_cov e) == cov_of px pz pts
  /\ s11 (eg_cov e) == cov_of py py pts /\ s21 (eg_cov e) == cov_of py pz pts /\ s22 (eg_cov e) == cov_of pz pz pts)%Q.
(** v^T C v *)
Definition quadratic (m : Sym3) (v : P3) : Q :=
  (s00 m * px v * px v + s11 m * py v * py v + s22 m * pz v * pz v
   + 2 * s10 m * px v * py v + 2 * s20 m * px v * pz v + 2 * s21 m * py v * pz v)%Q.
Definition same_sym (a b : Sym3) : Prop :=
  (s00 a == s00 b /\ s10 a == s10 b /\ s20 a == s20 b /\ s11 a == s11 b /\ s21 a == s21 b /\ s22 a == s22 b)%Q.
Definition same_p3 (a b : P3) : Prop := (px a == px b /\ py a == py b /\ pz a == pz b)%Q.
