(** What the two generators of edges must do. *)
From Coq Require Import String Reals Qreals Sorted.
From Verif Require Import Base FilterModel FMergeModel EdgeGenModel.
From Verif Require CurvSpec.
Open Scope string_scope.
Open Scope Z_scope.
Open Scope list_scope.

(** Pixels in reading order: row by row, left to right. *)
Definition before (a b : nat * nat) : Prop :=
  (fst a < fst b \/ fst a = fst b /\ snd a < snd b)%nat.
(** [l] lists exactly the pixels with property [P], in reading order. *)
Definition Lists (P : nat -> nat -> Prop) (l : list (nat * nat)) : Prop :=
  StronglySorted before l /\ forall r i, In (r, i) l <-> P r i.

Definition Sized (s : RScan) : Prop :=
  (0 < rs_rows s)%nat /\ (0 < rs_cols s)%nat
  /\ m_rows (rs_pts s) = rs_rows s /\ m_cols (rs_pts s) = rs_cols s
  /\ m_rows (rs_range s) = rs_rows s /\ m_cols (rs_range s) = rs_cols s.

(** ** Curvature: corners of a row *)
Definition rdist (a b : Q3) : R := CurvSpec.rdist (pt_of a) (pt_of b).
Definition rcos_prod (a b c : Q3) : R :=
  CurvSpec.rdot (CurvSpec.rvec (pt_of b) (pt_of a)) (CurvSpec.rvec (pt_of c) (pt_of b)).
Definition Corner (g : CurvGen) (s : RScan) (r i : nat) : Prop :=
  (r < rs_rows s)%nat /\ (1 <= i)%nat /\ (i + 1 < rs_cols s)%nat /\
  let a := m_at (rs_pts s) r (i - 1)%nat in
  let b := m_at (rs_pts s) r i in
  let c := m_at (rs_pts s) r (i + 1)%nat in
  m_at (rs_range s) r (i - 1)%nat <> 0 /\ m_at (rs_range s) r i <> 0 /\ m_at (rs_range s) r (i + 1)%nat <> 0
  /\ (Q2R (cg_clearance g) <= rdist b a)%R /\ (Q2R (cg_clearance g) <= rdist c b)%R
  /\ (Rabs (rcos_prod a b c) < Q2R (cg_max_cosine g) * rdist b a * rdist c b)%R.

(** A pixel's point, moved by the robot pose if there is one. *)
Definition placed (robot : option QPose) (p : Q3) : Pt :=
  match robot with None => pt_of p | Some T => pt_of (qcompose T p) end.
Definition pixel_pts (robot : option QPose) (s : RScan) (l : list (nat * nat)) : list Pt :=
  map (fun ri => placed robot (m_at (rs_pts s) (fst ri) (snd ri))) l.

(** ** Range image of a rotating scan *)
Definition U16 (m : Mat Z) : Prop := forall r c, 0 <= m_at m r c < 65536.
(** Sum of [f a], ..., [f (a+n-1)] *)
Fixpoint sum_from (f : nat -> Z) (a n : nat) : Z :=
  match n with O => 0 | S k => f a + sum_from f (S a) k end.
Definition Significant (g : RiGen) (s : RScan) (r i : nat) : Prop :=
  let range := m_at (rs_range s) r in
  (r < rs_rows s)%nat /\ (9 <= i)%nat /\ (i + 8 < rs_cols s)%nat /\
  exists mean var,
    mean = 16 * (range (i + 8)%nat - range (i - 9)%nat)
    /\ var = sum_from (fun j => ((range j - range (j - 1)%nat) * 256 - mean) ^ 2) (i - 8) 17 / 16
    /\ var <> 0
    /\ ri_threshold g < (range i * 256 - mean) ^ 2 / var / 65536.
(** The range falls from 9 columns before to 8 columns after some pixel. *)
Definition Falls (s : RScan) : Prop :=
  exists r i, (r < rs_rows s)%nat /\ (9 <= i)%nat /\ (i + 8 < rs_cols s)%nat
    /\ m_at (rs_range s) r (i + 8)%nat < m_at (rs_range s) r (i - 9)%nat.

(** ** Range image of a 3D camera, in blocks of 8x8 pixels *)
Definition block_sum (o : Rgbd) (f : Z -> Z) (rd cd : nat) : Z :=
  sum_from (fun r => sum_from (fun c => f (m_at (rg_image o) r c)) (8 * cd) 8) (8 * rd) 8.
(** [v] is the mean, rounded down, of the valid ranges of the block; 0 if there is none. *)
Definition BlockMean (o : Rgbd) (rd cd : nat) (v : Z) : Prop :=
  let n := block_sum o (fun x => if x =? 0 then 0 else 1) rd cd in
  let t := block_sum o (fun x => x) rd cd in
  (n = 0 -> v = 0) /\ (n <> 0 -> v * n <= t < (v + 1) * n).
(** First and second differences of a row [R] of block means. *)
Definition d1 (R : nat -> Z) (cd : nat) : Z :=
  match cd with
  | O => 0
  | S p => if (R cd =? 0) || (R p =? 0) then 0 else (R cd - R p) * 256
  end.
Definition d2 (R : nat -> Z) (cd : nat) : Z :=
  match cd with O => 0 | S p => d1 R cd - d1 R p end.
Definition EdgeBlock (g : RiGen) (R : nat -> nat -> Z) (rows cols : nat) (rd cd : nat) : Prop :=
  (rd < rows)%nat /\ (1 <= cd)%nat /\ (cd < cols)%nat /\ R rd cd <> 0 /\
  exists mean var,
    mean = d1 (R rd) (cols - 1)%nat / (Z.of_nat cols - 1)
    /\ var = sum_from (fun j => (d2 (R rd) j - mean) ^ 2) 0 cols / (Z.of_nat cols - 1)
    /\ (var = 0 -> ri_threshold g < 0) /\ (var <> 0 -> ri_threshold g < d2 (R rd) cd ^ 2 / var).

(** The layer [n] can take points and holds the cloud [c] (empty if missing). *)
Definition Ready (m : Layers) (n : Name) (c : Cloud) : Prop :=
  n <> "" /\ (lfind m n = Some (LPts c) \/ lfind m n = None /\ c = mkCloud SimplePoints []).
(** The points of blocks: the centre pixel of the block at the block's mean range. *)
Definition block_pts (robot : option QPose) (o : Rgbd) (R : nat -> nat -> Z) (l : list (nat * nat)) : list Pt :=
  map (fun rc => placed robot (rg_unproject o (8 * fst rc + 4)%nat (8 * snd rc + 4)%nat (R (fst rc) (snd rc)))) l.
