(** Specification of the Gauss-Newton solver (C30, C93-C98).
    Uses the data types of the model and the residuals of the error terms (GeomModel). *)
From Coq Require Import Reals List Lra.
From Verif Require Import Base GeomModel VisitModel VisitSpec GnModel.
Import ListNotations.
Open Scope R_scope.

(** One scalar residual: weight, value, and derivative w.r.t. the six-vector of the pose increment *)
Record WRow := mkWR { w_w : R; w_e : R; w_j : V6 }.

(** The residuals of a pairing, all with the same weight *)
Definition wrows (T : Pose) (w : R) (r : rows) : list WRow := map (fun x => mkWR w (fst x) (row6 T (snd x))) r.

(** The robust kernel scales the weight of a pairing *)
Definition robust (par : GParams) (w : R) (r : rows) : R :=
  match g_kernel par with None => w | Some f => w * f (sq_norm r) end.

(** "If empty, all points will have equal weights": the class weight *)
Definition point_weight (par : GParams) (p : GPairs) (i : nat) : R :=
  match gp_weights p with
  | [] => g_w_pt2pt par
  | b => match block_weight b i with Some w => w | None => 0 end
  end.

Definition class_rows {A} (T : Pose) (par : GParams) (w : R) (f : Pose -> A -> rows) (l : list A) : list WRow :=
  flat_map (fun x => wrows T (robust par w (f T x)) (f T x)) l.
Fixpoint point_rows (T : Pose) (par : GParams) (wt : nat -> R) (i : nat) (l : list (V3 * V3)) : list WRow :=
  match l with
  | [] => []
  | x :: r => wrows T (robust par (wt i) (rows_pt2pt T x)) (rows_pt2pt T x) ++ point_rows T par wt (S i) r
  end.
Definition line_rows (T : Pose) (x : Line * Line) : rows :=
  combine (error_l2l_general (fst x) (snd x) T) (jac_l2l_general (fst x) (snd x) T).

(** All the residuals of a pairing set at the pose T, point pairs weighted by [wt] *)
Definition all_rows_with (wt : nat -> R) (par : GParams) (p : GPairs) (T : Pose) : list WRow :=
  point_rows T par wt 0 (gp_pt2pt p) ++
  class_rows T par (g_w_pt2ln par) rows_pt2ln (gp_pt2ln p) ++
  class_rows T par (g_w_ln2ln par) line_rows (gp_ln2ln p) ++
  class_rows T par (g_w_pt2pl par) rows_pt2pl (gp_pt2pl p) ++
  class_rows T par (g_w_pl2pl par) rows_pl2pl (gp_pl2pl p).
Definition all_rows (par : GParams) (p : GPairs) (T : Pose) : list WRow := all_rows_with (point_weight par p) par p T.

Fixpoint rsum {A} (f : A -> R) (l : list A) : R := match l with [] => 0 | a :: r => f a + rsum f r end.

(** H and g are the normal equations of the residuals: the bilinear form of H is the weighted sum
    of products of derivatives, and g is the weighted sum of residual times derivative. *)
Definition normal_equations (l : list WRow) (n : NE) : Prop :=
  (forall a b, dot6 (mulMV (ne_H n) a) b = rsum (fun r => w_w r * (dot6 (w_j r) a * dot6 (w_j r) b)) l) /\
  (forall a, dot6 (ne_g n) a = rsum (fun r => w_w r * (w_e r * dot6 (w_j r) a)) l).

(** The linearised weighted squared error after an increment d *)
Definition linear_cost (l : list WRow) (d : V6) : R := rsum (fun r => w_w r * Rsqr (w_e r + dot6 (w_j r) d)) l.

Definition no_prior (par : GParams) : Prop := g_prior par = None.
