(** Model of FilterCurvature.
    Source: /repo/mp2p_icp_filters/src/FilterCurvature.cpp.
    Simplifications of FilterModel apply (rationals instead of floats, ...). *)
From Coq Require Import String.
From Verif Require Import Base FilterModel.
Open Scope string_scope.
Open Scope Q_scope.
Open Scope list_scope.

(** FilterCurvature.h, struct Parameters *)
Record CurvCfg := mkCv { cv_in : Name; cv_large : Name; cv_small : Name; cv_other : Name;
  cv_max_cosine : Q; cv_min_clearance : Q; cv_max_gap : Q }.

Definition pt0 : Pt := mkPt 0 0 0 0 0%Z 0.
Definition pt_at (pts : list Pt) (i : nat) : Pt := nth i pts pt0.
Definition ring_at (pts : list Pt) (i : nat) : nat := Z.to_nat (p_ring (pt_at pts i)).

(** FilterCurvature.cpp 119: std::max_element over the ring ids *)
Definition max_ring (pts : list Pt) : Z := fold_right (fun p a => Z.max (p_ring p) a) 0%Z pts.

(** FilterCurvature.cpp 119: [const uint16_t nRings = 1 + max]: wraps at 2^16 *)
Definition n_rings (pts : list Pt) : nat := Z.to_nat ((1 + max_ring pts) mod 65536).

Definition qabsd (a b : Q) : Q := if Qltb (a - b) 0 then - (a - b) else a - b.

(** FilterCurvature.cpp 153-156: max3(|dx|,|dy|,|dz|) < min_clearance *)
Definition too_close (cl : Q) (last pt : Pt) : bool :=
  Qltb (qabsd (px pt) (px last)) cl && Qltb (qabsd (py pt) (py last)) cl
  && Qltb (qabsd (pz pt) (pz last)) cl.

(** FilterCurvature.cpp 137-165: [n] more points from point [i] on; [rings] =
    idxPerRing, whose lists are in the order of insertion.  [None]: vector::at throws. *)
Fixpoint accept_loop (cl : Q) (pts : list Pt) (n i : nat) (rings : list (list nat))
  : option (list (list nat)) :=
  match n with
  | O => Some rings
  | S k =>
    match nth_error rings (ring_at pts i) with
    | None => None
    | Some trg =>
      let skip := match rev trg with
                  | [] => false
                  | li :: _ => too_close cl (pt_at pts li) (pt_at pts i)
                  end in
      accept_loop cl pts k (S i) (if skip then rings else upd rings (ring_at pts i) (trg ++ [i]))
    end
  end.

Definition sub3 (a b : Pt) : Q * Q * Q := (px a - px b, py a - py b, pz a - pz b).
Definition dot3 (a b : Q * Q * Q) : Q :=
  let '(x, y, z) := a in let '(u, v, w) := b in x * u + y * v + z * w.
Definition sqr3 (a : Q * Q * Q) : Q := dot3 a a.
Definition vec3 (a : Pt) : Q * Q * Q := (px a, py a, pz a).

(** FilterCurvature.cpp 226-233: [|v1.v2| < max_cosine * |v1| * |v2|], with both sides
    squared to stay in the rationals (a non-positive bound is never met). *)
Definition angle_large (mc : Q) (v1 v2 : Q * Q * Q) : bool :=
  Qltb 0 mc && Qltb (sq (dot3 v1 v2)) (sq mc * (sqr3 v1 * sqr3 v2)).

(** FilterCurvature.cpp 200-246: target of point [pt] between its two neighbours *)
Definition curv_target (c : CurvCfg) (ptm1 pt ptp1 : Pt) : Name :=
  let maxGapSqr := sq (cv_max_gap c) in
  if Qltb maxGapSqr (sqr3 (sub3 pt ptm1)) || Qltb maxGapSqr (sqr3 (sub3 pt ptp1))
  then if Qltb (sqr3 (vec3 pt)) (sqr3 (vec3 ptm1)) then cv_large c else cv_other c
  else if angle_large (cv_max_cosine c) (sub3 pt ptm1) (sub3 ptp1 pt)
       then cv_large c else cv_small c.

(** FilterCurvature.cpp 183-247: the points of one ring, each with its target *)
Definition ring_items (c : CurvCfg) (pts : list Pt) (idxs : list nat) : list (Name * Pt) :=
  let n := List.length idxs in
  if (n <=? 3)%nat then map (fun i => (cv_large c, pt_at pts i)) idxs
  else map (fun idx =>
         let im1 := nth (if (0 <? idx)%nat then idx - 1 else n - 1)%nat idxs 0%nat in
         let i := nth idx idxs 0%nat in
         let ip1 := nth (if (idx <? n - 1)%nat then idx + 1 else 0)%nat idxs 0%nat in
         (curv_target c (pt_at pts im1) (pt_at pts i) (pt_at pts ip1), pt_at pts i))
       (seq 0 n).

(** [if (out) out->insertPointFrom(pc, i)]; an insertion into the input layer itself
    only appends, so the points read later are the same. *)
Fixpoint emit (l : list (Name * Pt)) : M unit :=
  match l with
  | [] => ret tt
  | (n, p) :: t => do _ <- (if String.eqb n "" then ret tt else insert_from n p); emit t
  end.

(** FilterCurvature.cpp 57-251.  Line 121 divides by nRings before line 124 asserts that
    it is not zero. *)
Definition filter_curvature (c : CurvCfg) : M unit :=
  do pc <- input_layer (cv_in c);
  do a <- get_or_create (cv_large c) true (cl_cls pc);
  do b <- get_or_create (cv_small c) true (cl_cls pc);
  do _ <- get_or_create (cv_other c) true (cl_cls pc);
  do _ <- massert (a || b);
  do _ <- massert (channel_ok (has_R (cl_cls pc)) pc);
  let pts := cl_pts pc in
  let nr := n_rings pts in
  if (nr =? 0)%nat then ubm
  else do _ <- massert (nr <? 5000)%nat;
       match accept_loop (cv_min_clearance c) pts (List.length pts) 0 (repeat [] nr) with
       | None => throw
       | Some rings => emit (flat_map (ring_items c pts) rings)
       end.
