(** Model of the closed-form solvers on pairings with point-to-plane and point-to-line pairs:
    mp2p_icp/src/Solver_Horn.cpp 41-64, Solver_OLAE.cpp 46-67, with the conversion
    mp2p_icp/src/pt2ln_pl_to_pt2pt.cpp 46-118 of GeomModel.

    Simplifications: those of GeomModel and HornModel (exact real arithmetic). *)
From Coq Require Import Reals List.
From Verif Require Import Base GeomModel VisitModel HornModel.
Import ListNotations.
Open Scope R_scope.

(** pt2ln_pl_to_pt2pt.cpp 46-118, as Solver_*::impl_optimal_pose use it (Solver_Horn.cpp 54-58, Solver_OLAE.cpp 56-60): the converted
    pairings replace the input; they have point pairs only, and no per-layer weights.  [T]: sc.guessRelativePose *)
Definition pl_convert (T : Pose) (pls : list PlanePairing) (lns : list LinePairing) (p : VPairs) : option VPairs :=
  match convert T (map (fun x => mkPP (fst x) (snd x)) (vp_pts p)) pls lns with
  | None => None
  | Some l => Some (mkVP (map (fun x => (pp_global x, pp_local x)) l) [] [] 0 0 [])
  end.
(** the pairings of a set with point pairs [pts], line-line and plane-plane pairs [lls], [pps], and those of [pls], [lns] *)
Definition mixed_pairs (pts lls pps : list (V3 * V3)) (ws : list (nat * R)) (pls : list PlanePairing) (lns : list LinePairing) : VPairs :=
  mkVP pts lls pps (length lns) (length pls) ws.
