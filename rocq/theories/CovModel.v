(** Model of the residual vector of the covariance estimate.

    Source: mp2p_icp/src/covariance.cpp 31-140.

    Simplifications: the error terms are parameters (functions of the pose giving 3 or 4 numbers, as
    their C++ types do); numbers are of any type; the numerical Jacobian and the inverse of the Hessian
    are parameters.  err.resize() leaves the new elements unset ([None]). *)
From Coq Require Import List Lia.
From Verif Require Import Base.
Import ListNotations.

Section Cov.
Context {Num Pose PtPt PtLn LnLn PtPl PlPl : Type}.
(** errorTerms.h: CVectorFixedDouble<3> and CVectorFixedDouble<4> *)
Record E3 := mkE3 { e3_0 : Num; e3_1 : Num; e3_2 : Num }.
Record E4 := mkE4 { e4_0 : Num; e4_1 : Num; e4_2 : Num; e4_3 : Num }.
Definition l3 (e : E3) : list Num := [e3_0 e; e3_1 e; e3_2 e].
Definition l4 (e : E4) : list Num := [e4_0 e; e4_1 e; e4_2 e; e4_3 e].
Variable f_pt2pt : PtPt -> Pose -> E3.
Variable f_pt2ln : PtLn -> Pose -> E3.
Variable f_ln2ln : LnLn -> Pose -> E4.
Variable f_pt2pl : PtPl -> Pose -> E3.
Variable f_pl2pl : PlPl -> Pose -> E3.

Record CPairs := mkCP {
  cp_pt2pt : list PtPt; cp_pt2ln : list PtLn; cp_ln2ln : list LnLn; cp_pt2pl : list PtPl; cp_pl2pl : list PlPl }.

(** err.block<k,1>(at,0) = values.  Out of range: an Eigen assertion. *)
Fixpoint write (err : list (option Num)) (at_ : nat) (vals : list Num) : res (list (option Num)) :=
  match vals with
  | [] => Ok err
  | v :: r =>
    if Nat.ltb at_ (length err) then write (firstn at_ err ++ Some v :: skipn (S at_) err) (S at_) r else Throw
  end.

(** for (idx...) err.block(base + idx * step) = f(p[idx], pose) *)
Fixpoint write_class (err : list (option Num)) (base step idx : nat) (vals : list (list Num)) : res (list (option Num)) :=
  match vals with
  | [] => Ok err
  | v :: r => let* err := write err (base + idx * step) v in write_class err base step (S idx) r
  end.

(** lines 60-126 *)
Definition error_vector (p : CPairs) (T : Pose) : res (list (option Num)) :=
  let nPt2Pt := length (cp_pt2pt p) in let nPt2Ln := length (cp_pt2ln p) in let nLn2Ln := length (cp_ln2ln p) in
  let nPt2Pl := length (cp_pt2pl p) in let nPl2Pl := length (cp_pl2pl p) in
  let n := (nPt2Pt + nPl2Pl + nPt2Ln + nPt2Pl) * 3 + nLn2Ln * 4 in
  if Nat.eqb n 0 then Throw else
  let err := repeat None n in
  let* err := write_class err 0 3 0 (map (fun x => l3 (f_pt2pt x T)) (cp_pt2pt p)) in
  let base := nPt2Pt * 3 in
  let* err := write_class err base 3 0 (map (fun x => l3 (f_pt2ln x T)) (cp_pt2ln p)) in
  let base := base + nPt2Ln * 3 in
  let* err := write_class err base 4 0 (map (fun x => l4 (f_ln2ln x T)) (cp_ln2ln p)) in
  let base := base + nLn2Ln in
  let* err := write_class err base 3 0 (map (fun x => l3 (f_pt2pl x T)) (cp_pt2pl p)) in
  let base := base + nPt2Pl * 3 in
  write_class err base 3 0 (map (fun x => l3 (f_pl2pl x T)) (cp_pl2pl p)).

(** lines 43-49: the six values the Jacobian is evaluated at.  [None]: not assigned *)
Definition x_initial (x y z yaw pitch roll : Num) : list (option Num) :=
  let a := repeat None 6 in
  let set i v (l : list (option Num)) := firstn i l ++ Some v :: skipn (S i) l in
  set 5 roll (set 4 pitch (set 3 yaw (set 0 x (set 1 y (set 0 x a))))).

(** lines 31-140: [fallback] is the matrix with 1e6 in the diagonal; [estimate] is the numerical
    Jacobian of the error vector followed by the inverse of the Hessian *)
Definition cov_empty (p : CPairs) : bool :=
  match cp_pt2pt p, cp_pt2ln p, cp_ln2ln p, cp_pt2pl p, cp_pl2pl p with [], [], [], [], [] => true | _, _, _, _, _ => false end.
Definition covariance {Mat} (fallback : Mat) (estimate : (Pose -> res (list (option Num))) -> Pose -> res Mat) (p : CPairs) (T : Pose) : res Mat :=
  if cov_empty p then Ok fallback else estimate (error_vector p) T.
End Cov.
Arguments CPairs : clear implicits.
Arguments E3 : clear implicits.
Arguments E4 : clear implicits.
