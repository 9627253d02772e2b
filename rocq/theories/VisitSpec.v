(** Specification of the walk over the correspondences (C26, C80-C83).
    Only the data types of the model are used. *)
From Coq Require Import Reals List Lra.
From Verif Require Import Base GeomModel VisitModel.
Import ListNotations.
Open Scope R_scope.

(** The weight of the block the [i]-th point pair belongs to: Pairings::point_weights says
    "each entry specifies how many points have the given weight, in the same order". *)
Fixpoint block_weight (blocks : list (nat * R)) (i : nat) : option R :=
  match blocks with
  | [] => None
  | (n, w) :: rest => if Nat.ltb i n then Some w else block_weight rest (i - n)
  end.

Fixpoint block_total (blocks : list (nat * R)) : nat :=
  match blocks with [] => 0%nat | (n, _) :: rest => (n + block_total rest)%nat end.

(** index of the first pair of each block but the first one *)
Fixpoint boundaries (start : nat) (blocks : list (nat * R)) : list nat :=
  match blocks with [] => [] | (n, _) :: rest => (start + n)%nat :: boundaries (start + n) rest end.

(** "If empty, all points will have equal weights." *)
Definition pair_block_weight (p : VPairs) (i : nat) : R :=
  match vp_weights p with
  | [] => 1
  | w => match block_weight w i with Some x => x | None => 0 end
  end.

(** Sum over all the pairs of the weight of their class *)
Definition class_total (p : VPairs) (wp : VWeights) : R :=
  wp_pt2pt wp * INR (length (vp_pts p)) + wp_ln2ln wp * INR (length (vp_lns p)) +
  wp_pl2pl wp * INR (length (vp_pls p)).

(** What must happen with a pair: used in a call, recorded as outlier, or dropped. *)
Inductive fate := Used (c : call) | Outlier | Dropped.

Section Spec.
Variables (p : VPairs) (wp : VWeights) (ctl ctg : V3) (outl : list nat) (normalize : bool).

Definition kernel_factor (b r : V3) : R :=
  match wp_kernel wp, wp_current wp with
  | Some f, Some T => f (vnorm2 (vsub (compose T r) b))
  | _, _ => 1
  end.
Definition unit (v : V3) : V3 := vscale (1 / vnorm v) v.

Definition fate_of (i : nat) (it : item) : fate :=
  if in_dec Nat.eq_dec i outl then Outlier
  else match it with
  | IPt g l =>
    let b := vsub g ctg in
    let r := vsub l ctl in
    if Rlt_dec (vnorm b) (1 / 10000) then Dropped
    else if Rlt_dec (vnorm r) (1 / 10000) then Dropped
    else if (if wp_use_scale wp then if Rlt_dec (wp_scale_thr wp) (Rmax (vnorm b) (vnorm r) / Rmin (vnorm b) (vnorm r))
                                     then true else false else false) then Outlier
    else let b' := if normalize then unit b else b in
         let r' := if normalize then unit r else r in
         Used (mkCall i b' r' (wp_pt2pt wp / class_total p wp * pair_block_weight p i * kernel_factor b' r'))
  | ILn g l => Used (mkCall i g l (wp_ln2ln wp / class_total p wp * kernel_factor g l))
  | IPl g l => Used (mkCall i g l (wp_pl2pl wp / class_total p wp * kernel_factor g l))
  end.

(** The fates of the pairs from index [i] on, collected in order. *)
Fixpoint used_from (i : nat) (its : list item) : list call :=
  match its with
  | [] => []
  | it :: rest => match fate_of i it with Used c => [c] | _ => [] end ++ used_from (S i) rest
  end.
Fixpoint outliers_from (i : nat) (its : list item) : list nat :=
  match its with
  | [] => []
  | it :: rest => match fate_of i it with Outlier => [i] | _ => [] end ++ outliers_from (S i) rest
  end.
End Spec.

Fixpoint sum_w (cs : list call) : R := match cs with [] => 0 | c :: r => c_w c + sum_w r end.

(** strictly increasing lists *)
Fixpoint increasing (l : list nat) : Prop :=
  match l with
  | a :: ((b :: _) as t) => (a < b)%nat /\ increasing t
  | _ => True
  end.
