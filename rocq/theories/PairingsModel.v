(** Model of mp2p_icp::Pairings (container operations) and of
    mp2p_icp::eval_centroids_robust.
    Sources: /repo/mp2p_icp/include/mp2p_icp/Pairings.h and
             /repo/mp2p_icp/src/Pairings.cpp *)
From Verif Require Import Base.
From Coq Require Import Reals.
Open Scope nat_scope.

(** Pairings.h:84-110.  The element types of the five lists are parameters
    (geometry in the matchers, bit patterns in the codecs, ...); the type of one
    weight is [W].  [potential_pairings] is a uint64_t in the code and an unbounded
    [nat] here (wrap-around at 2^64 is not modelled). *)
Record Pairings (PP PL PN LL NN W : Type) : Type := mkPairings {
  paired_pt2pt : list PP;
  paired_pt2ln : list PL;
  paired_pt2pl : list PN;
  paired_ln2ln : list LL;
  paired_pl2pl : list NN;
  point_weights : list (nat * W);
  potential_pairings : nat }.
Arguments mkPairings {PP PL PN LL NN W}.
Arguments paired_pt2pt {PP PL PN LL NN W}.
Arguments paired_pt2ln {PP PL PN LL NN W}.
Arguments paired_pt2pl {PP PL PN LL NN W}.
Arguments paired_ln2ln {PP PL PN LL NN W}.
Arguments paired_pl2pl {PP PL PN LL NN W}.
Arguments point_weights {PP PL PN LL NN W}.
Arguments potential_pairings {PP PL PN LL NN W}.

Section Container.
Context {PP PL PN LL NN W : Type}.
Notation pairings := (Pairings PP PL PN LL NN W).

(** Pairings.h:86, default constructor. *)
Definition pairings_empty_ctor : pairings := mkPairings [] [] [] [] [] [] 0.

(** Pairings.h:117-121 *)
Definition isNil {A} (l : list A) : bool := match l with [] => true | _ => false end.
Definition pairings_empty (p : pairings) : bool :=
  isNil (paired_pt2pt p) && isNil (paired_pl2pl p) && isNil (paired_ln2ln p)
  && isNil (paired_pt2ln p) && isNil (paired_pt2pl p).

(** Pairings.cpp:143-147 *)
Definition pairings_size (p : pairings) : nat :=
  length (paired_pt2pt p) + length (paired_pt2ln p) + length (paired_pt2pl p)
  + length (paired_ln2ln p) + length (paired_pl2pl p).

(** Pairings.cpp:123-131, push_back(const Pairings&): [me] is the object, [o] the
    argument.  point_weights of [o] are not looked at. *)
Definition push_back_copy (me o : pairings) : pairings :=
  mkPairings
    (paired_pt2pt me ++ paired_pt2pt o)
    (paired_pt2ln me ++ paired_pt2ln o)
    (paired_pt2pl me ++ paired_pt2pl o)
    (paired_ln2ln me ++ paired_ln2ln o)
    (paired_pl2pl me ++ paired_pl2pl o)
    (point_weights me)
    (potential_pairings me + potential_pairings o).

(** Pairings.cpp:133-141, push_back(Pairings&&): the counter is overwritten.
    The moved-from state of [o] is not modelled. *)
Definition push_back_move (me o : pairings) : pairings :=
  mkPairings
    (paired_pt2pt me ++ paired_pt2pt o)
    (paired_pt2ln me ++ paired_pt2ln o)
    (paired_pt2pl me ++ paired_pt2pl o)
    (paired_ln2ln me ++ paired_ln2ln o)
    (paired_pl2pl me ++ paired_pl2pl o)
    (point_weights me)
    (potential_pairings o).

End Container.

(** ** eval_centroids_robust *)

(** mrpt::math::TPoint3D, with real numbers in place of doubles (rounding is not
    modelled). *)
Definition pt3 : Type := (R * R * R)%type.
Definition padd (a b : pt3) : pt3 :=
  let '(ax, ay, az) := a in let '(bx, by_, bz) := b in ((ax + bx)%R, (ay + by_)%R, (az + bz)%R).
Definition pscale (k : R) (a : pt3) : pt3 :=
  let '(ax, ay, az) := a in ((k * ax)%R, (k * ay)%R, (k * az)%R).
Definition pzero : pt3 := (0%R, 0%R, 0%R).

(** The fields of mrpt::tfest::TMatchingPair used by the function. *)
Record ptpair : Type := mkPtPair { pp_global : pt3; pp_local : pt3 }.

(** Pairings.cpp:85-101: the loop, with the iterator [it_next_outlier] modelled as
    the remaining suffix of the outlier list. *)
Fixpoint centroid_loop (i : nat) (pairs : list ptpair) (next_outlier : list nat)
  (ct_local ct_global : pt3) (cnt : nat) : pt3 * pt3 * nat :=
  match pairs with
  | [] => (ct_local, ct_global, cnt)
  | p :: ps =>
    match next_outlier with
    | o :: os =>
      if Nat.eqb i o then centroid_loop (S i) ps os ct_local ct_global cnt
      else centroid_loop (S i) ps next_outlier
             (padd ct_local (pp_local p)) (padd ct_global (pp_global p)) (S cnt)
    | [] => centroid_loop (S i) ps next_outlier
             (padd ct_local (pp_local p)) (padd ct_global (pp_global p)) (S cnt)
    end
  end.

(** Pairings.cpp:68-110; result is (ct_local, ct_global). *)
Definition eval_centroids_robust (pairs : list ptpair) (outliers : list nat)
  : res (pt3 * pt3) :=
  let n := length pairs in
  if Nat.leb n (length outliers) then Throw   (* line 76: ASSERT_GT_ *)
  else
    let wcPoints := (1 / INR (n - length outliers))%R in   (* line 80 *)
    let '(ctl, ctg, cnt) := centroid_loop 0 pairs outliers pzero pzero 0 in
    if Nat.eqb cnt (n - length outliers)      (* line 103: ASSERT_EQUAL_ *)
    then Ok (pscale wcPoints ctl, pscale wcPoints ctg)
    else Throw.
