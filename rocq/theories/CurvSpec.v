(** What FilterCurvature must do, in terms of the input cloud only. *)
From Coq Require Import String Qabs Reals Qreals.
From Verif Require Import Base FilterModel CurvModel.
Open Scope string_scope.
Open Scope Q_scope.
Open Scope list_scope.

(** Two points are closer than the clearance on the three axes. *)
Definition close_pts (cl : Q) (a b : Pt) : Prop :=
  Qabs (px a - px b) < cl /\ Qabs (py a - py b) < cl /\ Qabs (pz a - pz b) < cl.

(** [acc] says which points survive the thinning: point [i] is dropped exactly when it
    is close to the last surviving point of its ring before it. *)
Definition thinned (cl : Q) (pts : list Pt) (acc : nat -> bool) : Prop :=
  forall i, (i < List.length pts)%nat ->
    (acc i = false <->
     exists j, (j < i)%nat /\ ring_at pts j = ring_at pts i /\ acc j = true
       /\ (forall k, (j < k < i)%nat -> ring_at pts k = ring_at pts i -> acc k = false)
       /\ close_pts cl (pt_at pts i) (pt_at pts j)).

(** The surviving points of ring [r], in order. *)
Definition survivors (pts : list Pt) (acc : nat -> bool) (r : nat) : list nat :=
  filter (fun i => acc i && Nat.eqb (ring_at pts i) r) (seq 0 (List.length pts)).

(** [b] follows [a] in the circular list [l]. *)
Definition follows (l : list nat) (a b : nat) : Prop :=
  (exists l1 l2, l = l1 ++ a :: b :: l2) \/ (exists l1, l = b :: l1 ++ [a]).

(** Euclidean geometry, in the reals. *)
Definition rvec (a b : Pt) : R * R * R :=
  (Q2R (px a) - Q2R (px b), Q2R (py a) - Q2R (py b), Q2R (pz a) - Q2R (pz b))%R.
Definition rdot (u v : R * R * R) : R :=
  let '(a, b, c) := u in let '(x, y, z) := v in (a * x + b * y + c * z)%R.
Definition rnorm (u : R * R * R) : R := sqrt (rdot u u).
Definition rdist (a b : Pt) : R := rnorm (rvec a b).
Definition origin : Pt := mkPt 0 0 0 0 0%Z 0.

Inductive Kind := Larger | Smaller | OtherKind.
Definition kind_layer (c : CurvCfg) (k : Kind) : Name :=
  match k with Larger => cv_large c | Smaller => cv_small c | OtherKind => cv_other c end.

(** A gap on either side of a point: farther than max_gap. *)
Definition gap (c : CurvCfg) (a b : Pt) : Prop := (Rabs (Q2R (cv_max_gap c)) < rdist a b)%R.
(** The two segments at [p] form an angle whose cosine is, in absolute value, below
    max_cosine. *)
Definition sharp (c : CurvCfg) (h p n : Pt) : Prop :=
  (Rabs (rdot (rvec p h) (rvec n p))
   < Q2R (cv_max_cosine c) * rnorm (rvec p h) * rnorm (rvec n p))%R.

(** The class of surviving point [i]. *)
Inductive classified (c : CurvCfg) (pts : list Pt) (acc : nat -> bool) (i : nat) : Kind -> Prop :=
| cl_few : (List.length (survivors pts acc (ring_at pts i)) <= 3)%nat ->
    classified c pts acc i Larger
| cl_regular : forall h n k,
    (3 < List.length (survivors pts acc (ring_at pts i)))%nat ->
    follows (survivors pts acc (ring_at pts i)) h i ->
    follows (survivors pts acc (ring_at pts i)) i n ->
    (let ph := pt_at pts h in let p := pt_at pts i in let pn := pt_at pts n in
     (gap c p ph \/ gap c p pn) /\ (rdist p origin < rdist ph origin)%R /\ k = Larger
     \/ (gap c p ph \/ gap c p pn) /\ ~ (rdist p origin < rdist ph origin)%R /\ k = OtherKind
     \/ ~ (gap c p ph \/ gap c p pn) /\ sharp c ph p pn /\ k = Larger
     \/ ~ (gap c p ph \/ gap c p pn) /\ ~ sharp c ph p pn /\ k = Smaller) ->
    classified c pts acc i k.

(** Surviving points ring by ring. *)
Definition ring_by_ring (pts : list Pt) (acc : nat -> bool) (nr : nat) : list nat :=
  flat_map (survivors pts acc) (seq 0 nr).

(** [m'] is [m] after each output layer [n] got the points [given n]: appended to an
    existing layer, or in a new layer of class [cls]; every other layer is untouched. *)
Definition Received (m m' : Layers) (cls : Cls) (outs : list Name) (given : Name -> list Pt) : Prop :=
  forall n,
    (In n outs /\ n <> "" ->
       match lfind m n with
       | Some (LPts c) =>
           lfind m' n = Some (LPts (mkCloud (cl_cls c) (cl_pts c ++ map (conv (cl_cls c)) (given n))))
       | _ => lfind m' n = Some (LPts (mkCloud cls (given n)))
       end) /\
    (~ In n outs \/ n = "" -> lfind m' n = lfind m n).

(** Ring ids as the code stores them: unsigned 16 bits. *)
Definition rings_u16 (pts : list Pt) : Prop := Forall (fun p => (0 <= p_ring p < 65536)%Z) pts.
