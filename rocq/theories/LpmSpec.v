(** Specification for C300-C304: what it means that a pose brings a cloud onto another, and which points a map has. *)
From Coq Require Import String Reals List.
From Verif Require Import GeomModel LpmModel.
Import ListNotations.

(** Every point of [A], moved by [T], is within [eps] of some point of [B]. *)
Definition Brings (eps : R) (T : Pose) (A B : list V3) : Prop :=
  forall p, In p A -> exists q, In q B /\ (vnorm (vsub (compose T p) q) <= eps)%R.
(** The points of a map: those of its point clouds and occupied voxels, layer after layer. *)
Definition layer_points (l : PLayer) : list V3 := match l with PPoints p => p | PVoxels (Some p) => p | _ => [] end.
Definition points_of (m : PMap) : list V3 := flat_map (fun kl => layer_points (snd kl)) (pm_layers m).
Definition no_null_layer (m : PMap) : Prop := forall k, ~ In (k, PNull) (pm_layers m).
(** A number printed with "%f" reads back with six correct decimals. *)
Definition six_decimals (fmt : R -> R) : Prop := forall x, (Rabs (fmt x - x) <= 5 / 10000000)%R.
Definition near (d : R) (p q : V3) : Prop :=
  (Rabs (vx p - vx q) <= d /\ Rabs (vy p - vy q) <= d /\ Rabs (vz p - vz q) <= d)%R.
(** Two motions commute. *)
Definition commute (S T : Pose) : Prop := forall u, compose S (compose T u) = compose T (compose S u).
(** Lines, planes or points of point clouds (occupied voxels do not count). *)
Definition has_some_primitive (m : PMap) : Prop :=
  pm_lines m <> 0%nat \/ pm_planes m <> 0%nat \/ exists k p, In (k, PPoints p) (pm_layers m) /\ p <> [].
(** The clouds the matcher is asked to align: all points of the local map, at the pose [start], and all points of
    the global map, in their order, each coordinate with six correct decimals. *)
Definition given_clouds (start : Pose) (L G : PMap) (A B : list V3) : Prop :=
  (exists A0, Forall2 (near (5 / 10000000)) A0 (points_of L) /\ A = map (compose start) A0) /\
  Forall2 (near (5 / 10000000)) B (points_of G).
