(** Specification of C185-C193: the quality evaluators on range images and on voxels. *)
From Coq Require Import String Reals Qreals.
From Verif Require Import Base FilterModel FMergeModel QEvalModel.
Open Scope Q_scope.

(** ** Range images *)
(** Image coordinates of a point of the camera frame (x forward, y left, z up). *)
Definition col_of (cam : RiCam) (p : Q3) : Q := ca_cx cam + ca_fx cam * (- q2 p / q1 p).
Definition row_of (cam : RiCam) (p : Q3) : Q := ca_cy cam + ca_fy cam * (- q3 p / q1 p).
Definition range2 (p : Q3) : Q := q1 p * q1 p + q2 p * q2 p + q3 p * q3 p.
Definition coords (p : Pt) : Q3 := mkQ3 (px p) (py p) (pz p).
(** [p] as seen from the camera: as it is, or moved by a pose. *)
Definition seen_from (rel : option QPose) (p : Pt) : Q3 :=
  match rel with None => coords p | Some T => qcompose T (coords p) end.

(** The pixel a coordinate falls on, when the fractional part is cut towards zero. *)
Definition CutTo (n : nat) (u : Q) : Prop :=
  (inject_Z (Z.of_nat n) <= u /\ u < inject_Z (Z.of_nat n) + 1) \/ (n = 0%nat /\ -(1) < u /\ u < 1).
(** The pixel that contains a coordinate. *)
Definition Contains (n : nat) (u : Q) : Prop :=
  inject_Z (Z.of_nat n) <= u /\ u < inject_Z (Z.of_nat n) + 1.

Definition Lands (cam : RiCam) (q : Q3) (r c : nat) : Prop :=
  CutTo c (col_of cam q) /\ CutTo r (row_of cam q).
(** What a camera sees: in front of it, on the pixel that contains it. *)
Definition InView (cam : RiCam) (q : Q3) (r c : nat) : Prop :=
  0 < q1 q /\ Contains c (col_of cam q) /\ Contains r (row_of cam q).

(** Pixel (r,c) holds the smallest (squared) range of the points of [l] that are on it
    according to [On], 0 if there is none. *)
Definition Nearest (On : Q3 -> Prop) (rel : option QPose) (l : list Pt) (v : Q) : Prop :=
  ((forall p, In p l -> ~ On (seen_from rel p)) /\ v == 0)
  \/ ((exists p, In p l /\ On (seen_from rel p) /\ v == range2 (seen_from rel p))
      /\ forall p, In p l -> On (seen_from rel p) -> v <= range2 (seen_from rel p)).

(** The image of a point is defined: not on the camera plane, coordinates representable. *)
Definition Representable (u : Q) : Prop :=
  inject_Z (- 2 ^ 31) - 1 < u /\ u < inject_Z (2 ^ 31).
Definition Drawable (cam : RiCam) (q : Q3) : Prop :=
  ~ q1 q == 0 /\ Representable (col_of cam q) /\ Representable (row_of cam q).

(** erf(x / sqrt 2), as far as needed: *)
Definition StdPhi (phi : R -> R) : Prop :=
  phi 0%R = 0%R /\ (forall x, 0 <= x -> 0 <= phi x <= 1)%R /\ (forall x, 0 < x -> 0 < phi x)%R.

Definition same_point (a b : Q3) : Prop := q1 a == q1 b /\ q2 a == q2 b /\ q3 a == q3 b.
(** Rotation matrix: orthonormal rows and columns. *)
Definition Rigid (T : QPose) : Prop :=
  let '(mkQPose (mkQ3 a b c) (mkQ3 d e f) (mkQ3 g h i) _) := T in
  (a*a + b*b + c*c == 1 /\ d*d + e*e + f*f == 1 /\ g*g + h*h + i*i == 1
   /\ a*d + b*e + c*f == 0 /\ a*g + b*h + c*i == 0 /\ d*g + e*h + f*i == 0)
  /\ (a*a + d*d + g*g == 1 /\ b*b + e*e + h*h == 1 /\ c*c + f*f + i*i == 1
   /\ a*b + d*e + g*h == 0 /\ a*c + d*f + g*i == 0 /\ b*c + e*f + h*i == 0).
(** The local cloud, put at [T], is the global cloud. *)
Definition Registered (T : QPose) (global local : list Pt) : Prop :=
  Forall2 (fun g l => same_point (coords g) (qcompose T (coords l))) global local.
(** Some point of the cloud is on the image. *)
Definition Visible (cam : RiCam) (l : list Pt) : Prop :=
  exists p r c, In p l /\ (r < ca_nrows cam)%nat /\ (c < ca_ncols cam)%nat /\ Lands cam (coords p) r c.

(** [A] is the image of the cloud [l] seen from [rel]: the nearest range of each pixel. *)
Definition ImageOf (cam : RiCam) (rel : option QPose) (l : list Pt) (A : nat -> nat -> Q) : Prop :=
  forall r c, (r < ca_nrows cam)%nat -> (c < ca_ncols cam)%nat ->
    Nearest (fun q => Lands cam q r c) rel l (A r c).

(** Similarity of two (squared) ranges of a pixel; pixels seen in neither image do not count. *)
Definition pixel_weight (a b : Q) : R := if (Qeq_bool a 0 && Qeq_bool b 0)%bool then 0%R else 1%R.
Definition pixel_similarity (phi : R -> R) (e : RiEval) (a b : Q) : R :=
  match Qeq_bool a 0, Qeq_bool b 0 with
  | true, true => 0%R
  | true, false | false, true => (1 - phi (Q2R (re_penalty e)))%R
  | false, false => (1 - phi (Rabs ((sqrt (Q2R a) - sqrt (Q2R b)) / Q2R (re_sigma e))))%R
  end.
Definition over_pixels (cam : RiCam) (f : nat -> nat -> R) : R :=
  fold_right (fun rc s => (f (fst rc) (snd rc) + s)%R) 0%R
    (list_prod (seq 0 (ca_nrows cam)) (seq 0 (ca_ncols cam))).

(** ** Voxels *)
(** Cells and positions: every cell contains its own position; equal numbers give equal cells. *)
Definition GeoOK (ge : VGeom) : Prop :=
  (forall r c, ge_cell ge r (ge_pos ge r c) = c)
  /\ (forall r p q, same_point p q -> ge_cell ge r p = ge_cell ge r q).
Definition GridOK (g : VGrid) : Prop :=
  NoDup (map fst (vg_cells g)) /\ Forall (fun kv => 0 <= snd kv /\ snd kv <= 1) (vg_cells g).
(** Well observed: occupancy not within 0.01 of 1/2. *)
Definition Clear (x : Q) : Prop := x <= 49#100 \/ 51#100 <= x.
(** Occupancies [x] of a local voxel and [y] of a global voxel that are at the same place:
    the global voxel where the centre of the local one falls, or the other way round. *)
Definition Together (ge : VGeom) (g l : VGrid) (T : QPose) (x y : Q) : Prop :=
  (exists c d, In (c, x) (vg_cells l) /\ In (d, y) (vg_cells g)
     /\ d = ge_cell ge (vg_res g) (qcompose T (ge_pos ge (vg_res l) c)))
  \/ (exists c d, In (c, x) (vg_cells l) /\ In (d, y) (vg_cells g)
     /\ c = ge_cell ge (vg_res l) (qcompose (qinverse T) (ge_pos ge (vg_res g) d))).
Definition Compared (ge : VGeom) (g l : VGrid) (T : QPose) (x y : Q) : Prop :=
  Together ge g l T x y /\ Clear x /\ Clear y.
(** Both clearly free or both clearly occupied. *)
Definition Agree (x y : Q) : Prop := (x <= 1#4 /\ y <= 1#4) \/ (3#4 <= x /\ 3#4 <= y).
Definition Contradict (x y : Q) : Prop := (x <= 1#4 /\ 3#4 <= y) \/ (3#4 <= x /\ y <= 1#4).
