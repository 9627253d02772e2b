(** What FilterPoleDetector must do, in terms of the input cloud only. *)
From Coq Require Import String Qround.
From Verif Require Import Base FilterModel PoleModel.
Open Scope string_scope.
Open Scope Q_scope.
Open Scope list_scope.

(** Rounding towards zero. *)
Definition towards_zero (q : Q) : Z := if Qle_bool 0 q then Qfloor q else Qceiling q.

(** The column (cell of the horizontal grid) of a point. *)
Definition column (res : Q) (p : Pt) : Cell2 :=
  (towards_zero (px p / res), towards_zero (py p / res)).

Definition column_in_range (res : Q) (p : Pt) : Prop :=
  (-2147483648 < fst (column res p) < 2147483647)%Z
  /\ (-2147483648 < snd (column res p) < 2147483647)%Z.

(** The points of a column, in order, and their mean height. *)
Definition members (res : Q) (pts : list Pt) (k : Cell2) : list Pt :=
  filter (fun p => cell_eqb (column res p) k) pts.
Definition total_height (l : list Pt) : Q := fold_right (fun p a => pz p + a) 0 l.
Definition mean_height (res : Q) (pts : list Pt) (k : Cell2) : Q :=
  total_height (members res pts k) / inject_Z (Z.of_nat (List.length (members res pts k))).

Definition occupied (res : Q) (pts : list Pt) (k : Cell2) : Prop := exists p, In p pts /\ column res p = k.

(** One of the eight columns around [k]. *)
Definition next_to (k k' : Cell2) : Prop :=
  k' <> k /\ (Z.abs (fst k' - fst k) <= 1)%Z /\ (Z.abs (snd k' - snd k) <= 1)%Z.

(** Column [k] stands out of column [k']: higher on average by more than the minimum and
    less than the maximum relative height. *)
Definition stands_out (c : PoleCfg) (pts : list Pt) (k k' : Cell2) : Prop :=
  occupied (po_grid c) pts k'
  /\ mean_height (po_grid c) pts k' + po_minrel c < mean_height (po_grid c) pts k
  /\ mean_height (po_grid c) pts k < mean_height (po_grid c) pts k' + po_maxrel c.

(** A pole: it stands out of at least the required number of different neighbours. *)
Definition is_pole (c : PoleCfg) (pts : list Pt) (k : Cell2) : Prop :=
  exists ns, NoDup ns /\ (po_minchecks c <= List.length ns)%nat
    /\ forall k', In k' ns -> next_to k k' /\ stands_out c pts k k'.

(** Enough points to be judged. *)
Definition judged (c : PoleCfg) (pts : list Pt) (k : Cell2) : Prop :=
  (po_minpts c <= List.length (members (po_grid c) pts k))%nat.
